(** Theorems about the attributes and the width cache of the GeV vector-mediator classes (C87, C88). *)
From Coq Require Import String Reals Bool NArith Lia Lra List.
From Verif Require Import PyBase PyBaseFacts GevModel GevProofs.
Import ListNotations.
Local Open Scope R_scope.

(** * C87: widths after a history of assignments and calls *)

(** A program builds a VectorMediatorGeV, assigns attributes and asks for widths in any order.  The
    width of a channel is then that of a new object with the present attributes, provided the program
    never assigned an attribute that belongs to that channel alone. *)
Theorem width_as_fresh : forall K ffw P ops P' c kw,
  ends_with P ops P' -> spares (own c) ops ->
  snd (width_v_to K ffw (grun K ffw (new_gev P) ops) c kw) = snd (width_v_to K ffw (new_gev P') c kw).
Proof.
  intros K ffw P ops P' c kw He Hs.
  destruct (run_sane K ffw (new_gev P) ops (new_sane P)) as (_ & Hk & _).
  destruct (chan_dec c Pi0Pi0) as [->|Hp].
  - unfold width_v_to. rewrite (proj2 (Hk Pi0Pi0) eq_refl). reflexivity.
  - rewrite call_value; [|apply run_coh; [apply new_sane|apply new_coh|exact Hs]|exact Hp|exact Hk].
    rewrite call_value; [|apply new_coh|exact Hp|apply (new_sane P')].
    apply width_method_ext. now apply run_new.
Qed.
Print Assumptions width_as_fresh.

(** Likewise once the mediator mass or a quark coupling has been assigned, whatever happened before *)
Theorem width_as_fresh_after_reset : forall K ffw P l1 a x l2 P' c kw,
  ends_with P (l1 ++ Assign a x :: l2) P' -> shared a -> spares (own c) l2 ->
  snd (width_v_to K ffw (grun K ffw (new_gev P) (l1 ++ Assign a x :: l2)) c kw) =
  snd (width_v_to K ffw (new_gev P') c kw).
Proof.
  intros K ffw P l1 a x l2 P' c kw He Ha Hs.
  destruct (run_sane K ffw (new_gev P) (l1 ++ Assign a x :: l2) (new_sane P)) as (_ & Hk & _).
  assert (Hc : coh K ffw (grun K ffw (new_gev P) (l1 ++ Assign a x :: l2)) c).
  { replace (l1 ++ Assign a x :: l2) with ((l1 ++ [Assign a x]) ++ l2) by (rewrite <- app_assoc; reflexivity).
    rewrite run_app. apply run_coh; [apply run_sane, new_sane| |exact Hs].
    rewrite run_snoc. cbn [gstep]. unfold gset.
    destruct (run_sane K ffw (new_gev P) l1 (new_sane P)) as (Hcl & _ & _). rewrite Hcl.
    now apply shared_coh. }
  destruct (chan_dec c Pi0Pi0) as [->|Hp].
  - unfold width_v_to. rewrite (proj2 (Hk Pi0Pi0) eq_refl). reflexivity.
  - rewrite call_value by assumption.
    rewrite call_value; [|apply new_coh|exact Hp|apply (new_sane P')].
    apply width_method_ext. now apply run_new.
Qed.
Print Assumptions width_as_fresh_after_reset.

(** In particular the hadronic widths are always those of a new object *)
Corollary hadronic_width_as_fresh : forall K ffw P ops P' c kw,
  ends_with P ops P' -> ~ In c [EE; MuMu; VeVe; VmVm; VtVt; XX] ->
  snd (width_v_to K ffw (grun K ffw (new_gev P) ops) c kw) = snd (width_v_to K ffw (new_gev P') c kw).
Proof.
  intros K ffw P ops P' c kw He Hc. apply width_as_fresh; [exact He|].
  intros a x _ Ho. destruct c; cbn in Ho, Hc; tauto.
Qed.
Print Assumptions hadronic_width_as_fresh.

Definition hist : list gop := [Assign A_gvee 1; CallTotal; Assign A_gvuu 3; CallWidth PiPi None; Assign A_mv 5].
Definition pars1 : gpar := MkGpar 0 1 1 1 1 1 1 1 1 1 1.
Definition pars2 : gpar := MkGpar 0 5 1 3 1 1 1 1 1 1 1.
Example hist_ends : ends_with pars1 hist pars2 /\ spares (own MuMu) hist.
Proof.
  split.
  - assert (H : forall a l y op, (forall x, op <> Assign a x) -> last_value a (gfield pars1 a) l y ->
      last_value a (gfield pars1 a) (l ++ [op]) y) by (intros; apply lv_other; assumption).
    intros a _ _.
    change hist with ((((([] ++ [Assign A_gvee 1]) ++ [CallTotal]) ++ [Assign A_gvuu 3])
                        ++ [CallWidth PiPi None]) ++ [Assign A_mv 5]).
    destruct a; cbn [gfield pars1 pars2 g_mx g_mv g_xx g_uu g_dd g_ss g_ee g_mm g_ve g_vm g_vt];
      repeat first [apply lv_start | apply lv_this | apply lv_other; [intros ? E; discriminate E|]].
  - intros a x Hi Ho. cbn in Ho. subst a. cbn in Hi. intuition discriminate.
Qed.

(** The total width is that of a new object when only the mediator mass and the quark couplings are
    ever assigned *)
Theorem total_width_as_fresh : forall K ffw P ops P',
  ends_with P ops P' -> spares (fun a => ~ shared a) ops ->
  snd (width_v K ffw (grun K ffw (new_gev P) ops)) = snd (width_v K ffw (new_gev P')).
Proof.
  intros K ffw P ops P' He Hs.
  destruct (run_sane K ffw (new_gev P) ops (new_sane P)) as (_ & Hk & _).
  destruct (run_new K ffw P ops P' He) as [Hp Hq].
  unfold width_v, partial_widths.
  pose proof (calls_value K ffw (grun K ffw (new_gev P) ops) 50000%N partial_width_calls) as H1.
  pose proof (calls_value K ffw (new_gev P') 50000%N partial_width_calls) as H2.
  assert (Hn : ~ In Pi0Pi0 (map fst partial_width_calls)) by (cbn; intuition discriminate).
  assert (Ht : forall c t, In (c, t) partial_width_calls -> t = true -> default_npts c <> None).
  { intros c t Hi ->. cbn in Hi. repeat (destruct Hi as [E|Hi]; [inversion E; subst; discriminate|]). destruct Hi. }
  rewrite Hp, Hq in H1.
  destruct (call_widths K ffw (grun K ffw (new_gev P) ops) 50000%N partial_width_calls) as [o1 [d1|e1]];
  destruct (call_widths K ffw (new_gev P') 50000%N partial_width_calls) as [o2 [d2|e2]]; cbn [snd] in *.
  all: assert (E1 := fun A => H1 A Hk Hn Ht); assert (E2 := fun A => H2 A (proj1 (proj2 (new_sane P'))) Hn Ht).
  all: assert (C1 : forall c, In c (map fst partial_width_calls) -> coh K ffw (grun K ffw (new_gev P) ops) c).
  all: try (intros c Hi; apply run_coh; [apply new_sane|apply new_coh|];
            intros a x Ha Ho; apply (Hs a x Ha); intros [->|[->|[->| ->]]]; destruct c; cbn in Ho;
            intuition discriminate).
  all: specialize (E1 C1); specialize (E2 (fun c _ => new_coh K ffw _ _ _ c)); try discriminate.
  injection E1 as ->. injection E2 as ->. reflexivity.
Qed.
Print Assumptions total_width_as_fresh.

Example quark_history : spares (fun a => ~ shared a) [CallTotal; Assign A_gvuu 3; CallTotal; Assign A_mv 5].
Proof.
  intros a x Hi. cbn in Hi. intro H. apply H. unfold shared.
  destruct Hi as [E|[E|[E|[E|[]]]]]; inversion E; tauto.
Qed.

(** An assignment of an attribute that belongs to one channel succeeds and changes the attribute, but the
    width of the channel, if it was known, stays what it was *)
Theorem assignment_ignored : forall K ffw P ops a x c e,
  let o := grun K ffw (new_gev P) ops in
  own c a -> dget (go_cache o) (cname c) = Some e -> en_valid e = true -> en_kw e = None ->
  snd (gset K ffw o a x) = None /\ gfield (go_par (fst (gset K ffw o a x))) a = x /\
  snd (width_v_to K ffw (fst (gset K ffw o a x)) c None) = Ret (en_value e).
Proof.
  intros K ffw P ops a x c e o Ho He Hv Hkw.
  destruct (run_sane K ffw (new_gev P) ops (new_sane P)) as (Hcl & Hk & _). fold o in Hcl, Hk.
  apply own_chan in Ho. unfold gset. rewrite Hcl.
  destruct (base_set_class K ffw o a x Hk) as [_ Hx]. rewrite Hx.
  rewrite base_set_par by exact Hk.
  rewrite gfield_gstore_same by (intros ->; discriminate Ho).
  split; [reflexivity|]. split; [reflexivity|].
  destruct (own_set K ffw o a x c Ho Hk) as (v & H1 & ->). cbn [fst].
  unfold width_v_to at 1 in H1. cbn [with_gpar go_cache] in H1. rewrite He, Hv, Hkw in H1. cbn in H1.
  injection H1 as <-. unfold width_v_to. cbn [with_gcache with_gpar go_cache]. rewrite dget_dset_same. reflexivity.
Qed.
Print Assumptions assignment_ignored.

Lemma ff_width_massless g : width_v_to_f_f 1 0 g = g ^ 2 / (12 * PI).
Proof.
  unfold width_v_to_f_f. replace (- 4 * 0 ^ 2 + 1 ^ 2) with 1 by ring.
  rewrite Rmax_left by lra. rewrite sqrt_1. field. apply PI_neq0.
Qed.

Example ignored_case : forall K ffw,
  own XX A_gvxx /\
  dget (go_cache (grun K ffw (new_gev pars1) [CallWidth XX None])) (cname XX) =
    Some (MkEntry (width_v_to_f_f 1 0 1) true None).
Proof. intros K ffw. split; [left; reflexivity|reflexivity]. Qed.

(** So it is false that widths are always those of a new object: setting gvxx twice suffices.  The claim
    holds with the hypothesis of [width_as_fresh]. *)
Theorem width_as_fresh_refuted : forall K ffw, exists P ops P' c,
  ends_with P ops P' /\
  snd (width_v_to K ffw (grun K ffw (new_gev P) ops) c None) <> snd (width_v_to K ffw (new_gev P') c None).
Proof.
  intros K ffw.
  exists pars1, [Assign A_gvxx 2; Assign A_gvxx 3], (MkGpar 0 1 3 1 1 1 1 1 1 1 1), XX. split.
  - intros a _ _. change [Assign A_gvxx 2; Assign A_gvxx 3] with (([] ++ [Assign A_gvxx 2]) ++ [Assign A_gvxx 3]).
    destruct a; cbn [gfield pars1 g_mx g_mv g_xx g_uu g_dd g_ss g_ee g_mm g_ve g_vm g_vt];
      repeat first [apply lv_start | apply lv_this | apply lv_other; [intros ? E; discriminate E|]].
  - cbn -[width_v_to_f_f]. rewrite !ff_width_massless. intro H. injection H as H.
    assert (Hpi := PI_RGT_0).
    assert (E : 2 ^ 2 = 3 ^ 2); [|lra].
    apply (Rmult_eq_reg_r (/ (12 * PI))); [|apply Rinv_neq_0_compat; lra]. unfold Rdiv in H. lra.
Qed.
Print Assumptions width_as_fresh_refuted.

(** Once the total width has been asked for, it no longer follows the dark-matter mass and the couplings to
    dark matter and leptons, whatever they are set to, until the mediator mass or a quark coupling is set *)
Theorem total_width_blind : forall K ffw P ops w news,
  let o := grun K ffw (new_gev P) ops in
  snd (width_v K ffw o) = Ret w ->
  (forall a x, In (a, x) news -> exists c, own c a) ->
  snd (width_v K ffw (grun K ffw (fst (width_v K ffw o)) (map (fun ax => Assign (fst ax) (snd ax)) news)))
    = Ret w.
Proof.
  intros K ffw P ops w news o Hw Hn.
  assert (Hs : sane o) by apply run_sane, new_sane.
  assert (Hs1 : sane (fst (width_v K ffw o))) by exact (step_sane K ffw o CallTotal Hs).
  set (N := 50000%N).
  assert (Hd : exists d, snd (call_widths K ffw o N partial_width_calls) = Ret d /\
                         w = fold_left Rplus (dvals d) 0 /\
                         fst (width_v K ffw o) = fst (call_widths K ffw o N partial_width_calls)).
  { revert Hw. unfold width_v, partial_widths. fold N.
    destruct (call_widths K ffw o N partial_width_calls) as [o1 [d|e]]; cbn [snd fst]; intro H; [|discriminate].
    injection H as <-. exists d. repeat split. }
  destruct Hd as (d & Hd1 & -> & Hd2).
  assert (Hnd : NoDup (map fst partial_width_calls)).
  { cbn. repeat (constructor; [cbn; intuition discriminate|]). constructor. }
  destruct (calls_entries K ffw o N partial_width_calls d Hnd Hd1) as [_ Hent].
  assert (Hall : forall o', sane o' ->
     (forall k, dget (go_cache o') k = dget (go_cache (fst (width_v K ffw o))) k) ->
     forall k, dget (go_cache (grun K ffw o' (map (fun ax => Assign (fst ax) (snd ax)) news))) k =
               dget (go_cache (fst (width_v K ffw o))) k).
  { clear Hw. induction news as [|[a x] news IH]; intros o' Ho' Hk; [exact Hk|].
    cbn [map fst snd]. change (grun K ffw o' (?p :: ?q)) with (grun K ffw (gstep K ffw o' p) q).
    apply IH.
    - intros b y Hi. apply (Hn b y). now right.
    - now apply step_sane.
    - intro k. cbn [gstep]. unfold gset. destruct Ho' as (Hcl & Hkk & _). rewrite Hcl.
      destruct (Hn a x (or_introl eq_refl)) as [c Hc]. apply own_chan in Hc.
      destruct (own_set K ffw o' a x c Hc Hkk) as (v & H1 & ->). cbn [fst with_gcache go_cache].
      rewrite <- Hk. f_equal. apply dset_same_value.
      assert (Hcs : In (c, false) partial_width_calls).
      { destruct a; cbn in Hc; inversion Hc; cbn; tauto. }
      destruct (Hent c false Hcs) as (u & _ & Hu). rewrite <- Hd2, <- Hk in Hu. cbn [kw_of] in Hu.
      unfold width_v_to at 1 in H1. cbn [with_gpar go_cache] in H1. rewrite Hu in H1. cbn in H1.
      injection H1 as <-. exact Hu. }
  unfold width_v at 1, partial_widths. fold N.
  rewrite (calls_again K ffw o N partial_width_calls d); [reflexivity|exact Hnd|exact Hd1|].
  intros c _. rewrite <- Hd2. apply Hall; [exact Hs1|reflexivity].
Qed.
Print Assumptions total_width_blind.

(** The total width is always returned *)
Lemma total_returns K ffw P : exists w, snd (width_v K ffw (new_gev P)) = Ret w.
Proof.
  unfold width_v, partial_widths.
  pose proof (calls_value K ffw (new_gev P) 50000%N partial_width_calls) as H2.
  assert (Hn : ~ In Pi0Pi0 (map fst partial_width_calls)) by (cbn; intuition discriminate).
  assert (Ht : forall c t, In (c, t) partial_width_calls -> t = true -> default_npts c <> None).
  { intros c t Hi ->. cbn in Hi. repeat (destruct Hi as [E|Hi]; [inversion E; subst; discriminate|]). destruct Hi. }
  specialize (H2 (fun c _ => new_coh K ffw _ _ _ c) (proj1 (proj2 (new_sane P))) Hn Ht).
  destruct (call_widths K ffw (new_gev P) 50000%N partial_width_calls) as [o1 [d1|e1]]; cbn [snd] in *.
  - eexists. reflexivity.
  - discriminate.
Qed.

Example blind_case : forall K ffw, exists w,
  snd (width_v K ffw (grun K ffw (new_gev pars1) [])) = Ret w /\
  forall a x, In (a, x) [(A_mx, 7); (A_gvxx, 2); (A_gvee, 0)] -> exists c, own c a.
Proof.
  intros K ffw. destruct (total_returns K ffw pars1) as [w Hw]. exists w. split; [exact Hw|].
  intros a x [E|[E|[E|[]]]]; inversion E; subst; [exists XX; right|exists XX; left|exists EE]; reflexivity.
Qed.

(** Asking for a width is not harmless: a program that asks and one that does not disagree afterwards *)
Theorem queries_harmless_refuted : forall K ffw, exists P c x,
  snd (width_v_to K ffw (grun K ffw (new_gev P) [CallTotal; Assign A_gvxx x]) c None) <>
  snd (width_v_to K ffw (grun K ffw (new_gev P) [Assign A_gvxx x]) c None).
Proof.
  intros K ffw. exists pars1, XX, 2.
  destruct (run_sane K ffw (new_gev pars1) [CallTotal] (new_sane pars1)) as (Hcl & Hk & _).
  assert (Hd : exists d, snd (call_widths K ffw (new_gev pars1) 50000%N partial_width_calls) = Ret d).
  { destruct (total_returns K ffw pars1) as [w Hw]. revert Hw. unfold width_v, partial_widths.
    destruct (call_widths K ffw (new_gev pars1) 50000%N partial_width_calls) as [o1 [d|e]]; cbn [snd];
      intro H; [exists d; reflexivity|discriminate]. }
  destruct Hd as [d Hd].
  assert (Hnd : NoDup (map fst partial_width_calls)).
  { cbn. repeat (constructor; [cbn; intuition discriminate|]). constructor. }
  destruct (calls_entries K ffw (new_gev pars1) 50000%N partial_width_calls d Hnd Hd) as [_ Hent].
  destruct (Hent XX false) as (u & _ & Hu); [cbn; tauto|]. cbn [kw_of] in Hu.
  assert (Hrun : go_cache (grun K ffw (new_gev pars1) [CallTotal]) =
                 go_cache (fst (call_widths K ffw (new_gev pars1) 50000%N partial_width_calls))).
  { unfold grun. cbn [fold_left gstep]. unfold width_v, partial_widths.
    destruct (call_widths K ffw (new_gev pars1) 50000%N partial_width_calls) as [o1 [?|?]]; reflexivity. }
  rewrite <- Hrun in Hu.
  pose proof (assignment_ignored K ffw pars1 [CallTotal] A_gvxx 2 XX (MkEntry u true None)
                (or_introl eq_refl) Hu eq_refl eq_refl) as (_ & _ & H3).
  change [CallTotal; Assign A_gvxx 2] with ([CallTotal] ++ [Assign A_gvxx 2]). rewrite run_snoc.
  unfold gstep at 1. rewrite H3. cbn [en_value].
  assert (Hu2 : u = width_v_to_f_f 1 0 1).
  { pose proof (run_coh K ffw (new_gev pars1) [CallTotal] XX (new_sane pars1) (new_coh K ffw _ _ _ XX)) as Hc.
    assert (Hsp : spares (own XX) [CallTotal]) by (intros a y [E|[]]; discriminate E).
    specialize (Hc Hsp _ Hu eq_refl). cbn [en_kw en_value] in Hc.
    assert (E : width_method K ffw (grun K ffw (new_gev pars1) [CallTotal]) XX None =
                width_method K ffw (new_gev pars1) XX None).
    { apply width_method_ext. apply (run_new K ffw pars1 [CallTotal]).
      intros a _ _. change [CallTotal] with ([] ++ [CallTotal]).
      apply lv_other; [intros ? E; discriminate E|apply lv_start]. }
    rewrite E in Hc. cbn -[width_v_to_f_f] in Hc. injection Hc as <-. reflexivity. }
  rewrite Hu2. cbn -[width_v_to_f_f]. rewrite !ff_width_massless. intro H. injection H as H.
  assert (Hpi := PI_RGT_0).
  assert (E : 1 ^ 2 = 2 ^ 2); [|lra].
  apply (Rmult_eq_reg_r (/ (12 * PI))); [|apply Rinv_neq_0_compat; lra]. unfold Rdiv in H. lra.
Qed.
Print Assumptions queries_harmless_refuted.

(** The width into two neutral pions cannot be asked for: the method always raises *)
Theorem pi0_pi0_width_raises : forall K ffw P ops kw,
  width_v_to K ffw (grun K ffw (new_gev P) ops) Pi0Pi0 kw =
  (grun K ffw (new_gev P) ops, Raise AssertionError).
Proof.
  intros K ffw P ops kw. destruct (run_sane K ffw (new_gev P) ops (new_sane P)) as (_ & Hk & _).
  unfold width_v_to. rewrite (proj2 (Hk Pi0Pi0) eq_refl). reflexivity.
Qed.
Print Assumptions pi0_pi0_width_raises.

(** Every other width method always returns a number *)
Theorem widths_return : forall K ffw P ops c,
  (exists v, snd (width_v_to K ffw (grun K ffw (new_gev P) ops) c None) = Ret v) <-> c <> Pi0Pi0.
Proof.
  intros K ffw P ops c. destruct (run_sane K ffw (new_gev P) ops (new_sane P)) as (_ & Hk & _). split.
  - intros [v Hv] ->. rewrite pi0_pi0_width_raises in Hv. discriminate.
  - intro Hc. unfold width_v_to.
    destruct (dget (go_cache (grun K ffw (new_gev P) ops)) (cname c)) as [e|] eqn:E; [|apply Hk in E; contradiction].
    destruct (andb _ _); [eexists; reflexivity|]. unfold width_method.
    destruct (default_npts c); eexists; reflexivity.
Qed.
Print Assumptions widths_return.

(** * C88: the derived models *)

(** The electric charges in units of the proton's *)
Definition charge (a : gattr) : R :=
  match a with
  | A_gvuu => 2 / 3
  | A_gvdd | A_gvss => - (1 / 3)
  | A_gvee | A_gvmumu => - 1
  | _ => 0
  end.

Definition sm_coupling (a : gattr) : Prop :=
  In a [A_gvuu; A_gvdd; A_gvss; A_gvee; A_gvmumu; A_gvveve; A_gvvmvm; A_gvvtvt].

(** Kinetic mixing couples to electric charge, with strength minus the documented one *)
Theorem kinetic_mixing_couplings : forall K mx mv gvxx eps a, sm_coupling a ->
  gfield (go_par (new_kinetic_mixing K mx mv gvxx eps)) a = - (charge a * k_qe K * eps).
Proof.
  intros K mx mv gvxx eps a Ha. unfold sm_coupling in Ha. cbn in Ha.
  repeat (destruct Ha as [<-|Ha]; [cbn; field|]). destruct Ha.
Qed.
Print Assumptions kinetic_mixing_couplings.
Example sm_coupling_ex : sm_coupling A_gvdd. Proof. cbn. tauto. Qed.

(** The documented couplings, gvuu = Qu qe eps and so on, are not those of the object *)
Theorem documented_couplings_refuted : exists K mx mv gvxx eps a,
  sm_coupling a /\
  gfield (go_par (new_kinetic_mixing K mx mv gvxx eps)) a <> charge a * k_qe K * eps.
Proof.
  exists (MkGconsts 0 0 0 0 1), 1, 1, 1, 1, A_gvuu. split; [left; reflexivity|]. cbn. lra.
Qed.
Print Assumptions documented_couplings_refuted.

(** The sign is of no consequence for the widths if the form factors do not see an overall sign *)
Theorem coupling_sign_harmless : forall K ffw mx mv gvxx eps P cp c n,
  (forall c m u d s k, ffw c m (- u, - d, - s) k = ffw c m (u, d, s) k) ->
  (forall a, sm_coupling a -> gfield P a = charge a * k_qe K * eps) ->
  g_mx P = mx -> g_mv P = mv -> g_xx P = gvxx -> cp = (g_uu P, g_dd P, g_ss P) ->
  width_body K ffw P cp c n =
  width_body K ffw (go_par (new_kinetic_mixing K mx mv gvxx eps))
    (go_coup (new_kinetic_mixing K mx mv gvxx eps)) c n.
Proof.
  intros K ffw mx mv gvxx eps P cp c n Hf Hp H1 H2 H3 ->.
  assert (Hu := Hp A_gvuu ltac:(cbn; tauto)). assert (Hd := Hp A_gvdd ltac:(cbn; tauto)).
  assert (Hs := Hp A_gvss ltac:(cbn; tauto)). assert (He := Hp A_gvee ltac:(cbn; tauto)).
  assert (Hm := Hp A_gvmumu ltac:(cbn; tauto)). assert (Hve := Hp A_gvveve ltac:(cbn; tauto)).
  assert (Hvm := Hp A_gvvmvm ltac:(cbn; tauto)). assert (Hvt := Hp A_gvvtvt ltac:(cbn; tauto)).
  cbn [gfield charge] in *.
  assert (Hff : forall m g, width_v_to_f_f mv m (- g) = width_v_to_f_f mv m g).
  { intros m g. unfold width_v_to_f_f. replace ((- g) ^ 2) with (g ^ 2) by ring. reflexivity. }
  assert (Hcp : forall c k, ffw c mv (g_uu P, g_dd P, g_ss P) k =
     ffw c mv (- (2 / 3) * eps * k_qe K, - (-1 / 3) * eps * k_qe K, - (-1 / 3) * eps * k_qe K) k).
  { intros c' k. rewrite <- Hf. rewrite Hu, Hd, Hs. f_equal. f_equal; [f_equal|]; field. }
  unfold new_kinetic_mixing, new_object.
  destruct c; cbn [width_body go_par go_coup g_mx g_mv g_xx g_uu g_dd g_ss g_ee g_mm g_ve g_vm g_vt];
    rewrite ?H1, ?H2, ?H3, ?Hcp; try reflexivity.
  - rewrite He, <- Hff. f_equal. ring.
  - rewrite Hm, <- Hff. f_equal. ring.
  - rewrite Hve. do 2 f_equal. ring.
  - rewrite Hvm. do 2 f_equal. ring.
  - rewrite Hvt. do 2 f_equal. ring.
Qed.
Print Assumptions coupling_sign_harmless.
Example sign_case : forall K eps, exists P, forall a, sm_coupling a -> gfield P a = charge a * k_qe K * eps.
Proof.
  intros K eps. exists (MkGpar 1 1 1 (2 / 3 * k_qe K * eps) (- (1 / 3) * k_qe K * eps) (- (1 / 3) * k_qe K * eps)
    (- 1 * k_qe K * eps) (- 1 * k_qe K * eps) 0 0 0).
  intros a Ha. unfold sm_coupling in Ha. cbn in Ha.
  repeat (destruct Ha as [<-|Ha]; [cbn; ring|]). destruct Ha.
Qed.

(** B minus L: a third for the quarks, minus one for the leptons, times the coupling *)
Theorem bl_couplings : forall mx mv gvxx g a, sm_coupling a ->
  gfield (go_par (new_bl mx mv gvxx g)) a =
  (match a with A_gvuu | A_gvdd | A_gvss => 1 / 3 | _ => - 1 end) * g.
Proof.
  intros mx mv gvxx g a Ha. unfold sm_coupling in Ha. cbn in Ha.
  repeat (destruct Ha as [<-|Ha]; [cbn; field|]). destruct Ha.
Qed.
Print Assumptions bl_couplings.

(** The couplings of the derived models cannot be assigned, and trying leaves the object alone *)
Theorem derived_couplings_fixed : forall K ffw o a x,
  go_class o <> VectorMediatorGeV -> sm_coupling a ->
  gset K ffw o a x = (o, Some (AttributeError (attr_name a))).
Proof.
  intros K ffw o a x Hc Ha. unfold gset. unfold sm_coupling in Ha. cbn in Ha.
  destruct (go_class o); [contradiction| |];
    (repeat (destruct Ha as [<-|Ha]; [reflexivity|]); destruct Ha).
Qed.
Print Assumptions derived_couplings_fixed.
Example derived_ex : forall K, go_class (new_kinetic_mixing K 1 1 1 1) <> VectorMediatorGeV.
Proof. intros K H. discriminate H. Qed.

(** Assigning eps never works: it raises, eps reads as the new value and every coupling and width is the
    old one *)
Theorem eps_assignment_fails : forall K ffw o x, go_class o = KineticMixingGeV ->
  snd (gset K ffw o A_eps x) = Some (AttributeError "gvuu") /\
  go_charge (fst (gset K ffw o A_eps x)) = x /\
  go_par (fst (gset K ffw o A_eps x)) = go_par o /\
  go_coup (fst (gset K ffw o A_eps x)) = go_coup o /\
  forall c kw, snd (width_v_to K ffw (fst (gset K ffw o A_eps x)) c kw) = snd (width_v_to K ffw o c kw).
Proof.
  intros K ffw o x Hc. unfold gset. rewrite Hc. cbn [hidden fst snd with_charge go_charge go_par go_coup].
  repeat split. intros c kw. unfold width_v_to. cbn [with_charge go_cache].
  destruct (dget (go_cache o) (cname c)) as [e|]; [|reflexivity].
  destruct (andb _ _); [reflexivity|].
  assert (E : width_method K ffw (with_charge o x) c kw = width_method K ffw o c kw)
    by (apply width_method_ext; split; reflexivity).
  rewrite E. destruct (width_method K ffw o c kw); reflexivity.
Qed.
Print Assumptions eps_assignment_fails.

(** Hence the object after [m.eps = x] is not the one built with x *)
Theorem eps_assignment_refuted : exists K mx mv gvxx eps x, forall ffw,
  go_par (fst (gset K ffw (new_kinetic_mixing K mx mv gvxx eps) A_eps x)) <>
  go_par (new_kinetic_mixing K mx mv gvxx x) /\
  go_charge (fst (gset K ffw (new_kinetic_mixing K mx mv gvxx eps) A_eps x)) = x.
Proof.
  exists (MkGconsts 0 0 0 0 1), 1, 1, 1, 1, 2. intro ffw. split; [|reflexivity].
  intro H. apply (f_equal (fun P => gfield P A_gvee)) in H. cbn in H. lra.
Qed.
Print Assumptions eps_assignment_refuted.

(** Assigning g of the B-L model changes the couplings that are read ... *)
Theorem bl_assignment_attributes : forall K ffw o g x a,
  go_class o = BLGeV -> sm_coupling a ->
  snd (gset K ffw o A_g x) = None /\
  go_charge (fst (gset K ffw o A_g x)) = x /\
  gfield (go_par (fst (gset K ffw o A_g x))) a =
  gfield (go_par (new_bl (g_mx (go_par o)) (g_mv (go_par o)) g x)) a.
Proof.
  intros K ffw o g x a Hc Ha. unfold gset. rewrite Hc. cbn [hidden].
  unfold sm_coupling in Ha. cbn in Ha.
  repeat (destruct Ha as [<-|Ha]; [repeat split|]). destruct Ha.
Qed.
Print Assumptions bl_assignment_attributes.
Example bl_case : go_class (new_bl 1 1 1 1) = BLGeV /\ sm_coupling A_gvuu.
Proof. split; [reflexivity|left; reflexivity]. Qed.

(** ... but the form factors keep the couplings of the constructor, whatever the program assigns, so that
    no hadronic width ever sees the new coupling *)
Lemma call_coup K ffw o c kw : go_coup (fst (width_v_to K ffw o c kw)) = go_coup o /\
  go_class (fst (width_v_to K ffw o c kw)) = go_class o.
Proof. destruct (call_pars K ffw o c kw) as ((_ & H) & H1 & _). split; assumption. Qed.

Lemma bl_step_coup K ffw o op : go_class o = BLGeV ->
  go_coup (gstep K ffw o op) = go_coup o /\ go_class (gstep K ffw o op) = BLGeV.
Proof.
  intro Hc. destruct op as [a x|c kw|n|]; cbn [gstep].
  - unfold gset. rewrite Hc. destruct (hidden a) eqn:Hh; [split; [reflexivity|exact Hc]|].
    destruct a; try discriminate Hh; cbn [base_set]; try (split; [reflexivity|exact Hc]).
    + unfold store_mx. destruct (call_coup K ffw (with_gpar o (gstore (go_par o) A_mx x)) XX None) as [E1 E2].
      destruct (width_v_to K ffw (with_gpar o (gstore (go_par o) A_mx x)) XX None) as [o1 [v|e]]; cbn [fst] in *.
      * destruct (dget (go_cache o1) "x x"); cbn [fst with_gcache go_coup go_class]; rewrite E1, E2; split; try reflexivity; exact Hc.
      * rewrite E1, E2; split; [reflexivity|exact Hc].
    + unfold store_and_update.
      destruct (call_coup K ffw (with_gpar o (gstore (go_par o) A_gvxx x)) XX None) as [E1 E2].
      destruct (width_v_to K ffw (with_gpar o (gstore (go_par o) A_gvxx x)) XX None) as [o1 [v|e]]; cbn [fst] in *.
      * unfold update_width_cache. destruct (dget (go_cache o1) (cname XX)); cbn [fst with_gcache go_coup go_class];
          rewrite E1, E2; split; try reflexivity; exact Hc.
      * rewrite E1, E2; split; [reflexivity|exact Hc].
  - destruct (call_pars K ffw o c kw) as ((_ & H) & H1 & _). split; congruence.
  - destruct (calls_pars K ffw o n partial_width_calls) as ((_ & H) & H1 & _). split; [exact H|]. 
    unfold partial_widths. congruence.
  - unfold width_v, partial_widths.
    destruct (calls_pars K ffw o 50000%N partial_width_calls) as ((_ & H) & H1 & _).
    destruct (call_widths K ffw o 50000%N partial_width_calls) as [o1 [d|e]]; cbn [fst] in *; split; congruence.
Qed.

Theorem bl_hadrons_keep_first_coupling : forall K ffw mx mv gvxx g ops,
  go_coup (grun K ffw (new_bl mx mv gvxx g) ops) = (g / 3, g / 3, g / 3).
Proof.
  intros K ffw mx mv gvxx g ops.
  assert (H : go_coup (grun K ffw (new_bl mx mv gvxx g) ops) = go_coup (new_bl mx mv gvxx g) /\
              go_class (grun K ffw (new_bl mx mv gvxx g) ops) = BLGeV).
  { induction ops as [|op ops [IH1 IH2]] using rev_ind; [split; reflexivity|]. rewrite run_snoc.
    destruct (bl_step_coup K ffw _ op IH2) as [E1 E2]. split; congruence. }
  rewrite (proj1 H). cbn. unfold Rdiv. rewrite !Rmult_1_l. reflexivity.
Qed.
Print Assumptions bl_hadrons_keep_first_coupling.

(** So the object after [m.g = x] does not have the widths of the one built with x, not even after the
    cache has been reset by assigning the mediator mass *)
Theorem bl_assignment_refuted : forall K, exists ffw mx mv gvxx g x c,
  snd (width_v_to K ffw (grun K ffw (new_bl mx mv gvxx g) [Assign A_g x; Assign A_mv mv]) c None) <>
  snd (width_v_to K ffw (new_bl mx mv gvxx x) c None).
Proof.
  intro K. exists (fun _ _ cp _ => (fst (fst cp)) ^ 2), 1, 1, 1, 3, 6, PiPi.
  cbn. intro H. injection H as H. lra.
Qed.
Print Assumptions bl_assignment_refuted.

(** Without such a reset the leptonic widths are stale too *)
Theorem bl_assignment_leptons_refuted : forall K ffw, exists mx mv gvxx g x c,
  In c [VeVe; VmVm; VtVt] /\
  snd (width_v_to K ffw (grun K ffw (new_bl mx mv gvxx g) [CallWidth c None; Assign A_g x]) c None) <>
  snd (width_v_to K ffw (new_bl mx mv gvxx x) c None).
Proof.
  intros K ffw. exists 1, 1, 1, 1, 2, VeVe. split; [left; reflexivity|].
  cbn -[width_v_to_f_f]. rewrite !ff_width_massless. intro H. injection H as H.
  assert (Hpi := PI_RGT_0).
  assert (E : (1 * -1) ^ 2 = (2 * -1) ^ 2); [|lra].
  apply (Rmult_eq_reg_r (/ (12 * PI))); [|apply Rinv_neq_0_compat; lra]. unfold Rdiv in H. lra.
Qed.
Print Assumptions bl_assignment_leptons_refuted.
