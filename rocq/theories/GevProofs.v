(** Specification vocabulary and lemmas about the width cache of the GeV vector mediator. *)
From Coq Require Import String Reals Bool NArith Lia Lra List.
From Verif Require Import PyBase PyBaseFacts GevModel.
Import ListNotations.
Local Open Scope R_scope.

(** * Specification *)

(** The value an attribute reads as *)
Definition gfield (P : gpar) (a : gattr) : R :=
  match a with
  | A_mx => g_mx P | A_mv => g_mv P | A_gvxx => g_xx P | A_gvuu => g_uu P | A_gvdd => g_dd P
  | A_gvss => g_ss P | A_gvee => g_ee P | A_gvmumu => g_mm P | A_gvveve => g_ve P | A_gvvmvm => g_vm P
  | A_gvvtvt => g_vt P | A_eps => 0 | A_g => 0
  end.

(** The value last assigned to an attribute, or the one it started with *)
Inductive last_value (a : gattr) (start : R) : list gop -> R -> Prop :=
| lv_start : last_value a start [] start
| lv_this ops x : last_value a start (ops ++ [Assign a x]) x
| lv_other ops op v : (forall x, op <> Assign a x) -> last_value a start ops v ->
    last_value a start (ops ++ [op]) v.

(** [P'] has, for every attribute, the last value assigned in [ops] *)
Definition ends_with (P : gpar) (ops : list gop) (P' : gpar) : Prop :=
  forall a, a <> A_eps -> a <> A_g -> last_value a (gfield P a) ops (gfield P' a).

(** The attributes, besides the mediator mass and the quark couplings, that the width of a channel
    depends on *)
Definition own (c : chan) (a : gattr) : Prop :=
  match c with
  | EE => a = A_gvee
  | MuMu => a = A_gvmumu
  | VeVe => a = A_gvveve
  | VmVm => a = A_gvvmvm
  | VtVt => a = A_gvvtvt
  | XX => a = A_gvxx \/ a = A_mx
  | _ => False
  end.

(** [ops] assigns no attribute in [Q] *)
Definition spares (Q : gattr -> Prop) (ops : list gop) : Prop :=
  forall a x, In (Assign a x) ops -> ~ Q a.

(** Mediator mass and quark couplings *)
Definition shared (a : gattr) : Prop := a = A_mv \/ a = A_gvuu \/ a = A_gvdd \/ a = A_gvss.

(** * Lemmas *)

Lemma cname_inj : forall c c', cname c = cname c' -> c = c'.
Proof. intros c c'; destruct c, c'; intro H; try reflexivity; discriminate H. Qed.

Lemma chan_dec : forall c c' : chan, {c = c'} + {c <> c'}.
Proof. decide equality. Defined.

Lemma dset_same_value {A} (d : dict A) k v : dget d k = Some v -> dset d k v = d.
Proof.
  induction d as [|[k' v'] r IH]; cbn [dget dset]; intro H; [discriminate|].
  destruct (String.eqb_spec k' k); [injection H as ->; reflexivity|]. f_equal. apply IH, H.
Qed.

Section Facts.
Variable K : gconsts.
Variable ffw : chan -> R -> R * R * R -> N -> R.
Notation width_v_to := (width_v_to K ffw).
Notation width_method := (width_method K ffw).
Notation width_body := (width_body K ffw).
Notation call_widths := (call_widths K ffw).
Notation gset := (gset K ffw).
Notation grun := (grun K ffw).

(** The entry of channel [c], when valid, holds what the method would return now *)
Definition coh (o : gobj) (c : chan) : Prop :=
  forall e, dget (go_cache o) (cname c) = Some e -> en_valid e = true ->
    width_method o c (en_kw e) = Ret (en_value e).

(** every channel but "pi0 pi0" has an entry *)
Definition keyed (o : gobj) : Prop :=
  forall c, dget (go_cache o) (cname c) = None <-> c = Pi0Pi0.

Definition same_pars (o o' : gobj) : Prop := go_par o = go_par o' /\ go_coup o = go_coup o'.

Lemma kw_eqb_spec a b : kw_eqb a b = true <-> a = b.
Proof.
  destruct a as [n|], b as [m|]; cbn [kw_eqb]; split; intro H; try discriminate; try reflexivity.
  - apply N.eqb_eq in H. now subst.
  - injection H as ->. apply N.eqb_refl.
Qed.

Lemma width_method_ext o o' c kw : same_pars o o' -> width_method o c kw = width_method o' c kw.
Proof. intros [Hp Hc]. unfold GevModel.width_method. rewrite Hp, Hc. reflexivity. Qed.

(** A call returns what the method returns, given coherence *)
Lemma call_value o c kw : coh o c -> c <> Pi0Pi0 -> keyed o ->
  snd (width_v_to o c kw) = width_method o c kw.
Proof.
  intros Hc Hp Hk. unfold GevModel.width_v_to.
  destruct (dget (go_cache o) (cname c)) as [e|] eqn:E; [|apply Hk in E; contradiction].
  destruct (en_valid e) eqn:Ev; cbn [andb].
  - destruct (kw_eqb (en_kw e) kw) eqn:Ek.
    + apply kw_eqb_spec in Ek. cbn [snd]. rewrite <- Ek. symmetry. now apply Hc.
    + destruct (width_method o c kw); reflexivity.
  - destruct (width_method o c kw); reflexivity.
Qed.

Lemma call_pars o c kw : same_pars (fst (width_v_to o c kw)) o /\
  go_class (fst (width_v_to o c kw)) = go_class o /\ go_charge (fst (width_v_to o c kw)) = go_charge o.
Proof.
  unfold GevModel.width_v_to. destruct (dget (go_cache o) (cname c)) as [e|]; [|now cbv].
  destruct (andb _ _); [now cbv|]. destruct (width_method o c kw); now cbv.
Qed.

Lemma call_other o c c' kw : c' <> c ->
  dget (go_cache (fst (width_v_to o c kw))) (cname c') = dget (go_cache o) (cname c').
Proof.
  intro H. unfold GevModel.width_v_to. destruct (dget (go_cache o) (cname c)) as [e|]; [|reflexivity].
  destruct (andb _ _); [reflexivity|]. destruct (width_method o c kw); [|reflexivity].
  cbn [fst with_gcache go_cache]. apply dget_dset_other. intro E. apply H. symmetry. now apply cname_inj.
Qed.

Lemma call_entry o c kw v : snd (width_v_to o c kw) = Ret v ->
  dget (go_cache (fst (width_v_to o c kw))) (cname c) = Some (MkEntry v true kw).
Proof.
  unfold GevModel.width_v_to. destruct (dget (go_cache o) (cname c)) as [e|] eqn:E; [|discriminate].
  destruct (en_valid e) eqn:Ev; cbn [andb].
  - destruct (kw_eqb (en_kw e) kw) eqn:Ek.
    + apply kw_eqb_spec in Ek. cbn [fst snd]. intro H. injection H as <-. rewrite E.
      destruct e as [a b d]; cbn in *; congruence.
    + destruct (width_method o c kw); cbn [fst snd]; intro H; [|discriminate].
      injection H as <-. cbn [with_gcache go_cache]. apply dget_dset_same.
  - destruct (width_method o c kw); cbn [fst snd]; intro H; [|discriminate].
    injection H as <-. cbn [with_gcache go_cache]. apply dget_dset_same.
Qed.

Lemma call_keyed o c kw : keyed o -> keyed (fst (width_v_to o c kw)).
Proof.
  intros Hk c'. destruct (chan_dec c' c) as [->|H]; [|rewrite call_other by exact H; apply Hk].
  unfold GevModel.width_v_to. destruct (dget (go_cache o) (cname c)) as [e|] eqn:E.
  - assert (c <> Pi0Pi0) by (intro H; apply Hk in H; congruence).
    destruct (andb _ _); [cbn [fst]; rewrite E; split; congruence|].
    destruct (width_method o c kw); cbn [fst].
    + cbn [with_gcache go_cache]. rewrite dget_dset_same. split; congruence.
    + rewrite E; split; congruence.
  - cbn [fst]. apply Hk.
Qed.

Lemma call_coh o c c' kw : coh o c' -> coh (fst (width_v_to o c kw)) c'.
Proof.
  intro H. destruct (call_pars o c kw) as (Hp & _).
  intros e He Hv. rewrite (width_method_ext _ o) by exact Hp.
  destruct (chan_dec c' c) as [->|Hn].
  - unfold GevModel.width_v_to in He. destruct (dget (go_cache o) (cname c)) as [e0|] eqn:E.
    + destruct (andb _ _); cbn [fst] in He; [rewrite E in He; injection He as <-; now apply H|].
      destruct (width_method o c kw) eqn:Em; cbn [fst] in He.
      * cbn [with_gcache go_cache] in He. rewrite dget_dset_same in He. injection He as <-. exact Em.
      * rewrite E in He; injection He as <-; now apply H.
    + cbn [fst] in He. congruence.
  - rewrite call_other in He by exact Hn. now apply H.
Qed.

(** Lists of calls *)
Definition kw_of (n : N) (takes : bool) : option N := if takes then Some n else None.

Lemma calls_pars o n cs : same_pars (fst (call_widths o n cs)) o /\
  go_class (fst (call_widths o n cs)) = go_class o /\ go_charge (fst (call_widths o n cs)) = go_charge o.
Proof.
  revert o; induction cs as [|[c t] r IH]; intro o; cbn [GevModel.call_widths]; [now cbv|].
  change (if t then Some n else None) with (kw_of n t).
  destruct (call_pars o c (kw_of n t)) as ((H1 & H2) & H3 & H4).
  destruct (width_v_to o c (kw_of n t)) as [o1 [v|x]] eqn:E; cbn [fst] in *.
  - destruct (IH o1) as ((I1 & I2) & I3 & I4). destruct (call_widths o1 n r) as [o2 [d|x]]; cbn [fst] in *;
      repeat split; congruence.
  - repeat split; congruence.
Qed.

Lemma calls_keyed o n cs : keyed o -> keyed (fst (call_widths o n cs)).
Proof.
  revert o; induction cs as [|[c t] r IH]; intros o Hk; cbn [GevModel.call_widths]; [exact Hk|].
  change (if t then Some n else None) with (kw_of n t).
  pose proof (call_keyed o c (kw_of n t) Hk) as H1.
  destruct (width_v_to o c (kw_of n t)) as [o1 [v|x]]; cbn [fst] in *; [|exact H1].
  specialize (IH o1 H1). destruct (call_widths o1 n r) as [o2 [d|x]]; exact IH.
Qed.

Lemma calls_coh o n cs c' : coh o c' -> coh (fst (call_widths o n cs)) c'.
Proof.
  revert o; induction cs as [|[c t] r IH]; intros o Hk; cbn [GevModel.call_widths]; [exact Hk|].
  change (if t then Some n else None) with (kw_of n t).
  pose proof (call_coh o c c' (kw_of n t) Hk) as H1.
  destruct (width_v_to o c (kw_of n t)) as [o1 [v|x]]; cbn [fst] in *; [|exact H1].
  specialize (IH o1 H1). destruct (call_widths o1 n r) as [o2 [d|x]]; exact IH.
Qed.

Lemma calls_other o n cs c' : ~ In c' (map fst cs) ->
  dget (go_cache (fst (call_widths o n cs))) (cname c') = dget (go_cache o) (cname c').
Proof.
  revert o; induction cs as [|[c t] r IH]; intros o Hk; cbn [GevModel.call_widths]; [reflexivity|].
  change (if t then Some n else None) with (kw_of n t).
  assert (Hn : c' <> c) by (intro E; apply Hk; left; symmetry; exact E).
  pose proof (call_other o c c' (kw_of n t) Hn) as H1.
  destruct (width_v_to o c (kw_of n t)) as [o1 [v|x]]; cbn [fst] in *; [|exact H1].
  assert (Hr : ~ In c' (map fst r)) by (intro E; apply Hk; right; exact E).
  specialize (IH o1 Hr). destruct (call_widths o1 n r) as [o2 [d|x]]; cbn [fst] in *; congruence.
Qed.

(** The value of each channel of a list of calls *)
Lemma calls_value o n cs : (forall c, In c (map fst cs) -> coh o c) -> keyed o -> ~ In Pi0Pi0 (map fst cs) ->
  (forall c t, In (c, t) cs -> t = true -> default_npts c <> None) ->
  snd (call_widths o n cs) =
  Ret (map (fun ct : chan * bool => (cname (fst ct),
                       width_body (go_par o) (go_coup o) (fst ct)
                         (match default_npts (fst ct) with
                          | Some k => if snd ct then n else k
                          | None => 0%N
                          end))) cs).
Proof.
  revert o; induction cs as [|[c t] r IH]; intros o Hc Hk Hp Ht; cbn [GevModel.call_widths]; [reflexivity|].
  change (if t then Some n else None) with (kw_of n t).
  assert (Hcc : coh o c) by (apply Hc; left; reflexivity).
  assert (Hcp : c <> Pi0Pi0) by (intro E; apply Hp; left; exact E).
  pose proof (call_value o c (kw_of n t) Hcc Hcp Hk) as Hv.
  assert (Hm : width_method o c (kw_of n t) =
    Ret (width_body (go_par o) (go_coup o) c
           (match default_npts c with Some k => if t then n else k | None => 0%N end))).
  { unfold GevModel.width_method. destruct t; cbn [kw_of].
    - destruct (default_npts c) eqn:E; [reflexivity|]. exfalso. apply (Ht c true); [left; reflexivity|reflexivity|exact E].
    - destruct (default_npts c); reflexivity. }
  rewrite Hm in Hv.
  destruct (call_pars o c (kw_of n t)) as ((P1 & P2) & _).
  pose proof (call_keyed o c (kw_of n t) Hk) as K1.
  assert (C1 : forall c', In c' (map fst r) -> coh (fst (width_v_to o c (kw_of n t))) c').
  { intros c' Hi. apply call_coh, Hc. right. exact Hi. }
  destruct (width_v_to o c (kw_of n t)) as [o1 [v|x]]; cbn [fst snd] in *; [|discriminate].
  injection Hv as ->.
  assert (Hp1 : ~ In Pi0Pi0 (map fst r)) by (intro E; apply Hp; right; exact E).
  assert (Ht1 : forall c t, In (c, t) r -> t = true -> default_npts c <> None).
  { intros c' t' Hi. apply Ht. right. exact Hi. }
  assert (IH1 := IH o1 C1 K1 Hp1 Ht1).
  destruct (call_widths o1 n r) as [o2 [d|x]]; cbn [snd] in *; [|discriminate].
  injection IH1 as ->. rewrite P1, P2. reflexivity.
Qed.

(** After the calls every entry is there, valid, with the value returned *)
Lemma calls_entries o n cs d : NoDup (map fst cs) -> snd (call_widths o n cs) = Ret d ->
  map fst d = map (fun ct : chan * bool => cname (fst ct)) cs /\
  forall c t, In (c, t) cs -> exists v, In (cname c, v) d /\
    dget (go_cache (fst (call_widths o n cs))) (cname c) = Some (MkEntry v true (kw_of n t)).
Proof.
  revert o d; induction cs as [|[c t] r IH]; intros o d Hn; cbn [GevModel.call_widths].
  - cbn [snd]. intro H. injection H as <-. split; [reflexivity|]. intros c t [].
  - change (if t then Some n else None) with (kw_of n t).
    inversion Hn as [|? ? N1 N2]; subst.
    destruct (width_v_to o c (kw_of n t)) as [o1 [v|x]] eqn:E; cbn [snd]; [|discriminate].
    assert (Ev := call_entry o c (kw_of n t) v ltac:(rewrite E; reflexivity)). rewrite E in Ev. cbn [fst] in Ev.
    assert (Eo := calls_other o1 n r c N1).
    specialize (IH o1). destruct (call_widths o1 n r) as [o2 [d2|x]]; cbn [snd fst] in *; [|discriminate].
    intro H. injection H as <-. destruct (IH d2 N2 eq_refl) as [I1 I2]. split.
    + cbn [map fst]. f_equal. exact I1.
    + intros c' t' [Hi|Hi].
      * injection Hi as <- <-. exists v. split; [left; reflexivity|]. congruence.
      * destruct (I2 c' t' Hi) as (v' & Hv1 & Hv2). exists v'. split; [right; exact Hv1|exact Hv2].
Qed.

(** Repeating the calls on an object with the same cache returns the same and changes nothing *)
Lemma calls_again o n cs d o' : NoDup (map fst cs) -> snd (call_widths o n cs) = Ret d ->
  (forall c, In c (map fst cs) ->
     dget (go_cache o') (cname c) = dget (go_cache (fst (call_widths o n cs))) (cname c)) ->
  call_widths o' n cs = (o', Ret d).
Proof.
  revert o d; induction cs as [|[c t] r IH]; intros o d Hn; cbn [GevModel.call_widths].
  - cbn [snd]. intro H. injection H as <-. reflexivity.
  - change (if t then Some n else None) with (kw_of n t).
    inversion Hn as [|? ? N1 N2]; subst.
    destruct (width_v_to o c (kw_of n t)) as [o1 [v|x]] eqn:E; cbn [snd]; [|discriminate].
    assert (Ev := call_entry o c (kw_of n t) v ltac:(rewrite E; reflexivity)). rewrite E in Ev. cbn [fst] in Ev.
    assert (Eo := calls_other o1 n r c N1).
    specialize (IH o1). destruct (call_widths o1 n r) as [o2 [d2|x]]; cbn [snd fst] in *; [|discriminate].
    intro H. injection H as <-. intro Hs.
    assert (Hh : dget (go_cache o') (cname c) = Some (MkEntry v true (kw_of n t))).
    { rewrite (Hs c) by (left; reflexivity). congruence. }
    unfold GevModel.width_v_to at 1. rewrite Hh. cbn [en_valid en_kw andb en_value].
    assert (Hq : kw_eqb (kw_of n t) (kw_of n t) = true) by now apply kw_eqb_spec. rewrite Hq.
    rewrite (IH d2 N2 eq_refl) by (intros c' Hi; apply Hs; right; exact Hi). reflexivity.
Qed.

(** * Setters *)

Lemma invalidate_entry o k e : dget (go_cache (invalidate o)) k = Some e -> en_valid e = false.
Proof.
  unfold invalidate, with_gcache; cbn [go_cache]. induction (go_cache o) as [|[k' e'] r IH]; cbn [map dget fst snd].
  - discriminate.
  - destruct (String.eqb k' k); [intro H; injection H as <-; reflexivity|exact IH].
Qed.

Lemma invalidate_keyed o : keyed o -> keyed (invalidate o).
Proof.
  intros Hk c. refine (iff_trans _ (Hk c)). clear Hk. unfold invalidate, with_gcache; cbn [go_cache].
  induction (go_cache o) as [|[k' e'] r IH]; cbn [map dget fst snd]; [reflexivity|].
  destruct (String.eqb k' (cname c)); [split; discriminate|exact IH].
Qed.

Lemma invalidate_coh o c : coh (invalidate o) c.
Proof. intros e He Hv. apply invalidate_entry in He. congruence. Qed.

(** [own] attributes do not touch what the widths of the other channels depend on *)
Lemma method_frame o P c kw : g_mv P = g_mv (go_par o) ->
  (forall a, own c a -> gfield P a = gfield (go_par o) a) ->
  width_method (with_gpar o P) c kw = width_method o c kw.
Proof.
  intros Hm Ho. unfold GevModel.width_method.
  assert (H : forall n, width_body (go_par (with_gpar o P)) (go_coup (with_gpar o P)) c n =
                        width_body (go_par o) (go_coup o) c n).
  { intro n. cbn [with_gpar go_par go_coup]. destruct c; cbn [GevModel.width_body]; rewrite Hm; try reflexivity.
    - assert (E : g_ee P = g_ee (go_par o)) by exact (Ho A_gvee eq_refl). now rewrite E.
    - assert (E : g_mm P = g_mm (go_par o)) by exact (Ho A_gvmumu eq_refl). now rewrite E.
    - assert (E : g_ve P = g_ve (go_par o)) by exact (Ho A_gvveve eq_refl). now rewrite E.
    - assert (E : g_vm P = g_vm (go_par o)) by exact (Ho A_gvvmvm eq_refl). now rewrite E.
    - assert (E : g_vt P = g_vt (go_par o)) by exact (Ho A_gvvtvt eq_refl). now rewrite E.
    - assert (E : g_xx P = g_xx (go_par o)) by exact (Ho A_gvxx (or_introl eq_refl)).
      assert (E2 : g_mx P = g_mx (go_par o)) by exact (Ho A_mx (or_intror eq_refl)). now rewrite E, E2. }
  destruct (default_npts c), kw; rewrite ?H; reflexivity.
Qed.

Lemma gfield_gstore_same P a x : a <> A_eps -> a <> A_g -> gfield (gstore P a x) a = x.
Proof. destruct P, a; cbn; congruence. Qed.
Lemma gfield_gstore_other P a b x : a <> b -> gfield (gstore P a x) b = gfield P b.
Proof. destruct P, a, b; cbn; congruence. Qed.
Lemma gfield_ext P P' : (forall a, a <> A_eps -> a <> A_g -> gfield P a = gfield P' a) -> P = P'.
Proof.
  intro H. destruct P, P'.
  pose proof (H A_mx ltac:(discriminate) ltac:(discriminate)). pose proof (H A_mv ltac:(discriminate) ltac:(discriminate)).
  pose proof (H A_gvxx ltac:(discriminate) ltac:(discriminate)). pose proof (H A_gvuu ltac:(discriminate) ltac:(discriminate)).
  pose proof (H A_gvdd ltac:(discriminate) ltac:(discriminate)). pose proof (H A_gvss ltac:(discriminate) ltac:(discriminate)).
  pose proof (H A_gvee ltac:(discriminate) ltac:(discriminate)). pose proof (H A_gvmumu ltac:(discriminate) ltac:(discriminate)).
  pose proof (H A_gvveve ltac:(discriminate) ltac:(discriminate)). pose proof (H A_gvvmvm ltac:(discriminate) ltac:(discriminate)).
  pose proof (H A_gvvtvt ltac:(discriminate) ltac:(discriminate)).
  cbn in *. congruence.
Qed.

(** The channel whose entry a setter refreshes *)
Definition chan_of (a : gattr) : option chan :=
  match a with
  | A_mx | A_gvxx => Some XX
  | A_gvee => Some EE | A_gvmumu => Some MuMu | A_gvveve => Some VeVe | A_gvvmvm => Some VmVm
  | A_gvvtvt => Some VtVt
  | _ => None
  end.

Lemma own_chan c a : own c a <-> chan_of a = Some c.
Proof. destruct c, a; cbn; split; intro H; try congruence; try tauto; try (destruct H; congruence). Qed.

Lemma chan_of_pi0 a c : chan_of a = Some c -> c <> Pi0Pi0 /\ default_npts c = None.
Proof. destruct a; cbn; intro H; inversion H; split; try discriminate; reflexivity. Qed.

(** What a setter with an own channel does: the entry of that channel becomes valid, holding what a call
    returns after the attribute has been stored *)
Lemma own_set o a x c : chan_of a = Some c -> keyed o ->
  exists v, snd (width_v_to (with_gpar o (gstore (go_par o) a x)) c None) = Ret v /\
    base_set K ffw o a x =
      (with_gcache (with_gpar o (gstore (go_par o) a x)) (dset (go_cache o) (cname c) (MkEntry v true None)),
       None).
Proof.
  intros Hc Hk. destruct (chan_of_pi0 _ _ Hc) as [Hp Hd].
  set (P := gstore (go_par o) a x).
  assert (Hk1 : keyed (with_gpar o P)) by exact Hk.
  destruct (dget (go_cache o) (cname c)) as [e|] eqn:E; [|apply Hk in E; contradiction].
  assert (Hs : exists v o1, width_v_to (with_gpar o P) c None = (o1, Ret v) /\
            go_cache o1 = dset (go_cache o) (cname c) (MkEntry v true None) /\
            o1 = with_gcache (with_gpar o P) (dset (go_cache o) (cname c) (MkEntry v true None))).
  { unfold GevModel.width_v_to. cbn [with_gpar go_cache]. rewrite E.
    destruct (en_valid e) eqn:Ev; cbn [andb]; [destruct (kw_eqb (en_kw e) None) eqn:Ek|].
    - apply kw_eqb_spec in Ek. exists (en_value e), (with_gpar o P).
      assert (Ee : e = MkEntry (en_value e) true None) by (destruct e; cbn in *; congruence).
      rewrite <- Ee. rewrite (dset_same_value _ _ _ E). repeat split; try reflexivity.
    - unfold GevModel.width_method. rewrite Hd. eexists _, _. repeat split.
    - unfold GevModel.width_method. rewrite Hd. eexists _, _. repeat split. }
  destruct Hs as (v & o1 & H1 & H2 & H3). exists v. split; [rewrite H1; reflexivity|].
  assert (Hd2 : dget (dset (go_cache o) (cname c) (MkEntry v true None)) (cname c) = Some (MkEntry v true None))
    by apply dget_dset_same.
  assert (Hgen : match width_v_to (with_gpar o P) c None with
                 | (o1, Ret v) => update_width_cache o1 (cname c) v
                 | (o1, Raise x) => (o1, Some x) end =
                 (with_gcache (with_gpar o P) (dset (go_cache o) (cname c) (MkEntry v true None)), None)).
  { rewrite H1. unfold update_width_cache. rewrite H2, Hd2. cbn [en_kw].
    rewrite (dset_same_value _ _ _ Hd2), H3. reflexivity. }
  destruct a; cbn [chan_of] in Hc; try discriminate; injection Hc as <-;
    cbn [base_set]; fold P; try exact Hgen.
  unfold store_mx. fold P. rewrite H1. change "x x"%string with (cname XX). rewrite H2, Hd2.
  cbn [en_valid en_kw]. rewrite (dset_same_value _ _ _ Hd2), H3. reflexivity.
Qed.

(** * Steps of a program on a VectorMediatorGeV *)

Definition linked (o : gobj) : Prop :=
  go_coup o = (g_uu (go_par o), g_dd (go_par o), g_ss (go_par o)).

Lemma gstore_keep P a x : chan_of a <> None ->
  g_mv (gstore P a x) = g_mv P /\ g_uu (gstore P a x) = g_uu P /\ g_dd (gstore P a x) = g_dd P /\
  g_ss (gstore P a x) = g_ss P.
Proof. destruct P, a; cbn; intro H; repeat split; congruence. Qed.

Lemma base_set_keyed o a x : keyed o -> keyed (fst (base_set K ffw o a x)).
Proof.
  intro Hk. destruct (chan_of a) as [c|] eqn:Hc.
  - destruct (own_set o a x c Hc Hk) as (v & _ & ->). cbn [fst]. intro c'. cbn [with_gcache go_cache].
    destruct (chan_of_pi0 _ _ Hc) as [Hp _]. destruct (chan_dec c c') as [<-|Hn].
    + rewrite dget_dset_same. split; congruence.
    + rewrite dget_dset_other by (intro E; apply Hn, cname_inj, E). apply Hk.
  - destruct a; cbn in Hc; try discriminate; cbn [base_set store_quark fst]; try exact Hk;
      apply invalidate_keyed; exact Hk.
Qed.

Lemma base_set_par o a x : keyed o -> go_par (fst (base_set K ffw o a x)) = gstore (go_par o) a x.
Proof.
  intro Hk. destruct (chan_of a) as [c|] eqn:Hc.
  - destruct (own_set o a x c Hc Hk) as (v & _ & ->). reflexivity.
  - destruct a; cbn in Hc; try discriminate; try reflexivity; destruct o as [? [] ? ? ?]; reflexivity.
Qed.

Lemma base_set_class o a x : keyed o ->
  (go_class (fst (base_set K ffw o a x)) = go_class o) /\ (snd (base_set K ffw o a x) = None).
Proof.
  intro Hk. destruct (chan_of a) as [c|] eqn:Hc.
  - destruct (own_set o a x c Hc Hk) as (v & _ & ->). split; reflexivity.
  - destruct a; cbn in Hc; try discriminate; split; reflexivity.
Qed.

Lemma base_set_linked o a x : keyed o -> linked o -> linked (fst (base_set K ffw o a x)).
Proof.
  intros Hk Hl. destruct (chan_of a) as [c|] eqn:Hc.
  - destruct (own_set o a x c Hc Hk) as (v & _ & ->). unfold linked. cbn [fst with_gcache with_gpar go_coup go_par].
    destruct (gstore_keep (go_par o) a x) as (_ & -> & -> & ->); [congruence|]. exact Hl.
  - destruct a; cbn in Hc; try discriminate; try exact Hl; try reflexivity.
    unfold linked in *. cbn [base_set fst invalidate with_gcache with_gpar go_coup go_par].
    destruct o as [? [] ? ? ?]; exact Hl.
Qed.

Lemma base_set_coh o a x c : keyed o -> coh o c -> ~ own c a -> coh (fst (base_set K ffw o a x)) c.
Proof.
  intros Hk Hh Hn. destruct (chan_of a) as [c'|] eqn:Hc.
  - assert (Hcc : c' <> c) by (intros ->; apply Hn, own_chan, Hc).
    destruct (own_set o a x c' Hc Hk) as (v & _ & ->). cbn [fst]. intros e He Hv.
    cbn [with_gcache go_cache] in He. rewrite dget_dset_other in He by (intro E; apply Hcc, cname_inj, E).
    rewrite (width_method_ext _ (with_gpar o (gstore (go_par o) a x))) by (split; reflexivity).
    rewrite method_frame.
    + now apply Hh.
    + destruct (gstore_keep (go_par o) a x) as (-> & _); [congruence|reflexivity].
    + intros b Hb. apply gfield_gstore_other. intros ->. now apply Hn.
  - destruct a; cbn in Hc; try discriminate; cbn [base_set store_quark fst]; try exact Hh; apply invalidate_coh.
Qed.

Lemma shared_coh o a x c : shared a -> coh (fst (base_set K ffw o a x)) c.
Proof. intros [->|[->|[->| ->]]]; apply invalidate_coh. Qed.

(** the object a program holds *)
Definition sane (o : gobj) : Prop := go_class o = VectorMediatorGeV /\ keyed o /\ linked o.

Lemma step_sane o op : sane o -> sane (gstep K ffw o op).
Proof.
  intros (H1 & H2 & H3). destruct op as [a x|c kw|n|]; cbn [gstep].
  - unfold GevModel.gset. rewrite H1. destruct (base_set_class o a x H2) as [Hc _]. repeat split.
    + congruence.
    + now apply base_set_keyed.
    + now apply base_set_keyed.
    + now apply base_set_linked.
  - destruct (call_pars o c kw) as ((Hp & Hc) & Hl & _). repeat split.
    + congruence.
    + now apply call_keyed.
    + now apply call_keyed.
    + unfold linked. now rewrite Hp, Hc.
  - unfold partial_widths. destruct (calls_pars o n partial_width_calls) as ((Hp & Hc) & Hl & _). repeat split.
    + congruence.
    + now apply calls_keyed.
    + now apply calls_keyed.
    + unfold linked. now rewrite Hp, Hc.
  - unfold width_v, partial_widths.
    destruct (calls_pars o 50000%N partial_width_calls) as ((Hp & Hc) & Hl & _).
    pose proof (calls_keyed o 50000%N partial_width_calls H2) as Hk.
    destruct (call_widths o 50000%N partial_width_calls) as [o1 [d|e]]; cbn [fst] in *;
      (split; [congruence|split; [exact Hk|unfold linked; now rewrite Hp, Hc]]).
Qed.

Lemma run_snoc o ops op : grun o (ops ++ [op]) = gstep K ffw (grun o ops) op.
Proof. unfold GevModel.grun. rewrite fold_left_app. reflexivity. Qed.
Lemma run_app o l1 l2 : grun o (l1 ++ l2) = grun (grun o l1) l2.
Proof. unfold GevModel.grun. apply fold_left_app. Qed.

Lemma run_sane o ops : sane o -> sane (grun o ops).
Proof.
  intro H. induction ops as [|op ops IH] using rev_ind; [exact H|]. rewrite run_snoc. now apply step_sane.
Qed.

Lemma step_coh o op c : sane o -> coh o c -> (forall a x, op = Assign a x -> ~ own c a) ->
  coh (gstep K ffw o op) c.
Proof.
  intros (H1 & H2 & H3) Hh Hn. destruct op as [a x|c' kw|n|]; cbn [gstep].
  - unfold GevModel.gset. rewrite H1. apply base_set_coh; auto. eapply Hn. reflexivity.
  - now apply call_coh.
  - now apply calls_coh.
  - unfold width_v, partial_widths.
    pose proof (calls_coh o 50000%N partial_width_calls c Hh) as Hk.
    destruct (call_widths o 50000%N partial_width_calls) as [o1 [d|e]]; exact Hk.
Qed.

Lemma run_coh o ops c : sane o -> coh o c -> spares (own c) ops -> coh (grun o ops) c.
Proof.
  intros Hs Hh. induction ops as [|op ops IH] using rev_ind; intro Hn; [exact Hh|].
  rewrite run_snoc. apply step_coh.
  - now apply run_sane.
  - apply IH. intros a x Hi. apply (Hn a x), in_or_app. now left.
  - intros a x ->. apply (Hn a x), in_or_app. right. now left.
Qed.

Lemma new_sane P : sane (new_gev P).
Proof.
  split; [reflexivity|]. split; [|reflexivity]. intro c. destruct c; cbn; split; congruence.
Qed.
Lemma new_coh cl P q c : coh (new_object cl P q) c.
Proof.
  intros e He Hv. exfalso. assert (H : en_valid e = false); [|congruence].
  revert He. unfold new_object, empty_cache; cbn [go_cache]. generalize (cname c). clear. intros k He.
  apply dget_Some_In in He. revert He. unfold list_annihilation_final_states. cbn [map dset String.eqb].
  cbn. intro He. repeat (destruct He as [He|He]; [injection He as _ <-; reflexivity|]). destruct He.
Qed.

(** The parameters after a program are the last values assigned *)
Lemma step_par o op : sane o ->
  go_par (gstep K ffw o op) = match op with Assign a x => gstore (go_par o) a x | _ => go_par o end.
Proof.
  intros (H1 & H2 & H3). destruct op as [a x|c kw|n|]; cbn [gstep].
  - unfold GevModel.gset. rewrite H1. now apply base_set_par.
  - now destruct (call_pars o c kw) as ((Hp & Hc) & Hl & _).
  - now destruct (calls_pars o n partial_width_calls) as ((Hp & Hc) & Hl & _).
  - unfold width_v, partial_widths.
    destruct (calls_pars o 50000%N partial_width_calls) as ((Hp & Hc) & Hl & _).
    destruct (call_widths o 50000%N partial_width_calls) as [o1 [d|e]]; exact Hp.
Qed.

Lemma run_par P ops P' : ends_with P ops P' -> go_par (grun (new_gev P) ops) = P'.
Proof.
  intro H. apply gfield_ext. intros a He Hg. specialize (H a He Hg).
  remember (gfield P' a) as v eqn:Ev. clear Ev P'. induction H as [|ops x|ops op v Ho Hl IH].
  - reflexivity.
  - rewrite run_snoc, step_par by (apply run_sane, new_sane). now apply gfield_gstore_same.
  - rewrite run_snoc, step_par by (apply run_sane, new_sane). rewrite <- IH.
    destruct op as [b x|c kw|n|]; try reflexivity. apply gfield_gstore_other. intros ->. now apply (Ho x).
Qed.

Lemma run_new P ops P' : ends_with P ops P' -> same_pars (grun (new_gev P) ops) (new_gev P').
Proof.
  intro H. pose proof (run_par P ops P' H) as Hp. split; [exact Hp|].
  destruct (run_sane (new_gev P) ops (new_sane P)) as (_ & _ & Hl). rewrite Hl, Hp. reflexivity.
Qed.

End Facts.
