(** C12: what any sequence of attribute assignments leaves behind in a mediator object. *)
From Coq Require Import String Reals Lra Bool List.
From Verif Require Import PyBase MedModel MedStateModel.
Import ListNotations.
Local Open Scope R_scope.

(** * Specification *)

Definition sattr_eq_dec : forall a b : sattr, {a = b} + {a <> b}.
Proof. decide equality. Defined.
Definition vattr_eq_dec : forall a b : vattr, {a = b} + {a <> b}.
Proof. decide equality. Defined.

(** The value last assigned to an attribute, or the initial one *)
Definition latest {A : Type} (dec : forall a b : A, {a = b} + {a <> b}) (script : list (A * R)) (a : A) (d : R) : R :=
  match find (fun ax => if dec (fst ax) a then true else false) (rev script) with
  | Some ax => snd ax
  | None => d
  end.
Notation s_latest := (latest sattr_eq_dec).
Notation v_latest := (latest vattr_eq_dec).

(** The total width, as a sum *)
Definition s_width_sum (C : consts) (P : sparams) : R :=
  width_s_to_gg C P + width_s_to_pi0pi0 C P + width_s_to_pipi C P + width_s_to_xx P
  + width_s_to_ff_mass C P (c_me C) + width_s_to_ff_mass C P (c_mmu C).
Definition v_width_sum (C : consts) (P : vparams) : R :=
  width_v_to_pipi C P + width_v_to_pi0g C P + width_v_to_xx P
  + width_v_to_ff_mass P (v_gvee P) (c_me C) + width_v_to_ff_mass P (v_gvmumu P) (c_mmu C).

(** The parameters for which the widths divide by no zero *)
Definition s_has_width (P : sparams) : Prop := s_lam P <> 0 /\ (s_ms P <> 0 \/ s_ms P <= 2 * s_mx P).
Definition v_has_width (P : vparams) : Prop := v_mv P <> 0 \/ v_mv P <= 2 * v_mx P.

Definition s_constructed (C : consts) (o : sobj) : Prop :=
  (exists mx ms gsxx gsff gsGG gsFF lam, new_scalar C mx ms gsxx gsff gsGG gsFF lam = Ret o) \/
  (exists mx ms gsxx stheta, new_higgs C mx ms gsxx stheta = Ret o) \/
  (exists mx ms gsxx gsQ mQ QQ, new_heavy C mx ms gsxx gsQ mQ QQ = Ret o).
Definition v_constructed (C : consts) (o : vobj) : Prop :=
  (exists mx mv gvxx gvuu gvdd gvss gvee gvmumu, new_vector C mx mv gvxx gvuu gvdd gvss gvee gvmumu = Ret o) \/
  (exists mx mv gvxx eps, new_mixing C mx mv gvxx eps = Ret o) \/
  (exists mx mv gvxx gvuu gvdd gvss, new_quarks C mx mv gvxx gvuu gvdd gvss = Ret o).

(** * Lemmas *)

Lemma latest_nil : forall A dec (a : A) d, latest dec [] a d = d.
Proof. reflexivity. Qed.
Lemma latest_snoc : forall A dec script (b : A) x a d,
  latest dec (script ++ [(b, x)]) a d = if dec b a then x else latest dec script a d.
Proof.
  intros. unfold latest. rewrite rev_app_distr. cbn [rev app find fst]. now destruct (dec b a).
Qed.

Lemma s_total_has_width : forall C P, s_has_width P -> s_total C P = Ret (s_width_sum C P).
Proof.
  intros C P [Hl Hm]. unfold s_total. destruct (Req_EM_T (s_lam P) 0); [contradiction|].
  destruct (Req_EM_T (s_ms P) 0) as [E|E]; [|reflexivity].
  destruct (Rlt_dec (2 * s_mx P) (s_ms P)); [|reflexivity].
  destruct Hm; [contradiction|lra].
Qed.
Lemma s_total_raises : forall C P x, s_total C P = Raise x -> x = ZeroDivisionError /\ ~ s_has_width P.
Proof.
  intros C P x E. split.
  - unfold s_total in E.
    destruct (Req_EM_T (s_lam P) 0); [now injection E|].
    destruct (Req_EM_T (s_ms P) 0); [destruct (Rlt_dec _ _); [now injection E|]|]; discriminate E.
  - intro H. rewrite (s_total_has_width C P H) in E. discriminate.
Qed.
Lemma v_total_has_width : forall C P, v_has_width P -> v_total C P = Ret (v_width_sum C P).
Proof.
  intros C P Hm. unfold v_total.
  destruct (Req_EM_T (v_mv P) 0) as [E|E]; [|reflexivity].
  destruct (Rlt_dec (2 * v_mx P) (v_mv P)); [|reflexivity].
  destruct Hm; [contradiction|lra].
Qed.
Lemma v_total_raises : forall C P x, v_total C P = Raise x -> x = ZeroDivisionError /\ ~ v_has_width P.
Proof.
  intros C P x E. split.
  - unfold v_total in E.
    destruct (Req_EM_T (v_mv P) 0); [destruct (Rlt_dec _ _); [now injection E|]|]; discriminate E.
  - intro H. rewrite (v_total_has_width C P H) in E. discriminate.
Qed.

Lemma compute_vs_zero : forall P, compute_vs P = 0.
Proof. intro P. unfold compute_vs. now destruct (Req_EM_T _ _). Qed.

Definition s_coherent (C : consts) (o : sobj) : Prop :=
  s_has_width (so_par o) -> so_width o = s_width_sum C (so_par o).
Definition v_coherent (C : consts) (o : vobj) : Prop :=
  v_has_width (vo_par o) -> vo_width o = v_width_sum C (vo_par o).

Lemma compute_width_s_coherent : forall C o, s_coherent C (fst (compute_width_s C o)).
Proof.
  intros C o. unfold compute_width_s, s_coherent. destruct (s_total C (so_par o)) as [w|x] eqn:E; cbn [fst].
  - cbn [with_swidth so_par so_width]. intro H. rewrite (s_total_has_width C _ H) in E. congruence.
  - intro H. destruct (s_total_raises C _ _ E). contradiction.
Qed.
Lemma compute_width_v_coherent : forall C o, v_coherent C (fst (compute_width_v C o)).
Proof.
  intros C o. unfold compute_width_v, v_coherent. destruct (v_total C (vo_par o)) as [w|x] eqn:E; cbn [fst].
  - cbn [vo_par vo_width]. intro H. rewrite (v_total_has_width C _ H) in E. congruence.
  - intro H. destruct (v_total_raises C _ _ E). contradiction.
Qed.
(** only the width changes *)
Lemma compute_width_s_frame : forall C o,
  with_swidth (fst (compute_width_s C o)) 0 = with_swidth o 0.
Proof. intros C o. unfold compute_width_s. now destruct (s_total C (so_par o)). Qed.
Lemma compute_width_v_frame : forall C o,
  let o' := fst (compute_width_v C o) in
  vo_class o' = vo_class o /\ vo_par o' = vo_par o /\ vo_eps o' = vo_eps o.
Proof. intros C o. unfold compute_width_v. now destruct (v_total C (vo_par o)). Qed.

Lemma s_set_coherent : forall C o a x, s_coherent C o -> s_coherent C (fst (s_set C o a x)).
Proof.
  intros C o a x H. unfold s_set, s_base_set, s_refresh.
  destruct (so_class o), a; cbn [fst]; try assumption; apply compute_width_s_coherent.
Qed.
Lemma v_set_coherent : forall C o a x, v_coherent C o -> v_coherent C (fst (v_set C o a x)).
Proof.
  intros C o a x H. unfold v_set.
  destruct (vo_class o), a; cbn [fst]; try assumption; apply compute_width_v_coherent.
Qed.
Lemma s_init_coherent : forall C o o', s_init C o = Ret o' -> s_coherent C o'.
Proof.
  intros C o o' E. unfold s_init, s_refresh in E.
  match type of E with context [compute_width_s C ?q] => pose proof (compute_width_s_coherent C q) as H end.
  destruct (compute_width_s C _) as [q [x|]]; [discriminate|]. injection E as <-. exact H.
Qed.
Lemma v_init_coherent : forall C o o', v_init C o = Ret o' -> v_coherent C o'.
Proof.
  intros C o o' E. unfold v_init in E. pose proof (compute_width_v_coherent C o) as H.
  destruct (compute_width_v C o) as [q [x|]]; [discriminate|]. injection E as <-. exact H.
Qed.

(** * The cached width *)

(** After any assignments whatever, including failed ones, the cached width is the sum of the partial
    widths at the current parameters, provided these have a width at all. *)
Theorem cached_width_scalar : forall C o script,
  s_constructed C o ->
  s_has_width (so_par (s_run C o script)) ->
  so_width (s_run C o script) = s_width_sum C (so_par (s_run C o script)).
Proof.
  intros C o script Hc. change (s_coherent C (s_run C o script)).
  assert (H : s_coherent C o).
  { destruct Hc as [(?&?&?&?&?&?&?&E)|[(?&?&?&?&E)|(?&?&?&?&?&?&E)]];
      unfold new_scalar, new_higgs, new_heavy in E; eapply s_init_coherent; exact E. }
  clear Hc. revert o H. unfold s_run.
  induction script as [|ax script IH]; intros o H; cbn [fold_left]; [exact H|].
  apply IH. now apply s_set_coherent.
Qed.
Print Assumptions cached_width_scalar.

Theorem cached_width_vector : forall C o script,
  v_constructed C o ->
  v_has_width (vo_par (v_run C o script)) ->
  vo_width (v_run C o script) = v_width_sum C (vo_par (v_run C o script)).
Proof.
  intros C o script Hc. change (v_coherent C (v_run C o script)).
  assert (H : v_coherent C o).
  { destruct Hc as [(?&?&?&?&?&?&?&?&E)|[(?&?&?&?&E)|(?&?&?&?&?&?&E)]];
      unfold new_vector, new_mixing, new_quarks in E; eapply v_init_coherent; exact E. }
  clear Hc. revert o H. unfold v_run.
  induction script as [|ax script IH]; intros o H; cbn [fold_left]; [exact H|].
  apply IH. now apply v_set_coherent.
Qed.
Print Assumptions cached_width_vector.

(** * The parameters *)

(** Everything but the width *)
Definition s_frame (o : sobj) : sobj := with_swidth o 0.

Lemma s_run_snoc : forall C o script a x,
  s_run C o (script ++ [(a, x)]) = fst (s_set C (s_run C o script) a x).
Proof. intros. unfold s_run. now rewrite fold_left_app. Qed.
Lemma v_run_snoc : forall C o script a x,
  v_run C o (script ++ [(a, x)]) = fst (v_set C (v_run C o script) a x).
Proof. intros. unfold v_run. now rewrite fold_left_app. Qed.

Lemma s_frame_parts : forall o c P st q m Q, s_frame o = MkSobj c P 0 st q m Q ->
  so_class o = c /\ so_par o = P /\ so_stheta o = st /\ so_gsQ o = q /\ so_mQ o = m /\ so_QQ o = Q.
Proof. intros [c0 P0 w0 a b d e] c P st q m Q E. unfold s_frame, with_swidth in E. cbn in *. now injection E. Qed.

Lemma s_init_frame : forall C c P st q m Q o,
  s_vs P = 0 -> s_init C (MkSobj c P 0 st q m Q) = Ret o -> s_frame o = MkSobj c P 0 st q m Q.
Proof.
  intros C c P st q m Q o Hv E. unfold s_init, s_refresh in E.
  match type of E with context [compute_width_s C ?q0] => pose proof (compute_width_s_frame C q0) as H end.
  destruct (compute_width_s C _) as [q0 [x|]]; [discriminate|]. injection E as <-. cbn [fst] in H.
  unfold s_frame. rewrite H. unfold with_swidth, with_spar, with_vs. cbn [so_class so_par so_stheta so_gsQ so_mQ so_QQ].
  rewrite compute_vs_zero, <- Hv. now destruct P.
Qed.
Lemma s_init_works : forall C o,
  s_vs (so_par o) = 0 -> s_has_width (so_par o) -> s_init C o = Ret (with_swidth o (s_width_sum C (so_par o))).
Proof.
  intros C [c P w st q m Q] Hv Hw. cbn [so_par] in *. unfold s_init, s_refresh, compute_width_s.
  rewrite compute_vs_zero. unfold with_spar. cbn [so_par so_class so_width so_stheta so_gsQ so_mQ so_QQ].
  replace (with_vs P 0) with P by (destruct P; cbn in *; now subst).
  rewrite (s_total_has_width C P Hw). reflexivity.
Qed.
Lemma frame_eq : forall o o', s_frame o = s_frame o' -> so_width o = so_width o' -> o = o'.
Proof.
  intros [c P w a b d e] [c' P' w' a' b' d' e'] E H. unfold s_frame, with_swidth in E. cbn in *.
  injection E as -> -> -> -> -> ->. now subst.
Qed.

Lemma generic_script : forall C o mx ms gsxx gsff gsGG gsFF lam script,
  new_scalar C mx ms gsxx gsff gsGG gsFF lam = Ret o ->
  s_frame (s_run C o script)
  = MkSobj ScalarMediator
      (MkS (s_latest script S_mx mx) (s_latest script S_ms ms) (s_latest script S_gsxx gsxx)
         (s_latest script S_gsff gsff) (s_latest script S_gsGG gsGG) (s_latest script S_gsFF gsFF)
         (s_latest script S_lam lam) 0) 0 0 0 0 0.
Proof.
  intros C o mx ms gsxx gsff gsGG gsFF lam script E.
  unfold new_scalar in E. apply s_init_frame in E; [|reflexivity].
  induction script as [|[a x] script IH] using rev_ind.
  - cbn [s_run fold_left]. rewrite !latest_nil. exact E.
  - rewrite s_run_snoc, !latest_snoc.
    apply s_frame_parts in IH. destruct IH as (Hc & HP & H1 & H2 & H3 & H4).
    set (o1 := s_run C o script) in *. clearbody o1. unfold s_set. rewrite Hc.
    unfold s_base_set, s_refresh.
    destruct a; cbn [fst]; unfold s_frame; rewrite ?compute_width_s_frame;
      unfold with_swidth, with_spar, with_vs, s_store; cbn [so_class so_par so_stheta so_gsQ so_mQ so_QQ];
      rewrite ?compute_vs_zero, ?HP, Hc, H1, H2, H3, H4; cbn [s_mx s_ms s_gsxx s_gsff s_gsGG s_gsFF s_lam s_vs];
      repeat match goal with |- context [sattr_eq_dec ?a ?b] =>
        destruct (sattr_eq_dec a b); try discriminate; try congruence end; reflexivity.
Qed.

Lemma higgs_script : forall C o mx ms gsxx stheta script,
  new_higgs C mx ms gsxx stheta = Ret o ->
  let t := s_latest script S_stheta stheta in
  s_frame (s_run C o script)
  = MkSobj HiggsPortal
      (MkS (s_latest script S_mx mx) (s_latest script S_ms ms) (s_latest script S_gsxx gsxx)
         t (3 * t) (- 5 * t / 6) (s_latest script S_lam (c_vh C)) 0) 0 t 0 0 0.
Proof.
  intros C o mx ms gsxx stheta script E.
  unfold new_higgs in E. apply s_init_frame in E; [|reflexivity]. cbv zeta.
  induction script as [|[a x] script IH] using rev_ind.
  - cbn [s_run fold_left]. rewrite !latest_nil. exact E.
  - rewrite s_run_snoc, !latest_snoc.
    apply s_frame_parts in IH. destruct IH as (Hc & HP & H1 & H2 & H3 & H4).
    set (o1 := s_run C o script) in *. clearbody o1. unfold s_set. rewrite Hc.
    unfold s_base_set, s_refresh.
    destruct a; cbn [fst]; unfold s_frame; rewrite ?compute_width_s_frame;
      unfold with_swidth, with_spar, with_vs, s_store; cbn [so_class so_par so_stheta so_gsQ so_mQ so_QQ];
      rewrite ?compute_vs_zero, ?HP, ?Hc, ?H1, H2, H3, H4; cbn [s_mx s_ms s_gsxx s_gsff s_gsGG s_gsFF s_lam s_vs];
      repeat match goal with |- context [sattr_eq_dec ?a ?b] =>
        destruct (sattr_eq_dec a b); try discriminate; try congruence end; reflexivity.
Qed.

Lemma heavy_script : forall C o mx ms gsxx gsQ mQ QQ script,
  new_heavy C mx ms gsxx gsQ mQ QQ = Ret o ->
  (forall x, ~ In (S_lam, x) script) ->
  let g := s_latest script S_gsQ gsQ in
  let m := s_latest script S_mQ mQ in
  let q := s_latest script S_QQ QQ in
  s_frame (s_run C o script)
  = MkSobj HeavyQuark
      (MkS (s_latest script S_mx mx) (s_latest script S_ms ms) (s_latest script S_gsxx gsxx)
         0 g (2 * g * q ^ 2) m 0) 0 0 g m q.
Proof.
  intros C o mx ms gsxx gsQ mQ QQ script E Hs.
  unfold new_heavy in E. apply s_init_frame in E; [|reflexivity]. cbv zeta. revert Hs.
  induction script as [|[a x] script IH] using rev_ind; intro Hs.
  - cbn [s_run fold_left]. rewrite !latest_nil. exact E.
  - rewrite s_run_snoc, !latest_snoc.
    assert (Ha : a <> S_lam).
    { intro Ea. apply (Hs x). subst a. apply in_or_app. right. now left. }
    specialize (IH (fun y Hy => Hs y (in_or_app _ _ _ (or_introl Hy)))).
    apply s_frame_parts in IH. destruct IH as (Hc & HP & H1 & H2 & H3 & H4).
    set (o1 := s_run C o script) in *. clearbody o1. unfold s_set. rewrite Hc.
    unfold s_base_set, s_refresh.
    destruct a; try contradiction; cbn [fst]; unfold s_frame; rewrite ?compute_width_s_frame;
      unfold with_swidth, with_spar, with_vs, s_store; cbn [so_class so_par so_stheta so_gsQ so_mQ so_QQ];
      rewrite ?compute_vs_zero, ?HP, ?Hc, ?H1, ?H2, ?H3, ?H4; cbn [s_mx s_ms s_gsxx s_gsff s_gsGG s_gsFF s_lam s_vs];
      repeat match goal with |- context [sattr_eq_dec ?a ?b] =>
        destruct (sattr_eq_dec a b); try discriminate; try congruence end; reflexivity.
Qed.

(** Whatever was assigned in whatever order, the object is the one that the constructor would build from
    the latest values. *)
Theorem scalar_assignments_as_fresh : forall C o mx ms gsxx gsff gsGG gsFF lam script,
  new_scalar C mx ms gsxx gsff gsGG gsFF lam = Ret o ->
  let v := s_latest script in
  v S_lam lam <> 0 -> 0 < v S_ms ms ->
  new_scalar C (v S_mx mx) (v S_ms ms) (v S_gsxx gsxx) (v S_gsff gsff) (v S_gsGG gsGG) (v S_gsFF gsFF)
    (v S_lam lam)
  = Ret (s_run C o script).
Proof.
  intros C o mx ms gsxx gsff gsGG gsFF lam script E v Hl Hm.
  pose proof (generic_script C o mx ms gsxx gsff gsGG gsFF lam script E) as HF.
  unfold new_scalar at 1. fold v in HF |- *.
  match type of HF with _ = MkSobj _ ?P _ _ _ _ _ => set (P0 := P) in * end.
  assert (HW : s_has_width P0) by (split; [exact Hl|left; cbn; lra]).
  rewrite s_init_works by (exact HW || reflexivity). f_equal. symmetry.
  destruct (s_frame_parts _ _ _ _ _ _ _ HF) as (_ & HP & _).
  apply frame_eq; [rewrite HF; reflexivity|].
  rewrite cached_width_scalar; [|left; now exists mx, ms, gsxx, gsff, gsGG, gsFF, lam|now rewrite HP].
  rewrite HP. reflexivity.
Qed.
Print Assumptions scalar_assignments_as_fresh.

(** Higgs portal: as long as [lam] is left alone, the couplings are the documented functions of the
    current mixing angle and the object is the one built from the latest values. *)
Theorem higgs_assignments_as_fresh : forall C o mx ms gsxx stheta script,
  new_higgs C mx ms gsxx stheta = Ret o -> c_vh C <> 0 ->
  (forall x, ~ In (S_lam, x) script) ->
  let v := s_latest script in
  let o' := s_run C o script in
  so_stheta o' = v S_stheta stheta /\
  s_gsff (so_par o') = so_stheta o' /\ s_gsGG (so_par o') = 3 * so_stheta o' /\
  s_gsFF (so_par o') = - (5 / 6) * so_stheta o' /\ s_lam (so_par o') = c_vh C /\
  (0 < v S_ms ms -> new_higgs C (v S_mx mx) (v S_ms ms) (v S_gsxx gsxx) (v S_stheta stheta) = Ret o').
Proof.
  intros C o mx ms gsxx stheta script E Hvh Hs v o'.
  pose proof (higgs_script C o mx ms gsxx stheta script E) as HF. cbv zeta in HF.
  assert (EL : s_latest script S_lam (c_vh C) = c_vh C).
  { unfold latest. destruct (find _ (rev script)) as [[a x]|] eqn:F; [|reflexivity].
    apply find_some in F. destruct F as [Hi Hd]. cbn [fst] in Hd.
    destruct (sattr_eq_dec a S_lam) as [->|]; [|discriminate]. apply in_rev in Hi. now apply Hs in Hi. }
  rewrite EL in HF. unfold v, o'.
  destruct (s_frame_parts _ _ _ _ _ _ _ HF) as (_ & HP & Ht & _).
  rewrite HP, Ht. cbn [s_gsff s_gsGG s_gsFF s_lam].
  repeat split; try reflexivity; try lra.
  intro Hm. unfold new_higgs. unfold new_higgs in HF.
  match type of HF with _ = MkSobj _ ?P _ _ _ _ _ => set (P0 := P) in * end.
  assert (HW : s_has_width P0) by (split; [exact Hvh|left; cbn; lra]).
  rewrite s_init_works by (exact HW || reflexivity). f_equal. symmetry.
  apply frame_eq; [rewrite HF; reflexivity|].
  rewrite cached_width_scalar; [|right; left; now exists mx, ms, gsxx, stheta|now rewrite HP].
  rewrite HP. reflexivity.
Qed.
Print Assumptions higgs_assignments_as_fresh.

(** Heavy quark, likewise *)
Theorem heavy_assignments_as_fresh : forall C o mx ms gsxx gsQ mQ QQ script,
  new_heavy C mx ms gsxx gsQ mQ QQ = Ret o ->
  (forall x, ~ In (S_lam, x) script) ->
  let v := s_latest script in
  let o' := s_run C o script in
  so_gsQ o' = v S_gsQ gsQ /\ so_mQ o' = v S_mQ mQ /\ so_QQ o' = v S_QQ QQ /\
  s_gsff (so_par o') = 0 /\ s_gsGG (so_par o') = so_gsQ o' /\
  s_gsFF (so_par o') = 2 * so_gsQ o' * so_QQ o' ^ 2 /\ s_lam (so_par o') = so_mQ o' /\
  (0 < v S_ms ms -> v S_mQ mQ <> 0 ->
   new_heavy C (v S_mx mx) (v S_ms ms) (v S_gsxx gsxx) (v S_gsQ gsQ) (v S_mQ mQ) (v S_QQ QQ) = Ret o').
Proof.
  intros C o mx ms gsxx gsQ mQ QQ script E Hs v o'.
  pose proof (heavy_script C o mx ms gsxx gsQ mQ QQ script E Hs) as HF. cbv zeta in HF.
  unfold v, o'.
  destruct (s_frame_parts _ _ _ _ _ _ _ HF) as (_ & HP & _ & Hg & Hm & Hq).
  rewrite HP, Hg, Hm, Hq. cbn [s_gsff s_gsGG s_gsFF s_lam].
  repeat split; try reflexivity.
  intros Hms HmQ. unfold new_heavy.
  match type of HF with _ = MkSobj _ ?P _ _ _ _ _ => set (P0 := P) in * end.
  assert (HW : s_has_width P0) by (split; [exact HmQ|left; cbn; lra]).
  rewrite s_init_works by (exact HW || reflexivity). f_equal. symmetry.
  apply frame_eq; [rewrite HF; reflexivity|].
  rewrite cached_width_scalar; [|right; right; now exists mx, ms, gsxx, gsQ, mQ, QQ|now rewrite HP].
  rewrite HP. reflexivity.
Qed.
Print Assumptions heavy_assignments_as_fresh.

Lemma new_higgs_works : forall C mx ms gsxx stheta, c_vh C <> 0 -> 0 < ms ->
  exists w, new_higgs C mx ms gsxx stheta
            = Ret (MkSobj HiggsPortal (MkS mx ms gsxx stheta (3 * stheta) (- 5 * stheta / 6) (c_vh C) 0) w stheta 0 0 0).
Proof.
  intros C mx ms gsxx stheta Hv Hm. eexists. unfold new_higgs.
  rewrite s_init_works; [reflexivity|reflexivity|]. split; [exact Hv|left; cbn; lra].
Qed.
Lemma new_heavy_works : forall C mx ms gsxx gsQ mQ QQ, mQ <> 0 -> 0 < ms ->
  exists w, new_heavy C mx ms gsxx gsQ mQ QQ
            = Ret (MkSobj HeavyQuark (MkS mx ms gsxx 0 gsQ (2 * gsQ * QQ ^ 2) mQ 0) w 0 gsQ mQ QQ).
Proof.
  intros C mx ms gsxx gsQ mQ QQ Hv Hm. eexists. unfold new_heavy.
  rewrite s_init_works; [reflexivity|reflexivity|]. split; [exact Hv|left; cbn; lra].
Qed.

Example scalar_scripts_case :
  exists o, new_heavy py_consts 100 500 1 (1 / 10) 5000 (2 / 3) = Ret o /\
  let script := [(S_gsQ, 1 / 2); (S_gsGG, 7); (S_QQ, 1 / 3); (S_mQ, 2000); (S_ms, 900); (S_gsQ, 1 / 4)] in
  (forall x, ~ In (S_lam, x) script) /\
  s_latest script S_gsQ (1 / 10) = 1 / 4 /\ s_latest script S_mQ 5000 = 2000 /\
  s_latest script S_ms 500 = 900 /\ s_latest script S_mx 100 = 100 /\
  s_gsGG (so_par (s_run py_consts o script)) = 1 / 4 /\
  s_gsFF (so_par (s_run py_consts o script)) = 2 * (1 / 4) * (1 / 3) ^ 2.
Proof.
  destruct (new_heavy_works py_consts 100 500 1 (1 / 10) 5000 (2 / 3)) as [w E]; [lra|lra|].
  eexists. split; [exact E|]. cbv zeta.
  match goal with |- _ /\ s_latest ?l _ _ = _ /\ _ => set (script := l) end.
  assert (Hs : forall x, ~ In (S_lam, x) script).
  { intros x Hi. cbn in Hi. repeat (destruct Hi as [Hi|Hi]; [discriminate Hi|]). exact Hi. }
  destruct (heavy_assignments_as_fresh _ _ _ _ _ _ _ _ script E Hs) as (G1 & _ & G3 & _ & G5 & G6 & _).
  rewrite G1 in *. rewrite G3 in *.
  repeat split; try assumption; try reflexivity.
Qed.

(** The setter of [lam] is not hidden: assigning it breaks the documented couplings of both restricted
    models. *)
Theorem lam_setter_refuted : exists h q,
  new_higgs py_consts 100 500 1 (1 / 100) = Ret h /\ new_heavy py_consts 100 500 1 (1 / 10) 5000 (2 / 3) = Ret q /\
  snd (s_set py_consts h S_lam 1000) = None /\ s_lam (so_par (s_run py_consts h [(S_lam, 1000)])) <> c_vh py_consts /\
  snd (s_set py_consts q S_lam 1000) = None /\
  s_lam (so_par (s_run py_consts q [(S_lam, 1000)])) <> so_mQ (s_run py_consts q [(S_lam, 1000)]).
Proof.
  assert (HS : forall c P w st q m Q, 0 < s_ms P -> exists P' w',
            s_set py_consts (MkSobj c P w st q m Q) S_lam 1000 = (MkSobj c P' w' st q m Q, None) /\ s_lam P' = 1000).
  { intros c P w st q m Q Hm. unfold s_set. cbn [so_class].
    assert (E : exists P' w', s_base_set py_consts (MkSobj c P w st q m Q) S_lam 1000
                              = (MkSobj c P' w' st q m Q, None) /\ s_lam P' = 1000).
    { unfold s_base_set, s_refresh, compute_width_s.
      match goal with |- context [s_total py_consts ?P1] => assert (HW : s_has_width P1) end.
      { split; [cbn; lra|left; cbn; lra]. }
      rewrite (s_total_has_width py_consts _ HW). do 2 eexists. split; reflexivity. }
    destruct c; exact E. }
  destruct (new_higgs_works py_consts 100 500 1 (1 / 100)) as [wh Eh]; [cbn; lra|lra|].
  destruct (new_heavy_works py_consts 100 500 1 (1 / 10) 5000 (2 / 3)) as [wq Eq]; [lra|lra|].
  do 2 eexists. split; [exact Eh|]. split; [exact Eq|]. clear Eh Eq.
  unfold s_run. cbn [fold_left fst snd].
  match goal with |- context [s_set py_consts (MkSobj HiggsPortal ?P ?w ?st ?q ?m ?Q) _ _] =>
    destruct (HS HiggsPortal P w st q m Q) as (Ph & wh' & -> & Lh); [cbn; lra|] end.
  match goal with |- context [s_set py_consts (MkSobj HeavyQuark ?P ?w ?st ?q ?m ?Q) _ _] =>
    destruct (HS HeavyQuark P w st q m Q) as (Pq & wq' & -> & Lq); [cbn; lra|] end.
  cbn [fst snd so_par so_mQ c_vh py_consts]. rewrite Lh, Lq.
  repeat split; lra.
Qed.
Print Assumptions lam_setter_refuted.

(** Hidden couplings: the assignment raises AttributeError and changes nothing, and no other assignment
    raises AttributeError. *)
Definition s_hidden (c : sclass) (a : sattr) : Prop :=
  c <> ScalarMediator /\ In a [S_gsff; S_gsGG; S_gsFF].
Definition v_hidden (c : vclass) (a : vattr) : Prop :=
  (c = KineticMixing /\ In a [V_gvuu; V_gvdd; V_gvss; V_gvee; V_gvmumu]) \/
  (c = QuarksOnly /\ In a [V_gvee; V_gvmumu]).

Theorem hidden_scalar_setters : forall C o a x,
  (s_hidden (so_class o) a -> exists msg, s_set C o a x = (o, Some (AttributeError msg))) /\
  (forall msg, snd (s_set C o a x) = Some (AttributeError msg) -> s_hidden (so_class o) a).
Proof.
  intros C o a x.
  assert (HN : forall q msg, snd (compute_width_s C q) <> Some (AttributeError msg)).
  { intros q msg. unfold compute_width_s. destruct (s_total C (so_par q)) as [w|y] eqn:E; cbn [snd]; [discriminate|].
    apply s_total_raises in E. destruct E as [-> _]. discriminate. }
  split.
  - intros [Hc Ha]. unfold s_set. cbn in Ha.
    destruct (so_class o); [contradiction| |];
      (destruct Ha as [<-|[<-|[<-|[]]]]; eexists; reflexivity).
  - intros msg. unfold s_set, s_base_set, s_refresh, s_hidden.
    destruct (so_class o), a; cbn [snd]; intro E; try discriminate E;
      try (exfalso; exact (HN _ _ E)); (split; [discriminate|cbn; tauto]).
Qed.
Print Assumptions hidden_scalar_setters.

Theorem hidden_vector_setters : forall C o a x,
  (v_hidden (vo_class o) a -> exists msg, v_set C o a x = (o, Some (AttributeError msg))) /\
  (forall msg, snd (v_set C o a x) = Some (AttributeError msg) -> v_hidden (vo_class o) a).
Proof.
  intros C o a x.
  assert (HN : forall q msg, snd (compute_width_v C q) <> Some (AttributeError msg)).
  { intros q msg. unfold compute_width_v. destruct (v_total C (vo_par q)) as [w|y] eqn:E; cbn [snd]; [discriminate|].
    apply v_total_raises in E. destruct E as [-> _]. discriminate. }
  split.
  - intros [[Hc Ha]|[Hc Ha]]; unfold v_set; rewrite Hc; cbn in Ha;
      repeat (destruct Ha as [<-|Ha]; [eexists; reflexivity|]); contradiction.
  - intros msg. unfold v_set, v_hidden.
    destruct (vo_class o), a; cbn [snd]; intro E; try discriminate E;
      try (exfalso; exact (HN _ _ E)); cbn; tauto.
Qed.
Print Assumptions hidden_vector_setters.

Example hidden_setters_case : s_hidden HiggsPortal S_gsGG /\ ~ s_hidden HiggsPortal S_lam /\
  v_hidden KineticMixing V_gvss /\ ~ v_hidden QuarksOnly V_gvss.
Proof.
  unfold s_hidden, v_hidden. cbn. repeat split; try discriminate; try tauto.
  - intros [_ [H|[H|[H|[]]]]]; discriminate.
  - intros [[H _]|[_ [H|[H|[]]]]]; discriminate.
Qed.

(** An assignment that fails while recomputing the width is not undone: the new value and the old width
    stay behind together. *)
Theorem failed_assignment_refuted : exists o,
  new_scalar py_consts 100 500 1 0 0 1 1000 = Ret o /\
  snd (s_set py_consts o S_lam 0) = Some ZeroDivisionError /\
  s_lam (so_par (s_run py_consts o [(S_lam, 0)])) = 0 /\
  so_width (s_run py_consts o [(S_lam, 0)]) = so_width o.
Proof.
  unfold new_scalar. rewrite s_init_works; [|reflexivity|split; [cbn; lra|left; cbn; lra]].
  eexists. split; [reflexivity|].
  assert (HL : forall P, s_lam P = 0 -> s_total py_consts P = Raise ZeroDivisionError).
  { intros P HP. unfold s_total. destruct (Req_EM_T (s_lam P) 0); [reflexivity|contradiction]. }
  unfold s_run. cbn [fold_left fst snd]. unfold s_set. cbn [so_class with_swidth].
  unfold s_base_set, s_refresh, compute_width_s.
  match goal with |- context [s_total py_consts ?P1] => rewrite (HL P1 eq_refl) end.
  split; [reflexivity|]. split; reflexivity.
Qed.
Print Assumptions failed_assignment_refuted.

(** * Vector models *)

Lemma v_init_parts : forall C o o', v_init C o = Ret o' ->
  vo_class o' = vo_class o /\ vo_par o' = vo_par o /\ vo_eps o' = vo_eps o.
Proof.
  intros C o o' E. unfold v_init in E. pose proof (compute_width_v_frame C o) as H.
  destruct (compute_width_v C o) as [q [x|]]; [discriminate|]. injection E as <-. exact H.
Qed.
Lemma v_init_works : forall C o, v_has_width (vo_par o) ->
  v_init C o = Ret (MkVobj (vo_class o) (vo_par o) (v_width_sum C (vo_par o)) (vo_eps o)).
Proof. intros C o H. unfold v_init, compute_width_v. now rewrite (v_total_has_width C _ H). Qed.

Ltac v_steps :=
  repeat match goal with |- context [vattr_eq_dec ?a ?b] =>
    destruct (vattr_eq_dec a b); try discriminate; try congruence end.

Lemma vector_script : forall C o mx mv gvxx gvuu gvdd gvss gvee gvmumu script,
  new_vector C mx mv gvxx gvuu gvdd gvss gvee gvmumu = Ret o ->
  let v := v_latest script in
  let o' := v_run C o script in
  vo_class o' = VectorMediator /\
  vo_par o' = MkV (v V_mx mx) (v V_mv mv) (v V_gvxx gvxx) (v V_gvuu gvuu) (v V_gvdd gvdd) (v V_gvss gvss)
                (v V_gvee gvee) (v V_gvmumu gvmumu) /\
  vo_eps o' = 0.
Proof.
  intros C o mx mv gvxx gvuu gvdd gvss gvee gvmumu script E. apply v_init_parts in E. cbv zeta.
  induction script as [|[a x] script IH] using rev_ind; [exact E|].
  rewrite v_run_snoc, !latest_snoc. destruct IH as (Hc & HP & He).
  set (o1 := v_run C o script) in *. clearbody o1. unfold v_set. rewrite Hc.
  destruct a; cbn [fst];
    try (match goal with |- context [compute_width_v C ?q] =>
           destruct (compute_width_v_frame C q) as (F1 & F2 & F3); rewrite F1, F2, F3 end);
    cbn [vo_class vo_par vo_eps]; rewrite ?Hc, ?HP, ?He; unfold v_store;
    v_steps; repeat split; reflexivity.
Qed.
Lemma mixing_script : forall C o mx mv gvxx eps script,
  new_mixing C mx mv gvxx eps = Ret o ->
  let v := v_latest script in
  let o' := v_run C o script in
  vo_class o' = KineticMixing /\
  vo_par o' = mixing_params C (v V_mx mx) (v V_mv mv) (v V_gvxx gvxx) (v V_eps eps) /\
  vo_eps o' = v V_eps eps.
Proof.
  intros C o mx mv gvxx eps script E. apply v_init_parts in E. cbv zeta.
  induction script as [|[a x] script IH] using rev_ind; [exact E|].
  rewrite v_run_snoc, !latest_snoc. destruct IH as (Hc & HP & He).
  set (o1 := v_run C o script) in *. clearbody o1. unfold v_set. rewrite Hc.
  destruct a; cbn [fst];
    try (match goal with |- context [compute_width_v C ?q] =>
           destruct (compute_width_v_frame C q) as (F1 & F2 & F3); rewrite F1, F2, F3 end);
    cbn [vo_class vo_par vo_eps]; rewrite ?Hc, ?HP, ?He; unfold v_store, mixing_params; cbn [v_mx v_mv v_gvxx];
    v_steps; repeat split; reflexivity.
Qed.
Lemma quarks_script : forall C o mx mv gvxx gvuu gvdd gvss script,
  new_quarks C mx mv gvxx gvuu gvdd gvss = Ret o ->
  let v := v_latest script in
  let o' := v_run C o script in
  vo_class o' = QuarksOnly /\
  vo_par o' = MkV (v V_mx mx) (v V_mv mv) (v V_gvxx gvxx) (v V_gvuu gvuu) (v V_gvdd gvdd) (v V_gvss gvss) 0 0 /\
  vo_eps o' = 0.
Proof.
  intros C o mx mv gvxx gvuu gvdd gvss script E. apply v_init_parts in E. cbv zeta.
  induction script as [|[a x] script IH] using rev_ind; [exact E|].
  rewrite v_run_snoc, !latest_snoc. destruct IH as (Hc & HP & He).
  set (o1 := v_run C o script) in *. clearbody o1. unfold v_set. rewrite Hc.
  destruct a; cbn [fst];
    try (match goal with |- context [compute_width_v C ?q] =>
           destruct (compute_width_v_frame C q) as (F1 & F2 & F3); rewrite F1, F2, F3 end);
    cbn [vo_class vo_par vo_eps]; rewrite ?Hc, ?HP, ?He; unfold v_store;
    v_steps; repeat split; reflexivity.
Qed.

Lemma vobj_eq : forall a b, vo_class a = vo_class b -> vo_par a = vo_par b -> vo_width a = vo_width b ->
  vo_eps a = vo_eps b -> a = b.
Proof. intros [? ? ? ?] [? ? ? ?] ? ? ? ?. cbn in *. congruence. Qed.

Theorem vector_assignments_as_fresh : forall C o mx mv gvxx gvuu gvdd gvss gvee gvmumu script,
  new_vector C mx mv gvxx gvuu gvdd gvss gvee gvmumu = Ret o ->
  let v := v_latest script in
  0 < v V_mv mv ->
  new_vector C (v V_mx mx) (v V_mv mv) (v V_gvxx gvxx) (v V_gvuu gvuu) (v V_gvdd gvdd) (v V_gvss gvss)
    (v V_gvee gvee) (v V_gvmumu gvmumu) = Ret (v_run C o script).
Proof.
  intros C o mx mv gvxx gvuu gvdd gvss gvee gvmumu script E v Hm.
  destruct (vector_script C o mx mv gvxx gvuu gvdd gvss gvee gvmumu script E) as (Hc & HP & He).
  unfold new_vector. rewrite v_init_works by (left; cbn; fold v; lra). f_equal. symmetry.
  apply vobj_eq; try assumption. rewrite cached_width_vector.
  - now rewrite HP.
  - left. now exists mx, mv, gvxx, gvuu, gvdd, gvss, gvee, gvmumu.
  - rewrite HP. left. cbn. fold v. lra.
Qed.
Print Assumptions vector_assignments_as_fresh.

(** Kinetic mixing: every coupling follows the latest eps, in proportion to the charges, and the object is
    the fresh one; quarks only: the lepton couplings stay zero. *)
Theorem mixing_assignments_as_fresh : forall C o mx mv gvxx eps script,
  new_mixing C mx mv gvxx eps = Ret o ->
  let v := v_latest script in
  let o' := v_run C o script in
  let g := - (vo_eps o' * sqrt (4 * PI * c_alpha C)) in
  vo_eps o' = v V_eps eps /\
  v_gvuu (vo_par o') = 2 / 3 * g /\ v_gvdd (vo_par o') = - (1 / 3) * g /\ v_gvss (vo_par o') = - (1 / 3) * g /\
  v_gvee (vo_par o') = - g /\ v_gvmumu (vo_par o') = - g /\
  (0 < v V_mv mv -> new_mixing C (v V_mx mx) (v V_mv mv) (v V_gvxx gvxx) (v V_eps eps) = Ret o').
Proof.
  intros C o mx mv gvxx eps script E v o' g.
  destruct (mixing_script C o mx mv gvxx eps script E) as (Hc & HP & He). fold v o' in Hc, HP, He.
  unfold g. rewrite He, HP. unfold mixing_params, Qu, Qd, Qe, qe.
  cbn [v_gvuu v_gvdd v_gvss v_gvee v_gvmumu].
  repeat split; try lra.
  intro Hm. unfold new_mixing. rewrite v_init_works by (left; cbn; lra). f_equal. symmetry.
  apply vobj_eq; try assumption. unfold o' in *. rewrite cached_width_vector.
  - now rewrite HP.
  - right. left. now exists mx, mv, gvxx, eps.
  - rewrite HP. left. cbn. lra.
Qed.
Print Assumptions mixing_assignments_as_fresh.

Theorem quarks_assignments_as_fresh : forall C o mx mv gvxx gvuu gvdd gvss script,
  new_quarks C mx mv gvxx gvuu gvdd gvss = Ret o ->
  let v := v_latest script in
  let o' := v_run C o script in
  v_gvee (vo_par o') = 0 /\ v_gvmumu (vo_par o') = 0 /\
  (0 < v V_mv mv ->
   new_quarks C (v V_mx mx) (v V_mv mv) (v V_gvxx gvxx) (v V_gvuu gvuu) (v V_gvdd gvdd) (v V_gvss gvss) = Ret o').
Proof.
  intros C o mx mv gvxx gvuu gvdd gvss script E v o'.
  destruct (quarks_script C o mx mv gvxx gvuu gvdd gvss script E) as (Hc & HP & He). fold v o' in Hc, HP, He.
  rewrite HP. cbn [v_gvee v_gvmumu]. repeat split.
  intro Hm. unfold new_quarks. rewrite v_init_works by (left; cbn; lra). f_equal. symmetry.
  apply vobj_eq; try assumption. unfold o' in *. rewrite cached_width_vector.
  - now rewrite HP.
  - right. right. now exists mx, mv, gvxx, gvuu, gvdd, gvss.
  - rewrite HP. left. cbn. lra.
Qed.
Print Assumptions quarks_assignments_as_fresh.

Example vector_scripts_case :
  exists o, new_mixing py_consts 250 1000 1 (1 / 10) = Ret o /\
  let script := [(V_eps, 1 / 2); (V_gvee, 3); (V_mx, 100); (V_eps, 1 / 4)] in
  v_latest script V_eps (1 / 10) = 1 / 4 /\ v_latest script V_mx 250 = 100 /\ 0 < v_latest script V_mv 1000 /\
  v_gvee (vo_par (v_run py_consts o script)) = 1 / 4 * sqrt (4 * PI * c_alpha py_consts).
Proof.
  unfold new_mixing. rewrite v_init_works by (left; cbn; lra). eexists. split; [reflexivity|]. cbv zeta.
  match goal with |- v_latest ?l _ _ = _ /\ _ => set (script := l) end.
  split; [reflexivity|]. split; [reflexivity|].
  split; [change (v_latest script V_mv 1000) with 1000; lra|].
  assert (E : exists o, new_mixing py_consts 250 1000 1 (1 / 10) = Ret o).
  { unfold new_mixing. rewrite v_init_works by (left; cbn; lra). now eexists. }
  destruct E as [o E].
  destruct (mixing_assignments_as_fresh _ _ _ _ _ _ script E) as (G0 & _ & _ & _ & G & _).
  assert (EO : o = MkVobj KineticMixing (mixing_params py_consts 250 1000 1 (1 / 10))
                (v_width_sum py_consts (mixing_params py_consts 250 1000 1 (1 / 10))) (1 / 10)).
  { unfold new_mixing in E. rewrite v_init_works in E by (left; cbn; lra). injection E as <-. reflexivity. }
  cbn [vo_class vo_par vo_eps]. rewrite <- EO. rewrite G, G0.
  change (v_latest script V_eps (1 / 10)) with (1 / 4). lra.
Qed.

(** The documentation of KineticMixing (vector_mediator/__init__.py 187-193) gives the couplings as
    + Q qe eps; the code has the opposite sign. *)
Theorem mixing_sign_refuted : exists o,
  new_mixing py_consts 250 1000 1 (1 / 10) = Ret o /\
  v_gvuu (vo_par o) <> Qu * qe py_consts * vo_eps o /\ v_gvee (vo_par o) <> Qe * qe py_consts * vo_eps o.
Proof.
  unfold new_mixing. rewrite v_init_works by (left; cbn; lra). eexists. split; [reflexivity|].
  cbn [vo_par vo_eps v_gvuu v_gvee mixing_params].
  assert (0 < qe py_consts).
  { unfold qe. apply sqrt_lt_R0. pose proof PI_RGT_0. cbn [c_alpha py_consts]. lra. }
  unfold Qu, Qe. split; lra.
Qed.
Print Assumptions mixing_sign_refuted.
