(** The annihilation cross sections of the axial vector mediator. *)
From Coq Require Import Reals Bool List String Lra Lia.
From Verif Require Import PyBase RamboModel FourPiModel PseudoModel AxialModel.
Import ListNotations.
Local Open Scope R_scope.
Local Open Scope string_scope.

(** An integrator that answers zero for a function that is zero *)
Definition integrates_zero (quad : (R -> res R) -> R -> R -> res R) : Prop :=
  forall f a b, (forall x, f x = Ret 0) -> quad f a b = Ret 0.

Lemma checked_zero : checked 0 = Ret 0.
Proof. unfold checked. destruct (Rle_dec 0 0); [reflexivity | lra]. Qed.
Lemma ff_zero k mx Q f : f = "e" \/ f = "mu" -> sigma_xx_to_a_to_ff k mx Q f = Ret 0.
Proof.
  intros [-> | ->]; unfold sigma_xx_to_a_to_ff, ff_mass; cbn [String.eqb Ascii.eqb Bool.eqb bind];
    repeat match goal with |- context [Rle_dec ?a ?b] => destruct (Rle_dec a b) end; try exact checked_zero; reflexivity.
Qed.

(** The names of the answer, and zero for every one of them, whatever the energy and the masses *)
Theorem axial_cross_sections_vanish k quad mx ma Q : integrates_zero quad ->
  exists d, axial_cross_sections k quad mx ma Q = Ret d /\ map fst d = ["mu mu"; "e e"; "pi0 pi pi"; "a a"; "total"] /\
    Forall (fun p => snd p = 0) d.
Proof.
  intros Hq. unfold axial_cross_sections. rewrite !ff_zero by auto. cbn [bind].
  assert (Hp : sigma_xx_to_a_to_pi0pipi k quad mx Q = Ret 0).
  { unfold sigma_xx_to_a_to_pi0pipi. destruct (Rlt_dec _ _); [|reflexivity]. destruct (Rlt_dec _ _); [|reflexivity].
    rewrite Hq; [exact checked_zero|]. intros x. unfold dsigma_ds_xx_to_a_to_pi0pipi.
    repeat match goal with |- context [Rlt_dec ?a ?b] => destruct (Rlt_dec a b) end; reflexivity. }
  assert (Ha : sigma_xx_to_aa mx ma Q = Ret 0).
  { unfold sigma_xx_to_aa. repeat match goal with |- context [Rle_dec ?a ?b] => destruct (Rle_dec a b) end;
      try exact checked_zero; reflexivity. }
  rewrite Hp, Ha. cbn [bind]. eexists. split; [reflexivity|]. split; [reflexivity|].
  repeat (constructor; [cbn [snd]; lra|]). constructor.
Qed.
Example integrator_case : integrates_zero (fun f a b => let* v := f ((a + b) / 2) in Ret ((b - a) * v)).
Proof. intros f a b H. rewrite H. cbn [bind]. f_equal. ring. Qed.

(** Another name of a fermion is an error *)
Theorem axial_unknown_fermion k mx Q f : f <> "e" -> f <> "mu" -> exists n, sigma_xx_to_a_to_ff k mx Q f = Raise (NameError n).
Proof.
  intros H1 H2. exists "mf". unfold sigma_xx_to_a_to_ff, ff_mass. apply String.eqb_neq in H1, H2. rewrite H1, H2. reflexivity.
Qed.
Example unknown_case : "tau" <> "e" /\ "tau" <> "mu".
Proof. split; discriminate. Qed.

(** ** A process whose squared matrix element (the function of the same package) is positive has cross section zero *)
Theorem axial_cross_section_refuted : exists mx ma cx cf Q p3 p4,
  let mf := k_me hazma_consts in
  ldot p3 p3 = mf ^ 2 /\ ldot p4 p4 = mf ^ 2 /\ en p3 + en p4 = Q /\ 2 * mf < Q /\ 2 * mx < Q /\
  0 < msqrd_xx_to_a_to_ff mx mf ma cx cf p3 p4 /\ sigma_xx_to_a_to_ff hazma_consts mx Q "e" = Ret 0.
Proof.
  exists 3, 1, 1, 1, 10, (V4 5 (sqrt (25 - 0.5109989461 ^ 2)) 0 0), (V4 5 (- sqrt (25 - 0.5109989461 ^ 2)) 0 0). cbn [k_me hazma_consts].
  assert (E : sqrt (25 - 0.5109989461 ^ 2) ^ 2 = 25 - 0.5109989461 ^ 2) by (apply pow2_sqrt; lra).
  set (r := sqrt (25 - 0.5109989461 ^ 2)) in *.
  split; [unfold ldot; cbn; nra|]. split; [unfold ldot; cbn; nra|]. split; [cbn; lra|]. split; [lra|]. split; [lra|].
  split; [|apply ff_zero; auto].
  unfold msqrd_xx_to_a_to_ff, chi_momenta, ldot. cbn. unfold Rdiv. apply Rmult_lt_0_compat; [lra|]. apply Rinv_0_lt_compat. lra.
Qed.

(** ** The documented branching fractions are never answered: the method asked for does not exist *)
Theorem axial_branching_attribute k quad mx ma others Q : dget others "cross_sections" = None ->
  axial_branching_fractions k quad mx ma others Q = Raise (AttributeError "cross_sections").
Proof. intros H. unfold axial_branching_fractions, methods. cbn [dget String.eqb Ascii.eqb Bool.eqb]. rewrite H. reflexivity. Qed.
Theorem axial_branching_refuted : exists k mx ma Q, forall quad d,
  axial_branching_fractions k quad mx ma [] Q <> Ret d.
Proof. exists hazma_consts, 3, 1, 10. intros quad d. rewrite axial_branching_attribute by reflexivity. discriminate. Qed.

(** With a method of that name, four positive cross sections and their sum as the total give four positive fractions of sum one *)
Theorem axial_branching_sum k quad mx ma (cs : R -> res (dict R)) (others : dict (R -> res (dict R))) Q m e p a :
  dget others "cross_sections" = Some cs ->
  cs Q = Ret [("mu mu", m); ("e e", e); ("pi0 pi pi", p); ("a a", a); ("total", m + e + p + a)] ->
  0 < m -> 0 < e -> 0 < p -> 0 < a ->
  exists fm fe fp fa, axial_branching_fractions k quad mx ma others Q
      = Ret [("mu mu", fm); ("e e", fe); ("pi0 pi pi", fp); ("a a", fa)] /\
    fm + fe + fp + fa = 1 /\ fm * e = fe * m /\ fe * p = fp * e /\ fp * a = fa * p.
Proof.
  intros Ho Hc Hm He Hp Ha. unfold axial_branching_fractions, methods. cbn [dget String.eqb Ascii.eqb Bool.eqb]. rewrite Ho, Hc.
  cbn [bind]. unfold dindex. cbn [dget String.eqb Ascii.eqb Bool.eqb bind]. destruct (Req_EM_T (m + e + p + a) 0); [lra|].
  do 4 eexists. split; [reflexivity|]. repeat split; field; lra.
Qed.
Example branching_case : exists d, axial_branching_fractions hazma_consts (fun _ _ _ => Ret 0) 3 1
  [("cross_sections", fun _ => Ret [("mu mu", 1); ("e e", 2); ("pi0 pi pi", 3); ("a a", 4); ("total", 1 + 2 + 3 + 4)])] 10 = Ret d.
Proof.
  destruct (axial_branching_sum hazma_consts (fun _ _ _ => Ret 0) 3 1
    (fun _ => Ret [("mu mu", 1); ("e e", 2); ("pi0 pi pi", 3); ("a a", 4); ("total", 1 + 2 + 3 + 4)])
    [("cross_sections", fun _ => Ret [("mu mu", 1); ("e e", 2); ("pi0 pi pi", 3); ("a a", 4); ("total", 1 + 2 + 3 + 4)])] 10 1 2 3 4)
    as [fm [fe [fp [fa [H _]]]]]; try lra; try reflexivity. eexists. exact H.
Qed.

Print Assumptions axial_cross_sections_vanish.
Print Assumptions axial_unknown_fermion.
Print Assumptions axial_cross_section_refuted.
Print Assumptions axial_branching_attribute.
Print Assumptions axial_branching_refuted.
Print Assumptions axial_branching_sum.
