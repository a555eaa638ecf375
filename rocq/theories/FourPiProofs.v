(** Vocabulary and lemmas for the four-pion currents. *)
From Coq Require Import Reals Psatz List.
From Verif Require Import PyBase RamboModel RamboProofs KinModel KinProofs VffModel RareModel FourPiModel.
Import ListNotations.
Local Open Scope R_scope.

(** * Vocabulary *)

(** The scalar product of special relativity with signature (+, -, -, -). *)
Definition mdot (a b : vec) : R := en a * en b - (px a * px b + py a * py b + pz a * pz b).
(** A current is conserved for the total momentum [Q] when both its parts are orthogonal to [Q]. *)
Definition conserved (Q : vec) (j : cvec) : Prop := mdot Q (cre j) = 0 /\ mdot Q (cim j) = 0.
Definition opposite (a : cvec) : cvec :=
  CV (V4 (- en (cre a)) (- px (cre a)) (- py (cre a)) (- pz (cre a))) (V4 (- en (cim a)) (- px (cim a)) (- py (cim a)) (- pz (cim a))).
(** A linear map of four-vectors that keeps every scalar product: boosts, rotations and reflections. *)
Definition lorentz_map (L : vec -> vec) : Prop :=
  (forall a b, L (vplus a b) = vplus (L a) (L b))
  /\ (forall c a, L (vscale c a) = vscale c (L a))
  /\ forall a b, mdot (L a) (L b) = mdot a b.
Definition total4 (q1 q2 q3 q4 : vec) : vec := vplus (vplus (vplus q1 q2) q3) q4.

Lemma vec_ext a b : en a = en b -> px a = px b -> py a = py b -> pz a = pz b -> a = b.
Proof. destruct a, b. cbn. intros. now subst. Qed.
Lemma cvec_ext a b : cre a = cre b -> cim a = cim b -> a = b.
Proof. destruct a, b. cbn. intros. now subst. Qed.
Ltac vec_norm := cbn [cvplus cvminus ctimes cvscale opposite vplus vminus vscale vzero cadd csub cscale cmul rcdot cre cim en px py pz fst snd];
  unfold ldot, lnorm_sqr, rcdot, cscale, cadd, csub, cmul;
  cbn [cvplus cvminus ctimes cvscale opposite vplus vminus vscale vzero cre cim en px py pz fst snd].
Ltac vec_ring := repeat first [apply cvec_ext | apply vec_ext | apply (f_equal2 (@pair R R))]; vec_norm; ring.

Lemma mdot_ldot a b : mdot a b = ldot a b.
Proof. unfold mdot, ldot. ring. Qed.
Lemma ldot_comm a b : ldot a b = ldot b a.
Proof. unfold ldot. ring. Qed.
Lemma vplus_comm a b : vplus a b = vplus b a.
Proof. vec_ring. Qed.
Lemma ldot_plus Q a b : ldot Q (vplus a b) = ldot Q a + ldot Q b.
Proof. vec_ring. Qed.
Lemma ldot_minus Q a b : ldot Q (vminus a b) = ldot Q a - ldot Q b.
Proof. vec_ring. Qed.
Lemma ldot_scale Q c a : ldot Q (vscale c a) = c * ldot Q a.
Proof. vec_ring. Qed.
Lemma ldot_self a : ldot a a = lnorm_sqr a.
Proof. vec_ring. Qed.

(** * Conservation *)

Lemma conserved_plus Q a b : conserved Q a -> conserved Q b -> conserved Q (cvplus a b).
Proof. intros [A B] [C D]. unfold conserved in *. rewrite !mdot_ldot in *. cbn [cvplus cre cim]. rewrite !ldot_plus. split; lra. Qed.
Lemma conserved_minus Q a b : conserved Q a -> conserved Q b -> conserved Q (cvminus a b).
Proof. intros [A B] [C D]. unfold conserved in *. rewrite !mdot_ldot in *. cbn [cvminus cre cim]. rewrite !ldot_minus. split; lra. Qed.
Lemma conserved_zero Q : conserved Q (CV vzero vzero).
Proof. split; rewrite mdot_ldot; vec_ring. Qed.
Lemma conserved_times Q z v : ldot Q v = 0 -> conserved Q (ctimes z v).
Proof. intros H. split; rewrite mdot_ldot; cbn [ctimes cre cim]; rewrite ldot_scale, H; ring. Qed.
Lemma conserved_scale Q z a : conserved Q a -> conserved Q (cvscale z a).
Proof. intros [A B]. rewrite mdot_ldot in A, B. split; rewrite mdot_ldot; cbn [cvscale cre cim]; rewrite ?ldot_plus, ?ldot_minus, !ldot_scale, A, B; ring. Qed.
Lemma project_orthogonal Q v : lnorm_sqr Q <> 0 -> ldot Q (project Q (lnorm_sqr Q) v) = 0.
Proof. intros H. unfold project. rewrite ldot_minus, ldot_scale, ldot_self. field. exact H. Qed.
Lemma project_complex Q g : lnorm_sqr Q <> 0 ->
  conserved Q (cvminus g (ctimes (cscale (/ lnorm_sqr Q) (rcdot Q g)) Q)).
Proof.
  intros H. split; rewrite mdot_ldot; cbn [cvminus ctimes cscale rcdot cre cim fst snd]; rewrite ldot_minus, ldot_scale, ldot_self; field; exact H.
Qed.
Lemma neutral_conserved f Q q1 q2 q3 q4 : lnorm_sqr Q <> 0 -> conserved Q (current_neutral f Q (lnorm_sqr Q) q1 q2 q3 q4).
Proof.
  intros H. unfold current_neutral.
  assert (T : forall a b c d, conserved Q (current_a1_t f Q (lnorm_sqr Q) a b c d))
    by (intros; apply conserved_times, project_orthogonal, H).
  assert (O : forall a b c d, conserved Q (current_omega_t f Q (lnorm_sqr Q) a b c d)).
  { intros. apply conserved_times. rewrite !ldot_plus, !ldot_scale.
    rewrite (ldot_comm b Q), (ldot_comm c Q), (ldot_comm d Q). ring. }
  repeat apply conserved_plus; try apply conserved_zero.
  - unfold current_a1. repeat apply conserved_minus; try apply conserved_plus; apply T.
  - apply conserved_times, project_orthogonal, H.
  - apply O.
  - apply O.
  - apply conserved_scale, project_complex, H.
Qed.

(** * A vector orthogonal to a timelike one is spacelike *)
Lemma orthogonal_spacelike Q v : 0 < lnorm_sqr Q -> ldot Q v = 0 -> ldot v v <= 0.
Proof.
  destruct Q as [a b c d], v as [e x y z]. unfold lnorm_sqr, ldot. cbn [en px py pz]. intros P O.
  assert (O' : a * e = b * x + c * y + d * z) by lra.
  set (B := b ^ 2 + c ^ 2 + d ^ 2). set (X := x * x + y * y + z * z).
  assert (CS : (b * x + c * y + d * z) ^ 2 <= B * X).
  { unfold B, X. assert (0 <= (b * y - c * x) ^ 2) by apply pow2_ge_0. assert (0 <= (b * z - d * x) ^ 2) by apply pow2_ge_0.
    assert (0 <= (c * z - d * y) ^ 2) by apply pow2_ge_0. nra. }
  rewrite <- O' in CS. assert (Pa : B < a ^ 2) by (unfold B; lra).
  assert (B0 : 0 <= B) by (unfold B; nra). assert (X0 : 0 <= X) by (unfold X; nra).
  assert (A2 : 0 < a ^ 2) by lra.
  enough (e * e <= X) by (unfold X in *; lra).
  assert (a ^ 2 * (e * e) <= a ^ 2 * X).
  { apply Rle_trans with (B * X); [nra|]. apply Rmult_le_compat_r; lra. }
  apply Rmult_le_reg_l with (a ^ 2); assumption.
Qed.

(** * Exchanges *)

Lemma opposite_plus a b : cvplus (opposite a) (opposite b) = opposite (cvplus a b).
Proof. vec_ring. Qed.
Lemma opposite_times z v : ctimes z (vscale (-1) v) = opposite (ctimes z v).
Proof. vec_ring. Qed.
Lemma opposite_scale z a : cvscale z (opposite a) = opposite (cvscale z a).
Proof. vec_ring. Qed.
Lemma project_opp Q Q2 v : project Q Q2 (vscale (-1) v) = vscale (-1) (project Q Q2 v).
Proof. unfold project. rewrite ldot_scale. unfold Rdiv. vec_ring. Qed.
Lemma flip a b : vminus a b = vscale (-1) (vminus b a).
Proof. vec_ring. Qed.
Lemma cadd_comm a b : cadd a b = cadd b a.
Proof. vec_ring. Qed.

Lemma a1_swap_12 f Q Q2 q1 q2 q3 q4 : current_a1 f Q Q2 q2 q1 q3 q4 = current_a1 f Q Q2 q1 q2 q3 q4.
Proof.
  unfold current_a1. generalize (current_a1_t f Q Q2 q3 q1 q2 q4), (current_a1_t f Q Q2 q3 q2 q1 q4), (current_a1_t f Q Q2 q4 q1 q2 q3), (current_a1_t f Q Q2 q4 q2 q1 q3).
  intros. vec_ring.
Qed.
Lemma a1_swap_34 f Q Q2 q1 q2 q3 q4 : current_a1 f Q Q2 q1 q2 q4 q3 = opposite (current_a1 f Q Q2 q1 q2 q3 q4).
Proof.
  unfold current_a1. generalize (current_a1_t f Q Q2 q3 q1 q2 q4), (current_a1_t f Q Q2 q3 q2 q1 q4), (current_a1_t f Q Q2 q4 q1 q2 q3), (current_a1_t f Q Q2 q4 q2 q1 q3).
  intros. vec_ring.
Qed.
Lemma f0_swap_12 f Q Q2 q1 q2 q3 q4 : current_f0 f Q Q2 q2 q1 q3 q4 = current_f0 f Q Q2 q1 q2 q3 q4.
Proof. unfold current_f0. now rewrite (vplus_comm q2 q1). Qed.
Lemma f0_swap_34 f Q Q2 q1 q2 q3 q4 : current_f0 f Q Q2 q1 q2 q4 q3 = opposite (current_f0 f Q Q2 q1 q2 q3 q4).
Proof. unfold current_f0. now rewrite (vplus_comm q4 q3), (flip q4 q3), project_opp, opposite_times. Qed.
Lemma omega_swap_12 f Q Q2 q1 q2 q3 q4 : current_omega f Q Q2 q2 q1 q3 q4 = current_omega f Q Q2 q1 q2 q3 q4.
Proof. unfold current_omega. generalize (current_omega_t f Q Q2 q2 q1 q3 q4), (current_omega_t f Q Q2 q1 q2 q3 q4). intros. vec_ring. Qed.
Lemma omega_t_swap f Q Q2 q1 q2 q3 q4 : current_omega_t f Q Q2 q1 q2 q4 q3 = opposite (current_omega_t f Q Q2 q1 q2 q3 q4).
Proof.
  unfold current_omega_t. rewrite <- opposite_times. f_equal.
  - f_equal. f_equal. unfold propagator_rho_h. rewrite (vplus_comm q4 q3).
    now rewrite (cadd_comm (breit_wigner3 (lnorm_sqr (vplus q2 q4)) MRHO_GEV GRHO_GEV)).
  - generalize (ldot q1 q2), (ldot q1 q3), (ldot q1 q4), (ldot q2 Q), (ldot q3 Q), (ldot q4 Q). intros. vec_ring.
Qed.
Lemma omega_swap_34 f Q Q2 q1 q2 q3 q4 : current_omega f Q Q2 q1 q2 q4 q3 = opposite (current_omega f Q Q2 q1 q2 q3 q4).
Proof. unfold current_omega. now rewrite (omega_t_swap f Q Q2 q1 q2 q3 q4), (omega_t_swap f Q Q2 q2 q1 q3 q4), opposite_plus. Qed.
Lemma rho_sum_swap_12 q1 q2 q3 q4 : rho_sum q2 q1 q3 q4 = rho_sum q1 q2 q3 q4.
Proof.
  unfold rho_sum. generalize (propagator_rho_g q1 q2 q3 q4), (propagator_rho_g q4 q1 q2 q3), (propagator_rho_g q1 q2 q4 q3), (propagator_rho_g q3 q1 q2 q4),
    (propagator_rho_g q2 q1 q3 q4), (propagator_rho_g q4 q2 q1 q3), (propagator_rho_g q2 q1 q4 q3), (propagator_rho_g q3 q2 q1 q4).
  intros. vec_ring.
Qed.
Lemma rho_sum_swap_34 q1 q2 q3 q4 : rho_sum q1 q2 q4 q3 = opposite (rho_sum q1 q2 q3 q4).
Proof.
  unfold rho_sum. generalize (propagator_rho_g q1 q2 q3 q4), (propagator_rho_g q4 q1 q2 q3), (propagator_rho_g q1 q2 q4 q3), (propagator_rho_g q3 q1 q2 q4),
    (propagator_rho_g q2 q1 q3 q4), (propagator_rho_g q4 q2 q1 q3), (propagator_rho_g q2 q1 q4 q3), (propagator_rho_g q3 q2 q1 q4).
  intros. vec_ring.
Qed.
Lemma rho_swap_12 f Q Q2 q1 q2 q3 q4 : current_rho f Q Q2 q2 q1 q3 q4 = current_rho f Q Q2 q1 q2 q3 q4.
Proof. unfold current_rho. now rewrite rho_sum_swap_12. Qed.
Lemma rho_swap_34 f Q Q2 q1 q2 q3 q4 : current_rho f Q Q2 q1 q2 q4 q3 = opposite (current_rho f Q Q2 q1 q2 q3 q4).
Proof.
  unfold current_rho. rewrite rho_sum_swap_34, <- opposite_scale. f_equal. generalize (rho_sum q1 q2 q3 q4). intros. vec_ring.
Qed.
Lemma neutral_swap_12 f Q Q2 q1 q2 q3 q4 : current_neutral f Q Q2 q2 q1 q3 q4 = current_neutral f Q Q2 q1 q2 q3 q4.
Proof. unfold current_neutral. now rewrite a1_swap_12, f0_swap_12, omega_swap_12, rho_swap_12. Qed.
Lemma neutral_swap_34 f Q Q2 q1 q2 q3 q4 : current_neutral f Q Q2 q1 q2 q4 q3 = opposite (current_neutral f Q Q2 q1 q2 q3 q4).
Proof.
  unfold current_neutral. rewrite a1_swap_34, f0_swap_34, omega_swap_34, rho_swap_34.
  generalize (current_a1 f Q Q2 q1 q2 q3 q4), (current_f0 f Q Q2 q1 q2 q3 q4), (current_omega f Q Q2 q1 q2 q3 q4), (current_rho f Q Q2 q1 q2 q3 q4).
  intros. vec_ring.
Qed.
Lemma charged_swap_plus f Q Q2 q1 q2 q3 q4 : current_charged f Q Q2 q3 q2 q1 q4 = current_charged f Q Q2 q1 q2 q3 q4.
Proof.
  unfold current_charged.
  generalize (current_neutral f Q Q2 q1 q4 q3 q2), (current_neutral f Q Q2 q3 q4 q1 q2), (current_neutral f Q Q2 q1 q2 q3 q4), (current_neutral f Q Q2 q3 q2 q1 q4).
  intros. vec_ring.
Qed.
Lemma charged_swap_minus f Q Q2 q1 q2 q3 q4 : current_charged f Q Q2 q1 q4 q3 q2 = current_charged f Q Q2 q1 q2 q3 q4.
Proof.
  unfold current_charged.
  generalize (current_neutral f Q Q2 q1 q4 q3 q2), (current_neutral f Q Q2 q3 q4 q1 q2), (current_neutral f Q Q2 q1 q2 q3 q4), (current_neutral f Q Q2 q3 q2 q1 q4).
  intros. vec_ring.
Qed.
Lemma charged_conjugate f Q Q2 q1 q2 q3 q4 : current_charged f Q Q2 q2 q1 q4 q3 = opposite (current_charged f Q Q2 q1 q2 q3 q4).
Proof.
  unfold current_charged.
  rewrite (neutral_swap_34 f Q Q2 q4 q3 q1 q2), (neutral_swap_12 f Q Q2 q3 q4 q1 q2).
  rewrite (neutral_swap_34 f Q Q2 q2 q3 q1 q4), (neutral_swap_12 f Q Q2 q3 q2 q1 q4).
  rewrite (neutral_swap_34 f Q Q2 q4 q1 q3 q2), (neutral_swap_12 f Q Q2 q1 q4 q3 q2).
  rewrite (neutral_swap_34 f Q Q2 q2 q1 q3 q4), (neutral_swap_12 f Q Q2 q1 q2 q3 q4).
  generalize (current_neutral f Q Q2 q1 q4 q3 q2), (current_neutral f Q Q2 q3 q4 q1 q2), (current_neutral f Q Q2 q1 q2 q3 q4), (current_neutral f Q Q2 q3 q2 q1 q4).
  intros. vec_ring.
Qed.

(** * Lorentz maps *)
Definition cmapv (L : vec -> vec) (a : cvec) : cvec := CV (L (cre a)) (L (cim a)).

Section Lorentz.
Variable L : vec -> vec.
Hypothesis HL : lorentz_map L.
Lemma L_plus a b : vplus (L a) (L b) = L (vplus a b).
Proof. destruct HL as (A & _ & _). now rewrite A. Qed.
Lemma L_scale c a : vscale c (L a) = L (vscale c a).
Proof. destruct HL as (_ & A & _). now rewrite A. Qed.
Lemma L_minus a b : vminus (L a) (L b) = L (vminus a b).
Proof.
  assert (E : forall u v, vminus u v = vplus u (vscale (-1) v)) by (intros; vec_ring).
  now rewrite !E, L_scale, L_plus.
Qed.
Lemma L_dot a b : ldot (L a) (L b) = ldot a b.
Proof. destruct HL as (_ & _ & A). rewrite <- !mdot_ldot. apply A. Qed.
Lemma L_norm a : lnorm_sqr (L a) = lnorm_sqr a.
Proof. rewrite <- !ldot_self. apply L_dot. Qed.
Lemma L_times z v : ctimes z (L v) = cmapv L (ctimes z v).
Proof. unfold ctimes, cmapv. cbn [cre cim]. now rewrite !L_scale. Qed.
Lemma L_cplus a b : cvplus (cmapv L a) (cmapv L b) = cmapv L (cvplus a b).
Proof. unfold cvplus, cmapv. cbn [cre cim]. now rewrite !L_plus. Qed.
Lemma L_cminus a b : cvminus (cmapv L a) (cmapv L b) = cmapv L (cvminus a b).
Proof. unfold cvminus, cmapv. cbn [cre cim]. now rewrite !L_minus. Qed.
Lemma L_cscale z a : cvscale z (cmapv L a) = cmapv L (cvscale z a).
Proof. unfold cvscale, cmapv. cbn [cre cim]. now rewrite !L_scale, L_plus, L_minus. Qed.
Lemma L_zero : L vzero = vzero.
Proof.
  assert (E : vzero = vscale 0 vzero) by vec_ring. rewrite E at 1. rewrite <- L_scale. vec_ring.
Qed.
Lemma L_project Q Q2 v : project (L Q) Q2 (L v) = L (project Q Q2 v).
Proof. unfold project. now rewrite L_dot, L_scale, L_minus. Qed.
Lemma L_g a b c d : propagator_rho_g (L a) (L b) (L c) (L d) = cmapv L (propagator_rho_g a b c d).
Proof.
  unfold propagator_rho_g. now rewrite L_scale, !L_plus, L_minus, L_dot, !L_norm, L_times.
Qed.
Lemma L_neutral f Q Q2 a b c d : current_neutral f (L Q) Q2 (L a) (L b) (L c) (L d) = cmapv L (current_neutral f Q Q2 a b c d).
Proof.
  assert (A : forall a b c d, current_a1_t f (L Q) Q2 (L a) (L b) (L c) (L d) = cmapv L (current_a1_t f Q Q2 a b c d)).
  { intros. unfold current_a1_t. cbv zeta. rewrite !L_minus, L_plus, L_norm, L_dot, L_scale, L_plus, L_project, L_times. now rewrite L_norm. }
  assert (O : forall a b c d, current_omega_t f (L Q) Q2 (L a) (L b) (L c) (L d) = cmapv L (current_omega_t f Q Q2 a b c d)).
  { intros. unfold current_omega_t. cbv zeta. rewrite !L_dot, !L_minus, !L_scale, !L_plus, !L_norm, L_times. reflexivity. }
  assert (E : CV vzero vzero = cmapv L (CV vzero vzero)) by (unfold cmapv; cbn [cre cim]; now rewrite L_zero).
  assert (D : forall u, rcdot (L Q) (cmapv L u) = rcdot Q u) by (intros; unfold rcdot, cmapv; cbn [cre cim]; now rewrite !L_dot).
  assert (B1 : current_a1 f (L Q) Q2 (L a) (L b) (L c) (L d) = cmapv L (current_a1 f Q Q2 a b c d))
    by (unfold current_a1; now rewrite !A, !L_cplus, !L_cminus).
  assert (B2 : current_f0 f (L Q) Q2 (L a) (L b) (L c) (L d) = cmapv L (current_f0 f Q Q2 a b c d))
    by (unfold current_f0; now rewrite !L_plus, !L_minus, !L_norm, L_project, L_times).
  assert (B3 : current_omega f (L Q) Q2 (L a) (L b) (L c) (L d) = cmapv L (current_omega f Q Q2 a b c d))
    by (unfold current_omega; now rewrite !O, L_cplus).
  assert (S8 : rho_sum (L a) (L b) (L c) (L d) = cmapv L (rho_sum a b c d))
    by (unfold rho_sum; rewrite !L_g; repeat first [rewrite L_cplus | rewrite L_cminus]; reflexivity).
  assert (B4 : current_rho f (L Q) Q2 (L a) (L b) (L c) (L d) = cmapv L (current_rho f Q Q2 a b c d))
    by (unfold current_rho; now rewrite S8, D, L_times, L_cminus, L_cscale).
  unfold current_neutral. rewrite B1, B2, B3, B4, E, !L_cplus. now rewrite <- E.
Qed.
Lemma L_current f m a b c d : msqrd_current f m (L a) (L b) (L c) (L d) = cmapv L (msqrd_current f m a b c d).
Proof.
  unfold msqrd_current. rewrite !L_plus, L_norm. destruct m as [|m]; [apply L_neutral|].
  cbn [form_factor_at]. unfold current_charged. now rewrite !L_neutral, !L_cplus.
Qed.
Lemma L_msqrd f m a b c d gu gd : msqrd f m (L a) (L b) (L c) (L d) gu gd = msqrd f m a b c d gu gd.
Proof.
  unfold msqrd. rewrite L_current, !L_plus, L_norm. unfold cmapv. cbn [cre cim]. now rewrite !L_dot.
Qed.
End Lorentz.
