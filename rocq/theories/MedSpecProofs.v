(** Specification vocabulary and lemmas for the spectra of boosted mediators. *)
From Coq Require Import String Reals NArith Bool Lra Lia ClassicalEpsilon List.
From Verif Require Import PyBase RustBase RustMath Area BoostModel BoostProofs MedModel FsrModel SpecModel SpecProofs
  PionModel MedSpecModel.
Import ListNotations.
Local Open Scope R_scope.

(** * What is asked of a quadrature rule *)
(** Linear: true of every fixed-node rule and of the integral itself. *)
Definition linear_rule (quad : (R -> R) -> R -> R -> R) : Prop :=
  (forall f g a b, (forall x, f x = g x) -> quad f a b = quad g a b)
  /\ (forall f g a b, quad (fun x => f x + g x) a b = quad f a b + quad g a b)
  /\ (forall k f a b, quad (fun x => k * f x) a b = k * quad f a b).
(** Exact: returns the area under the curve whenever there is one. *)
Definition exact_rule (quad : (R -> R) -> R -> R -> R) : Prop :=
  forall f a b v, a <= b -> area f a b v -> quad f a b = v.

Definition simpson (f : R -> R) (a b : R) : R := (b - a) / 6 * (f a + 4 * f ((a + b) / 2) + f b).
Lemma simpson_linear : linear_rule simpson.
Proof.
  unfold simpson. split; [|split]; intros.
  - now rewrite !H.
  - ring.
  - ring.
Qed.
Lemma exact_exists : exists quad, exact_rule quad.
Proof.
  exists (fun f a b => epsilon (inhabits 0) (fun v => area f a b v)). intros f a b v Hab Hv.
  apply (area_unique f a b); [exact Hab| |exact Hv].
  apply (epsilon_spec (inhabits 0) (fun v => area f a b v)). now exists v.
Qed.

Lemma quad_zero quad : linear_rule quad -> forall f a b, (forall x, f x = 0) -> quad f a b = 0.
Proof.
  intros (E & _ & K) f a b H. rewrite (E f (fun x => 0 * f x) a b) by (intro x; rewrite H; ring).
  rewrite K. ring.
Qed.

(** * A line seen from a frame with velocity beta *)
Lemma between_true a x b : a <= x <= b -> between a x b = true.
Proof. intro H. unfold between. destruct (Rle_dec a x); [|lra]. destruct (Rle_dec x b); [reflexivity|lra]. Qed.
Lemma between_false a x b : x < a \/ b < x -> between a x b = false.
Proof. intro H. unfold between. destruct (Rle_dec a x); [|reflexivity]. destruct (Rle_dec x b); [lra|reflexivity]. Qed.
Lemma area_between lo hi h a b : a <= lo <= hi -> hi <= b ->
  area (fun e => if between lo e hi then h else 0) a b (h * (hi - lo)).
Proof.
  intros H1 H2. apply area_box; auto.
  - intros x Hx. now rewrite between_true by lra.
  - intros x Hx. now rewrite between_false by lra.
Qed.

(** The energy of each of two bodies of masses [m1], [m2] in the decay of a mass [M] *)
Definition two_body_energy (M m1 m2 : R) : R := (M ^ 2 + m1 ^ 2 - m2 ^ 2) / (2 * M).

(** * Flags *)
Lemma flags modes :
  flag_set (s_bitflag modes) BITFLAG_PP = in_modes "pi pi" modes
  /\ flag_set (s_bitflag modes) BITFLAG_MM = in_modes "mu mu" modes
  /\ flag_set (s_bitflag modes) BITFLAG_P0P0 = in_modes "pi0 pi0" modes
  /\ flag_set (s_bitflag modes) BITFLAG_GG = in_modes "g g" modes
  /\ flag_set (s_bitflag modes) BITFLAG_EEG = in_modes "e e g" modes
  /\ flag_set (s_bitflag modes) BITFLAG_PPG = in_modes "pi pi g" modes
  /\ flag_set (s_bitflag modes) BITFLAG_MMG = in_modes "mu mu g" modes.
Proof.
  unfold s_bitflag. cbv zeta.
  destruct (in_modes "pi pi" modes), (in_modes "mu mu" modes), (in_modes "pi0 pi0" modes), (in_modes "g g" modes),
    (in_modes "e e g" modes), (in_modes "pi pi g" modes), (in_modes "mu mu g" modes); repeat split; reflexivity.
Qed.

(** * Substitution of an affine function *)
Lemma area_affine f a b v p q c0 c1 : q < 0 -> p + q * c0 = b -> p + q * c1 = a -> a <= b ->
  area f a b v -> area (fun c => - q * f (p + q * c)) c0 c1 v.
Proof.
  intros Hq H0 H1 Hab (G & Gc & (l & Gd) & Gv).
  assert (D : forall c, derivable_pt_lim (fun c => p + q * c) c q).
  { intro c. pose proof (derivable_pt_lim_plus (fun _ => p) (fun c => q * c) c 0 (q * 1) (derivable_pt_lim_const p c)
      (derivable_pt_lim_scal id q c 1 (derivable_pt_lim_id c))) as D. rewrite Rplus_0_l, Rmult_1_r in D. exact D. }
  exists (fun c => - G (p + q * c)). split; [|split].
  - intros c Hc. apply (continuity_pt_opp (fun c => G (p + q * c))).
    apply (continuity_pt_comp (fun c => p + q * c) G).
    + apply derivable_continuous_pt. exists q. apply D.
    + apply Gc. nra.
  - exists (map (fun y => (y - p) / q) l). intros c Hc Hn.
    replace (- q * f (p + q * c)) with (- (f (p + q * c) * q)) by ring.
    apply (derivable_pt_lim_opp (fun c => G (p + q * c))).
    apply (derivable_pt_lim_comp (fun c => p + q * c) G); [apply D|]. apply Gd; [nra|].
    intro Hin. apply Hn. apply in_map_iff. exists (p + q * c). split; [field; lra|exact Hin].
  - rewrite H0, H1. lra.
Qed.

(** Massless product: the angular integral of the code is the integral over rest-frame energies. *)
Lemma photon_angles f e gamma beta v : 0 < e -> 0 < gamma -> 0 < beta < 1 ->
  area (fun e0 => f e0 / (2 * gamma * beta * e0)) (gamma * (1 - beta) * e) (gamma * (1 + beta) * e) v ->
  area (fun cl => 1 / (2 * gamma * Rabs (1 - beta * cl)) * f (e * gamma * (1 - beta * cl))) (- 1) 1 v.
Proof.
  intros He Hg Hb A.
  assert (EG : 0 < e * gamma) by (apply Rmult_lt_0_compat; lra).
  assert (EB : 0 < e * gamma * beta) by (apply Rmult_lt_0_compat; lra).
  apply (area_affine _ _ _ _ (e * gamma) (- (e * gamma * beta)) (- 1) 1) in A; try lra.
  refine (area_ext _ _ _ _ _ [] _ A). intros c Hc _.
  assert (P : 0 < 1 - beta * c) by nra. rewrite Rabs_right by lra.
  replace (e * gamma + - (e * gamma * beta) * c) with (e * gamma * (1 - beta * c)) by ring.
  field. repeat split; nra.
Qed.

(** Massive product *)
Lemma massive_angles f e m gamma beta v : 0 <= m < e -> 0 < beta < 1 -> gamma = lorentz beta ->
  let p := sqrt (e * e - m * m) in
  area (fun e0 => f e0 / (2 * gamma * beta * sqrt (e0 * e0 - m * m)))
    (gamma * (e - beta * p)) (gamma * (e + beta * p)) v ->
  area (fun cl => p / (2 * sqrt ((1 + (beta * cl) ^ 2) * e * e - (1 + beta * beta * (- 1 + cl * cl)) * m * m
                                 - 2 * beta * cl * e * p) * gamma) * f (gamma * (e - p * beta * cl))) (- 1) 1 v.
Proof.
  intros Hm Hb Hg p A. pose proof (momentum_pos e m Hm) as Hp. change (momentum e m) with p in Hp.
  assert (Hp2 : p * p = e * e - m * m) by (unfold p; apply sqrt_def; nra).
  assert (G0 : 0 < gamma) by (rewrite Hg; now apply lorentz_pos).
  assert (G2 : gamma * gamma * (1 - beta * beta) = 1).
  { rewrite Hg. unfold lorentz. assert (S : 0 < sqrt (1 - beta * beta)) by (apply sqrt_lt_R0; nra).
    assert (S2 : sqrt (1 - beta * beta) * sqrt (1 - beta * beta) = 1 - beta * beta) by (apply sqrt_def; nra).
    set (t := sqrt (1 - beta * beta)) in *. clearbody t. rewrite <- S2. field. lra. }
  assert (GB : 0 < gamma * beta * p) by (apply Rmult_lt_0_compat; [apply Rmult_lt_0_compat|]; lra).
  apply (area_affine _ _ _ _ (gamma * e) (- (gamma * beta * p)) (- 1) 1) in A; try lra.
  refine (area_ext _ _ _ _ _ [] _ A). intros c Hc _.
  replace (gamma * e + - (gamma * beta * p) * c) with (gamma * (e - p * beta * c)) by ring.
  set (X := (1 + (beta * c) ^ 2) * e * e - (1 + beta * beta * (- 1 + c * c)) * m * m - 2 * beta * c * e * p).
  assert (E : gamma * (e - p * beta * c) * (gamma * (e - p * beta * c)) - m * m = gamma ^ 2 * X).
  { unfold X. replace (m * m) with (m * m * (gamma * gamma * (1 - beta * beta))) at 1 by (rewrite G2; ring).
    assert (e * e = p * p + m * m) by lra.
    replace (gamma * (e - p * beta * c) * (gamma * (e - p * beta * c)))
      with (gamma * gamma * (e * e - 2 * beta * c * e * p + (p * p) * (beta * c) * (beta * c))) by ring.
    rewrite Hp2. ring. }
  rewrite E. rewrite sqrt_mult_alt by nra. rewrite (sqrt_pow2 gamma) by lra.
  assert (XP : 0 < X).
  { apply (Rmult_lt_reg_l (gamma ^ 2)); [nra|]. rewrite Rmult_0_r, <- E.
    assert (PE : p <= e) by nra. assert (PB : 0 < p * (1 - beta)) by (apply Rmult_lt_0_compat; lra).
    assert (U : 0 < e - p * beta) by lra.
    assert (PC : 0 < p * beta * (1 - c)) by (apply Rmult_lt_0_compat; [apply Rmult_lt_0_compat|]; lra).
    assert (W : (e - p * beta) ^ 2 < (e - p * beta * c) ^ 2) by (apply Rlt_le_trans with ((e - p * beta) ^ 2 + (p * beta * (1 - c)) ^ 2); nra).
    assert (Z : (e - p * beta) ^ 2 = (e * beta - p) ^ 2 + m * m * (1 - beta * beta)).
    { replace (m * m) with (e * e - p * p) by lra. ring. }
    assert (K : 0 < (e - p * beta * c) ^ 2 - m * m * (1 - beta * beta)) by (pose proof (pow2_ge_0 (e * beta - p)); lra).
    assert (L : 0 < gamma * gamma * ((e - p * beta * c) ^ 2 - m * m * (1 - beta * beta))) by (apply Rmult_lt_0_compat; nra).
    replace (gamma * gamma * ((e - p * beta * c) ^ 2 - m * m * (1 - beta * beta)))
      with (gamma * (e - p * beta * c) * (gamma * (e - p * beta * c)) - m * m * (gamma * gamma * (1 - beta * beta))) in L by ring.
    rewrite G2 in L. lra. }
  pose proof (sqrt_lt_R0 X XP). field. lra.
Qed.
