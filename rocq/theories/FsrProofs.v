(** Vocabulary and lemmas for the radiation theorems (FsrProps.v). *)
From Coq Require Import Reals Lra Lia Psatz List Qreals QArith.
From Verif Require Import PyBase RustBase RustBaseFacts RustMath Area MedModel MedProofs SpecProofs FsrModel.
Import ListNotations.
Local Open Scope R_scope.

(** * Specification *)

(** Low's theorem for the emission of a soft photon by a pair of unit charges of velocity [b]: the
    number of photons per unit of logarithmic energy, whatever the spin of the charges and of the
    resonance they come from. *)
Definition soft_factor (alpha b : R) : R :=
  2 * alpha / PI * ((1 + b ^ 2) / (2 * b) * ln ((1 + b) / (1 - b)) - 1).
(** The velocity of each of two particles of mass [m] with total energy [q] *)
Definition pair_velocity (m q : R) : R := sqrt (1 - 4 * m ^ 2 / q ^ 2).
(** A photon spectrum whose logarithmic density tends to [s] at zero energy *)
Definition soft_limit (f : R -> R) (s : R) : Prop :=
  forall eps, 0 < eps -> exists d, 0 < d /\ forall e, 0 < e < d -> Rabs (e * f e - s) < eps.
Definition value (r : res R) : R := match r with Ret v => v | Raise _ => 0 end.

(** * Kinematics *)

(** The velocity of each charge in the rest frame of the pair, when the photon takes the fraction [x] *)
Definition vx (x mu : R) : R := sqrt (1 - 4 * mu ^ 2 / (1 - x)).
Definition lg (v : R) : R := ln ((1 + v) / (1 - v)).

Lemma kin x mu : 0 < mu -> x <= 1 - 4 * mu ^ 2 ->
  0 < 1 - x /\ 0 <= vx x mu < 1 /\ 4 * mu ^ 2 = (1 - x) * (1 - vx x mu ^ 2).
Proof.
  intros Hm Hx. assert (H : 0 < mu ^ 2) by (apply pow_lt; exact Hm).
  assert (Hy : 0 < 1 - x) by lra. split; [exact Hy|].
  assert (R1 : 4 * mu ^ 2 / (1 - x) <= 1).
  { apply Rmult_le_reg_r with (1 - x); [exact Hy|]. unfold Rdiv.
    rewrite Rmult_assoc, Rinv_l by lra. lra. }
  assert (R0 : 0 < 4 * mu ^ 2 / (1 - x)) by (apply Rdiv_lt_0_compat; lra).
  assert (S : vx x mu ^ 2 = 1 - 4 * mu ^ 2 / (1 - x)).
  { unfold vx. rewrite <- Rsqr_pow2. apply Rsqr_sqrt. lra. }
  split.
  - split; [apply sqrt_pos|]. unfold vx. apply Rlt_le_trans with (sqrt 1); [apply sqrt_lt_1_alt; lra|rewrite sqrt_1; lra].
  - rewrite S. field. lra.
Qed.

Lemma vx_py x mu : x <> 1 -> sqrt (1 + 4 * mu ^ 2 / (- 1 + x)) = vx x mu.
Proof. intro H. unfold vx. f_equal. field. split; lra. Qed.

Lemma log_neg v : v < 1 -> ln (- ((1 + v) / (- 1 + v))) = lg v.
Proof. intro H. unfold lg. f_equal. field. split; lra. Qed.

Lemma roots x mu : 0 < mu -> x <= 1 - 4 * mu ^ 2 ->
  sqrt (1 - x) * sqrt (1 - 4 * mu ^ 2 - x) = (1 - x) * vx x mu.
Proof.
  intros Hm Hx. destruct (kin x mu Hm Hx) as (Hy & Hv & E).
  rewrite E. replace (1 - (1 - x) * (1 - vx x mu ^ 2) - x) with ((1 - x) * vx x mu ^ 2) by ring.
  rewrite sqrt_mult by nra. rewrite sqrt_pow2 by lra.
  rewrite <- Rmult_assoc, sqrt_sqrt by lra. reflexivity.
Qed.
Lemma roots1 x mu : 0 < mu -> x <= 1 - 4 * mu ^ 2 ->
  sqrt ((- 1 + x) * (- 1 + 4 * mu ^ 2 + x)) = (1 - x) * vx x mu.
Proof.
  intros Hm Hx. rewrite <- (roots x mu Hm Hx). assert (0 < mu ^ 2) by (apply pow_lt; exact Hm).
  rewrite <- sqrt_mult by lra. f_equal. ring.
Qed.
Lemma roots2 x mu : 0 < mu -> x <= 1 - 4 * mu ^ 2 ->
  sqrt (1 - 4 * mu ^ 2 - x) = sqrt (1 - x) * vx x mu.
Proof.
  intros Hm Hx. destruct (kin x mu Hm Hx) as (Hy & Hv & E).
  assert (S : 0 < sqrt (1 - x)) by (apply sqrt_lt_R0; exact Hy).
  apply Rmult_eq_reg_l with (sqrt (1 - x)); [|lra]. rewrite (roots x mu Hm Hx).
  rewrite <- Rmult_assoc, sqrt_sqrt by lra. reflexivity.
Qed.
Lemma log_sq a b c v : 0 <= v < 1 -> 0 < c -> (a = c * (1 + v) \/ a = - (c * (1 + v))) ->
  (b = c * (1 - v) \/ b = - (c * (1 - v))) -> ln (a ^ 2 / b ^ 2) = 2 * lg v.
Proof.
  intros Hv Hc Ha Hb. unfold lg.
  assert (P : 0 < (1 + v) / (1 - v)) by (apply Rdiv_lt_0_compat; lra).
  replace (a ^ 2 / b ^ 2) with ((1 + v) / (1 - v) * ((1 + v) / (1 - v))).
  - rewrite ln_mult by exact P. ring.
  - destruct Ha as [->| ->], Hb as [->| ->]; field; split; lra.
Qed.
Lemma ln_flip a b : 0 < a -> 0 < b -> ln (a / b) = - ln (b / a).
Proof. intros. rewrite !ln_quot by assumption. ring. Qed.
Lemma log_sq_inv a b c v : 0 <= v < 1 -> 0 < c -> (a = c * (1 + v) \/ a = - (c * (1 + v))) ->
  (b = c * (1 - v) \/ b = - (c * (1 - v))) -> ln (b ^ 2 / a ^ 2) = - (2 * lg v).
Proof.
  intros Hv Hc Ha Hb.
  assert (P : forall t, 0 < t -> 0 < t ^ 2 /\ 0 < (- t) ^ 2) by (intros t Ht; nra).
  assert (0 < c * (1 + v)) by nra. assert (0 < c * (1 - v)) by nra.
  rewrite ln_flip.
  - f_equal. now apply (log_sq a b c v).
  - destruct Hb as [->| ->]; now apply P.
  - destruct Ha as [->| ->]; now apply P.
Qed.
Lemma log_ge v : 0 <= v < 1 -> 2 * v <= lg v.
Proof.
  intro H. pose proof (log_ratio_ge v H) as L. unfold lg.
  apply Rle_trans with (6 * v / (3 - v ^ 2)); [|exact L].
  apply Rmult_le_reg_r with (3 - v ^ 2); [nra|].
  replace (6 * v / (3 - v ^ 2) * (3 - v ^ 2)) with (6 * v) by (field; nra). nra.
Qed.
Lemma lg_nonneg v : 0 <= v < 1 -> 0 <= lg v.
Proof. intro H. pose proof (log_ge v H). lra. Qed.

(** * The four brackets *)

(** with y = 1 - x and w = 4 mu^2, in the order: scalar fermions, scalar pions, vector fermions, vector pions *)
Definition b_sf (x w v : R) : R :=
  - 2 * (1 - x) * (1 - w) * v + ((x + w) ^ 2 - 2 * (- 1 + x + 3 / 2 * w)) * lg v.
Definition b_sp (x w v : R) : R := - (1 - x) * v + (1 - x - w / 2) * lg v.
Definition b_vf (x w v : R) : R :=
  - (v * (2 - 2 * x + x ^ 2 + (1 - x) * w)) + (2 + (- 2 + x) * x - x * w - w ^ 2 / 2) * lg v.
Definition b_vp (x w v : R) : R :=
  v * (- 1 + x + x ^ 2 + (1 - x) * w) + (1 - x - w / 2) * (1 - w) * lg v.

Section Bounds.
Variables x w v : R.
Hypothesis Hx : 0 <= x < 1.
Hypothesis Hv : 0 <= v < 1.
Hypothesis Hw : w = (1 - x) * (1 - v ^ 2).
Let y := 1 - x.

Lemma b_sf_nonneg : 0 <= b_sf x w v.
Proof.
  pose proof (log_ge v Hv) as L. unfold b_sf.
  assert (K : 0 <= (x + w) ^ 2 - 2 * (- 1 + x + 3 / 2 * w)).
  { rewrite Hw. replace x with (1 - y) by (unfold y; ring). fold y.
    replace ((1 - y + (1 - (1 - y)) * (1 - v ^ 2)) ^ 2 - 2 * (- 1 + (1 - y) + 3 / 2 * ((1 - (1 - y)) * (1 - v ^ 2))))
      with ((1 - y * v ^ 2) ^ 2 - y + 3 * y * v ^ 2) by field.
    assert (0 <= y <= 1) by (unfold y; lra). assert (0 <= v ^ 2 <= 1) by nra.
    assert (0 <= y * v ^ 2) by nra.
    replace ((1 - y * v ^ 2) ^ 2 - y + 3 * y * v ^ 2) with ((1 - y) + y * v ^ 2 + (y * v ^ 2) ^ 2) by ring.
    pose proof (pow2_ge_0 (y * v ^ 2)). lra. }
  apply Rle_trans with (- 2 * (1 - x) * (1 - w) * v + ((x + w) ^ 2 - 2 * (- 1 + x + 3 / 2 * w)) * (2 * v)).
  2: { apply Rplus_le_compat_l. apply Rmult_le_compat_l; assumption. }
  rewrite Hw.
  replace (-2 * (1 - x) * (1 - (1 - x) * (1 - v ^ 2)) * v +
    ((x + (1 - x) * (1 - v ^ 2)) ^ 2 - 2 * (-1 + x + 3 / 2 * ((1 - x) * (1 - v ^ 2)))) * (2 * v))
    with (2 * v * (x * (x + (1 - x) * v ^ 2) + ((1 - x) * v ^ 2) ^ 2)) by field.
  apply Rmult_le_pos; [lra|]. pose proof (pow2_ge_0 ((1 - x) * v ^ 2)).
  assert (0 <= (1 - x) * v ^ 2) by (apply Rmult_le_pos; [lra|apply pow2_ge_0]). nra.
Qed.

Lemma b_sp_nonneg : 0 <= b_sp x w v.
Proof.
  pose proof (log_ge v Hv) as L. unfold b_sp. rewrite Hw.
  replace (1 - x - (1 - x) * (1 - v ^ 2) / 2) with ((1 - x) * (1 + v ^ 2) / 2) by field.
  assert (K : 0 <= (1 - x) * (1 + v ^ 2) / 2) by (pose proof (pow2_ge_0 v); nra).
  apply Rle_trans with (- (1 - x) * v + (1 - x) * (1 + v ^ 2) / 2 * (2 * v)).
  - replace (- (1 - x) * v + (1 - x) * (1 + v ^ 2) / 2 * (2 * v)) with ((1 - x) * (v * v ^ 2)) by field.
    apply Rmult_le_pos; [lra|]. apply Rmult_le_pos; [lra|apply pow2_ge_0].
  - apply Rplus_le_compat_l. apply Rmult_le_compat_l; assumption.
Qed.

Lemma b_vf_nonneg : 0 <= b_vf x w v.
Proof.
  pose proof (log_ge v Hv) as L. unfold b_vf. rewrite Hw.
  set (u := 1 - v ^ 2). assert (Hu : 0 <= u <= 1) by (unfold u; nra).
  replace x with (1 - y) by (unfold y; ring). assert (Hy : 0 <= y <= 1) by (unfold y; lra).
  replace (2 + (- 2 + (1 - y)) * (1 - y) - (1 - y) * ((1 - (1 - y)) * u) - ((1 - (1 - y)) * u) ^ 2 / 2)
    with (1 + y ^ 2 - y * u + y ^ 2 * u - y ^ 2 * u ^ 2 / 2) by field.
  assert (K : 0 <= 1 + y ^ 2 - y * u + y ^ 2 * u - y ^ 2 * u ^ 2 / 2).
  { assert (0 <= y * u <= 1) by nra. assert ((y * u) ^ 2 <= 1) by nra.
    replace (y ^ 2 * u ^ 2) with ((y * u) ^ 2) by ring. nra. }
  apply Rle_trans with (- (v * (2 - 2 * (1 - y) + (1 - y) ^ 2 + (1 - (1 - y)) * ((1 - (1 - y)) * u)))
    + (1 + y ^ 2 - y * u + y ^ 2 * u - y ^ 2 * u ^ 2 / 2) * (2 * v)).
  2: { apply Rplus_le_compat_l. apply Rmult_le_compat_l; assumption. }
  replace (- (v * (2 - 2 * (1 - y) + (1 - y) ^ 2 + (1 - (1 - y)) * ((1 - (1 - y)) * u)))
    + (1 + y ^ 2 - y * u + y ^ 2 * u - y ^ 2 * u ^ 2 / 2) * (2 * v))
    with (v * ((1 - y * u) ^ 2 + y ^ 2 * ((1 - u) * (1 + 2 * u)))) by field.
  apply Rmult_le_pos; [lra|]. pose proof (pow2_ge_0 (1 - y * u)). pose proof (pow2_ge_0 y).
  assert (0 <= (1 - u) * (1 + 2 * u)) by nra. nra.
Qed.

Lemma b_vp_nonneg : 0 <= b_vp x w v.
Proof.
  pose proof (log_ge v Hv) as L. unfold b_vp. rewrite Hw.
  set (u := 1 - v ^ 2). assert (Hu : 0 <= u <= 1) by (unfold u; nra).
  replace x with (1 - y) by (unfold y; ring). assert (Hy : 0 <= y <= 1) by (unfold y; lra).
  assert (K : 0 <= (1 - (1 - y) - (1 - (1 - y)) * u / 2) * (1 - (1 - (1 - y)) * u)).
  { replace (1 - (1 - y) - (1 - (1 - y)) * u / 2) with (y * (1 - u / 2)) by field.
    replace (1 - (1 - (1 - y)) * u) with (1 - y * u) by ring. assert (y * u <= 1) by nra.
    apply Rmult_le_pos; [|lra]. apply Rmult_le_pos; lra. }
  apply Rle_trans with (v * (- 1 + (1 - y) + (1 - y) ^ 2 + (1 - (1 - y)) * ((1 - (1 - y)) * u))
    + (1 - (1 - y) - (1 - (1 - y)) * u / 2) * (1 - (1 - (1 - y)) * u) * (2 * v)).
  2: { apply Rplus_le_compat_l. apply Rmult_le_compat_l; assumption. }
  replace (v * (- 1 + (1 - y) + (1 - y) ^ 2 + (1 - (1 - y)) * ((1 - (1 - y)) * u))
    + (1 - (1 - y) - (1 - (1 - y)) * u / 2) * (1 - (1 - (1 - y)) * u) * (2 * v))
    with (v * (1 - y * (1 + u) + y ^ 2 * (1 - u + u ^ 2))) by field.
  apply Rmult_le_pos; [lra|].
  assert (D : 4 * (1 - u + u ^ 2) * (1 - y * (1 + u) + y ^ 2 * (1 - u + u ^ 2))
          = (2 * (1 - u + u ^ 2) * y - (1 + u)) ^ 2 + 3 * (1 - u) ^ 2) by ring.
  pose proof (pow2_ge_0 (2 * (1 - u + u ^ 2) * y - (1 + u))). pose proof (pow2_ge_0 (1 - u)).
  assert (0 < 1 - u + u ^ 2) by nra. nra.
Qed.
End Bounds.

(** * The model functions in terms of the brackets *)
Section Forms.
Variable C : consts.
Variables e Q m : R.
Hypothesis He : 0 < e.
Hypothesis HQ : 0 < Q.
Hypothesis Hm : 0 < m.
Let x := 2 * e / Q.
Let mu := m / Q.
Let v := vx x mu.
Hypothesis Hx : x <= 1 - 4 * mu ^ 2.

Lemma x_pos : 0 < x. Proof. unfold x. apply Rdiv_lt_0_compat; lra. Qed.
Lemma mu_pos : 0 < mu. Proof. unfold mu. now apply Rdiv_lt_0_compat. Qed.
Lemma kx : 0 < 1 - x /\ 0 <= v < 1 /\ 4 * mu ^ 2 = (1 - x) * (1 - v ^ 2).
Proof. apply kin; [apply mu_pos|exact Hx]. Qed.
Lemma b_pos : 0 < 1 - 4 * mu ^ 2.
Proof. pose proof x_pos. lra. Qed.
Lemma mu4 : mu ^ 4 = (4 * mu ^ 2) ^ 2 / 16. Proof. field. Qed.
Lemma threshold : 2 * m < Q.
Proof.
  pose proof b_pos as B. unfold mu in B.
  assert (E : 1 - 4 * (m / Q) ^ 2 = (Q - 2 * m) * (Q + 2 * m) / Q ^ 2) by (field; lra).
  rewrite E in B. apply Rnot_le_lt. intro N.
  assert (H : (Q - 2 * m) * (Q + 2 * m) <= 0) by nra.
  assert (P : 0 < / Q ^ 2) by (apply Rinv_0_lt_compat, pow_lt; exact HQ).
  unfold Rdiv in B. nra.
Qed.
Lemma s_upper : Q ^ 2 - 2 * Q * e < Q ^ 2. Proof. nra. Qed.
Lemma s_lower : 4 * m ^ 2 <= Q ^ 2 - 2 * Q * e /\ (x < 1 - 4 * mu ^ 2 -> 4 * m ^ 2 < Q ^ 2 - 2 * Q * e).
Proof.
  assert (E : Q ^ 2 - 2 * Q * e - 4 * m ^ 2 = Q ^ 2 * (1 - 4 * mu ^ 2 - x)) by (unfold mu, x; field; lra).
  assert (P : 0 < Q ^ 2) by (apply pow_lt; exact HQ). split; intros; nra.
Qed.
Lemma s_lower_strict : 4 * m ^ 2 < Q ^ 2 - 2 * Q * e -> x < 1 - 4 * mu ^ 2.
Proof.
  assert (E : Q ^ 2 - 2 * Q * e - 4 * m ^ 2 = Q ^ 2 * (1 - 4 * mu ^ 2 - x)) by (unfold mu, x; field; lra).
  assert (P : 0 < Q ^ 2) by (apply pow_lt; exact HQ). intros; nra.
Qed.
Lemma qe_sq : 0 <= c_alpha C -> qe C ^ 2 = 4 * PI * c_alpha C.
Proof.
  intro H. unfold qe. rewrite <- Rsqr_pow2. apply Rsqr_sqrt. pose proof PI_RGT_0. nra.
Qed.
Lemma den_pos : 0 < PI * Q * x.
Proof. pose proof PI_RGT_0. pose proof x_pos. apply Rmult_lt_0_compat; [nra|assumption]. Qed.
Lemma sb_pos : 0 < sqrt (1 - 4 * mu ^ 2).
Proof. apply sqrt_lt_R0, b_pos. Qed.
Lemma pb_pos : 0 < pow15 (1 - 4 * mu ^ 2).
Proof. apply pow15_pos, b_pos. Qed.

(** the spectra of the specification side, with the common factor *)
Definition sp_sf : R := 2 * c_alpha C * b_sf x (4 * mu ^ 2) v / (PI * Q * x * pow15 (1 - 4 * mu ^ 2)).
Definition sp_sp : R := 4 * c_alpha C * b_sp x (4 * mu ^ 2) v / (PI * Q * x * sqrt (1 - 4 * mu ^ 2)).
Definition sp_vf : R :=
  2 * c_alpha C * b_vf x (4 * mu ^ 2) v / (PI * Q * x * sqrt (1 - 4 * mu ^ 2) * (1 + 2 * mu ^ 2)).
Definition sp_vp : R := 4 * c_alpha C * b_vp x (4 * mu ^ 2) v / (PI * Q * x * pow15 (1 - 4 * mu ^ 2)).

Ltac rad_start Px Hy Hv Hw :=
  pose proof x_pos as Px; pose proof kx as (Hy & Hv & Hw);
  destruct (Rlt_dec x 0); [lra|]; destruct (Rlt_dec (1 - 4 * mu ^ 2) x); [lra|].

Lemma fsr_l_srf_form : 0 <= c_alpha C -> fsr_l_srf C e m Q = sp_sf / 2.
Proof.
  intro Ha. unfold fsr_l_srf. fold mu x. rad_start Px Hy Hv Hw.
  pose proof (roots x mu mu_pos Hx) as E1. pose proof (roots1 x mu mu_pos Hx) as E2. fold v in E1, E2.
  rewrite (Rmult_assoc _ (sqrt (1 - x))), E1, E2, (qe_sq Ha).
  rewrite (log_sq (1 - x + (1 - x) * v) (- 1 + x + (1 - x) * v) (1 - x) v Hv Hy); [|left; ring|right; ring].
  unfold sp_sf, b_sf. rewrite mu4. replace (12 * mu ^ 2) with (3 * (4 * mu ^ 2)) by ring.
  replace (8 * mu ^ 2 * x) with (2 * (4 * mu ^ 2) * x) by ring.
  pose proof pb_pos as Pb. pose proof PI_RGT_0 as Pp. revert Pb. set (w := 4 * mu ^ 2). clearbody w v x.
  intro Pb. field. repeat split; lra.
Qed.
Lemma fsr_cp_srf_form : c_mpi C = m -> 0 <= c_alpha C -> fsr_cp_srf C e Q = sp_sp / 2.
Proof.
  intros Hc Ha. unfold fsr_cp_srf. rewrite Hc. fold mu x. rad_start Px Hy Hv Hw.
  pose proof (roots x mu mu_pos Hx) as E1. fold v in E1.
  rewrite (Rmult_assoc _ (sqrt (1 - x))), E1, (qe_sq Ha).
  rewrite (log_sq_inv (- 1 + x - (1 - x) * v) (1 - x - (1 - x) * v) (1 - x) v Hv Hy); [|right; ring|left; ring].
  unfold sp_sp, b_sp. replace (2 * mu ^ 2) with (4 * mu ^ 2 / 2) by field.
  pose proof sb_pos as Pb. pose proof PI_RGT_0 as Pp. revert Pb. set (w := 4 * mu ^ 2). clearbody w v x.
  intro Pb. field. repeat split; lra.
Qed.
Lemma fsr_l_vrf_form : 0 <= c_alpha C -> fsr_l_vrf C e m Q = sp_vf.
Proof.
  intro Ha. unfold fsr_l_vrf. fold mu x. rad_start Px Hy Hv Hw.
  pose proof (roots x mu mu_pos Hx) as E1. pose proof (roots2 x mu mu_pos Hx) as E2. fold v in E1, E2.
  rewrite E1, E2, (qe_sq Ha).
  rewrite (log_sq_inv (1 + (1 - x) * v - x) (- 1 + (1 - x) * v + x) (1 - x) v Hv Hy); [|left; ring|right; ring].
  assert (S : 0 < sqrt (1 - x)) by (apply sqrt_lt_R0; exact Hy).
  unfold sp_vf, b_vf. rewrite mu4. assert (Pm : 0 < mu ^ 2) by (apply pow_lt, mu_pos).
  pose proof sb_pos as Pb. pose proof PI_RGT_0 as Pp. revert Pb.
  replace (mu ^ 2) with ((4 * mu ^ 2) / 4) in * by field.
  replace (4 * (4 * mu ^ 2 / 4)) with (4 * mu ^ 2) in * by field.
  set (w := 4 * mu ^ 2) in *. clearbody w v x. set (s := sqrt (1 - x)) in *. clearbody s.
  intro Pb. field. repeat split; lra.
Qed.
Lemma fsr_cp_vrf_form : c_mpi C = m -> 0 <= c_alpha C -> fsr_cp_vrf C e Q = sp_vp.
Proof.
  intros Hc Ha. unfold fsr_cp_vrf. rewrite Hc. fold mu x. rad_start Px Hy Hv Hw.
  pose proof (roots x mu mu_pos Hx) as E1. pose proof (roots2 x mu mu_pos Hx) as E2. fold v in E1, E2.
  rewrite E1, E2, (qe_sq Ha).
  rewrite (log_sq (1 + (1 - x) * v - x) (- 1 + (1 - x) * v + x) (1 - x) v Hv Hy); [|left; ring|right; ring].
  assert (S : 0 < sqrt (1 - x)) by (apply sqrt_lt_R0; exact Hy).
  unfold sp_vp, b_vp. replace (2 * mu ^ 2) with (4 * mu ^ 2 / 2) by field.
  pose proof pb_pos as Pb. pose proof PI_RGT_0 as Pp. revert Pb.
  set (w := 4 * mu ^ 2) in *. clearbody w v x. set (s := sqrt (1 - x)) in *. clearbody s.
  intro Pb. field. repeat split; lra.
Qed.

(** ** Python *)
Lemma py_div_pos a b : 0 < b -> py_div a b = Ret (a / b).
Proof. intro H. unfold py_div. destruct (Req_EM_T b 0); [lra|reflexivity]. Qed.
Lemma py_assert_ok t : 0 <= t -> py_assert_nonneg t = Ret t.
Proof. intro H. unfold py_assert_nonneg. destruct (Rle_dec 0 t); [reflexivity|contradiction]. Qed.

Lemma sp_sf_nonneg : 0 <= c_alpha C -> 0 <= sp_sf.
Proof.
  intro Ha. pose proof kx as (Hy & Hv & Hw). pose proof x_pos. unfold sp_sf, Rdiv.
  apply Rmult_le_pos.
  - apply Rmult_le_pos; [lra|]. apply b_sf_nonneg; [lra|exact Hv|exact Hw].
  - left. apply Rinv_0_lt_compat. apply Rmult_lt_0_compat; [apply den_pos|apply pb_pos].
Qed.
Lemma sp_sp_nonneg : 0 <= c_alpha C -> 0 <= sp_sp.
Proof.
  intro Ha. pose proof kx as (Hy & Hv & Hw). pose proof x_pos. unfold sp_sp, Rdiv.
  apply Rmult_le_pos.
  - apply Rmult_le_pos; [lra|]. apply b_sp_nonneg; [lra|exact Hv|exact Hw].
  - left. apply Rinv_0_lt_compat. apply Rmult_lt_0_compat; [apply den_pos|apply sb_pos].
Qed.
Lemma den_vf_pos : 0 < PI * Q * x * sqrt (1 - 4 * mu ^ 2) * (1 + 2 * mu ^ 2).
Proof.
  apply Rmult_lt_0_compat.
  - apply Rmult_lt_0_compat; [apply den_pos|apply sb_pos].
  - pose proof (pow2_ge_0 mu). lra.
Qed.
Lemma sp_vf_nonneg : 0 <= c_alpha C -> 0 <= sp_vf.
Proof.
  intro Ha. pose proof kx as (Hy & Hv & Hw). pose proof x_pos. unfold sp_vf, Rdiv.
  apply Rmult_le_pos.
  - apply Rmult_le_pos; [lra|]. apply b_vf_nonneg; [lra|exact Hv|exact Hw].
  - left. apply Rinv_0_lt_compat. apply den_vf_pos.
Qed.
Lemma sp_vp_nonneg : 0 <= c_alpha C -> 0 <= sp_vp.
Proof.
  intro Ha. pose proof kx as (Hy & Hv & Hw). pose proof x_pos. unfold sp_vp, Rdiv.
  apply Rmult_le_pos.
  - apply Rmult_le_pos; [lra|]. apply b_vp_nonneg; [lra|exact Hv|exact Hw].
  - left. apply Rinv_0_lt_compat. apply Rmult_lt_0_compat; [apply den_pos|apply pb_pos].
Qed.

(** At the end point the velocity vanishes, and with it the spectrum *)
Lemma end_point : x = 1 - 4 * mu ^ 2 -> v = 0.
Proof.
  intro E. unfold v, vx. rewrite E. pose proof mu_pos. assert (0 < mu ^ 2) by (apply pow_lt; assumption).
  replace (1 - 4 * mu ^ 2 / (1 - (1 - 4 * mu ^ 2))) with 0 by (field; lra). apply sqrt_0.
Qed.
Lemma lg_0 : lg 0 = 0.
Proof. unfold lg. replace ((1 + 0) / (1 - 0)) with 1 by field. apply ln_1. Qed.

Variable mx : R.
Hypothesis Hmx : 2 * mx <= Q.

Lemma s_to_ffg_form : 2 * mx < Q -> 0 <= c_alpha C -> s_to_ffg C mx e Q m = Ret sp_sf.
Proof.
  intros Hs Ha. unfold s_to_ffg. pose proof threshold as T. pose proof s_upper as U. pose proof s_lower as (L & Ls).
  pose proof s_lower_strict as Lx.
  pose proof x_pos as Px. pose proof kx as (Hy & Hv & Hw).
  destruct (Rlt_dec (2 * m) Q); [|contradiction].
  destruct (Rlt_dec (4 * m ^ 2) (Q ^ 2 - 2 * Q * e)) as [D|D].
  2: { f_equal. assert (E : x = 1 - 4 * mu ^ 2).
       { destruct (Rle_lt_or_eq_dec _ _ Hx) as [X|X]; [|exact X]. exfalso. apply D. now apply Ls. }
       unfold sp_sf, b_sf. rewrite (end_point E), lg_0. unfold Rdiv. ring. }
  destruct (Rlt_dec (Q ^ 2 - 2 * Q * e) (Q ^ 2)); [|contradiction].
  destruct (Rlt_dec (2 * mx) Q); [|contradiction]. fold x mu.
  rewrite vx_py by lra. fold v.
  rewrite py_div_pos by (apply Rmult_lt_0_compat; [apply den_pos|apply pb_pos]).
  cbn [bind]. fold (lg v).
  match goal with |- py_assert_nonneg ?t = _ => replace t with sp_sf end.
  - apply py_assert_ok, (sp_sf_nonneg Ha).
  - unfold sp_sf, b_sf. apply (f_equal (fun t => t / _)).
    replace (6 * mu ^ 2) with (3 / 2 * (4 * mu ^ 2)) by field. ring.
Qed.
Lemma s_to_pipig_form : c_mpi C = m -> 0 <= c_alpha C -> s_to_pipig C mx e Q = Ret sp_sp.
Proof.
  intros Hc Ha. unfold s_to_pipig. rewrite Hc. fold mu x. rad_start Px Hy Hv Hw.
  destruct (Rlt_dec Q (2 * mx)); [lra|].
  rewrite vx_py by lra. fold v. rewrite log_neg by lra.
  rewrite py_div_pos by (apply Rmult_lt_0_compat; [apply den_pos|apply sb_pos]).
  cbn [bind].
  match goal with |- py_assert_nonneg ?t = _ => replace t with sp_sp end.
  - apply py_assert_ok, (sp_sp_nonneg Ha).
  - unfold sp_sp, b_sp. apply (f_equal (fun t => t / _)).
    replace (2 * mu ^ 2) with (4 * mu ^ 2 / 2) by field. ring.
Qed.
Lemma v_to_ffg_form : 2 * mx < Q -> 0 <= c_alpha C -> v_to_ffg C mx e Q m = Ret sp_vf.
Proof.
  intros Hs Ha. unfold v_to_ffg. pose proof threshold as T. pose proof s_upper as U. pose proof s_lower as (L & Ls).
  pose proof x_pos as Px. pose proof kx as (Hy & Hv & Hw).
  destruct (Rle_dec (4 * m ^ 2) (Q ^ 2 - 2 * Q * e)); [|contradiction].
  destruct (Rle_dec (Q ^ 2 - 2 * Q * e) (Q ^ 2)); [|lra].
  destruct (Rlt_dec (2 * m) Q); [|contradiction].
  destruct (Rlt_dec (2 * mx) Q); [|contradiction]. fold x mu.
  rewrite vx_py by lra. fold v. rewrite log_neg by lra.
  rewrite py_div_pos by apply den_vf_pos.
  cbn [bind].
  match goal with |- py_assert_nonneg ?t = _ => replace t with sp_vf end.
  - apply py_assert_ok, (sp_vf_nonneg Ha).
  - unfold sp_vf, b_vf. apply (f_equal (fun t => t / _)). field.
Qed.
Lemma v_to_pipig_form : c_mpi C = m -> 0 <= c_alpha C -> v_to_pipig C mx e Q = Ret sp_vp.
Proof.
  intros Hc Ha. unfold v_to_pipig. rewrite Hc. pose proof threshold as T. fold mu x. rad_start Px Hy Hv Hw.
  destruct (Rlt_dec Q (2 * m)); [lra|]. destruct (Rlt_dec Q (2 * mx)); [lra|].
  rewrite vx_py by lra. fold v. rewrite log_neg by lra.
  rewrite py_div_pos by (apply Rmult_lt_0_compat; [apply den_pos|apply pb_pos]).
  cbn [bind].
  match goal with |- py_assert_nonneg ?t = _ => replace t with sp_vp end.
  - apply py_assert_ok, (sp_vp_nonneg Ha).
  - unfold sp_vp, b_vp. apply (f_equal (fun t => t / _)). field.
Qed.
End Forms.

(** * Outside the kinematic range *)
Section Outside.
Variable C : consts.
Variables mx e Q m : R.
Hypothesis He : 0 < e.
Hypothesis HQ : 0 < Q.
Hypothesis Hm : 0 < m.
Hypothesis Hx : 1 - 4 * (m / Q) ^ 2 < 2 * e / Q.
Lemma x_pos0 : 0 < 2 * e / Q. Proof. apply Rdiv_lt_0_compat; lra. Qed.
Lemma s_out : Q ^ 2 - 2 * Q * e < 4 * m ^ 2.
Proof.
  assert (E : Q ^ 2 - 2 * Q * e - 4 * m ^ 2 = Q ^ 2 * (1 - 4 * (m / Q) ^ 2 - 2 * e / Q)) by (field; lra).
  assert (P : 0 < Q ^ 2) by (apply pow_lt; exact HQ). nra.
Qed.
Lemma s_to_ffg_out : s_to_ffg C mx e Q m = Ret 0.
Proof.
  unfold s_to_ffg. pose proof s_out as S.
  destruct (Rlt_dec (2 * m) Q); [|reflexivity].
  destruct (Rlt_dec (4 * m ^ 2) (Q ^ 2 - 2 * Q * e)); [lra|reflexivity].
Qed.
Lemma v_to_ffg_out : v_to_ffg C mx e Q m = Ret 0.
Proof.
  unfold v_to_ffg. pose proof s_out as S.
  destruct (Rle_dec (4 * m ^ 2) (Q ^ 2 - 2 * Q * e)); [lra|reflexivity].
Qed.
Lemma s_to_pipig_out : c_mpi C = m -> s_to_pipig C mx e Q = Ret 0.
Proof.
  intro Hc. unfold s_to_pipig. rewrite Hc. destruct (Rlt_dec (2 * e / Q) 0); [reflexivity|].
  destruct (Rlt_dec (1 - 4 * (m / Q) ^ 2) (2 * e / Q)); [reflexivity|contradiction].
Qed.
Lemma v_to_pipig_out : c_mpi C = m -> v_to_pipig C mx e Q = Ret 0.
Proof.
  intro Hc. unfold v_to_pipig. rewrite Hc. destruct (Rlt_dec (2 * e / Q) 0); [reflexivity|].
  destruct (Rlt_dec (1 - 4 * (m / Q) ^ 2) (2 * e / Q)); [reflexivity|contradiction].
Qed.
Lemma fsr_l_srf_out : fsr_l_srf C e m Q = 0.
Proof.
  unfold fsr_l_srf. destruct (Rlt_dec (2 * e / Q) 0); [reflexivity|].
  destruct (Rlt_dec (1 - 4 * (m / Q) ^ 2) (2 * e / Q)); [reflexivity|contradiction].
Qed.
Lemma fsr_l_vrf_out : fsr_l_vrf C e m Q = 0.
Proof.
  unfold fsr_l_vrf. destruct (Rlt_dec (2 * e / Q) 0); [reflexivity|].
  destruct (Rlt_dec (1 - 4 * (m / Q) ^ 2) (2 * e / Q)); [reflexivity|contradiction].
Qed.
Lemma fsr_cp_srf_out : c_mpi C = m -> fsr_cp_srf C e Q = 0.
Proof.
  intro Hc. unfold fsr_cp_srf. rewrite Hc. destruct (Rlt_dec (2 * e / Q) 0); [reflexivity|].
  destruct (Rlt_dec (1 - 4 * (m / Q) ^ 2) (2 * e / Q)); [reflexivity|contradiction].
Qed.
Lemma fsr_cp_vrf_out : c_mpi C = m -> fsr_cp_vrf C e Q = 0.
Proof.
  intro Hc. unfold fsr_cp_vrf. rewrite Hc. destruct (Rlt_dec (2 * e / Q) 0); [reflexivity|].
  destruct (Rlt_dec (1 - 4 * (m / Q) ^ 2) (2 * e / Q)); [reflexivity|contradiction].
Qed.
End Outside.

(** * Soft photons *)
Lemma soft_from H l k Q d0 f : 0 < Q -> 0 < d0 -> derivable_pt_lim H 0 l ->
  (forall e, 0 < e < d0 -> e * f e = k * H (2 * e / Q)) -> soft_limit f (k * H 0).
Proof.
  intros HQ Hd Hl Hf eps He.
  assert (Hc : continuity_pt (fun x => k * H x) 0).
  { apply (continuity_pt_scal H). apply derivable_continuous_pt. now exists l. }
  destruct (proj1 (cont_eps _ 0) Hc eps He) as (d & Pd & D).
  exists (Rmin d0 (d * Q / 2)). split.
  - apply Rmin_glb_lt; [exact Hd|]. apply Rdiv_lt_0_compat; nra.
  - intros e Hee. pose proof (Rmin_l d0 (d * Q / 2)). pose proof (Rmin_r d0 (d * Q / 2)).
    rewrite (Hf e) by lra. apply D. rewrite Rminus_0_r.
    assert (0 < 2 * e / Q) by (apply Rdiv_lt_0_compat; lra). rewrite Rabs_right by lra.
    apply Rmult_lt_reg_r with Q; [exact HQ|].
    replace (2 * e / Q * Q) with (2 * e) by (field; lra). lra.
Qed.
Section Soft.
Variables w mu : R.
Hypothesis Hmu : 0 < mu.
Hypothesis Hw : 4 * mu ^ 2 < 1.
Lemma mu2_pos : 0 < mu ^ 2. Proof. apply pow_lt; exact Hmu. Qed.
Lemma vx_0 : vx 0 mu = sqrt (1 - 4 * mu ^ 2).
Proof. unfold vx. f_equal. field. Qed.
Lemma vx_der : exists l, derivable_pt_lim (fun x => vx x mu) 0 l.
Proof.
  unfold vx. eexists. dl; cbv beta; [lra|].
  replace (1 - 4 * mu ^ 2 / (1 - 0)) with (1 - 4 * mu ^ 2) by field. lra.
Qed.
Lemma lg_der v : 0 <= v < 1 -> exists l, derivable_pt_lim lg v l.
Proof.
  intro H. unfold lg. eexists. dl; cbv beta; [lra|]. apply Rdiv_lt_0_compat; lra.
Qed.
Lemma v0_range : 0 <= vx 0 mu < 1.
Proof. apply (kin 0 mu Hmu). lra. Qed.
Lemma lgv_der : exists l, derivable_pt_lim (fun x => lg (vx x mu)) 0 l.
Proof.
  destruct vx_der as (a & Ha). destruct (lg_der (vx 0 mu) v0_range) as (b & Hb).
  exists (b * a). apply (dl_comp (fun x => vx x mu) lg); assumption.
Qed.
Ltac softder := destruct vx_der as (a & Ha); destruct lgv_der as (b & Hb);
  eexists; repeat first [ exact Ha | exact Hb | apply dl_const | apply dl_id
  | eapply dl_plus | eapply dl_minus | eapply dl_opp | eapply dl_pow | eapply dl_mult ].
Lemma b_sf_der : exists l, derivable_pt_lim (fun x => b_sf x w (vx x mu)) 0 l.
Proof. unfold b_sf. softder. Qed.
Lemma b_sp_der : exists l, derivable_pt_lim (fun x => b_sp x w (vx x mu)) 0 l.
Proof. unfold b_sp. softder. Qed.
Lemma b_vf_der : exists l, derivable_pt_lim (fun x => b_vf x w (vx x mu)) 0 l.
Proof. unfold b_vf, Rdiv. softder. Qed.
Lemma b_vp_der : exists l, derivable_pt_lim (fun x => b_vp x w (vx x mu)) 0 l.
Proof. unfold b_vp, Rdiv. softder. Qed.
End Soft.
