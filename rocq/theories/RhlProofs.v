(** Lemmas about the earlier functions of the right-handed neutrino: squared amplitudes of four-fermion and pion
    currents, their integrals over the Dalitz region, and the radiative two-body decay. *)
From Coq Require Import ZArith Reals Bool Lra Lia Psatz List.
From Verif Require Import PyBase KinModel RamboModel RamboProofs KinProofs DalitzProofs Area Primitive SpecProofs NbodyModel RhnModel RhnProofs VffProofs OldProofs RhlModel.
Import ListNotations.
Local Open Scope R_scope.

(** * Specification vocabulary *)

(** Squared amplitude, averaged over the spin of N, of [ν̄ γ^μ P_L N] [l̄ γ_μ (gl P_L + gr P_R) l] with coefficient 2 √2 G;
    [nu], [l], [lb] are the momenta of the neutrino, the lepton and the antilepton, [m] the mass of both leptons *)
Definition four_fermion (G gl gr m : R) (N nu l lb : vec) : R :=
  64 * G ^ 2 * (gl ^ 2 * (mdot N lb * mdot nu l) + gr ^ 2 * (mdot N l * mdot nu lb) + gl * gr * m ^ 2 * mdot N nu).
(** A Majorana particle also decays into the conjugate state *)
Definition majorana_pair (G gl gr m : R) (N nu l lb : vec) : R :=
  four_fermion G gl gr m N nu l lb + four_fermion G gl gr m N nu lb l.
(** Squared amplitude, averaged over the spin of N, of A (l̄ q̸ P_L N) *)
Definition current_sq (A : R) (l N q : vec) : R := A ^ 2 * (2 * mdot l q * mdot N q - mdot q q * mdot l N).
Definition vneg (p : vec) : vec := V4 (- en p) (- px p) (- py p) (- pz p).
Definition vminus (p q : vec) : vec := vplus p (vneg q).

(** [f] is this squared amplitude as a function of s = (p2+p3)^2 and t = (p1+p3)^2 *)
Definition amplitude_of (M m1 m2 m3 : R) (w : vec -> vec -> vec -> R) (f : R -> R -> R) : Prop :=
  forall p1 p2 p3, event M [m1; m2; m3] [p1; p2; p3] -> w p1 p2 p3 = f (lnorm_sqr (vplus p2 p3)) (lnorm_sqr (vplus p1 p3)).
(** The golden rule for three particles with a squared amplitude given by momenta *)
Definition golden3 (M m1 m2 m3 : R) (w : vec -> vec -> vec -> R) (v : R) : Prop :=
  exists f, amplitude_of M m1 m2 m3 w f /\ phase_space_width M m1 m2 m3 f v.
Definition at_rest (M : R) : vec := V4 M 0 0 0.

(** * Products of momenta in terms of s and t *)
Lemma dots3 M m1 m2 m3 p1 p2 p3 : event M [m1; m2; m3] [p1; p2; p3] ->
  let s := lnorm_sqr (vplus p2 p3) in let t := lnorm_sqr (vplus p1 p3) in
  mdot p1 p1 = m1 ^ 2 /\ mdot p2 p2 = m2 ^ 2 /\ mdot p3 p3 = m3 ^ 2
  /\ mdot p2 p3 = (s - m2 ^ 2 - m3 ^ 2) / 2 /\ mdot p1 p3 = (t - m1 ^ 2 - m3 ^ 2) / 2
  /\ mdot p1 p2 = (M ^ 2 + m3 ^ 2 - s - t) / 2
  /\ mdot (at_rest M) p1 = (M ^ 2 + m1 ^ 2 - s) / 2 /\ mdot (at_rest M) p2 = (M ^ 2 + m2 ^ 2 - t) / 2
  /\ mdot (at_rest M) p3 = (s + t - m1 ^ 2 - m2 ^ 2) / 2.
Proof.
  intros Ev s t. apply event3 in Ev. destruct Ev as (S1 & S2 & S3 & E).
  pose proof (shell_mass _ _ S1) as H1. pose proof (shell_mass _ _ S2) as H2. pose proof (shell_mass _ _ S3) as H3. unfold mass_shell in *.
  assert (ER : at_rest M = vplus p1 (vplus p2 p3)) by (symmetry; exact E).
  assert (EM : mdot (at_rest M) (at_rest M) = M ^ 2) by (rewrite mdot_eq; unfold at_rest; cbn [en px py pz]; ring).
  assert (Es : s = m2 ^ 2 + m3 ^ 2 + 2 * mdot p2 p3).
  { unfold s. rewrite lnorm_mdot, mdot_plus_l, !mdot_plus_r, (mdot_sym p3 p2), H2, H3. ring. }
  assert (Et : t = m1 ^ 2 + m3 ^ 2 + 2 * mdot p1 p3).
  { unfold t. rewrite lnorm_mdot, mdot_plus_l, !mdot_plus_r, (mdot_sym p3 p1), H1, H3. ring. }
  rewrite ER in EM. rewrite !mdot_plus_l, !mdot_plus_r, (mdot_sym p2 p1), (mdot_sym p3 p1), (mdot_sym p3 p2), H1, H2, H3 in EM.
  rewrite !ER, !mdot_plus_l, (mdot_sym p2 p1), (mdot_sym p3 p1), (mdot_sym p3 p2), H1, H2, H3.
  repeat split; lra.
Qed.

(** Integrals over t *)
Lemma area_centred k0 k1 k2 c h : area (fun t => k0 + k1 * (t - c) + k2 * (t - c) ^ 2) (c - h) (c + h) (2 * h * k0 + k2 * (2 / 3 * h ^ 3)).
Proof.
  eapply area_val; [|apply (area_of_antiderivative (fun t => k0 * t + k1 * ((t - c) ^ 2 / 2) + k2 * ((t - c) ^ 3 / 3)))].
  - cbn beta. field.
  - intros t _. eapply dl_val.
    + apply dl_plus; [apply dl_plus|]; apply dl_mult; try apply dl_const; [apply dl_id| |];
        (apply dl_div; [apply dl_pow; apply dl_minus; [apply dl_id|apply (dl_const c)]|apply dl_const|lra]).
    + unfold Rsqr. simpl. field.
Qed.

(** The golden rule from the integral over t at each s *)
Lemma golden_from_strips M m1 m2 m3 f inner V : 0 < M -> 0 <= m1 -> 0 <= m2 -> 0 <= m3 -> m1 + m2 + m3 < M ->
  (forall s, (m2 + m3) ^ 2 < s < (M - m1) ^ 2 ->
     area (f s) (dz_mid (M ^ 2) (m1 ^ 2) (m2 ^ 2) (m3 ^ 2) s - dz_half (M ^ 2) (m1 ^ 2) (m2 ^ 2) (m3 ^ 2) s)
                (dz_mid (M ^ 2) (m1 ^ 2) (m2 ^ 2) (m3 ^ 2) s + dz_half (M ^ 2) (m1 ^ 2) (m2 ^ 2) (m3 ^ 2) s) (inner s)) ->
  area inner ((m2 + m3) ^ 2) ((M - m1) ^ 2) (256 * PI ^ 3 * M ^ 3 * V) ->
  phase_space_width M m1 m2 m3 f V.
Proof.
  intros HM H1 H2 H3 Hs I A.
  exists (fun s => dz_mid (M ^ 2) (m1 ^ 2) (m2 ^ 2) (m3 ^ 2) s - dz_half (M ^ 2) (m1 ^ 2) (m2 ^ 2) (m3 ^ 2) s),
         (fun s => dz_mid (M ^ 2) (m1 ^ 2) (m2 ^ 2) (m3 ^ 2) s + dz_half (M ^ 2) (m1 ^ 2) (m2 ^ 2) (m3 ^ 2) s), inner.
  split; [|exact A]. intros s R. assert (0 <= (m2 + m3) ^ 2) by apply pow2_ge_0. assert (P : 0 < s) by lra.
  pose proof (half_nonneg (M ^ 2) (m1 ^ 2) (m2 ^ 2) (m3 ^ 2) s P) as Hh. split; [lra|]. split; [|apply I; exact R].
  intro t. apply dalitz_strip; try lra.
  apply Rmult_le_pos; left; [apply kallen_pos_below; lra|apply kallen_pos_above; lra].
Qed.

(** * Pairs of charged leptons *)
Lemma pair_golden G gl gr M m : 0 < m -> 2 * m < M -> gl <> gr ->
  golden3 M 0 m m (fun nu l lb => majorana_pair G gl gr m (at_rest M) nu l lb)
    (G ^ 2 * M ^ 5 / (96 * PI ^ 3) * ((gl ^ 2 + gr ^ 2) * exact_t1 (m / M) + 4 * gl * gr * exact_t2 (m / M))).
Proof.
  intros Hm HM Hg. set (L := 4 * (gl - gr) ^ 2). set (al := 4 * (gl ^ 2 + gr ^ 2)).
  assert (HL : L <> 0) by (unfold L; apply Rmult_integral_contrapositive; split; [lra|apply pow_nonzero; lra]).
  exists (fun s t => 4 * G ^ 2 * L * bracket (al / L) M m s t). split.
  - intros p1 p2 p3 Ev. destruct (dots3 _ _ _ _ _ _ _ Ev) as (_ & _ & _ & D23 & D13 & D12 & N1 & N2 & N3).
    set (s := lnorm_sqr (vplus p2 p3)) in *. set (t := lnorm_sqr (vplus p1 p3)) in *.
    unfold majorana_pair, four_fermion. rewrite N1, N2, N3, D12, D13. unfold bracket.
    transitivity (4 * G ^ 2 * ((M ^ 2 - s) * (al * s + 2 * al * m ^ 2 - 2 * L * m ^ 2) + 2 * al * ((t - m ^ 2) * (M ^ 2 + m ^ 2 - s - t)))).
    + unfold al, L. field.
    + field. exact HL.
  - pose proof (bracket_width (al / L) M m (4 * G ^ 2 * L) Hm HM) as W.
    match type of W with phase_space_width _ _ _ _ _ ?v => replace v with
      (G ^ 2 * M ^ 5 / (96 * PI ^ 3) * ((gl ^ 2 + gr ^ 2) * exact_t1 (m / M) + 4 * gl * gr * exact_t2 (m / M))) in W end; [exact W|].
    set (x1 := exact_t1 (m / M)). set (x2 := exact_t2 (m / M)).
    transitivity (4 * G ^ 2 * M ^ 5 / (384 * PI ^ 3) * (al / 4 * x1 + (al - L) / 2 * x2)).
    + unfold al, L. field. apply PI_neq0.
    + field. split; [exact HL|apply PI_neq0].
Qed.

(** The logarithm of the code *)
Lemma pair_log r : 0 < r < 1 / 2 -> 2 * ln (4 * r ^ 2 / (1 + sqrt (1 - 4 * r ^ 2)) ^ 2) = exact_log r.
Proof.
  intro H. destruct (sx_range r H) as [B Q]. unfold exact_log. f_equal. f_equal. unfold vff_sx in *.
  set (b := sqrt _) in *. clearbody b. replace (4 * r ^ 2) with ((1 - b) * (1 + b)) by (replace (4 * r ^ 2) with (1 - b * b) by lra; ring).
  field. lra.
Qed.
Lemma cw_sq : cw ^ 2 = 1 - sw ^ 2.
Proof. unfold cw. apply pow2_sqrt. rewrite sw_sq. lra. Qed.
Lemma cw_pos : 0 < cw.
Proof. unfold cw. apply sqrt_lt_R0. rewrite sw_sq. lra. Qed.
Lemma cw4 : cw ^ 4 = (1 - sw ^ 2) ^ 2.
Proof. rewrite <- cw_sq. ring. Qed.
Lemma sin_double_sq th : sin (2 * th) ^ 2 = 4 * (sin th * cos th) ^ 2.
Proof. rewrite sin_2a. ring. Qed.
Lemma ratio_half m M : 0 < m -> 2 * m < M -> 0 < m / M < 1 / 2.
Proof. intros Hm HM. split; [apply Rdiv_lt_0_compat; lra|]. apply Rmult_lt_reg_r with M; [lra|]. field_simplify; lra. Qed.

(** Couplings: charged current [d], neutral current with strength [rho] relative to the charged one *)
Definition g_left (d rho : R) : R := d + rho * (- 1 / 2 + sw ^ 2).
Definition g_right (rho : R) : R := rho * sw ^ 2.

Lemma same_value M th m : 0 < m -> 2 * m < M ->
  width_nu_l_l_same M th m
  = (GF * (sin th * cos th)) ^ 2 * M ^ 5 / (96 * PI ^ 3)
    * ((g_left 1 (/ cw ^ 2) ^ 2 + g_right (/ cw ^ 2) ^ 2) * exact_t1 (m / M)
       + 4 * g_left 1 (/ cw ^ 2) * g_right (/ cw ^ 2) * exact_t2 (m / M)).
Proof.
  intros Hm HM. unfold width_nu_l_l_same. destruct (Rlt_dec M (2 * m)) as [L|_]; [lra|].
  pose proof (ratio_half m M Hm HM) as Hr. set (r := m / M) in *. clearbody r.
  pose proof (pair_log r Hr) as EL. unfold exact_t1, exact_t2. rewrite <- EL. unfold vff_sx.
  set (b := sqrt _). set (l := ln _). rewrite sin_double_sq. unfold g_left, g_right. rewrite cw_sq.
  set (w := sw ^ 2). assert (Hw : w = 2229 / 10000) by apply sw_sq. replace (sw ^ 4) with (w ^ 2) by (unfold w; ring).
  clearbody w b l. field. repeat split; try apply PI_neq0; lra.
Qed.
Lemma other_value M th m : 0 < m -> 2 * m < M ->
  width_nu_lp_lp M th m
  = (GF * (sin th * cos th)) ^ 2 * M ^ 5 / (96 * PI ^ 3)
    * ((g_left 0 (/ cw ^ 2) ^ 2 + g_right (/ cw ^ 2) ^ 2) * exact_t1 (m / M)
       + 4 * g_left 0 (/ cw ^ 2) * g_right (/ cw ^ 2) * exact_t2 (m / M)).
Proof.
  intros Hm HM. unfold width_nu_lp_lp. destruct (Rlt_dec M (2 * m)) as [L|_]; [lra|].
  pose proof (ratio_half m M Hm HM) as Hr. set (r := m / M) in *. clearbody r.
  pose proof (pair_log r Hr) as EL. unfold exact_t1, exact_t2. rewrite <- EL. unfold vff_sx.
  set (b := sqrt _). set (l := ln _). rewrite sin_double_sq. unfold g_left, g_right. rewrite cw_sq.
  set (w := sw ^ 2). assert (Hw : w = 2229 / 10000) by apply sw_sq. replace (sw ^ 4) with (w ^ 2) by (unfold w; ring).
  clearbody w b l. field. repeat split; try apply PI_neq0; lra.
Qed.

(** * Leptons of two flavours: one charged current *)
Section Mixed.
Variables a b : R.
Hypothesis Ha : 0 < a.
Hypothesis Hb : 0 < b.
Hypothesis Hab : sqrt a + sqrt b < 1.

Definition mlam (x : R) : R := kallen_lambda 1 x b.
Definition mtop : R := (1 - sqrt b) ^ 2.
Definition mlog (c r : R) : R := ln ((c + r) / (c - r)).
Definition mixed_integrand (x : R) : R := 12 / x * (x - a) ^ 2 * (1 + b - x) * sqrt (mlam x).
(** The rational part of the antiderivative *)
Definition mq (x : R) : R :=
  3 * x ^ 3 - 5 * (1 + b) * x ^ 2 + (3 * (1 - b) ^ 2 - (1 + b) ^ 2) / 2 * x + (5 * (1 + b) * (1 - b) ^ 2 - 3 * (1 + b) ^ 3) / 2
  - 2 * a * (4 * x ^ 2 - 8 * (1 + b) * x + 4 * (1 - b) ^ 2) + a ^ 2 * (6 * x - 18 * (1 + b)).
Definition manti (x : R) : R :=
  mq x * sqrt (mlam x) + 12 * a ^ 2 * (1 - b ^ 2) * mlog (1 + x - b) (sqrt (mlam x))
  + 12 * b ^ 2 * (1 - a ^ 2) * mlog (1 + b - x) (sqrt (mlam x)).

Lemma sqb : 0 < sqrt b /\ sqrt b * sqrt b = b /\ sqrt b < 1.
Proof. pose proof (sqrt_lt_R0 a Ha). split; [apply sqrt_lt_R0; exact Hb|]. split; [apply sqrt_sqrt; lra|lra]. Qed.
Lemma b_lt_1 : b < 1.
Proof. destruct sqb as (P & Q & L). nra. Qed.
Lemma mlam_factor x : mlam x = ((1 - sqrt b) ^ 2 - x) * ((1 + sqrt b) ^ 2 - x).
Proof.
  destruct sqb as (P & Q & L). unfold mlam, kallen_lambda. set (q := sqrt b) in *. clearbody q. rewrite <- Q. ring.
Qed.
Lemma a_lt_top : a < mtop.
Proof.
  destruct sqb as (P & Q & L). pose proof (sqrt_lt_R0 a Ha) as Pa. pose proof (sqrt_sqrt a ltac:(lra)) as Qa. unfold mtop. nra.
Qed.
Lemma mlam_nonneg x : x <= mtop -> 0 <= mlam x.
Proof. intro H. destruct sqb as (P & Q & L). rewrite mlam_factor. unfold mtop in H. apply Rmult_le_pos; nra. Qed.
Lemma mlam_pos x : x < mtop -> 0 < mlam x.
Proof. intro H. destruct sqb as (P & Q & L). rewrite mlam_factor. unfold mtop in H. apply Rmult_lt_0_compat; nra. Qed.
Lemma top_small : mtop <= 1 - b.
Proof. destruct sqb as (P & Q & L). unfold mtop. nra. Qed.
(** Both logarithms have arguments above 1 *)
Lemma root_small x : 0 < x -> x <= mtop -> sqrt (mlam x) < 1 + x - b /\ sqrt (mlam x) < 1 + b - x.
Proof.
  intros H0 H. pose proof top_small as T. pose proof b_lt_1 as B. pose proof (mlam_nonneg x H) as L. pose proof (sqrt_sqrt _ L) as Q. pose proof (sqrt_pos (mlam x)) as P.
  assert (E1 : (1 + x - b) ^ 2 - mlam x = 4 * x) by (unfold mlam, kallen_lambda; ring).
  assert (E2 : (1 + b - x) ^ 2 - mlam x = 4 * b) by (unfold mlam, kallen_lambda; ring).
  set (r := sqrt (mlam x)) in *. clearbody r. split; nra.
Qed.
Lemma mlam_dl x : derivable_pt_lim mlam x (2 * (x - 1 - b)).
Proof.
  unfold mlam, kallen_lambda. eapply dl_val.
  - apply dl_minus; [apply dl_minus; [apply dl_minus; [apply dl_plus; [apply dl_plus; [apply (dl_const (1 ^ 2))|]|apply (dl_const (b ^ 2))]|]|]|].
    + apply dl_pow, dl_id.
    + apply dl_mult; [apply (dl_const (2 * 1))|apply dl_id].
    + apply (dl_const (2 * 1 * b)).
    + apply dl_mult; [|apply (dl_const b)]. apply dl_mult; [apply (dl_const 2)|apply dl_id].
  - simpl. ring.
Qed.
Lemma root_dl x : x < mtop -> derivable_pt_lim (fun y => sqrt (mlam y)) x ((x - 1 - b) / sqrt (mlam x)).
Proof.
  intro H. pose proof (mlam_pos x H) as P. pose proof (sqrt_lt_R0 _ P) as SP. eapply dl_val; [apply dl_sqrt; [apply mlam_dl|exact P]|]. field. lra.
Qed.
Lemma root_cont x : x <= mtop -> continuity_pt (fun y => sqrt (mlam y)) x.
Proof.
  intro H. apply (continuity_pt_comp mlam sqrt).
  - apply derivable_continuous_pt. eexists. apply mlam_dl.
  - apply continuity_pt_sqrt. apply mlam_nonneg; exact H.
Qed.
Lemma mlog_cont c d x : x <= mtop -> (forall y, derivable_pt_lim c y (d y)) -> sqrt (mlam x) < c x -> continuity_pt (fun y => mlog (c y) (sqrt (mlam y))) x.
Proof.
  intros H D R. pose proof (sqrt_pos (mlam x)) as P. unfold mlog.
  assert (Cc : continuity_pt c x) by (apply derivable_continuous_pt; exists (d x); apply D).
  apply (continuity_pt_comp (fun y => (c y + sqrt (mlam y)) / (c y - sqrt (mlam y))) ln).
  - apply continuity_pt_mult; [apply continuity_pt_plus; [exact Cc|apply root_cont; exact H]|].
    apply continuity_pt_inv; [apply continuity_pt_minus; [exact Cc|apply root_cont; exact H]|]. lra.
  - apply derivable_continuous_pt. eexists. apply derivable_pt_lim_ln. apply Rdiv_lt_0_compat; lra.
Qed.
Lemma mlog_dl c d x : x < mtop -> derivable_pt_lim c x d -> sqrt (mlam x) < c x ->
  derivable_pt_lim (fun y => mlog (c y) (sqrt (mlam y))) x
    (2 * (c x * (x - 1 - b) - d * mlam x) / (sqrt (mlam x) * (c x ^ 2 - mlam x))).
Proof.
  intros H D Rr. pose proof (mlam_pos x H) as P. pose proof (sqrt_lt_R0 _ P) as SP. unfold mlog. eapply dl_val.
  - apply dl_ln; [|apply Rdiv_lt_0_compat; lra].
    apply dl_div; [apply dl_plus; [exact D|apply root_dl; exact H]|apply dl_minus; [exact D|apply root_dl; exact H]|lra].
  - unfold Rsqr. pose proof (sqrt_sqrt (mlam x) ltac:(lra)) as Q. set (r := sqrt (mlam x)) in *. rewrite <- Q. set (cx := c x) in *. clearbody r cx.
    field. repeat split; try lra; nra.
Qed.

Lemma mq_dl x : derivable_pt_lim mq x
  (9 * x ^ 2 - 10 * (1 + b) * x + (3 * (1 - b) ^ 2 - (1 + b) ^ 2) / 2 - 2 * a * (8 * x - 8 * (1 + b)) + 6 * a ^ 2).
Proof.
  unfold mq. eapply dl_val.
  - apply dl_plus; [apply dl_minus; [apply dl_plus; [apply dl_plus; [apply dl_minus|]|]|]|].
    + apply dl_mult; [apply (dl_const 3)|apply dl_pow, dl_id].
    + apply dl_mult; [apply (dl_const (5 * (1 + b)))|apply dl_pow, dl_id].
    + apply dl_mult; [apply (dl_const ((3 * (1 - b) ^ 2 - (1 + b) ^ 2) / 2))|apply dl_id].
    + apply (dl_const ((5 * (1 + b) * (1 - b) ^ 2 - 3 * (1 + b) ^ 3) / 2)).
    + apply dl_mult; [apply (dl_const (2 * a))|]. apply dl_plus; [apply dl_minus|apply (dl_const (4 * (1 - b) ^ 2))].
      * apply dl_mult; [apply (dl_const 4)|apply dl_pow, dl_id].
      * apply dl_mult; [apply (dl_const (8 * (1 + b)))|apply dl_id].
    + apply dl_mult; [apply (dl_const (a ^ 2))|]. apply dl_minus; [apply dl_mult; [apply (dl_const 6)|apply dl_id]|apply (dl_const (18 * (1 + b)))].
  - simpl. field.
Qed.
Lemma dl_c1 x : derivable_pt_lim (fun y => 1 + y - b) x 1.
Proof. eapply dl_val; [apply dl_minus; [apply dl_plus; [apply (dl_const 1)|apply dl_id]|apply (dl_const b)]|ring]. Qed.
Lemma dl_c2 x : derivable_pt_lim (fun y => 1 + b - y) x (-1).
Proof. eapply dl_val; [apply dl_minus; [apply (dl_const (1 + b))|apply dl_id]|ring]. Qed.

Lemma manti_dl x : 0 < x -> x < mtop -> derivable_pt_lim manti x (- mixed_integrand x).
Proof.
  intros H0 H. destruct (root_small x H0 ltac:(lra)) as [R1 R2]. pose proof (mlam_pos x H) as P. pose proof (sqrt_lt_R0 _ P) as SP.
  unfold manti. eapply dl_val.
  - apply dl_plus; [apply dl_plus|].
    + apply dl_mult; [apply mq_dl|apply root_dl; exact H].
    + apply dl_mult; [apply (dl_const (12 * a ^ 2 * (1 - b ^ 2)))|]. apply (mlog_dl (fun y => 1 + y - b) 1); [exact H|apply dl_c1|exact R1].
    + apply dl_mult; [apply (dl_const (12 * b ^ 2 * (1 - a ^ 2)))|]. apply (mlog_dl (fun y => 1 + b - y) (-1)); [exact H|apply dl_c2|exact R2].
  - unfold mixed_integrand.
    assert (E1 : (1 + x - b) ^ 2 - mlam x = 4 * x) by (unfold mlam, kallen_lambda; ring).
    assert (E2 : (1 + b - x) ^ 2 - mlam x = 4 * b) by (unfold mlam, kallen_lambda; ring). rewrite E1, E2.
    pose proof (sqrt_sqrt (mlam x) ltac:(lra)) as Q. set (r := sqrt (mlam x)) in *.
    apply Rmult_eq_reg_r with r; [|lra].
    transitivity (- (12 / x * (x - a) ^ 2 * (1 + b - x)) * (r * r)); [|ring]. rewrite Q.
    match goal with |- ?L = _ => transitivity
      ((9 * x ^ 2 - 10 * (1 + b) * x + (3 * (1 - b) ^ 2 - (1 + b) ^ 2) / 2 - 2 * a * (8 * x - 8 * (1 + b)) + 6 * a ^ 2) * (r * r)
       + mq x * (x - 1 - b)
       + 12 * a ^ 2 * (1 - b ^ 2) * (2 * ((1 + x - b) * (x - 1 - b) - 1 * mlam x) / (4 * x))
       + 12 * b ^ 2 * (1 - a ^ 2) * (2 * ((1 + b - x) * (x - 1 - b) - -1 * mlam x) / (4 * b))) end.
    + field. repeat split; lra.
    + rewrite Q. unfold mq, mlam, kallen_lambda. field. repeat split; lra.
Qed.
Lemma mixed_area : area mixed_integrand a mtop (manti a).
Proof.
  pose proof a_lt_top as T. exists (fun x => - manti x). split; [|split].
  - intros x Hx. apply continuity_pt_opp. destruct (root_small x ltac:(lra) ltac:(lra)) as [R1 R2]. unfold manti.
    apply continuity_pt_plus; [apply continuity_pt_plus|]; apply continuity_pt_mult;
      try (apply continuity_pt_const; intros ? ?; reflexivity).
    + apply derivable_continuous_pt. eexists. apply mq_dl.
    + apply root_cont; lra.
    + apply (mlog_cont (fun y => 1 + y - b) (fun _ => 1)); [lra|apply dl_c1|exact R1].
    + apply (mlog_cont (fun y => 1 + b - y) (fun _ => -1)); [lra|apply dl_c2|exact R2].
  - exists []. intros x Hx _. eapply dl_val; [apply dl_opp, manti_dl; lra|ring].
  - assert (Z : sqrt (mlam mtop) = 0) by (rewrite mlam_factor; unfold mtop; replace (((1 - sqrt b) ^ 2 - (1 - sqrt b) ^ 2) * _) with 0 by ring; apply sqrt_0).
    destruct (root_small mtop ltac:(lra) ltac:(lra)) as [R1 R2]. rewrite Z in R1, R2.
    unfold manti at 1. rewrite Z. unfold mlog. rewrite !Rplus_0_r, !Rminus_0_r.
    replace ((1 + mtop - b) / (1 + mtop - b)) with 1 by (field; lra). replace ((1 + b - mtop) / (1 + b - mtop)) with 1 by (field; lra).
    rewrite ln_1. ring.
Qed.

(** The expression of the code *)
Definition mixed_code : R :=
  let root := sqrt (a ^ 2 + (-1 + b) ^ 2 - 2 * a * (1 + b)) in
  root * (1 + a ^ 3 - 7 * b - 7 * b ^ 2 + b ^ 3 - 7 * a ^ 2 * (1 + b) + a * (-7 + 12 * b - 7 * b ^ 2))
  + 12 * a ^ 2 * (-1 + b ^ 2) * ln (4 * a * b / (-1 + a + b - root) ^ 2)
  + 6 * (a ^ 2 - b ^ 2) * ln ((a ^ 2 + b * (-1 + b) - a * (1 + 2 * b) + (a - b) * root) ^ 2 / (-1 + a + b - root) ^ 2).
Lemma mixed_closed : mixed_code = manti a.
Proof.
  pose proof a_lt_top as T. destruct (root_small a Ha ltac:(lra)) as [R1 R2]. pose proof (mlam_pos a T) as P. pose proof (sqrt_lt_R0 _ P) as SP.
  pose proof (sqrt_sqrt (mlam a) ltac:(lra)) as Q. unfold mixed_code, manti.
  replace (a ^ 2 + (-1 + b) ^ 2 - 2 * a * (1 + b)) with (mlam a) by (unfold mlam, kallen_lambda; ring). cbv zeta.
  assert (Eq : mq a = 1 + a ^ 3 - 7 * b - 7 * b ^ 2 + b ^ 3 - 7 * a ^ 2 * (1 + b) + a * (-7 + 12 * b - 7 * b ^ 2)) by (unfold mq; field).
  rewrite Eq. set (r := sqrt (mlam a)) in *.
  assert (Q' : r * r = 1 + a ^ 2 + b ^ 2 - 2 * a - 2 * b - 2 * a * b) by (rewrite Q; unfold mlam, kallen_lambda; ring). clearbody r. clear Q P Eq.
  pose proof b_lt_1 as B1. pose proof top_small as TS.
  assert (C : 0 < 1 - a - b) by lra.
  assert (D : (1 + a - b + r) * (1 + b - a + r) = 2 * (1 - a - b + r)).
  { transitivity (1 - (a - b) ^ 2 + 2 * r + r * r); [ring|]. rewrite Q'. ring. }
  assert (D' : (1 + a - b - r) * (1 + b - a - r) = 2 * (1 - a - b - r)).
  { transitivity (1 - (a - b) ^ 2 - 2 * r + r * r); [ring|]. rewrite Q'. ring. }
  assert (F : (1 - a - b + r) * (1 - a - b - r) = 4 * a * b).
  { transitivity ((1 - a - b) ^ 2 - r * r); [ring|]. rewrite Q'. ring. }
  assert (F2 : (1 + b - a + r) * (1 + b - a - r) = 4 * b).
  { transitivity ((1 + b - a) ^ 2 - r * r); [ring|]. rewrite Q'. ring. }
  assert (Nn : (a ^ 2 + b * (-1 + b) - a * (1 + 2 * b) + (a - b) * r) * (1 + b - a + r) = - 2 * b * (1 + a - b + r)).
  { transitivity ((a ^ 2 + b * (-1 + b) - a * (1 + 2 * b)) * (1 + b - a) + r * ((a - b) * (1 + b - a) + (a ^ 2 + b * (-1 + b) - a * (1 + 2 * b))) + (a - b) * (r * r)); [ring|].
    rewrite Q'. ring. }
  unfold mlog.
  set (A := (1 + a - b + r) / (1 + a - b - r)). set (B := (1 + b - a + r) / (1 + b - a - r)).
  assert (HA : 0 < A) by (apply Rdiv_lt_0_compat; lra). assert (HB : 0 < B) by (apply Rdiv_lt_0_compat; lra).
  assert (L1 : 4 * a * b / (-1 + a + b - r) ^ 2 = / (A * B)).
  { unfold A, B. rewrite <- F. replace (/ ((1 + a - b + r) / (1 + a - b - r) * ((1 + b - a + r) / (1 + b - a - r))))
      with (((1 + a - b - r) * (1 + b - a - r)) / ((1 + a - b + r) * (1 + b - a + r))) by (field; repeat split; lra).
    rewrite D, D'. replace ((-1 + a + b - r) ^ 2) with ((1 - a - b + r) ^ 2) by ring. field. lra. }
  assert (L2 : (a ^ 2 + b * (-1 + b) - a * (1 + 2 * b) + (a - b) * r) ^ 2 / (-1 + a + b - r) ^ 2 = / (B * B)).
  { assert (E : a ^ 2 + b * (-1 + b) - a * (1 + 2 * b) + (a - b) * r = - 2 * b * (1 + a - b + r) / (1 + b - a + r)) by (rewrite <- Nn; field; lra).
    rewrite E. replace ((-1 + a + b - r) ^ 2) with (((1 + a - b + r) * (1 + b - a + r) / 2) ^ 2) by (rewrite D; field).
    replace b with ((1 + b - a + r) * (1 + b - a - r) / 4) at 1 by (rewrite F2; field).
    unfold B. field. repeat split; lra. }
  clearbody A B. rewrite L1, L2, !ln_Rinv, !ln_mult by (try apply Rmult_lt_0_compat; assumption). ring.
Qed.
End Mixed.

(** Particles 1, 2, 3: the antilepton of flavour k, the lepton of flavour i and the neutrino *)
Lemma mixed_golden M th mi mk : 0 < mi -> 0 < mk -> mi + mk < M ->
  golden3 M mk mi 0 (fun lk li nu => four_fermion (GF * sin th) 1 0 0 (at_rest M) nu li lk) (width_nup_l_lp M th mi mk).
Proof.
  intros Hi Hk HM. exists (fun s _ => 16 * (GF * sin th) ^ 2 * ((M ^ 2 + mk ^ 2 - s) * (s - mi ^ 2))). split.
  - intros p1 p2 p3 Ev. destruct (dots3 _ _ _ _ _ _ _ Ev) as (_ & _ & _ & D23 & _ & _ & N1 & _ & _).
    unfold four_fermion. rewrite N1, (mdot_sym p3 p2), D23. field.
  - set (c := 16 * (GF * sin th) ^ 2).
    assert (Hri : 0 < mi / M) by (apply Rdiv_lt_0_compat; lra). assert (Hrk : 0 < mk / M) by (apply Rdiv_lt_0_compat; lra).
    set (a := (mi / M) ^ 2). set (b := (mk / M) ^ 2).
    assert (Ha : 0 < a) by (apply pow_lt; exact Hri). assert (Hb : 0 < b) by (apply pow_lt; exact Hrk).
    assert (Sa : sqrt a = mi / M) by (apply sqrt_pow2; lra). assert (Sb : sqrt b = mk / M) by (apply sqrt_pow2; lra).
    assert (Hab : sqrt a + sqrt b < 1).
    { rewrite Sa, Sb. apply Rmult_lt_reg_r with M; [lra|]. replace ((mi / M + mk / M) * M) with (mi + mk) by (field; lra). lra. }
    pose proof (mixed_area a b Ha Hb Hab) as A. rewrite <- (mixed_closed a b Ha Hb Hab) in A.
    apply (golden_from_strips M mk mi 0 _ (fun s => c / 12 * M ^ 6 * mixed_integrand a b (s / M ^ 2))); try lra.
    + intros s Hs. assert (P : 0 < s) by nra.
      eapply area_val; [|apply (area_const (c * ((M ^ 2 + mk ^ 2 - s) * (s - mi ^ 2))))].
      unfold dz_half, mixed_integrand, mlam.
      replace (kallen_lambda s (M ^ 2) (mk ^ 2) * kallen_lambda s (mi ^ 2) (0 ^ 2))
        with ((M ^ 2) ^ 2 * (s - mi ^ 2) ^ 2 * kallen_lambda 1 (s / M ^ 2) b)
        by (unfold kallen_lambda, b; field; lra).
      assert (D : 0 < s - mi ^ 2) by nra.
      rewrite sqrt_mult_alt by (apply Rmult_le_pos; apply pow2_ge_0). rewrite sqrt_mult_alt by apply pow2_ge_0.
      rewrite !sqrt_pow2 by (try lra; apply pow2_ge_0).
      set (root := sqrt (kallen_lambda 1 (s / M ^ 2) b)). clearbody root. unfold a, b. field. lra.
    + assert (A' : area (fun s => mixed_integrand a b (s / M ^ 2)) ((mi + 0) ^ 2) ((M - mk) ^ 2) (M ^ 2 * mixed_code a b)).
      { apply area_shrink; [apply pow_lt; lra|]. replace ((mi + 0) ^ 2 / M ^ 2) with a by (unfold a; field; lra).
        replace ((M - mk) ^ 2 / M ^ 2) with (mtop b) by (unfold mtop; rewrite Sb; field; lra). exact A. }
      eapply area_val; [|apply area_scale, A'].
      unfold width_nup_l_lp. destruct (Rlt_dec M (mi + mk)) as [L|_]; [lra|]. fold a b. unfold mixed_code.
      replace ((mi / M) ^ 4) with (a ^ 2) by (unfold a; ring). replace ((mk / M) ^ 4) with (b ^ 2) by (unfold b; ring).
      replace ((mi / M) ^ 6) with (a ^ 3) by (unfold a; ring). replace ((mk / M) ^ 6) with (b ^ 3) by (unfold b; ring).
      cbv zeta. set (root := sqrt _). set (l1 := ln _). set (l2 := ln _). clearbody root l1 l2 a b. unfold c. field. apply PI_neq0.
Qed.


(** * Two pions *)
(** The integral over t of the squared pion current *)
Lemma current_strip A M m1 m2 m3 s : 0 < s -> 0 <= kallen_lambda s (M ^ 2) (m1 ^ 2) * kallen_lambda s (m2 ^ 2) (m3 ^ 2) ->
  let D := (M ^ 2 - m1 ^ 2) * (m2 ^ 2 - m3 ^ 2) / s in
  area (fun t => A ^ 2 * ((M ^ 2 + m1 ^ 2 + 2 * m3 ^ 2 - s - 2 * t) * (M ^ 2 + m1 ^ 2 + 2 * m2 ^ 2 - s - 2 * t) / 2
                          - (2 * m2 ^ 2 + 2 * m3 ^ 2 - s) * (M ^ 2 + m1 ^ 2 - s) / 2))
    (dz_mid (M ^ 2) (m1 ^ 2) (m2 ^ 2) (m3 ^ 2) s - dz_half (M ^ 2) (m1 ^ 2) (m2 ^ 2) (m3 ^ 2) s)
    (dz_mid (M ^ 2) (m1 ^ 2) (m2 ^ 2) (m3 ^ 2) s + dz_half (M ^ 2) (m1 ^ 2) (m2 ^ 2) (m3 ^ 2) s)
    (A ^ 2 * (sqrt (kallen_lambda s (M ^ 2) (m1 ^ 2) * kallen_lambda s (m2 ^ 2) (m3 ^ 2)) / (2 * s)
              * (D ^ 2 - (m2 ^ 2 - m3 ^ 2) ^ 2 - (2 * m2 ^ 2 + 2 * m3 ^ 2 - s) * (M ^ 2 + m1 ^ 2 - s)
                 + kallen_lambda s (M ^ 2) (m1 ^ 2) * kallen_lambda s (m2 ^ 2) (m3 ^ 2) / (3 * s ^ 2)))).
Proof.
  intros Hs HL D. apply area_scale.
  set (d := m2 ^ 2 - m3 ^ 2) in *. set (c := dz_mid _ _ _ _ _). unfold dz_half. set (L := kallen_lambda _ _ _ * kallen_lambda _ _ _) in *.
  pose proof (sqrt_sqrt L HL) as Q. set (r := sqrt L) in *. clearbody r.
  eapply area_ext with (l := []); [|eapply area_val; [|apply (area_centred ((D ^ 2 - d ^ 2) / 2 - (2 * m2 ^ 2 + 2 * m3 ^ 2 - s) * (M ^ 2 + m1 ^ 2 - s) / 2) (- 2 * D) 2 c (r / (2 * s)))]].
  - intros t _ _. unfold c, dz_mid, D, d. field. lra.
  - rewrite <- Q. field. lra.
Qed.
Lemma current_amplitude A M m1 m2 m3 :
  amplitude_of M m1 m2 m3 (fun l p p' => current_sq A l (at_rest M) (vminus p p'))
    (fun s t => A ^ 2 * ((M ^ 2 + m1 ^ 2 + 2 * m3 ^ 2 - s - 2 * t) * (M ^ 2 + m1 ^ 2 + 2 * m2 ^ 2 - s - 2 * t) / 2
                         - (2 * m2 ^ 2 + 2 * m3 ^ 2 - s) * (M ^ 2 + m1 ^ 2 - s) / 2)).
Proof.
  intros p1 p2 p3 Ev. destruct (dots3 _ _ _ _ _ _ _ Ev) as (_ & D22 & D33 & D23 & D13 & D12 & N1 & N2 & N3).
  set (s := lnorm_sqr (vplus p2 p3)) in *. set (t := lnorm_sqr (vplus p1 p3)) in *.
  assert (V : forall u v w, mdot u (vminus v w) = mdot u v - mdot u w)
    by (intros u v w; unfold vminus; rewrite mdot_plus_r, !mdot_eq; unfold vneg; cbn [en px py pz]; ring).
  unfold current_sq. rewrite !V, !(mdot_sym (vminus p2 p3)), !V, (mdot_sym p3 p2), (mdot_sym (at_rest M)) in *.
  rewrite ?(mdot_sym p1 (at_rest M)), ?(mdot_sym p2 (at_rest M)), ?(mdot_sym p3 (at_rest M)) in *.
  rewrite D12, D13, D23, D22, D33, N1, N2, N3. field.
Qed.

(** A neutrino and a pair of charged particles of mass [m] *)
Definition pair_closed (a : R) : R :=
  (1 / 2 + 12 * a - 5 * a ^ 2 + 6 * a ^ 3) * sqrt (1 - 4 * a) - 2 * (6 * a + 12 * a ^ 3 - 12 * a ^ 4) * np_arctanh (sqrt (1 - 4 * a)).
Lemma pair_area a : 0 < a -> 4 * a < 1 ->
  area (fun z => (1 - z) ^ 2 * (1 + 2 * z) * (1 - 4 * a / z) * bz a z) (4 * a) 1 (pair_closed a).
Proof.
  intros Ha H1.
  pose proof (lepton_area a Ha
    (fun z => 8 * a / z + (1 - 6 * a ^ 2 + 6 * a ^ 3) + (7 * a + a ^ 2) * z + (- 1 - 3 * a) * z ^ 2 + z ^ 3 / 2)
    (fun z => - (8 * a) / z ^ 2 + (7 * a + a ^ 2) + 2 * (- 1 - 3 * a) * z + 3 / 2 * z ^ 2)
    (fun z => (1 - z) ^ 2 * (1 + 2 * z) * (1 - 4 * a / z)) (6 * a + 12 * a ^ 3 - 12 * a ^ 4) H1) as A.
  cbv beta in A. eapply area_val; [|apply A].
  - unfold pair_closed, lamz, bz, np_arctanh. replace (1 - 4 * a / 1) with (1 - 4 * a) by field.
    assert (P : 0 < 1 - 4 * a) by lra. pose proof (sqrt_sqrt (1 - 4 * a) ltac:(lra)) as Q. pose proof (sqrt_lt_R0 _ P) as SP.
    set (b := sqrt (1 - 4 * a)) in *. assert (B : b < 1) by nra.
    replace ((1 - b) / (1 + b)) with (/ ((1 + b) / (1 - b))) by (field; lra).
    rewrite ln_Rinv by (apply Rdiv_lt_0_compat; lra). set (l := ln _). clearbody l b. field.
  - intros z Hz. eapply dl_val.
    + apply dl_plus; [apply dl_plus; [apply dl_plus; [apply dl_plus|]|]|].
      * apply dl_div; [apply (dl_const (8 * a))|apply dl_id|lra].
      * apply (dl_const (1 - 6 * a ^ 2 + 6 * a ^ 3)).
      * apply dl_mult; [apply (dl_const (7 * a + a ^ 2))|apply dl_id].
      * apply dl_mult; [apply (dl_const (- 1 - 3 * a))|apply dl_pow, dl_id].
      * apply dl_div; [apply dl_pow, dl_id|apply (dl_const 2)|lra].
    + unfold Rsqr. simpl. field. lra.
  - intros z Hz. field. lra.
Qed.
Lemma current_pair_golden A M m : 0 < m -> 2 * m < M ->
  golden3 M 0 m m (fun nu p p' => current_sq A nu (at_rest M) (vminus p p')) (A ^ 2 * M ^ 5 / (1536 * PI ^ 3) * pair_closed ((m / M) ^ 2)).
Proof.
  intros Hm HM. eexists. split; [apply current_amplitude|].
  pose proof (ratio_half m M Hm HM) as Hr. set (a := (m / M) ^ 2). assert (Ha : 0 < a) by (apply pow_lt; lra). assert (H4 : 4 * a < 1) by (unfold a; nra).
  pose proof (pair_area a Ha H4) as P.
  apply (golden_from_strips M 0 m m _ (fun s => A ^ 2 / 6 * M ^ 6 * ((1 - s / M ^ 2) ^ 2 * (1 + 2 * (s / M ^ 2)) * (1 - 4 * a / (s / M ^ 2)) * bz a (s / M ^ 2)))); try lra.
  - intros s Hs. assert (Ps : 0 < s) by nra. assert (D : 0 < M ^ 2 - s) by nra. assert (F : 0 < s - 4 * m ^ 2) by nra.
    eapply area_val; [|apply current_strip; [lra|]].
    + replace (kallen_lambda s (M ^ 2) (0 ^ 2) * kallen_lambda s (m ^ 2) (m ^ 2)) with (((M ^ 2 - s) * s) ^ 2 * (1 - 4 * a / (s / M ^ 2)))
        by (unfold kallen_lambda, a; field; split; lra).
      rewrite sqrt_mult_alt by apply pow2_ge_0. rewrite sqrt_pow2 by nra. unfold bz. set (r := sqrt (1 - 4 * a / (s / M ^ 2))). clearbody r.
      unfold a. field. split; lra.
    + apply Rmult_le_pos; left; [apply kallen_pos_below; nra|apply kallen_pos_above; nra].
  - pose proof (area_shrink _ ((m + m) ^ 2) ((M - 0) ^ 2) (pair_closed a) (M ^ 2) ltac:(apply pow_lt; lra)
      ltac:(replace ((m + m) ^ 2 / M ^ 2) with (4 * a) by (unfold a; field; lra); replace ((M - 0) ^ 2 / M ^ 2) with 1 by (field; lra); exact P)) as S'.
    cbv beta in S'. eapply area_val; [|apply area_scale, S']. field. apply PI_neq0.
Qed.
Lemma pi_pi_value o : 2 * m_pi < l_mx o ->
  width_nu_pi_pi o = / cw ^ 2 * (2 * ((sqrt 2 * (GF * (sin (l_theta o) * cos (l_theta o)) * (1 - 2 * sw ^ 2))) ^ 2 * l_mx o ^ 5 / (1536 * PI ^ 3)
                                   * pair_closed ((m_pi / l_mx o) ^ 2))).
Proof.
  intro H. pose proof m_pi_pos as Hm. unfold width_nu_pi_pi. destruct (Rlt_dec (l_mx o) (2 * m_pi)) as [L|_]; [lra|].
  set (M := l_mx o) in *. replace (1 - 4 * m_pi ^ 2 / M ^ 2) with (1 - 4 * (m_pi / M) ^ 2) by (field; lra). unfold pair_closed.
  set (b := sqrt (1 - _)). set (l := np_arctanh b). rewrite cw_sq, !Rpow_mult_distr.
  replace (sqrt 2 ^ 2) with 2 by (rewrite pow2_sqrt; lra).
  pose proof (sin2_cos2 (l_theta o)) as SC. unfold Rsqr in SC.
  set (sn := sin _) in *. set (cs := cos _) in *. replace (-1 + sn ^ 2) with (- cs ^ 2) by nra.
  set (w := sw ^ 2). assert (Hw : w = 2229 / 10000) by apply sw_sq. clearbody w b l M sn cs.
  field. repeat split; try apply PI_neq0; lra.
Qed.

(** A charged lepton, a charged and a neutral pion *)
(** What the term  m_pi^4 + (m_pi0^2 - s)^2  of the code lacks to be the Kallen function of the two pions *)
Definition l_pi_pi0_excess (vud : R) (o : rhl) (s : R) : R :=
  8 * GF ^ 2 * sqrt (kallen_lambda s (l_mx o ^ 2) (l_ml o ^ 2) * kallen_lambda s (m_pi ^ 2) (m_pi0 ^ 2))
  * ((l_mx o ^ 2 - s) * m_pi ^ 2 * (m_pi0 ^ 2 + s)) * sin (l_theta o) ^ 2 * vud ^ 2 / (3 * s ^ 2).
Lemma l_pi_pi0_strip vud o s : 0 < s ->
  let A := 2 * GF * vud * sin (l_theta o) in
  l_pi_pi0_integrand vud o s - l_pi_pi0_excess vud o s
  = A ^ 2 * (sqrt (kallen_lambda s (l_mx o ^ 2) (l_ml o ^ 2) * kallen_lambda s (m_pi ^ 2) (m_pi0 ^ 2)) / (2 * s)
       * (((l_mx o ^ 2 - l_ml o ^ 2) * (m_pi ^ 2 - m_pi0 ^ 2) / s) ^ 2 - (m_pi ^ 2 - m_pi0 ^ 2) ^ 2
          - (2 * m_pi ^ 2 + 2 * m_pi0 ^ 2 - s) * (l_mx o ^ 2 + l_ml o ^ 2 - s)
          + kallen_lambda s (l_mx o ^ 2) (l_ml o ^ 2) * kallen_lambda s (m_pi ^ 2) (m_pi0 ^ 2) / (3 * s ^ 2))).
Proof.
  intros Hs A. unfold l_pi_pi0_integrand, l_pi_pi0_excess, A. cbv zeta.
  replace ((l_ml o ^ 4 + (l_mx o ^ 2 - s) ^ 2 - 2 * l_ml o ^ 2 * (l_mx o ^ 2 + s)) * (m_pi ^ 4 + (m_pi0 ^ 2 - s) ^ 2 - 2 * m_pi ^ 2 * (m_pi0 ^ 2 + s)))
    with (kallen_lambda s (l_mx o ^ 2) (l_ml o ^ 2) * kallen_lambda s (m_pi ^ 2) (m_pi0 ^ 2)) by (unfold kallen_lambda; ring).
  set (r := sqrt _). clearbody r. unfold kallen_lambda.
  generalize m_pi m_pi0 (l_mx o) (l_ml o) (sin (l_theta o)) GF. intros. field. lra.
Qed.
Lemma excess_cont vud o : 0 < l_mx o -> forall s, 0 < s -> 0 <= kallen_lambda s (l_mx o ^ 2) (l_ml o ^ 2) * kallen_lambda s (m_pi ^ 2) (m_pi0 ^ 2) ->
  continuity_pt (l_pi_pi0_excess vud o) s.
Proof.
  intros HM s Hs HL. unfold l_pi_pi0_excess.
  assert (Cc : forall c, continuity_pt (fun _ : R => c) s) by (intro c; apply continuity_pt_const; intros ? ?; reflexivity).
  assert (Ci : continuity_pt (fun s => s) s) by (apply derivable_continuous_pt, derivable_pt_id).
  assert (Ck : forall q m, continuity_pt (fun s => kallen_lambda s q m) s).
  { intros q m. apply derivable_continuous_pt. eexists. unfold kallen_lambda.
    apply dl_minus; [apply dl_minus; [apply dl_minus; [apply dl_plus; [apply dl_plus; [apply dl_pow, dl_id|apply (dl_const (q ^ 2))]|apply (dl_const (m ^ 2))]|]|]|].
    - apply dl_mult; [|apply (dl_const q)]. apply dl_mult; [apply (dl_const 2)|apply dl_id].
    - apply dl_mult; [|apply (dl_const m)]. apply dl_mult; [apply (dl_const 2)|apply dl_id].
    - apply (dl_const (2 * q * m)). }
  assert (Cr : continuity_pt (fun s => sqrt (kallen_lambda s (l_mx o ^ 2) (l_ml o ^ 2) * kallen_lambda s (m_pi ^ 2) (m_pi0 ^ 2))) s).
  { apply (continuity_pt_comp (fun s => kallen_lambda s (l_mx o ^ 2) (l_ml o ^ 2) * kallen_lambda s (m_pi ^ 2) (m_pi0 ^ 2)) sqrt).
    - apply continuity_pt_mult; apply Ck.
    - apply continuity_pt_sqrt; exact HL. }
  unfold Rdiv. apply continuity_pt_mult.
  - apply continuity_pt_mult; [|apply Cc]. apply continuity_pt_mult; [|apply Cc]. apply continuity_pt_mult.
    + apply continuity_pt_mult; [apply Cc|exact Cr].
    + apply continuity_pt_mult; [apply continuity_pt_mult; [apply continuity_pt_minus; [apply Cc|exact Ci]|apply Cc]|].
      apply continuity_pt_plus; [apply Cc|exact Ci].
  - apply continuity_pt_inv; [|nra]. apply continuity_pt_mult; [apply Cc|].
    change (fun x => x ^ 2) with (fun x => x * (x * 1)). apply continuity_pt_mult; [exact Ci|apply continuity_pt_mult; [exact Ci|apply Cc]].
Qed.
Lemma integrand_cont vud o s : 0 < s -> 0 <= kallen_lambda s (l_mx o ^ 2) (l_ml o ^ 2) * kallen_lambda s (m_pi ^ 2) (m_pi0 ^ 2) ->
  continuity_pt (l_pi_pi0_integrand vud o) s.
Proof.
  intros Hs HL. unfold l_pi_pi0_integrand.
  assert (Cc : forall c, continuity_pt (fun _ : R => c) s) by (intro c; apply continuity_pt_const; intros ? ?; reflexivity).
  assert (Ci : continuity_pt (fun s => s) s) by (apply derivable_continuous_pt, derivable_pt_id).
  assert (Cp : forall f n, continuity_pt f s -> continuity_pt (fun s => f s ^ n) s).
  { intros f n Cf. induction n as [|n IH]; [apply (Cc 1)|]. change (fun s => f s ^ S n) with (fun s => f s * f s ^ n). apply continuity_pt_mult; assumption. }
  assert (Ck : forall q m, continuity_pt (fun s => q ^ 4 + (m ^ 2 - s) ^ 2 - 2 * q ^ 2 * (m ^ 2 + s)) s).
  { intros q m. apply continuity_pt_minus; [apply continuity_pt_plus; [apply Cc|]|].
    - apply (Cp (fun s => m ^ 2 - s)). apply continuity_pt_minus; [apply Cc|exact Ci].
    - apply continuity_pt_mult; [apply Cc|]. apply continuity_pt_plus; [apply Cc|exact Ci]. }
  assert (Cr : continuity_pt (fun s => sqrt ((l_ml o ^ 4 + (l_mx o ^ 2 - s) ^ 2 - 2 * l_ml o ^ 2 * (l_mx o ^ 2 + s))
                                             * (m_pi ^ 4 + (m_pi0 ^ 2 - s) ^ 2 - 2 * m_pi ^ 2 * (m_pi0 ^ 2 + s)))) s).
  { apply (continuity_pt_comp (fun s => (l_ml o ^ 4 + (l_mx o ^ 2 - s) ^ 2 - 2 * l_ml o ^ 2 * (l_mx o ^ 2 + s))
                                        * (m_pi ^ 4 + (m_pi0 ^ 2 - s) ^ 2 - 2 * m_pi ^ 2 * (m_pi0 ^ 2 + s))) sqrt).
    - apply continuity_pt_mult; apply Ck.
    - apply continuity_pt_sqrt. eapply Rle_trans; [exact HL|]. right. unfold kallen_lambda. ring. }
  unfold Rdiv. apply continuity_pt_mult.
  2:{ apply continuity_pt_inv; [|assert (0 < s ^ 3) by (apply pow_lt; exact Hs); lra]. apply continuity_pt_mult; [apply Cc|]. apply (Cp (fun s => s)); exact Ci. }
  apply continuity_pt_mult; [|apply Cc]. apply continuity_pt_mult; [|apply Cc]. apply continuity_pt_mult; [apply continuity_pt_mult; [apply Cc|exact Cr]|].
  repeat first [match goal with |- continuity_pt (fun _ => ?c) _ => apply (Cc c) end | exact Ci | apply (Cp (fun s => s)); exact Ci | apply (Cp (fun s => m_pi0 ^ 2 - s)); apply continuity_pt_minus; [apply Cc|exact Ci]
               | apply continuity_pt_opp | apply continuity_pt_minus | apply continuity_pt_plus | apply continuity_pt_mult].
Qed.
Lemma m_pi0_pos : 0 < m_pi0.
Proof. unfold m_pi0. lra. Qed.
Lemma pipi0_kallen o s : 0 <= l_ml o -> l_ml o + m_pi + m_pi0 < l_mx o -> (m_pi + m_pi0) ^ 2 <= s <= (l_mx o - l_ml o) ^ 2 ->
  0 <= kallen_lambda s (l_mx o ^ 2) (l_ml o ^ 2) * kallen_lambda s (m_pi ^ 2) (m_pi0 ^ 2).
Proof.
  intros Hl HM Hs. pose proof m_pi_pos. pose proof m_pi0_pos.
  replace (kallen_lambda s (l_mx o ^ 2) (l_ml o ^ 2)) with (((l_mx o - l_ml o) ^ 2 - s) * ((l_mx o + l_ml o) ^ 2 - s)) by (unfold kallen_lambda; ring).
  replace (kallen_lambda s (m_pi ^ 2) (m_pi0 ^ 2)) with ((s - (m_pi + m_pi0) ^ 2) * (s - (m_pi - m_pi0) ^ 2)) by (unfold kallen_lambda; ring).
  apply Rmult_le_pos; apply Rmult_le_pos; nra.
Qed.
Lemma l_pi_pi0_golden vud quad o : 0 <= l_ml o -> l_ml o + m_pi + m_pi0 < l_mx o ->
  area (l_pi_pi0_integrand vud o) ((m_pi + m_pi0) ^ 2) ((l_ml o - l_mx o) ^ 2) (quad (l_pi_pi0_integrand vud o) ((m_pi + m_pi0) ^ 2) ((l_ml o - l_mx o) ^ 2)) ->
  exists E, area (l_pi_pi0_excess vud o) ((m_pi + m_pi0) ^ 2) ((l_mx o - l_ml o) ^ 2) E
    /\ golden3 (l_mx o) (l_ml o) m_pi m_pi0 (fun l p p' => current_sq (2 * GF * vud * sin (l_theta o)) l (at_rest (l_mx o)) (vminus p p'))
         (width_l_pi_pi0 vud quad o - E / (256 * PI ^ 3 * l_mx o ^ 3)).
Proof.
  intros Hl HM Q. pose proof m_pi_pos as H1. pose proof m_pi0_pos as H2. pose proof PI_RGT_0 as HP.
  replace ((l_ml o - l_mx o) ^ 2) with ((l_mx o - l_ml o) ^ 2) in Q by ring.
  destruct (area_exists (l_pi_pi0_excess vud o) ((m_pi + m_pi0) ^ 2) ((l_mx o - l_ml o) ^ 2)) as [E HE]; [nra| |].
  - intros s Hs. apply excess_cont; [lra|nra|apply pipi0_kallen; assumption].
  - exists E. split; [exact HE|]. eexists. split; [apply current_amplitude|].
    apply (golden_from_strips _ _ _ _ _ (fun s => l_pi_pi0_integrand vud o s + -1 * l_pi_pi0_excess vud o s)); try lra.
    + intros s Hs. assert (Ps : 0 < s) by nra. eapply area_val; [|apply current_strip; [exact Ps|apply pipi0_kallen; lra]].
      cbv zeta. rewrite <- l_pi_pi0_strip by exact Ps. ring.
    + eapply area_val; [|apply area_plus; [exact Q|apply area_scale, HE]].
      unfold width_l_pi_pi0. destruct (Rlt_dec (l_mx o) (l_ml o + m_pi + m_pi0)) as [L|_]; [lra|].
      replace ((l_ml o - l_mx o) ^ 2) with ((l_mx o - l_ml o) ^ 2) by ring. field. lra.
Qed.
Lemma excess_pos vud o E : 0 <= l_ml o -> l_ml o + m_pi + m_pi0 < l_mx o -> vud <> 0 -> sin (l_theta o) <> 0 ->
  area (l_pi_pi0_excess vud o) ((m_pi + m_pi0) ^ 2) ((l_mx o - l_ml o) ^ 2) E -> 0 < E.
Proof.
  intros Hl HM Hv Hs A. pose proof m_pi_pos as H1. pose proof m_pi0_pos as H2. refine (PionProofs.area_pos _ _ _ _ _ _ A); [nra|].
  intros s R. assert (P : 0 < s) by nra. unfold l_pi_pi0_excess.
  assert (L : 0 < kallen_lambda s (l_mx o ^ 2) (l_ml o ^ 2) * kallen_lambda s (m_pi ^ 2) (m_pi0 ^ 2)).
  { apply Rmult_lt_0_compat; [apply kallen_pos_below; lra|apply kallen_pos_above; lra]. }
  pose proof (sqrt_lt_R0 _ L) as SL. pose proof GF_pos as HG. assert (D : 0 < l_mx o ^ 2 - s) by nra.
  assert (Ps2 : 0 < sin (l_theta o) ^ 2) by (rewrite <- Rsqr_pow2; apply Rsqr_pos_lt; exact Hs).
  assert (Pv2 : 0 < vud ^ 2) by (rewrite <- Rsqr_pow2; apply Rsqr_pos_lt; exact Hv).
  assert (PG : 0 < 8 * GF ^ 2) by nra. assert (Pm : 0 < m_pi ^ 2) by nra. assert (Pm0 : 0 < m_pi0 ^ 2 + s) by nra.
  apply Rdiv_lt_0_compat; [|nra]. apply Rmult_lt_0_compat; [|exact Pv2]. apply Rmult_lt_0_compat; [|exact Ps2].
  apply Rmult_lt_0_compat; [apply Rmult_lt_0_compat; assumption|]. apply Rmult_lt_0_compat; [apply Rmult_lt_0_compat; assumption|assumption].
Qed.

(** * Two-body decays *)
Lemma dots2 M m1 m2 p1 p2 : event M [m1; m2] [p1; p2] ->
  mdot p1 p1 = m1 ^ 2 /\ mdot p2 p2 = m2 ^ 2 /\ mdot p1 p2 = (M ^ 2 - m1 ^ 2 - m2 ^ 2) / 2
  /\ mdot (at_rest M) p1 = (M ^ 2 + m1 ^ 2 - m2 ^ 2) / 2 /\ mdot (at_rest M) p2 = (M ^ 2 + m2 ^ 2 - m1 ^ 2) / 2.
Proof.
  intro Ev. apply event2 in Ev. destruct Ev as (S1 & S2 & E).
  pose proof (shell_mass _ _ S1) as H1. pose proof (shell_mass _ _ S2) as H2. unfold mass_shell in *.
  assert (ER : at_rest M = vplus p1 p2) by (symmetry; exact E).
  assert (EM : mdot (at_rest M) (at_rest M) = M ^ 2) by (rewrite mdot_eq; unfold at_rest; cbn [en px py pz]; ring).
  rewrite ER in EM. rewrite !mdot_plus_l, !mdot_plus_r, (mdot_sym p2 p1), H1, H2 in EM.
  rewrite !ER, !mdot_plus_l, (mdot_sym p2 p1), H1, H2. repeat split; lra.
Qed.
Definition current_closed (M ml mm : R) : R := (M ^ 2 - ml ^ 2) ^ 2 - mm ^ 2 * (M ^ 2 + ml ^ 2).
Lemma current_two A M ml mm l k : event M [ml; mm] [l; k] -> current_sq A l (at_rest M) k = A ^ 2 / 2 * current_closed M ml mm.
Proof.
  intro Ev. destruct (dots2 _ _ _ _ _ Ev) as (D11 & D22 & D12 & N1 & N2). unfold current_sq, current_closed.
  rewrite (mdot_sym l (at_rest M)), D12, N2, D22, N1. field.
Qed.
Lemma current_closed_pos M ml mm : 0 <= ml -> 0 <= mm -> ml + mm < M -> 0 < current_closed M ml mm.
Proof.
  intros H1 H2 H. unfold current_closed. assert (D : mm ^ 2 <= (M - ml) ^ 2) by nra.
  assert (P : 0 < (M - ml) ^ 2) by nra. assert (Q0 : 0 < M * M) by nra.
  destruct (Req_dec ml 0) as [-> | Hn]; [|assert (0 < ml) by lra; assert (0 < M * ml) by nra; assert (M ^ 2 + ml ^ 2 < (M + ml) ^ 2) by nra;
    replace ((M ^ 2 - ml ^ 2) ^ 2) with ((M - ml) ^ 2 * (M + ml) ^ 2) by ring; nra].
  assert (mm * mm < M * M) by nra. replace ((M ^ 2 - 0 ^ 2) ^ 2 - mm ^ 2 * (M ^ 2 + 0 ^ 2)) with (M * M * (M * M - mm * mm)) by ring. nra.
Qed.
Lemma m_l_value o mm ckm l k : event (l_mx o) [l_ml o; mm] [l; k] -> 0 < l_mx o -> l_ml o + mm < l_mx o ->
  sin (l_theta o) * width_m_l o mm ckm = two_body_rate (l_mx o) l (current_sq (2 * GF * f_pi * ckm * sin (l_theta o)) l (at_rest (l_mx o)) k).
Proof.
  intros Ev HM Ht. rewrite (current_two _ _ _ _ _ _ Ev). destruct (mom_kallen _ _ _ _ _ Ev) as [K P]. unfold two_body_rate, width_m_l.
  destruct (Rle_dec (l_mx o) (mm + l_ml o)) as [L|_]; [lra|].
  replace ((l_ml o - l_mx o - mm) * (l_ml o + l_mx o - mm) * (l_ml o - l_mx o + mm) * (l_ml o + l_mx o + mm)) with ((2 * l_mx o * mom l) ^ 2)
    by (rewrite <- K; unfold kallen_lambda; ring).
  rewrite sqrt_pow2 by (apply Rmult_le_pos; lra). unfold current_closed. field. split; [lra|apply PI_neq0].
Qed.

(** * Radiation of the charged lepton and meson *)
(** Traces of products of slashed vectors: a̸ b̸ + b̸ a̸ = 2 a·b, trace of the unit matrix 4 *)
Fixpoint contractions (n : nat) (sgn : R) (a : vec) (before after : list vec) (tr : list vec -> R) : R :=
  match after with
  | [] => 0
  | b :: after' => sgn * mdot a b * tr (before ++ after') + contractions n (- sgn) a (before ++ [b]) after' tr
  end.
Fixpoint trace_upto (n : nat) (l : list vec) : R :=
  match n with
  | O => match l with [] => 4 | _ => 0 end
  | S n' => match l with [] => 4 | [_] => 0 | a :: r => contractions n 1 a [] r (trace_upto n') end
  end.
Definition slash_trace (l : list vec) : R := trace_upto (length l) l.

Definition unit_vec (mu : nat) : vec :=
  match mu with 0 => V4 1 0 0 0 | 1 => V4 0 1 0 0 | 2 => V4 0 0 1 0 | _ => V4 0 0 0 1 end%nat.
Definition minus_metric (mu : nat) : R := match mu with O => -1 | _ => 1 end.
(** Sum over the polarisations of the photon, in the form - g_{mu nu} *)
Definition polarisations (f : vec -> R) : R :=
  minus_metric 0 * f (unit_vec 0) + minus_metric 1 * f (unit_vec 1) + minus_metric 2 * f (unit_vec 2) + minus_metric 3 * f (unit_vec 3).
(** Trace of (p̸ + m) (j + g ε̸ q̸) (a N̸ - b) (j + g q̸ ε̸) : the lepton of momentum [p] and mass [m] *)
Definition radiating_trace (p : vec) (m j g : R) (e q N : vec) (a b : R) : R :=
  j ^ 2 * (a * slash_trace [p; N] - m * b * slash_trace [])
  + j * g * (a * slash_trace [p; N; q; e] - m * b * slash_trace [q; e])
  + j * g * (a * slash_trace [p; e; q; N] - m * b * slash_trace [e; q])
  + g ^ 2 * (a * slash_trace [p; e; q; N; q; e] - m * b * slash_trace [e; q; q; e]).
(** Squared amplitude, averaged over the spin of N, of N -> lepton(p) meson(k) photon(q) with the coupling A l̄ k̸ P_L N, which for
    particles on the mass shell is A l̄ (M P_R - m P_L) N, unit charge [e0]: the amplitude is
    A e0 l̄ (J·ε + ε̸ q̸ / (2 p·q)) (M P_R - m P_L) N  with  J = p / p·q - k / k·q *)
Definition radiative_sq (A e0 M m : R) (q k p : vec) : R :=
  A ^ 2 * e0 ^ 2 / 2
  * polarisations (fun e => radiating_trace p m (mdot p e / mdot p q - mdot k e / mdot k q) (/ (2 * mdot p q)) e q (at_rest M)
                              ((M ^ 2 + m ^ 2) / 2) (M ^ 2 * m)).
(** Without the photon the same trace is the two-body amplitude *)
Lemma unradiated A M ml mm l k : event M [ml; mm] [l; k] ->
  current_sq A l (at_rest M) k = A ^ 2 / 2 * radiating_trace l ml 1 0 k k (at_rest M) ((M ^ 2 + ml ^ 2) / 2) (M ^ 2 * ml).
Proof.
  intro Ev. rewrite (current_two _ _ _ _ _ _ Ev). destruct (dots2 _ _ _ _ _ Ev) as (_ & _ & _ & N1 & _).
  unfold radiating_trace, slash_trace. cbn [length trace_upto contractions app]. rewrite (mdot_sym l (at_rest M)), N1. unfold current_closed. field.
Qed.
(** Spectrum of particle 1 (massless) of a three-body decay per two-body decay: (1 / rate0) dΓ/dE *)
Definition radiated (M m2 m3 : R) (w : vec -> vec -> vec -> R) (rate0 E d : R) : Prop :=
  exists f lo hi v,
    (forall p1 p2 p3, event M [0; m2; m3] [p1; p2; p3] -> en p1 = E -> w p1 p2 p3 = f (lnorm_sqr (vplus p1 p3)))
    /\ (forall t, dalitz M 0 m2 m3 (M ^ 2 - 2 * M * E) t <-> lo <= t <= hi)
    /\ area f lo hi v
    /\ d = 2 * M * (v / (256 * PI ^ 3 * M ^ 3)) / rate0.

(** Sums over polarisations *)
Ltac pol := unfold polarisations, slash_trace; cbn [length trace_upto contractions app minus_metric unit_vec]; rewrite !mdot_eq; cbn [en px py pz]; ring.
Lemma pol_pair u v : polarisations (fun e => mdot u e * mdot v e) = - mdot u v.
Proof. pol. Qed.
Lemma pol_2a u q : polarisations (fun e => mdot u e * slash_trace [q; e]) = - 4 * mdot u q.
Proof. pol. Qed.
Lemma pol_2b u q : polarisations (fun e => mdot u e * slash_trace [e; q]) = - 4 * mdot u q.
Proof. pol. Qed.
Lemma pol_4a u p q N : polarisations (fun e => mdot u e * slash_trace [p; N; q; e]) = - 4 * (mdot p N * mdot q u - mdot p q * mdot N u + mdot p u * mdot N q).
Proof. pol. Qed.
Lemma pol_4b u p q N : polarisations (fun e => mdot u e * slash_trace [p; e; q; N]) = - 4 * (mdot p u * mdot q N - mdot p q * mdot u N + mdot p N * mdot u q).
Proof. pol. Qed.
Lemma pol_6 p q N : polarisations (fun e => slash_trace [p; e; q; N; q; e]) = 8 * (2 * mdot p q * mdot N q - mdot q q * mdot p N).
Proof. pol. Qed.
Lemma pol_4q q : polarisations (fun e => slash_trace [e; q; q; e]) = - 16 * mdot q q.
Proof. pol. Qed.
Lemma radiating_sum p k q N m a b : mdot q q = 0 -> mdot p q <> 0 -> mdot k q <> 0 ->
  let J2 := mdot p p / mdot p q ^ 2 + mdot k k / mdot k q ^ 2 - 2 * mdot p k / (mdot p q * mdot k q) in
  polarisations (fun e => radiating_trace p m (mdot p e / mdot p q - mdot k e / mdot k q) (/ (2 * mdot p q)) e q N a b)
  = - 4 * (J2 * (a * mdot N p - b * m)
           + a * (- (mdot N p / mdot p q - mdot N k / mdot k q) + (mdot p p / mdot p q - mdot p k / mdot k q) * mdot N q / mdot p q)
           - a * mdot N q / mdot p q).
Proof.
  intros Hq Hx Hy J2. set (ix := / mdot p q). set (iy := / mdot k q). set (c := 4 * (a * mdot p N) - m * b * 4). set (g := / (2 * mdot p q)).
  transitivity
    (c * (ix ^ 2 * polarisations (fun e => mdot p e * mdot p e) + iy ^ 2 * polarisations (fun e => mdot k e * mdot k e)
          - 2 * ix * iy * polarisations (fun e => mdot p e * mdot k e))
     + g * (a * (ix * polarisations (fun e => mdot p e * slash_trace [p; N; q; e]) - iy * polarisations (fun e => mdot k e * slash_trace [p; N; q; e]))
            - m * b * (ix * polarisations (fun e => mdot p e * slash_trace [q; e]) - iy * polarisations (fun e => mdot k e * slash_trace [q; e])))
     + g * (a * (ix * polarisations (fun e => mdot p e * slash_trace [p; e; q; N]) - iy * polarisations (fun e => mdot k e * slash_trace [p; e; q; N]))
            - m * b * (ix * polarisations (fun e => mdot p e * slash_trace [e; q]) - iy * polarisations (fun e => mdot k e * slash_trace [e; q])))
     + g ^ 2 * (a * polarisations (fun e => slash_trace [p; e; q; N; q; e]) - m * b * polarisations (fun e => slash_trace [e; q; q; e]))).
  - unfold polarisations, radiating_trace, Rdiv. fold ix iy.
    replace (slash_trace [p; N]) with (4 * mdot p N) by (unfold slash_trace; cbn [length trace_upto contractions app]; ring).
    replace (slash_trace []) with 4 by reflexivity. unfold c.
    generalize (slash_trace [p; unit_vec 0; q; N; q; unit_vec 0]) (slash_trace [p; unit_vec 1; q; N; q; unit_vec 1])
      (slash_trace [p; unit_vec 2; q; N; q; unit_vec 2]) (slash_trace [p; unit_vec 3; q; N; q; unit_vec 3]). intros. ring.
  - rewrite !pol_pair, !pol_2a, !pol_2b, !pol_4a, !pol_4b, pol_6, pol_4q, Hq. unfold J2, c, g, ix, iy.
    rewrite (mdot_sym q p), (mdot_sym q k), (mdot_sym p N), (mdot_sym q N), (mdot_sym k N). field. split; assumption.
Qed.

Section Radiation.
Variables M m mu E : R.
Hypothesis Hm : 0 < m.
Hypothesis Hmu : 0 < mu.
Hypothesis HE : 0 < E.
Hypothesis HM : 0 < M.
Let s : R := M ^ 2 - 2 * M * E.
Hypothesis Hs : (mu + m) ^ 2 < s.
Let Q : R := M * E.
Let kap : R := (s - m ^ 2 - mu ^ 2) / 2.
Let K : R := sqrt (kallen_lambda s (mu ^ 2) (m ^ 2)).
Definition rx (t : R) : R := (t - m ^ 2) / 2.
Definition x_lo : R := M * E / (2 * s) * (s + m ^ 2 - mu ^ 2 - K).
Definition x_hi : R := M * E / (2 * s) * (s + m ^ 2 - mu ^ 2 + K).
Lemma K_sq : K * K = kallen_lambda s (mu ^ 2) (m ^ 2) /\ 0 < K.
Proof.
  assert (P : 0 < kallen_lambda s (mu ^ 2) (m ^ 2)) by (apply kallen_pos_above; lra). unfold K. split; [apply sqrt_sqrt; lra|apply sqrt_lt_R0; exact P].
Qed.
Lemma K_small : K < s + m ^ 2 - mu ^ 2 /\ K < s - m ^ 2 + mu ^ 2.
Proof.
  destruct K_sq as [Sq P]. assert (0 < s) by nra.
  assert (E1 : (s + m ^ 2 - mu ^ 2) ^ 2 - K * K = 4 * s * m ^ 2) by (rewrite Sq; unfold kallen_lambda; ring).
  assert (E2 : (s - m ^ 2 + mu ^ 2) ^ 2 - K * K = 4 * s * mu ^ 2) by (rewrite Sq; unfold kallen_lambda; ring).
  assert (0 < s + m ^ 2 - mu ^ 2) by nra. assert (0 < s - m ^ 2 + mu ^ 2) by nra.
  assert (0 < s * m ^ 2) by (apply Rmult_lt_0_compat; nra). assert (0 < s * mu ^ 2) by (apply Rmult_lt_0_compat; nra).
  set (k := K) in *. clearbody k. split; nra.
Qed.
Lemma x_ends : 0 < x_lo /\ x_lo < x_hi /\ x_hi < Q.
Proof.
  destruct K_small as [K1 K2]. destruct K_sq as [_ P]. assert (Ps : 0 < s) by nra. assert (C : 0 < M * E / (2 * s)) by (apply Rdiv_lt_0_compat; nra).
  unfold x_lo, x_hi, Q. split; [apply Rmult_lt_0_compat; lra|]. split; [apply Rmult_lt_compat_l; lra|].
  replace (M * E) with (M * E / (2 * s) * (2 * s)) at 2 by (field; lra). apply Rmult_lt_compat_l; lra.
Qed.
Lemma t_ends t : dalitz M 0 mu m s t <-> m ^ 2 + 2 * x_lo <= t <= m ^ 2 + 2 * x_hi.
Proof.
  assert (Ps : 0 < s) by nra. assert (HQ : s < M ^ 2) by (unfold s; nra). assert (Hmm : mu + m < M) by nra.
  rewrite (dalitz_strip M 0 mu m s t); try lra.
  - assert (Eh : dz_half (M ^ 2) (0 ^ 2) (mu ^ 2) (m ^ 2) s = M * E / s * K).
    { unfold dz_half, K. replace (kallen_lambda s (M ^ 2) (0 ^ 2)) with ((2 * M * E) ^ 2) by (unfold kallen_lambda, s; ring).
      rewrite sqrt_mult_alt by apply pow2_ge_0. rewrite sqrt_pow2 by nra. field. lra. }
    rewrite Eh. replace (dz_mid (M ^ 2) (0 ^ 2) (mu ^ 2) (m ^ 2) s) with (m ^ 2 + M * E / s * (s + m ^ 2 - mu ^ 2)).
    + unfold x_lo, x_hi. replace (m ^ 2 + 2 * (M * E / (2 * s) * (s + m ^ 2 - mu ^ 2 - K))) with (m ^ 2 + M * E / s * (s + m ^ 2 - mu ^ 2) - M * E / s * K) by (field; lra).
      replace (m ^ 2 + 2 * (M * E / (2 * s) * (s + m ^ 2 - mu ^ 2 + K))) with (m ^ 2 + M * E / s * (s + m ^ 2 - mu ^ 2) + M * E / s * K) by (field; lra). tauto.
    + unfold dz_mid. replace (M * E) with ((M ^ 2 - s) / 2) by (unfold s; field). field. lra.
  - apply Rmult_le_pos; left; [|apply kallen_pos_above; lra]. replace (kallen_lambda s (M ^ 2) (0 ^ 2)) with ((2 * M * E) ^ 2) by (unfold kallen_lambda, s; ring).
    apply pow_lt. nra.
Qed.

(** The squared amplitude as a function of x = p·q *)
Definition rad_x (x : R) : R := current_closed M m mu / 4 * (m ^ 2 / x ^ 2 + mu ^ 2 / (M * E - x) ^ 2 - 2 * kap / (x * (M * E - x))) - (M ^ 2 + m ^ 2) / 2 * (M * E) / x.
Definition rad_anti (x : R) : R :=
  current_closed M m mu / 4 * (- m ^ 2 / x + mu ^ 2 / (M * E - x) - 2 * kap / (M * E) * (ln x - ln (M * E - x))) - (M ^ 2 + m ^ 2) / 2 * (M * E) * ln x.
Lemma rad_anti_dl x : 0 < x < Q -> derivable_pt_lim rad_anti x (rad_x x).
Proof.
  intro Hx. unfold Q in Hx. unfold rad_anti. eapply dl_val.
  - apply dl_minus.
    + apply dl_mult; [apply dl_const|]. apply dl_minus; [apply dl_plus|].
      * apply dl_div; [apply (dl_const (- m ^ 2))|apply dl_id|lra].
      * apply dl_div; [apply (dl_const (mu ^ 2))|apply dl_minus; [apply (dl_const (M * E))|apply dl_id]|lra].
      * apply dl_mult; [apply (dl_const (2 * kap / (M * E)))|]. apply dl_minus; [apply dl_ln; [apply dl_id|lra]|].
        apply dl_ln; [apply dl_minus; [apply (dl_const (M * E))|apply dl_id]|lra].
    + apply dl_mult; [apply (dl_const ((M ^ 2 + m ^ 2) / 2 * (M * E)))|]. apply dl_ln; [apply dl_id|lra].
  - unfold Rsqr, rad_x. field. repeat split; nra.
Qed.
Lemma rad_amplitude A e0 p1 p2 p3 : event M [0; mu; m] [p1; p2; p3] -> en p1 = E ->
  radiative_sq A e0 M m p1 p2 p3 = - 2 * A ^ 2 * e0 ^ 2 * rad_x (rx (lnorm_sqr (vplus p1 p3))).
Proof.
  intros Ev Ee. destruct (dots3 _ _ _ _ _ _ _ Ev) as (D11 & D22 & D33 & D23 & D13 & D12 & N1 & N2 & N3).
  assert (EN : mdot (at_rest M) p1 = M * E) by (rewrite mdot_eq; unfold at_rest; cbn [en px py pz]; rewrite Ee; ring).
  assert (Es : lnorm_sqr (vplus p2 p3) = s) by (unfold s; rewrite EN in N1; lra).
  set (t := lnorm_sqr (vplus p1 p3)) in *.
  assert (T : m ^ 2 + 2 * x_lo <= t <= m ^ 2 + 2 * x_hi) by (apply t_ends; exists p1, p2, p3; repeat split; [apply Ev|apply Ev|symmetry; exact Es]).
  rewrite Es in *. destruct x_ends as (X1 & X2 & X3). unfold Q in X3.
  assert (Ex : mdot p3 p1 = rx t) by (rewrite mdot_sym, D13; unfold rx; field).
  assert (Ey : mdot p2 p1 = M * E - rx t) by (rewrite mdot_sym, D12; unfold rx, s; field).
  assert (Hx : x_lo <= rx t <= x_hi) by (unfold rx; lra).
  unfold radiative_sq. rewrite radiating_sum; [|rewrite D11; ring|rewrite Ex; lra|rewrite Ey; lra].
  rewrite Ex, Ey, D33, D22, (mdot_sym p3 p2), D23, N2, N3, EN. unfold rad_x, current_closed, kap.
  assert (Et : t = m ^ 2 + 2 * rx t) by (unfold rx; field). set (x := rx t) in *. clearbody x t. clear D23 D13 D12 N1 N2 N3 Es T Ex Ey.
  subst t. unfold s. field. split; lra.
Qed.
Lemma rad_integral : area (fun t => rad_x (rx t)) (m ^ 2 + 2 * x_lo) (m ^ 2 + 2 * x_hi) (2 * (rad_anti x_hi - rad_anti x_lo)).
Proof.
  destruct x_ends as (X1 & X2 & X3).
  eapply area_val; [|apply (area_of_antiderivative (fun t => 2 * rad_anti (rx t)))].
  - cbn beta. replace (rx (m ^ 2 + 2 * x_hi)) with x_hi by (unfold rx; field). replace (rx (m ^ 2 + 2 * x_lo)) with x_lo by (unfold rx; field). ring.
  - intros t Ht. eapply dl_val.
    + apply dl_mult; [apply (dl_const 2)|]. apply (dl_comp rx rad_anti).
      * apply dl_div; [apply dl_minus; [apply dl_id|apply (dl_const (m ^ 2))]|apply (dl_const 2)|lra].
      * apply rad_anti_dl. unfold rx. lra.
    + unfold Rsqr. field.
Qed.
(** The difference of the antiderivative between the end points *)
Lemma rad_ends : rad_anti x_hi - rad_anti x_lo
  = current_closed M m mu / 4 * (2 * K / (M * E)
      - 2 * kap / (M * E) * (ln ((m ^ 2 - mu ^ 2 + s + K) / (m ^ 2 - mu ^ 2 + s - K)) - ln ((- m ^ 2 + mu ^ 2 + s - K) / (- m ^ 2 + mu ^ 2 + s + K))))
    - (M ^ 2 + m ^ 2) / 2 * (M * E) * ln ((m ^ 2 - mu ^ 2 + s + K) / (m ^ 2 - mu ^ 2 + s - K)).
Proof.
  destruct x_ends as (X1 & X2 & X3). destruct K_small as [K1 K2]. destruct K_sq as [Sq KP]. assert (Ps : 0 < s) by nra. unfold Q in X3.
  assert (L1 : ln x_hi - ln x_lo = ln ((m ^ 2 - mu ^ 2 + s + K) / (m ^ 2 - mu ^ 2 + s - K))).
  { rewrite <- ln_div_pos by lra. f_equal. unfold x_hi, x_lo. field. repeat split; nra. }
  assert (L2 : ln (M * E - x_hi) - ln (M * E - x_lo) = ln ((- m ^ 2 + mu ^ 2 + s - K) / (- m ^ 2 + mu ^ 2 + s + K))).
  { rewrite <- ln_div_pos by lra. f_equal. unfold x_hi, x_lo. field. repeat split; nra. }
  rewrite <- L1, <- L2.
  assert (I1 : m ^ 2 / x_lo - m ^ 2 / x_hi = K / (M * E)).
  { transitivity (m ^ 2 * (M * E / s * K) / ((M * E) ^ 2 / (4 * s ^ 2) * ((s + m ^ 2 - mu ^ 2) ^ 2 - K * K))).
    - unfold x_lo, x_hi. field. repeat split; nra.
    - rewrite Sq. replace ((s + m ^ 2 - mu ^ 2) ^ 2 - kallen_lambda s (mu ^ 2) (m ^ 2)) with (4 * s * m ^ 2) by (unfold kallen_lambda; ring).
      field. repeat split; lra. }
  assert (I2 : mu ^ 2 / (M * E - x_hi) - mu ^ 2 / (M * E - x_lo) = K / (M * E)).
  { transitivity (mu ^ 2 * (M * E / s * K) / ((M * E) ^ 2 / (4 * s ^ 2) * ((s - m ^ 2 + mu ^ 2) ^ 2 - K * K))).
    - unfold x_lo, x_hi. field. repeat split; nra.
    - rewrite Sq. replace ((s - m ^ 2 + mu ^ 2) ^ 2 - kallen_lambda s (mu ^ 2) (m ^ 2)) with (4 * s * mu ^ 2) by (unfold kallen_lambda; ring).
      field. repeat split; lra. }
  unfold rad_anti.
  transitivity (current_closed M m mu / 4 * ((m ^ 2 / x_lo - m ^ 2 / x_hi) + (mu ^ 2 / (M * E - x_hi) - mu ^ 2 / (M * E - x_lo))
      - 2 * kap / (M * E) * ((ln x_hi - ln x_lo) - (ln (M * E - x_hi) - ln (M * E - x_lo)))) - (M ^ 2 + m ^ 2) / 2 * (M * E) * (ln x_hi - ln x_lo)).
  - field. repeat split; nra.
  - rewrite I1, I2. field. split; lra.
Qed.
End Radiation.

Lemma fsr_value o mu A l0 k0 E : 0 < l_ml o -> 0 < mu -> 0 < l_mx o -> 0 < E -> (mu + l_ml o) ^ 2 < l_mx o ^ 2 - 2 * l_mx o * E -> A <> 0 ->
  event (l_mx o) [l_ml o; mu] [l0; k0] ->
  radiated (l_mx o) mu (l_ml o) (radiative_sq A qe (l_mx o) (l_ml o))
    (two_body_rate (l_mx o) l0 (current_sq A l0 (at_rest (l_mx o)) k0)) E (dnde_pi_l_fsr_ mu o E).
Proof.
  intros Hm Hmu HM HE Hs HA Ev. set (M := l_mx o) in *. set (m := l_ml o) in *.
  exists (fun t => - 2 * A ^ 2 * qe ^ 2 * rad_x M m mu E (rx m t)), (m ^ 2 + 2 * x_lo M m mu E), (m ^ 2 + 2 * x_hi M m mu E),
    (- 2 * A ^ 2 * qe ^ 2 * (2 * (rad_anti M m mu E (x_hi M m mu E) - rad_anti M m mu E (x_lo M m mu E)))).
  split; [intros p1 p2 p3 Ev3 Ee; apply rad_amplitude; assumption|]. split; [intro t; apply t_ends; assumption|].
  split; [apply area_scale; apply rad_integral; assumption|].
  rewrite rad_ends by assumption. rewrite (current_two _ _ _ _ _ _ Ev). destruct (mom_kallen _ _ _ _ _ Ev) as [Km Pm].
  assert (Hmm : m + mu < M) by nra. pose proof (current_closed_pos M m mu ltac:(lra) ltac:(lra) Hmm) as FP.
  unfold two_body_rate, dnde_pi_l_fsr_. fold M m. set (s := M ^ 2 - 2 * M * E) in *.
  destruct (Rlt_dec M (mu + m)) as [L|_]; [lra|]. destruct (Rge_dec ((mu + m) ^ 2) s) as [L|_]; [lra|].
  destruct (Rle_dec (M ^ 2) s) as [L|_]; [unfold s in L; nra|].
  assert (KP : 0 < kallen_lambda (M ^ 2) (m ^ 2) (mu ^ 2)).
  { unfold kallen_lambda. replace ((M ^ 2) ^ 2 + (m ^ 2) ^ 2 + (mu ^ 2) ^ 2 - 2 * M ^ 2 * m ^ 2 - 2 * M ^ 2 * mu ^ 2 - 2 * m ^ 2 * mu ^ 2)
      with ((M ^ 2 - (m + mu) ^ 2) * (M ^ 2 - (m - mu) ^ 2)) by ring. apply Rmult_lt_0_compat; nra. }
  assert (Pm' : 0 < mom l0) by (destruct (Req_dec (mom l0) 0) as [Z|]; [rewrite Z in Km; lra|lra]).
  replace (- m ^ 2 + (m ^ 2 - mu ^ 2 + M ^ 2) ^ 2 / (4 * M ^ 2)) with (mom l0 ^ 2).
  2:{ replace (mom l0 ^ 2) with ((2 * M * mom l0) ^ 2 / (4 * M ^ 2)) by (field; lra). rewrite <- Km. unfold kallen_lambda. field. lra. }
  rewrite sqrt_pow2 by lra.
  replace (m ^ 4 + (mu ^ 2 - s) ^ 2 - 2 * m ^ 2 * (mu ^ 2 + s)) with (kallen_lambda s (mu ^ 2) (m ^ 2)) by (unfold kallen_lambda; ring).
  set (K := sqrt _). set (l1 := ln _). set (l2 := ln _). set (P := mom l0) in *. clearbody K l1 l2 P.
  replace (m ^ 4 - mu ^ 2 * M ^ 2 + M ^ 4 - m ^ 2 * (mu ^ 2 + 2 * M ^ 2)) with (current_closed M m mu) by (unfold current_closed; ring).
  set (F := current_closed M m mu) in *.
  replace (-2 * m ^ 6 + 2 * m ^ 4 * (2 * M ^ 2 + s) + m ^ 2 * (2 * mu ^ 4 - M ^ 4 + mu ^ 2 * (6 * M ^ 2 - 2 * s) - 6 * M ^ 2 * s + s ^ 2)
           + M ^ 2 * (2 * mu ^ 4 + M ^ 4 + s ^ 2 - 2 * mu ^ 2 * (M ^ 2 + s)))
    with (2 * F * (s - m ^ 2 - mu ^ 2) + (M ^ 2 + m ^ 2) * (2 * M * E) ^ 2) by (unfold F, current_closed, s; ring).
  replace (M ^ 2 - s) with (2 * (M * E)) by (unfold s; ring). clearbody F. clearbody s.
  assert (0 < M * E) by nra. field. repeat split; try apply PI_neq0; try lra.
Qed.
Lemma fsr_same mk o e : dnde_k_l_fsr_ mk o e = dnde_pi_l_fsr_ mk o e.
Proof.
  unfold dnde_k_l_fsr_, dnde_pi_l_fsr_. set (M := l_mx o). set (m := l_ml o). set (s := M ^ 2 - 2 * M * e).
  destruct (Rlt_dec M (mk + m)); [reflexivity|]. destruct (Rge_dec ((mk + m) ^ 2) s); [reflexivity|]. destruct (Rle_dec (M ^ 2) s); [reflexivity|].
  replace (mk ^ 4 + (m ^ 2 - s) ^ 2 - 2 * mk ^ 2 * (m ^ 2 + s)) with (m ^ 4 + (mk ^ 2 - s) ^ 2 - 2 * m ^ 2 * (mk ^ 2 + s)) by ring.
  set (K := sqrt _). replace (mk ^ 2 - m ^ 2 + s - K) with (- m ^ 2 + mk ^ 2 + s - K) by ring. replace (mk ^ 2 - m ^ 2 + s + K) with (- m ^ 2 + mk ^ 2 + s + K) by ring.
  replace (- mk ^ 2 + m ^ 2 + s + K) with (m ^ 2 - mk ^ 2 + s + K) by ring. replace (- mk ^ 2 + m ^ 2 + s - K) with (m ^ 2 - mk ^ 2 + s - K) by ring.
  replace (- m ^ 2 + (- mk ^ 2 + m ^ 2 + M ^ 2) ^ 2 / (4 * M ^ 2)) with (- m ^ 2 + (m ^ 2 - mk ^ 2 + M ^ 2) ^ 2 / (4 * M ^ 2)) by (f_equal; f_equal; f_equal; ring).
  set (p := sqrt _). set (l1 := ln _). set (l2 := ln _). set (F := m ^ 4 - mk ^ 2 * M ^ 2 + M ^ 4 - m ^ 2 * (mk ^ 2 + 2 * M ^ 2)).
  replace (- (m ^ 2 - M ^ 2) ^ 2 + mk ^ 2 * (m ^ 2 + M ^ 2)) with (- F) by (unfold F; ring).
  unfold Rdiv. replace (8 * - F * p * PI ^ 2 * (M ^ 2 - s)) with (- (8 * p * F * PI ^ 2 * (M ^ 2 - s))) by ring.
  rewrite Rinv_opp. clearbody l1 l2 p K. set (iv := / _). clearbody iv. unfold F. ring.
Qed.

(** * Uniqueness and comparison *)
Lemma golden3_unique M m1 m2 m3 w v v' : 0 < M -> (m2 + m3) ^ 2 <= (M - m1) ^ 2 -> golden3 M m1 m2 m3 w v -> golden3 M m1 m2 m3 w v' -> v = v'.
Proof.
  intros HM Hs (f & Af & Pf) (g & Ag & Pg). apply (phase_space_width_unique M m1 m2 m3 f v v' HM Hs Pf).
  destruct Pg as (lo & hi & i & H & A). exists lo, hi, i. split; [|exact A]. intros s R. destruct (H s R) as (L & D & I). split; [exact L|]. split; [exact D|].
  apply (area_ext (g s) _ _ _ _ []); [|exact I]. intros t Ht _.
  destruct (proj2 (D t) ltac:(lra)) as (p1 & p2 & p3 & Ev & Es & Et). rewrite Es, Et, <- (Af _ _ _ Ev), <- (Ag _ _ _ Ev). reflexivity.
Qed.
Lemma golden3_scale M m1 m2 m3 w c v : golden3 M m1 m2 m3 w v -> golden3 M m1 m2 m3 (fun p1 p2 p3 => c * w p1 p2 p3) (c * v).
Proof.
  intros (f & Af & lo & hi & i & H & A). exists (fun s t => c * f s t). split; [intros p1 p2 p3 Ev; now rewrite (Af _ _ _ Ev)|].
  exists lo, hi, (fun s => c * i s). split.
  - intros s R. destruct (H s R) as (L & D & I). split; [exact L|]. split; [exact D|]. apply area_scale; exact I.
  - eapply area_val; [|apply area_scale, A]. ring.
Qed.
(** Light pairs *)
Lemma light_pair r : 0 < r <= 1 / 10 -> 0 < vff_sx r /\ 17 / 20 * vff_sx r <= exact_t1 r /\ exact_t2 r <= 21 / 1000 * vff_sx r.
Proof.
  intro H. destruct (sx_range r ltac:(lra)) as [B Q]. unfold exact_t1, exact_t2.
  assert (L : exact_log r <= 0).
  { unfold exact_log. assert (ln ((1 - vff_sx r) / (1 + vff_sx r)) <= 0); [|lra]. left. rewrite <- ln_1. apply ln_increasing; [apply Rdiv_lt_0_compat; lra|].
    apply Rmult_lt_reg_r with (1 + vff_sx r); [lra|]. field_simplify; lra. }
  set (b := vff_sx r) in *. set (l := exact_log r) in *. clearbody b l.
  assert (R2 : 0 < r ^ 2 <= 1 / 100) by (split; nra). replace (r ^ 4) with (r ^ 2 * r ^ 2) by ring. replace (r ^ 6) with (r ^ 2 * r ^ 2 * r ^ 2) by ring.
  set (q := r ^ 2) in *. clearbody q. assert (Q2 : 0 < q * q <= 1 / 10000) by nra. assert (Q3 : 0 < q * q * q <= 1 / 1000000) by nra.
  split; [lra|]. split.
  - assert (0 <= 12 * (q * q) * (q * q - 1) * l) by (replace (12 * (q * q) * (q * q - 1) * l) with (12 * ((q * q) * (1 - q * q)) * - l) by ring; apply Rmult_le_pos; nra).
    assert (0 <= (1 - 14 * q - 2 * (q * q) - 12 * (q * q * q) - 17 / 20) * b) by (apply Rmult_le_pos; lra). lra.
  - assert (6 * (q * q) * (1 - 2 * q + 2 * (q * q)) * l <= 0) by (replace (6 * (q * q) * (1 - 2 * q + 2 * (q * q)) * l) with (- (6 * ((q * q) * (1 - 2 * q + 2 * (q * q))) * - l)) by ring;
      assert (0 <= 6 * ((q * q) * (1 - 2 * q + 2 * (q * q))) * - l) by (apply Rmult_le_pos; nra); lra).
    assert (0 <= (21 / 1000 - q * (2 + 10 * q - 12 * (q * q))) * b) by (apply Rmult_le_pos; nra). lra.
Qed.
Lemma light_ratio m M : 0 < m -> 10 * m <= M -> 0 < m / M <= 1 / 10.
Proof. intros Hm HM. split; [apply Rdiv_lt_0_compat; lra|]. apply Rmult_le_reg_r with M; [lra|]. field_simplify; lra. Qed.

(** Neutrino pairs of another flavour *)
Lemma vvv_pair G g M : 0 < M -> golden3 M 0 0 0 (fun nu l lb => majorana_pair G g 0 0 (at_rest M) nu l lb) (G ^ 2 * g ^ 2 * M ^ 5 / (96 * PI ^ 3)).
Proof.
  intro HM. exists (fun s t => 16 * G ^ 2 * g ^ 2 * ((s + t) * (M ^ 2 - s - t) + (M ^ 2 - t) * t)). split.
  - intros p1 p2 p3 Ev. destruct (dots3 _ _ _ _ _ _ _ Ev) as (_ & _ & _ & D23 & D13 & D12 & N1 & N2 & N3).
    unfold majorana_pair, four_fermion. rewrite N1, N2, N3, D12, D13. field.
  - apply (golden_from_strips M 0 0 0 _ (fun s => 16 * G ^ 2 * g ^ 2 * ((M ^ 2 - s) ^ 2 * s + (M ^ 2 - s) ^ 3 / 3))); try lra.
    + intros s Hs. assert (P : 0 < s) by nra. assert (D : 0 < M ^ 2 - s) by nra.
      assert (Eh : dz_half (M ^ 2) (0 ^ 2) (0 ^ 2) (0 ^ 2) s = (M ^ 2 - s) / 2).
      { unfold dz_half. replace (kallen_lambda s (M ^ 2) (0 ^ 2) * kallen_lambda s (0 ^ 2) (0 ^ 2)) with (((M ^ 2 - s) * s) ^ 2) by (unfold kallen_lambda; ring).
        rewrite sqrt_pow2 by nra. field. lra. }
      assert (Em : dz_mid (M ^ 2) (0 ^ 2) (0 ^ 2) (0 ^ 2) s = (M ^ 2 - s) / 2) by (unfold dz_mid; field; lra). rewrite Eh, Em. apply area_scale.
      set (c := (M ^ 2 - s) / 2). eapply area_ext with (l := []); [|eapply area_val; [|apply (area_centred (2 * (s + c) * c) 0 (-2) c c)]].
      * intros t _ _. unfold c. field.
      * unfold c. field.
    + apply (area_val _ _ _ (16 * G ^ 2 * g ^ 2 * (M ^ 8 / 6))); [field; apply PI_neq0|]. apply area_scale.
      eapply area_val; [|apply (area_of_antiderivative (fun s => M ^ 4 * (s ^ 2 / 2) - 2 * M ^ 2 * (s ^ 3 / 3) + s ^ 4 / 4 - (M ^ 2 - s) ^ 4 / 12))].
      * cbn beta. field.
      * intros s _. eapply dl_val.
        -- apply dl_minus; [apply dl_plus; [apply dl_minus|]|].
           ++ apply dl_mult; [apply dl_const|]. apply dl_div; [apply dl_pow, dl_id|apply dl_const|lra].
           ++ apply dl_mult; [apply (dl_const (2 * M ^ 2))|]. apply dl_div; [apply dl_pow, dl_id|apply dl_const|lra].
           ++ apply dl_div; [apply dl_pow, dl_id|apply dl_const|lra].
           ++ apply dl_div; [apply dl_pow; apply dl_minus; [apply (dl_const (M ^ 2))|apply dl_id]|apply dl_const|lra].
        -- unfold Rsqr. simpl. field.
Qed.
Lemma mixed_swap M th mi mk : 0 < mi -> 0 < mk -> mi + mk < M -> width_nup_l_lp M th mi mk = width_nup_l_lp M th mk mi.
Proof.
  assert (C : forall mi mk, 0 < mi -> 0 < mk -> mi + mk < M ->
    width_nup_l_lp M th mi mk = GF ^ 2 * M ^ 5 * manti ((mi / M) ^ 2) ((mk / M) ^ 2) ((mi / M) ^ 2) * sin th ^ 2 / (192 * PI ^ 3)).
  { intros m1 m2 H1 H2 H. assert (R1 : 0 < m1 / M) by (apply Rdiv_lt_0_compat; lra). assert (R2 : 0 < m2 / M) by (apply Rdiv_lt_0_compat; lra).
    rewrite <- mixed_closed; [|apply pow_lt; lra|apply pow_lt; lra|].
    - unfold width_nup_l_lp. destruct (Rlt_dec M (m1 + m2)) as [L|_]; [lra|]. unfold mixed_code.
      replace ((m1 / M) ^ 4) with (((m1 / M) ^ 2) ^ 2) by ring. replace ((m2 / M) ^ 4) with (((m2 / M) ^ 2) ^ 2) by ring.
      replace ((m1 / M) ^ 6) with (((m1 / M) ^ 2) ^ 3) by ring. replace ((m2 / M) ^ 6) with (((m2 / M) ^ 2) ^ 3) by ring. reflexivity.
    - rewrite !sqrt_pow2 by lra. apply Rmult_lt_reg_r with M; [lra|]. replace ((m1 / M + m2 / M) * M) with (m1 + m2) by (field; lra). lra. }
  intros H1 H2 H. rewrite (C mi mk H1 H2 H), (C mk mi H2 H1 ltac:(lra)). set (a := (mi / M) ^ 2). set (b := (mk / M) ^ 2).
  unfold manti, mlam. replace (kallen_lambda 1 b a) with (kallen_lambda 1 a b) by (unfold kallen_lambda; ring).
  set (r := sqrt _). replace (mq b a b) with (mq a b a) by (unfold mq; field). unfold mlog.
  set (La := ln ((1 + a - b + r) / (1 + a - b - r))). set (Lb := ln ((1 + b - a + r) / (1 + b - a - r))). f_equal. f_equal. f_equal. ring.
Qed.
