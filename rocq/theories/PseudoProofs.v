(** Vocabulary and lemmas for the pseudoscalar and the axial vector mediator. *)
From Coq Require Import Reals Lra Psatz List String.
From Verif Require Import PyBase RamboModel RamboProofs KinModel KinProofs FourPiModel FourPiProofs Area MedProofs FsrProofs PseudoModel.
Import ListNotations.
Local Open Scope R_scope.

(** * Vocabulary *)

(** (1, y) is an eigenvector of the symmetric matrix [[a, e], [e, c]] with the eigenvalue [lam]. *)
Definition eigenpair (a e c lam y : R) : Prop := a + e * y = lam /\ e + c * y = lam * y.
(** The mixing of the mediator with the neutral pion: both quarks couple directly and, by their masses, through
    the gluons; the pion is the difference of the two flavours. *)
Definition pion_mixing (k : consts) (i : inputs) : R :=
  k_b0 k * k_fpi k * ((gpuu i + k_muq k / k_vh k * gpGG i) - (gpdd i + k_mdq k / k_vh k * gpGG i)).
(** Decay of a spinless particle of mass [M] into a fermion of mass [m] and its antiparticle through g P f i gamma5 f *)
Definition fermion_width (g m M : R) : R := g ^ 2 * M * sqrt (1 - 4 * (m / M) ^ 2) / (8 * PI).
(** Decay into two photons of a particle that couples like the neutral pion with the decay constant 1 / c *)
Definition anomaly_width (alpha c M : R) : R := alpha ^ 2 * M ^ 3 * c ^ 2 / (64 * PI ^ 3).
(** Breit and Wigner: two spin-1/2 particles of mass [mx] making a spin-0 resonance, given its widths [win] back
    to them and [wout] to the final state at the energy [Q] *)
Definition breit_wigner (Q mx M w win wout : R) : R :=
  4 * PI * win * wout / ((1 - 4 * (mx / Q) ^ 2) * ((Q ^ 2 - M ^ 2) ^ 2 + M ^ 2 * w ^ 2)).
(** The largest cross section of one partial wave of two spin-1/2 particles that are averaged over their spins *)
Definition unitarity_bound (Q mx : R) : R := PI / (Q ^ 2 - 4 * mx ^ 2).
(** A virtual resonance line shape *)
Definition resonance_den (Q2 M w : R) : R := (Q2 - M ^ 2) ^ 2 + M ^ 2 * w ^ 2.

(** Weinberg's amplitude of pion scattering for the squared mass [s] of the charged pair *)
Definition weinberg (f mu s : R) : R := (s - mu ^ 2) / f ^ 2.
(** Density of a decay into three particles in the squared mass [s] of two of them (mass [m] each), for a squared
    matrix element that depends on [s] only *)
Definition dalitz (M m m3 s msq : R) : R :=
  msq * (sqrt (s * (s - 4 * m ^ 2)) * sqrt (M ^ 4 + m3 ^ 4 + s ^ 2 - 2 * M ^ 2 * m3 ^ 2 - 2 * M ^ 2 * s - 2 * m3 ^ 2 * s))
  / (256 * PI ^ 3 * M ^ 3 * s).
(** Isospin limit with the mixing that follows from the couplings *)
Definition isospin_limit (k : consts) (m : pmodel) (mu : R) : Prop :=
  k_mpi k = mu /\ k_mpi0 k = mu /\ k_b0 k * (k_mdq k + k_muq k) = mu ^ 2
  /\ beta m * (mp (inp m) ^ 2 - mu ^ 2) = pion_mixing k (inp m).
Definition sq (p : vec) : R := mdot p p.
(** Low's eikonal factor for a photon of momentum [q] from a positive and a negative charge: minus the square of
    the current p1 / (q.p1) - p2 / (q.p2) *)
Definition eikonal_current (p1 p2 q : vec) : vec :=
  vminus (vscale (/ mdot q p1) p1) (vscale (/ mdot q p2) p2).
Definition eikonal (p1 p2 q : vec) : R := - sq (eikonal_current p1 p2 q).

(** * Mixing *)
Lemma mixing_eps_form k i : mixing_eps k i = pion_mixing k i.
Proof. unfold mixing_eps, pion_mixing, Rdiv. ring. Qed.
Lemma eigen_bounds a e c lam y : c - a <> 0 -> eigenpair a e c lam y -> 2 * Rabs (lam - a) <= Rabs (c - a) ->
  let b := e / (c - a) in
  Rabs (y + b) <= 4 * Rabs b ^ 3 /\ Rabs (lam - (a - e * b)) <= 4 * Rabs b ^ 4 * Rabs (c - a).
Proof.
  intros D [E1 E2] H b. set (d := c - a) in *.
  assert (Hb : e = b * d) by (unfold b; field; exact D).
  set (u := Rabs b). assert (Hu : 0 <= u) by apply Rabs_pos.
  assert (Hd : 0 < Rabs d) by now apply Rabs_pos_lt.
  assert (Y : (1 - b * y) * y = - b).
  { apply (Rmult_eq_reg_r d); [|exact D]. assert (C : c = a + d) by (unfold d; ring).
    rewrite <- E1, C, Hb in E2. lra. }
  assert (L : lam - a = b * y * d) by (rewrite <- E1, Hb; ring).
  rewrite L, !Rabs_mult in H. fold u in H.
  assert (U : u * Rabs y <= 1 / 2) by (apply (Rmult_le_reg_r (Rabs d)); [exact Hd|lra]).
  assert (V : 1 / 2 <= Rabs (1 - b * y)).
  { pose proof (Rabs_triang_inv 1 (b * y)) as T. rewrite Rabs_R1, Rabs_mult in T. fold u in T. lra. }
  assert (Hy : Rabs y <= 2 * u).
  { assert (Rabs (1 - b * y) * Rabs y = u) by (rewrite <- Rabs_mult, Y, Rabs_Ropp; reflexivity).
    pose proof (Rabs_pos y). nra. }
  assert (Z : y + b = b * y ^ 2) by lra.
  assert (Q : Rabs (y + b) <= 4 * u ^ 3).
  { rewrite Z, Rabs_mult, <- RPow_abs. fold u. pose proof (Rabs_pos y).
    assert (Rabs y ^ 2 <= (2 * u) ^ 2) by (apply pow_incr; lra). nra. }
  split; [exact Q|].
  replace (lam - (a - e * b)) with (b * d * (y + b)) by (rewrite Hb in *; lra).
  rewrite !Rabs_mult. fold u. replace (4 * u ^ 4 * Rabs d) with (u * Rabs d * (4 * u ^ 3)) by ring.
  apply Rmult_le_compat_l; [nra|exact Q].
Qed.
Lemma eigen_exists a e c : c - a <> 0 -> 4 * (e / (c - a)) ^ 2 <= 3 ->
  exists lam y, eigenpair a e c lam y /\ 2 * Rabs (lam - a) <= Rabs (c - a).
Proof.
  intros D H. set (d := c - a) in *. set (t := e / d) in *.
  assert (Ht : e = t * d) by (unfold t; field; exact D).
  assert (H0 : 0 <= t ^ 2) by apply pow2_ge_0.
  set (s := sqrt (1 + 4 * t ^ 2)). assert (Hs : s ^ 2 = 1 + 4 * t ^ 2) by (unfold s; rewrite pow2_sqrt; lra).
  assert (S1 : 1 <= s) by (unfold s; rewrite <- sqrt_1 at 1; apply sqrt_le_1_alt; lra).
  assert (S2 : s <= 2) by (destruct (Rle_dec s 2); [assumption|nra]).
  set (y := -2 * t / (1 + s)). assert (Hy : y * (1 + s) = -2 * t) by (unfold y; field; lra).
  exists (a + e * y), y. split.
  - split; [reflexivity|]. assert (Q : (t + y - t * y ^ 2) * (1 + s) ^ 2 = 0).
    { replace ((t + y - t * y ^ 2) * (1 + s) ^ 2) with (t * (1 + s) ^ 2 + y * (1 + s) * (1 + s) - t * (y * (1 + s)) ^ 2) by ring.
      rewrite Hy. replace (t * (1 + s) ^ 2 + -2 * t * (1 + s) - t * (-2 * t) ^ 2) with (t * (s ^ 2 - 1 - 4 * t ^ 2)) by ring.
      rewrite Hs. ring. }
    apply Rmult_integral in Q. destruct Q as [Q|Q]; [|nra].
    assert (Z : d * (t + y - t * y ^ 2) = 0) by (rewrite Q; ring). assert (C : c = a + d) by (unfold d; ring).
    rewrite C, Ht. lra.
  - replace (a + e * y - a) with (t * y * d) by (rewrite Ht; ring). rewrite Rabs_mult.
    assert (Rabs (t * y) <= 1 / 2); [|pose proof (Rabs_pos d); nra].
    apply Rabs_le. assert (P : t * y * (1 + s) = -2 * t ^ 2) by (replace (t * y * (1 + s)) with (t * (y * (1 + s))) by ring; rewrite Hy; ring).
    split; nra.
Qed.

(** * Two-body widths *)
Lemma checked_ret x : 0 <= x -> checked x = Ret x.
Proof. intro H. unfold checked. destruct (Rle_dec 0 x); [reflexivity|contradiction]. Qed.
Lemma checked_raise x : x < 0 -> checked x = Raise AssertionError.
Proof. intro H. unfold checked. destruct (Rle_dec 0 x); [lra|reflexivity]. Qed.
Lemma checked_inv x y : checked x = Ret y -> y = x /\ 0 <= y.
Proof. unfold checked. destruct (Rle_dec 0 x); intro H; [|discriminate]. injection H as ->. now split. Qed.
Lemma fermion_width_nonneg g m M : 0 <= M -> 0 <= fermion_width g m M.
Proof.
  intro H. unfold fermion_width. pose proof PI_RGT_0. apply Rmult_le_pos; [|left; apply Rinv_0_lt_compat; lra].
  apply Rmult_le_pos; [|apply sqrt_pos]. apply Rmult_le_pos; [apply pow2_ge_0|exact H].
Qed.
Lemma width_ff_form k m (mu : bool) : 0 < mp (inp m) -> beta m ^ 2 <= 1 ->
  let mf := if mu then k_mmu k else k_me k in
  let g := if mu then gpmumu (inp m) else gpee (inp m) in
  width_p_to_ff k m mu = Ret (if Rlt_dec (2 * mf) (mp (inp m)) then (1 - beta m ^ 2) * fermion_width g mf (mp (inp m)) else 0).
Proof.
  intros Hp Hb mf g. unfold width_p_to_ff. fold mf g. set (M := mp (inp m)) in *.
  assert (E : 2 * (mf / M) < 1 <-> 2 * mf < M).
  { replace (2 * (mf / M)) with (2 * mf / M) by (unfold Rdiv; ring). split; intro H.
    - apply Rmult_lt_compat_r with (r := M) in H; [|exact Hp]. unfold Rdiv in H. rewrite Rmult_assoc, Rinv_l in H by lra. lra.
    - apply Rmult_lt_reg_r with M; [exact Hp|]. unfold Rdiv. rewrite Rmult_assoc, Rinv_l by lra. lra. }
  destruct (Rlt_dec (2 * (mf / M)) 1) as [A|A], (Rlt_dec (2 * mf) M) as [B|B]; try tauto.
  rewrite checked_ret.
  - f_equal. unfold fermion_width. unfold Rdiv. ring.
  - replace (- ((-1 + beta m ^ 2) * g ^ 2 * M * sqrt (1 - 4 * (mf / M) ^ 2)) / (8 * PI))
      with ((1 - beta m ^ 2) * fermion_width g mf M) by (unfold fermion_width, Rdiv; ring).
    apply Rmult_le_pos; [lra|]. apply fermion_width_nonneg. lra.
Qed.
Lemma width_xx_form m : 0 < mp (inp m) -> beta m ^ 2 <= 1 -> 2 * mx (inp m) < mp (inp m) ->
  width_p_to_xx m = Ret ((1 - beta m ^ 2) * fermion_width (gpxx (inp m)) (mx (inp m)) (mp (inp m)) / 4).
Proof.
  intros Hp Hb Hx. unfold width_p_to_xx. set (M := mp (inp m)) in *. set (x := mx (inp m)) in *.
  assert (2 * (x / M) < 1).
  { replace (2 * (x / M)) with (2 * x / M) by (unfold Rdiv; ring). apply Rmult_lt_reg_r with M; [exact Hp|].
    unfold Rdiv. rewrite Rmult_assoc, Rinv_l by lra. lra. }
  destruct (Rlt_dec (2 * (x / M)) 1); [|contradiction].
  assert (E : - ((-1 + beta m ^ 2) * gpxx (inp m) ^ 2 * M * sqrt (1 - 4 * (x / M) ^ 2)) / (32 * PI)
      = (1 - beta m ^ 2) * fermion_width (gpxx (inp m)) x M / 4).
  { pose proof PI_RGT_0. unfold fermion_width. field. lra. }
  rewrite E. apply checked_ret. pose proof (fermion_width_nonneg (gpxx (inp m)) x M ltac:(lra)).
  assert (0 <= (1 - beta m ^ 2) * fermion_width (gpxx (inp m)) x M) by (apply Rmult_le_pos; lra). lra.
Qed.
Lemma width_gg_form k m w : k_fpi k <> 0 -> k_vh k <> 0 -> width_p_to_gg k m = Ret w ->
  w = (anomaly_width (k_alpha k) (gpFF (inp m) / k_vh k - beta m / k_fpi k) (mp (inp m))
       - anomaly_width (k_alpha k) (beta m * (gpFF (inp m) / k_vh k)) (mp (inp m))) / 2 /\ 0 <= w.
Proof.
  intros Hf Hv H. unfold width_p_to_gg in H. apply checked_inv in H. destruct H as [-> P]. split; [|exact P].
  pose proof PI_RGT_0. unfold anomaly_width. field. repeat split; lra || assumption.
Qed.

(** * Breit and Wigner *)
Lemma velocity_sq mx Q : 0 < Q -> 0 <= mx -> 2 * mx < Q -> 0 < 1 - 4 * (mx / Q) ^ 2.
Proof.
  intros HQ H0 H. assert (mx / Q < 1 / 2).
  { apply Rmult_lt_reg_r with Q; [exact HQ|]. unfold Rdiv. rewrite Rmult_assoc, Rinv_l by lra. lra. }
  assert (0 <= mx / Q) by (apply Rmult_le_pos; [lra|left; apply Rinv_0_lt_compat; lra]). nra.
Qed.
Lemma half_lt m Q : 0 < Q -> 2 * m < Q -> 2 * (m / Q) < 1.
Proof.
  intros HQ H. apply Rmult_lt_reg_r with Q; [exact HQ|].
  replace (2 * (m / Q) * Q) with (2 * m) by (field; lra). lra.
Qed.
Lemma sigma_ff_form k m Q (mu : bool) : let mf := if mu then k_mmu k else k_me k in
  let g := if mu then gpmumu (inp m) else gpee (inp m) in
  0 < Q -> 0 <= mx (inp m) -> 2 * mx (inp m) < Q -> 0 <= mf -> 2 * mf < Q -> 2 * beta m ^ 2 <= 1 -> 0 < mp (inp m) -> width_p m <> 0 ->
  sigma_xx_to_p_to_ff k m Q mu
  = Ret ((1 - 2 * beta m ^ 2) * breit_wigner Q (mx (inp m)) (mp (inp m)) (width_p m)
           (fermion_width (gpxx (inp m)) (mx (inp m)) Q) (fermion_width g mf Q)).
Proof.
  intros mf g HQ H0 Hx Hf0 Hf Hb Hp Hw. unfold sigma_xx_to_p_to_ff. fold mf g.
  set (M := mp (inp m)) in *. set (x := mx (inp m)) in *. set (w := width_p m) in *.
  destruct (Rlt_dec (2 * (mf / Q)) 1) as [_|N]; [|exfalso; apply N; now apply half_lt].
  destruct (Rlt_dec (2 * (x / Q)) 1) as [_|N]; [|exfalso; apply N; now apply half_lt].
  pose proof (velocity_sq x Q HQ H0 Hx) as Vx. pose proof PI_RGT_0 as HPI.
  assert (Dp : 0 < (M ^ 2 - Q ^ 2) ^ 2 + M ^ 2 * w ^ 2).
  { pose proof (pow2_ge_0 (M ^ 2 - Q ^ 2)). assert (0 < M ^ 2 * w ^ 2); [|lra].
    assert (0 < w ^ 2) by (destruct (Rtotal_order w 0) as [|[|]]; [nra|contradiction|nra]). apply Rmult_lt_0_compat; nra. }
  set (sx := sqrt (1 - 4 * (x / Q) ^ 2)). assert (Sx : 0 < sx) by now apply sqrt_lt_R0.
  assert (Ex : sx ^ 2 = 1 - 4 * (x / Q) ^ 2) by (unfold sx; rewrite pow2_sqrt; lra).
  assert (E : (1 - 2 * beta m ^ 2) * g ^ 2 * gpxx (inp m) ^ 2 * Q ^ 2 * sqrt (1 - 4 * (mf / Q) ^ 2) / (16 * PI * sx * ((M ^ 2 - Q ^ 2) ^ 2 + M ^ 2 * w ^ 2))
    = (1 - 2 * beta m ^ 2) * breit_wigner Q x M w (fermion_width (gpxx (inp m)) x Q) (fermion_width g mf Q)).
  { unfold breit_wigner. rewrite <- Ex. unfold fermion_width. fold sx. set (sf := sqrt (1 - 4 * (mf / Q) ^ 2)).
    replace ((Q ^ 2 - M ^ 2) ^ 2) with ((M ^ 2 - Q ^ 2) ^ 2) by ring. set (dd := (M ^ 2 - Q ^ 2) ^ 2 + M ^ 2 * w ^ 2) in *.
    clearbody dd sx sf. field. repeat split; lra. }
  rewrite E. apply checked_ret. rewrite <- E. clear E.
  apply Rmult_le_pos; [|left; apply Rinv_0_lt_compat; apply Rmult_lt_0_compat; [apply Rmult_lt_0_compat; lra|exact Dp]].
  apply Rmult_le_pos; [|apply sqrt_pos]. repeat first [apply pow2_ge_0 | lra | apply Rmult_le_pos].
Qed.
Lemma sigma_gg_form k m Q : k_fpi k <> 0 -> k_vh k <> 0 ->
  0 < Q -> 0 <= mx (inp m) -> 2 * mx (inp m) < Q -> beta m = 0 -> 0 < mp (inp m) -> width_p m <> 0 ->
  sigma_xx_to_p_to_gg k m Q
  = Ret (breit_wigner Q (mx (inp m)) (mp (inp m)) (width_p m)
           (fermion_width (gpxx (inp m)) (mx (inp m)) Q) (anomaly_width (k_alpha k) (gpFF (inp m) / k_vh k) Q / 2)).
Proof.
  intros Hf Hv HQ H0 Hx Hb Hp Hw. unfold sigma_xx_to_p_to_gg. rewrite Hb.
  set (M := mp (inp m)) in *. set (x := mx (inp m)) in *. set (w := width_p m) in *.
  destruct (Rle_dec (2 * x) Q) as [_|N]; [|exfalso; lra].
  pose proof (velocity_sq x Q HQ H0 Hx) as Vx. pose proof PI_RGT_0 as HPI.
  assert (Dp : 0 < (M ^ 2 - Q ^ 2) ^ 2 + M ^ 2 * w ^ 2).
  { pose proof (pow2_ge_0 (M ^ 2 - Q ^ 2)). assert (0 < M ^ 2 * w ^ 2); [|lra].
    assert (0 < w ^ 2) by (destruct (Rtotal_order w 0) as [|[|]]; [nra|contradiction|nra]). apply Rmult_lt_0_compat; nra. }
  set (sx := sqrt (1 - 4 * (x / Q) ^ 2)). assert (Sx : 0 < sx) by now apply sqrt_lt_R0.
  assert (Ex : sx ^ 2 = 1 - 4 * (x / Q) ^ 2) by (unfold sx; rewrite pow2_sqrt; lra).
  rewrite checked_ret.
  - f_equal. unfold breit_wigner. rewrite <- Ex. unfold fermion_width, anomaly_width. fold sx.
    replace ((Q ^ 2 - M ^ 2) ^ 2) with ((M ^ 2 - Q ^ 2) ^ 2) by ring. set (dd := (M ^ 2 - Q ^ 2) ^ 2 + M ^ 2 * w ^ 2) in *.
    clearbody dd sx. field. repeat split; lra || assumption.
  - assert (0 < k_fpi k ^ 2) by (destruct (Rtotal_order (k_fpi k) 0) as [|[|]]; [nra|contradiction|nra]).
    assert (0 < k_vh k ^ 2) by (destruct (Rtotal_order (k_vh k) 0) as [|[|]]; [nra|contradiction|nra]).
    assert (0 < PI ^ 3) by (apply pow_lt; lra).
    apply Rmult_le_pos.
    2: { left. apply Rinv_0_lt_compat. apply Rmult_lt_0_compat; [|exact Dp]. apply Rmult_lt_0_compat; [|assumption].
      apply Rmult_lt_0_compat; [|exact Sx]. apply Rmult_lt_0_compat; [lra|assumption]. }
    replace ((1 - 2 * 0 ^ 2) * k_fpi k ^ 2 * gpFF (inp m) ^ 2 - 2 * 0 * k_fpi k * gpFF (inp m) * k_vh k + 0 ^ 2 * k_vh k ^ 2)
      with ((k_fpi k * gpFF (inp m)) ^ 2) by ring.
    repeat first [apply pow2_ge_0 | apply pow_le; lra | apply Rmult_le_pos].
Qed.

(** * Three pions *)
Lemma sq_shell mu p : on_shell mu p -> ldot p p = mu ^ 2.
Proof. intros [H _]. unfold ldot. nra. Qed.
Lemma sq_sum2 p1 p2 : sq (vplus p1 p2) = ldot p1 p1 + ldot p2 p2 + 2 * ldot p1 p2.
Proof. unfold sq, mdot, ldot, vplus. cbn [en px py pz]. ring. Qed.
Lemma sq_sum3 p1 p2 p3 : sq (vplus (vplus p1 p2) p3)
  = ldot p1 p1 + ldot p2 p2 + ldot p3 p3 + 2 * (ldot p1 p2 + ldot p1 p3 + ldot p2 p3).
Proof. unfold sq, mdot, ldot, vplus. cbn [en px py pz]. ring. Qed.
Lemma sq_sum4 p1 p2 p3 q : sq (vplus (vplus (vplus p1 p2) p3) q)
  = ldot p1 p1 + ldot p2 p2 + ldot p3 p3 + ldot q q
    + 2 * (ldot p1 p2 + ldot p1 p3 + ldot p2 p3 + ldot q p1 + ldot q p2 + ldot q p3).
Proof. unfold sq, mdot, ldot, vplus. cbn [en px py pz]. ring. Qed.
(** the dark matter factor of the matrix elements *)
Definition chi_factor (m : pmodel) (p1 : vec) : R := mx (inp m) ^ 2 + chi_dot (mx (inp m)) (row_sum p1).
Lemma chi_factor_form m p1 : 4 * mx (inp m) ^ 2 <= row_sum p1 ^ 2 -> chi_factor m p1 = row_sum p1 ^ 2 / 2.
Proof.
  intro H. unfold chi_factor, chi_dot, ldot. cbn [en px py pz]. set (P := row_sum p1) in *. set (x := mx (inp m)) in *.
  pose proof (pow2_sqrt (P ^ 2 / 4 - x ^ 2) ltac:(lra)) as S. set (r := sqrt _) in *. clearbody r. nra.
Qed.
(** the amplitude of the charged mode, given the squared mass [s] of the charged pions (and their photons) *)
Definition charged_amplitude (k : consts) (m : pmodel) (s Q2 : R) : R :=
  - (k_b0 k * k_fpi k * gdiff k (inp m))
  + beta m * k_vh k * (k_b0 k * (k_mdq k + k_muq k) + 3 * s - 2 * k_mpi k ^ 2 - k_mpi0 k ^ 2 - Q2).
Definition charged_square (k : consts) (m : pmodel) (s Q2 : R) : R :=
  gpxx (inp m) ^ 2 * (charged_amplitude k m s Q2 ^ 2 - 5 * (beta m * k_b0 k * k_fpi k * gdiff k (inp m)) ^ 2)
  / (9 * k_fpi k ^ 4 * k_vh k ^ 2 * resonance_den Q2 (mp (inp m)) (width_p m)).
Lemma pm0_form k m p1 p2 p3 : on_shell (k_mpi k) p1 -> on_shell (k_mpi k) p2 -> on_shell (k_mpi0 k) p3 ->
  msqrd_xx_to_p_to_pm0 k m p1 p2 p3
  = chi_factor m p1 * charged_square k m (sq (vplus p1 p2)) (sq (vplus (vplus p1 p2) p3)).
Proof.
  intros H1 H2 H3. apply sq_shell in H1, H2, H3. rewrite sq_sum2, sq_sum3, H1, H2, H3.
  unfold msqrd_xx_to_p_to_pm0. cbv zeta. fold (chi_factor m p1). set (c := chi_factor m p1).
  unfold charged_square, charged_amplitude, gdiff, resonance_den.
  set (d12 := ldot p1 p2). set (d13 := ldot p1 p3). set (d23 := ldot p2 p3). set (M := mp (inp m)). set (w := width_p m).
  set (a := k_mpi k). set (b := k_mpi0 k).
  replace ((- M ^ 2 + 2 * a ^ 2 + b ^ 2) ^ 2 + M ^ 2 * w ^ 2 - 4 * (M ^ 2 - 2 * a ^ 2 - b ^ 2 - d12 - d13 - d23) * (d12 + d13 + d23))
    with ((a ^ 2 + a ^ 2 + b ^ 2 + 2 * (d12 + d13 + d23) - M ^ 2) ^ 2 + M ^ 2 * w ^ 2) by ring.
  set (dd := _ + M ^ 2 * w ^ 2). unfold Rdiv. set (ii := / (9 * k_fpi k ^ 4 * k_vh k ^ 2 * dd)). clearbody c ii d12 d13 d23 M w a b. ring.
Qed.
Lemma eikonal_form mu p1 p2 q : ldot p1 p1 = mu ^ 2 -> ldot p2 p2 = mu ^ 2 -> ldot q p1 <> 0 -> ldot q p2 <> 0 ->
  eikonal p1 p2 q = - (mu ^ 2 * ldot q p1 ^ 2 + mu ^ 2 * ldot q p2 ^ 2 - 2 * ldot q p1 * ldot q p2 * ldot p1 p2) / (ldot q p1 ^ 2 * ldot q p2 ^ 2).
Proof.
  intros H1 H2 N1 N2. unfold eikonal, eikonal_current. rewrite !mdot_ldot.
  set (k1 := ldot q p1) in *. set (k2 := ldot q p2) in *.
  assert (E : sq (vminus (vscale (/ k1) p1) (vscale (/ k2) p2)) = ldot p1 p1 / k1 ^ 2 + ldot p2 p2 / k2 ^ 2 - 2 * ldot p1 p2 / (k1 * k2)).
  { unfold sq, mdot, ldot, vminus, vscale. cbn [en px py pz]. clearbody k1 k2. field. now split. }
  rewrite E, H1, H2. clearbody k1 k2. field. now split.
Qed.
Lemma pm0g_form k m p1 p2 p3 q : on_shell (k_mpi k) p1 -> on_shell (k_mpi k) p2 -> on_shell (k_mpi0 k) p3 -> ldot q q = 0 ->
  ldot q p1 <> 0 -> ldot q p2 <> 0 ->
  msqrd_xx_to_p_to_pm0g k m p1 p2 p3 q
  = qe2 k * eikonal p1 p2 q * (chi_factor m p1 * charged_square k m (sq (vplus (vplus p1 p2) q)) (sq (vplus (vplus (vplus p1 p2) p3) q))).
Proof.
  intros H1 H2 H3 Hq N1 N2. apply sq_shell in H1, H2, H3. rewrite (eikonal_form (k_mpi k)) by assumption.
  rewrite sq_sum4, sq_sum3, (ldot_comm p1 q), (ldot_comm p2 q), H1, H2, H3, Hq.
  unfold msqrd_xx_to_p_to_pm0g. cbv zeta. fold (chi_factor m p1). set (c := chi_factor m p1).
  unfold charged_square, charged_amplitude, gdiff, resonance_den.
  set (d12 := ldot p1 p2). set (d13 := ldot p1 p3). set (d23 := ldot p2 p3). set (M := mp (inp m)). set (w := width_p m).
  set (a := k_mpi k). set (b := k_mpi0 k). set (k1 := ldot q p1) in *. set (k2 := ldot q p2) in *. set (k3 := ldot q p3).
  replace ((- M ^ 2 + 2 * a ^ 2 + b ^ 2) ^ 2 + M ^ 2 * w ^ 2 - 4 * (M ^ 2 - 2 * a ^ 2 - b ^ 2 - k1 - k2 - k3 - d12 - d13 - d23) * (k1 + k2 + k3 + d12 + d13 + d23))
    with ((a ^ 2 + a ^ 2 + b ^ 2 + 0 + 2 * (d12 + d13 + d23 + k1 + k2 + k3) - M ^ 2) ^ 2 + M ^ 2 * w ^ 2) by ring.
  set (dd := _ + M ^ 2 * w ^ 2).
  replace (9 * k_fpi k ^ 4 * k_vh k ^ 2 * k1 ^ 2 * k2 ^ 2 * dd) with (k1 ^ 2 * k2 ^ 2 * (9 * k_fpi k ^ 4 * k_vh k ^ 2 * dd)) by ring.
  unfold Rdiv. rewrite (Rinv_mult (k1 ^ 2 * k2 ^ 2)).
  set (ii := / (9 * k_fpi k ^ 4 * k_vh k ^ 2 * dd)). set (jj := / (k1 ^ 2 * k2 ^ 2)).
  clearbody c ii jj d12 d13 d23 M w a b k1 k2 k3. ring.
Qed.
(** a vector orthogonal to a null one is not timelike *)
Lemma orthogonal_null q v : 0 < en q -> ldot q q = 0 -> ldot q v = 0 -> ldot v v <= 0.
Proof.
  intros H0 Hq Hv. unfold ldot in *.
  assert (Q2 : en q ^ 2 = px q ^ 2 + py q ^ 2 + pz q ^ 2) by lra.
  assert (V : en q * en v = dot3 q v) by (unfold dot3; lra).
  pose proof (cauchy3 q v) as C. rewrite <- V, <- Q2 in C.
  assert (P : 0 < en q ^ 2) by (apply pow_lt; exact H0).
  replace ((en q * en v) ^ 2) with (en q ^ 2 * en v ^ 2) in C by ring. apply Rmult_le_reg_l in C; [|exact P]. nra.
Qed.
Lemma eikonal_nonneg p1 p2 q : 0 < en q -> ldot q q = 0 -> ldot q p1 <> 0 -> ldot q p2 <> 0 -> 0 <= eikonal p1 p2 q.
Proof.
  intros H0 Hq N1 N2. unfold eikonal. assert (sq (eikonal_current p1 p2 q) <= 0); [|lra].
  unfold sq. rewrite mdot_ldot. apply (orthogonal_null q); [exact H0|exact Hq|].
  unfold eikonal_current. rewrite !mdot_ldot, ldot_minus.
  assert (S : forall c a, ldot q (vscale c a) = c * ldot q a) by (intros; unfold ldot, vscale; cbn [en px py pz]; ring).
  rewrite !S. rewrite !Rinv_l by assumption. ring.
Qed.
Lemma p000_form k m p1 p2 p3 : on_shell (k_mpi0 k) p1 -> on_shell (k_mpi0 k) p2 -> on_shell (k_mpi0 k) p3 ->
  msqrd_xx_to_p_to_000 k m p1 p2 p3
  = chi_factor m p1 * (gpxx (inp m) ^ 2 * k_b0 k ^ 2
      * ((k_fpi k * gdiff k (inp m) - beta m * (k_mdq k + k_muq k) * k_vh k) ^ 2 - 11 * (beta m * k_fpi k * gdiff k (inp m)) ^ 2)
      / (k_fpi k ^ 4 * k_vh k ^ 2 * resonance_den (sq (vplus (vplus p1 p2) p3)) (mp (inp m)) (width_p m))).
Proof.
  intros H1 H2 H3. apply sq_shell in H1, H2, H3. rewrite sq_sum3, H1, H2, H3.
  unfold msqrd_xx_to_p_to_000. cbv zeta. fold (chi_factor m p1). set (c := chi_factor m p1).
  unfold gdiff, resonance_den.
  set (d12 := ldot p1 p2). set (d13 := ldot p1 p3). set (d23 := ldot p2 p3). set (M := mp (inp m)). set (w := width_p m). set (b := k_mpi0 k).
  replace ((M ^ 2 - 3 * b ^ 2) ^ 2 + M ^ 2 * w ^ 2 - 4 * (M ^ 2 - 3 * b ^ 2 - d12 - d13 - d23) * (d12 + d13 + d23))
    with ((b ^ 2 + b ^ 2 + b ^ 2 + 2 * (d12 + d13 + d23) - M ^ 2) ^ 2 + M ^ 2 * w ^ 2) by ring.
  set (dd := _ + M ^ 2 * w ^ 2). unfold Rdiv. set (ii := / (k_fpi k ^ 4 * k_vh k ^ 2 * dd)). clearbody c ii d12 d13 d23 M w b. ring.
Qed.
(** in the isospin limit the coupling is the mixing *)
Lemma gdiff_mixing k m mu : k_vh k <> 0 -> isospin_limit k m mu ->
  k_b0 k * k_fpi k * gdiff k (inp m) = - (beta m * k_vh k * (mp (inp m) ^ 2 - mu ^ 2)).
Proof.
  intros Hv (_ & _ & _ & E).
  replace (beta m * k_vh k * (mp (inp m) ^ 2 - mu ^ 2)) with (k_vh k * (beta m * (mp (inp m) ^ 2 - mu ^ 2))) by ring.
  rewrite E. unfold pion_mixing, gdiff. field. exact Hv.
Qed.
Lemma charged_on_pole k m mu s : k_fpi k <> 0 -> k_vh k <> 0 -> mp (inp m) <> 0 -> width_p m <> 0 -> isospin_limit k m mu ->
  charged_square k m s (mp (inp m) ^ 2)
  = gpxx (inp m) ^ 2 / (mp (inp m) ^ 2 * width_p m ^ 2)
    * (beta m ^ 2 * (weinberg (k_fpi k) mu s ^ 2 - 5 / 9 * (beta m * (mp (inp m) ^ 2 - mu ^ 2) / k_fpi k ^ 2) ^ 2)).
Proof.
  intros Hf Hv Hp Hw I. pose proof (gdiff_mixing k m mu Hv I) as G. destruct I as (E1 & E2 & E3 & _).
  unfold charged_square, charged_amplitude, resonance_den, weinberg. rewrite E3, E1, E2.
  replace (beta m * k_b0 k * k_fpi k * gdiff k (inp m)) with (beta m * (k_b0 k * k_fpi k * gdiff k (inp m))) by ring. rewrite G.
  replace ((mp (inp m) ^ 2 - mp (inp m) ^ 2) ^ 2 + mp (inp m) ^ 2 * width_p m ^ 2) with (mp (inp m) ^ 2 * width_p m ^ 2) by ring.
  field. repeat split; assumption.
Qed.
Lemma neutral_on_pole k m mu : k_fpi k <> 0 -> k_vh k <> 0 -> mp (inp m) <> 0 -> width_p m <> 0 -> isospin_limit k m mu ->
  gpxx (inp m) ^ 2 * k_b0 k ^ 2
      * ((k_fpi k * gdiff k (inp m) - beta m * (k_mdq k + k_muq k) * k_vh k) ^ 2 - 11 * (beta m * k_fpi k * gdiff k (inp m)) ^ 2)
      / (k_fpi k ^ 4 * k_vh k ^ 2 * resonance_den (mp (inp m) ^ 2) (mp (inp m)) (width_p m))
  = gpxx (inp m) ^ 2 / (mp (inp m) ^ 2 * width_p m ^ 2)
    * (beta m ^ 2 * ((mp (inp m) ^ 2 / k_fpi k ^ 2) ^ 2 - 11 * (beta m * (mp (inp m) ^ 2 - mu ^ 2) / k_fpi k ^ 2) ^ 2)).
Proof.
  intros Hf Hv Hp Hw I. pose proof (gdiff_mixing k m mu Hv I) as G. destruct I as (_ & _ & E3 & _).
  replace (gpxx (inp m) ^ 2 * k_b0 k ^ 2
      * ((k_fpi k * gdiff k (inp m) - beta m * (k_mdq k + k_muq k) * k_vh k) ^ 2 - 11 * (beta m * k_fpi k * gdiff k (inp m)) ^ 2))
    with (gpxx (inp m) ^ 2 * ((k_b0 k * k_fpi k * gdiff k (inp m) - beta m * (k_b0 k * (k_mdq k + k_muq k)) * k_vh k) ^ 2
       - 11 * (beta m * (k_b0 k * k_fpi k * gdiff k (inp m))) ^ 2)) by ring.
  rewrite G, E3. unfold resonance_den.
  replace ((mp (inp m) ^ 2 - mp (inp m) ^ 2) ^ 2 + mp (inp m) ^ 2 * width_p m ^ 2) with (mp (inp m) ^ 2 * width_p m ^ 2) by ring.
  field. repeat split; assumption.
Qed.
(** the differential widths *)
Lemma dwidth_000_form k m mu s v : k_fpi k <> 0 -> k_vh k <> 0 -> 0 < mp (inp m) -> 0 < s -> isospin_limit k m mu -> mpi0 m = mu ->
  3 * mu <= mp (inp m) -> dwidth_ds_p_to_pi0pi0pi0 k m s = Ret v ->
  v = dalitz (mp (inp m)) mu mu s
        (beta m ^ 2 * ((mp (inp m) ^ 2 / k_fpi k ^ 2) ^ 2 - 10 * (beta m * (mp (inp m) ^ 2 - mu ^ 2) / k_fpi k ^ 2) ^ 2)).
Proof.
  intros Hf Hv Hp Hs I Em T H. unfold dwidth_ds_p_to_pi0pi0pi0 in H. rewrite Em in H.
  destruct (Rle_dec (3 * mu) (mp (inp m))); [|contradiction]. apply checked_inv in H. destruct H as [-> _].
  pose proof (gdiff_mixing k m mu Hv I) as G. destruct I as (_ & _ & E3 & _).
  set (M := mp (inp m)) in *. unfold dalitz.
  replace (M ^ 4 + mu ^ 4 + s ^ 2 - 2 * M ^ 2 * mu ^ 2 - 2 * M ^ 2 * s - 2 * mu ^ 2 * s)
    with (M ^ 4 + (mu ^ 2 - s) ^ 2 - 2 * M ^ 2 * (mu ^ 2 + s)) by ring.
  replace (s * (s - 4 * mu ^ 2)) with (s * (-4 * mu ^ 2 + s)) by ring.
  set (r1 := sqrt (s * _)). set (r2 := sqrt (M ^ 4 + _ - _)).
  set (X := - (beta m ^ 2 * (k_mdq k + k_muq k) ^ 2 * k_vh k ^ 2) + _ + _).
  assert (E : k_b0 k ^ 2 * X = - ((beta m * k_vh k) ^ 2 * (M ^ 4 - 10 * (beta m * (M ^ 2 - mu ^ 2)) ^ 2))).
  { transitivity (- ((k_b0 k * k_fpi k * gdiff k (inp m) - beta m * (k_b0 k * (k_mdq k + k_muq k)) * k_vh k) ^ 2
       - 10 * (beta m * (k_b0 k * k_fpi k * gdiff k (inp m))) ^ 2)); [unfold X; ring|]. rewrite G, E3. ring. }
  replace (k_b0 k ^ 2 * r1 * r2 * X) with (k_b0 k ^ 2 * X * (r1 * r2)) by ring. rewrite E.
  clearbody r1 r2. pose proof PI_RGT_0. field. repeat split; lra || assumption.
Qed.
Lemma dwidth_pm0_form k m mu s v : k_fpi k <> 0 -> k_vh k <> 0 -> 0 < mp (inp m) -> 0 < s -> isospin_limit k m mu -> mpi0 m = mu ->
  3 * mu <= mp (inp m) -> dwidth_ds_p_to_pi0pipi k m s = Ret v ->
  v = dalitz (mp (inp m)) mu mu s
        (beta m ^ 2 * ((weinberg (k_fpi k) mu s + mp (inp m) ^ 2 / (3 * k_fpi k ^ 2)) ^ 2
                       - 4 / 9 * (beta m * (mp (inp m) ^ 2 - mu ^ 2) / k_fpi k ^ 2) ^ 2)).
Proof.
  intros Hf Hv Hp Hs I Em T H. pose proof (gdiff_mixing k m mu Hv I) as G. destruct I as (E1 & _ & E3 & _).
  unfold dwidth_ds_p_to_pi0pipi in H. rewrite Em, E1 in H.
  destruct (Rle_dec (2 * mu + mu) (mp (inp m))) as [_|N]; [|exfalso; lra]. apply checked_inv in H. destruct H as [-> _].
  set (M := mp (inp m)) in *. unfold dalitz, weinberg.
  replace (M ^ 4 + mu ^ 4 + s ^ 2 - 2 * M ^ 2 * mu ^ 2 - 2 * M ^ 2 * s - 2 * mu ^ 2 * s)
    with (M ^ 4 + (mu ^ 2 - s) ^ 2 - 2 * M ^ 2 * (mu ^ 2 + s)) by ring.
  replace (s * (s - 4 * mu ^ 2)) with (s * (-4 * mu ^ 2 + s)) by ring.
  set (r1 := sqrt (s * _)). set (r2 := sqrt (M ^ 4 + _ - _)).
  set (X := beta m ^ 2 * (2 * mu ^ 2 + mu ^ 2 - 3 * s) ^ 2 * k_vh k ^ 2 + _ + _).
  assert (E : X = (beta m * k_vh k) ^ 2 * ((3 * (s - mu ^ 2) + M ^ 2) ^ 2 - 4 * (beta m * (M ^ 2 - mu ^ 2)) ^ 2)).
  { transitivity ((beta m * k_vh k * (3 * mu ^ 2 - 3 * s) + (k_b0 k * k_fpi k * gdiff k (inp m) - beta m * (k_b0 k * (k_mdq k + k_muq k)) * k_vh k)) ^ 2
       - 4 * (beta m * (k_b0 k * k_fpi k * gdiff k (inp m))) ^ 2); [unfold X; ring|]. rewrite G, E3. ring. }
  rewrite E. clearbody r1 r2. pose proof PI_RGT_0. field. repeat split; lra || assumption.
Qed.

(** * Final-state radiation *)
(** [x] is the fraction 2 E / Q that the photon takes, [mu] the mass over [Q] *)
Definition pseudo_shape (mu x : R) : R := (1 - x + x ^ 2 / 2 - 2 * mu ^ 2) * lg (vx x mu) - (1 - x) * vx x mu.
Lemma fsr_form k eg Q mf : 0 < mf -> 2 * mf < Q -> 0 < eg -> 4 * mf ^ 2 <= Q ^ 2 - 2 * Q * eg ->
  dnde_xx_to_p_to_ffg k eg Q mf = 2 * k_alpha k / (PI * eg * sqrt (1 - 4 * (mf / Q) ^ 2)) * pseudo_shape (mf / Q) (2 * eg / Q).
Proof.
  intros Hm HQ He Hs. assert (Q0 : 0 < Q) by lra. unfold dnde_xx_to_p_to_ffg. cbv zeta.
  destruct (Rle_dec (4 * mf ^ 2) (Q ^ 2 - 2 * Q * eg)) as [_|N]; [|contradiction].
  destruct (Rle_dec (Q ^ 2 - 2 * Q * eg) (Q ^ 2)) as [_|N]; [|exfalso; nra].
  set (m := mf / Q). set (e := eg / Q).
  assert (Hm0 : 0 < m) by (apply Rdiv_lt_0_compat; lra). assert (He0 : 0 < e) by (apply Rdiv_lt_0_compat; lra).
  assert (Em : mf = m * Q) by (unfold m; field; lra). assert (Ee : eg = e * Q) by (unfold e; field; lra).
  assert (Hx : 2 * e <= 1 - 4 * m ^ 2).
  { rewrite Em, Ee in Hs. assert (0 < Q ^ 2) by (apply pow_lt; lra). apply Rmult_le_reg_r with (Q ^ 2); [assumption|]. lra. }
  replace (2 * eg / Q) with (2 * e) by (unfold e, Rdiv; ring).
  destruct (kin (2 * e) m Hm0 Hx) as (Hy & Ht & K). unfold pseudo_shape, lg. set (t := vx (2 * e) m) in *.
  set (y := 1 - 2 * e) in *. assert (E2 : e = (1 - y) / 2) by (unfold y; lra).
  assert (R1 : sqrt ((-1 + 2 * e) * (-1 + 2 * e + 4 * m ^ 2)) = y * t).
  { replace ((-1 + 2 * e) * (-1 + 2 * e + 4 * m ^ 2)) with ((y * t) ^ 2) by (rewrite K; unfold y; ring).
    apply sqrt_pow2. apply Rmult_le_pos; lra. }
  assert (R2 : sqrt (y - 4 * m ^ 2) = sqrt y * t).
  { replace (y - 4 * m ^ 2) with (y * t ^ 2) by lra. rewrite sqrt_mult by (try apply pow2_ge_0; lra). rewrite sqrt_pow2 by lra. reflexivity. }
  rewrite R1, R2. assert (Sy : 0 < sqrt y) by now apply sqrt_lt_R0.
  assert (Lm : ln m = (ln y + ln (1 - t) + ln (1 + t) - ln 4) / 2).
  { assert (2 * ln m = ln y + ln (1 - t) + ln (1 + t) - ln 4); [|lra].
    assert (M2 : m * m = y * (1 - t) * (1 + t) / 4) by lra.
    assert (L2 : ln (m * m) = 2 * ln m) by (rewrite ln_mult by lra; ring).
    assert (P1 : 0 < y * (1 - t)) by (apply Rmult_lt_0_compat; lra).
    assert (P2 : 0 < y * (1 - t) * (1 + t)) by (apply Rmult_lt_0_compat; lra).
    rewrite <- L2, M2, ln_quot by lra. rewrite !ln_mult by lra. ring. }
  assert (La : ln (sqrt y - sqrt y * t) = ln y / 2 + ln (1 - t)).
  { replace (sqrt y - sqrt y * t) with (sqrt y * (1 - t)) by ring. rewrite ln_mult by lra.
    assert (2 * ln (sqrt y) = ln y); [|lra]. rewrite <- (sqrt_sqrt y) at 2 by lra. rewrite ln_mult by lra. ring. }
  assert (Lb : ln (2 * (y - 2 * m ^ 2 + y * t)) = ln y + 2 * ln (1 + t)).
  { replace (2 * (y - 2 * m ^ 2 + y * t)) with (y * ((1 + t) * (1 + t))) by lra.
    rewrite !ln_mult by nra. ring. }
  assert (Lc : ln (-2 / (-1 + 2 * e + 2 * m ^ 2 + y * t)) = ln 4 - ln y - 2 * ln (1 - t)).
  { assert (0 < y * ((1 - t) * (1 - t))) by (repeat apply Rmult_lt_0_compat; lra).
    replace (-2 / (-1 + 2 * e + 2 * m ^ 2 + y * t)) with (4 / (y * ((1 - t) * (1 - t)))).
    - rewrite ln_quot by lra. rewrite !ln_mult by nra. ring.
    - replace (-1 + 2 * e + 2 * m ^ 2 + y * t) with (- (y * ((1 - t) * (1 - t))) / 2) by (rewrite E2; lra).
      field. split; lra. }
  rewrite Lm, La, Lb, Lc. rewrite ln_quot by lra.
  assert (V : 0 < sqrt (1 - 4 * m ^ 2)) by (apply sqrt_lt_R0; lra). set (v := sqrt _) in *. clearbody v.
  set (ly := ln y). set (l4 := ln 4). set (lm := ln (1 - t)). set (lp := ln (1 + t)). clearbody ly l4 lm lp.
  pose proof PI_RGT_0. rewrite Ee. rewrite E2 in *. clearbody y t m. field. repeat split; lra.
Qed.
Lemma pseudo_shape_nonneg mu x : 0 < mu -> 0 <= x -> x <= 1 - 4 * mu ^ 2 -> 0 <= pseudo_shape mu x.
Proof.
  intros Hm H0 Hx. destruct (kin x mu Hm Hx) as (Hy & Ht & K). unfold pseudo_shape. pose proof (log_ge (vx x mu) Ht) as L.
  set (t := vx x mu) in *. set (l := lg t) in *. clearbody t l.
  assert (P : 0 <= 1 - x + x ^ 2 / 2 - 2 * mu ^ 2) by nra.
  assert ((1 - x + x ^ 2 / 2 - 2 * mu ^ 2) * (2 * t) <= (1 - x + x ^ 2 / 2 - 2 * mu ^ 2) * l) by (apply Rmult_le_compat_l; lra).
  assert (0 <= t * (1 - x + x ^ 2 - 4 * mu ^ 2)) by (apply Rmult_le_pos; nra). nra.
Qed.
Lemma pseudo_shape_pos mu x : 0 < mu -> 0 < x -> x < 1 - 4 * mu ^ 2 -> 0 < pseudo_shape mu x.
Proof.
  intros Hm H0 Hx. destruct (kin x mu Hm ltac:(lra)) as (Hy & Ht & K). unfold pseudo_shape. pose proof (log_ge (vx x mu) Ht) as L.
  set (t := vx x mu) in *. set (l := lg t) in *. clearbody t l.
  assert (T : 0 < t) by (destruct (Req_dec t 0) as [Z|]; [rewrite Z in K; lra|lra]).
  assert (P : 0 <= 1 - x + x ^ 2 / 2 - 2 * mu ^ 2) by nra.
  assert ((1 - x + x ^ 2 / 2 - 2 * mu ^ 2) * (2 * t) <= (1 - x + x ^ 2 / 2 - 2 * mu ^ 2) * l) by (apply Rmult_le_compat_l; lra).
  assert (0 < t * (1 - x + x ^ 2 - 4 * mu ^ 2)) by (apply Rmult_lt_0_compat; nra). nra.
Qed.
Lemma pseudo_shape_endpoint mu : 0 < mu -> pseudo_shape mu (1 - 4 * mu ^ 2) = 0.
Proof.
  intro Hm. destruct (kin (1 - 4 * mu ^ 2) mu Hm ltac:(lra)) as (Hy & Ht & K). unfold pseudo_shape.
  set (t := vx _ mu) in *. assert (0 < mu ^ 2) by (apply pow_lt; exact Hm).
  assert (t = 0) by (assert (4 * mu ^ 2 * t ^ 2 = 0) by lra; assert (t ^ 2 = 0) by nra; nra).
  subst t. rewrite H0. unfold lg. replace ((1 + 0) / (1 - 0)) with 1 by field. rewrite ln_1. ring.
Qed.
Lemma pseudo_shape_der mu : 0 < mu -> 4 * mu ^ 2 < 1 -> exists l, derivable_pt_lim (pseudo_shape mu) 0 l.
Proof.
  intros Hm Hw. destruct (vx_der mu Hw) as (a & Ha). destruct (lgv_der mu Hm Hw) as (b & Hb). unfold pseudo_shape, Rdiv.
  eexists; repeat first [ exact Ha | exact Hb | apply SpecProofs.dl_const | apply SpecProofs.dl_id
  | eapply SpecProofs.dl_plus | eapply SpecProofs.dl_minus | eapply SpecProofs.dl_opp | eapply SpecProofs.dl_pow | eapply SpecProofs.dl_mult ].
Qed.

(** * Soft photons in matrix elements *)
(** [f], multiplied by the square of the scale of the photon momentum, tends to [v] *)
Definition soft_square (f : R -> R) (v : R) : Prop :=
  forall eps, 0 < eps -> exists d, 0 < d /\ forall l, 0 < l < d -> Rabs (l ^ 2 * f l - v) < eps.
Lemma soft_square_from f F v : continuity_pt F 0 -> F 0 = v -> (forall l, 0 < l -> l ^ 2 * f l = F l) -> soft_square f v.
Proof.
  intros C E H eps He. destruct (proj1 (cont_eps F 0) C eps He) as (d & Pd & D). exists d. split; [exact Pd|].
  intros l Hl. rewrite H, <- E by lra. apply D. rewrite Rminus_0_r, Rabs_right; lra.
Qed.
Section Cont.
Variable x : R.
Lemma cp_const c : continuity_pt (fun _ => c) x. Proof. apply continuity_pt_const. now intros ? ?. Qed.
Lemma cp_id : continuity_pt (fun l => l) x. Proof. apply derivable_continuous_pt, derivable_pt_id. Qed.
Lemma cp_plus f g : continuity_pt f x -> continuity_pt g x -> continuity_pt (fun l => f l + g l) x.
Proof. apply (continuity_pt_plus f g). Qed.
Lemma cp_minus f g : continuity_pt f x -> continuity_pt g x -> continuity_pt (fun l => f l - g l) x.
Proof. apply (continuity_pt_minus f g). Qed.
Lemma cp_mult f g : continuity_pt f x -> continuity_pt g x -> continuity_pt (fun l => f l * g l) x.
Proof. apply (continuity_pt_mult f g). Qed.
Lemma cp_opp f : continuity_pt f x -> continuity_pt (fun l => - f l) x.
Proof. apply (continuity_pt_opp f). Qed.
Lemma cp_div f g : continuity_pt f x -> continuity_pt g x -> g x <> 0 -> continuity_pt (fun l => f l / g l) x.
Proof. apply (continuity_pt_div f g). Qed.
Lemma cp_pow f n : continuity_pt f x -> continuity_pt (fun l => f l ^ n) x.
Proof. intro H. induction n as [|n IH]; cbn; [apply cp_const|]. now apply cp_mult. Qed.
Lemma cp_sqrt f : continuity_pt f x -> 0 <= f x -> continuity_pt (fun l => sqrt (f l)) x.
Proof. intros H P. apply (continuity_pt_comp f sqrt); [exact H|]. now apply continuity_pt_sqrt. Qed.
End Cont.
Ltac cp := repeat first [ assumption | apply cp_const | apply cp_id | apply cp_plus | apply cp_minus | apply cp_opp
  | apply cp_pow | apply cp_mult | apply cp_div ].

Lemma ldot_scale l q p : ldot (vscale l q) p = l * ldot q p.
Proof. unfold ldot, vscale. cbn [en px py pz]. ring. Qed.
Lemma eikonal_scale p1 p2 q l : l <> 0 -> ldot q p1 <> 0 -> ldot q p2 <> 0 -> l ^ 2 * eikonal p1 p2 (vscale l q) = eikonal p1 p2 q.
Proof.
  intros Hl N1 N2. unfold eikonal, eikonal_current. rewrite !mdot_ldot, !ldot_scale.
  set (k1 := ldot q p1) in *. set (k2 := ldot q p2) in *. unfold sq, mdot, vminus, vscale. cbn [en px py pz]. clearbody k1 k2.
  field. repeat split; assumption.
Qed.
Lemma resonance_den_pos Q2 M w : M <> 0 -> w <> 0 -> 0 < resonance_den Q2 M w.
Proof.
  intros HM Hw. unfold resonance_den. pose proof (pow2_ge_0 (Q2 - M ^ 2)).
  assert (0 < (M * w) ^ 2); [|nra]. assert (M * w <> 0) by now apply Rmult_integral_contrapositive_currified.
  destruct (Rtotal_order (M * w) 0) as [|[|]]; [nra|contradiction|nra].
Qed.
Lemma charged_square_cont k m fs fQ : k_fpi k <> 0 -> k_vh k <> 0 -> mp (inp m) <> 0 -> width_p m <> 0 ->
  continuity_pt fs 0 -> continuity_pt fQ 0 -> continuity_pt (fun l => charged_square k m (fs l) (fQ l)) 0.
Proof.
  intros Hf Hv Hp Hw Cs CQ. unfold charged_square, charged_amplitude. apply cp_div.
  - cp.
  - unfold resonance_den. cp.
  - pose proof (resonance_den_pos (fQ 0) _ _ Hp Hw). repeat apply Rmult_integral_contrapositive_currified; try lra; now apply pow_nonzero.
Qed.

(** * The axial vector *)
Definition comp (p : vec) (i : nat) : R := match i with 0 => en p | 1 => px p | 2 => py p | _ => pz p end.
Definition metric (i j : nat) : R := if Nat.eqb i j then match i with 0 => 1 | _ => -1 end else 0.
Definition sum4 (f : nat -> R) : R := f 0%nat + f 1%nat + f 2%nat + f 3%nat.
(** Sum over spins of the axial current times its conjugate for a fermion [p] and an antifermion [p'] of mass [m] *)
Definition axial_tensor (m : R) (p p' : vec) (i j : nat) : R :=
  4 * (comp p i * comp p' j + comp p j * comp p' i - metric i j * (mdot p p' - m ^ 2)).
(** Numerator of the propagator for the momentum [P]; [c] is the inverse square of the mass for a massive vector *)
Definition propagator (c : R) (P : vec) (i j : nat) : R :=
  - metric i j + c * (metric i i * comp P i) * (metric j j * comp P j).
Definition exchange (c : R) (P : vec) (a b : nat -> nat -> R) : R :=
  sum4 (fun i => sum4 (fun j => sum4 (fun r => sum4 (fun t => a i j * propagator c P i r * propagator c P j t * b r t)))).

Lemma exchange_axial P mx mf p1 p2 p3 p4 :
  exchange 0 P (axial_tensor mx p1 p2) (axial_tensor mf p3 p4)
  = 16 * (2 * mdot p1 p3 * mdot p2 p4 + 2 * mdot p1 p4 * mdot p2 p3
          - 2 * (mdot p1 p2 - mx ^ 2) * mdot p3 p4 - 2 * (mdot p3 p4 - mf ^ 2) * mdot p1 p2
          + 4 * (mdot p1 p2 - mx ^ 2) * (mdot p3 p4 - mf ^ 2)).
Proof.
  unfold exchange, sum4, propagator, metric. cbn [Nat.eqb comp].
  rewrite !Rmult_0_l, !Rplus_0_r, Ropp_0, !Rmult_0_r, !Rmult_0_l, !Rplus_0_r, ?Rplus_0_l, ?Rmult_0_l, ?Rplus_0_r, ?Rplus_0_l.
  unfold axial_tensor, metric. cbn [Nat.eqb comp]. rewrite !Rmult_0_l, !Rminus_0_r.
  set (a := mdot p1 p2 - mx ^ 2). set (b := mdot p3 p4 - mf ^ 2). unfold mdot. clearbody a b.
  destruct p1 as [a0 a1 a2 a3], p2 as [b0 b1 b2 b3], p3 as [c0 c1 c2 c3], p4 as [d0 d1 d2 d3]. cbn [en px py pz]. ring.
Qed.
Lemma chi_momenta_dots mx Q : 4 * mx ^ 2 <= Q ^ 2 ->
  let '(p1, p2) := chi_momenta mx Q in mdot p1 p2 = Q ^ 2 / 2 - mx ^ 2.
Proof.
  intro H. unfold chi_momenta, mdot. cbn [en px py pz]. pose proof (pow2_sqrt ((Q / 2) ^ 2 - mx ^ 2) ltac:(nra)) as E.
  set (r := sqrt _) in *. clearbody r. nra.
Qed.
Definition ffg_numerator (mx mf Q k1 k2 k3 k4 d13 d14 d23 d24 d34 l : R) : R :=
  2 * k3 * k4
  * (l ^ 2 * k1 * k3 * d23 - 2 * l * k4 * d13 * d23 + l * k3 * d14 * d23 + l * k4 * d14 * d23 + l ^ 2 * k1 * k4 * d24
     + l * k3 * d13 * d24 + l * k4 * d13 * d24 - 2 * l * k3 * d14 * d24
     + ((l * k1 + 2 * d14) * d23 + (l * k1 + 2 * d13) * d24) * d34
     + l * k2 * (l * k3 * d13 + l * k4 * d14 + (d13 + d14) * d34)
     - mx ^ 2 * (l ^ 2 * k3 ^ 2 + l ^ 2 * k4 ^ 2 + 2 * l * (k3 + k4) * d34 + 2 * d34 ^ 2))
  + (k3 ^ 2 + k4 ^ 2) * mf ^ 4 * (-6 * mx ^ 2 + Q ^ 2)
  + 2 * mf ^ 2
    * (- (l * k2 * k3 ^ 2 * d13) - l * k2 * k4 ^ 2 * d14 - k3 ^ 2 * d14 * d23 - k4 ^ 2 * d14 * d23
       - k3 ^ 2 * d13 * d24 - k4 ^ 2 * d13 * d24
       + l * k1 * (2 * l * k2 * k3 * k4 - k3 ^ 2 * d23 - k4 ^ 2 * d24)
       + mx ^ 2 * (l * k3 ^ 3 + k3 ^ 2 * (l * k4 + d34) + k4 ^ 2 * (l * k4 + d34) + k3 * k4 * (l * k4 + 6 * d34))
       - k3 * k4 * d34 * Q ^ 2).
Lemma ffg_scaled mx mf ma qf cx cf e2 Q k1 k2 k3 k4 d13 d14 d23 d24 d34 l : l <> 0 ->
  l ^ 2 * ffg_products mx mf ma qf cx cf e2 Q (l * k1) (l * k2) (l * k3) (l * k4) d13 d14 d23 d24 d34
  = 4 * cf ^ 2 * cx ^ 2 * e2 * qf ^ 2 * ffg_numerator mx mf Q k1 k2 k3 k4 d13 d14 d23 d24 d34 l
    / (k3 ^ 2 * k4 ^ 2 * (ma ^ 2 - 2 * mf ^ 2 - 2 * (l * k3 + l * k4 + d34)) ^ 2).
Proof.
  intro Hl. unfold ffg_products, ffg_numerator. set (X := (ma ^ 2 - 2 * mf ^ 2 - _) ^ 2).
  replace ((l * k3) ^ 2 * (l * k4) ^ 2 * X) with (l ^ 4 * (k3 ^ 2 * k4 ^ 2 * X)) by ring.
  unfold Rdiv. rewrite (Rinv_mult (l ^ 4)). set (ii := / (k3 ^ 2 * k4 ^ 2 * X)). clearbody ii.
  field. exact Hl.
Qed.
