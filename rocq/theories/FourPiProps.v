(** Properties of the four-pion final states. *)
From Coq Require Import Reals Psatz List.
From Verif Require Import PyBase RamboModel RamboProofs KinModel KinProofs VffModel RareModel FourPiModel FourPiProofs.
Import ListNotations.
Local Open Scope R_scope.

(** * The current is conserved *)

(** For every choice of the fit and every four momenta whose sum is not lightlike, in both modes, the hadronic
    current is orthogonal to the total momentum. *)
Theorem four_pi_current_conserved : forall (f : fit) (imode : nat) (q1 q2 q3 q4 : vec),
  mdot (total4 q1 q2 q3 q4) (total4 q1 q2 q3 q4) <> 0 ->
  conserved (total4 q1 q2 q3 q4) (msqrd_current f imode q1 q2 q3 q4).
Proof.
  intros f m q1 q2 q3 q4 H. rewrite mdot_ldot, ldot_self in H. unfold msqrd_current. fold (total4 q1 q2 q3 q4).
  destruct m as [|m]; cbn [form_factor_at]; [now apply neutral_conserved|].
  unfold current_charged. do 3 (apply conserved_plus; [|now apply neutral_conserved]). now apply neutral_conserved.
Qed.
Print Assumptions four_pi_current_conserved.
Definition up : vec := V4 1 0 0 (1 / 2).
Definition down : vec := V4 1 0 0 (- (1 / 2)).
Definition side : vec := V4 2 1 0 0.
Definition back : vec := V4 2 (-1) 0 0.
Example four_pi_current_conserved_ex :
  mdot (total4 up side down back) (total4 up side down back) <> 0
  /\ conserved (total4 up side down back) (msqrd_current default_fit 0 up side down back)
  /\ conserved (total4 up side down back) (msqrd_current default_fit 1 up side down back).
Proof.
  assert (H : mdot (total4 up side down back) (total4 up side down back) <> 0)
    by (unfold mdot, total4, up, side, down, back; cbn [vplus en px py pz]; lra).
  repeat split; try exact H; now apply four_pi_current_conserved.
Qed.

(** * The squared amplitude *)

(** The number of ways to exchange identical pions: two neutral ones in the first mode, two pairs of charged
    ones in the second. *)
Definition exchanges (imode : nat) : R := match imode with 0%nat => 2 | _ => 2 * 2 end.
(** Sum of the squared sizes of the three spatial components. *)
Definition spatial (j : cvec) : R :=
  (px (cre j) ^ 2 + px (cim j) ^ 2) + (py (cre j) ^ 2 + py (cim j) ^ 2) + (pz (cre j) ^ 2 + pz (cim j) ^ 2).

(** In the rest frame the weight of a phase-space point is the average over the three polarisations of a
    decaying vector of the squared current, times the squared isovector coupling, divided by the number of
    exchanges and by the squared energy. *)
Theorem four_pi_msqrd_rest_frame : forall (f : fit) (imode : nat) (q1 q2 q3 q4 : vec) (M gu gd : R),
  0 < M -> total4 q1 q2 q3 q4 = V4 M 0 0 0 ->
  en (cre (msqrd_current f imode q1 q2 q3 q4)) = 0 /\ en (cim (msqrd_current f imode q1 q2 q3 q4)) = 0
  /\ msqrd f imode q1 q2 q3 q4 gu gd = (gu - gd) ^ 2 / exchanges imode * (spatial (msqrd_current f imode q1 q2 q3 q4) / 3) / M ^ 2.
Proof.
  intros f m q1 q2 q3 q4 M gu gd HM E.
  assert (N : mdot (total4 q1 q2 q3 q4) (total4 q1 q2 q3 q4) <> 0) by (rewrite E; unfold mdot; cbn [en px py pz]; nra).
  destruct (four_pi_current_conserved f m q1 q2 q3 q4 N) as [A B]. rewrite E in A, B. unfold mdot in A, B. cbn [en px py pz] in A, B.
  assert (A' : en (cre (msqrd_current f m q1 q2 q3 q4)) = 0) by nra.
  assert (B' : en (cim (msqrd_current f m q1 q2 q3 q4)) = 0) by nra.
  split; [exact A'|]. split; [exact B'|]. unfold msqrd. fold (total4 q1 q2 q3 q4). rewrite E.
  unfold spatial, ldot, lnorm_sqr. cbn [en px py pz]. rewrite A', B'.
  set (j := msqrd_current f m q1 q2 q3 q4). clearbody j. destruct m; unfold exchanges; field; lra.
Qed.
Print Assumptions four_pi_msqrd_rest_frame.
Example four_pi_msqrd_rest_frame_ex : total4 up side down back = V4 6 0 0 0.
Proof. unfold total4, up, side, down, back, vplus. cbn [en px py pz]. f_equal; lra. Qed.

(** The weight is never negative when the total momentum is timelike, depends on the couplings only through the
    square of the difference of the up and down ones, and vanishes when they agree. *)
Theorem four_pi_msqrd_nonneg : forall (f : fit) (imode : nat) (q1 q2 q3 q4 : vec) (gu gd : R),
  0 < mdot (total4 q1 q2 q3 q4) (total4 q1 q2 q3 q4) ->
  0 <= msqrd f imode q1 q2 q3 q4 gu gd
  /\ msqrd f imode q1 q2 q3 q4 gu gd = (gu - gd) ^ 2 * msqrd f imode q1 q2 q3 q4 1 0
  /\ msqrd f imode q1 q2 q3 q4 gd gu = msqrd f imode q1 q2 q3 q4 gu gd
  /\ msqrd f imode q1 q2 q3 q4 gu gu = 0.
Proof.
  intros f m q1 q2 q3 q4 gu gd H.
  destruct (four_pi_current_conserved f m q1 q2 q3 q4 ltac:(lra)) as [A B]. rewrite mdot_ldot in A, B.
  rewrite mdot_ldot, ldot_self in H.
  pose proof (orthogonal_spacelike _ _ H A) as A'. pose proof (orthogonal_spacelike _ _ H B) as B'.
  unfold msqrd. fold (total4 q1 q2 q3 q4). set (j := msqrd_current f m q1 q2 q3 q4) in *. clearbody j.
  set (Q2 := lnorm_sqr (total4 q1 q2 q3 q4)) in *. clearbody Q2.
  set (w := - (ldot (cre j) (cre j) + ldot (cim j) (cim j)) / (3 * Q2)).
  assert (W : 0 <= w) by (unfold w; apply Rmult_le_pos; [lra|]; left; apply Rinv_0_lt_compat; lra).
  clearbody w. split; [|split; [|split]].
  - apply Rmult_le_pos; [|exact W]. destruct m; pose proof (pow2_ge_0 (gu - gd)); lra.
  - destruct m; field.
  - destruct m; field.
  - destruct m; field.
Qed.
Print Assumptions four_pi_msqrd_nonneg.
Example four_pi_msqrd_nonneg_ex : 0 < mdot (total4 up side down back) (total4 up side down back).
Proof. unfold mdot, total4, up, side, down, back. cbn [vplus en px py pz]. lra. Qed.

(** * Exchange of pions *)

(** Neutral mode: the current is unchanged when the two momenta it documents as neutral are exchanged and
    changes sign when the two charged ones are.  Charged mode, momenta in the order +, -, +, -: unchanged when
    the two positive or the two negative pions are exchanged, opposite when every charge is reversed.  The
    weight is unchanged in every case. *)
Theorem four_pi_exchange : forall (f : fit) (q1 q2 q3 q4 : vec) (gu gd : R),
  (msqrd_current f 0 q2 q1 q3 q4 = msqrd_current f 0 q1 q2 q3 q4
   /\ msqrd_current f 0 q1 q2 q4 q3 = opposite (msqrd_current f 0 q1 q2 q3 q4))
  /\ (msqrd_current f 1 q3 q2 q1 q4 = msqrd_current f 1 q1 q2 q3 q4
      /\ msqrd_current f 1 q1 q4 q3 q2 = msqrd_current f 1 q1 q2 q3 q4
      /\ msqrd_current f 1 q2 q1 q4 q3 = opposite (msqrd_current f 1 q1 q2 q3 q4))
  /\ msqrd f 0 q2 q1 q3 q4 gu gd = msqrd f 0 q1 q2 q3 q4 gu gd
  /\ msqrd f 0 q1 q2 q4 q3 gu gd = msqrd f 0 q1 q2 q3 q4 gu gd
  /\ msqrd f 1 q3 q2 q1 q4 gu gd = msqrd f 1 q1 q2 q3 q4 gu gd
  /\ msqrd f 1 q1 q4 q3 q2 gu gd = msqrd f 1 q1 q2 q3 q4 gu gd
  /\ msqrd f 1 q2 q1 q4 q3 gu gd = msqrd f 1 q1 q2 q3 q4 gu gd.
Proof.
  intros f q1 q2 q3 q4 gu gd.
  assert (S1 : vplus (vplus (vplus q2 q1) q3) q4 = vplus (vplus (vplus q1 q2) q3) q4) by vec_ring.
  assert (S2 : vplus (vplus (vplus q1 q2) q4) q3 = vplus (vplus (vplus q1 q2) q3) q4) by vec_ring.
  assert (S3 : vplus (vplus (vplus q3 q2) q1) q4 = vplus (vplus (vplus q1 q2) q3) q4) by vec_ring.
  assert (S4 : vplus (vplus (vplus q1 q4) q3) q2 = vplus (vplus (vplus q1 q2) q3) q4) by vec_ring.
  assert (S5 : vplus (vplus (vplus q2 q1) q4) q3 = vplus (vplus (vplus q1 q2) q3) q4) by vec_ring.
  assert (C1 : msqrd_current f 0 q2 q1 q3 q4 = msqrd_current f 0 q1 q2 q3 q4)
    by (unfold msqrd_current; rewrite S1; apply neutral_swap_12).
  assert (C2 : msqrd_current f 0 q1 q2 q4 q3 = opposite (msqrd_current f 0 q1 q2 q3 q4))
    by (unfold msqrd_current; rewrite S2; apply neutral_swap_34).
  assert (C3 : msqrd_current f 1 q3 q2 q1 q4 = msqrd_current f 1 q1 q2 q3 q4)
    by (unfold msqrd_current; rewrite S3; apply charged_swap_plus).
  assert (C4 : msqrd_current f 1 q1 q4 q3 q2 = msqrd_current f 1 q1 q2 q3 q4)
    by (unfold msqrd_current; rewrite S4; apply charged_swap_minus).
  assert (C5 : msqrd_current f 1 q2 q1 q4 q3 = opposite (msqrd_current f 1 q1 q2 q3 q4))
    by (unfold msqrd_current; rewrite S5; apply charged_conjugate).
  split; [now split|]. split; [now repeat split|].
  assert (OO : forall v, ldot (cre (opposite v)) (cre (opposite v)) = ldot (cre v) (cre v)
    /\ ldot (cim (opposite v)) (cim (opposite v)) = ldot (cim v) (cim v)) by (intros v; split; vec_ring).
  repeat split; unfold msqrd.
  - now rewrite C1, S1.
  - rewrite C2, S2. destruct (OO (msqrd_current f 0 q1 q2 q3 q4)) as [-> ->]. reflexivity.
  - now rewrite C3, S3.
  - now rewrite C4, S4.
  - rewrite C5, S5. destruct (OO (msqrd_current f 1 q1 q2 q3 q4)) as [-> ->]. reflexivity.
Qed.
Print Assumptions four_pi_exchange.

(** * Lorentz invariance *)

(** The weight is the same in every frame: it is unchanged when every momentum is boosted, rotated or
    reflected in the same way. *)
Theorem four_pi_lorentz_invariant : forall (L : vec -> vec), lorentz_map L ->
  forall (f : fit) (imode : nat) (q1 q2 q3 q4 : vec) (gu gd : R),
  msqrd f imode (L q1) (L q2) (L q3) (L q4) gu gd = msqrd f imode q1 q2 q3 q4 gu gd.
Proof. intros L H f m q1 q2 q3 q4 gu gd. exact (L_msqrd L H f m q1 q2 q3 q4 gu gd). Qed.
Print Assumptions four_pi_lorentz_invariant.
Definition boost_z (p : vec) : vec := V4 (5 / 4 * en p + 3 / 4 * pz p) (px p) (py p) (5 / 4 * pz p + 3 / 4 * en p).
Example four_pi_lorentz_invariant_ex : lorentz_map boost_z /\ boost_z up <> up.
Proof.
  split.
  - repeat split; intros; unfold boost_z, vplus, vscale, mdot; cbn [en px py pz]; try (f_equal; ring); field.
  - intros E. apply (f_equal en) in E. unfold boost_z, up in E. cbn [en pz] in E. lra.
Qed.

(** * Which pion is which *)

Lemma cabs2_mul a b : cabs2 (cmul a b) = cabs2 a * cabs2 b.
Proof. destruct a, b. unfold cabs2, cmul. cbn [fst snd]. ring. Qed.
Lemma cabs2_scale c a : cabs2 (cscale c a) = c ^ 2 * cabs2 a.
Proof. destruct a. unfold cabs2, cscale. cbn [fst snd]. ring. Qed.
Lemma sq_pos x : x <> 0 -> 0 < x ^ 2.
Proof. intros H. rewrite <- Rsqr_pow2. now apply Rsqr_pos_lt. Qed.
Lemma bw_nonzero s m w : m <> 0 -> m ^ 2 <> s -> 0 < cabs2 (breit_wigner s m w).
Proof.
  intros Hm Hs. unfold breit_wigner, cdiv. rewrite cabs2_scale, cabs2_mul.
  assert (D : 0 < cabs2 (m ^ 2 - s, - (m * w))).
  { unfold cabs2. cbn [fst snd]. assert (0 < (m ^ 2 - s) ^ 2) by (apply sq_pos; lra). pose proof (pow2_ge_0 (- (m * w))). lra. }
  assert (Cj : cabs2 (cconj (m ^ 2 - s, - (m * w))) = cabs2 (m ^ 2 - s, - (m * w))) by (unfold cabs2, cconj; cbn [fst snd]; ring).
  rewrite Cj. set (d := cabs2 (m ^ 2 - s, - (m * w))) in *. clearbody d.
  assert (0 < cabs2 (m ^ 2, 0)).
  { unfold cabs2. cbn [fst snd]. assert (0 < m ^ 2) by (apply sq_pos; exact Hm). nra. }
  assert (0 < (/ d) ^ 2) by (apply pow_lt, Rinv_0_lt_compat, D).
  apply Rmult_lt_0_compat; [assumption|]. now apply Rmult_lt_0_compat.
Qed.
Lemma bw3_nonzero s m w : m <> 0 -> m ^ 2 <> s -> 0 < cabs2 (breit_wigner3 s m w).
Proof. intros. unfold breit_wigner3. now apply bw_nonzero. Qed.

(** A fit with the f0 channel only: the couplings and the weights are arguments of the class. *)
Definition f0_only : fit :=
  make_fit (1437 / 1000, 1738 / 1000, 212 / 100) (7 / 10, 8 / 10, 2 / 10) (0, 0, 0) (0, 0, 0) (0, 0, 0) (0, 0, 0) 1 0 0 0 0 0 0.
Lemma f0_only_current Q Q2 q1 q2 q3 q4 :
  current_neutral f0_only Q Q2 q1 q2 q3 q4 =
  ctimes (cmul (cmul (breit_wigner3 Q2 MRHO_GEV GRHO_GEV) (breit_wigner3 (lnorm_sqr (vplus q3 q4)) MRHO_GEV GRHO_GEV))
               (propagator_f0 (lnorm_sqr (vplus q1 q2)))) (project Q Q2 (vminus q3 q4)).
Proof.
  assert (A : forall a b c d, current_a1_t f0_only Q Q2 a b c d = CV vzero vzero).
  { intros. unfold current_a1_t. cbv zeta. cbn [f0_only make_fit coupling_a1]. generalize (project Q Q2 (vplus (vminus c d) (vscale (ldot b (vminus c d) / lnorm_sqr (vminus Q a)) a))).
    intros v. generalize (cmul (cmul (propagator_rho_f f0_only Q2 (beta_a1_1 f0_only) (beta_a1_2 f0_only) (beta_a1_3 f0_only)) (propagator_a1 (lnorm_sqr (vminus Q a)))) (propagator_rho_b f0_only (lnorm_sqr (vplus c d)))).
    intros z. vec_ring. }
  assert (O : forall a b c d, current_omega_t f0_only Q Q2 a b c d = CV vzero vzero).
  { intros. unfold current_omega_t. cbv zeta. cbn [f0_only make_fit coupling_omega coupling_omega_pi_rho coupling_rho_pi_pi].
    match goal with |- ctimes (cscale _ ?z) ?v = _ => generalize z, v end. intros z v. vec_ring. }
  assert (C : current_rho f0_only Q Q2 q1 q2 q3 q4 = CV vzero vzero).
  { unfold current_rho. cbv zeta. cbn [f0_only make_fit coupling_rho coupling_rho_pi_pi coupling_rho_gamma].
    match goal with |- cvscale (cscale _ ?z) ?v = _ => generalize z, v end. intros z v. vec_ring. }
  unfold current_neutral, current_a1, current_omega. rewrite !A, !O, C. unfold current_f0. cbv zeta.
  assert (P0 : propagator_rho_f f0_only Q2 (beta_f0_1 f0_only) (beta_f0_2 f0_only) (beta_f0_3 f0_only) = breit_wigner3 Q2 MRHO_GEV GRHO_GEV).
  { unfold propagator_rho_f. cbv zeta. cbn [f0_only make_fit beta_f0_1 beta_f0_2 beta_f0_3 t0 t1 t2 fst snd].
    unfold t0, t1, t2. cbn [fst snd]. replace (/ (1 + 0 + 0 + 0)) with 1 by field.
    generalize (breit_wigner3 Q2 MRHO_GEV GRHO_GEV), (breit_wigner3 Q2 (mass_rho_bar_1 f0_only) (width_rho_bar_1 f0_only)),
      (breit_wigner3 Q2 (mass_rho_bar_2 f0_only) (width_rho_bar_2 f0_only)), (breit_wigner3 Q2 (mass_rho_bar_3 f0_only) (width_rho_bar_3 f0_only)).
    intros [a b] [c d] [e g] [h i]. unfold cscale, cadd. cbn [fst snd]. f_equal; ring. }
  assert (P1 : forall s, propagator_rho_t f0_only s = breit_wigner3 s MRHO_GEV GRHO_GEV).
  { intros s. unfold propagator_rho_t. cbv zeta. cbn [f0_only make_fit beta_t_rho1 beta_t_rho2]. unfold t1. cbn [fst snd].
    replace (/ (1 + 0 + 0)) with 1 by field.
    generalize (breit_wigner3 s MRHO_GEV GRHO_GEV), (breit_wigner3 s M_RHO1 G_RHO1), (breit_wigner3 s M_RHO2 G_RHO2).
    intros [a b] [c d] [e g]. unfold cscale, cadd. cbn [fst snd]. f_equal; ring. }
  rewrite P0, P1. cbn [f0_only make_fit coupling_f0].
  match goal with |- context [ctimes (cscale 1 ?z) ?v] => generalize z, v end. intros z v. vec_ring.
Qed.

(** What is expected of the mode with two charged and two neutral pions: an event has the masses the class
    lists for its sampler, in that order, so the momenta with the charged mass are the first two; reversing
    the charges exchanges them and turns the current of a vector into its opposite. *)
Definition charges_reversed (f : fit) : Prop :=
  forall W ms q1 q2 q3 q4, fsp_masses_gev 0 = Ret ms -> event W ms [q1; q2; q3; q4] ->
  (nth 0 ms 0 = MPI_GEV -> nth 1 ms 0 = MPI_GEV -> msqrd_current f 0 q2 q1 q3 q4 = opposite (msqrd_current f 0 q1 q2 q3 q4)).

(** Refuted: the sampler puts the charged pions first, the current takes its first two momenta as the neutral
    ones.  Two charged pions of equal momentum have a current other than zero, although it would have to be
    its own opposite. *)
Theorem four_pi_assignment_refuted : ~ charges_reversed f0_only
  /\ exists W q1 q2 q3 q4, event W [MPI_GEV; MPI_GEV; MPI0_GEV; MPI0_GEV] [q1; q2; q3; q4] /\ q1 = q2
       /\ msqrd_current f0_only 0 q2 q1 q3 q4 <> opposite (msqrd_current f0_only 0 q1 q2 q3 q4).
Proof.
  assert (H : exists W q1 q2 q3 q4, event W [MPI_GEV; MPI_GEV; MPI0_GEV; MPI0_GEV] [q1; q2; q3; q4] /\ q1 = q2
       /\ msqrd_current f0_only 0 q2 q1 q3 q4 <> opposite (msqrd_current f0_only 0 q1 q2 q3 q4)).
  { set (E := hypot 1 MPI0_GEV).
    assert (E2 : E ^ 2 = 1 + MPI0_GEV ^ 2) by (unfold E; rewrite hypot_sq; ring).
    assert (E1 : 1 <= E).
    { unfold E, hypot. rewrite <- sqrt_1 at 1. apply sqrt_le_1; unfold MPI0_GEV; lra. }
    set (a := V4 MPI_GEV 0 0 0). set (c := V4 E 0 0 1). set (d := V4 E 0 0 (-1)).
    exists (2 * MPI_GEV + 2 * E), a, a, c, d. split; [|split; [reflexivity|]].
    - split; [|unfold a, c, d, vsum; cbn [fold_right]; apply vec_ext; vec_norm; ring].
      repeat constructor; unfold a, c, d; cbn [en px py pz]; unfold MPI_GEV, MPI0_GEV in *; lra.
    - intros B. unfold msqrd_current, form_factor_at in B. rewrite f0_only_current in B.
      assert (Qv : vplus (vplus (vplus a a) c) d = V4 (2 * MPI_GEV + 2 * E) 0 0 0) by (unfold a, c, d, vplus; cbn [en px py pz]; f_equal; ring).
      rewrite Qv in B.
      assert (Pr : project (V4 (2 * MPI_GEV + 2 * E) 0 0 0) (lnorm_sqr (V4 (2 * MPI_GEV + 2 * E) 0 0 0)) (vminus c d) = V4 0 0 0 2).
      { unfold project. assert (Z : ldot (V4 (2 * MPI_GEV + 2 * E) 0 0 0) (vminus c d) = 0) by (unfold c, d; vec_ring).
        rewrite Z. unfold c, d, vminus, vscale, Rdiv. cbn [en px py pz]. f_equal; ring. }
      rewrite Pr in B.
      match type of B with ctimes ?z _ = _ => set (P := z) in B end.
      assert (PP : 0 < cabs2 P).
      { unfold P. rewrite !cabs2_mul. apply Rmult_lt_0_compat; [apply Rmult_lt_0_compat|].
        - apply bw3_nonzero; unfold MRHO_GEV, lnorm_sqr; cbn [en px py pz]; unfold MPI_GEV; nra.
        - apply bw3_nonzero; unfold MRHO_GEV, lnorm_sqr, c, d; cbn [vplus en px py pz]; unfold MPI_GEV; nra.
        - unfold propagator_f0. apply bw_nonzero; unfold M_F0, lnorm_sqr, a; cbn [vplus en px py pz]; unfold MPI_GEV; lra. }
      clearbody P. pose proof (f_equal (fun v => pz (cre v)) B) as B1. pose proof (f_equal (fun v => pz (cim v)) B) as B2.
      cbn [ctimes opposite cre cim vscale pz] in B1, B2. unfold cabs2 in PP. nra. }
  split; [|exact H].
  intros K. destruct H as (W & q1 & q2 & q3 & q4 & E & _ & N). apply N. now apply (K W _ q1 q2 q3 q4 eq_refl E).
Qed.
Print Assumptions four_pi_assignment_refuted.

(** * The weights of the rho resonances *)

(** The three numbers [beta_b_rhos] are documented as the weight of the first excitation in the combination B and
    the weights of the first and the second in the combination T. *)
Definition weights_used (mk : R * R * R -> fit) : Prop :=
  forall b0 b1 b2, beta_b_rho (mk (b0, b1, b2)) = b0 /\ beta_t_rho1 (mk (b0, b1, b2)) = b1 /\ beta_t_rho2 (mk (b0, b1, b2)) = b2.

(** Refuted: the constructor reads the second number twice; the third is never used, and with the defaults the
    weight is 0.08 instead of -0.0075. *)
Theorem four_pi_rho_weights_refuted :
  (forall mr wr ba bf bo c1 c2 c3 c4 c5 c6 c7,
     ~ weights_used (fun b => make_fit mr wr ba bf bo b c1 c2 c3 c4 c5 c6 c7)
     /\ forall b0 b1 b2 b2', make_fit mr wr ba bf bo (b0, b1, b2) c1 c2 c3 c4 c5 c6 c7 = make_fit mr wr ba bf bo (b0, b1, b2') c1 c2 c3 c4 c5 c6 c7)
  /\ beta_b_rho default_fit = - (145 / 1000) /\ beta_t_rho1 default_fit = 8 / 100 /\ beta_t_rho2 default_fit = 8 / 100.
Proof.
  split; [|repeat split; reflexivity]. intros. split; [|reflexivity].
  intros H. destruct (H 0 0 1) as (_ & _ & E). cbn in E. lra.
Qed.
Print Assumptions four_pi_rho_weights_refuted.

(** * The public form factor *)

(** Expected of [form_factor]: the current of the event, momenta converted to GeV. *)
Definition form_factor_is_current (f : fit) (imode : nat) : Prop :=
  forall p1 p2 p3 p4, exists r, form_factor f imode p1 p2 p3 p4 = Ret r
  /\ r = msqrd_current f imode (vscale (/ 1000) p1) (vscale (/ 1000) p2) (vscale (/ 1000) p3) (vscale (/ 1000) p4).

(** Refuted for every fit, both modes and every event: the energy overwrites the second momentum and the first
    scalar product with it raises IndexError. *)
Theorem four_pi_form_factor_refuted : forall (f : fit) (imode : nat), (imode <= 1)%nat ->
  ~ form_factor_is_current f imode
  /\ forall p1 p2 p3 p4, form_factor f imode p1 p2 p3 p4 = Raise IndexError.
Proof.
  intros f m Hm.
  assert (A : forall p1 p2 p3 p4, form_factor f m p1 p2 p3 p4 = Raise IndexError).
  { intros. destruct m as [|[|m]]; [reflexivity|reflexivity|lia]. }
  split; [|exact A]. intros K. destruct (K up up up up) as (r & E & _). rewrite A in E. discriminate.
Qed.
Print Assumptions four_pi_form_factor_refuted.
Example four_pi_form_factor_refuted_ex : form_factor default_fit 1 up side down back = Raise IndexError.
Proof. now apply four_pi_form_factor_refuted. Qed.

(** * The propagators *)

(** Momentum of each of the two charged pions into which a state of squared mass [s] decays. *)
Definition pion_momentum (s : R) : R := sqrt (s / 4 - MPI_GEV ^ 2).
(** [z] is the propagator [m^2 / (m^2 - s - i m w)]. *)
Definition propagates (z : cplx) (s m w : R) : Prop := cmul z (m ^ 2 - s, - (m * w)) = (m ^ 2, 0).

Lemma bw_propagates s m w : m <> 0 -> (m ^ 2 <> s \/ w <> 0) -> propagates (breit_wigner s m w) s m w.
Proof.
  intros Hm H. unfold propagates, breit_wigner, cdiv.
  assert (D : 0 < cabs2 (m ^ 2 - s, - (m * w))).
  { unfold cabs2. cbn [fst snd]. pose proof (pow2_ge_0 (m ^ 2 - s)). pose proof (pow2_ge_0 (- (m * w))).
    destruct H as [H|H].
    - assert (0 < (m ^ 2 - s) ^ 2) by (apply sq_pos; lra). lra.
    - assert (0 < (- (m * w)) ^ 2) by (apply sq_pos; apply Ropp_neq_0_compat; now apply Rmult_integral_contrapositive). lra. }
  unfold cabs2, cconj, cmul, cscale in *. cbn [fst snd] in *.
  f_equal; field; lra.
Qed.
Lemma bw_pole m w : m <> 0 -> w <> 0 -> breit_wigner (m ^ 2) m w = (0, m / w).
Proof.
  intros Hm Hw. unfold breit_wigner, cdiv, cabs2, cmul, cconj, cscale. cbn [fst snd]. replace (m ^ 2 - m ^ 2) with 0 by ring.
  assert (D : 0 ^ 2 + (- (m * w)) ^ 2 = m ^ 2 * w ^ 2) by ring. rewrite D. f_equal; field; split; assumption.
Qed.
Lemma mpi_pos : 0 < MPI_GEV.
Proof. unfold MPI_GEV. lra. Qed.

(** The rho propagator: above the threshold for two charged pions its width is the width at the pole times the
    cube of the ratio of pion momenta times [m / sqrt s]; at the pole it is [i m / w]; at or below the
    threshold it is real. *)
Theorem four_pi_rho_propagator : forall m w, 2 * MPI_GEV < m -> 0 < w ->
  (forall s, 4 * MPI_GEV ^ 2 < s ->
     propagates (breit_wigner3 s m w) s m (w * (pion_momentum s / pion_momentum (m ^ 2)) ^ 3 * (m / sqrt s)))
  /\ breit_wigner3 (m ^ 2) m w = (0, m / w)
  /\ (forall s, 0 < s <= 4 * MPI_GEV ^ 2 -> breit_wigner3 s m w = (m ^ 2 / (m ^ 2 - s), 0)).
Proof.
  intros m w Hm Hw. pose proof mpi_pos as P. set (mp := MPI_GEV) in *.
  assert (M0 : 0 < m) by lra. assert (M2 : 4 * mp ^ 2 < m ^ 2) by nra.
  assert (Run : forall s, 4 * mp ^ 2 < s ->
    exists g, 0 < g /\ g = (pion_momentum s / pion_momentum (m ^ 2)) ^ 3 * (m / sqrt s) /\ breit_wigner3 s m w = breit_wigner s m (w * g)).
  { intros s Hs. assert (S0 : 0 < s) by nra.
    set (x := m ^ 2 / s * ((s - 4 * mp ^ 2) / (m ^ 2 - 4 * mp ^ 2)) ^ 3).
    assert (R0 : 0 < (s - 4 * mp ^ 2) / (m ^ 2 - 4 * mp ^ 2)) by (apply Rdiv_lt_0_compat; lra).
    assert (X0 : 0 < x).
    { unfold x. apply Rmult_lt_0_compat; [apply Rdiv_lt_0_compat; [nra|lra]|now apply pow_lt]. }
    assert (K0 : 0 < pion_momentum (m ^ 2)) by (apply sqrt_lt_R0; fold mp; lra).
    assert (K1 : 0 < pion_momentum s) by (apply sqrt_lt_R0; fold mp; lra).
    assert (Q0 : 0 < sqrt s) by now apply sqrt_lt_R0.
    exists (sqrt x). split; [now apply sqrt_lt_R0|]. split.
    - apply Rsqr_inj.
      + apply sqrt_pos.
      + apply Rmult_le_pos; [apply pow_le|]; left; apply Rdiv_lt_0_compat; lra.
      + rewrite Rsqr_sqrt by lra. unfold x, Rsqr.
        assert (A : pion_momentum s * pion_momentum s = s / 4 - mp ^ 2) by (apply sqrt_sqrt; fold mp; lra).
        assert (B : pion_momentum (m ^ 2) * pion_momentum (m ^ 2) = m ^ 2 / 4 - mp ^ 2) by (apply sqrt_sqrt; fold mp; lra).
        assert (C : sqrt s * sqrt s = s) by (apply sqrt_sqrt; lra).
        set (k := pion_momentum s) in *. set (k0 := pion_momentum (m ^ 2)) in *. set (r := sqrt s) in *. clearbody k k0 r.
        replace (s - 4 * mp ^ 2) with (4 * (k * k)) by lra. replace (m ^ 2 - 4 * mp ^ 2) with (4 * (k0 * k0)) by lra.
        replace (m ^ 2 / s) with (m ^ 2 / (r * r)) by now rewrite C. field. split; lra.
    - unfold breit_wigner3. fold mp. cbv zeta. fold x. unfold clip_pos. rewrite Rmax_left by lra.
      destruct (Rlt_dec 0 x) as [_|N]; [|contradiction]. rewrite Rabs_pos_eq by lra. now rewrite Rmult_1_l. }
  split; [|split].
  - intros s Hs. destruct (Run s Hs) as (g & G0 & G & ->). rewrite Rmult_assoc, <- G. apply bw_propagates; [lra|right; nra].
  - destruct (Run (m ^ 2) M2) as (g & G0 & G & ->).
    assert (K0 : 0 < pion_momentum (m ^ 2)) by (apply sqrt_lt_R0; fold mp; lra).
    assert (E : g = 1).
    { rewrite G. rewrite (sqrt_pow2 m) by lra. field. split; lra. }
    rewrite E, Rmult_1_r. apply bw_pole; lra.
  - intros s [S0 S1]. unfold breit_wigner3. fold mp. cbv zeta.
    assert (X : clip_pos (m ^ 2 / s * ((s - 4 * mp ^ 2) / (m ^ 2 - 4 * mp ^ 2)) ^ 3) = 0).
    { unfold clip_pos. apply Rmax_right.
      assert (0 < m ^ 2 / s) by (apply Rdiv_lt_0_compat; [nra|lra]).
      assert (N : 0 <= (4 * mp ^ 2 - s) / (m ^ 2 - 4 * mp ^ 2)) by (apply Rmult_le_pos; [lra|left; apply Rinv_0_lt_compat; lra]).
      replace ((s - 4 * mp ^ 2) / (m ^ 2 - 4 * mp ^ 2)) with (- ((4 * mp ^ 2 - s) / (m ^ 2 - 4 * mp ^ 2))) by (field; lra).
      set (y := (4 * mp ^ 2 - s) / (m ^ 2 - 4 * mp ^ 2)) in *. clearbody y.
      assert (0 <= y ^ 3) by now apply pow_le. replace ((- y) ^ 3) with (- y ^ 3) by ring. nra. }
    rewrite X, Rabs_R0, sqrt_0, Rmult_0_r. destruct (Rlt_dec 0 0) as [N|_]; [lra|].
    unfold breit_wigner, cdiv, cabs2, cmul, cconj, cscale. cbn [fst snd]. f_equal; field; nra.
Qed.
Print Assumptions four_pi_rho_propagator.
Example four_pi_rho_propagator_ex : 2 * MPI_GEV < MRHO_GEV /\ 0 < GRHO_GEV /\ breit_wigner3 (MRHO_GEV ^ 2) MRHO_GEV GRHO_GEV = (0, MRHO_GEV / GRHO_GEV).
Proof.
  assert (A : 2 * MPI_GEV < MRHO_GEV) by (unfold MPI_GEV, MRHO_GEV; lra).
  assert (B : 0 < GRHO_GEV) by (unfold GRHO_GEV; lra).
  split; [exact A|]. split; [exact B|]. now destruct (four_pi_rho_propagator _ _ A B) as (_ & E & _).
Qed.

(** [z] tends to [l] as its argument decreases to zero. *)
Definition tends_at_zero (z : R -> cplx) (l : cplx) : Prop :=
  forall eps, 0 < eps -> exists d, 0 < d /\ forall s, 0 < s < d -> cabs2 (fst (z s) - fst l, snd (z s) - snd l) < eps.
Lemma real_pole m eps : 0 < m -> 0 < eps -> exists d, 0 < d /\ forall s, 0 < s < d -> 0 < m ^ 2 / (m ^ 2 - s) - 1 < eps.
Proof.
  intros Hm He. assert (M2 : 0 < m ^ 2) by now apply pow_lt.
  exists (m ^ 2 * Rmin (1 / 2) (eps / 4)). split.
  - apply Rmult_lt_0_compat; [exact M2|]. apply Rmin_glb_lt; lra.
  - intros s [S0 S1]. assert (A : Rmin (1 / 2) (eps / 4) <= 1 / 2) by apply Rmin_l. assert (B : Rmin (1 / 2) (eps / 4) <= eps / 4) by apply Rmin_r.
    set (r := Rmin (1 / 2) (eps / 4)) in *. clearbody r.
    assert (S2 : s < m ^ 2 * (1 / 2)) by nra. assert (S3 : s < m ^ 2 * (eps / 4)) by nra.
    replace (m ^ 2 / (m ^ 2 - s) - 1) with (s / (m ^ 2 - s)) by (field; lra).
    assert (D : 0 < m ^ 2 - s) by lra. split; [now apply Rdiv_lt_0_compat|].
    apply Rmult_lt_reg_r with (m ^ 2 - s); [exact D|]. unfold Rdiv. rewrite Rmult_assoc, Rinv_l by lra. nra.
Qed.
Definition heavy_fit (f : fit) : Prop :=
  2 * MPI_GEV < mass_rho_bar_1 f /\ 2 * MPI_GEV < mass_rho_bar_2 f /\ 2 * MPI_GEV < mass_rho_bar_3 f
  /\ 0 < width_rho_bar_1 f /\ 0 < width_rho_bar_2 f /\ 0 < width_rho_bar_3 f.
(** a weighted mean of poles above the two-pion threshold *)
Lemma mean_tends (l : list (R * (R * R))) :
  Forall (fun bmw => 2 * MPI_GEV < fst (snd bmw) /\ 0 < snd (snd bmw)) l ->
  forall eps, 0 < eps -> exists d, 0 < d /\ forall s, 0 < s < d ->
    Rabs (fold_right (fun bmw acc => fst bmw * fst (breit_wigner3 s (fst (snd bmw)) (snd (snd bmw))) + acc) 0 l - fold_right (fun bmw acc => fst bmw + acc) 0 l) < eps
    /\ fold_right (fun bmw acc => fst bmw * snd (breit_wigner3 s (fst (snd bmw)) (snd (snd bmw))) + acc) 0 l = 0.
Proof.
  induction 1 as [|[b [m w]] l [Hm Hw] _ IH]; intros eps He.
  - exists 1. split; [lra|]. intros s _. cbn. rewrite Rminus_0_r, Rabs_R0. split; [exact He|reflexivity].
  - cbn [fst snd] in *. destruct (IH (eps / 2) ltac:(lra)) as (d1 & D1 & H1).
    pose proof mpi_pos as P.
    destruct (real_pole m (eps / (2 * (Rabs b + 1))) ltac:(lra)) as (d2 & D2 & H2).
    { apply Rdiv_lt_0_compat; [lra|]. pose proof (Rabs_pos b). lra. }
    destruct (four_pi_rho_propagator m w Hm Hw) as (_ & _ & Low).
    exists (Rmin (Rmin d1 d2) (4 * MPI_GEV ^ 2)). split.
    { repeat apply Rmin_glb_lt; try assumption. nra. }
    intros s [S0 S1].
    assert (S2 : s < d1 /\ s < d2 /\ s <= 4 * MPI_GEV ^ 2).
    { pose proof (Rmin_l (Rmin d1 d2) (4 * MPI_GEV ^ 2)). pose proof (Rmin_r (Rmin d1 d2) (4 * MPI_GEV ^ 2)).
      pose proof (Rmin_l d1 d2). pose proof (Rmin_r d1 d2). lra. }
    destruct (H1 s ltac:(lra)) as [A Z]. pose proof (H2 s ltac:(lra)) as B. cbn [fold_right fst snd].
    rewrite (Low s ltac:(lra)). cbn [fst snd]. rewrite Z. split; [|ring].
    set (x := m ^ 2 / (m ^ 2 - s)) in *. clearbody x.
    set (X := fold_right (fun bmw acc => fst bmw * fst (breit_wigner3 s (fst (snd bmw)) (snd (snd bmw))) + acc) 0 l) in *.
    set (Y := fold_right (fun (bmw : R * (R * R)) acc => fst bmw + acc) 0 l) in *. clearbody X Y.
    replace (b * x + X - (b + Y)) with (b * (x - 1) + (X - Y)) by ring.
    eapply Rle_lt_trans; [apply Rabs_triang|]. rewrite Rabs_mult, (Rabs_pos_eq (x - 1)) by lra.
    assert (Rabs b * (x - 1) <= eps / 2).
    { pose proof (Rabs_pos b). apply Rle_trans with ((Rabs b + 1) * (eps / (2 * (Rabs b + 1)))); [|right; field; lra]. nra. }
    lra.
Qed.
Lemma scaled_small x y c eps : c <> 0 -> 0 < eps -> Rabs (x - c) < Rabs c * (if Rlt_dec eps 1 then eps else 1) -> y = 0 ->
  cabs2 (/ c * x - 1, / c * y - 0) < eps.
Proof.
  intros Hc He H ->. unfold cabs2. cbn [fst snd]. replace (/ c * x - 1) with (/ c * (x - c)) by (field; exact Hc).
  set (e := if Rlt_dec eps 1 then eps else 1) in *.
  assert (E : 0 < e <= 1 /\ e <= eps) by (unfold e; destruct (Rlt_dec eps 1); lra). clearbody e.
  assert (A : Rabs (/ c * (x - c)) < e).
  { rewrite Rabs_mult, Rabs_inv. apply Rabs_pos_lt in Hc. apply Rmult_lt_reg_l with (Rabs c); [exact Hc|].
    rewrite <- Rmult_assoc, Rinv_r, Rmult_1_l by lra. exact H. }
  rewrite <- (pow2_abs (/ c * (x - c))). set (u := Rabs (/ c * (x - c))) in *. assert (U : 0 <= u) by apply Rabs_pos. clearbody u.
  replace (u ^ 2 + (/ c * 0 - 0) ^ 2) with (u * u) by ring. nra.
Qed.

(** The combinations of rho resonances are normalised to one at zero momentum, whatever the weights, as long as
    their sum with the leading one is not zero. *)
Theorem four_pi_rho_combinations_normalised : forall f, heavy_fit f ->
  (forall b1 b2 b3, 1 + b1 + b2 + b3 <> 0 -> tends_at_zero (fun s => propagator_rho_f f s b1 b2 b3) (1, 0))
  /\ (1 + beta_b_rho f <> 0 -> tends_at_zero (propagator_rho_b f) (1, 0))
  /\ (1 + beta_t_rho1 f + beta_t_rho2 f <> 0 -> tends_at_zero (propagator_rho_t f) (1, 0)).
Proof.
  intros f (M1 & M2 & M3 & W1 & W2 & W3).
  assert (R0 : 2 * MPI_GEV < MRHO_GEV /\ 0 < GRHO_GEV) by (unfold MPI_GEV, MRHO_GEV, GRHO_GEV; lra).
  assert (R1 : 2 * MPI_GEV < M_RHO1 /\ 0 < G_RHO1) by (unfold MPI_GEV, M_RHO1, G_RHO1; lra).
  assert (R2 : 2 * MPI_GEV < M_RHO2 /\ 0 < G_RHO2) by (unfold MPI_GEV, M_RHO2, G_RHO2; lra).
  assert (Pos : forall c eps, c <> 0 -> 0 < eps -> 0 < Rabs c * (if Rlt_dec eps 1 then eps else 1)).
  { intros c eps Hc He. apply Rmult_lt_0_compat; [now apply Rabs_pos_lt|]. destruct (Rlt_dec eps 1); lra. }
  split; [|split].
  - intros b1 b2 b3 Hc eps He.
    destruct (mean_tends [(1, (MRHO_GEV, GRHO_GEV)); (b1, (mass_rho_bar_1 f, width_rho_bar_1 f)); (b2, (mass_rho_bar_2 f, width_rho_bar_2 f)); (b3, (mass_rho_bar_3 f, width_rho_bar_3 f))]) with (eps := Rabs (1 + b1 + b2 + b3) * (if Rlt_dec eps 1 then eps else 1)) as (d & D & H).
    + repeat constructor; cbn [fst snd]; tauto.
    + now apply Pos.
    + exists d. split; [exact D|]. intros s Hs. destruct (H s Hs) as [A B]. cbn [fold_right fst snd] in A, B.
      unfold propagator_rho_f. cbv zeta. unfold cscale, cadd. cbn [fst snd].
      apply scaled_small; try assumption.
      * eapply Rle_lt_trans; [right|exact A]. f_equal. ring.
      * lra.
  - intros Hc eps He.
    destruct (mean_tends [(1, (MRHO_GEV, GRHO_GEV)); (beta_b_rho f, (M_RHO1, G_RHO1))]) with (eps := Rabs (1 + beta_b_rho f) * (if Rlt_dec eps 1 then eps else 1)) as (d & D & H).
    + repeat constructor; cbn [fst snd]; tauto.
    + now apply Pos.
    + exists d. split; [exact D|]. intros s Hs. destruct (H s Hs) as [A B]. cbn [fold_right fst snd] in A, B.
      unfold propagator_rho_b. cbv zeta. unfold cscale, cadd. cbn [fst snd].
      apply scaled_small; try assumption.
      * eapply Rle_lt_trans; [right|exact A]. f_equal. ring.
      * lra.
  - intros Hc eps He.
    destruct (mean_tends [(1, (MRHO_GEV, GRHO_GEV)); (beta_t_rho1 f, (M_RHO1, G_RHO1)); (beta_t_rho2 f, (M_RHO2, G_RHO2))]) with (eps := Rabs (1 + beta_t_rho1 f + beta_t_rho2 f) * (if Rlt_dec eps 1 then eps else 1)) as (d & D & H).
    + repeat constructor; cbn [fst snd]; tauto.
    + now apply Pos.
    + exists d. split; [exact D|]. intros s Hs. destruct (H s Hs) as [A B]. cbn [fold_right fst snd] in A, B.
      unfold propagator_rho_t. cbv zeta. unfold cscale, cadd. cbn [fst snd].
      apply scaled_small; try assumption.
      * eapply Rle_lt_trans; [right|exact A]. f_equal. ring.
      * lra.
Qed.
Print Assumptions four_pi_rho_combinations_normalised.
Example four_pi_rho_combinations_normalised_ex : heavy_fit default_fit
  /\ 1 + beta_a1_1 default_fit + beta_a1_2 default_fit + beta_a1_3 default_fit <> 0
  /\ 1 + beta_b_rho default_fit <> 0 /\ 1 + beta_t_rho1 default_fit + beta_t_rho2 default_fit <> 0.
Proof.
  unfold heavy_fit, default_fit, make_fit, t0, t1, t2, MPI_GEV.
  cbn [mass_rho_bar_1 mass_rho_bar_2 mass_rho_bar_3 width_rho_bar_1 width_rho_bar_2 width_rho_bar_3 beta_a1_1 beta_a1_2 beta_a1_3 beta_b_rho beta_t_rho1 beta_t_rho2 fst snd].
  repeat split; lra.
Qed.

(** At their poles the a1, f0 and omega propagators are [i m / w] with the tabulated widths. *)
Theorem four_pi_poles :
  propagator_a1 (M_A1 ^ 2) = (0, M_A1 / G_A1) /\ propagator_f0 (M_F0 ^ 2) = (0, M_F0 / G_F0) /\ propagator_omega (M_OMEGA ^ 2) = (0, M_OMEGA / G_OMEGA).
Proof.
  assert (Pole : forall m w w', m <> 0 -> w <> 0 -> w' = w -> breit_wigner (m ^ 2) m w' = (0, m / w)).
  { intros m w w' Hm Hw ->. now apply bw_pole. }
  split; [|split].
  - apply Pole; [unfold M_A1; lra|unfold G_A1; lra|].
    assert (G : a1_g (M_A1 ^ 2) <> 0).
    { unfold a1_g, M_A1, MPI_GEV. destruct (Rlt_dec _ _) as [H|N]; lra. }
    field. exact G.
  - apply Pole; [unfold M_F0; lra|unfold G_F0; lra|].
    replace (M_F0 ^ 2 / M_F0 ^ 2 * (M_F0 ^ 2 - 4 * MPI_GEV ^ 2) / (M_F0 ^ 2 - 4 * MPI_GEV ^ 2)) with 1 by (field; unfold M_F0, MPI_GEV; lra).
    unfold clip_pos. rewrite Rmax_left, sqrt_1 by lra. ring.
  - apply Pole; [unfold M_OMEGA; lra|unfold G_OMEGA; lra|reflexivity].
Qed.
Print Assumptions four_pi_poles.

(** * The running width of the a1 *)

Definition a1_width (s : R) : R := G_A1 * a1_g s / a1_g (M_A1 ^ 2).
(** Expected of a running width: not negative above the threshold for three pions, and continuous there. *)
Definition width_nonneg (w : R -> R) (s0 : R) : Prop := forall s, s0 <= s -> 0 <= w s.
Definition width_continuous (w : R -> R) (s0 : R) : Prop :=
  forall s, s0 < s -> forall eps, 0 < eps -> exists d, 0 < d /\ forall x, Rabs (x - s) < d -> Rabs (w x - w s) < eps.

(** Refuted: the squared mass of two charged pions and a neutral one can be below nine squared charged masses,
    where the width is negative; and the two parametrisations differ by at least 1 MeV, half a per cent of the
    width at the pole, where the code switches between them.  Above nine squared charged masses the width is positive. *)
Theorem four_pi_a1_width_refuted :
  ~ width_nonneg a1_width ((2 * MPI_GEV + MPI0_GEV) ^ 2)
  /\ ~ width_continuous a1_width ((2 * MPI_GEV + MPI0_GEV) ^ 2)
  /\ forall s, 9 * MPI_GEV ^ 2 < s -> 0 < a1_width s.
Proof.
  assert (G : 0 < a1_g (M_A1 ^ 2) <= 8 /\ 6 <= a1_g (M_A1 ^ 2)).
  { unfold a1_g, M_A1, MPI_GEV. destruct (Rlt_dec _ _) as [H|N]; lra. }
  assert (SW : forall s, a1_width s = G_A1 / a1_g (M_A1 ^ 2) * a1_g s) by (intros; unfold a1_width; field; lra).
  assert (C : 0 < G_A1 / a1_g (M_A1 ^ 2)) by (apply Rdiv_lt_0_compat; [unfold G_A1; lra|lra]).
  split; [|split].
  - intros H. specialize (H ((2 * MPI_GEV + MPI0_GEV) ^ 2) (Rle_refl _)). rewrite SW in H.
    assert (a1_g ((2 * MPI_GEV + MPI0_GEV) ^ 2) < 0).
    { unfold a1_g, MPI_GEV, MPI0_GEV. destruct (Rlt_dec _ _) as [K|_]; [exfalso; lra|]. lra. }
    set (c := G_A1 / a1_g (M_A1 ^ 2)) in *. nra.
  - intros H. set (s := 838968432668 / 1000000000000).
    destruct (H s) with (eps := 1 / 1000) as (d & D & K).
    { unfold s, MPI_GEV, MPI0_GEV. lra. } { lra. }
    set (x := s + Rmin (d / 2) (1 / 10000)).
    assert (X : 0 < x - s <= 1 / 10000 /\ x - s < d).
    { unfold x. pose proof (Rmin_l (d / 2) (1 / 10000)). pose proof (Rmin_r (d / 2) (1 / 10000)).
      assert (0 < Rmin (d / 2) (1 / 10000)) by (apply Rmin_glb_lt; lra). lra. }
    clearbody x. specialize (K x). rewrite Rabs_pos_eq in K by lra. specialize (K ltac:(lra)). rewrite !SW in K.
    assert (A : a1_g s >= 16 / 10).
    { unfold a1_g. destruct (Rlt_dec _ _) as [N|_]; [exfalso; unfold s in N; lra|]. unfold s, MPI_GEV. lra. }
    assert (B : a1_g x <= 156 / 100).
    { unfold a1_g. destruct (Rlt_dec _ _) as [_|N]; [|exfalso; unfold s in *; lra].
      assert (I : / x >= 1 / 0.8391).
      { apply Rle_ge. unfold Rdiv. rewrite Rmult_1_l. apply Rinv_le_contravar; unfold s in *; lra. }
      assert (J : / x <= 1 / 0.8389).
      { unfold Rdiv. rewrite Rmult_1_l. apply Rinv_le_contravar; unfold s in *; lra. }
      assert (X1 : x <= 0.8391) by (unfold s in *; lra).
      replace (65 / 100 / x ^ 2) with (65 / 100 * (/ x * / x)) by (field; unfold s in *; lra).
      unfold Rdiv in *. set (y := / x) in *. clearbody y.
      assert (Y : y * y <= (1 * / 0.8389) * (1 * / 0.8389)) by (apply Rmult_le_compat; lra).
      lra. }
    assert (C' : 1 / 40 <= G_A1 / a1_g (M_A1 ^ 2)).
    { apply Rmult_le_reg_r with (a1_g (M_A1 ^ 2)); [lra|]. unfold Rdiv at 2. rewrite Rmult_assoc, Rinv_l by lra. unfold G_A1. lra. }
    set (c := G_A1 / a1_g (M_A1 ^ 2)) in *. rewrite <- Rmult_minus_distr_l, Rabs_mult, (Rabs_pos_eq c), Rabs_left in K by lra. nra.
  - intros s Hs. rewrite SW. apply Rmult_lt_0_compat; [exact C|]. unfold a1_g. cbv zeta.
    destruct (Rlt_dec _ _) as [L|_].
    + assert (I : / s < 1 / 0.8389).
      { unfold Rdiv. rewrite Rmult_1_l. apply Rinv_lt_contravar; lra. }
      assert (S0 : 0 < / s) by (apply Rinv_0_lt_compat; lra).
      replace (65 / 100 / s ^ 2) with (65 / 100 * (/ s * / s)) by (field; lra).
      assert (0 < / s * / s) by nra. unfold Rdiv in *. set (y := / s) in *. clearbody y. lra.
    + set (y := s - 9 * MPI_GEV ^ 2) in *. assert (Y : 0 < y) by (unfold y; lra). clearbody y.
      assert (0 < y ^ 3) by now apply pow_lt. assert (0 < 1 + - (33 / 10) * y + 58 / 10 * y ^ 2) by nra.
      apply Rmult_lt_0_compat; [lra|assumption].
Qed.
Print Assumptions four_pi_a1_width_refuted.
