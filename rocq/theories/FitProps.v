(** Theorems about the resonance fits of the vector form factors (FitModel), with examples. *)
From Coq Require Import Reals Bool List ZArith Lra Lia Psatz.
From Verif Require Import PyBase KinModel VffModel VffProofs RareModel FourPiModel FitModel FitProofs.
Import ListNotations.
Local Open Scope R_scope.

(** The couplings of a photon and of a vector coupled to baryon number *)
Definition photon : quarks := Quarks (2 / 3) (-1 / 3) (-1 / 3).
Definition baryonic : quarks := Quarks (1 / 3) (1 / 3) (1 / 3).

(** * C124: flavour structure *)
(** Every form factor is linear in the couplings to quarks. *)
Theorem form_factors_linear :
  (forall f q s ch, linear (form f q s ch))
  /\ (forall neutral first mk rho omega phi s, linear (kk_ff neutral first mk rho omega phi s))
  /\ (forall fpi a0 ar aw af rho omega phi alpha q, linear (pi_gamma_ff fpi a0 ar aw af rho omega phi alpha q))
  /\ (forall fit s, linear (eta_gamma_ff fit s))
  /\ (forall f q2 s t u, linear (pi3_core f q2 s t u))
  /\ (forall g iso0 iso1 m1 m2 m3 q s t,
        linear (pi0_k0_k0_ff g iso0 iso1 m1 m3 q s t) /\ linear (pi0_k_k_ff g iso0 iso1 m2 m3 q s t)
        /\ linear (pi_k_k0_ff g iso0 iso1 m1 m2 m3 q s t)).
Proof.
  repeat split; intros.
  - apply form_linear.
  - apply kk_linear.
  - apply pi_gamma_linear.
  - apply eta_gamma_linear.
  - apply pi3_linear.
  - apply (pi_kk_linear g iso0 iso1 m1 m2 m3 q s t).
  - apply (pi_kk_linear g iso0 iso1 m1 m2 m3 q s t).
  - apply (pi_kk_linear g iso0 iso1 m1 m2 m3 q s t).
Qed.
Print Assumptions form_factors_linear.
Example eta_phi_doubles : eta_phi_ff [Reso 1 0 1 0] 0 (Quarks 0 0 (-1)) = (3, 0)
  /\ eta_phi_ff [Reso 1 0 1 0] 0 (qlin 2 0 (Quarks 0 0 (-1)) (Quarks 0 0 0)) = (6, 0).
Proof.
  unfold eta_phi_ff, r_coeff, cis, breit_wigner_fw, cdiv, csum, qlin. cbn [map fold_right r_amp r_phase r_mass r_width gu gd gs].
  rewrite cos_0, sin_0. unfold cabs2, cconj, cadd, cmul, cscale. cbn [fst snd]. split; apply cext; cbn [fst snd]; field.
Qed.

(** A final state of even G parity sees the difference of the couplings to up and down quarks only, one
    of odd G parity their sum and the coupling to strange quarks only. *)
Theorem g_parity_selection : forall f q s ch c c',
  (g_parity (content ch) = true -> gu c - gd c = gu c' - gd c' -> form f q s ch c = form f q s ch c')
  /\ (g_parity (content ch) = false -> gu c + gd c = gu c' + gd c' -> gs c = gs c' -> form f q s ch c = form f q s ch c').
Proof. intros. split; intros; [apply isovector_only|apply isoscalar_only]; assumption. Qed.
Print Assumptions g_parity_selection.
Example states_by_g_parity :
  map (fun ch => g_parity (content ch)) [Ch_PiPi; Ch_PiOmega; Ch_PiPhi; Ch_EtaOmega; Ch_EtaPhi; Ch_PiPiEta; Ch_PiPiEtaPrime; Ch_PiPiOmega]
    = [true; true; true; false; false; true; true; false].
Proof. reflexivity. Qed.

(** A vector that couples alike to up and down quarks makes no state of even G parity; one that couples
    oppositely to them and not to strange quarks makes none of odd G parity. *)
Theorem wrong_g_parity_vanishes : forall f q s ch c,
  (g_parity (content ch) = true -> gu c = gd c -> form f q s ch c = (0, 0))
  /\ (g_parity (content ch) = false -> gu c = - gd c -> gs c = 0 -> form f q s ch c = (0, 0)).
Proof.
  intros f q s ch c. rewrite <- (linear_at_zero (form f q s ch)) by apply form_linear. split.
  - intros H E. apply isovector_only; [exact H|]. cbn [gu gd]. lra.
  - intros H E Z. apply isoscalar_only; [exact H| |]; cbn [gu gd gs]; lra.
Qed.
Print Assumptions wrong_g_parity_vanishes.
Example baryonic_makes_no_pions : forall f q s, form f q s Ch_PiPi baryonic = (0, 0).
Proof. intros. destruct (wrong_g_parity_vanishes f q s Ch_PiPi baryonic) as [H _]. now apply H. Qed.

(** * C125: two neutral pions *)
(** A vector cannot decay to two neutral pions, which are even under charge conjugation.  The form factor for
    them is sqrt 2 times the isovector sum of rho propagators, whatever the fit. *)
Theorem neutral_pions_follow_charged : forall rho mo wo ow s c,
  cabs2 (pi_pi_ff true rho mo wo ow s c) = 2 * cabs2 (cscale (gu c - gd c) (rho_sum rho s))
  /\ (cadd (1, 0) ow <> (0, 0) -> breit_wigner_fw s mo wo = (1, 0) ->
      cabs2 (pi_pi_ff true rho mo wo ow s c) = 2 * cabs2 (pi_pi_ff false rho mo wo ow s c)).
Proof.
  intros. assert (E : cabs2 (pi_pi_ff true rho mo wo ow s c) = 2 * cabs2 (cscale (gu c - gd c) (rho_sum rho s))).
  { rewrite neutral_pions, !cabs2_scale. replace ((sqrt 2 * (gu c - gd c)) ^ 2) with (sqrt 2 ^ 2 * (gu c - gd c) ^ 2) by ring.
    rewrite pow2_sqrt by lra. ring. }
  split; [exact E|]. intros Hw Hb. rewrite E, charged_pions by assumption. reflexivity.
Qed.
Print Assumptions neutral_pions_follow_charged.
Example mixing_trivial : cadd (1, 0) (0.00187, 0) <> (0, 0) /\ breit_wigner_fw 0 0.7824 0 = (1, 0).
Proof.
  split; [intros H; apply (f_equal fst) in H; unfold cadd in H; cbn [fst] in H; lra|].
  unfold breit_wigner_fw. replace (0.7824 ^ 2 - 0) with (0.7824 ^ 2) by ring. replace (- (0.7824 * 0)) with 0 by ring.
  apply cdiv_same. unfold cabs2. cbn [fst snd]. lra.
Qed.
(** The witness is the rho of the fit alone, at its mass, for photon couplings. *)
Theorem no_two_neutral_pions_refuted : exists rho mo wo ow s c,
  (2 * MPI0_GEV) ^ 2 < s /\ pi_pi_ff true rho mo wo ow s c <> (0, 0).
Proof.
  exists [CReso 0.77337 0.1471 (1.0876, 0)], 0.7824, 0.00833, (0.00187, 0), (0.77337 ^ 2), photon.
  split; [unfold MPI0_GEV; lra|]. intros H. rewrite neutral_pions in H. apply cabs2_zero in H.
  rewrite cabs2_scale in H. unfold rho_sum in H. cbn [map c_coup c_mass c_width] in H.
  rewrite csum_cons in H. unfold csum in H. cbn [fold_right] in H. rewrite cadd_0, cabs2_mul in H.
  assert (N : 0 < gs_num 0.77337 0.1471 MPI_GEV MPI_GEV) by (apply gs_num_positive; unfold MPI_GEV; lra).
  assert (P : 0 < cabs2 (breit_wigner_gs (0.77337 ^ 2) 0.77337 0.1471 MPI_GEV MPI_GEV)).
  { unfold breit_wigner_gs.
    assert (D : cabs2 (gs_den (0.77337 ^ 2) 0.77337 0.1471 MPI_GEV MPI_GEV) <> 0).
    { intros E. apply cabs2_zero in E. apply (f_equal snd) in E. unfold gs_den in E. cbn [snd] in E.
      unfold gamma_p in E.
      assert (B : 0 < beta2 (0.77337 ^ 2) MPI_GEV MPI_GEV).
      { unfold beta2. eapply Rlt_le_trans; [|apply Rmax_l]. apply Rmult_lt_0_compat; unfold MPI_GEV; lra. }
      replace (beta2 (0.77337 ^ 2) MPI_GEV MPI_GEV / beta2 (0.77337 ^ 2) MPI_GEV MPI_GEV) with 1 in E
        by (generalize dependent (beta2 (0.77337 ^ 2) MPI_GEV MPI_GEV); intros b HB; intros; field; lra).
      rewrite Rmax_left in E by lra. rewrite sqrt_1 in E.
      assert (0 < sqrt (0.77337 ^ 2)) by (apply sqrt_lt_R0; lra). nra. }
    rewrite cabs2_div by exact D. apply Rdiv_lt_0_compat.
    - unfold cabs2. cbn [fst snd]. nra.
    - destruct (Rle_lt_or_eq_dec 0 _ (cabs2_nonneg (gs_den (0.77337 ^ 2) 0.77337 0.1471 MPI_GEV MPI_GEV))) as [h|h]; [exact h|].
      elim D. now symmetry. }
  assert (S2 : sqrt 2 ^ 2 = 2) by (apply pow2_sqrt; lra).
  replace ((sqrt 2 * (gu photon - gd photon)) ^ 2) with (sqrt 2 ^ 2 * (gu photon - gd photon) ^ 2) in H by ring.
  rewrite S2 in H. unfold photon in H. cbn [gu gd] in H. unfold cabs2 at 1 in H. cbn [fst snd] in H. nra.
Qed.
Print Assumptions no_two_neutral_pions_refuted.

(** * C126: charges of the kaons *)
(** The couplings of each family add up to one, the fitted ones are kept, and the rescaling of the pion fit
    keeps their sum. *)
Theorem couplings_normalised :
  (forall wgt coup, (length wgt < length coup)%nat ->
     csum (kk_couplings wgt coup) = (1, 0)
     /\ forall n, (n < length wgt)%nat -> nth n (kk_couplings wgt coup) (0, 0) = nth n wgt (0, 0))
  /\ (forall wgt coup, (1 <= length wgt <= length coup)%nat -> csum (tl wgt) <> (0, 0) ->
     csum (pipi_couplings wgt coup) = csum coup).
Proof.
  split.
  - intros wgt coup H. split; [now apply kk_couplings_total|]. intros n Hn. now apply kk_couplings_first.
  - exact pipi_couplings_total.
Qed.
Print Assumptions couplings_normalised.
Example three_couplings : kk_couplings [(1 / 2, 1)] [(7, 0); (1, 0); (2, 0)] = [(1 / 2, 1); (- 3 / 2, -1); (2, 0)].
Proof.
  unfold kk_couplings, set_first, add_at, csub, copp, csum. cbn [length firstn skipn app fold_right].
  repeat f_equal; unfold cadd; cbn [fst snd]; apply cext; cbn [fst snd]; lra.
Qed.
(** At zero momentum, where every propagator is one (C98), the form factor of K+ is the charge of its
    quarks; that of K0 is too, unless the energy is the first of the array. *)
Theorem kaon_charges_partial : forall first c rho omega phi,
  csum rho = (1, 0) -> csum omega = (1, 0) -> csum phi = (1, 0) ->
  kk_sum false first c rho omega phi = (gu c - gs c, 0)
  /\ kk_sum true false c rho omega phi = (gd c - gs c, 0).
Proof.
  intros. rewrite !kk_unit by assumption. split; [reflexivity|]. f_equal. ring.
Qed.
Print Assumptions kaon_charges_partial.
Example photon_charges : kk_sum false true photon [(1, 0)] [(1, 0)] [(1, 0)] = (1, 0)
  /\ kk_sum true false photon [(1, 0)] [(1, 0)] [(1, 0)] = (0, 0).
Proof.
  assert (E : csum [(1, 0)] = (1, 0)) by (unfold csum; cbn [fold_right]; apply cadd_0).
  destruct (kaon_charges_partial true photon [(1, 0)] [(1, 0)] [(1, 0)] E E E) as [-> ->].
  unfold photon. cbn [gu gd gs]. split; apply cext; cbn [fst snd]; lra.
Qed.
(** A K0 at the first energy couples to photons at zero momentum. *)
Theorem neutral_kaon_charge_refuted : exists c rho omega phi,
  csum rho = (1, 0) /\ csum omega = (1, 0) /\ csum phi = (1, 0) /\ gd c = gs c
  /\ kk_sum true true c rho omega phi <> (gd c - gs c, 0).
Proof.
  assert (E : csum [(1, 0)] = (1, 0)) by (unfold csum; cbn [fold_right]; apply cadd_0).
  exists photon, [(1, 0)], [(1, 0)], [(1, 0)]. repeat split; try exact E.
  rewrite kk_unit by exact E. unfold photon. cbn [gu gd gs]. intros H. apply (f_equal fst) in H. cbn [fst] in H. lra.
Qed.
Print Assumptions neutral_kaon_charge_refuted.

(** * C127: the search for beta *)
(** [c_0] is 2 / sqrt(pi) times the ratio of gamma functions, at every argument. *)
Theorem c_0_is_gamma_ratio : forall r b, ratio_of_gammas r -> c_0 r b = 2 / sqrt PI * r b.
Proof. exact c_0_closed. Qed.
Print Assumptions c_0_is_gamma_ratio.
Example a_ratio : ratio_of_gammas some_ratio /\ some_ratio 1 = 0 /\ some_ratio 2 = sqrt PI / 2.
Proof. repeat split; [exact some_ratio_ok| |]; rewrite some_ratio_low by lra; lra. Qed.
(** When the search returns, some argument it visited solves the equation, and the value returned is that
    one or the centre of an interval around it. *)
Theorem find_beta_visits_solution : forall r c0 fuel b,
  find_beta r c0 fuel = Some (Ret b) ->
  exists m, Rabs (c_0 r m - c0) <= / 10 ^ 10
    /\ (b = m \/ exists lo hi, 1 <= lo < hi /\ lo <= m <= hi /\ b = (lo + hi) / 2).
Proof.
  intros r c0 fuel b H. unfold find_beta in H.
  destruct (find_beta_tested (c_0 r) c0 fuel 1 5 10 5 ltac:(lra) ltac:(lra) ltac:(lra) ltac:(lra) ltac:(left; reflexivity) b H) as (m & Hm & Hb).
  exists m. split; [exact Hm|exact Hb].
Qed.
Print Assumptions find_beta_visits_solution.
Example search_returns : find_beta some_ratio (3 / 2 - / 10 ^ 11) 2 = Some (Ret 2).
Proof. destruct a_ratio as (H & H1 & H2). now apply find_beta_wrong. Qed.
(** The value returned need not solve the equation, and a solution at a midpoint makes the search fail:
    for 3/2, which is c_0(3), it raises RuntimeError, and for 3/2 - 1e-11 it returns 2 although c_0(2) = 1. *)
Theorem find_beta_solves_refuted : forall r, ratio_of_gammas r -> r 1 = 0 -> r 2 = sqrt PI / 2 ->
  exists c0 c0' b, forall fuel,
    c_0 r 3 = c0 /\ find_beta r c0 (S (S fuel)) = Some (Raise RuntimeError)
    /\ Rabs (c_0 r 3 - c0') <= / 10 ^ 10 /\ find_beta r c0' (S (S fuel)) = Some (Ret b) /\ / 4 < Rabs (c_0 r b - c0').
Proof.
  intros r H H1 H2. exists (3 / 2), (3 / 2 - / 10 ^ 11), 2. intros fuel. split; [|split; [|split; [|split]]].
  - now apply c_0_at_3.
  - now apply find_beta_raises.
  - rewrite c_0_at_3 by assumption. rewrite Rabs_right; lra.
  - now apply find_beta_wrong.
  - rewrite c_0_at_2 by assumption. rewrite Rabs_left; lra.
Qed.
Print Assumptions find_beta_solves_refuted.

(** * C128: the couplings of the tower of resonances *)
(** The generator yields gamma(2 - beta + n) / n! for every function with the functional equation of the
    gamma function at the points used. *)
Theorem gamma_generator_values : forall g beta nmax n,
  (n < nmax)%nat ->
  (forall k, (k < n)%nat -> g (2 - beta + INR (S k)) = (2 - beta + INR k) * g (2 - beta + INR k)) ->
  length (gamma_generator g beta nmax) = nmax
  /\ nth n (gamma_generator g beta nmax) 0 = g (2 - beta + INR n) / INR (fact n).
Proof.
  intros g beta nmax n H G. split; [rewrite gamma_generator_length; lia|].
  rewrite gamma_generator_nth by lia. now apply gprod_gamma.
Qed.
Print Assumptions gamma_generator_values.
Example factorials : exists g, (forall k, (k < 3)%nat -> g (2 - 0 + INR (S k)) = (2 - 0 + INR k) * g (2 - 0 + INR k))
  /\ nth 3 (gamma_generator g 0 4) 0 = 4.
Proof.
  set (g := fun x => if Rlt_dec x 2.5 then 1 else if Rlt_dec x 3.5 then 2 else if Rlt_dec x 4.5 then 6 else 24).
  exists g. assert (V : g 2 = 1 /\ g 3 = 2 /\ g 4 = 6 /\ g 5 = 24).
  { unfold g. repeat split; repeat (match goal with |- context [Rlt_dec ?a ?b] => destruct (Rlt_dec a b); try lra end). }
  destruct V as (V2 & V3 & V4 & V5).
  assert (G : forall k, (k < 3)%nat -> g (2 - 0 + INR (S k)) = (2 - 0 + INR k) * g (2 - 0 + INR k)).
  { intros k Hk. destruct k as [|[|[|k]]]; [| | |lia]; cbn [INR].
    - replace (2 - 0 + 1) with 3 by lra. replace (2 - 0 + 0) with 2 by lra. lra.
    - replace (2 - 0 + (1 + 1)) with 4 by lra. replace (2 - 0 + 1) with 3 by lra. lra.
    - replace (2 - 0 + (1 + 1 + 1)) with 5 by lra. replace (2 - 0 + (1 + 1)) with 4 by lra. lra. }
  split; [exact G|].
  destruct (gamma_generator_values g 0 4 3 ltac:(lia) G) as [_ E]. rewrite E.
  replace (2 - 0 + INR 3) with 5 by (cbn [INR]; lra). rewrite V5. cbn [fact]. cbn. lra.
Qed.
(** The couplings obey the recurrence of (-1)^n gamma(beta-1/2) / ((n+1/2) sqrt(pi) n! gamma(beta-1-n)), for
    every gamma function, and the first one is 2 gamma(beta-1/2) / (sqrt(pi) gamma(beta-1)) by the reflection
    formula. *)
Theorem tower_recurrence : forall g beta nmax n,
  (S n < nmax)%nat ->
  nth (S n) (dual_coups g beta nmax) 0 * ((INR n + 3 / 2) * (INR n + 1))
    = nth n (dual_coups g beta nmax) 0 * ((INR n + 1 / 2) * (INR n + 2 - beta))
  /\ (g (beta - 1) * g (2 - beta) * sin (PI * (beta - 1)) = PI ->
      nth 0 (dual_coups g beta nmax) 0 * (sqrt PI * g (beta - 1)) = 2 * g (beta - 1 / 2)).
Proof.
  intros g beta nmax n H. split; [now apply dual_recurrence|]. intros E.
  rewrite dual_first by lia. pose proof PI_RGT_0. assert (0 < sqrt PI) by (apply sqrt_lt_R0; lra).
  replace (2 * g (beta - 1 / 2) * g (2 - beta) * sin (PI * (beta - 1)) / (PI * sqrt PI) * (sqrt PI * g (beta - 1)))
    with (2 * g (beta - 1 / 2) * (g (beta - 1) * g (2 - beta) * sin (PI * (beta - 1))) / PI) by (field; split; lra).
  rewrite E. field. lra.
Qed.
Print Assumptions tower_recurrence.
Example reflection_at_half : let g := fun _ : R => sqrt PI in g (3 / 2 - 1) * g (2 - 3 / 2) * sin (PI * (3 / 2 - 1)) = PI.
Proof.
  cbn beta zeta. replace (PI * (3 / 2 - 1)) with (PI / 2) by field. rewrite sin_PI2, sqrt_sqrt by (left; apply PI_RGT_0). ring.
Qed.

(** * C129: three pions *)
(** Exchanging the charged pions leaves the form factor of pi+ pi- pi0 unchanged. *)
Theorem three_pions_symmetric : forall f q s t u c,
  s + t + u = q ^ 2 + (1000 * MPI0_GEV) ^ 2 + 2 * (1000 * MPI_GEV) ^ 2 ->
  pi3_form_factor f q s t c = pi3_form_factor f q s u c.
Proof. exact pi3_swap. Qed.
Print Assumptions three_pions_symmetric.
Example dalitz_point : exists s t u, t <> u /\ (2 * (1000 * MPI_GEV)) ^ 2 < s
  /\ s + t + u = 782 ^ 2 + (1000 * MPI0_GEV) ^ 2 + 2 * (1000 * MPI_GEV) ^ 2.
Proof.
  exists 200000, 250000, (782 ^ 2 + (1000 * MPI0_GEV) ^ 2 + 2 * (1000 * MPI_GEV) ^ 2 - 450000).
  unfold MPI_GEV, MPI0_GEV. lra.
Qed.

(** * C130: running widths *)
(** The p-wave width of the rho is zero at threshold, the nominal width at the resonance and positive above
    threshold; the widths of the phi pi0 and omega pi0 fits are positive in the range of these states, where
    the latter is at least the two-pion width. *)
Theorem running_widths :
  (forall m w mj mk, 0 < w -> 0 < mj -> 0 < mk -> (mj + mk) ^ 2 < m ^ 2 ->
     running ((mj + mk) ^ 2) m w (fun s => gamma_rho s m w mj mk))
  /\ (forall m w, 0 < w -> (2 * MPI_GEV) ^ 2 < m ^ 2 -> running ((2 * MPI_GEV) ^ 2) m w (fun s => rho_width s m w))
  /\ (forall s m w br, 0 < w -> 0 <= br <= 1 -> 16 * MPI0_GEV ^ 2 < m ^ 2 -> 16 * MPI0_GEV ^ 2 < s ->
     0 < pi_phi_width s m w br /\ pi_phi_width (m ^ 2) m w br = w)
  /\ (forall g mo s m w, 0 < w -> 0 < mo -> 4 * MPI0_GEV ^ 2 < m ^ 2 -> (MPI0_GEV + mo) ^ 2 <= s -> 4 * MPI0_GEV ^ 2 < s ->
     gamma_rho s m w MPI0_GEV MPI0_GEV <= pi_omega_width g mo s m w /\ 0 < pi_omega_width g mo s m w).
Proof.
  split; [exact gamma_rho_running|]. split; [|split; [exact pi_phi_width_pos|exact pi_omega_width_pos]].
  intros m w Hw Hm.
  assert (E : (2 * MPI_GEV) ^ 2 = (MPI_GEV + MPI_GEV) ^ 2) by ring. rewrite E in *.
  destruct (gamma_rho_running m w MPI_GEV MPI_GEV Hw MPI_pos MPI_pos Hm) as (H1 & H2 & H3).
  split; [|split]; [| |intros s Hs]; rewrite rho_width_is; auto.
Qed.
Print Assumptions running_widths.
Example rho_meets_widths : (MPI_GEV + MPI0_GEV) ^ 2 < 0.77609 ^ 2 /\ 16 * MPI0_GEV ^ 2 < 1.593 ^ 2
  /\ 4 * MPI0_GEV ^ 2 < 0.77526 ^ 2 /\ (MPI0_GEV + 0.78266) ^ 2 <= 1 /\ 16 * MPI0_GEV ^ 2 < 1.
Proof. unfold MPI_GEV, MPI0_GEV. lra. Qed.

(** * C131: pion and two kaons, symmetries *)
(** Exchanging up and down quarks exchanges K0 and K+; charge conjugation exchanges the two kaons of a neutral
    pair. *)
Theorem kaon_pion_symmetries : forall g iso0 iso1 m mp q s t c,
  pi0_k0_k0_ff g iso0 iso1 m mp q s t c = pi0_k_k_ff g iso0 iso1 m mp q s t (mirror c)
  /\ pi_k_k0_ff g iso0 iso1 m m mp q s t c = pi_k_k0_ff g iso0 iso1 m m mp q t s (mirror c)
  /\ pi0_k0_k0_ff g iso0 iso1 m mp q s t c = pi0_k0_k0_ff g iso0 iso1 m mp q t s c
  /\ pi0_k_k_ff g iso0 iso1 m mp q s t c = pi0_k_k_ff g iso0 iso1 m mp q t s c.
Proof.
  intros. split; [apply k0_k_mirror|]. split; [apply pikk0_mirror|]. apply exchange_neutral.
Qed.
Print Assumptions kaon_pion_symmetries.
Example mirror_of_photon : mirror photon = Quarks (-1 / 3) (2 / 3) (-1 / 3) /\ mirror baryonic = baryonic.
Proof. split; reflexivity. Qed.

(** * C132: the K* of the pion and kaon states *)
(** With the default fits the three form factors are not those of one production amplitude for each charge of
    the K* and the Clebsch-Gordan coefficients of its decay: the state with a charged pion misses a factor
    sqrt 2, for any sign convention. *)
Theorem kstar_isospin_refuted : exists g m mp q c,
  gu c = gd c /\ g <> 0 /\ gs c <> 0
  /\ ~ kstar_isospin (fun s => kstar_propagator s m mp)
      (fun s t => pi0_k0_k0_ff g iso_scalar_fit iso_vector_fit m mp q s t c)
      (fun s t => pi0_k_k_ff g iso_scalar_fit iso_vector_fit m mp q s t c)
      (fun s t => pi_k_k0_ff g iso_scalar_fit iso_vector_fit m m mp q s t c).
Proof.
  exists 5.37392360229, 0.4956, 0.138, 1.6334, baryonic. split; [reflexivity|]. split; [lra|].
  split; [unfold baryonic; cbn [gs]; lra|]. apply kstar_isospin_fails; unfold baryonic; cbn [gu gd gs]; lra.
Qed.
Print Assumptions kstar_isospin_refuted.
(** And the charges of the K* are exchanged in it: when no charged K* is produced, so that K+ K- pi0 vanishes,
    the state with a charged pion is a resonance of the neutral kaon and the charged pion, that is, a charged
    K*, only: it does not depend on the mass of the pair of charged kaon and pion. *)
Theorem kstar_charge_refuted : exists g iso0 iso1 m mp c,
  (m + mp) ^ 2 < KS_MASS_GEV ^ 2
  /\ (forall q s t, pi0_k_k_ff g iso0 iso1 m mp q s t c = (0, 0))
  /\ (forall q s, exists t t', pi_k_k0_ff g iso0 iso1 m m mp q s t c <> pi_k_k0_ff g iso0 iso1 m m mp q s t' c)
  /\ (forall q s s' t, pi_k_k0_ff g iso0 iso1 m m mp q s t c = pi_k_k0_ff g iso0 iso1 m m mp q s' t c).
Proof.
  exists 5.37392360229, [Reso 1.47 0.4 0.594 0.317], [Reso 1.47 0.4 0.594 0.317], 0.4956, 0.138, photon.
  assert (K : (0.4956 + 0.138) ^ 2 < KS_MASS_GEV ^ 2) by (unfold KS_MASS_GEV; lra).
  split; [exact K|].
  destruct (charged_kstar_appears 5.37392360229 (Reso 1.47 0.4 0.594 0.317) 0.4956 0.138) as (H1 & H2 & H3);
    cbn [r_amp r_mass r_width]; try lra; try exact K.
  split; [exact H1|]. split; [|exact H3]. intros q s. exists (KS_MASS_GEV ^ 2), 1. apply H2.
Qed.
Print Assumptions kstar_charge_refuted.

(** * C133: the pion and photon at zero momentum *)
(** The form factor at zero momentum is the triangle anomaly: the electric charges times the couplings of the
    up minus those of the down quark, three colours, over 4 pi^2 fpi. *)
Theorem pion_photon_anomaly : forall fpi a0 ar aw af rho omega phi alpha c,
  fpi <> 0 ->
  pi_gamma_ff fpi a0 ar aw af rho omega phi alpha 0 c
    = cscale (- sqrt (4 * PI * alpha)) (3 * (2 / 3 * gu c - (-1 / 3) * gd c) / (4 * PI ^ 2 * fpi), 0).
Proof.
  intros. unfold pi_gamma_ff, vector_couplings_to_isospin.
  replace (a0 * 4 * sqrt 2 * 0 ^ 2 / (3 * fpi)) with 0 by (field; assumption).
  rewrite cscale_0. unfold csub, copp, cadd, cscale. cbn [fst snd]. apply cext; cbn [fst snd]; [|ring].
  pose proof PI_RGT_0. field. split; [assumption|lra].
Qed.
Print Assumptions pion_photon_anomaly.
Example photon_anomaly : 3 * (2 / 3 * gu photon - (-1 / 3) * gd photon) = 1 /\ (0.09266 <> 0).
Proof. unfold photon. cbn [gu gd]. split; lra. Qed.

(** * C134: resonance propagators *)
(** Each propagator is i m / w at its mass (-i m / w with the sign of the three-pion fit), its real part changes
    sign there only and its imaginary part has one sign above threshold. *)
Theorem propagators_resonate :
  (forall m w, 0 < m -> 0 < w -> resonance 1 0 m w (fun s => breit_wigner_fw s m w))
  /\ (forall m w m1 m2, 0 < m -> 0 < w -> 0 <= m1 -> 0 <= m2 -> 0 < m1 + m2 -> (m1 + m2) ^ 2 < m ^ 2 ->
      resonance 1 ((m1 + m2) ^ 2) m w (fun s => breit_wigner_pwave s m w m1 m2))
  /\ (forall m w, 0 < m -> 0 < w -> (MPI_GEV + MPI_GEV) ^ 2 < m ^ 2 ->
      resonance 1 ((MPI_GEV + MPI_GEV) ^ 2) m w (fun s => bw0 m w s))
  /\ (forall m w, 0 < m -> 0 < w -> resonance 1 0 m w (fun s => bw_grow m w s) /\ bw_grow m w 0 = (1, 0))
  /\ (forall m w mj mk, 0 < m -> 0 < w -> 0 < mj -> 0 < mk -> (mj + mk) ^ 2 < m ^ 2 ->
      resonance (-1) ((mj + mk) ^ 2) m w (fun s => bw_rho s m w mj mk)).
Proof.
  split; [exact fw_resonance|]. split; [|split; [|split; [exact bw_grow_resonance|exact bw_rho_resonance]]].
  - intros m w m1 m2 Hm Hw H1 H2 H12 Ht. destruct (gamma_p_running m w m1 m2 Hm Hw H1 H2 H12 Ht) as (_ & A & B).
    apply (resonance_of_width _ m w (fun s => gamma_p s m w m1 m2)); try assumption. apply pow2_ge_0.
  - intros m w Hm Hw Ht. destruct (gamma_rho_running m w MPI_GEV MPI_GEV Hw MPI_pos MPI_pos Ht) as (_ & A & B).
    apply (resonance_of_width _ m w (fun s => rho_width s m w)); try assumption.
    + apply pow2_ge_0.
    + now rewrite rho_width_is.
    + intros s Hs. rewrite rho_width_is. now apply B.
Qed.
Print Assumptions propagators_resonate.
Example phi_propagator : breit_wigner_fw (1.019461 ^ 2) 1.019461 0.004249 = (0, 1 * (1.019461 / 0.004249)).
Proof. apply (fw_resonance 1.019461 0.004249); lra. Qed.

(** The complex coefficient of a resonance has the fitted modulus, and its argument is the fitted phase: phases
    add up, and a phase between 0 and pi is in the upper half plane. *)
Theorem coefficients_of_resonances : forall r r',
  cabs2 (r_coeff r) = r_amp r ^ 2
  /\ cmul (r_coeff r) (r_coeff r') = r_coeff (Reso 0 0 (r_amp r * r_amp r') (r_phase r + r_phase r'))
  /\ (0 < r_amp r -> 0 < r_phase r < PI -> 0 < snd (r_coeff r)).
Proof.
  intros r r'. split; [|split].
  - unfold r_coeff. rewrite cabs2_scale, cabs2_cis. ring.
  - unfold r_coeff, cis, cmul, cscale. cbn [r_amp r_phase fst snd]. rewrite cos_plus, sin_plus. apply cext; cbn [fst snd]; ring.
  - intros A [P1 P2]. unfold r_coeff, cis, cscale. cbn [snd]. apply Rmult_lt_0_compat; [exact A|]. now apply sin_gt_0.
Qed.
Print Assumptions coefficients_of_resonances.
Example quarter_turn : r_coeff (Reso 1 1 3 (PI / 2)) = (0, 3).
Proof. unfold r_coeff, cis, cscale. cbn [r_amp r_phase fst snd]. rewrite cos_PI2, sin_PI2. apply cext; cbn [fst snd]; ring. Qed.
