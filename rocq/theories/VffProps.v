(** Properties of the vector form factors: C94 to C99. *)
From Coq Require Import ZArith Reals Bool Lra Lia Psatz List.
From Verif Require Import PyBase RamboModel RamboProofs KinModel KinProofs KinProps DalitzProofs Area Primitive SpecProofs RhnProofs VffModel VffProofs.
Import ListNotations.
Local Open Scope R_scope.

(** * C94: the running coupling *)
(** Full claim: alpha_em returns the zero-momentum coupling below 1e-6 GeV^2 and grows with s above it.
    Proved of the code: from 1e-6 GeV^2 on nothing runs. *)
Theorem alpha_em_frozen_partial : forall s, 1 / 10 ^ 6 <= s -> alpha_em s = Some (72973525698 / 10 ^ 13).
Proof. intros s H. now apply alpha_em_const. Qed.
Example alpha_em_frozen_case : 1 / 10 ^ 6 <= 91 ^ 2 /\ alpha_em (91 ^ 2) = Some (72973525698 / 10 ^ 13).
Proof. split; [lra|]. apply alpha_em_frozen_partial. lra. Qed.
Print Assumptions alpha_em_frozen_partial.
(** Refuted: below the cut, where the coupling at zero momentum is meant, it is larger than at 1 GeV^2 by
    more than three parts in ten thousand *)
Theorem alpha_em_grows_refuted : exists s s' a a', 0 < s < s' /\ s < 1 / 10 ^ 6 /\ alpha_em s = Some a /\ alpha_em s' = Some a'
  /\ 1.0003 * (72973525698 / 10 ^ 13) < a /\ a' < a.
Proof.
  destruct alpha_em_small as (a & E & H). exists (1 / 2000000), 1, a, alem.
  assert (0 < alem) by (unfold alem; lra).
  split; [lra|]. split; [lra|]. split; [exact E|]. split; [apply alpha_em_const; lra|]. unfold alem in *. split; lra.
Qed.
Print Assumptions alpha_em_grows_refuted.
(** Refuted: at zero the result is not a number *)
Theorem alpha_em_finite_refuted : exists s, 0 <= s /\ alpha_em s = None.
Proof. exists 0. split; [lra|apply alpha_em_zero]. Qed.
Print Assumptions alpha_em_finite_refuted.

(** * C95: Lorentz structures *)
Theorem two_pseudoscalars : forall p1 p2 m1 m2 q, 0 < q -> mass_shell p1 m1 -> mass_shell p2 m2 -> mass_shell (vplus p1 p2) q ->
  lorentz_pp m1 m2 q = contracted (q ^ 2) (current_pp p1 p2).
Proof. exact pp_contracted. Qed.
Theorem pseudoscalar_photon : forall p k m q, 0 < q -> mass_shell p m -> mass_shell k 0 -> mass_shell (vplus p k) q ->
  lorentz_pa m q = contracted_pol (q ^ 2) k 0 (current_pv (vplus p k) k).
Proof. intros. now apply pa_contracted. Qed.
Theorem pseudoscalar_vector : forall p k mp mv q, 0 < q -> 0 < mv -> mass_shell p mp -> mass_shell k mv -> mass_shell (vplus p k) q ->
  lorentz_pv mp mv q = contracted_pol (q ^ 2) k (1 / mv ^ 2) (current_pv (vplus p k) p).
Proof. exact pv_contracted. Qed.
Theorem three_pseudoscalars : forall p1 p2 p3 m1 m2 m3 q s t, 0 < q -> mass_shell p1 m1 -> mass_shell p2 m2 -> mass_shell p3 m3 ->
  mass_shell (vplus p1 (vplus p2 p3)) q ->
  s = mdot (vplus p2 p3) (vplus p2 p3) -> t = mdot (vplus p1 p3) (vplus p1 p3) ->
  lorentz_ppp m1 m2 m3 q s t = contracted (q ^ 2) (current_ppp p1 p2 p3).
Proof. exact ppp_contracted. Qed.
(** Two pseudoscalars 1, 2 and a vector 3, with s = (p2 + k)^2 and t = (p1 + k)^2 *)
Theorem two_pseudoscalars_vector : forall p1 p2 k m1 m2 mv q, 0 < q -> 0 < mv -> event q [m1; m2; mv] [p1; p2; k] ->
  lorentz_ppv (m1, m2, mv) q (lnorm_sqr (vplus p2 k)) (lnorm_sqr (vplus p1 k))
  = contracted_pol (q ^ 2) k (1 / mv ^ 2) (current_ppv (V4 q 0 0 0)).
Proof.
  intros p1 p2 k m1 m2 mv q Hq Hm Ev. fold (ppv_msq q mv k).
  pose proof (event3_rev _ _ _ _ _ _ _ Ev) as Ev'. rewrite (ppv_msq_of_s q mv m1 m2 k p1 p2 Hq Hm Ev').
  pose proof (pair_energy _ _ _ _ _ _ _ Ev) as E1. pose proof (pair_energy _ _ _ _ _ _ _ (event3_swap _ _ _ _ _ _ _ Ev)) as E2.
  pose proof (pair_energy _ _ _ _ _ _ _ Ev') as E3. rewrite E1, E2, E3.
  apply event3 in Ev. destruct Ev as (_ & _ & _ & E). apply (f_equal en) in E. cbn [vplus en] in E.
  unfold lorentz_ppv, ppv_of_s. replace (en k) with (q - en p1 - en p2) by lra. f_equal. field.
Qed.
Example lorentz_cases :
  (mass_shell (V4 5 0 0 3) 4 /\ mass_shell (V4 5 0 0 (-3)) 4 /\ mass_shell (vplus (V4 5 0 0 3) (V4 5 0 0 (-3))) 10)
  /\ (mass_shell (V4 3 0 0 (-3)) 0 /\ mass_shell (vplus (V4 5 0 0 3) (V4 3 0 0 (-3))) 8)
  /\ (lorentz_pv 4 4 10 = 6 /\ lorentz_pa 4 8 = 6 /\ lorentz_pp 4 4 10 = 3 / 25).
Proof.
  unfold mass_shell. rewrite !mdot_eq. cbn [vplus en px py pz]. unfold lorentz_pv, lorentz_pa, lorentz_pp.
  repeat split; lra.
Qed.
(** An event with masses 1, 1, 3 at rest with energy 11 *)
Lemma event_113 : event 11 [1; 1; 3] [V4 3 2 2 0; V4 3 (-2) 2 0; V4 5 0 (-4) 0].
Proof.
  apply event3_intro; [split; cbn [en px py pz]; lra|split; cbn [en px py pz]; lra|split; cbn [en px py pz]; lra|].
  apply vec_eq; cbn [vplus en px py pz]; lra.
Qed.
Example three_body_case : 0 < 11 /\ 0 < 3 /\ event 11 [1; 1; 3] [V4 3 2 2 0; V4 3 (-2) 2 0; V4 5 0 (-4) 0]
  /\ mass_shell (V4 3 2 2 0) 1 /\ mass_shell (V4 5 0 (-4) 0) 3 /\ 0 < lorentz_ppp 1 1 3 11 56 56.
Proof.
  split; [lra|]. split; [lra|]. split; [apply event_113|]. unfold mass_shell. rewrite !mdot_eq. cbn [en px py pz].
  unfold lorentz_ppp. repeat split; lra.
Qed.
Print Assumptions two_pseudoscalars.
Print Assumptions pseudoscalar_photon.
Print Assumptions pseudoscalar_vector.
Print Assumptions three_pseudoscalars.
Print Assumptions two_pseudoscalars_vector.
(** Refuted for the masses as the two-pion-omega class stores them, vector first: with s = (p2 + p3)^2 and
    t = (p1 + p3)^2 of the particles in that order the structure is not the square of the current *)
Theorem vector_first_refuted : exists q mv m1 m2 k p1 p2, 0 < mv /\ 0 < m1 /\ 0 < m2 /\ event q [mv; m1; m2] [k; p1; p2]
  /\ lorentz_ppv (mv, m1, m2) q (lnorm_sqr (vplus p1 p2)) (lnorm_sqr (vplus k p2))
     > 2 * contracted_pol (q ^ 2) k (1 / mv ^ 2) (current_ppv (V4 q 0 0 0)).
Proof.
  exists 11, 3, 1, 1, (V4 5 0 (-4) 0), (V4 3 2 2 0), (V4 3 (-2) 2 0).
  pose proof (event3_rev _ _ _ _ _ _ _ event_113) as Ev.
  split; [lra|]. split; [lra|]. split; [lra|]. split; [exact Ev|]. fold (ppv_msq 11 3 (V4 5 0 (-4) 0)).
  rewrite (ppv_msq_of_s 11 3 1 1 _ _ _ ltac:(lra) ltac:(lra) Ev). unfold lorentz_ppv, ppv_of_s, lnorm_sqr. cbn [vplus en px py pz].
  lra.
Qed.
Print Assumptions vector_first_refuted.
(** Refuted: contracted with the polarisation sum of the massive mediator, -g + q q / q^2, instead of -g,
    the structure of two pseudoscalars is different when their masses differ.  (No class uses unequal
    masses.)  For equal masses the two agree. *)
Definition physical_pp (q2 : R) (p1 p2 : vec) : R :=
  contracted q2 (current_pp p1 p2) + (mdot (vplus p1 p2) (vplus p1 (scale (-1) p2))) ^ 2 / (3 * q2 * q2).
Theorem unequal_masses : forall p1 p2 m1 m2 q, 0 < q -> mass_shell p1 m1 -> mass_shell p2 m2 -> mass_shell (vplus p1 p2) q ->
  0 < m1 -> 0 < m2 -> (lorentz_pp m1 m2 q = physical_pp (q ^ 2) p1 p2 <-> m1 = m2).
Proof.
  intros p1 p2 m1 m2 q Hq H1 H2 H P1 P2. rewrite (pp_contracted p1 p2 m1 m2 q Hq H1 H2 H). unfold physical_pp.
  unfold mass_shell in *. assert (E : mdot (vplus p1 p2) (vplus p1 (scale (-1) p2)) = m1 ^ 2 - m2 ^ 2).
  { rewrite <- H1, <- H2, !mdot_eq. unfold scale. cbn [vplus en px py pz]. ring. }
  rewrite E. assert (Q2 : 0 < q ^ 2) by now apply pow_lt.
  set (d := (m1 ^ 2 - m2 ^ 2) ^ 2 / (3 * q ^ 2 * q ^ 2)).
  assert (K : (m1 ^ 2 - m2 ^ 2) ^ 2 = d * (3 * q ^ 2 * q ^ 2)) by (unfold d; field; lra). split.
  - intros Hd. assert (d = 0) by lra. rewrite H0, Rmult_0_l in K. assert ((m1 - m2) * (m1 + m2) = 0) by nra. nra.
  - intros ->. replace d with 0; [lra|]. unfold d. field. lra.
Qed.
Example unequal_masses_case : mass_shell (V4 5 0 0 3) 4 /\ mass_shell (V4 4 0 0 (-3)) (sqrt 7)
  /\ mass_shell (vplus (V4 5 0 0 3) (V4 4 0 0 (-3))) 9.
Proof.
  unfold mass_shell. rewrite !mdot_eq, pow2_sqrt by lra. cbn [vplus en px py pz]. repeat split; lra.
Qed.
Print Assumptions unequal_masses.

(** * C96: widths into three particles *)
Theorem three_pseudoscalar_width : forall quad m1 m2 m3 ff2 msqrd q,
  0 <= m1 -> 0 <= m2 -> 0 <= m3 -> 0 < q -> m1 + m2 + m3 < q ->
  area (ppp2_integrand m1 m2 m3 ff2 q) (fst (ppp2_limits m1 m2 m3 q)) (snd (ppp2_limits m1 m2 m3 q))
    (quad (ppp2_integrand m1 m2 m3 ff2 q) (fst (ppp2_limits m1 m2 m3 q)) (snd (ppp2_limits m1 m2 m3 q))) ->
  (forall p1 p2 p3, event q [m1; m2; m3] [p1; p2; p3] ->
     let s := lnorm_sqr (vplus p2 p3) in
     msqrd s (lnorm_sqr (vplus p1 p3)) = q ^ 2 * (ff2 q s * contracted (q ^ 2) (current_ppp p1 p2 p3))) ->
  phase_space_width q m1 m2 m3 msqrd (0.5 * q * ppp2_integrated quad m1 m2 m3 ff2 q).
Proof. exact ppp2_width. Qed.
(** Massless particles, unit form factor: the integral is elementary *)
Lemma massless_integrand x : 0 < x < 1 -> ppp2_integrand 0 0 0 (fun _ _ => 1) 1 x = (x ^ 3 - x ^ 4) / (9216 * PI ^ 3).
Proof.
  intros Hx. unfold ppp2_integrand, ppp2_partial. pose proof PI_RGT_0.
  replace (kallen_lambda (1 ^ 2 * (1 - x + (0 / 1) ^ 2)) (1 ^ 2) (0 ^ 2) * kallen_lambda (1 ^ 2 * (1 - x + (0 / 1) ^ 2)) (0 ^ 2) (0 ^ 2))
    with ((x * (1 - x)) ^ 2) by (unfold kallen_lambda; field).
  rewrite sqrt_pow2 by nra. field. split; lra.
Qed.
Example three_pseudoscalar_width_case :
  0 + 0 + 0 < 1 /\ (exists v, 0 < v /\ area (ppp2_integrand 0 0 0 (fun _ _ => 1) 1) (fst (ppp2_limits 0 0 0 1)) (snd (ppp2_limits 0 0 0 1)) v)
  /\ exists msqrd, forall p1 p2 p3, event 1 [0; 0; 0] [p1; p2; p3] ->
       msqrd (lnorm_sqr (vplus p2 p3)) (lnorm_sqr (vplus p1 p3)) = 1 ^ 2 * (1 * contracted (1 ^ 2) (current_ppp p1 p2 p3)).
Proof.
  pose proof PI_RGT_0 as Pp. split; [lra|]. split.
  - exists (1 / 20 / (9216 * PI ^ 3)). split.
    { apply Rdiv_lt_0_compat; [lra|]. apply Rmult_lt_0_compat; [lra|now apply pow_lt]. }
    unfold ppp2_limits. cbn [fst snd]. replace (2 * (0 / 1)) with 0 by field.
    replace ((0 / 1) ^ 2 + (1 - (0 / 1 + 0 / 1) ^ 2)) with 1 by field.
    refine (area_ext (fun x => (x ^ 3 - x ^ 4) / (9216 * PI ^ 3)) _ _ _ _ [] _ _).
    + intros x Hx _. symmetry. now apply massless_integrand.
    + eapply area_val; [|apply area_of_antiderivative with (G := fun x => (x ^ 4 / 4 - x ^ 5 / 5) / (9216 * PI ^ 3))].
      * cbn beta. field. lra.
      * intros x _. assert (9216 * PI ^ 3 <> 0) by (apply Rgt_not_eq, Rmult_lt_0_compat; [lra|now apply pow_lt]).
        eapply dl_val.
        { apply dl_div; [|apply (dl_const (9216 * PI ^ 3))|assumption].
          apply dl_minus; (apply dl_div; [apply dl_pow, dl_id| |]); [apply (dl_const 4)|lra|apply (dl_const 5)|lra]. }
        { unfold Rsqr. cbn [INR pred]. field. lra. }
  - exists (fun s t => lorentz_ppp 0 0 0 1 s t). intros p1 p2 p3 Ev. pose proof (event3 _ _ _ _ _ _ _ Ev) as (S1 & S2 & S3 & St).
    rewrite (ppp_contracted p1 p2 p3 0 0 0 1 (lnorm_sqr (vplus p2 p3)) (lnorm_sqr (vplus p1 p3)));
      try (now apply shell_mass); try apply lnorm_mdot; try lra.
    unfold mass_shell. rewrite St, mdot_eq. cbn [en px py pz]. ring.
Qed.
Print Assumptions three_pseudoscalar_width.

Theorem pseudoscalars_vector_width : forall quad mv m1 m2 ff2 msqrd q,
  0 < mv -> 0 <= m1 -> 0 <= m2 -> mv + m1 + m2 < q ->
  (let lo := 2 * (mv / q) in let hi := (mv / q) ^ 2 + (1 - (m1 / q + m2 / q) ^ 2) in
   area (ppv_integrand (mv, m1, m2) q) lo hi (quad (ppv_integrand (mv, m1, m2) q) lo hi)) ->
  (forall k p1 p2, event q [mv; m1; m2] [k; p1; p2] ->
     msqrd (lnorm_sqr (vplus p1 p2)) (lnorm_sqr (vplus k p2)) = q ^ 2 * (ff2 * ppv_msq q mv k)) ->
  phase_space_width q mv m1 m2 msqrd (0.5 * q * ppv_integrated quad (mv, m1, m2) ff2 q).
Proof. exact ppv_width. Qed.
(** The partially integrated form factor integrates to the integrated one *)
Theorem pseudoscalars_vector_partial_width : forall mv m1 m2 ff2 q, 0 < mv -> 0 <= m1 -> 0 <= m2 -> mv + m1 + m2 < q ->
  (let lo := 2 * (mv / q) in let hi := (mv / q) ^ 2 + (1 - (m1 / q + m2 / q) ^ 2) in
   exists v, area (ppv_integrand (mv, m1, m2) q) lo hi v) ->
  area (ppv_partial (mv, m1, m2) ff2 q) ((m1 + m2) ^ 2) ((q - mv) ^ 2) (ppv_integrated the_area (mv, m1, m2) ff2 q).
Proof.
  intros mv m1 m2 ff2 q Hv H1 H2 Ht A. cbv zeta in A. destruct A as [v A]. assert (Hq : 0 < q) by lra.
  assert (Q2 : 0 < q ^ 2) by (apply pow_lt; exact Hq). pose proof PI_RGT_0 as Pp.
  assert (L : 2 * (mv / q) <= (mv / q) ^ 2 + (1 - (m1 / q + m2 / q) ^ 2)).
  { replace (2 * (mv / q)) with (2 * mv * q / q ^ 2) by (field; lra).
    replace ((mv / q) ^ 2 + (1 - (m1 / q + m2 / q) ^ 2)) with ((mv ^ 2 + q ^ 2 - (m1 + m2) ^ 2) / q ^ 2) by (field; lra).
    unfold Rdiv. apply Rmult_le_compat_r; [left; now apply Rinv_0_lt_compat|]. nra. }
  unfold ppv_integrated. destruct (Rlt_dec (mv + m1 + m2) q) as [_|C]; [|lra].
  rewrite (the_area_val _ _ _ v L A).
  assert (A' : area (fun x => (fun s => ppv_integrand (mv, m1, m2) q (1 - s / q ^ 2 + (mv / q) ^ 2)) (q ^ 2 * (1 - x + (mv / q) ^ 2)))
                 (2 * (mv / q)) ((mv / q) ^ 2 + (1 - (m1 / q + m2 / q) ^ 2)) v).
  { refine (area_ext _ _ _ _ _ [] _ A). intros x _ _. f_equal. field. lra. }
  apply area_flip in A'; [|exact Hq|exact L].
  replace (q ^ 2 * (1 - ((mv / q) ^ 2 + (1 - (m1 / q + m2 / q) ^ 2)) + (mv / q) ^ 2)) with ((m1 + m2) ^ 2) in A' by (field; lra).
  replace (q ^ 2 * (1 - 2 * (mv / q) + (mv / q) ^ 2)) with ((q - mv) ^ 2) in A' by (field; lra).
  apply (area_scale (ff2 / (1536 * PI ^ 3 * (mv / q) ^ 2) / q ^ 2)) in A'.
  eapply area_val; [|refine (area_ext _ _ _ _ _ [] _ A')].
  - field. repeat split; lra.
  - intros s Hs _. pose proof (ppv_partial_width mv m1 m2 ff2 q s Hv H1 H2 Ht Hs) as E.
    apply Rmult_eq_reg_l with (q ^ 2); [|lra]. rewrite E. field. repeat split; lra.
Qed.
(** A vector of mass 1 and two massless pseudoscalars at energy 2 *)
Lemma ppv_area_case : exists v, area (ppv_integrand (1, 0, 0) 2) (2 * (1 / 2)) ((1 / 2) ^ 2 + (1 - (0 / 2 + 0 / 2) ^ 2)) v.
Proof.
  set (g := fun x => (x ^ 2 + 2) * sqrt (x ^ 2 - 1)).
  destruct (area_exists g 1 (5 / 4) ltac:(lra)) as [v A].
  { intros x Hx. unfold g. apply (continuity_pt_mult (fun x => x ^ 2 + 2) (fun x => sqrt (x ^ 2 - 1))).
    - apply derivable_continuous_pt. eexists. apply (dl_plus (fun x => x ^ 2) (fun _ => 2)); [apply dl_pow, dl_id|apply dl_const].
    - apply (continuity_pt_comp (fun x => x ^ 2 - 1) sqrt).
      + apply derivable_continuous_pt. eexists. apply (dl_minus (fun x => x ^ 2) (fun _ => 1)); [apply dl_pow, dl_id|apply dl_const].
      + apply continuity_pt_sqrt. nra. }
  exists v. replace (2 * (1 / 2)) with 1 by field. replace ((1 / 2) ^ 2 + (1 - (0 / 2 + 0 / 2) ^ 2)) with (5 / 4) by field.
  refine (area_ext _ _ _ _ _ [] _ A). intros x Hx _. unfold g, ppv_integrand.
  replace (kallen_lambda 1 ((1 / 2) ^ 2) (1 - x + (1 / 2) ^ 2) * kallen_lambda ((0 / 2) ^ 2) ((0 / 2) ^ 2) (1 - x + (1 / 2) ^ 2))
    with ((x ^ 2 - 1) * (5 / 4 - x) ^ 2) by (unfold kallen_lambda; field).
  rewrite sqrt_mult_alt by nra. rewrite (sqrt_pow2 (5 / 4 - x)) by lra. field. lra.
Qed.
Example pseudoscalars_vector_case : 0 < 1 /\ 1 + 0 + 0 < 2
  /\ (exists v, area (ppv_integrand (1, 0, 0) 2) (2 * (1 / 2)) ((1 / 2) ^ 2 + (1 - (0 / 2 + 0 / 2) ^ 2)) v)
  /\ exists msqrd, forall k p1 p2, event 2 [1; 0; 0] [k; p1; p2] ->
       msqrd (lnorm_sqr (vplus p1 p2)) (lnorm_sqr (vplus k p2)) = 2 ^ 2 * (1 * ppv_msq 2 1 k).
Proof.
  split; [lra|]. split; [lra|]. split; [apply ppv_area_case|]. exists (fun s _ => 2 ^ 2 * (1 * ppv_of_s 2 1 s)).
  intros k p1 p2 Ev. now rewrite (ppv_msq_of_s 2 1 0 0 k p1 p2 ltac:(lra) ltac:(lra) Ev).
Qed.
Print Assumptions pseudoscalars_vector_width.
Print Assumptions pseudoscalars_vector_partial_width.

(** * C97: energy and invariant-mass distributions of two pseudoscalars and a vector *)
Theorem energy_distributions_sample_density : forall mv m1 m2 ff2 q n,
  0 < mv -> 0 <= m1 -> 0 <= m2 -> mv + m1 + m2 < q -> 0 < ff2 -> (0 < n)%nat ->
  exists d0 d1 d2, ppv_energy_distributions (mv, m1, m2) ff2 q n = Ret [d0; d1; d2]
    /\ samples_density d0 mv ((q ^ 2 + mv ^ 2 - (m1 + m2) ^ 2) / (2 * q)) n (energy_density q mv m1 m2 0 (ppv_msq q mv))
    /\ samples_density d1 m1 ((q ^ 2 + m1 ^ 2 - (mv + m2) ^ 2) / (2 * q)) n (energy_density q mv m1 m2 1 (ppv_msq q mv))
    /\ samples_density d2 m2 ((q ^ 2 + m2 ^ 2 - (mv + m1) ^ 2) / (2 * q)) n (energy_density q mv m1 m2 2 (ppv_msq q mv)).
Proof. exact ppv_distributions. Qed.
Example energy_distributions_case : 0 < 782.65 /\ 0 <= 139.57 /\ 782.65 + 139.57 + 139.57 < 1500 /\ (0 < 25)%nat.
Proof. repeat split; try lra. lia. Qed.
Print Assumptions energy_distributions_sample_density.
(** Refuted when the form factor vanishes: the first distribution is zero everywhere, the second, whose
    formula does not contain the form factor, is normalised *)
Theorem vanishing_form_factor_refuted : exists mv m1 m2 q n d0 d1 d2 p0 p1,
  0 < mv /\ 0 < m1 /\ 0 < m2 /\ mv + m1 + m2 < q
  /\ ppv_energy_distributions (mv, m1, m2) 0 q n = Ret [d0; d1; d2]
  /\ probabilities d0 = Some p0 /\ (forall p, In p p0 -> p = 0)
  /\ probabilities d1 = Some p1 /\ binned_integral p1 (bins d1) = 1.
Proof.
  destruct (ppv_distributions 2 1 1 1 6 2 ltac:(lra) ltac:(lra) ltac:(lra) ltac:(lra) ltac:(lra) ltac:(lia))
    as (d0 & d1 & d2 & E & _ & (B1 & p1 & c & P1 & _ & _ & N1 & _) & _).
  assert (Z : forall e, djde1 (2, 1, 1) 0 6 e = 0) by (intro e; unfold djde1; unfold Rdiv; ring).
  set (b0 := linspace 2 ((6 ^ 2 + 2 ^ 2 - (2 + (1 + (1 + 0)) - 2) ^ 2) / (2 * 6)) 2).
  set (ys := map (djde1 (2, 1, 1) 0 6) (bin_centers b0)).
  assert (Zy : forall p, In p ys -> p = 0) by (intros p Hp; apply in_map_iff in Hp; destruct Hp as (e & <- & _); apply Z).
  assert (L : length ys = 2%nat) by (unfold ys; rewrite map_length, centers_length; unfold b0; rewrite linspace_length; reflexivity).
  assert (Lb : length b0 = 3%nat) by (unfold b0; rewrite linspace_length; reflexivity).
  destruct (normalize_distribution_exact ys b0) as (_ & N & _); [intro X; rewrite X in L; discriminate|lia|].
  assert (I : increasing b0) by (apply linspace_increasing; [lra|lia]).
  specialize (N I Zy).
  exists 2, 1, 1, 6, 2%nat, {| bins := b0; centers := bin_centers b0; probabilities := Some ys |}, d1, d2, ys, p1.
  split; [lra|]. split; [lra|]. split; [lra|]. split; [lra|]. split; [|split; [reflexivity|split; [exact Zy|split; [exact P1|exact N1]]]].
  assert (D : dist_new b0 ys = Ret {| bins := b0; centers := bin_centers b0; probabilities := Some ys |}).
  { unfold dist_new. rewrite L, Lb. cbn [Nat.eqb Nat.add]. rewrite N. reflexivity. }
  unfold ppv_energy_distributions, energy_limits in *. cbn [map fst snd] in *. unfold total in *. cbn [fold_left fold_right] in *.
  fold b0 in E |- *. fold ys. rewrite D. cbn [bind].
  destruct (dist_new b0 _) as [d|] in E; cbn [bind] in E; [|discriminate].
  destruct (dist_new _ (map (djde2 (2, 1, 1) 6) _)) as [d'|]; cbn [bind] in *; [|discriminate].
  destruct (dist_new _ (map (djde3 (2, 1, 1) 6) _)) as [d''|]; cbn [bind] in *; [|discriminate].
  injection E as _ -> ->. reflexivity.
Qed.
Print Assumptions vanishing_form_factor_refuted.
(** Full claim: the invariant-mass distributions are normalised.  Proved of the code: made from a normalised
    energy distribution with bins inside the allowed range they sum to minus one half *)
Theorem invariant_mass_total_partial : forall q m d ps, 0 < q -> probabilities d = Some ps -> ps <> [] ->
  (forall p, In p ps -> 0 <= p) -> length (bins d) = S (length ps) ->
  (forall e, In e (bins d) -> 2 * q * e <= q ^ 2 + m ^ 2) -> binned_integral ps (bins d) = 1 ->
  exists d' ps', ppv_invariant_mass q m d = Ret d' /\ bins d' = map (etosqrts q m) (bins d) /\ probabilities d' = Some ps'
    /\ binned_integral ps' (bins d') = - (1 / 2).
Proof. exact inv_mass_half. Qed.
Print Assumptions invariant_mass_total_partial.
Theorem invariant_mass_normalised_refuted : exists mv m1 m2 ff2 q n d0 d1 d2 d' ps',
  0 < mv /\ 0 < m1 /\ 0 < m2 /\ 0 < ff2 /\ mv + m1 + m2 < q
  /\ ppv_energy_distributions (mv, m1, m2) ff2 q n = Ret [d0; d1; d2]
  /\ ppv_invariant_mass q mv d0 = Ret d' /\ probabilities d' = Some ps' /\ binned_integral ps' (bins d') = - (1 / 2).
Proof.
  destruct (ppv_distributions 2 1 1 1 6 2 ltac:(lra) ltac:(lra) ltac:(lra) ltac:(lra) ltac:(lra) ltac:(lia))
    as (d0 & d1 & d2 & E & (B0 & ps & c & P0 & L0 & C0 & N0 & S0) & _ & _).
  destruct (inv_mass_half 6 2 d0 ps) as (d' & ps' & E' & _ & P' & N'); try assumption; try lra.
  - intro X. rewrite X in L0. discriminate.
  - intros p Hp. apply In_nth_error in Hp. destruct Hp as [i Hp]. destruct (S0 i p Hp) as (e & _ & _ & P & _). lra.
  - rewrite B0, linspace_length. lia.
  - intros e He. rewrite B0 in He. unfold linspace in He. cbn [seq map INR] in He. destruct He as [<-|[<-|[<-|[]]]]; lra.
  - exists 2, 1, 1, 1, 6, 2%nat, d0, d1, d2, d', ps'. repeat (split; [lra|]). auto.
Qed.
Print Assumptions invariant_mass_normalised_refuted.

(** * C98: Gounaris-Sakurai propagators *)
Theorem gounaris_sakurai : forall mres gamma m1 m2, 0 <= m1 -> 0 <= m2 -> 0 < m1 + m2 -> 0 < mres -> (m1 + m2) ^ 2 < mres ^ 2 ->
  derivable_pt_lim (fun s => hhat s mres gamma m1 m2) (mres ^ 2) (dhhatds mres gamma m1 m2)
  /\ gs_den (mres ^ 2) mres gamma m1 m2 = (0, - (mres * gamma))
  /\ derivable_pt_lim (fun s => fst (gs_den s mres gamma m1 m2)) (mres ^ 2) (-1)
  /\ gs_den 0 mres gamma m1 m2 = (gs_num mres gamma m1 m2, 0).
Proof.
  intros mres gamma m1 m2 H1 H2 H12 Hm Ht. split; [now apply dl_hhat|]. split; [now apply gs_den_value|].
  split; [now apply gs_den_slope|]. apply gs_den_zero.
Qed.
Example gounaris_sakurai_case : 0 <= 0.13957 /\ 0 < 0.13957 + 0.13957 /\ 0 < 0.77337 /\ (0.13957 + 0.13957) ^ 2 < 0.77337 ^ 2.
Proof. repeat split; lra. Qed.
Print Assumptions gounaris_sakurai.
(** Refuted: the propagator is not continuous at s = 0, where the code has a separate formula: for every
    positive s below threshold that is small enough the denominator differs from its value at 0 by more
    than half of 2 (2 m)^2 gamma / (pi mres beta^3) *)
Theorem gs_continuous_refuted : exists mres gamma m jump, 0 < m /\ (m + m) ^ 2 < mres ^ 2 /\ 0 < gamma /\ 0 < jump
  /\ exists delta, 0 < delta /\ forall s, 0 < s < delta ->
       jump <= fst (gs_den s mres gamma m m) - fst (gs_den 0 mres gamma m m).
Proof.
  set (b := beta (4 ^ 2) 1 1). set (J := 2 * (1 + 1) ^ 2 * 1 / (PI * 4 * b ^ 3)).
  destruct (beta_range 1 1 ltac:(lra) ltac:(lra) ltac:(lra) (4 ^ 2) ltac:(lra)) as [[B1 B2] _]. fold b in B1, B2.
  pose proof PI_RGT_0 as Pp. assert (PJ : 0 < J).
  { unfold J. apply Rdiv_lt_0_compat; [lra|]. apply Rmult_lt_0_compat; [lra|now apply pow_lt]. }
  exists 4, 1, 1, (J / 2). split; [lra|]. split; [lra|]. split; [lra|]. split; [lra|].
  set (K := Rabs (1 + dhhatds 4 1 1 1) + 1). assert (PK : 1 <= K) by (unfold K; pose proof (Rabs_pos (1 + dhhatds 4 1 1 1)); lra).
  exists (Rmin 4 (J / (2 * K))). split.
  { apply Rmin_glb_lt; [lra|]. apply Rdiv_lt_0_compat; lra. }
  intros s [Hs Hd]. pose proof (Rmin_l 4 (J / (2 * K))). pose proof (Rmin_r 4 (J / (2 * K))).
  rewrite (gs_den_zero 4 1 1 1). cbn [fst]. rewrite (gs_den_jump 4 1 1 s ltac:(lra)). fold b. fold J.
  assert (s * (1 + dhhatds 4 1 1 1) <= s * K).
  { apply Rmult_le_compat_l; [lra|]. unfold K. pose proof (Rle_abs (1 + dhhatds 4 1 1 1)). lra. }
  assert (s * K <= J / 2).
  { apply Rle_trans with (J / (2 * K) * K); [apply Rmult_le_compat_r; lra|]. right. field. lra. }
  lra.
Qed.
Print Assumptions gs_continuous_refuted.

(** * C99: calling the two-body form factors *)
(** The particles of a state by name, their masses, and the currents that produce them *)
Inductive meson : Type := Pion | Pion0 | Kaon | Kaon0 | Eta | Omega | Phi | Photon.
Definition meson_mass (M : vff_masses) (p : meson) : R :=
  match p with
  | Pion => v_mpi M | Pion0 => v_mpi0 M | Kaon => v_mk M | Kaon0 => v_mk0 M | Eta => v_meta M | Omega => v_momega M
  | Phi => v_mphi M | Photon => 0
  end.
Definition content (st : two_body_state) : meson * meson :=
  match st with
  | S_PiPi => (Pion, Pion) | S_Pi0Pi0 => (Pion0, Pion0) | S_KK => (Kaon, Kaon) | S_K0K0 => (Kaon0, Kaon0)
  | S_PiGamma => (Pion0, Photon) | S_EtaGamma => (Eta, Photon) | S_PiPhi => (Pion0, Phi) | S_EtaPhi => (Eta, Phi)
  | S_EtaOmega => (Eta, Omega) | S_PiOmega => (Pion0, Omega)
  end.
(** Squared current of the second particle, and the factor that brings the form factor from GeV to MeV: it has the
    dimension of an inverse energy unless both particles are pseudoscalars *)
Definition squared_current (M : vff_masses) (a b : meson) (q : R) (p1 p2 : vec) : R :=
  match b with
  | Photon => contracted_pol (q ^ 2) p2 0 (current_pv (vplus p1 p2) p2)
  | Omega | Phi => contracted_pol (q ^ 2) p2 (1 / meson_mass M b ^ 2) (current_pv (vplus p1 p2) p1)
  | _ => contracted (q ^ 2) (current_pp p1 p2)
  end.
Definition to_mev (b : meson) : R := match b with Photon | Omega | Phi => 1 / 1000 | _ => 1 end.
Theorem two_body_width_formula : forall M core kk_rest kk_phi st a b q p1 p2, masses_positive M -> st <> S_K0K0 -> content st = (a, b) ->
  meson_mass M a + meson_mass M b < q -> event q [meson_mass M a; meson_mass M b] [p1; p2] ->
  form_factor M core kk_rest kk_phi st (Array [q]) = Ret (CArray [cscale (to_mev b) (core st (q / 1000))])
    /\ tb_width M core kk_rest kk_phi st (Scalar q)
       = Ret (Scalar (sqrt (px p1 ^ 2 + py p1 ^ 2 + pz p1 ^ 2) / (8 * PI)
                      * (cabs2 (cscale (to_mev b) (core st (q / 1000))) * squared_current M a b q p1 p2))).
Proof.
  intros M core kr kp st a b q p1 p2 Hm Hst Hc Ht Ev.
  assert (Em : tb_masses M st = (meson_mass M a, meson_mass M b)) by (destruct st; injection Hc as <- <-; reflexivity).
  assert (T : tb_threshold M st < q) by (unfold tb_threshold; rewrite Em; exact Ht).
  assert (Ec : tb_contracted M st q p1 p2 = squared_current M a b q p1 p2) by (destruct st; injection Hc as <- <-; reflexivity).
  assert (Ef : ff_at M core st q = cscale (to_mev b) (core st (q / 1000))).
  { unfold ff_at. replace (q * (1 / 1000)) with (q / 1000) by field. destruct (above _ _) eqn:E.
    2:{ exfalso. apply not_true_iff_false in E. apply E, above_true. lra. }
    destruct st; injection Hc as <- <-; unfold cscale; cbn [fst snd scale_inside scale_array to_mev]; f_equal; ring. }
  split.
  - rewrite form_factor_array by exact Hst. cbn [map]. now rewrite Ef.
  - rewrite width_scalar by exact Hst. rewrite (width_at_events M core st q p1 p2 Hm T) by (rewrite Em; exact Ev). now rewrite Ef, Ec.
Qed.
Theorem two_body_width_pointwise : forall M core kk_rest kk_phi st qs, st <> S_K0K0 ->
  exists ws, tb_width M core kk_rest kk_phi st (Array qs) = Ret (Array ws)
    /\ Forall2 (fun q w => tb_width M core kk_rest kk_phi st (Scalar q) = Ret (Scalar w) /\ (q <= meson_mass M (fst (content st)) + meson_mass M (snd (content st)) -> w = 0)) qs ws.
Proof.
  intros M core kr kp st qs H. exists (map (width_at M core st) qs). split; [now apply width_array|].
  induction qs as [|q qs IH]; [constructor|]. constructor; [|exact IH]. split; [now apply width_scalar|].
  intros Hq. unfold width_at. destruct (above (tb_threshold M st) q) eqn:E; [|reflexivity]. apply above_true in E.
  exfalso. destruct st; cbn [content fst snd meson_mass] in Hq; unfold tb_threshold in E; cbn [tb_masses fst snd] in E; lra.
Qed.
(** Full claim: a number and a one-element array give the same form factor.  Proved for the states without
    a factor on arrays only *)
Theorem form_factor_scalar_partial : forall M core kk_rest kk_phi st q, In st [S_PiPi; S_Pi0Pi0; S_KK; S_K0K0; S_EtaGamma] ->
  exists F j, form_factor M core kk_rest kk_phi st (Scalar q) = Ret (CScalar F) /\ form_factor M core kk_rest kk_phi st (Array [q]) = Ret (CArray [F])
    /\ integrated_form_factor M core kk_rest kk_phi st (Scalar q) = Ret (Scalar j)
    /\ integrated_form_factor M core kk_rest kk_phi st (Array [q]) = Ret (Array [j]).
Proof.
  intros M core kr kp st q H.
  assert (E : exists z, ff_masked M core kr kp st [q] = Ret [z]).
  { destruct (st) eqn:Es; cbn [In] in H; try (exfalso; intuition discriminate);
      try (rewrite ff_masked_map by discriminate; eexists; reflexivity).
    unfold ff_masked. cbn [map filter]. destruct (above _ _) eqn:Ea; cbn [core_array map scatter]; rewrite Ea; eexists; reflexivity. }
  destruct E as [z E]. exists z.
  assert (Sc : cscale (scale_array st) z = z).
  { destruct z as [a b]. unfold cscale. cbn [fst snd]. destruct st; cbn [In] in H; try (exfalso; intuition discriminate); cbn [scale_array]; f_equal; ring. }
  destruct (tb_masses M st) as [ma mb] eqn:Em.
  eexists. split; [unfold form_factor; rewrite E; reflexivity|]. split; [unfold form_factor; rewrite E; cbn [bind map]; now rewrite Sc|].
  unfold integrated_form_factor, form_factor. rewrite Em, E. cbn [bind map combine fst snd]. rewrite Sc. split; reflexivity.
Qed.
(** The others: the number differs from the array by a factor of a thousand, the integrated form factor
    by a million *)
Theorem form_factor_scalar_units : forall M core kk_rest kk_phi st q, In st [S_PiGamma; S_EtaOmega; S_EtaPhi; S_PiOmega; S_PiPhi] ->
  exists F j, form_factor M core kk_rest kk_phi st (Array [q]) = Ret (CArray [F])
    /\ form_factor M core kk_rest kk_phi st (Scalar q) = Ret (CScalar (cscale 1000 F))
    /\ integrated_form_factor M core kk_rest kk_phi st (Array [q]) = Ret (Array [j])
    /\ integrated_form_factor M core kk_rest kk_phi st (Scalar q) = Ret (Scalar (10 ^ 6 * j)).
Proof.
  intros M core kr kp st q H. assert (Hs : st <> S_K0K0) by (intros ->; cbn in H; intuition discriminate).
  assert (Es : / scale_array st = 1000) by (destruct st; cbn [In] in H; try (exfalso; intuition discriminate); cbn [scale_array]; field).
  exists (ff_at M core st q), (iff_at M core st q). split; [now rewrite form_factor_array|].
  split; [rewrite form_factor_scalar by exact Hs; now rewrite Es|]. split.
  - pose proof (iff_array_map M core kr kp st [q] Hs) as A. unfold iff_array in A.
    destruct (integrated_form_factor M core kr kp st (Array [q])) as [[x|l]|e]; cbn [bind] in A; try discriminate.
    injection A as ->. reflexivity.
  - rewrite iff_scalar by exact Hs. rewrite Es. do 2 f_equal. ring.
Qed.
(** Values to apply them to: unit form factors and the masses of the code *)
Definition code_masses : vff_masses := MkVffMasses 139.57039 134.9768 493.677 497.611 547.862 782.65 1019.461.
Example two_body_cases : masses_positive code_masses /\ meson_mass code_masses Pion + meson_mass code_masses Pion < 2 * sqrt (139.57039 ^ 2 + 100 ^ 2)
  /\ event (2 * sqrt (139.57039 ^ 2 + 100 ^ 2)) [139.57039; 139.57039]
       [V4 (sqrt (139.57039 ^ 2 + 100 ^ 2)) 0 0 100; V4 (sqrt (139.57039 ^ 2 + 100 ^ 2)) 0 0 (-100)]
  /\ In S_PiPi [S_PiPi; S_Pi0Pi0; S_KK; S_K0K0; S_EtaGamma] /\ In S_PiOmega [S_PiGamma; S_EtaOmega; S_EtaPhi; S_PiOmega; S_PiPhi].
Proof.
  assert (P : 0 <= 139.57039 ^ 2 + 100 ^ 2) by lra. pose proof (pow2_sqrt _ P) as Sq. pose proof (sqrt_pos (139.57039 ^ 2 + 100 ^ 2)) as Sp.
  set (e := sqrt _) in *. assert (G : 139.57039 < e) by nra. clearbody e.
  split; [unfold masses_positive, code_masses; cbn; repeat split; lra|].
  split; [unfold code_masses; cbn; lra|]. split.
  - split.
    + repeat (apply Forall2_cons; [split; cbn [en px py pz]; lra|]). apply Forall2_nil.
    + rewrite !vsum_cons. apply vec_eq; cbn [vplus vsum fold_right en px py pz]; lra.
  - split; cbn; tauto.
Qed.
Print Assumptions two_body_width_formula.
Print Assumptions two_body_width_pointwise.
Print Assumptions form_factor_scalar_partial.
Print Assumptions form_factor_scalar_units.
(** Refuted for two neutral kaons: the same energy twice in an array gives two widths *)
Theorem neutral_kaon_width_refuted : exists M core kk_rest kk_phi q w1 w2, masses_positive M
  /\ tb_width M core kk_rest kk_phi S_K0K0 (Array [q; q]) = Ret (Array [w1; w2]) /\ 0 < w2 /\ w1 = 1.055 ^ 2 * w2.
Proof.
  set (M := MkVffMasses 1 1 1 1 1 1 1). set (kr := fun _ : R => (0, 0) : cplx). set (kp := fun _ : R => (1, 0) : cplx).
  exists M, (fun _ => kp), kr, kp, 4.
  set (c := 0.5 * 4 * (two_body_phase_space_prefactor 4 1 1 * lorentz_pp 1 1 4)).
  exists (c * 1.055 ^ 2), c. split; [unfold masses_positive, M; cbn; repeat split; lra|].
  assert (T : tb_threshold M S_K0K0 = 1 + 1) by reflexivity.
  split; [|split].
  - unfold tb_width, base_width, base_width_array. rewrite T. cbn [filter].
    assert (A : above (1 + 1) 4 = true) by (apply above_true; lra). rewrite A.
    unfold iff_array, integrated_form_factor, form_factor, ff_masked. cbn [tb_masses]. rewrite T. cbn [map filter].
    rewrite above_gev, A. cbn [core_array map scatter]. rewrite above_gev, A. cbn [bind map combine fst snd scatter].
    change (tb_lorentz M S_K0K0 4) with (lorentz_pp 1 1 4). change (v_mk0 M) with 1. do 2 f_equal.
    unfold c, cabs2, cscale, cadd, kr, kp. cbn [fst snd scale_inside scale_array].
    set (p := two_body_phase_space_prefactor 4 1 1). set (l := lorentz_pp 1 1 4). clearbody p l.
    set (pl := p * l). f_equal; [|f_equal]; unfold pl; nra.
  - assert (0 < two_body_phase_space_prefactor 4 1 1).
    { unfold two_body_phase_space_prefactor. rewrite Rmax_left by (unfold kallen_lambda; lra). pose proof PI_RGT_0.
      apply Rdiv_lt_0_compat; [apply sqrt_lt_R0; unfold kallen_lambda; lra|lra]. }
    assert (0 < lorentz_pp 1 1 4) by (unfold lorentz_pp; lra).
    unfold c. apply Rmult_lt_0_compat; [lra|]. now apply Rmult_lt_0_compat.
  - ring.
Qed.
Print Assumptions neutral_kaon_width_refuted.

(** * C101: isospin couplings *)
(** The parts of the electromagnetic quark current: coefficients of up, down and strange in the isoscalar, isovector and
    strange currents *)
Definition isoscalar : R * R * R := (1 / 6, 1 / 6, 0).
Definition isovector : R * R * R := (1 / 2, - (1 / 2), 0).
Definition strange : R * R * R := (0, 0, - (1 / 3)).
Definition combination (a b c : R) (u v w : R * R * R) : R * R * R :=
  (a * fst (fst u) + b * fst (fst v) + c * fst (fst w), a * snd (fst u) + b * snd (fst v) + c * snd (fst w), a * snd u + b * snd v + c * snd w).
Theorem isospin_couplings : forall gu gd gs c0 c1 cs,
  vector_couplings_to_isospin gu gd gs = (c0, c1, cs) <-> combination c0 c1 cs isoscalar isovector strange = (gu, gd, gs).
Proof.
  intros. unfold vector_couplings_to_isospin, combination, isoscalar, isovector, strange. cbn [fst snd]. split; intro H; injection H; intros; repeat apply (f_equal2 pair); lra.
Qed.
Example isospin_photon : vector_couplings_to_isospin (2 / 3) (- (1 / 3)) (- (1 / 3)) = (1, 1, 1)
  /\ combination 1 1 1 isoscalar isovector strange = (2 / 3, - (1 / 3), - (1 / 3)).
Proof. split; [|]; [apply isospin_couplings|]; unfold combination, isoscalar, isovector, strange; cbn [fst snd]; repeat apply (f_equal2 pair); lra. Qed.
Print Assumptions isospin_couplings.
