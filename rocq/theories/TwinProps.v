(** The form factors kept in hazma/vector_mediator/form_factors (old tree) and those of
    hazma/form_factors/vector (new tree), with the default fits of both: where they predict the same widths and
    cross sections, and where not. *)
From Coq Require Import Reals Bool List ZArith Lra Lia.
From Verif Require Import RamboProofs KinProofs KinProps DalitzProofs Area Primitive PionProofs RhnProofs.
From Verif Require Import PyBase RamboModel KinModel VffModel RareModel FourPiModel FitModel OldModel TwinModel.
From Verif Require Import FitProofs VffProofs OldProofs TwinProofs.
Import ListNotations.
Local Open Scope R_scope.

(** * C165: two-body widths *)
(** For every mass of the mediator, below, at and above threshold, and all quark couplings the two trees give the
    same width, except into a pion and a photon *)
Theorem trees_agree_on_widths gamma beta_of npi nk c st mv : (6 <= npi)%nat -> (6 <= nk)%nat -> st <> S_PiGamma ->
  exists w, owidth gamma beta_of npi nk c st mv = Some w /\ new_width gamma beta_of npi nk c st (Scalar mv) = Ret (Scalar w).
Proof.
  intros H1 H2 Hs. replace npi with (6 + (npi - 6))%nat by lia. replace nk with (6 + (nk - 6))%nat by lia.
  rewrite new_width_value. destruct (above (othreshold st) mv) eqn:A.
  - apply above_true in A. eexists. split; [apply (owidth_above gamma beta_of (npi - 6) (nk - 6) c st mv Hs A)|reflexivity].
  - exists 0. split; [|reflexivity]. apply owidth_below. destruct (Rlt_dec (othreshold st) mv) as [X|X]; [|lra].
    apply above_true in X. rewrite X in A. discriminate A.
Qed.
Print Assumptions trees_agree_on_widths.
(** The default numbers of resonances and an energy above every threshold *)
Example trees_agree_on_widths_defaults gamma beta_of :
  Forall (fun st => othreshold st < 2000
     /\ exists w, owidth gamma beta_of 2000 200 (Quarks 1 (-1) 2) st 2000 = Some w
                  /\ new_width gamma beta_of 2000 200 (Quarks 1 (-1) 2) st (Scalar 2000) = Ret (Scalar w))
    [S_PiPi; S_Pi0Pi0; S_KK; S_K0K0; S_EtaGamma; S_PiPhi; S_EtaPhi; S_EtaOmega; S_PiOmega].
Proof.
  repeat constructor;
    try (unfold othreshold, par_mpi, par_mpi0, par_mk, par_mk0, par_meta, par_mphi, par_momega; lra);
    apply trees_agree_on_widths; first [apply Nat.leb_le; reflexivity|discriminate].
Qed.

(** Into a pion and a photon the widths differ, here by more than a factor of ten *)
Theorem trees_agree_on_pion_photon_refuted : exists c mv w w', forall gamma beta_of npi nk,
  owidth gamma beta_of npi nk c S_PiGamma mv = Some w /\ new_width gamma beta_of npi nk c S_PiGamma (Scalar mv) = Ret (Scalar w')
  /\ 0 < w /\ 10 * w < w'.
Proof.
  set (K := 0.5 * 2000 * (two_body_phase_space_prefactor 2000 par_mpi0 0 * lorentz_pa par_mpi0 2000) * (1 / 1000) ^ 2).
  set (A := 9 * 1.01952 ^ 4 * 0.00303 ^ 2 / ((1.01952 ^ 2 - 4) ^ 2 + (2 * 0.00421) ^ 2)).
  set (B := 4 * PI * alem * (2 * (0.007594981126020603 * 4 * 4 / (3 * 0.09266)) ^ 2 * 0.06460651106718258 ^ 2) * (9 / ((4 - 1.01946 ^ 2) ^ 2 + (2 * 0.004247) ^ 2))).
  assert (HK : 0 < K).
  { unfold K. apply Rmult_lt_0_compat; [|apply pow_lt; lra]. apply Rmult_lt_0_compat; [lra|]. pose proof PI_RGT_0 as P.
    apply Rmult_lt_0_compat.
    - unfold two_body_phase_space_prefactor. cbv zeta. apply Rmult_lt_0_compat; [|apply Rinv_0_lt_compat, Rmult_lt_0_compat; lra].
      apply sqrt_lt_R0. unfold kallen_lambda, par_mpi0. rewrite Rmax_left; lra.
    - unfold lorentz_pa, par_mpi0. cbv zeta. lra. }
  destruct strange_gap as [A1 A2]. fold A in A1, A2. pose proof strange_gap_new as B1. fold B in B1.
  exists (Quarks 0 0 1), 2000, (K * A), (K * B). intros gamma beta_of npi nk. split; [|split; [|split]].
  - unfold owidth. cbv zeta. cbn [othreshold]. rewrite masked_above by (unfold par_mpi0; lra). cbn [ocore gu gd gs].
    rewrite opi_gamma_strange by lra. rewrite cabs2_scale.
    replace ((2000 * (1 / 1000)) ^ 2) with (2 ^ 2) by field. replace (2000 * (1 / 1000) * 0.00421) with (2 * 0.00421) by lra.
    rewrite old_strange_size. fold A. replace (2 ^ 2 * A) with (2000 ^ 2 * ((1 / 1000) ^ 2 * A)) by field.
    rewrite pa_width_twin by (unfold par_mpi0; lra). f_equal. unfold K. ring.
  - rewrite new_width_value. replace (above (othreshold S_PiGamma) 2000) with true by (symmetry; apply above_true; unfold othreshold, par_mpi0; lra).
    do 2 f_equal. unfold new_j, new_ff. cbn [is_pp new_value new_core tb_masses fst snd new_masses v_mpi0]. unfold tb_lorentz. cbn [tb_masses new_masses v_mpi0].
    change 134.9768 with par_mpi0. rewrite cabs2_scale. replace (2000 * (1 / 1000)) with 2 by field. rewrite alpha_em_const by lra.
    rewrite pi_gamma_strange by lra. rewrite new_strange_size by (unfold alem; lra). fold B. unfold K. ring.
  - now apply Rmult_lt_0_compat.
  - assert (10 * A < B) by lra. nra.
Qed.
Print Assumptions trees_agree_on_pion_photon_refuted.

(** * C166: two-body cross sections *)
(** Above the thresholds of the initial and the final state, away from a pole on the real axis, the cross section of
    the new tree is that of the old one times the square of the coupling to dark matter, which the old one leaves to
    its callers *)
Theorem trees_agree_on_cross_sections gamma beta_of npi nk c st cme mx mv wv gvxx :
  (6 <= npi)%nat -> (6 <= nk)%nat -> st <> S_PiGamma -> othreshold st < cme -> regular cme mx mv wv ->
  exists x, ocross_section gamma beta_of npi nk c st cme mx mv wv = Some x
    /\ new_cross_section gamma beta_of npi nk c st cme mx mv gvxx wv = Some (gvxx ^ 2 * x).
Proof.
  intros H1 H2 Hs Ht Hr. replace npi with (6 + (npi - 6))%nat by lia. replace nk with (6 + (nk - 6))%nat by lia.
  eexists. split; [apply (ocross_above gamma beta_of (npi - 6) (nk - 6) c st cme mx mv wv Hs Ht Hr)|].
  apply (new_cross_above gamma beta_of _ _ c st cme mx mv wv gvxx Ht Hr).
Qed.
Print Assumptions trees_agree_on_cross_sections.
Example trees_agree_on_cross_sections_case : regular 2000 300 900 10 /\ Forall (fun st => othreshold st < 2000) [S_PiPi; S_K0K0; S_EtaGamma; S_EtaPhi].
Proof.
  split; [unfold regular; repeat split; lra|].
  repeat constructor; unfold othreshold, par_mpi, par_mk0, par_meta, par_mphi; lra.
Qed.
(** Below the threshold of the final state the new tree gives zero, the old one a value that is not a number *)
Theorem trees_agree_below_threshold_refuted : exists st cme mx mv wv gvxx, 2 * mx < cme /\ cme < othreshold st /\
  forall gamma beta_of npi nk c,
    ocross_section gamma beta_of npi nk c st cme mx mv wv = None
    /\ new_cross_section gamma beta_of npi nk c st cme mx mv gvxx wv = Some 0.
Proof.
  exists S_PiPi, 200, 50, 900, 10, 1. split; [lra|]. split; [unfold othreshold, par_mpi; lra|]. intros gamma beta_of npi nk c. split.
  - unfold ocross_section, cross_section_x_x_to_p_p, pow32. cbv zeta. destruct (Rlt_dec (-4 * par_mpi ^ 2 + 200 ^ 2) 0) as [_|X]; [reflexivity|].
    unfold par_mpi in X. lra.
  - apply new_cross_below. unfold othreshold, par_mpi. lra.
Qed.
Print Assumptions trees_agree_below_threshold_refuted.

(** * C167: three-body states *)
(** Each tree weights an event of three pions, energies in GeV in the old tree and in MeV in the new one, with the
    same number *)
Theorem trees_agree_on_three_pions q p1 p2 p3 c : 0 < q -> event (gev q) [gev par_mpi0; gev par_mpi; gev par_mpi] [p1; p2; p3] ->
  let s := 1000000 * lnorm_sqr (vplus p2 p3) in
  let t := 1000000 * lnorm_sqr (vplus p1 p3) in
  pi3_msqrd (gev par_mpi0) (gev par_mpi) (fun q2 s t u => cabs2 (opi3 q2 s t u c)) (gev q ^ 2) [p1; p2; p3]
  = Ret (q ^ 2 * (lorentz_ppp par_mpi0 par_mpi par_mpi q s t * cabs2 (pi3_form_factor new_pi3 q s t c))).
Proof. apply pi3_weight. Qed.
Print Assumptions trees_agree_on_three_pions.
Example trees_agree_on_three_pions_case : event (gev (par_mpi0 + 5 / 2 * par_mpi)) [gev par_mpi0; gev par_mpi; gev par_mpi]
  [V4 (gev par_mpi0) 0 0 0; V4 (5 / 4 * gev par_mpi) 0 0 (3 / 4 * gev par_mpi); V4 (5 / 4 * gev par_mpi) 0 0 (- (3 / 4 * gev par_mpi))].
Proof.
  split.
  - repeat constructor; cbn [en]; unfold lnorm_sqr; cbn [en px py pz]; unfold gev, par_mpi0, par_mpi; lra.
  - unfold vsum, vplus. cbn [fold_right en px py pz]. unfold gev.
    assert (X : forall a b c d a' b' c' d', a = a' -> b = b' -> c = c' -> d = d' -> V4 a b c d = V4 a' b' c' d') by (intros; subst; reflexivity).
    apply X; lra.
Qed.
(** Two kaons and a pion: the weight of the old tree is three times that of the new one, and its width divides by 6 m
    instead of 2 m *)
Theorem trees_agree_on_two_kaons_and_a_pion st q s t c : 0 < q ->
  let '(m1, m2, m3) := new_pikk_masses st in
  opikk_integrand st (s / 10 ^ 6) (t / 10 ^ 6) (q / 10 ^ 3) c / (6 * q)
  = q ^ 2 * (lorentz_ppp m1 m2 m3 q s t * cabs2 (new_pikk_mev st q s t c)) / (2 * q).
Proof.
  intros Hq. pose proof (pikk_weight st q s t c Hq) as E. destruct (new_pikk_masses st) as [[m1 m2] m3]. cbn [fst snd] in E.
  replace (s / 10 ^ 6) with (1 / 1000000 * s) by field. replace (t / 10 ^ 6) with (1 / 1000000 * t) by field.
  replace (q / 10 ^ 3) with (1 / 1000 * q) by field. rewrite E. field. lra.
Qed.
Print Assumptions trees_agree_on_two_kaons_and_a_pion.
(** Inside the physical region, where the weights are not zero *)
Example trees_agree_on_two_kaons_and_a_pion_case : Forall (fun st => let '(m1, m2, m3) := new_pikk_masses st in
  0 < lorentz_ppp m1 m2 m3 1500 600000 600000) [Pi0K0K0; Pi0KK; PiKK0].
Proof. unfold new_pikk_masses, lorentz_ppp. repeat (apply Forall_cons; [lra|]). apply Forall_nil. Qed.
(** The widths into two pions and an eta, an eta prime or an omega, when the quadrature of each tree returns the
    integral of its integrand *)
Definition integrates (quad : (R -> R) -> R -> R -> R) (f : R -> R) (a b : R) : Prop := area f a b (quad f a b).
Theorem trees_agree_on_pi_pi_eta quad quad' q c :
  (2 * par_mpi + par_meta <= q -> integrates quad (pieta_integrand (gev par_mpi) (gev par_meta) (fun cme s => cabs2 (opi_pi_eta cme s (gu c) (gd c))) (gev q))
      ((2 * gev par_mpi) ^ 2) ((gev q - gev par_meta) ^ 2)) ->
  (2 * par_mpi + par_meta < q -> integrates quad' (ppp2_integrand par_meta par_mpi par_mpi (fun q s => cabs2 (new_pi_pi_eta_mev q s c)) q)
      (fst (ppp2_limits par_meta par_mpi par_mpi q)) (snd (ppp2_limits par_meta par_mpi par_mpi q))) ->
  old_pieta_width quad q c = new_pieta_width quad' q c.
Proof.
  intros A A'. apply (pieta_width_twin quad quad' par_meta (fun cme s => cabs2 (opi_pi_eta cme s (gu c) (gd c))) (fun q s => cabs2 (new_pi_pi_eta_mev q s c)) q).
  - unfold par_meta. lra.
  - intros s. rewrite pi_pi_eta_twin. apply cabs2_scale.
  - exact A.
  - exact A'.
Qed.
Print Assumptions trees_agree_on_pi_pi_eta.
Theorem trees_agree_on_pi_pi_etap quad quad' q c :
  (2 * par_mpi + par_metap <= q -> integrates quad (pieta_integrand (gev par_mpi) (gev par_metap) (fun cme s => cabs2 (opi_pi_etap cme s (gu c) (gd c))) (gev q))
      ((2 * gev par_mpi) ^ 2) ((gev q - gev par_metap) ^ 2)) ->
  (2 * par_mpi + par_metap < q -> integrates quad' (ppp2_integrand par_metap par_mpi par_mpi (fun q s => cabs2 (new_pi_pi_etap_mev q s c)) q)
      (fst (ppp2_limits par_metap par_mpi par_mpi q)) (snd (ppp2_limits par_metap par_mpi par_mpi q))) ->
  old_pietap_width quad q c = new_pietap_width quad' q c.
Proof.
  intros A A'. apply (pieta_width_twin quad quad' par_metap (fun cme s => cabs2 (opi_pi_etap cme s (gu c) (gd c))) (fun q s => cabs2 (new_pi_pi_etap_mev q s c)) q).
  - unfold par_metap. lra.
  - intros s. rewrite pi_pi_etap_twin. apply cabs2_scale.
  - exact A.
  - exact A'.
Qed.
Print Assumptions trees_agree_on_pi_pi_etap.
(** The integrals exist for every coupling, energy 2 GeV *)
Example trees_agree_on_pi_pi_eta_case c :
  exists v w v' w',
    area (pieta_integrand (gev par_mpi) (gev par_meta) (fun cme s => cabs2 (opi_pi_eta cme s (gu c) (gd c))) (gev 2000))
      ((2 * gev par_mpi) ^ 2) ((gev 2000 - gev par_meta) ^ 2) v
    /\ area (ppp2_integrand par_meta par_mpi par_mpi (fun q s => cabs2 (new_pi_pi_eta_mev q s c)) 2000)
      (fst (ppp2_limits par_meta par_mpi par_mpi 2000)) (snd (ppp2_limits par_meta par_mpi par_mpi 2000)) w
    /\ area (pieta_integrand (gev par_mpi) (gev par_metap) (fun cme s => cabs2 (opi_pi_etap cme s (gu c) (gd c))) (gev 2000))
      ((2 * gev par_mpi) ^ 2) ((gev 2000 - gev par_metap) ^ 2) v'
    /\ area (ppp2_integrand par_metap par_mpi par_mpi (fun q s => cabs2 (new_pi_pi_etap_mev q s c)) 2000)
      (fst (ppp2_limits par_metap par_mpi par_mpi 2000)) (snd (ppp2_limits par_metap par_mpi par_mpi 2000)) w'.
Proof.
  destruct (pieta_exists (gev 2000) (gev par_meta) (gev par_mpi) (fun cme s => cabs2 (opi_pi_eta cme s (gu c) (gd c)))) as [v A];
    try (unfold gev, par_meta, par_mpi; lra).
  { intros s Hs. unfold opi_pi_eta. apply eta_sum_continuous; [unfold gev, par_mpi; lra|lra|apply Hs]. }
  destruct (pieta_exists (gev 2000) (gev par_metap) (gev par_mpi) (fun cme s => cabs2 (opi_pi_etap cme s (gu c) (gd c)))) as [v' A'];
    try (unfold gev, par_metap, par_mpi; lra).
  { intros s Hs. unfold opi_pi_etap. apply eta_sum_continuous; [unfold gev, par_mpi; lra|lra|apply Hs]. }
  exists v. eexists. exists v'. eexists. split; [exact A|]. split; [|split; [exact A'|]].
  - refine (pieta_area_twin par_meta par_mpi (fun cme s => cabs2 (opi_pi_eta cme s (gu c) (gd c))) _ 2000 v _ _ _ _ _ A);
      try (unfold par_meta, par_mpi; lra). intros s. rewrite pi_pi_eta_twin. apply cabs2_scale.
  - refine (pieta_area_twin par_metap par_mpi (fun cme s => cabs2 (opi_pi_etap cme s (gu c) (gd c))) _ 2000 v' _ _ _ _ _ A');
      try (unfold par_metap, par_mpi; lra). intros s. rewrite pi_pi_etap_twin. apply cabs2_scale.
Qed.
Theorem trees_agree_on_pi_pi_omega quad quad' q c :
  (2 * par_mpi + par_momega <= q ->
     integrates quad (piomega_integrand (gev par_mpi / gev q) (gev par_momega / gev q) (cabs2 (opi_pi_omega (gev q) (gu c) (gd c))))
       ((2 * (gev par_mpi / gev q)) ^ 2) ((1 - gev par_momega / gev q) ^ 2)) ->
  (2 * par_mpi + par_momega < q ->
     integrates quad' (ppv_integrand (par_momega, par_mpi, par_mpi) q) (2 * (par_momega / q)) ((par_momega / q) ^ 2 + (1 - (par_mpi / q + par_mpi / q) ^ 2))) ->
  old_piomega_width quad false q c = new_piomega_width quad' false q c.
Proof. apply piomega_width_twin. Qed.
Print Assumptions trees_agree_on_pi_pi_omega.
Example trees_agree_on_pi_pi_omega_case c : exists v w,
  area (piomega_integrand (gev par_mpi / gev 2000) (gev par_momega / gev 2000) (cabs2 (opi_pi_omega (gev 2000) (gu c) (gd c))))
     ((2 * (gev par_mpi / gev 2000)) ^ 2) ((1 - gev par_momega / gev 2000) ^ 2) v
  /\ area (ppv_integrand (par_momega, par_mpi, par_mpi) 2000) (2 * (par_momega / 2000)) ((par_momega / 2000) ^ 2 + (1 - (par_mpi / 2000 + par_mpi / 2000) ^ 2)) w.
Proof.
  destruct (omega_integrand_area (gev par_mpi / gev 2000) (gev par_momega / gev 2000) (cabs2 (opi_pi_omega (gev 2000) (gu c) (gd c)))) as [v A];
    try (unfold gev, par_mpi, par_momega; lra).
  destruct (ppv_exists 2000 par_momega par_mpi) as [w B]; try (unfold par_mpi, par_momega; lra). now exists v, w.
Qed.
(** Two neutral pions and an omega: the old tree uses the mass of the charged pion, so between the two thresholds its
    width is zero and that of the new tree is not *)
Theorem trees_agree_on_neutral_pi_pi_omega_refuted : exists q c, forall quad quad',
  integrates quad' (ppv_integrand (par_momega, par_mpi0, par_mpi0) q) (2 * (par_momega / q)) ((par_momega / q) ^ 2 + (1 - (par_mpi0 / q + par_mpi0 / q) ^ 2)) ->
  old_piomega_width quad true q c = 0 /\ 0 < new_piomega_width quad' true q c.
Proof.
  exists 1055, (Quarks 1 1 0). intros quad quad' A. split.
  - unfold old_piomega_width, piomega_width. destruct (Rlt_dec 1055 (2 * par_mpi + par_momega)) as [_|X]; [reflexivity|]. unfold par_mpi, par_momega in X. lra.
  - unfold new_piomega_width. cbv zeta. rewrite pi_pi_omega_twin. pose proof PI_RGT_0 as P.
    assert (F : 0 < cabs2 (opi_pi_omega (gev 1055) (gu (Quarks 1 1 0)) (gd (Quarks 1 1 0)))) by (apply omega_fit_positive; [unfold gev; lra|cbn; lra]).
    set (f := cabs2 _) in *. clearbody f. change 782.66 with par_momega. change 134.9768 with par_mpi0.
    unfold integrates in A. apply area_pos in A.
    + unfold ppv_integrated. cbv zeta. destruct (Rlt_dec (par_momega + par_mpi0 + par_mpi0) 1055) as [_|X]; [|unfold par_momega, par_mpi0 in X; lra].
      apply Rmult_lt_0_compat; [lra|]. apply Rmult_lt_0_compat; [lra|]. apply Rmult_lt_0_compat; [|exact A].
      apply Rmult_lt_0_compat; [exact F|]. apply Rinv_0_lt_compat. apply Rmult_lt_0_compat; [assert (0 < PI ^ 3) by (apply pow_lt; exact P); lra|].
      apply pow_lt. unfold par_momega. lra.
    + unfold par_momega, par_mpi0. lra.
    + intros x Hx. apply ppv_integrand_positive; try (unfold par_momega, par_mpi0; lra). exact Hx.
Qed.
Print Assumptions trees_agree_on_neutral_pi_pi_omega_refuted.
Example trees_agree_on_neutral_pi_pi_omega_case : exists v,
  area (ppv_integrand (par_momega, par_mpi0, par_mpi0) 1055) (2 * (par_momega / 1055)) ((par_momega / 1055) ^ 2 + (1 - (par_mpi0 / 1055 + par_mpi0 / 1055) ^ 2)) v.
Proof. apply ppv_exists; unfold par_momega, par_mpi0; lra. Qed.
