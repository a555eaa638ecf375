(** Properties of phase-space kinematics (C18-C23, C63, C72). *)
From Coq Require Import Reals Lra Psatz Lia Arith ZArith Bool List.
From Verif Require Import PyBase RamboModel RamboProofs RamboProps KinModel KinProofs DalitzProofs Area.
Import ListNotations.
Local Open Scope R_scope.

(** * C63: two-body kinematics *)
Theorem kallen_symmetric : forall a b c, kallen_lambda a b c = kallen_lambda b a c /\ kallen_lambda a b c = kallen_lambda a c b.
Proof. intros. unfold kallen_lambda. split; ring. Qed.
Print Assumptions kallen_symmetric.
Theorem kallen_threshold : forall c m1 m2, 0 <= m1 -> 0 <= m2 -> 0 < c ->
  (m1 + m2 <= c -> 0 <= kallen_lambda (c ^ 2) (m1 ^ 2) (m2 ^ 2)) /\
  (Rabs (m1 - m2) < c < m1 + m2 -> kallen_lambda (c ^ 2) (m1 ^ 2) (m2 ^ 2) < 0).
Proof.
  intros c m1 m2 H1 H2 Hc. rewrite kallen_factor. split.
  - intro H. apply Rmult_le_pos; apply Rmult_le_pos; lra.
  - intros [A B]. assert (- c < m1 - m2 < c) by (revert A; unfold Rabs; destruct (Rcase_abs (m1 - m2)); lra).
    assert (P : 0 < (c - m1 + m2) * (c + m1 - m2)) by (apply Rmult_lt_0_compat; lra).
    assert (N : 0 < (m1 + m2 - c) * (c + m1 + m2)) by (apply Rmult_lt_0_compat; lra). nra.
Qed.
Example kallen_threshold_case : 3 + 4 <= 8 /\ Rabs (3 - 4) < 5 < 3 + 4.
Proof. split; [lra|]. split; [|lra]. rewrite Rabs_left; lra. Qed.
Print Assumptions kallen_threshold.

(** The momentum is the only one with which the two energies add up to cme. *)
Theorem two_body_momentum_exact : forall c m1 m2, 0 < c -> 0 <= m1 -> 0 <= m2 -> m1 + m2 <= c ->
  0 <= two_body_momentum c m1 m2
  /\ hypot (two_body_momentum c m1 m2) m1 + hypot (two_body_momentum c m1 m2) m2 = c
  /\ forall p, 0 <= p -> hypot p m1 + hypot p m2 = c -> p = two_body_momentum c m1 m2.
Proof.
  intros c m1 m2 Hc H1 H2 Ht. split; [now apply two_body_sq|]. split; [now apply two_body_energy|].
  intros p Hp E. now apply two_body_unique.
Qed.
Example two_body_momentum_case : two_body_momentum 10 4 4 = 3.
Proof. symmetry. apply two_body_unique; try lra. unfold hypot. replace (3 * 3 + 4 * 4) with (5 * 5) by ring. rewrite sqrt_square; lra. Qed.
Print Assumptions two_body_momentum_exact.
(** It vanishes exactly at threshold, and the flux factor is 1 / (4 p cme). *)
Theorem two_body_momentum_threshold : forall c m1 m2, 0 < c -> 0 <= m1 -> 0 <= m2 -> m1 + m2 <= c ->
  (two_body_momentum c m1 m2 = 0 <-> c = m1 + m2) /\
  (c <> m1 + m2 -> 0 < cross_section_prefactor m1 m2 c /\
     cross_section_prefactor m1 m2 c ^ 2 * (4 * kallen_lambda (c ^ 2) (m1 ^ 2) (m2 ^ 2)) = 1).
Proof.
  intros c m1 m2 Hc H1 H2 Ht. destruct (two_body_sq c m1 m2 Hc H1 H2 Ht) as [Hp Hs].
  assert (Z : two_body_momentum c m1 m2 = 0 <-> c = m1 + m2).
  { split; intro E.
    - pose proof (two_body_energy c m1 m2 Hc H1 H2 Ht) as T. rewrite E in T. unfold hypot in T.
      replace (0 * 0 + m1 * m1) with (m1 * m1) in T by ring. replace (0 * 0 + m2 * m2) with (m2 * m2) in T by ring.
      rewrite !sqrt_square in T by assumption. lra.
    - symmetry. apply two_body_unique; try lra. unfold hypot.
      replace (0 * 0 + m1 * m1) with (m1 * m1) by ring. replace (0 * 0 + m2 * m2) with (m2 * m2) by ring.
      rewrite !sqrt_square by assumption. lra. }
  split; [exact Z|]. intro Hn. assert (P : 0 < two_body_momentum c m1 m2).
  { destruct Hp as [Hp|Hp]; [assumption|]. exfalso. apply Hn. apply Z. now symmetry. }
  unfold cross_section_prefactor. set (p := two_body_momentum c m1 m2) in *. split.
  - apply Rdiv_lt_0_compat; [lra|]. apply Rmult_lt_0_compat; lra.
  - rewrite <- Hs. field. lra.
Qed.
Example two_body_momentum_threshold_case : 4 + 4 <= 10 /\ 10 <> 4 + 4.
Proof. split; lra. Qed.
Print Assumptions two_body_momentum_threshold.

(** The momenta of the radiation module and the energies of the mediator cascade. *)
Theorem fsr_momenta_exact : forall c m1 m2 ct, 0 < c -> 0 <= m1 -> 0 <= m2 -> m1 + m2 <= c -> -1 <= ct <= 1 ->
  event c [m1; m2] [fst (two_body_momenta c m1 m2 ct); snd (two_body_momenta c m1 m2 ct)]
  /\ pz (fst (two_body_momenta c m1 m2 ct)) = two_body_momentum c m1 m2 * ct.
Proof.
  intros c m1 m2 ct Hc H1 H2 Ht Hct. destruct (two_body_sq c m1 m2 Hc H1 H2 Ht) as [Hp Hs].
  pose proof (two_body_hypot c m1 m2 Hc H1 H2 Ht) as E1. pose proof (two_body_energy c m1 m2 Hc H1 H2 Ht) as Es.
  unfold two_body_momenta. cbn [fst snd]. rewrite <- E1.
  set (p := two_body_momentum c m1 m2) in *.
  replace (hypot p m1 ^ 2 - m1 ^ 2) with (p ^ 2) by (rewrite hypot_sq; ring).
  rewrite (Rmax_left (p ^ 2)) by apply pow2_ge_0. rewrite (Rmax_left (1 - ct ^ 2)) by nra. rewrite sqrt_pow2 by assumption.
  set (st := sqrt (1 - ct ^ 2)). assert (S : st ^ 2 = 1 - ct ^ 2) by (apply pow2_sqrt; nra).
  replace (c - hypot p m1) with (hypot p m2) by lra. split.
  - split; [apply Forall2_cons; [|apply Forall2_cons; [|apply Forall2_nil]]|].
    + split; cbn [en px py pz]; [|now apply hypot_ge]. rewrite hypot_sq. replace ((p * st) ^ 2) with (p ^ 2 * st ^ 2) by ring. rewrite S. ring.
    + split; cbn [en px py pz]; [|now apply hypot_ge]. rewrite hypot_sq. replace ((- p * st) ^ 2) with (p ^ 2 * st ^ 2) by ring. rewrite S. ring.
    + apply vec_eq; cbn [vsum vplus fold_right en px py pz]; try ring. lra.
  - reflexivity.
Qed.
Example fsr_momenta_case : 4 + 4 <= 10 /\ -1 <= 1 / 3 <= 1.
Proof. lra. Qed.
Print Assumptions fsr_momenta_exact.
Theorem cascade_energies_exact : forall mpi0 mv c, 0 < c -> 0 <= mpi0 -> 0 <= mv -> mpi0 + mv <= c ->
  fst (pi0v_energies mpi0 mv c) = hypot (two_body_momentum c mpi0 mv) mpi0
  /\ snd (pi0v_energies mpi0 mv c) = hypot (two_body_momentum c mpi0 mv) mv
  /\ fst (pi0v_energies mpi0 mv c) + snd (pi0v_energies mpi0 mv c) = c.
Proof.
  intros a b c Hc H1 H2 Ht. unfold pi0v_energies. cbn [fst snd]. rewrite two_body_hypot by assumption.
  rewrite two_body_swap, two_body_hypot by lra. split; [reflexivity|]. split; field; lra.
Qed.
Example cascade_energies_case : 135 + 500 <= 800.
Proof. lra. Qed.
Print Assumptions cascade_energies_exact.

(** * C21: limits *)
(** Every final state respects the energy limits, and both are attained for three or more particles. *)
Theorem energy_limits_partial : forall q ms i lo hi, 0 < q -> nonneg ms -> total ms <= q -> (2 <= length ms)%nat ->
  nth_error (energy_limits q ms) i = Some (lo, hi) ->
  (forall ps p, event q ms ps -> nth_error ps i = Some p -> lo <= en p <= hi)
  /\ (exists ps p, event q ms ps /\ nth_error ps i = Some p /\ en p = hi)
  /\ ((3 <= length ms)%nat -> lo < q -> exists ps p, event q ms ps /\ nth_error ps i = Some p /\ en p = lo).
Proof.
  intros q ms i lo hi Hq Hn Ht Hl H. rewrite energy_limits_nth in H. destruct (nth_error ms i) as [m|] eqn:Em; [|discriminate].
  cbn [option_map] in H. injection H as <- <-. split; [|split].
  - intros ps p He Hp. eapply energy_bounds; eauto.
  - now apply energy_upper_attained.
  - intros H3 Hlo. now apply energy_lower_attained.
Qed.
Example energy_limits_case : nonneg [1; 2; 3] /\ total [1; 2; 3] <= 10 /\ nth_error (energy_limits 10 [1; 2; 3]) 1 = Some (2, (10 ^ 2 + 2 ^ 2 - (total [1; 2; 3] - 2) ^ 2) / (2 * 10)).
Proof. split; [intros m [<-|[<-|[<-|[]]]]; lra|]. split; [cbn; lra|reflexivity]. Qed.
Print Assumptions energy_limits_partial.
(** For two particles the energy is fixed, and the returned lower limit (the mass) is not attained. *)
Theorem energy_limits_two_body_refuted : exists q ms lo hi, 0 < q /\ nonneg ms /\ total ms <= q /\
  nth_error (energy_limits q ms) 0 = Some (lo, hi) /\
  forall ps p, event q ms ps -> nth_error ps 0 = Some p -> lo < en p.
Proof.
  exists 10, [4; 4], 4, ((10 ^ 2 + 4 ^ 2 - (total [4; 4] - 4) ^ 2) / (2 * 10)).
  split; [lra|]. split; [intros m [<-|[<-|[]]]; lra|]. split; [cbn; lra|]. split; [reflexivity|].
  intros ps p [F E] Hp. inversion F as [|? p0 ? ? S1 F1]; subst. inversion F1 as [|? p1 ? ? S2 F2]; subst. inversion F2; subst.
  cbn in Hp. injection Hp as <-.
  pose proof (f_equal en E) as Ee. pose proof (f_equal px E) as Ex. pose proof (f_equal py E) as Ey. pose proof (f_equal pz E) as Ez.
  cbn [vsum vplus fold_right en px py pz] in Ee, Ex, Ey, Ez. destruct S1 as [S1 _], S2 as [S2 _].
  replace (px p1) with (- px p0) in S2 by lra. replace (py p1) with (- py p0) in S2 by lra.
  replace (pz p1) with (- pz p0) in S2 by lra. replace (en p1) with (10 - en p0) in S2 by lra. nra.
Qed.
Print Assumptions energy_limits_two_body_refuted.

(** One entry per pair, every final state respects it, and both ends are attained for three or more
    particles. *)
Theorem invariant_mass_limits_true : forall q ms, 0 < q -> nonneg ms -> total ms <= q ->
  (forall i j, (i < j < length ms)%nat <-> exists lim, In ((i, j), lim) (invariant_mass_limits q ms)) /\
  forall i j lo hi, In ((i, j), (lo, hi)) (invariant_mass_limits q ms) ->
  (forall ps pi pj, event q ms ps -> nth_error ps i = Some pi -> nth_error ps j = Some pj ->
     lo <= sqrt (lnorm_sqr (vplus pi pj)) <= hi)
  /\ (0 < hi -> exists ps pi pj, event q ms ps /\ nth_error ps i = Some pi /\ nth_error ps j = Some pj
        /\ sqrt (lnorm_sqr (vplus pi pj)) = hi)
  /\ ((3 <= length ms)%nat -> exists ps pi pj, event q ms ps /\ nth_error ps i = Some pi /\ nth_error ps j = Some pj
        /\ sqrt (lnorm_sqr (vplus pi pj)) = lo).
Proof.
  intros q ms Hq Hn Ht. split.
  { intros i j. split.
    - intro H. eexists. destruct (invariant_limits_in q ms i j (nth i ms 0 + nth j ms 0) (q - (total ms - nth i ms 0 - nth j ms 0))) as [_ K].
      apply K. auto.
    - intros ((lo & hi) & H). apply invariant_limits_in in H. tauto. }
  intros i j lo hi H. apply invariant_limits_in in H. destruct H as (Hij & Hlo & Hhi).
  destruct (split_pair ms i j Hij) as (a & b & c & E & La & Lb).
  set (mi := nth i ms 0) in *. set (mj := nth j ms 0) in *.
  assert (Htot : total ms - mi - mj = total (a ++ b ++ c)).
  { rewrite E, !total_app, !total_cons, !total_app, !total_cons. ring. }
  rewrite Htot in Hhi. clearbody mi mj. rewrite E in Hn, Ht, Hij. rewrite E. clear E Htot. subst lo hi.
  pose proof Hn as Hn'. apply nonneg_app in Hn'. destruct Hn' as [Na Hn']. apply nonneg_tail in Hn'. destruct Hn' as [Hi Hn'].
  apply nonneg_app in Hn'. destruct Hn' as [Nb Hn']. apply nonneg_tail in Hn'. destruct Hn' as [Hj Nc].
  assert (No : nonneg (a ++ b ++ c)) by (repeat (apply nonneg_app; split; [assumption|]); assumption).
  split; [|split].
  - intros ps pi pj Ev Hpi Hpj. destruct (pair_event_split _ _ _ _ _ _ _ Ev) as (pa & pi0 & pb & pj0 & pc & -> & L1 & L2 & Si & Sj & Fo & V).
    assert (pi0 = pi). { rewrite <- La, <- L1, nth_error_mid in Hpi. now injection Hpi. }
    assert (pj0 = pj). { rewrite <- Lb, <- L2, app_assoc4, nth_error_mid in Hpj. now injection Hpj. }
    subst pi0 pj0. pose proof (heavy_sum _ _ No Fo) as Ho.
    destruct (pair_bounds q mi mj (total (a ++ b ++ c)) pi pj (vsum (pa ++ pb ++ pc)) Hi Hj (total_nonneg _ No) Si Sj Ho V) as [B1 B2].
    split; [|assumption]. rewrite <- (sqrt_pow2 (mi + mj)) by lra. now apply sqrt_le_1_alt.
  - intro Hp. destruct (pair_upper_attained q a mi b mj c Hq Hn Ht Hp) as (ps & pi & pj & A & B & C & D).
    exists ps, pi, pj. rewrite <- La, <- Lb. split; [assumption|]. split; [assumption|]. split; [assumption|]. rewrite D. apply sqrt_pow2. lra.
  - intro H3. destruct (pair_lower_attained q a mi b mj c Hq Hn Ht) as (ps & pi & pj & A & B & C & D).
    + intro Z. apply (f_equal (@length R)) in Z. rewrite !app_length in *. cbn [length] in *. rewrite app_length in *. cbn [length] in *. lia.
    + exists ps, pi, pj. rewrite <- La, <- Lb. split; [assumption|]. split; [assumption|]. split; [assumption|]. rewrite D. apply sqrt_pow2. lra.
Qed.
Example invariant_mass_limits_case : nonneg [1; 2; 3] /\ total [1; 2; 3] <= 10 /\ length (invariant_mass_limits 10 [1; 2; 3]) = 3%nat
  /\ In ((0, 2)%nat, (1 + 3, 10 - (total [1; 2; 3] - 1 - 3))) (invariant_mass_limits 10 [1; 2; 3]).
Proof.
  split; [intros m [<-|[<-|[<-|[]]]]; lra|]. split; [cbn; lra|]. split; [reflexivity|].
  apply invariant_limits_in. cbn [length nth]. split; [lia|]. split; reflexivity.
Qed.
Print Assumptions invariant_mass_limits_true.

(** The two-body prefactor of the flat integral, in all three implementations. *)
Theorem two_body_prefactors_agree : forall q m1 m2, 0 < q -> 0 <= m1 -> 0 <= m2 -> m1 + m2 <= q ->
  let volume := two_body_momentum q m1 m2 / (4 * PI * q) in
  two_body_phase_space_prefactor q m1 m2 = volume /\ dphi2 (q ^ 2) m1 m2 = volume
  /\ area (fun _ => two_body_pre q m1 m2) (-1) 1 volume.
Proof.
  intros q m1 m2 Hq H1 H2 Ht volume. destruct (two_body_sq q m1 m2 Hq H1 H2 Ht) as [Hp Hs].
  pose proof PI_RGT_0 as HP. set (p := two_body_momentum q m1 m2) in *.
  assert (HK : 0 <= kallen_lambda (q ^ 2) (m1 ^ 2) (m2 ^ 2)) by (rewrite <- Hs; apply pow2_ge_0).
  assert (Hsq : sqrt (kallen_lambda (q ^ 2) (m1 ^ 2) (m2 ^ 2)) = 2 * q * p).
  { rewrite <- Hs. apply sqrt_pow2. apply Rmult_le_pos; lra. }
  split; [|split].
  - unfold two_body_phase_space_prefactor. rewrite Rmax_left by assumption. rewrite Hsq. unfold volume. field. lra.
  - unfold dphi2. destruct (Rle_dec _ 0) as [L|L].
    + assert (Z : kallen_lambda (q ^ 2) (m1 ^ 2) (m2 ^ 2) = 0) by lra. rewrite Z in Hs. 
      assert (Ep : p = 0). { apply Rmult_eq_reg_l with (2 * q); [|lra]. rewrite Rmult_0_r. destruct (Req_dec (2 * q * p) 0) as [Y|Y]; [assumption|]. exfalso. apply (pow_nonzero _ 2 Y). exact Hs. }
      unfold volume. rewrite Ep. field. lra.
    + rewrite Hsq. unfold volume. field. lra.
  - eapply area_val; [|apply area_const]. unfold two_body_pre. fold p. unfold volume. field. lra.
Qed.
Example two_body_prefactors_case : 0 < 10 /\ 4 + 3 <= 10.
Proof. lra. Qed.
Print Assumptions two_body_prefactors_agree.

(** * C19: Dalitz variables *)
Theorem dalitz_momenta : forall q m1 m2 m3 s t, 0 < q -> 0 <= m1 -> 0 <= m2 ->
  let e1 := (q ^ 2 + m1 ^ 2 - s) / (2 * q) in
  let e2 := (q ^ 2 + m2 ^ 2 - t) / (2 * q) in
  let e3 := q - e1 - e2 in
  m1 < e1 -> m2 < e2 -> m3 <= e3 ->
  (e3 ^ 2 - m3 ^ 2 - (e1 ^ 2 - m1 ^ 2) - (e2 ^ 2 - m2 ^ 2)) ^ 2 <= 4 * (e1 ^ 2 - m1 ^ 2) * (e2 ^ 2 - m2 ^ 2) ->
  event q [m1; m2; m3] (mandelstam_to_momenta s t q m1 m2 m3)
  /\ invariants (mandelstam_to_momenta s t q m1 m2 m3) = (s, t).
Proof.
  intros q m1 m2 m3 s t Hq H1 H2 e1 e2 e3 G1 G2 G3 HD.
  assert (P1 : 0 < e1 ^ 2 - m1 ^ 2) by nra. assert (P2 : 0 < e2 ^ 2 - m2 ^ 2) by nra.
  pose proof (build_event q m1 m2 m3 e1 e2 ltac:(lra) ltac:(lra) G3) as B. cbn zeta in B. fold e3 in B.
  set (d := (e3 ^ 2 - m3 ^ 2 - (e1 ^ 2 - m1 ^ 2) - (e2 ^ 2 - m2 ^ 2)) / 2) in *.
  assert (Hd2 : d ^ 2 <= (e1 ^ 2 - m1 ^ 2) * (e2 ^ 2 - m2 ^ 2)) by (unfold d; nra).
  specialize (B Hd2).
  assert (R1 : 0 < sqrt (e1 ^ 2 - m1 ^ 2)) by now apply sqrt_lt_R0.
  assert (R2 : 0 < sqrt (e2 ^ 2 - m2 ^ 2)) by now apply sqrt_lt_R0.
  assert (Es : s = q ^ 2 + m1 ^ 2 - 2 * q * e1) by (unfold e1; field; lra).
  assert (Et : t = q ^ 2 + m2 ^ 2 - 2 * q * e2) by (unfold e2; field; lra).
  assert (M : mandelstam_to_momenta s t q m1 m2 m3 =
    [V4 e1 0 0 (sqrt (e1 ^ 2 - m1 ^ 2)); V4 e2 (sqrt (e2 ^ 2 - m2 ^ 2 - (d / sqrt (e1 ^ 2 - m1 ^ 2)) ^ 2)) 0 (d / sqrt (e1 ^ 2 - m1 ^ 2));
     V4 e3 (- sqrt (e2 ^ 2 - m2 ^ 2 - (d / sqrt (e1 ^ 2 - m1 ^ 2)) ^ 2)) 0 (- (d / sqrt (e1 ^ 2 - m1 ^ 2)) - sqrt (e1 ^ 2 - m1 ^ 2))]).
  { unfold mandelstam_to_momenta. cbn zeta. fold e1. fold e2. fold e3.
    replace (e1 * e2 - 0.5 * (q ^ 2 + m1 ^ 2 + m2 ^ 2 + m3 ^ 2 - s - t - m1 ^ 2 - m2 ^ 2)) with d
      by (replace 0.5 with (1 / 2) by lra; unfold d, e3, e2, e1; field; lra).
    set (k1 := sqrt (e1 ^ 2 - m1 ^ 2)) in *. set (k2 := sqrt (e2 ^ 2 - m2 ^ 2)) in *.
    replace (k2 * (d / (k1 * k2))) with (d / k1) by (field; lra).
    replace (k2 * sqrt (1 - (d / (k1 * k2)) ^ 2)) with (sqrt (e2 ^ 2 - m2 ^ 2 - (d / k1) ^ 2)); [reflexivity|].
    rewrite <- (sqrt_pow2 k2) at 1 by lra.
    assert (S2 : k2 ^ 2 = e2 ^ 2 - m2 ^ 2) by (apply pow2_sqrt; lra).
    assert (S1 : k1 ^ 2 = e1 ^ 2 - m1 ^ 2) by (apply pow2_sqrt; lra).
    rewrite <- sqrt_mult_alt by (apply pow2_ge_0). f_equal. rewrite <- S2. field. lra. }
  rewrite M. split; [exact B|].
  apply event3 in B. destruct B as ([S1 _] & [S2 _] & [S3 _] & E). unfold invariants, lnorm_sqr. cbn [vplus en px py pz] in *.
  f_equal.
  - rewrite Es. unfold e3. 
    set (k1 := sqrt (e1 ^ 2 - m1 ^ 2)) in *. set (z := d / k1) in *. set (x := sqrt (e2 ^ 2 - m2 ^ 2 - z ^ 2)) in *.
    replace ((e2 + (q - e1 - e2)) ^ 2 - (x + - x) ^ 2 - (0 + 0) ^ 2 - (z + (- z - k1)) ^ 2) with ((q - e1) ^ 2 - k1 ^ 2) by ring.
    replace (k1 ^ 2) with (e1 ^ 2 - m1 ^ 2) by lra. ring.
  - rewrite Et. unfold e3.
    set (k1 := sqrt (e1 ^ 2 - m1 ^ 2)) in *. set (z := d / k1) in *. set (x := sqrt (e2 ^ 2 - m2 ^ 2 - z ^ 2)) in *.
    replace ((e1 + (q - e1 - e2)) ^ 2 - (0 + - x) ^ 2 - (0 + 0) ^ 2 - (k1 + (- z - k1)) ^ 2) with ((q - e2) ^ 2 - (x ^ 2 + z ^ 2)) by ring.
    replace (x ^ 2 + z ^ 2) with (e2 ^ 2 - m2 ^ 2) by lra. ring.
Qed.
(** q = 12 into three massless particles with energies 3, 4, 5. *)
Example dalitz_momenta_case : let q := 12 in let s := 72 in let t := 48 in
  (q ^ 2 + 0 ^ 2 - s) / (2 * q) = 3 /\ (q ^ 2 + 0 ^ 2 - t) / (2 * q) = 4 /\
  (5 ^ 2 - 0 ^ 2 - (3 ^ 2 - 0 ^ 2) - (4 ^ 2 - 0 ^ 2)) ^ 2 <= 4 * (3 ^ 2 - 0 ^ 2) * (4 ^ 2 - 0 ^ 2).
Proof. cbn zeta. repeat split; lra. Qed.
Print Assumptions dalitz_momenta.

(** The y-limits are exactly the energies of particle 2 that occur with a given energy of particle 1. *)
Theorem dalitz_y_limits : forall q m1 m2 m3 x, 0 < q -> 0 <= m1 -> 0 <= m2 -> 0 <= m3 -> m1 + m2 + m3 <= q ->
  fst (bounds_x q m1 m2 m3) < x <= snd (bounds_x q m1 m2 m3) -> x < 1 + (m1 / q) ^ 2 ->
  forall y, fst (bounds_y q m1 m2 m3 x) <= y <= snd (bounds_y q m1 m2 m3 x) <-> physical q m1 m2 m3 x y.
Proof.
  intros q m1 m2 m3 x Hq H1 H2 H3 Ht Hx Hx1 y. unfold bounds_x in Hx. cbn [fst snd] in Hx.
  assert (Hi : forall m, 0 <= m -> 0 <= m / q) by (intros m Hm; apply Rmult_le_pos; [assumption|left; now apply Rinv_0_lt_compat]).
  pose proof (Hi m1 H1) as M1. pose proof (Hi m2 H2) as M2. pose proof (Hi m3 H3) as M3.
  assert (Hm1 : m1 / q <= 1).
  { apply (Rmult_le_reg_r q); [assumption|]. unfold Rdiv. rewrite Rmult_assoc, Rinv_l by lra. lra. }
  pose proof (limits_gram ((m1 / q) ^ 2) ((m2 / q) ^ 2) ((m3 / q) ^ 2) x y ltac:(lra)) as L. cbn zeta in L.
  assert (Hx2 : x <= 2) by nra.
  unfold bounds_y. cbn [fst snd].
  set (a := (m1 / q) ^ 2) in *. set (b := (m2 / q) ^ 2) in *. set (c := (m3 / q) ^ 2) in *.
  assert (HK : 0 <= kallen_lambda 1 a (1 - x + a) * kallen_lambda (1 - x + a) b c).
  { apply Rmult_le_pos.
    { rewrite kallen_1. unfold a. replace (x ^ 2 - 4 * (m1 / q) ^ 2) with ((x - 2 * (m1 / q)) * (x + 2 * (m1 / q))) by ring. apply Rmult_le_pos; lra. }
    pose proof (kallen_factor (sqrt (1 - x + a)) (m2 / q) (m3 / q)) as F. rewrite pow2_sqrt in F by lra. fold b in F. fold c in F.
    rewrite F. assert (Hs : m2 / q + m3 / q <= sqrt (1 - x + a)).
    { rewrite <- (sqrt_pow2 (m2 / q + m3 / q)) by lra. apply sqrt_le_1_alt. lra. }
    apply Rmult_le_pos; apply Rmult_le_pos; lra. }
  split.
  - intro H. apply gram_physical; try assumption; try (fold a; lra). fold a. fold b. fold c. apply L. auto.
  - intro H. apply physical_gram in H; [|assumption]. fold a in H. fold b in H. fold c in H. apply L in H. tauto.
Qed.
Example dalitz_y_limits_case : let q := 10 in fst (bounds_x q 1 2 3) < 1 / 2 <= snd (bounds_x q 1 2 3) /\ 1 / 2 < 1 + (1 / q) ^ 2.
Proof. cbn zeta. unfold bounds_x. cbn [fst snd]. lra. Qed.
Print Assumptions dalitz_y_limits.

(** The x-limits are exactly the energies of particle 1 that occur. *)
Theorem dalitz_x_limits : forall q m1 m2 m3 x, 0 < q -> 0 <= m1 -> 0 <= m2 -> 0 <= m3 -> m1 + m2 + m3 <= q -> m1 < q ->
  (fst (bounds_x q m1 m2 m3) <= x <= snd (bounds_x q m1 m2 m3) <-> exists y, physical q m1 m2 m3 x y).
Proof.
  intros q m1 m2 m3 x Hq H1 H2 H3 Ht Hm1.
  assert (Hn : nonneg [m1; m2; m3]) by (intros m [<-|[<-|[<-|[]]]]; assumption).
  assert (Htot : total [m1; m2; m3] <= q) by (cbn; lra).
  assert (Et : total [m1; m2; m3] - m1 = m2 + m3) by (cbn; ring).
  assert (Conv : forall ps p, event q [m1; m2; m3] ps -> nth_error ps 0 = Some p -> en p = q * x / 2 -> exists y, physical q m1 m2 m3 x y).
  { intros ps p Ev Hp E. pose proof (Forall2_len _ _ _ (proj1 Ev)) as L. destruct ps as [|p1 [|p2 [|p3 [|]]]]; try discriminate L.
    cbn in Hp. injection Hp as ->. exists (2 * en p2 / q). exists p, p2, p3. split; [assumption|]. split; [assumption|]. field. lra. }
  split.
  - unfold bounds_x. cbn [fst snd]. intros [A B]. destruct (Req_dec x (2 * (m1 / q))) as [E|E].
    + destruct (energy_lower_attained q [m1; m2; m3] 0 m1 Hq Hn Htot) as (ps & p & Ev & Hp & Ep); [cbn; lia|reflexivity|assumption|].
      apply (Conv ps p Ev Hp). rewrite Ep, E. field. lra.
    + destruct (Req_dec x (m1 / q * (m1 / q) + (1 - (m2 / q + m3 / q) ^ 2))) as [E'|E'].
      * destruct (energy_upper_attained q [m1; m2; m3] 0 m1 Hq Hn Htot) as (ps & p & Ev & Hp & Ep); [cbn; lia|reflexivity|].
        rewrite Et in Ep. apply (Conv ps p Ev Hp). rewrite Ep, E'. field. lra.
      * assert (Hlt : x < 1 + (m1 / q) ^ 2).
        { pose proof (pow2_ge_0 (m2 / q + m3 / q)). destruct (Req_dec x ((m1 / q) ^ 2 + (1 - (m2 / q + m3 / q) ^ 2))) as [Z|Z]; [|lra].
          exfalso. apply E'. rewrite Z. ring. }
        pose proof (dalitz_y_limits q m1 m2 m3 x Hq H1 H2 H3 Ht) as D. unfold bounds_x in D. cbn [fst snd] in D.
        specialize (D ltac:(lra) Hlt). 
        exists (fst (bounds_y q m1 m2 m3 x)). apply D. split; [lra|]. unfold bounds_y. cbn [fst snd].
        set (K := sqrt _). assert (0 <= K) by apply sqrt_pos. set (g := 1 - x + (m1 / q) ^ 2) in *.
        unfold Rdiv. apply Rmult_le_compat_r; [left; apply Rinv_0_lt_compat; unfold g; lra|]. lra.
  - intros (y & p1 & p2 & p3 & Ev & E1 & _).
    destruct (energy_bounds q [m1; m2; m3] _ 0 m1 p1 Hq Hn Ev eq_refl eq_refl) as [A B]. rewrite Et in B. rewrite E1 in A, B.
    unfold bounds_x. cbn [fst snd]. split.
    + apply (Rmult_le_reg_l q); [assumption|]. replace (q * (2 * (m1 / q))) with (2 * m1) by (field; lra). lra.
    + apply (Rmult_le_reg_l (q / 2)); [lra|].
      replace (q / 2 * ((m1 / q) ^ 2 + (1 - (m2 / q + m3 / q) ^ 2))) with ((q ^ 2 + m1 ^ 2 - (m2 + m3) ^ 2) / (2 * q)) by (field; lra). lra.
Qed.
Example dalitz_x_limits_case : 1 + 2 + 3 <= 10 /\ 1 < 10.
Proof. lra. Qed.
Print Assumptions dalitz_x_limits.

(** The relabelling used for the spectra of particles 2 and 3: the region integrated over and the
    invariants handed to the matrix element are those of the original labelling. *)
Theorem dalitz_relabel : forall q m1 m2 m3 i m1' m2' m3' f, 0 < q -> relabel i m1 m2 m3 = Ret ((m1', m2', m3'), f) ->
  m1' = nth i [m1; m2; m3] 0 /\
  forall x y, physical q m1' m2' m3' x y <-> (let '(x0, y0) := f x y in physical q m1 m2 m3 x0 y0 /\ nth i [x0; y0; 2 - x0 - y0] 0 = x).
Proof.
  intros q m1 m2 m3 i m1' m2' m3' f Hq H.
  assert (Perm : forall a b c x y, physical q a b c x y -> physical q b a c y x /\ physical q c b a (2 - x - y) y).
  { intros a b c x y (p1 & p2 & p3 & Ev & E1 & E2). apply event3 in Ev. destruct Ev as (S1 & S2 & S3 & E). split.
    - exists p2, p1, p3. split; [|auto]. apply mk_event3; auto. rewrite <- E. apply vec_eq; cbn [vplus en px py pz]; ring.
    - exists p3, p2, p1. split; [apply mk_event3; auto; rewrite <- E; apply vec_eq; cbn [vplus en px py pz]; ring|].
      split; [|assumption]. apply (f_equal en) in E. cbn [vplus en] in E. lra. }
  destruct i as [|[|[|i]]]; cbn in H; try discriminate; injection H as <- <- <- <-; (split; [reflexivity|]); intros x y; cbn [nth].
  - tauto.
  - split; [intro P; split; [now apply Perm|reflexivity]|intros [P _]; now apply Perm].
  - split.
    + intro P. split; [|ring]. replace (2 - (x + y)) with (2 - x - y) by ring. now apply Perm.
    + intros [P _]. apply Perm in P. destruct P as [_ P]. replace (2 - (2 - (x + y)) - y) with x in P by ring. exact P.
Qed.
Example dalitz_relabel_case : exists f, relabel 2 1 2 3 = Ret ((3, 2, 1), f).
Proof. eexists. reflexivity. Qed.
Print Assumptions dalitz_relabel.
(** The invariants of a final state in terms of its scaled energies, as used by the integrand. *)
Theorem dalitz_invariants : forall q m1 m2 m3 p1 p2 p3 x y, 0 < q -> event q [m1; m2; m3] [p1; p2; p3] ->
  en p1 = q * x / 2 -> en p2 = q * y / 2 -> invariants [p1; p2; p3] = invariants_at q m1 m2 x y.
Proof.
  intros q m1 m2 m3 p1 p2 p3 x y Hq Ev E1 E2. apply event3 in Ev. destruct Ev as ([S1 _] & [S2 _] & _ & E).
  pose proof (f_equal en E) as Ee. pose proof (f_equal px E) as Ex. pose proof (f_equal py E) as Ey. pose proof (f_equal pz E) as Ez.
  cbn [vplus en px py pz] in Ee, Ex, Ey, Ez. unfold invariants, invariants_at, lnorm_sqr. cbn [vplus en px py pz]. f_equal.
  - replace (px p2 + px p3) with (- px p1) by lra. replace (py p2 + py p3) with (- py p1) by lra.
    replace (pz p2 + pz p3) with (- pz p1) by lra. replace (en p2 + en p3) with (q - en p1) by lra.
    replace ((q - en p1) ^ 2 - (- px p1) ^ 2 - (- py p1) ^ 2 - (- pz p1) ^ 2) with (q ^ 2 - 2 * q * en p1 + m1 ^ 2) by (ring_simplify; lra).
    rewrite E1. field. lra.
  - replace (px p1 + px p3) with (- px p2) by lra. replace (py p1 + py p3) with (- py p2) by lra.
    replace (pz p1 + pz p3) with (- pz p2) by lra. replace (en p1 + en p3) with (q - en p2) by lra.
    replace ((q - en p2) ^ 2 - (- px p2) ^ 2 - (- py p2) ^ 2 - (- pz p2) ^ 2) with (q ^ 2 - 2 * q * en p2 + m2 ^ 2) by (ring_simplify; lra).
    rewrite E2. field. lra.
Qed.
Example dalitz_invariants_case : event 12 [0; 0; 0] [V4 3 0 0 3; V4 4 4 0 0; V4 5 (-4) 0 (-3)].
Proof.
  apply mk_event3; try (split; cbn [en px py pz]; lra). apply vec_eq; cbn [vplus en px py pz]; ring.
Qed.
Print Assumptions dalitz_invariants.

(** * C20: t-limits *)
(** Three massless particles at cme = 2 and s = 1: the code returns [1, 2], and t = 0 and t = 3 both
    occur. *)
Theorem bounds_t_refuted : exists q m1 m2 m3 s, fst (bounds_s q m1 m2 m3) < s < snd (bounds_s q m1 m2 m3) /\
  (exists ps, event q [m1; m2; m3] ps /\ fst (invariants ps) = s /\ snd (invariants ps) < fst (bounds_t q m1 m2 m3 s)) /\
  (exists ps, event q [m1; m2; m3] ps /\ fst (invariants ps) = s /\ snd (bounds_t q m1 m2 m3 s) < snd (invariants ps)).
Proof.
  exists 2, 0, 0, 0, 1. unfold bounds_s, bounds_t. cbn [fst snd].
  assert (S : sqrt (kallen_lambda 1 (0 ^ 2) (0 ^ 2) * kallen_lambda 1 (0 ^ 2) (0 ^ 2)) = 1).
  { unfold kallen_lambda. replace ((1 ^ 2 + (0 ^ 2) ^ 2 + (0 ^ 2) ^ 2 - 2 * 1 * 0 ^ 2 - 2 * 1 * 0 ^ 2 - 2 * 0 ^ 2 * 0 ^ 2) *
      (1 ^ 2 + (0 ^ 2) ^ 2 + (0 ^ 2) ^ 2 - 2 * 1 * 0 ^ 2 - 2 * 1 * 0 ^ 2 - 2 * 0 ^ 2 * 0 ^ 2)) with 1 by ring. apply sqrt_1. }
  rewrite S. split; [lra|]. split.
  - exists [V4 (3/4) 0 0 (3/4); V4 1 0 0 (-1); V4 (1/4) 0 0 (1/4)]. split; [|unfold invariants, lnorm_sqr; cbn [vplus en px py pz fst snd]; lra].
    apply mk_event3; try (split; cbn [en px py pz]; lra). apply vec_eq; cbn [vplus en px py pz]; lra.
  - exists [V4 (3/4) 0 0 (3/4); V4 (1/4) 0 0 (1/4); V4 1 0 0 (-1)]. split; [|unfold invariants, lnorm_sqr; cbn [vplus en px py pz fst snd]; lra].
    apply mk_event3; try (split; cbn [en px py pz]; lra). apply vec_eq; cbn [vplus en px py pz]; lra.
Qed.
Print Assumptions bounds_t_refuted.
(** With the Källén function of (s, M^2, m1^2) in place of (s, m1^2, m2^2) the formula is the image of
    the exact y-limits. *)
Theorem bounds_t_corrected : forall q m1 m2 m3 x, 0 < q -> x < 1 + (m1 / q) ^ 2 ->
  let s := fst (invariants_at q m1 m2 x 0) in
  let pfac := - (q ^ 2 - m1 ^ 2) * (m2 ^ 2 - m3 ^ 2) + (q ^ 2 + m1 ^ 2 + m2 ^ 2 + m3 ^ 2) * s - s ^ 2 in
  let sfac := sqrt (kallen_lambda s (q ^ 2) (m1 ^ 2) * kallen_lambda s (m2 ^ 2) (m3 ^ 2)) in
  snd (invariants_at q m1 m2 x (snd (bounds_y q m1 m2 m3 x))) = 0.5 * (pfac - sfac) / s /\
  snd (invariants_at q m1 m2 x (fst (bounds_y q m1 m2 m3 x))) = 0.5 * (pfac + sfac) / s.
Proof.
  intros q m1 m2 m3 x Hq Hx s pfac sfac. unfold invariants_at, bounds_y. cbn [fst snd].
  set (g := 1 - x + (m1 / q) ^ 2). assert (Hg : 0 < g) by (unfold g; lra).
  set (K := kallen_lambda 1 ((m1 / q) ^ 2) g * kallen_lambda g ((m2 / q) ^ 2) ((m3 / q) ^ 2)).
  assert (Es : s = q ^ 2 * g) by reflexivity.
  assert (Ek : sfac = q ^ 4 * sqrt K).
  { unfold sfac. rewrite <- (sqrt_pow2 (q ^ 4)) by (apply pow_le; lra). rewrite <- sqrt_mult_alt by apply pow2_ge_0. f_equal.
    rewrite Es. unfold K, kallen_lambda. field. lra. }
  rewrite Ek. unfold pfac. rewrite Es. set (r := sqrt K).
  replace ((m1 / q) ^ 2) with (g - 1 + x) by (unfold g; ring).
  assert (Em : m1 ^ 2 = q ^ 2 * (g - 1 + x)) by (unfold g; field; lra). rewrite Em.
  clear Ek Em. clearbody r. replace 0.5 with (1 / 2) by lra. clear pfac sfac K. clear Es. clearbody g. clear s. split; field; lra.
Qed.
Example bounds_t_corrected_case : 0 < 10 /\ 1 < 1 + (1 / 10) ^ 2.
Proof. lra. Qed.
Print Assumptions bounds_t_corrected.

(** * C18: the default matrix element *)
(** Monte-Carlo integration of the default three-body matrix element returns 0 on every sample. *)
Lemma total_zero {A} (f : A -> R) l : (forall x, In x l -> f x = 0) -> total (map f l) = 0.
Proof.
  induction l as [|x l IH]; intro H; [reflexivity|]. cbn [map]. rewrite total_cons, (H x (or_introl eq_refl)), IH; [ring|].
  intros y Hy. apply H. now right.
Qed.
Theorem flat_three_body_rambo_zero : forall sample, integrate_rambo3 msqrd_flat3 sample = 0.
Proof.
  intro sample. unfold integrate_rambo3, mean, msqrd_rambo, msqrd_flat3, weighted. rewrite total_zero; [unfold Rdiv; ring|].
  intros [w z] H. apply in_combine_r in H. apply in_map_iff in H. destruct H as (? & <- & _). cbn [fst snd]. ring.
Qed.
Print Assumptions flat_three_body_rambo_zero.
(** On a sample of one massless event RAMBO itself returns the phase-space volume q^2 / (256 pi^3). *)
Theorem flat_matrix_element_refuted : exists q ms o ps, rambo_new q ms = Ret o /\ event q ms ps /\
  integrate_rambo [(ps, weight o ps)] = q ^ 2 / (256 * PI ^ 3) /\ 0 < q ^ 2 / (256 * PI ^ 3) /\
  integrate_rambo3 msqrd_flat3 [(ps, weight o ps)] = 0 /\ msqrd_flat3 (Scalar 72) (Scalar 48) = Scalar 1.
Proof.
  pose proof PI_RGT_0 as HP.
  assert (P3 : 0 < PI ^ 3) by now apply pow_lt.
  exists 12, [0; 0; 0]. eexists. exists [V4 3 0 0 3; V4 4 4 0 0; V4 5 (-4) 0 (-3)]. split; [reflexivity|].
  split; [exact dalitz_invariants_case|]. split; [|split; [|split; [apply flat_three_body_rambo_zero|reflexivity]]].
  - unfold integrate_rambo, mean. cbn [map snd length].
    rewrite (rambo_massless_weight 12 [0; 0; 0]).
    + unfold massless_volume. cbn [length Nat.sub volume_from_two]. rewrite total_cons. cbn [total fold_right INR]. field. lra.
    + reflexivity.
    + lra.
    + reflexivity.
    + apply rambo_massless_weight_case.
    + cbn. lra.
  - apply Rdiv_lt_0_compat; lra.
Qed.
Print Assumptions flat_matrix_element_refuted.
(** The default two-body matrix element of an array is zero too. *)
Theorem flat_two_body_array_refuted : exists zs, zs <> [] /\ msqrd_flat2 (Array zs) = Array (map (fun _ => 0) zs) /\ msqrd_flat2 (Scalar 0.3) = Scalar 1.
Proof. exists [0.1; 0.3]. repeat split. discriminate. Qed.
Print Assumptions flat_two_body_array_refuted.
(** The deterministic route is right: for massless particles the double integral of one over the Dalitz
    region times the prefactor is the massless three-body volume. *)
Theorem flat_three_body_quad : forall q, 0 < q -> exists v,
  area (fun x => snd (bounds_y q 0 0 0 x) - fst (bounds_y q 0 0 0 x)) (fst (bounds_x q 0 0 0)) (snd (bounds_x q 0 0 0)) v /\
  q ^ 2 / (128 * PI ^ 3) * v = massless_volume q 3.
Proof.
  intros q Hq. pose proof PI_RGT_0 as HP. exists (1 / 2). split.
  - unfold bounds_x. cbn [fst snd]. replace (2 * (0 / q)) with 0 by (field; lra).
    replace ((0 / q) ^ 2 + (1 - (0 / q + 0 / q) ^ 2)) with 1 by (field; lra).
    apply (area_ext (fun x => x) _ 0 1 (1 / 2) []).
    + intros x Hx _. unfold bounds_y. cbn [fst snd]. replace ((0 / q) ^ 2) with 0 by (field; lra).
      replace (kallen_lambda 1 0 (1 - x + 0) * kallen_lambda (1 - x + 0) 0 0) with ((x * (1 - x)) ^ 2) by (unfold kallen_lambda; ring).
      rewrite sqrt_pow2 by nra. replace 0.5 with (1 / 2) by lra. field. lra.
    + eapply area_val; [|apply (area_of_antiderivative (fun x => x * x / 2) (fun x => x))]; [field|].
      intros x _. pose proof (derivable_pt_lim_mult id id x 1 1 (derivable_pt_lim_id x) (derivable_pt_lim_id x)) as D.
      pose proof (derivable_pt_lim_scal (id * id)%F (1 / 2) x _ D) as D2.
      replace (1 / 2 * (1 * id x + id x * 1)) with x in D2 by (unfold id; field).
      eapply derivable_pt_lim_ext; [|exact D2]. intro z. unfold mult_real_fct, mult_fct, id. field.
  - unfold massless_volume. cbn [Nat.sub volume_from_two INR]. field. lra.
Qed.
Print Assumptions flat_three_body_quad.

(** * C22: normalisation *)
Definition increasing (l : list R) : Prop := forall i a b, nth_error l i = Some a -> nth_error l (S i) = Some b -> a < b.
(** Sum of value times bin width. *)
Definition widths (edges : list R) : list R := map (fun ab => snd ab - fst ab) (combine edges (tl edges)).
Definition binned_integral (ps edges : list R) : R := total (map (fun pw => fst pw * snd pw) (combine ps (widths edges))).
Lemma norm_terms_spec : forall ps pre edges, (length ps < length edges)%nat ->
  norm_terms (pre ++ edges) (length pre) ps = Ret (map (fun pw => fst pw * snd pw) (combine ps (widths edges))).
Proof.
  induction ps as [|p ps IH]; intros pre edges H; [reflexivity|].
  destruct edges as [|a [|b edges]]; cbn [length] in H; try lia. cbn [norm_terms]. unfold edge.
  replace (length pre + 1)%nat with (length (pre ++ [a])) by (rewrite app_length; reflexivity).
  replace (nth_error (pre ++ a :: b :: edges) (length (pre ++ [a]))) with (Some b).
  2:{ change (pre ++ a :: b :: edges) with (pre ++ [a] ++ b :: edges). rewrite app_assoc, nth_error_mid. reflexivity. }
  rewrite nth_error_mid. cbn [bind]. replace (S (length pre)) with (length (pre ++ [a])) by (rewrite app_length; cbn [length]; lia).
  change (pre ++ a :: b :: edges) with (pre ++ [a] ++ b :: edges). rewrite app_assoc, IH by (cbn [length]; lia). reflexivity.
Qed.
Lemma widths_length edges : length (widths edges) = (length edges - 1)%nat.
Proof. unfold widths. rewrite map_length, combine_length. destruct edges; cbn [tl length]; lia. Qed.
Lemma widths_pos edges : increasing edges -> Forall (fun w => 0 < w) (widths edges).
Proof.
  induction edges as [|a edges IH]; intro H; [constructor|]. destruct edges as [|b edges]; [constructor|].
  unfold widths. cbn [tl combine map fst snd]. constructor.
  - specialize (H 0%nat a b eq_refl eq_refl). lra.
  - apply IH. intros i x y Hx Hy. apply (H (S i) x y); assumption.
Qed.
Lemma binned_div ps edges k : binned_integral (map (fun p => p / k) ps) edges = binned_integral ps edges / k.
Proof.
  unfold binned_integral. generalize (widths edges). induction ps as [|p ps IH]; intros [|w ws]; cbn [map combine]; try (cbn; unfold Rdiv; ring).
  rewrite !total_cons, IH. cbn [fst snd]. unfold Rdiv. ring.
Qed.
Lemma binned_sign ps edges : increasing edges -> (forall p, In p ps -> 0 <= p) -> length edges = S (length ps) ->
  (exists p, In p ps /\ p <> 0) -> 0 < binned_integral ps edges.
Proof.
  intros Hi Hp Hl Hex. unfold binned_integral. pose proof (widths_pos edges Hi) as Hw. pose proof (widths_length edges) as Lw.
  rewrite Hl in Lw. cbn [Nat.sub] in Lw. rewrite Nat.sub_0_r in Lw.
  revert Hp Hw Lw Hex. generalize (widths edges). clear. induction ps as [|p ps IH]; intros [|w ws] Hp Hw Lw (x & Hx & Hn); try discriminate Lw.
  - destruct Hx.
  - cbn [combine map]. rewrite total_cons. cbn [fst snd]. inversion Hw as [|? ? W1 W2]; subst.
    assert (P0 : 0 <= p) by (apply Hp; now left).
    assert (K : forall qs vs, (forall z, In z qs -> 0 <= z) -> Forall (fun v => 0 < v) vs -> 0 <= total (map (fun pw => fst pw * snd pw) (combine qs vs))).
    { induction qs as [|z qs IHq]; intros [|v vs] Hz Hv; cbn [combine map]; try (cbn; lra). rewrite total_cons. cbn [fst snd].
      inversion Hv; subst. specialize (IHq vs ltac:(intros; apply Hz; now right) ltac:(assumption)).
      assert (0 <= z * v) by (apply Rmult_le_pos; [apply Hz; now left|lra]). lra. }
    destruct Hx as [->|Hx].
    + assert (0 < x * w) by (apply Rmult_lt_0_compat; lra). specialize (K ps ws ltac:(intros; apply Hp; now right) W2). lra.
    + assert (0 <= p * w) by (apply Rmult_le_pos; lra).
      specialize (IH ws ltac:(intros; apply Hp; now right) W2 ltac:(cbn in Lw; lia) (ex_intro _ x (conj Hx Hn))). lra.
Qed.
Lemma np_min_spec l : l <> [] -> exists m, np_min l = Ret m /\ In m l /\ forall x, In x l -> m <= x.
Proof.
  destruct l as [|x l]; [intro H; now destruct H|]. intros _. exists (fold_left Rmin l x). split; [reflexivity|].
  assert (K : forall l a, (fold_left Rmin l a = a \/ In (fold_left Rmin l a) l) /\ fold_left Rmin l a <= a /\ forall y, In y l -> fold_left Rmin l a <= y).
  { clear. induction l as [|b l IH]; intro a; cbn [fold_left].
    - split; [now left|]. split; [lra|]. intros y [].
    - destruct (IH (Rmin a b)) as (A & B & C). pose proof (Rmin_l a b). pose proof (Rmin_r a b). split; [|split].
      + destruct A as [A|A]; [|right; now right]. destruct (Rle_dec a b) as [L|L]; [left; rewrite A; now apply Rmin_left|right; left; rewrite A; symmetry; apply Rmin_right; lra].
      + lra.
      + intros y [<-|Hy]; [lra|]. now apply C. }
  destruct (K l x) as (A & B & C). split; [destruct A as [->|A]; [now left|now right]|]. intros y [<-|Hy]; [assumption|now apply C].
Qed.
Theorem normalize_distribution_exact : forall ps edges, ps <> [] -> length edges = S (length ps) ->
  (0 < binned_integral ps edges -> exists qs, normalize_distribution ps edges = Ret (Some qs)
      /\ binned_integral qs edges = 1 /\ length qs = length ps
      /\ forall i p, nth_error ps i = Some p -> nth_error qs i = Some (p / binned_integral ps edges)) /\
  (increasing edges -> (forall p, In p ps -> p = 0) -> normalize_distribution ps edges = Ret (Some ps)) /\
  (increasing edges -> binned_integral ps edges <= 0 -> (exists p, In p ps /\ p <> 0) -> normalize_distribution ps edges = Ret None).
Proof.
  intros ps edges Hne Hl.
  assert (N : norm_terms edges 0 ps = Ret (map (fun pw => fst pw * snd pw) (combine ps (widths edges)))).
  { apply (norm_terms_spec ps [] edges). lia. }
  unfold normalize_distribution. rewrite N. cbn [bind]. fold (binned_integral ps edges).
  destruct (np_min_spec ps Hne) as (m & Em & Hm & Hmin). split; [|split].
  - intro Hp. destruct (Rle_dec (binned_integral ps edges) 0); [lra|]. eexists. split; [reflexivity|].
    split; [rewrite binned_div; field; lra|]. split; [apply map_length|]. intros i p Hi. now rewrite nth_error_map, Hi.
  - intros _ Hz. assert (Z : binned_integral ps edges = 0).
    { unfold binned_integral. apply total_zero. intros [p w] H. apply in_combine_l in H. cbn [fst snd]. rewrite (Hz p H). ring. }
    rewrite Z. destruct (Rle_dec 0 0); [|lra]. rewrite Em. cbn [bind]. rewrite (Hz m Hm). destruct (Rlt_dec 0 0); [lra|reflexivity].
  - intros Hi Hle Hex. destruct (Rle_dec (binned_integral ps edges) 0); [|lra]. rewrite Em. cbn [bind].
    destruct (Rlt_dec m 0) as [|Hm0]; [reflexivity|]. exfalso.
    pose proof (binned_sign ps edges Hi) as B. specialize (B ltac:(intros p Hp; specialize (Hmin p Hp); lra) Hl Hex). lra.
Qed.
Example normalize_distribution_case : length [0; 1; 3] = S (length [2; 1]) /\ 0 < binned_integral [2; 1] [0; 1; 3] /\ increasing [0; 1; 3]
  /\ binned_integral [2; -3] [0; 1; 3] <= 0.
Proof.
  split; [reflexivity|]. split; [unfold binned_integral, widths; cbn; lra|]. split; [|unfold binned_integral, widths; cbn; lra].
  intros [|[|[|i]]] a b; cbn; intros H1 H2; try discriminate; injection H1 as <-; injection H2 as <-; lra.
Qed.
Print Assumptions normalize_distribution_exact.

(** * C23: expectation of one *)
(** Equally spaced. *)
Inductive spaced (w : R) : list R -> Prop :=
| spaced_one x : spaced w [x]
| spaced_cons x y l : y - x = w -> spaced w (y :: l) -> spaced w (x :: y :: l).
Lemma spaced_centers w a b l : spaced w (a :: b :: l) -> spaced w (bin_centers (a :: b :: l)).
Proof.
  revert a b. induction l as [|c l IH]; intros a b H; inversion H as [|? ? ? E H']; subst.
  - cbn. constructor.
  - change (bin_centers (a :: b :: c :: l)) with (0.5 * (b + a) :: bin_centers (b :: c :: l)).
    specialize (IH b c H'). change (bin_centers (b :: c :: l)) with (0.5 * (c + b) :: bin_centers (c :: l)) in *.
    constructor; [|assumption]. inversion H'; subst. lra.
Qed.
Lemma centers_length l : length (bin_centers l) = (length l - 1)%nat.
Proof.
  destruct l as [|a l]; [reflexivity|]. revert a. induction l as [|b l IH]; intro a; [reflexivity|].
  change (bin_centers (a :: b :: l)) with (0.5 * (b + a) :: bin_centers (b :: l)). cbn [length]. rewrite IH. cbn [length]. lia.
Qed.
Lemma trapezoid_spaced w : forall xs, spaced w xs -> forall p ps, length xs = length (p :: ps) ->
  trapezoid xs (p :: ps) = w * (total (p :: ps) - (p + last (p :: ps) 0) / 2).
Proof.
  intros xs H. induction H as [x|x y l E H IH]; intros p ps L.
  - destruct ps; [|discriminate L]. cbn. field.
  - destruct ps as [|p' ps]; [discriminate L|].
    change (trapezoid (x :: y :: l) (p :: p' :: ps)) with ((y - x) * (p + p') / 2 + trapezoid (y :: l) (p' :: ps)).
    rewrite IH by (cbn in *; lia). rewrite E. change (last (p :: p' :: ps) 0) with (last (p' :: ps) 0). rewrite !total_cons. field.
Qed.
Lemma binned_spaced w : forall edges, spaced w edges -> forall ps, length edges = S (length ps) -> binned_integral ps edges = w * total ps.
Proof.
  intros edges H. unfold binned_integral, widths. induction H as [x|x y l E H IH]; intros ps L.
  - destruct ps; [cbn; ring|discriminate L].
  - destruct ps as [|p ps]; [discriminate L|]. cbn [tl combine map fst snd] in *. rewrite !total_cons. cbn [fst snd].
    rewrite IH by (cbn in *; lia). rewrite E. ring.
Qed.
(** Full claim: the expectation of the constant 1 is 1.  Proved: on equal bins the trapezoidal rule over
    bin centres loses half of the first and of the last bin. *)
Theorem expect_one_partial : forall w edges ys d, spaced w edges -> ys <> [] -> length edges = S (length ys) ->
  dist_new edges ys = Ret d -> 0 < binned_integral ys edges ->
  exists p ps, probabilities d = Some (p :: ps) /\ binned_integral (p :: ps) edges = 1
    /\ expect_trapz d (fun _ => 1) = Some (1 - w * (p + last (p :: ps) 0) / 2).
Proof.
  intros w edges ys d Hs Hne Hl Hd Hp. unfold dist_new in Hd. rewrite Hl in Hd. 
  replace (Nat.eqb (S (length ys)) (length ys + 1)) with true in Hd by (symmetry; apply Nat.eqb_eq; lia).
  destruct (normalize_distribution_exact ys edges Hne Hl) as [N _]. destruct (N Hp) as (qs & En & Eq & Lq & _).
  rewrite En in Hd. cbn [bind] in Hd. injection Hd as <-. destruct qs as [|p ps]; [destruct ys; [now destruct Hne|discriminate Lq]|].
  exists p, ps. split; [reflexivity|]. split; [assumption|]. unfold expect_trapz. cbn [probabilities centers].
  assert (Lc : length (bin_centers edges) = length (p :: ps)) by (rewrite centers_length; lia).
  assert (Em : map (fun xp => snd xp * 1) (combine (bin_centers edges) (p :: ps)) = p :: ps).
  { clear - Lc. revert Lc. generalize (bin_centers edges), (p :: ps). induction l as [|x l IH]; intros [|z r] L; try discriminate L; [reflexivity|].
    cbn [combine map fst snd]. rewrite IH by (cbn in L; lia). now rewrite Rmult_1_r. }
  rewrite Em. f_equal.
  assert (Hc : spaced w (bin_centers edges)).
  { destruct edges as [|a [|b l]]; [discriminate Hl|destruct ys; [now destruct Hne|discriminate Hl]|]. now apply spaced_centers. }
  rewrite (trapezoid_spaced w _ Hc p ps Lc). rewrite (binned_spaced w edges Hs) in Eq by lia. 
  replace (w * (total (p :: ps) - (p + last (p :: ps) 0) / 2)) with (w * total (p :: ps) - w * (p + last (p :: ps) 0) / 2) by field.
  now rewrite Eq.
Qed.
Example expect_one_case : spaced 1 [0; 1; 2] /\ (exists d, dist_new [0; 1; 2] [3; 5] = Ret d) /\ 0 < binned_integral [3; 5] [0; 1; 2].
Proof.
  split; [repeat constructor; lra|]. split; [|unfold binned_integral, widths; cbn; lra].
  unfold dist_new. cbn [length Nat.eqb Nat.add].
  destruct (normalize_distribution_exact [3; 5] [0; 1; 2]) as [N _]; [discriminate|reflexivity|].
  destruct N as (qs & En & _); [unfold binned_integral, widths; cbn; lra|]. rewrite En. eexists. reflexivity.
Qed.
Print Assumptions expect_one_partial.
(** Two equal bins: the expectation of one is one half. *)
Theorem expect_one_refuted : exists d ps, dist_new [0; 1; 2] [1; 1] = Ret d /\ probabilities d = Some ps /\
  binned_integral ps [0; 1; 2] = 1 /\ expect_trapz d (fun _ => 1) = Some (1 / 2).
Proof.
  assert (Hs : spaced 1 [0; 1; 2]) by (repeat constructor; lra).
  assert (Hp : 0 < binned_integral [1; 1] [0; 1; 2]) by (unfold binned_integral, widths; cbn; lra).
  assert (Hb : binned_integral [1; 1] [0; 1; 2] = 2) by (unfold binned_integral, widths; cbn; lra).
  destruct (normalize_distribution_exact [1; 1] [0; 1; 2]) as [N _]; [discriminate|reflexivity|].
  destruct (N Hp) as (qs & En & Eq & Lq & Hq). destruct qs as [|p [|p' [|]]]; try discriminate Lq.
  pose proof (Hq 0%nat 1 eq_refl) as Q0. pose proof (Hq 1%nat 1 eq_refl) as Q1. cbn [nth_error] in Q0, Q1. injection Q0 as Q0. injection Q1 as Q1.
  rewrite Hb in Q0, Q1.
  eexists. exists [p; p']. unfold dist_new. cbn [length Nat.eqb Nat.add]. rewrite En. cbn [bind]. split; [reflexivity|].
  cbn [probabilities]. split; [reflexivity|]. split; [assumption|]. unfold expect_trapz. cbn [probabilities centers bin_centers combine map fst snd trapezoid].
  f_equal. rewrite Q0, Q1. lra.
Qed.
Print Assumptions expect_one_refuted.

(** * C72: radiation at fixed photon energy *)
(** The massive system and the photon handed to the matrix element have total invariant mass cme, and
    in the rest frame of the total the photon has the requested energy. *)
Theorem radiative_kinematics : forall e c msum c' k, 0 < c -> 0 <= msum -> radiative_system e c msum = Some (c', k) ->
  msum < c' /\ on_shell 0 k /\ lnorm_sqr (vplus (V4 c' 0 0 0) k) = c ^ 2
  /\ en (vplus (V4 c' 0 0 0) k) * en k - dot3 (vplus (V4 c' 0 0 0) k) k = c * e.
Proof.
  intros e c msum c' k Hc Hm H. unfold radiative_system in H. destruct (Rlt_dec 0 e) as [He|]; [|discriminate].
  destruct (Rlt_dec (msum ^ 2) (c * (c - 2 * e))) as [Hs|]; [|discriminate]. injection H as <- <-.
  assert (Hp : 0 < c * (c - 2 * e)) by (pose proof (pow2_ge_0 msum); lra).
  set (r := sqrt (c * (c - 2 * e))). assert (Hr : 0 < r) by now apply sqrt_lt_R0.
  assert (Sr : r ^ 2 = c * (c - 2 * e)) by (apply pow2_sqrt; lra).
  assert (Hk : 0 < e * c / r) by (apply Rdiv_lt_0_compat; [apply Rmult_lt_0_compat; assumption|assumption]). split; [|split; [|split]].
  - destruct (Rlt_dec msum r); [assumption|]. exfalso. nra.
  - split; cbn [en px py pz]; [ring|lra].
  - unfold lnorm_sqr, vplus. cbn [en px py pz].
    replace ((r + e * c / r) ^ 2 - (0 + 0) ^ 2 - (0 + 0) ^ 2 - (0 + e * c / r) ^ 2) with (r ^ 2 + 2 * (e * c)) by (field; lra).
    rewrite Sr. ring.
  - unfold dot3, vplus. cbn [en px py pz]. field. lra.
Qed.
Example radiative_kinematics_case : exists r, radiative_system 10 100 50 = Some r.
Proof.
  unfold radiative_system. destruct (Rlt_dec 0 10); [|lra]. destruct (Rlt_dec (50 ^ 2) (100 * (100 - 2 * 10))); [eexists; reflexivity|lra].
Qed.
Print Assumptions radiative_kinematics.
(** The spectrum vanishes exactly outside the kinematic window 0 < E < (cme^2 - (sum of masses)^2) / (2 cme). *)
Theorem radiative_window : forall e c msum, 0 < c ->
  (radiative_system e c msum <> None <-> 0 < e < (c ^ 2 - msum ^ 2) / (2 * c)).
Proof.
  intros e c msum Hc. assert (K : e < (c ^ 2 - msum ^ 2) / (2 * c) <-> msum ^ 2 < c * (c - 2 * e)).
  { split; intro H.
    - apply (Rmult_lt_compat_r (2 * c)) in H; [|lra]. unfold Rdiv in H. rewrite Rmult_assoc, Rinv_l, Rmult_1_r in H by lra. nra.
    - apply (Rmult_lt_reg_r (2 * c)); [lra|]. unfold Rdiv. rewrite Rmult_assoc, Rinv_l, Rmult_1_r by lra. nra. }
  unfold radiative_system. destruct (Rlt_dec 0 e) as [He|He].
  - destruct (Rlt_dec (msum ^ 2) (c * (c - 2 * e))) as [H|H].
    + split; [intros _; split; [assumption|now apply K]|intros _; discriminate].
    + split; [intro N; now destruct N|intros [_ N]; exfalso; apply H; now apply K].
  - split; [intro N; now destruct N|lra].
Qed.
Print Assumptions radiative_window.
(** For constant matrix elements the fixed-energy radiative integral equals the three-body energy
    distribution of a massless particle computed by the three-body module, at every energy, whenever
    the one-dimensional integrator is right on constants. *)
Theorem radiative_flat_is_three_body : forall integ q m1 m2 e c,
  (forall c a b, integ (fun _ => c) a b = c * (b - a)) -> 0 < q -> 0 <= m1 -> 0 <= m2 -> m1 + m2 < q ->
  three_body_density integ (fun _ _ => c) q 0 m1 m2 0 e = Ret (radiative_density integ (fun _ => c) e q m1 m2).
Proof.
  intros integ q m1 m2 e c HI Hq H1 H2 Ht. pose proof PI_RGT_0 as HP.
  set (sp := q * (q - 2 * e)). set (x := 2 * e / q).
  assert (Esp : sp = q ^ 2 * (1 - x)) by (unfold sp, x; field; lra).
  assert (Hs0 : 0 <= m1 / q + m2 / q).
  { apply Rplus_le_le_0_compat; (apply Rmult_le_pos; [assumption|left; now apply Rinv_0_lt_compat]). }
  assert (Hs1 : m1 / q + m2 / q < 1).
  { replace (m1 / q + m2 / q) with ((m1 + m2) * / q) by (field; lra). apply (Rmult_lt_reg_r q); [assumption|].
    rewrite Rmult_assoc, Rinv_l by lra. lra. }
  assert (Em : (m1 + m2) ^ 2 = q ^ 2 * (m1 / q + m2 / q) ^ 2) by (field; lra).
  assert (Q2 : 0 < q ^ 2) by now apply pow_lt.
  unfold three_body_density. cbn [relabel bind]. fold x. unfold bounds_x. cbn [fst snd].
  replace (2 * (0 / q)) with 0 by (field; lra). replace ((0 / q) ^ 2) with 0 by (field; lra).
  set (u := (m1 / q + m2 / q) ^ 2) in *. assert (Hu : 0 <= u < 1) by (unfold u; nra).
  unfold radiative_density, radiative_system. fold sp.
  assert (Hex : 0 < x <-> 0 < e).
  { split; intro H.
    - apply (Rmult_lt_reg_r (2 / q)); [apply Rdiv_lt_0_compat; lra|]. replace (e * (2 / q)) with x by (unfold x; field; lra). lra.
    - unfold x. apply Rdiv_lt_0_compat; lra. }
  assert (Heq0 : x = 0 -> ~ 0 < e) by (intros E N; apply Hex in N; lra).
  destruct (Rlt_dec x 0) as [X0|X0].
  { destruct (Rlt_dec 0 e) as [He|He]; [apply Hex in He; lra|reflexivity]. }
  destruct (Rlt_dec (0 + (1 - u)) x) as [X1|X1].
  { destruct (Rlt_dec 0 e) as [He|He]; [|reflexivity]. destruct (Rlt_dec ((m1 + m2) ^ 2) sp) as [S|S]; [|reflexivity].
    exfalso. rewrite Em, Esp in S. apply Rmult_lt_reg_l in S; [lra|assumption]. }
  f_equal. cbn [invariants_at].
  change (fun y : R => let '(x0, y0) := (x, y) in let '(s, t) := invariants_at q 0 m1 x0 y0 in c) with (fun _ : R => c).
  rewrite HI. unfold bounds_y. cbn [fst snd].
  replace ((0 / q) ^ 2) with 0 by (field; lra).
  set (k := kallen_lambda (1 - x + 0) ((m1 / q) ^ 2) ((m2 / q) ^ 2)).
  assert (Hk : 0 <= k).
  { unfold k. assert (Sp : sqrt (1 - x + 0) ^ 2 = 1 - x + 0) by (apply pow2_sqrt; lra). rewrite <- Sp, kallen_factor.
    assert (Hr : m1 / q + m2 / q <= sqrt (1 - x + 0)).
    { rewrite <- (sqrt_pow2 (m1 / q + m2 / q)) by lra. apply sqrt_le_1_alt. fold u. lra. }
    assert (0 <= m1 / q /\ 0 <= m2 / q) by (split; apply Rmult_le_pos; try assumption; left; now apply Rinv_0_lt_compat).
    apply Rmult_le_pos; apply Rmult_le_pos; lra. }
  replace (kallen_lambda 1 0 (1 - x + 0) * k) with (x ^ 2 * k) by (unfold kallen_lambda; ring).
  rewrite sqrt_mult_alt by apply pow2_ge_0. rewrite sqrt_pow2 by lra.
  assert (Hx1 : 0 < 1 - x \/ (1 - x = 0 /\ u = 0)) by lra.
  assert (Ek : kallen_lambda sp (m1 ^ 2) (m2 ^ 2) = (q ^ 2) ^ 2 * k).
  { rewrite Esp. unfold k, kallen_lambda. field. lra. }
  destruct (Rlt_dec 0 e) as [He|He].
  2:{ assert (x = 0) by (destruct (Req_dec x 0); [assumption|]; exfalso; apply He, Hex; lra). rewrite H.
      replace 0.5 with (1 / 2) by lra. field. lra. }
  destruct (Rlt_dec ((m1 + m2) ^ 2) sp) as [S|S].
  - assert (Hx2 : 0 < 1 - x). { rewrite Em, Esp in S. apply Rmult_lt_reg_l in S; [lra|assumption]. }
    assert (HK : 0 < k).
    { unfold k. assert (Sp : sqrt (1 - x + 0) ^ 2 = 1 - x + 0) by (apply pow2_sqrt; lra). rewrite <- Sp, kallen_factor.
      rewrite Em, Esp in S. apply Rmult_lt_reg_l in S; [|assumption].
      assert (Hr : m1 / q + m2 / q < sqrt (1 - x + 0)).
      { rewrite <- (sqrt_pow2 (m1 / q + m2 / q)) by lra. apply sqrt_lt_1_alt. fold u. lra. }
      assert (0 <= m1 / q /\ 0 <= m2 / q) by (split; apply Rmult_le_pos; try assumption; left; now apply Rinv_0_lt_compat).
      apply Rmult_lt_0_compat; apply Rmult_lt_0_compat; lra. }
    change (fun ct : R => let '(p1, p2) := two_body_momenta (sqrt sp) m1 m2 ct in c) with (fun _ : R => c). rewrite !HI.
    unfold dphi2. destruct (Rle_dec _ 0) as [L|_].
    { exfalso. rewrite Ek in L. assert (0 < (q ^ 2) ^ 2 * k) by (apply Rmult_lt_0_compat; [now apply pow_lt|assumption]). lra. }
    rewrite Ek, sqrt_mult_alt by apply pow2_ge_0.
    rewrite (sqrt_pow2 (q ^ 2)) by lra. rewrite Esp. replace e with (q * x / 2) by (unfold x; field; lra).
    set (r := sqrt k). clearbody r x. clear - Hq HP Hx2. replace 0.5 with (1 / 2) by lra. field. split; [|split]; lra.
  - assert (Z : x = 1 - u). { rewrite Em, Esp in S. destruct (Req_dec x (1 - u)); [assumption|]. exfalso. apply S. apply Rmult_lt_compat_l; [assumption|lra]. }
    assert (Zk : k = 0).
    { unfold k. rewrite Z. replace (1 - (1 - u) + 0) with ((m1 / q + m2 / q) ^ 2) by (unfold u; ring). rewrite kallen_factor. ring. }
    rewrite Zk, sqrt_0. unfold Rdiv. ring.
Qed.
(** The rectangle rule is right on constants, and 10 MeV of 100 lies inside the window for masses 20 and 30. *)
Example radiative_flat_case : (forall c a b, (fun (f : R -> R) lo hi => f lo * (hi - lo)) (fun _ => c) a b = c * (b - a)) /\
  20 + 30 < 100 /\ 0 < 10 < (100 ^ 2 - (20 + 30) ^ 2) / (2 * 100).
Proof. split; [reflexivity|]. lra. Qed.
Print Assumptions radiative_flat_is_three_body.
(** With a constant matrix element the Monte-Carlo route gives the value of the quadrature route on
    every non-empty sample of two-body events. *)
Theorem radiative_routes_agree : forall integ q m1 m2 e c o ev n cm k,
  (forall c a b, integ (fun _ => c) a b = c * (b - a)) -> 0 <= m1 -> 0 <= m2 -> 0 < q ->
  radiative_system e q (m1 + m2) = Some (cm, k) -> rambo_new cm [m1; m2] = Ret o ->
  (forall i, event cm [m1; m2] (ev i)) ->
  radiative_density_rambo (fun _ => c) (map (fun i => (ev i, weight o (ev i))) (seq 0 (S n))) e q (m1 + m2)
  = radiative_density integ (fun _ => c) e q m1 m2.
Proof.
  intros integ q m1 m2 e c o ev n cm k HI H1 H2 Hq Hr Ho Hev. pose proof PI_RGT_0 as HP.
  destruct (radiative_kinematics e q (m1 + m2) cm k Hq ltac:(lra) Hr) as (Hm & _ & _ & _).
  unfold radiative_density_rambo, radiative_density. rewrite Hr.
  change (fun ct : R => let '(p1, p2) := two_body_momenta cm m1 m2 ct in c) with (fun _ : R => c). rewrite !HI.
  assert (Hcm : 0 < cm) by lra.
  assert (Esp : cm ^ 2 = q * (q - 2 * e)).
  { unfold radiative_system in Hr. destruct (Rlt_dec 0 e); [|discriminate]. destruct (Rlt_dec _ _) as [S|]; [|discriminate].
    injection Hr as <- _. apply pow2_sqrt. pose proof (pow2_ge_0 (m1 + m2)). lra. }
  rewrite <- Esp.
  destruct (two_body_prefactors_agree cm m1 m2 Hcm H1 H2 ltac:(lra)) as (_ & -> & _).
  destruct (two_body_sq cm m1 m2 Hcm H1 H2 ltac:(lra)) as [Hp Hps].
  assert (Hpp : 0 < two_body_momentum cm m1 m2).
  { destruct Hp as [|Hp]; [assumption|]. exfalso.
    destruct (two_body_momentum_threshold cm m1 m2 Hcm H1 H2 ltac:(lra)) as [[T _] _]. symmetry in Hp. specialize (T Hp). lra. }
  assert (W : forall i, weight o (ev i) = two_body_momentum cm m1 m2 / (4 * PI * cm)).
  { intro i. destruct (Hev i) as [F E]. destruct (ev i) as [|a [|b [|]]]; try (apply Forall2_len in F; discriminate F).
    inversion F as [|? ? ? ? S1 F1]; subst. inversion F1 as [|? ? ? ? S2 F2]; subst.
    pose proof (f_equal en E) as Ee. pose proof (f_equal px E) as Ex. pose proof (f_equal py E) as Ey. pose proof (f_equal pz E) as Ez.
    cbn [vsum vplus fold_right en px py pz] in Ee, Ex, Ey, Ez.
    assert (Eb : b = V4 (en b) (- px a) (- py a) (- pz a)) by (apply vec_eq; cbn [en px py pz]; lra).
    assert (Ea : a = V4 (en a) (px a) (py a) (pz a)) by (apply vec_eq; reflexivity).
    assert (Ma : modsqr a = two_body_momentum cm m1 m2 ^ 2).
    { destruct S1 as [S1 _], S2 as [S2 _]. replace (px b) with (- px a) in S2 by lra. replace (py b) with (- py a) in S2 by lra.
      replace (pz b) with (- pz a) in S2 by lra. replace (en b) with (cm - en a) in S2 by lra.
      assert (Een : 2 * cm * en a = cm ^ 2 + m1 ^ 2 - m2 ^ 2) by nra.
      unfold modsqr. apply (Rmult_eq_reg_l ((2 * cm) ^ 2)); [|apply pow_nonzero; lra].
      replace ((2 * cm) ^ 2 * two_body_momentum cm m1 m2 ^ 2) with ((2 * cm * two_body_momentum cm m1 m2) ^ 2) by ring. rewrite Hps.
      replace (px a ^ 2 + py a ^ 2 + pz a ^ 2) with (en a ^ 2 - m1 ^ 2) by lra.
      replace ((2 * cm) ^ 2 * (en a ^ 2 - m1 ^ 2)) with ((2 * cm * en a) ^ 2 - (2 * cm) ^ 2 * m1 ^ 2) by ring. rewrite Een. unfold kallen_lambda. ring. }
    assert (Pa : 0 < modsqr a) by (rewrite Ma; now apply pow_lt).
    assert (Ha : 0 < en a). { destruct S1 as [S1 S1']. assert (en a <> 0) by (intro Z; rewrite Z in S1; unfold modsqr in Pa; nra). lra. }
    assert (Hb : 0 < en b). { destruct S2 as [S2 S2']. assert (en b <> 0).
      { intro Z. rewrite Z in S2. replace (px b) with (- px a) in S2 by lra. replace (py b) with (- py a) in S2 by lra.
        replace (pz b) with (- pz a) in S2 by lra. unfold modsqr in Pa. nra. } lra. }
    assert (L : [a; b] = [V4 (en a) (px a) (py a) (pz a); V4 (en b) (- px a) (- py a) (- pz a)]) by (rewrite <- Ea, <- Eb; reflexivity).
    rewrite L, (rambo_two_body_weight cm m1 m2 o a (en a) (en b) Ho Hcm Ha Hb Pa).
    rewrite Ma, sqrt_pow2 by lra. replace (en a + en b) with cm by lra. reflexivity. }
  set (w := two_body_momentum cm m1 m2 / (4 * PI * cm)) in *.
  assert (M : mean (map (fun pw : list vec * R => snd pw * c) (map (fun i => (ev i, weight o (ev i))) (seq 0 (S n)))) = w * c).
  { rewrite map_map. cbn [fst snd]. rewrite (map_ext _ (fun _ => w * c)) by (intro i; now rewrite W).
    unfold mean. rewrite map_length, seq_length.
    assert (T : forall l : list nat, total (map (fun _ => w * c) l) = INR (length l) * (w * c)).
    { induction l as [|x l IH]; [cbn; ring|]. cbn [map]. rewrite total_cons, IH. cbn [length]. rewrite S_INR. ring. }
    rewrite T, seq_length. field. apply not_0_INR. lia. }
  rewrite M. clearbody w. replace 0.5 with (1 / 2) by lra. field. lra.
Qed.
Example radiative_routes_case : exists cm k, radiative_system 10 100 (20 + 30) = Some (cm, k) /\ exists o, rambo_new cm [20; 30] = Ret o.
Proof.
  unfold radiative_system. destruct (Rlt_dec 0 10); [|lra]. destruct (Rlt_dec ((20 + 30) ^ 2) (100 * (100 - 2 * 10))); [|lra].
  eexists. eexists. split; [reflexivity|]. eexists. reflexivity.
Qed.
Print Assumptions radiative_routes_agree.
