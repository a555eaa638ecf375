(** Property theorems: boosts conserve particles and scale their energy by gamma (C83). *)
From Coq Require Import Reals Lra Lia Qreals QArith List.
From Verif Require Import RustBase RustBaseFacts RustMath Area Primitive BoostModel BoostProofs SpecModel SpecProofs SpecProps
  PionModel PionProofs MedSpecProofs PionProps ConserveProofs.
Import ListNotations.
Local Open Scope nat_scope.
Local Open Scope R_scope.

(** * The laws themselves *)

(** Any spectrum of particles of mass m between m and emax, boosted isotropically with velocity beta, holds
    the same number of particles, and gamma times the energy. *)
Theorem boost_conserves : forall (m beta emax v n ne : R) (f F : R -> R), 0 <= m <= emax -> 0 < beta < 1 ->
  let gamma := / sqrt (1 - beta * beta) in let p e := sqrt (e * e - m * m) in
  (forall u, emax < u -> f u = 0) -> area (fun u => f u / p u) m emax v ->
  (forall e, m < e -> area (fun u => f u / (2 * gamma * beta * p u)) (gamma * (e - beta * p e)) (gamma * (e + beta * p e)) (F e)) ->
  forall X, gamma * (emax + beta * p emax) <= X ->
  (area f m emax n -> area F m X n)
  /\ (area (fun u => u * f u) m emax ne -> area (fun e => e * F e) m X (gamma * ne)).
Proof.
  intros m beta emax v n ne f F Hm Hb gamma p Z A B X HX.
  assert (Q : 0 < 1 - beta * beta) by nra. assert (Sq : 0 < sqrt (1 - beta * beta)) by now apply sqrt_lt_R0.
  assert (Hg : 0 < gamma) by now apply Rinv_0_lt_compat.
  assert (Hgb : gamma * gamma * (1 - beta * beta) = 1).
  { unfold gamma. rewrite <- (sqrt_def (1 - beta * beta)) at 3 by lra. field. lra. }
  split; intro An.
  - exact (number_law m beta gamma ltac:(lra) Hb Hg Hgb f F emax v ltac:(lra) Z A B n X An HX).
  - exact (energy_law m beta gamma ltac:(lra) Hb Hg Hgb f F emax v ltac:(lra) Z A B ne X An HX).
Qed.
Print Assumptions boost_conserves.

Lemma flight_frame e m : 0 < m < e -> 0 < velo e m < 1 /\ 0 < e / m /\ e / m * (e / m) * (1 - velo e m * velo e m) = 1.
Proof.
  intro H. destruct (velo_facts e m H) as (B & E & _). split; [exact B|]. split; [apply Rdiv_lt_0_compat; lra|].
  rewrite E. field. lra.
Qed.

(** * Positrons of a muon in flight *)
Lemma positron_rest_spectrum me mmu N : 0 < me < mmu -> N <> 0 ->
  spectrum me (pos_emax me mmu) (muon_I (me / mmu) / N) (fun e => dnde_positron_muon RMath me mmu N e mmu).
Proof.
  intros Hm HN. pose proof (emax_gt me mmu Hm) as G. repeat split.
  - lra.
  - intros u Hu. rewrite pos_muon_rest by lra. destruct (Rle_dec _ u); [reflexivity|lra].
  - destruct (area_exists (fun e => (2 / mmu) ^ 2 * (- 2 * pos_poly me mmu (2 / mmu * e)) / N) me (pos_emax me mmu) ltac:(lra)) as [v A].
    + intros x Hx. apply derivable_continuous_pt. unfold pos_poly. eexists. dlp.
    + exists v. refine (area_ext _ _ _ _ _ [] _ A). intros x Hx _. rewrite pos_muon_rest by lra.
      destruct (Rle_dec _ x); [lra|]. change (momentum x me) with (pm me x). pose proof (pm_pos me ltac:(lra) x ltac:(lra)). field. lra.
  - apply positron_muon_count; [exact Hm|exact HN|apply Rle_refl].
Qed.
Lemma positron_flight_boost me mmu N emu : 0 < me < mmu -> mmu <= 2 ^ 51 -> N <> 0 -> mmu + / 2 ^ 52 <= emu ->
  boost_of me (velo emu mmu) (emu / mmu) (fun e => dnde_positron_muon RMath me mmu N e mmu) (fun e => dnde_positron_muon RMath me mmu N e emu).
Proof. intros Hm Hb HN He e Hl. exact (positron_muon_boost me mmu N e emu Hm Hb HN He Hl). Qed.
Lemma pos_emax_momentum me mmu : 0 < me < mmu -> pm me (pos_emax me mmu) = mmu * (1 - (me / mmu) ^ 2) / 2.
Proof.
  intro Hm. pose proof (ratio_unit me mmu Hm) as Hr. unfold pm, pos_emax.
  replace (_ - me * me) with ((mmu * (1 - (me / mmu) ^ 2) / 2) ^ 2) by (field; lra). apply sqrt_pow2.
  assert (0 <= 1 - (me / mmu) ^ 2) by nra. assert (0 <= mmu * (1 - (me / mmu) ^ 2)) by (apply Rmult_le_pos; lra). lra.
Qed.

(** The number does not depend on the muon energy, the energy grows as gamma. *)
Theorem positron_muon_flight_count : forall (me mmu N emu X : R),
  0 < me < mmu -> mmu <= 2 ^ 51 -> N <> 0 -> mmu + / 2 ^ 52 <= emu ->
  let gamma := emu / mmu in let beta := sqrt (1 - (mmu / emu) ^ 2) in let r := me / mmu in
  gamma * (mmu * (1 + r ^ 2) / 2 + beta * (mmu * (1 - r ^ 2) / 2)) <= X ->
  let flight e := dnde_positron_muon RMath me mmu N e emu in
  area flight me X ((1 - 8 * r ^ 2 + 8 * r ^ 6 - r ^ 8 - 24 * r ^ 4 * ln r) / N)
  /\ forall w, area (fun e => e * dnde_positron_muon RMath me mmu N e mmu) me (mmu * (1 + r ^ 2) / 2) w ->
     area (fun e => e * flight e) me X (gamma * w).
Proof.
  intros me mmu N emu X Hm Hbig HN He gamma beta r HX flight.
  assert (H52 : 0 < / 2 ^ 52) by (apply Rinv_0_lt_compat; lra).
  destruct (flight_frame emu mmu ltac:(lra)) as (B & G & GB).
  destruct (positron_rest_spectrum me mmu N Hm HN) as (S1 & S2 & (v & S3) & S4).
  pose proof (positron_flight_boost me mmu N emu Hm Hbig HN He) as Bo.
  assert (Hx : gamma * (pos_emax me mmu + beta * pm me (pos_emax me mmu)) <= X) by (rewrite pos_emax_momentum by exact Hm; exact HX).
  split.
  - exact (number_law me beta gamma ltac:(lra) B G GB _ _ _ v S1 S2 S3 Bo _ X S4 Hx).
  - intros w W. exact (energy_law me beta gamma ltac:(lra) B G GB _ _ _ v S1 S2 S3 Bo w X W Hx).
Qed.
Print Assumptions positron_muon_flight_count.

(** At the constants of the code 3.7 positrons in 10^4 are missing at every muon energy. *)
Theorem positron_muon_flight_refuted : forall emu : R, pdg_MASS_MU RMath + / 2 ^ 52 <= emu ->
  exists v, area (fun e => dnde_positron_muon RMath (pdg_MASS_E RMath) (pdg_MASS_MU RMath) (pdg_R_FACTOR RMath) e emu)
              (pdg_MASS_E RMath) (2 * emu) v /\ 1 - 375 / 10 ^ 6 < v < 1 - 373 / 10 ^ 6.
Proof.
  intros emu He. set (r := pdg_MASS_E RMath / pdg_MASS_MU RMath).
  assert (Hm : 0 < pdg_MASS_E RMath < pdg_MASS_MU RMath) by (rewrite literal_me, literal_mmu; lra).
  assert (H52 : 0 < / 2 ^ 52) by (apply Rinv_0_lt_compat; lra).
  destruct (flight_frame emu (pdg_MASS_MU RMath) ltac:(lra)) as (B & G & _).
  exists (muon_I r / pdg_R_FACTOR RMath). split.
  - refine (proj1 (positron_muon_flight_count _ _ _ _ _ Hm _ _ He _)).
    + rewrite literal_mmu. lra.
    + rewrite literal_R. lra.
    + fold r. pose proof (ratio_unit _ _ Hm) as Hr. fold r in Hr. change (sqrt _) with (velo emu (pdg_MASS_MU RMath)).
      set (b := velo _ _) in *. set (M := pdg_MASS_MU RMath) in *.
      replace (2 * emu) with (emu / M * (2 * M)) by (field; lra). apply Rmult_le_compat_l; [lra|].
      clearbody b M r. assert (0 <= r ^ 2 <= 1) by nra. set (q := r ^ 2) in *. clearbody q.
      assert (b * (M * (1 - q) / 2) <= 1 * (M * (1 - q) / 2)) by (apply Rmult_le_compat_r; [|lra]; assert (0 <= M * (1 - q)) by (apply Rmult_le_pos; lra); lra).
      nra.
  - pose proof muon_I_pdg as I. fold r in I. set (i := muon_I r) in *. clearbody i. rewrite literal_R.
    split; (apply (Rmult_lt_reg_r (10001870858234163 / 10 ^ 16)); [lra|]);
      unfold Rdiv at 1; unfold Rdiv; rewrite ?(Rmult_assoc i), ?Rinv_l by lra; lra.
Qed.
Print Assumptions positron_muon_flight_refuted.

(** * Neutrinos of a muon in flight *)
Lemma massless_boost_of beta gamma f F :
  (forall e, 0 < e -> area (fun u => f u / (2 * gamma * beta * u)) (gamma * (1 - beta) * e) (gamma * (1 + beta) * e) (F e)) ->
  0 < beta < 1 -> 0 < gamma -> boost_of 0 beta gamma f F.
Proof.
  intros B Hb Hg e He. rewrite pm_0 by lra. specialize (B e He).
  replace (gamma * (e - beta * e)) with (gamma * (1 - beta) * e) by ring. replace (gamma * (e + beta * e)) with (gamma * (1 + beta) * e) by ring.
  refine (area_ext _ _ _ _ _ [] _ B). intros u Hu _. rewrite pm_0; [reflexivity|].
  assert (0 < gamma * (1 - beta) * e) by (apply Rmult_lt_0_compat; [apply Rmult_lt_0_compat|]; lra). lra.
Qed.
Lemma nu_small me mmu x : 0 < me < mmu -> 0 < x < 1 - (me / mmu) ^ 2 -> 0 <= nue me mmu x <= 12 * x /\ 0 <= num me mmu x <= 12 * x.
Proof.
  intros Hm Hx. pose proof (ratio_unit me mmu Hm) as Hr. unfold nue, num. set (q := (me / mmu) ^ 2) in *.
  assert (Q : 0 <= q) by (unfold q; apply pow2_ge_0). clearbody q. set (y := 1 - x) in *.
  assert (Y : 0 < y) by (unfold y; lra). replace (1 - q - x) with (y - q) by (unfold y; ring).
  replace (3 - 5 * x + 2 * x ^ 2 + (3 - x) * q) with (y * (1 + 2 * y) + (2 + y) * q) by (unfold y; ring).
  assert (Yq : 0 < y - q) by (unfold y; lra). assert (Y1 : y < 1) by (unfold y; lra). clearbody y.
  assert (Iy : 0 < / y) by now apply Rinv_0_lt_compat.
  assert (Sq : (y - q) ^ 2 <= y ^ 2) by nra. assert (Sp : 0 <= (y - q) ^ 2) by apply pow2_ge_0.
  split; split.
  - apply Rmult_le_pos; [|lra]. apply Rmult_le_pos; lra.
  - apply (Rmult_le_reg_r y); [exact Y|]. unfold Rdiv. rewrite Rmult_assoc, Rinv_l by lra.
    rewrite Rmult_1_r. apply Rmult_le_compat_l; [lra|]. nra.
  - apply Rmult_le_pos; [|left; apply Rinv_0_lt_compat, pow_lt; exact Y]. apply Rmult_le_pos; [apply Rmult_le_pos; lra|]. nra.
  - assert (Y3 : 0 < y ^ 3) by now apply pow_lt.
    apply (Rmult_le_reg_r (y ^ 3)); [exact Y3|]. unfold Rdiv. rewrite Rmult_assoc, Rinv_l by lra. rewrite Rmult_1_r.
    assert (T : y * (1 + 2 * y) + (2 + y) * q <= 6 * y) by nra. assert (T0 : 0 <= y * (1 + 2 * y) + (2 + y) * q) by nra.
    set (t := y * (1 + 2 * y) + (2 + y) * q) in *. clearbody t. set (s := (y - q) ^ 2) in *. clearbody s.
    assert (s * t <= y ^ 2 * (6 * y)) by (apply Rmult_le_compat; lra).
    replace (2 * x * s * t) with (2 * x * (s * t)) by ring. replace (12 * x * y ^ 3) with (2 * x * (y ^ 2 * (6 * y))) by ring.
    apply Rmult_le_compat_l; lra.
Qed.
Lemma neutrino_rest_spectrum me mmu N : 0 < me < mmu ->
  let f e := dnde_neutrino_muon RMath me mmu N e mmu in
  (soft (fun e => electron _ (f e)) /\ spectrum 0 (nu_emax me mmu) (N * muon_I (me / mmu)) (fun e => electron _ (f e)))
  /\ (soft (fun e => muon _ (f e)) /\ spectrum 0 (nu_emax me mmu) (N * muon_I (me / mmu)) (fun e => muon _ (f e))).
Proof.
  intros Hm f. pose proof (ratio_unit me mmu Hm) as Hr. assert (Hmu : 0 < 2 / mmu) by (apply Rdiv_lt_0_compat; lra).
  assert (MX : 2 / mmu * nu_emax me mmu = 1 - (me / mmu) ^ 2) by (unfold nu_emax; field; lra).
  assert (E0 : 0 < nu_emax me mmu).
  { apply (Rmult_lt_reg_l (2 / mmu)); [exact Hmu|]. rewrite MX. nra. }
  destruct (neutrino_muon_count me mmu N (nu_emax me mmu) Hm (Rle_refl _)) as [N1 N2].
  assert (U : forall u, 0 < u < nu_emax me mmu -> 0 < 2 / mmu * u < 1 - (me / mmu) ^ 2).
  { intros u Hu. rewrite <- MX. split; [apply Rmult_lt_0_compat; lra|apply Rmult_lt_compat_l; lra]. }
  assert (K : forall (pick : flavors RMath -> R) (g G : R -> R), pick (MkFlavors RMath 0 0 0) = 0 ->
    (forall y, 0 < y < nu_emax me mmu -> pick (f y) = N * (2 / mmu) * (2 / mmu * y * g (2 / mmu * y))) ->
    (forall x, x < 1 -> derivable_pt_lim G x (g x)) -> (forall x, 0 < x < 1 - (me / mmu) ^ 2 -> 0 <= g x <= 12 * x) ->
    area (fun e => pick (f e)) 0 (nu_emax me mmu) (N * muon_I (me / mmu)) ->
    soft (fun e => pick (f e)) /\ spectrum 0 (nu_emax me mmu) (N * muon_I (me / mmu)) (fun e => pick (f e))).
  { intros pick g G P0 P HG Hb A.
    assert (Z : forall u, nu_emax me mmu <= u -> pick (f u) = 0).
    { intros u Hu. unfold f. rewrite nu_rest by lra. destruct (Rle_dec _ u); [exact P0|lra]. }
    split; [|repeat split].
    - exists (Rabs N * (2 / mmu) * (12 * (2 / mmu * (2 / mmu)))).
      assert (C0 : 0 <= Rabs N * (2 / mmu)) by (apply Rmult_le_pos; [apply Rabs_pos|lra]).
      assert (C1 : 0 < 2 / mmu * (2 / mmu)) by now apply Rmult_lt_0_compat.
      split; [apply Rmult_le_pos; [exact C0|lra]|]. intros u Hu.
      destruct (Rle_lt_dec (nu_emax me mmu) u) as [L|L].
      + rewrite Z by exact L. rewrite Rabs_R0. apply Rmult_le_pos; [apply Rmult_le_pos; [exact C0|lra]|nra].
      + rewrite P by lra. specialize (Hb _ (U u ltac:(lra))). specialize (U u ltac:(lra)). set (x := 2 / mmu * u) in *.
        rewrite Rabs_mult, (Rabs_mult N), (Rabs_pos_eq (2 / mmu)) by lra. rewrite (Rabs_pos_eq (x * g x)) by (apply Rmult_le_pos; lra).
        replace (Rabs N * (2 / mmu) * (12 * (2 / mmu * (2 / mmu))) * (u * u)) with (Rabs N * (2 / mmu) * (x * (12 * x))) by (unfold x; ring).
        apply Rmult_le_compat_l; [exact C0|]. apply Rmult_le_compat_l; lra.
    - lra.
    - intros u Hu. apply Z. lra.
    - exists (N * (2 / mmu) * G (2 / mmu * nu_emax me mmu) - N * (2 / mmu) * G (2 / mmu * 0)).
      refine (area_ext _ _ _ _ _ [] _ (area_of_antiderivative (fun y => N * (2 / mmu) * G (2 / mmu * y))
                (fun y => N * (2 / mmu) * (2 / mmu * g (2 / mmu * y))) 0 (nu_emax me mmu) _)).
      + intros u Hu _. rewrite P, pm_0 by lra. field. lra.
      + intros u Hu. eapply dl_val; [apply dl_mult; [apply (dl_const (N * (2 / mmu)))|apply (scaled (2 / mmu) G); apply HG]|cbv beta; ring].
        apply Rle_lt_trans with (2 / mmu * nu_emax me mmu); [apply Rmult_le_compat_l; lra|]. rewrite MX. nra.
    - exact A. }
  split.
  - apply (K (electron RMath) (nue me mmu) (nueG me mmu)); [reflexivity| |intros x Hx; now apply nueG_der|intros x Hx; now apply nu_small|exact N1].
    intros y Hy. unfold f. rewrite nu_rest by lra. destruct (Rle_dec _ y); [lra|reflexivity].
  - apply (K (muon RMath) (num me mmu) (numG me mmu)); [reflexivity| |intros x Hx; now apply numG_der|intros x Hx; now apply nu_small|exact N2].
    intros y Hy. unfold f. rewrite nu_rest by lra. destruct (Rle_dec _ y); [lra|reflexivity].
Qed.

Lemma neutrino_flight_spectrum me mmu N emu : 0 < me < mmu -> mmu + / 2 ^ 52 <= emu ->
  let f e := dnde_neutrino_muon RMath me mmu N e emu in
  let edge := emu / mmu * (1 + velo emu mmu) * nu_emax me mmu in
  (soft (fun e => electron _ (f e)) /\ spectrum 0 edge (N * muon_I (me / mmu)) (fun e => electron _ (f e)))
  /\ (soft (fun e => muon _ (f e)) /\ spectrum 0 edge (N * muon_I (me / mmu)) (fun e => muon _ (f e))).
Proof.
  intros Hm He f edge. assert (H52 : 0 < / 2 ^ 52) by (apply Rinv_0_lt_compat; lra).
  destruct (flight_frame emu mmu ltac:(lra)) as (B & G & GB).
  destruct (neutrino_rest_spectrum me mmu N Hm) as [[E1 E2] [M1 M2]].
  assert (Ed : edge = emu / mmu * (nu_emax me mmu + velo emu mmu * nu_emax me mmu)) by (unfold edge; ring). rewrite Ed.
  split.
  - refine (spectrum_boost_massless (velo emu mmu) (emu / mmu) (nu_emax me mmu) _ _ _ B G GB E1 E2 _).
    apply massless_boost_of; [|exact B|exact G]. intros e Hl. apply (neutrino_muon_boost me mmu N e emu Hm He Hl).
  - refine (spectrum_boost_massless (velo emu mmu) (emu / mmu) (nu_emax me mmu) _ _ _ B G GB M1 M2 _).
    apply massless_boost_of; [|exact B|exact G]. intros e Hl. apply (neutrino_muon_boost me mmu N e emu Hm He Hl).
Qed.

(** One neutrino of each kind per muon, to 4 in 10^8, at every muon energy; none of the third. *)
Theorem neutrino_muon_flight_count : forall (me mmu N emu X : R), 0 < me < mmu -> mmu + / 2 ^ 52 <= emu ->
  let gamma := emu / mmu in let beta := sqrt (1 - (mmu / emu) ^ 2) in let r := me / mmu in
  gamma * (1 + beta) * (mmu * (1 - r ^ 2) / 2) <= X ->
  let n := N * (1 - 8 * r ^ 2 + 8 * r ^ 6 - r ^ 8 - 24 * r ^ 4 * ln r) in
  let rest e := dnde_neutrino_muon RMath me mmu N e mmu in
  let flight e := dnde_neutrino_muon RMath me mmu N e emu in
  (area (fun e => electron _ (flight e)) 0 X n /\ area (fun e => muon _ (flight e)) 0 X n)
  /\ (forall w, area (fun e => e * electron _ (rest e)) 0 (mmu * (1 - r ^ 2) / 2) w -> area (fun e => e * electron _ (flight e)) 0 X (gamma * w))
  /\ (forall w, area (fun e => e * muon _ (rest e)) 0 (mmu * (1 - r ^ 2) / 2) w -> area (fun e => e * muon _ (flight e)) 0 X (gamma * w)).
Proof.
  intros me mmu N emu X Hm He gamma beta r HX n rest flight. assert (H52 : 0 < / 2 ^ 52) by (apply Rinv_0_lt_compat; lra).
  destruct (flight_frame emu mmu ltac:(lra)) as (B & G & GB).
  destruct (neutrino_rest_spectrum me mmu N Hm) as [[E1 (E2 & E3 & (v1 & E4) & E5)] [M1 (M2 & M3 & (v2 & M4) & M5)]].
  assert (Be : boost_of 0 beta gamma (fun e => electron _ (rest e)) (fun e => electron _ (flight e))).
  { apply massless_boost_of; [|exact B|exact G]. intros e Hl. apply (neutrino_muon_boost me mmu N e emu Hm He Hl). }
  assert (Bm : boost_of 0 beta gamma (fun e => muon _ (rest e)) (fun e => muon _ (flight e))).
  { apply massless_boost_of; [|exact B|exact G]. intros e Hl. apply (neutrino_muon_boost me mmu N e emu Hm He Hl). }
  assert (Hx : gamma * (nu_emax me mmu + beta * pm 0 (nu_emax me mmu)) <= X).
  { rewrite pm_0 by exact E2. unfold nu_emax. fold r. eapply Rle_trans; [|exact HX]. right. ring. }
  pose proof (Rle_refl 0) as Z0. repeat split.
  - exact (number_law 0 beta gamma Z0 B G GB _ _ _ v1 E2 E3 E4 Be _ X E5 Hx).
  - exact (number_law 0 beta gamma Z0 B G GB _ _ _ v2 M2 M3 M4 Bm _ X M5 Hx).
  - intros w W. exact (energy_law 0 beta gamma Z0 B G GB _ _ _ v1 E2 E3 E4 Be w X W Hx).
  - intros w W. exact (energy_law 0 beta gamma Z0 B G GB _ _ _ v2 M2 M3 M4 Bm w X W Hx).
Qed.
Print Assumptions neutrino_muon_flight_count.

(** * Charged pions in flight *)

(** Positrons: the muon chain gives BR(mu) I(r)/N, the line BR(e), whatever the pion energy. *)
Theorem positron_pion_count : forall quad (me mmu mpi N EMAX BRmu BRe epi X : R),
  exact_oriented quad -> 0 < me < mmu -> mmu <= 2 ^ 51 -> N <> 0 -> mmu + / 2 ^ 52 <= (mpi ^ 2 + mmu ^ 2) / (2 * mpi) -> mmu < mpi ->
  (mpi ^ 2 + me ^ 2) / (2 * mpi) <= EMAX -> mpi + / 2 ^ 52 <= epi ->
  let gamma := epi / mpi in let beta := sqrt (1 - (mpi / epi) ^ 2) in let r := me / mmu in
  gamma * ((mpi ^ 2 + me ^ 2) / (2 * mpi) + beta * ((mpi ^ 2 - me ^ 2) / (2 * mpi))) <= X ->
  area (fun e => dnde_positron_charged_pion RMath quad me mmu mpi N EMAX BRmu BRe e epi) me X
    (BRmu * ((1 - 8 * r ^ 2 + 8 * r ^ 6 - r ^ 8 - 24 * r ^ 4 * ln r) / N) + BRe).
Proof.
  intros quad me mmu mpi N EMAX BRmu BRe epi X Q Hm Hbig HN Hemu Hmu Hmax Hepi gamma beta r HX.
  assert (H52 : 0 < / 2 ^ 52) by (apply Rinv_0_lt_compat; lra).
  destruct (flight_frame epi mpi ltac:(lra)) as (B & G & GB).
  destruct (velo_facts epi mpi ltac:(lra)) as (_ & _ & LG).
  set (emu := (mpi ^ 2 + mmu ^ 2) / (2 * mpi)) in *. set (ee := (mpi ^ 2 + me ^ 2) / (2 * mpi)) in *. set (pe := (mpi ^ 2 - me ^ 2) / (2 * mpi)) in *.
  destruct (flight_frame emu mmu ltac:(lra)) as (B1 & G1 & GB1).
  assert (Me : me < ee).
  { unfold ee. apply (Rmult_lt_reg_r (2 * mpi)); [lra|]. unfold Rdiv. rewrite Rmult_assoc, Rinv_l by lra. nra. }
  assert (Pe : momentum ee me = pe).
  { unfold momentum. replace (ee * ee - me * me) with (pe ^ 2) by (unfold ee, pe; field; lra). apply sqrt_pow2.
    unfold pe. apply Rmult_le_pos; [nra|left; apply Rinv_0_lt_compat; lra]. }
  (* the muon's positrons in the pion frame *)
  pose proof (spectrum_boost me (velo emu mmu) (emu / mmu) ltac:(lra) B1 G1 GB1 _ _ _ _ ltac:(lra)
                (positron_rest_spectrum me mmu N Hm HN) (positron_flight_boost me mmu N emu Hm Hbig HN Hemu)) as Sp.
  rewrite pos_emax_momentum in Sp by exact Hm.
  assert (Vm : emu / mmu * velo emu mmu = (mpi ^ 2 - mmu ^ 2) / (2 * mpi * mmu)).
  { unfold velo. replace (1 - (mmu / emu) ^ 2) with (((mpi ^ 2 - mmu ^ 2) / (mpi ^ 2 + mmu ^ 2)) ^ 2).
    - rewrite sqrt_pow2; [unfold emu; field; repeat split; nra|]. apply Rmult_le_pos; [nra|left; apply Rinv_0_lt_compat; nra].
    - unfold emu. field. repeat split; nra. }
  assert (Ed : emu / mmu * (pos_emax me mmu + velo emu mmu * (mmu * (1 - (me / mmu) ^ 2) / 2)) = ee).
  { rewrite Rmult_plus_distr_l. rewrite <- Rmult_assoc, Vm. unfold pos_emax, emu, ee. field. lra. }
  rewrite Ed in Sp.
  (* times the branching ratio *)
  assert (Sp' : spectrum me ee (BRmu * (muon_I r / N)) (fun e => BRmu * dnde_positron_muon RMath me mmu N e emu)).
  { destruct Sp as (S1 & S2 & (v & S3) & S4). repeat split.
    - exact S1.
    - intros u Hu. rewrite S2 by exact Hu. ring.
    - exists (BRmu * v). refine (area_ext _ _ _ _ _ [] _ (area_scale BRmu _ _ _ _ S3)). intros x _ _. unfold Rdiv. ring.
    - now apply area_scale. }
  destruct (boost_exists me beta gamma ltac:(lra) B G GB _ _ _ Sp') as (F & BF & _).
  destruct Sp' as (S1 & S2 & (v & S3) & S4).
  pose proof (number_law me beta gamma ltac:(lra) B G GB _ F ee v S1 S2 S3 BF _ X S4) as NL.
  change (pm me ee) with (momentum ee me) in NL. rewrite Pe in NL. specialize (NL HX).
  pose proof (delta_area ee me beta me X ltac:(lra) B) as DA. unfold window_lo, window_hi in DA.
  rewrite Pe in DA. change (velo epi mpi) with beta in LG. rewrite LG in DA. fold gamma in DA.
  specialize (DA ltac:(pose proof (um_ge me beta gamma ltac:(lra) B G GB ee ltac:(lra)) as U; unfold um in U; change (pm me ee) with (momentum ee me) in U; rewrite Pe in U; exact U) HX).
  apply (area_val _ _ _ (BRmu * (muon_I r / N) + BRe * 1)); [unfold muon_I; ring|].
  refine (area_ext _ _ _ _ _ [] _ (area_plus _ _ _ _ _ _ NL (area_scale BRe _ _ _ _ DA))).
  intros e Hl _. cbv beta.
  symmetry. apply (positron_pion_boost quad me mmu mpi N EMAX BRmu BRe e epi (F e) Q Hm Hbig Hemu Hmu Hmax Hepi ltac:(lra)).
  exact (BF e ltac:(lra)).
Qed.
Print Assumptions positron_pion_count.

(** Neutrinos: of the muon flavour one from the pion and one from the muon, of the electron flavour one from the
    muon and two, instead of one, from each pi -> e nu. *)
Theorem neutrino_pion_count : forall quad (me mmu N mpi BRmu BRe epi X : R),
  exact_oriented quad -> 0 < me < mmu -> mmu < mpi -> mmu + / 2 ^ 52 <= (mpi ^ 2 + mmu ^ 2) / (2 * mpi) -> mpi + / 2 ^ 52 <= epi -> epi <= X ->
  let r := me / mmu in let i := 1 - 8 * r ^ 2 + 8 * r ^ 6 - r ^ 8 - 24 * r ^ 4 * ln r in
  let f e := dnde_neutrino_charged_pion RMath quad me mmu N mpi BRmu BRe e epi in
  area (fun e => muon _ (f e)) 0 X (BRmu * (N * i) + BRmu) /\ area (fun e => electron _ (f e)) 0 X (BRmu * (N * i) + 2 * BRe).
Proof.
  intros quad me mmu N mpi BRmu BRe epi X Q Hm Hmu Hemu Hepi HX r i f.
  assert (H52 : 0 < / 2 ^ 52) by (apply Rinv_0_lt_compat; lra).
  destruct (flight_frame epi mpi ltac:(lra)) as (B & G & GB). destruct (velo_facts epi mpi ltac:(lra)) as (_ & _ & LG).
  set (beta := velo epi mpi) in *. set (gamma := epi / mpi) in *. set (emu := (mpi ^ 2 + mmu ^ 2) / (2 * mpi)) in *.
  destruct (flight_frame emu mmu ltac:(lra)) as (B1 & G1 & GB1).
  assert (GX : gamma * (mpi / 2 + beta * (mpi / 2)) <= X).
  { replace (gamma * (mpi / 2 + beta * (mpi / 2))) with (epi * ((1 + beta) / 2)) by (unfold gamma; field; lra). nra. }
  destruct (neutrino_flight_spectrum me mmu N emu Hm Hemu) as [[E1 E2] [M1 M2]].
  assert (Vm : emu / mmu * velo emu mmu = (mpi ^ 2 - mmu ^ 2) / (2 * mpi * mmu)).
  { unfold velo. replace (1 - (mmu / emu) ^ 2) with (((mpi ^ 2 - mmu ^ 2) / (mpi ^ 2 + mmu ^ 2)) ^ 2).
    - rewrite sqrt_pow2; [unfold emu; field; repeat split; nra|]. apply Rmult_le_pos; [nra|left; apply Rinv_0_lt_compat; nra].
    - unfold emu. field. repeat split; nra. }
  set (edge := emu / mmu * (1 + velo emu mmu) * nu_emax me mmu) in *.
  assert (Ed : edge <= mpi / 2).
  { unfold edge. rewrite Rmult_plus_distr_l, Vm. unfold nu_emax, emu.
    replace (_ * _) with (mpi / 2 * (1 - (me / mmu) ^ 2)) by (field; lra). pose proof (pow2_ge_0 (me / mmu)). nra. }
  (* spectra times the branching ratio, up to mpi/2 *)
  assert (W : forall g n, spectrum 0 edge n g -> exists F, boost_of 0 beta gamma (fun e => BRmu * g e) F /\ area F 0 X (BRmu * n)).
  { intros g n (S1 & S2 & (v & S3) & S4).
    assert (Sp : spectrum 0 edge (BRmu * n) (fun e => BRmu * g e)).
    { repeat split; [exact S1|intros u Hu; rewrite S2 by exact Hu; ring| |now apply area_scale].
      exists (BRmu * v). refine (area_ext _ _ _ _ _ [] _ (area_scale BRmu _ _ _ _ S3)). intros x _ _. unfold Rdiv. ring. }
    destruct (boost_exists 0 beta gamma (Rle_refl 0) B G GB _ _ _ Sp) as (F & BF & _). exists F. split; [exact BF|].
    destruct Sp as (T1 & T2 & (v' & T3) & T4).
    refine (number_law 0 beta gamma (Rle_refl 0) B G GB _ F edge v' T1 T2 T3 BF _ X T4 _). rewrite pm_0 by exact S1.
    eapply Rle_trans; [|exact GX]. apply Rmult_le_compat_l; [lra|]. apply Rplus_le_compat; [exact Ed|]. apply Rmult_le_compat_l; lra. }
  destruct (W _ _ E2) as (Fe & BFe & AFe). destruct (W _ _ M2) as (Fm & BFm & AFm).
  (* the lines *)
  assert (Li : forall e0, 0 < e0 <= mpi / 2 -> area (fun e => boost_delta_function RMath e0 e 0 beta) 0 X 1).
  { intros e0 He0. apply delta_area; [lra|exact B| |]; unfold window_lo, window_hi; rewrite LG, momentum_massless by lra; fold gamma.
    - apply Rmult_le_pos; [lra|]. nra.
    - eapply Rle_trans; [|exact GX]. apply Rmult_le_compat_l; [lra|]. apply Rplus_le_compat; [lra|]. apply Rmult_le_compat_l; lra. }
  assert (L1 : 0 < (mpi ^ 2 - me ^ 2) / (2 * mpi) <= mpi / 2).
  { split; [apply Rdiv_lt_0_compat; nra|]. apply (Rmult_le_reg_r (2 * mpi)); [lra|]. unfold Rdiv. rewrite Rmult_assoc, Rinv_l by lra. nra. }
  assert (L2 : 0 < (mpi ^ 2 - mmu ^ 2) / (2 * mpi) <= mpi / 2).
  { split; [apply Rdiv_lt_0_compat; nra|]. apply (Rmult_le_reg_r (2 * mpi)); [lra|]. unfold Rdiv. rewrite Rmult_assoc, Rinv_l by lra. nra. }
  assert (Pt : forall e, 0 < e < X ->
    electron _ (f e) = Fe e + 2 * (BRe * boost_delta_function RMath ((mpi ^ 2 - me ^ 2) / (2 * mpi)) e 0 beta)
    /\ muon _ (f e) = Fm e + BRmu * boost_delta_function RMath ((mpi ^ 2 - mmu ^ 2) / (2 * mpi)) e 0 beta).
  { intros e He.
    assert (Win : forall g F, boost_of 0 beta gamma (fun e => BRmu * g e) F ->
      area (fun e0 => BRmu * g e0 / (2 * gamma * beta * e0)) (gamma * (1 - beta) * e) (gamma * (1 + beta) * e) (F e)).
    { intros g F BF. specialize (BF e ltac:(lra)). rewrite pm_0 in BF by lra.
      replace (gamma * (1 - beta) * e) with (gamma * (e - beta * e)) by ring. replace (gamma * (1 + beta) * e) with (gamma * (e + beta * e)) by ring.
      refine (area_ext _ _ _ _ _ [] _ BF). intros u Hu _. rewrite pm_0; [reflexivity|].
      assert (0 <= gamma * (e - beta * e)) by (apply Rmult_le_pos; [lra|]; nra). lra. }
    destruct (neutrino_pion_boost quad me mmu N mpi BRmu BRe e epi (Fe e) (Fm e) Q Hm Hmu Hepi ltac:(lra) (Win _ _ BFe) (Win _ _ BFm)) as (P1 & P2 & _).
    split; [exact P1|exact P2]. }
  split.
  - replace (BRmu * (N * i) + BRmu) with (BRmu * (N * muon_I r) + BRmu * 1) by (unfold i, muon_I; ring).
    refine (area_ext _ _ _ _ _ [] _ (area_plus _ _ _ _ _ _ AFm (area_scale BRmu _ _ _ _ (Li _ L2)))).
    intros e He _. symmetry. apply (Pt e He).
  - replace (BRmu * (N * i) + 2 * BRe) with (BRmu * (N * muon_I r) + 2 * BRe * 1) by (unfold i, muon_I; ring).
    refine (area_ext _ _ _ _ _ [] _ (area_plus _ _ _ _ _ _ AFe (area_scale (2 * BRe) _ _ _ _ (Li _ L1)))).
    intros e He _. rewrite (proj1 (Pt e He)). ring.
Qed.
Print Assumptions neutrino_pion_count.

(** * Energy of photons in flight *)

(** a spectrum of massless particles below [emax] carrying the energy [w] *)
Definition energy_spectrum (emax w : R) (f : R -> R) : Prop :=
  0 <= emax /\ (forall u, emax < u -> f u = 0) /\ area (fun u => u * f u) 0 emax w.
Lemma energy_spectrum_wider emax emax' w f : emax <= emax' -> energy_spectrum emax w f -> energy_spectrum emax' w f.
Proof.
  intros L (A & B & C). split; [lra|]. split; [intros u Hu; apply B; lra|].
  apply (area_val _ _ _ (w + 0)); [ring|]. refine (area_join _ 0 emax emax' w 0 _ C _); [lra|].
  apply area_zero. intros u Hu. rewrite B by lra. ring.
Qed.
Lemma energy_spectrum_plus emax w1 w2 f g : energy_spectrum emax w1 f -> energy_spectrum emax w2 g ->
  energy_spectrum emax (w1 + w2) (fun e => f e + g e).
Proof.
  intros (A & B & C) (_ & B' & C'). split; [exact A|]. split; [intros u Hu; rewrite B, B' by exact Hu; ring|].
  refine (area_ext _ _ _ _ _ [] _ (area_plus _ _ _ _ _ _ C C')). intros u _ _. ring.
Qed.
Lemma energy_spectrum_scale k emax w f : energy_spectrum emax w f -> energy_spectrum emax (k * w) (fun e => k * f e).
Proof.
  intros (A & B & C). split; [exact A|]. split; [intros u Hu; rewrite B by exact Hu; ring|].
  refine (area_ext _ _ _ _ _ [] _ (area_scale k _ _ _ _ C)). intros u _ _. ring.
Qed.
(** The boost exists, is unique, and carries gamma times the energy. *)
Lemma energy_spectrum_boost beta gamma emax w f : 0 < beta < 1 -> 0 < gamma -> gamma * gamma * (1 - beta * beta) = 1 ->
  energy_spectrum emax w f -> exists F,
  (forall e, 0 < e -> area (fun u => f u / (2 * gamma * beta * u)) (gamma * (1 - beta) * e) (gamma * (1 + beta) * e) (F e))
  /\ (forall X, gamma * (1 + beta) * emax <= X -> area (fun e => e * F e) 0 X (gamma * w)).
Proof. intros Hb Hg Hgb (A & B & C). exact (energy_law_massless beta gamma Hb Hg Hgb f emax w A B C). Qed.

(** ** Muons *)
Definition edge_muon (me mmu : R) : R := (mmu ^ 2 - me ^ 2) / (2 * mmu).
Definition rad_clipped me mmu alpha (e : R) : R := if Rle_dec (edge_muon me mmu) e then 0 else rad_muon me mmu alpha e.
Lemma rad_spectrum me mmu alpha : 0 < me < mmu -> exists w, energy_spectrum (edge_muon me mmu) w (rad_clipped me mmu alpha)
  /\ area (fun e => e * rad_muon me mmu alpha e) 0 (edge_muon me mmu) w.
Proof.
  intro Hm. assert (Ed : 0 < edge_muon me mmu) by (unfold edge_muon; apply Rdiv_lt_0_compat; nra).
  assert (Em : edge_muon me mmu < mmu / 2).
  { unfold edge_muon. apply (Rmult_lt_reg_r (2 * mmu)); [lra|]. unfold Rdiv. rewrite Rmult_assoc, Rinv_l by lra. nra. }
  assert (Hr : 0 < (me / mmu) ^ 2) by (apply pow_lt, Rdiv_lt_0_compat; lra).
  destruct (area_exists (fun e => alpha / (3 * PI) * rad_bracket ((me / mmu) ^ 2) (2 / mmu * e)) 0 (edge_muon me mmu) ltac:(lra)) as [w A].
  - intros x Hx. apply scaled_cont. apply (continuity_pt_comp (fun e => 2 / mmu * e) (rad_bracket ((me / mmu) ^ 2))); [apply scaled_cont, id_cont|].
    assert (Y : 2 / mmu * x < 1).
    { apply (Rmult_lt_reg_l (mmu / 2)); [lra|]. replace (mmu / 2 * (2 / mmu * x)) with x by (field; lra). lra. }
    set (y := 2 / mmu * x) in *. clearbody y. set (r := (me / mmu) ^ 2) in *. clearbody r.
    assert (P : 0 < (1 - y) / r) by (apply Rdiv_lt_0_compat; lra).
    unfold rad_bracket. apply derivable_continuous_pt. eexists. apply dl_plus.
    + apply dl_mult; [dlp|]. apply dl_ln; [|exact P]. dlp.
    + dlp.
  - exists w. assert (A' : area (fun e => e * rad_muon me mmu alpha e) 0 (edge_muon me mmu) w).
    { refine (area_ext _ _ _ _ _ [] _ A). intros x Hx _. unfold rad_muon. replace (2 / mmu * x) with (2 * x / mmu) by (field; lra).
      set (b := rad_bracket _ _). clearbody b. pose proof PI_RGT_0. field. repeat split; lra. }
    split; [|exact A']. split; [lra|]. split.
    + intros u Hu. unfold rad_clipped. destruct (Rle_dec _ u); [reflexivity|lra].
    + refine (area_ext _ _ _ _ _ [] _ A'). intros x Hx _. unfold rad_clipped. destruct (Rle_dec _ x); [lra|reflexivity].
Qed.
Lemma photon_muon_is_boost spence me mmu alpha emu F : dilogarithm spence -> 0 < me < mmu -> mmu + / 2 ^ 52 <= emu ->
  let gamma := emu / mmu in let beta := velo emu mmu in
  (forall e, 0 < e -> area (fun u => rad_clipped me mmu alpha u / (2 * gamma * beta * u)) (gamma * (1 - beta) * e) (gamma * (1 + beta) * e) (F e)) ->
  forall e, 0 < e -> dnde_photon_muon RMath spence me mmu alpha e emu = F e.
Proof.
  intros Sp Hm Hemu gamma beta BF e He. assert (H52 : 0 < / 2 ^ 52) by (apply Rinv_0_lt_compat; lra).
  destruct (flight_frame emu mmu ltac:(lra)) as (B & G & _). fold gamma beta in B, G.
  assert (L0 : 0 < gamma * (1 - beta) * e) by (apply Rmult_lt_0_compat; [apply Rmult_lt_0_compat|]; lra).
  assert (L1 : gamma * (1 - beta) * e <= gamma * (1 + beta) * e) by (apply Rmult_le_compat_r; [lra|]; apply Rmult_le_compat_l; lra).
  refine (area_unique _ _ _ _ _ L1 _ (BF e He)).
  destruct (photon_muon_boost spence me mmu alpha e emu Sp Hm Hemu He) as [P1 P2].
  change (sqrt _) with beta in P1, P2. fold gamma in P1, P2. change ((mmu ^ 2 - me ^ 2) / (2 * mmu)) with (edge_muon me mmu) in P1, P2.
  destruct (Rlt_le_dec (gamma * (1 - beta) * e) (edge_muon me mmu)) as [D|D].
  - specialize (P1 D). set (lo := gamma * (1 - beta) * e) in *. set (hi := gamma * (1 + beta) * e) in *.
    assert (Mi : lo <= Rmin hi (edge_muon me mmu) <= hi) by (split; [apply Rmin_glb; lra|apply Rmin_l]).
    apply (area_val _ _ _ (dnde_photon_muon RMath spence me mmu alpha e emu + 0)); [ring|].
    refine (area_join _ lo (Rmin hi (edge_muon me mmu)) hi _ 0 Mi _ _).
    + refine (area_ext _ _ _ _ _ [] _ P1). intros u Hu _. unfold rad_clipped. pose proof (Rmin_r hi (edge_muon me mmu)).
      destruct (Rle_dec _ u); [lra|reflexivity].
    + apply area_zero. intros u Hu. unfold rad_clipped. destruct (Rle_dec _ u) as [|N]; [unfold Rdiv; ring|].
      exfalso. unfold Rmin in Hu. destruct (Rle_dec hi (edge_muon me mmu)); lra.
  - rewrite (P2 D). apply area_zero. intros u Hu. unfold rad_clipped. destruct (Rle_dec _ u); [unfold Rdiv; ring|lra].
Qed.

(** The photons of a moving muon carry gamma times the energy that the radiative formula holds up to the
    kinematic end. *)
Theorem photon_muon_energy : forall spence (me mmu alpha : R), dilogarithm spence -> 0 < me < mmu ->
  let edge := (mmu ^ 2 - me ^ 2) / (2 * mmu) in
  exists w, area (fun e => e * rad_muon me mmu alpha e) 0 edge w
  /\ forall emu X, mmu + / 2 ^ 52 <= emu -> let gamma := emu / mmu in let beta := sqrt (1 - (mmu / emu) ^ 2) in
     gamma * (1 + beta) * edge <= X -> area (fun e => e * dnde_photon_muon RMath spence me mmu alpha e emu) 0 X (gamma * w).
Proof.
  intros spence me mmu alpha Sp Hm edge. assert (H52 : 0 < / 2 ^ 52) by (apply Rinv_0_lt_compat; lra).
  destruct (rad_spectrum me mmu alpha Hm) as (w & ES & A). exists w. split; [exact A|].
  intros emu X He gamma beta HX. destruct (flight_frame emu mmu ltac:(lra)) as (B & G & GB).
  destruct (energy_spectrum_boost beta gamma _ w _ B G GB ES) as (F & F1 & F2).
  refine (area_ext _ _ _ _ _ [] _ (F2 X HX)). intros e Hl _. f_equal. symmetry.
  exact (photon_muon_is_boost spence me mmu alpha emu F Sp Hm He F1 e ltac:(lra)).
Qed.
Print Assumptions photon_muon_energy.

(** ** Charged pions *)
(** the radiative decay pi -> l nu gamma over its soft singularity *)
Definition lnug_numerator (mpi fpi fa fv slope r x : R) : R :=
  (x * mpi * x * ((r * - (2) + x) * fa + - (x * (((1 - x) * slope + 1) * fv)))
   + (x * 2 + (- x * x + ((r + r) * r + - (x * (r + r)))) - 2) * (fpi * sqrt 2))
  * (ln (r / (1 - x)) * (r * (fpi * (12 * sqrt 2)) * (x - 1) * (x - 1)))
  + (x + r - 1) *
   (fpi * - (24) * fpi * r * (x - 1) * (r * 4 * (x - 1) + (x - 2) * (x - 2))
    + (mpi * mpi * x * x * x * x * (((1 - x) * slope + 1) * fv * (((1 - x) * slope + 1) * fv) + fa * fa)
       * ((x - 1) * - (2) * (x - 1) + (r * r + - (x * r) + r))
       + - (((x * - (2) + r + 1) * fa + x * (((1 - x) * slope + 1) * fv)) * (fpi * (12 * sqrt 2) * mpi * r * (x - 1) * x * x)))).
Lemma lnug_spectrum mpi alpha fpi fa fv slope ml : 0 < ml < mpi -> fpi <> 0 ->
  exists w, energy_spectrum (mpi / 2) w (fun e => dnde_pi_to_lnug RMath mpi alpha fpi fa fv slope e ml).
Proof.
  intros Hm Hf. set (r := ml / mpi * (ml / mpi)). pose proof (ratio_unit ml mpi Hm) as Hr.
  assert (R1 : 0 < r < 1) by (unfold r; split; [apply Rmult_lt_0_compat; lra|nra]).
  set (edge := mpi * (1 - r) / 2). assert (Ed : 0 < edge < mpi / 2).
  { assert (0 < mpi * r) by (apply Rmult_lt_0_compat; lra). assert (0 < mpi * (1 - r)) by (apply Rmult_lt_0_compat; lra). unfold edge. lra. }
  set (den := fun x => fpi * (24 * PI * mpi) * fpi * (r - 1) * (r - 1) * (x - 1) * (x - 1) * r).
  assert (Den : forall x, x < 1 -> den x <> 0).
  { intros x Hx. pose proof PI_RGT_0 as Hp. unfold den. clear - Hp Hx Hf R1 Hm. set (pi := PI) in *. clearbody pi r.
    repeat (apply Rmult_integral_contrapositive_currified); try exact Hf; try (apply Rgt_not_eq; lra); apply Rlt_not_eq; lra. }
  set (num := lnug_numerator mpi fpi fa fv slope r).
  assert (Xe : forall u, 0 <= u <= edge -> 0 <= 2 / mpi * u <= 1 - r).
  { intros u Hu. assert (P : 0 < 2 / mpi) by (apply Rdiv_lt_0_compat; lra). split; [apply Rmult_le_pos; lra|].
    replace (1 - r) with (2 / mpi * edge) by (unfold edge; field; lra). apply Rmult_le_compat_l; lra. }
  destruct (area_exists (fun u => mpi / 2 * alpha * (num (2 / mpi * u) / den (2 / mpi * u))) 0 edge ltac:(lra)) as [w A].
  { intros u Hu. specialize (Xe u Hu). apply scaled_cont.
    apply (continuity_pt_comp (fun u => 2 / mpi * u) (fun x => num x / den x)); [apply scaled_cont, id_cont|].
    set (x := 2 / mpi * u) in *. clearbody x. assert (X1 : x < 1) by lra.
    apply derivable_continuous_pt. eexists. apply dl_div; [| |apply Den; exact X1].
    - unfold num, lnug_numerator. apply dl_plus; [|dlp]. apply dl_mult; [dlp|]. apply dl_mult; [|dlp].
      apply dl_ln; [|apply Rdiv_lt_0_compat; lra]. apply dl_div; [dlp|dlp|lra].
    - unfold den. dlp. }
  assert (Z : forall u, edge < u -> dnde_pi_to_lnug RMath mpi alpha fpi fa fv slope u ml = 0).
  { intros u Hu. unfold dnde_pi_to_lnug. rmodel. cbv zeta. fold r.
    destruct (Rlt_dec (2 * u / mpi) 0); [reflexivity|]. destruct (Rlt_dec (1 - r) (2 * u / mpi)) as [|C']; [reflexivity|exfalso].
    apply C'. replace (1 - r) with (2 * edge / mpi) by (unfold edge; field; lra). apply Rmult_lt_compat_r; [apply Rinv_0_lt_compat|]; lra. }
  exists w. apply (energy_spectrum_wider edge); [lra|]. split; [lra|]. split; [exact Z|].
  refine (area_ext _ _ _ _ _ [] _ A). intros u Hu _. specialize (Xe u ltac:(lra)).
  assert (E : 2 / mpi * u = 2 * u / mpi) by (field; lra).
  unfold dnde_pi_to_lnug. rmodel. cbv zeta. fold r.
  destruct (Rlt_dec (2 * u / mpi) 0); [lra|]. destruct (Rlt_dec (1 - r) (2 * u / mpi)); [lra|]. cbn [orb].
  change (RustMath.fpi RMath) with PI. rewrite E in *. set (x := 2 * u / mpi) in *.
  assert (Eu : u = mpi / 2 * x) by (unfold x; field; lra). 
  match goal with |- _ = u * (?n * alpha / (?d * x)) => change n with (num x); change d with (den x) end.
  assert (0 < x) by (unfold x; apply Rdiv_lt_0_compat; lra). pose proof (Den x ltac:(lra)).
  rewrite Eu at 1. clearbody x num den. field. repeat split; lra.
Qed.

(** The photons of a pion at rest carry an energy w; those of a pion of energy epi carry epi/mpi times w. *)
Theorem photon_charged_pion_energy : forall spence quad (me mmu mpi alpha fpi fa fv slope BRmu BRe : R),
  dilogarithm spence -> exact_oriented quad -> 0 < me < mmu -> mmu < mpi -> fpi <> 0 ->
  let emu := (mpi ^ 2 + mmu ^ 2) / (2 * mpi) in mmu + / 2 ^ 52 <= emu ->
  let f := dnde_photon_charged_pion RMath spence quad me mmu mpi alpha fpi fa fv slope emu BRmu BRe in
  exists w, forall epi X, mpi <= epi -> epi <= X -> area (fun e => e * f e epi) 0 X (epi / mpi * w).
Proof.
  intros spence quad me mmu mpi alpha fpi fa fv slope BRmu BRe Sp Q Hm Hmu Hf emu Hemu f.
  assert (H52 : 0 < / 2 ^ 52) by (apply Rinv_0_lt_compat; lra).
  destruct (flight_frame emu mmu ltac:(lra)) as (B1 & G1 & GB1).
  destruct (rad_spectrum me mmu alpha Hm) as (w0 & ES & _).
  destruct (energy_spectrum_boost (velo emu mmu) (emu / mmu) _ w0 _ B1 G1 GB1 ES) as (F & F1 & F2).
  pose proof (photon_muon_is_boost spence me mmu alpha emu F Sp Hm Hemu F1) as FE.
  assert (Vm : emu / mmu * velo emu mmu = (mpi ^ 2 - mmu ^ 2) / (2 * mpi * mmu)).
  { unfold velo. replace (1 - (mmu / emu) ^ 2) with (((mpi ^ 2 - mmu ^ 2) / (mpi ^ 2 + mmu ^ 2)) ^ 2).
    - rewrite sqrt_pow2; [unfold emu; field; repeat split; nra|]. apply Rmult_le_pos; [nra|left; apply Rinv_0_lt_compat; nra].
    - unfold emu. field. repeat split; nra. }
  assert (Ed : emu / mmu * (1 + velo emu mmu) * edge_muon me mmu <= mpi / 2).
  { rewrite Rmult_plus_distr_l, Vm. unfold edge_muon, emu.
    replace (_ * _) with (mpi / 2 * (1 - (me / mmu) ^ 2)) by (field; lra). pose proof (pow2_ge_0 (me / mmu)). nra. }
  (* the muon's photons in the pion frame *)
  assert (S1 : energy_spectrum (mpi / 2) (emu / mmu * w0) (fun e => dnde_photon_muon RMath spence me mmu alpha e emu)).
  { split; [lra|]. split.
    - intros u Hu. assert (Hu0 : 0 < u) by lra.
      destruct (photon_muon_boost spence me mmu alpha u emu Sp Hm Hemu Hu0) as [_ P2]. apply P2.
      change (sqrt _) with (velo emu mmu). change ((mmu ^ 2 - me ^ 2) / (2 * mmu)) with (edge_muon me mmu).
      set (b := velo emu mmu) in *. set (g := emu / mmu) in *.
      apply (Rmult_le_reg_l (g * (1 + b))); [apply Rmult_lt_0_compat; lra|].
      replace (g * (1 + b) * (g * (1 - b) * u)) with (g * g * (1 - b * b) * u) by ring. rewrite GB1. lra.
    - refine (area_ext _ _ _ _ _ [] _ (F2 (mpi / 2) Ed)). intros u Hu _. rewrite FE by lra. reflexivity. }
  destruct (lnug_spectrum mpi alpha fpi fa fv slope mmu ltac:(lra) Hf) as (w2 & S2).
  destruct (lnug_spectrum mpi alpha fpi fa fv slope me ltac:(lra) Hf) as (w3 & S3).
  set (rest := pion_photons_rest spence me mmu mpi alpha fpi fa fv slope emu BRmu BRe).
  pose (w := BRmu * (emu / mmu * w0 + w2) + BRe * w3).
  assert (SR : energy_spectrum (mpi / 2) w rest).
  { exact (energy_spectrum_plus _ _ _ _ _ (energy_spectrum_scale BRmu _ _ _ (energy_spectrum_plus _ _ _ _ _ S1 S2)) (energy_spectrum_scale BRe _ _ _ S3)). }
  exists w. intros epi X Hl HX.
  destruct Hl as [Hl|Hl].
  - destruct (flight_frame epi mpi ltac:(lra)) as (B & G & GB).
    destruct (energy_spectrum_boost _ _ _ w _ B G GB SR) as (FP & FP1 & FP2).
    refine (area_ext _ _ _ _ _ [] _ (FP2 X _)).
    + intros e He _. f_equal. symmetry.
      destruct (photon_charged_pion_boost spence quad me mmu mpi alpha fpi fa fv slope emu BRmu BRe e epi Q ltac:(lra) ltac:(lra)) as (_ & _ & P).
      apply P; [exact Hl|]. exact (FP1 e ltac:(lra)).
    + set (b := velo epi mpi) in *. replace (epi / mpi * (1 + b) * (mpi / 2)) with (epi * ((1 + b) / 2)) by (field; lra). nra.
  - subst epi. destruct (energy_spectrum_wider (mpi / 2) X w rest ltac:(lra) SR) as (_ & _ & A).
    apply (area_val _ _ _ w); [field; lra|].
    refine (area_ext _ _ _ _ _ [] _ A). intros e He _. f_equal. symmetry.
    destruct (photon_charged_pion_boost spence quad me mmu mpi alpha fpi fa fv slope emu BRmu BRe e mpi Q ltac:(lra) ltac:(lra)) as (_ & P & _).
    apply P. reflexivity.
Qed.
Print Assumptions photon_charged_pion_energy.

(** ** Rho mesons *)
Lemma energy_spectrum_boosted beta gamma emax w f F : 0 < beta < 1 -> 0 < gamma -> gamma * gamma * (1 - beta * beta) = 1 ->
  energy_spectrum emax w f ->
  (forall e, 0 < e -> area (fun u => f u / (2 * gamma * beta * u)) (gamma * (1 - beta) * e) (gamma * (1 + beta) * e) (F e)) ->
  energy_spectrum (gamma * (1 + beta) * emax) (gamma * w) F.
Proof.
  intros Hb Hg Hgb S BF. destruct (energy_spectrum_boost beta gamma emax w f Hb Hg Hgb S) as (F' & F1 & F2).
  assert (Win : forall e, 0 < e -> gamma * (1 - beta) * e <= gamma * (1 + beta) * e).
  { intros e He. apply Rmult_le_compat_r; [lra|]. apply Rmult_le_compat_l; lra. }
  assert (FF : forall e, 0 < e -> F e = F' e) by (intros e He; exact (area_unique _ _ _ _ _ (Win e He) (BF e He) (F1 e He))).
  destruct S as (A & Z & _). assert (K : 0 < gamma * (1 + beta)) by (apply Rmult_lt_0_compat; lra).
  split; [apply Rmult_le_pos; lra|]. split.
  - intros e He. assert (E0 : 0 < e) by (assert (0 <= gamma * (1 + beta) * emax) by (apply Rmult_le_pos; lra); lra).
    refine (area_unique _ _ _ _ _ (Win e E0) (BF e E0) _). apply area_zero. intros u Hu.
    assert (L : emax <= gamma * (1 - beta) * e).
    { apply (Rmult_le_reg_l (gamma * (1 + beta))); [exact K|].
      replace (gamma * (1 + beta) * (gamma * (1 - beta) * e)) with (gamma * gamma * (1 - beta * beta) * e) by ring. rewrite Hgb. lra. }
    rewrite Z by lra. unfold Rdiv. ring.
  - refine (area_ext _ _ _ _ _ [] _ (F2 _ (Rle_refl _))). intros e He _. rewrite FF by lra. reflexivity.
Qed.

(** A neutral rho decays to two charged pions of half its mass each: the photons carry the energy of two such
    pions' photons, times erho/mrho, whatever the function for the pions. *)
Theorem photon_neutral_rho_energy : forall quad (mrho : R) (charged : R -> R -> R) (w emax : R),
  exact_oriented quad -> 0 < mrho -> 0 <= emax ->
  (forall u, emax < u -> charged u (mrho / 2) = 0) -> area (fun e => e * charged e (mrho / 2)) 0 emax w ->
  forall erho X, mrho + / 2 ^ 52 <= erho -> let gamma := erho / mrho in let beta := sqrt (1 - (mrho / erho) ^ 2) in
  gamma * (1 + beta) * emax <= X ->
  area (fun e => e * dnde_photon_neutral_rho RMath quad mrho charged e erho) 0 X (gamma * (2 * w)).
Proof.
  intros quad mrho charged w emax Q Hm He Z A erho X Hr gamma beta HX. assert (H52 : 0 < / 2 ^ 52) by (apply Rinv_0_lt_compat; lra).
  destruct (flight_frame erho mrho ltac:(lra)) as (B & G & GB).
  assert (S : energy_spectrum emax (2 * w) (fun e => charged e (mrho / 2) + charged e (mrho / 2))).
  { replace (2 * w) with (w + w) by ring. apply energy_spectrum_plus; (split; [exact He|split; [exact Z|exact A]]). }
  destruct (energy_spectrum_boost beta gamma emax _ _ B G GB S) as (F & F1 & F2).
  refine (area_ext _ _ _ _ _ [] _ (F2 X HX)). intros e Hl _. f_equal. symmetry.
  pose proof (photon_rho_boost quad 0 0 mrho charged charged e erho (F e) Q Hm Hr ltac:(lra)) as P. cbv zeta in P. destruct P as [P _].
  apply P. replace ((mrho ^ 2 + 0 ^ 2 - 0 ^ 2) / (2 * mrho)) with (mrho / 2) by (field; lra). exact (F1 e ltac:(lra)).
Qed.
Print Assumptions photon_neutral_rho_energy.

(** A charged rho: the photons of both pions at their two-body energies. *)
Theorem photon_charged_rho_energy : forall quad (mpi mpi0 mrho : R) (charged neutral : R -> R -> R) (w w0 emax : R),
  exact_oriented quad -> 0 < mrho -> 0 <= emax ->
  let two_body m1 m2 := (mrho ^ 2 + m1 ^ 2 - m2 ^ 2) / (2 * mrho) in
  (forall u, emax < u -> charged u (two_body mpi mpi0) = 0 /\ neutral u (two_body mpi0 mpi) = 0) ->
  area (fun e => e * charged e (two_body mpi mpi0)) 0 emax w -> area (fun e => e * neutral e (two_body mpi0 mpi)) 0 emax w0 ->
  forall erho X, mrho + / 2 ^ 52 <= erho -> let gamma := erho / mrho in let beta := sqrt (1 - (mrho / erho) ^ 2) in
  gamma * (1 + beta) * emax <= X ->
  area (fun e => e * dnde_photon_charged_rho RMath quad mpi mpi0 mrho charged neutral e erho) 0 X (gamma * (w + w0)).
Proof.
  intros quad mpi mpi0 mrho charged neutral w w0 emax Q Hm He two_body Z A A0 erho X Hr gamma beta HX.
  assert (H52 : 0 < / 2 ^ 52) by (apply Rinv_0_lt_compat; lra).
  destruct (flight_frame erho mrho ltac:(lra)) as (B & G & GB).
  assert (S : energy_spectrum emax (w + w0) (fun e => charged e (two_body mpi mpi0) + neutral e (two_body mpi0 mpi))).
  { apply energy_spectrum_plus; (split; [exact He|split; [intros u Hu; now apply Z|assumption]]). }
  destruct (energy_spectrum_boost beta gamma emax _ _ B G GB S) as (F & F1 & F2).
  refine (area_ext _ _ _ _ _ [] _ (F2 X HX)). intros e Hl _. f_equal. symmetry.
  pose proof (photon_rho_boost quad mpi mpi0 mrho charged neutral e erho (F e) Q Hm Hr ltac:(lra)) as P. cbv zeta in P. destruct P as [_ P].
  apply P. exact (F1 e ltac:(lra)).
Qed.
Print Assumptions photon_charged_rho_energy.

(** * The hypotheses can be met *)

(** Mass 3, velocity 4/5, the spectrum p(e) on (3, 5): eight units of momentum-weighted area, and its boost exists. *)
Example ex_boost_conserves : exists F n,
  area (fun u => (if Rle_dec u 5 then sqrt (u * u - 3 * 3) else 0) / sqrt (u * u - 3 * 3)) 3 5 2
  /\ area (fun u => if Rle_dec u 5 then sqrt (u * u - 3 * 3) else 0) 3 5 n
  /\ (forall e, 3 < e -> area (fun u => (if Rle_dec u 5 then sqrt (u * u - 3 * 3) else 0) / (2 * (5 / 3) * (4 / 5) * sqrt (u * u - 3 * 3)))
       (5 / 3 * (e - 4 / 5 * sqrt (e * e - 3 * 3))) (5 / 3 * (e + 4 / 5 * sqrt (e * e - 3 * 3))) (F e)).
Proof.
  set (f := fun u => if Rle_dec u 5 then sqrt (u * u - 3 * 3) else 0).
  assert (A1 : area (fun u => f u / pm 3 u) 3 5 2).
  { apply (area_val _ _ _ (1 * (5 - 3))); [ring|]. refine (area_ext _ _ _ _ _ [] _ (area_const 1 3 5)). intros u Hu _.
    unfold f. destruct (Rle_dec u 5); [|lra]. fold (pm 3 u). pose proof (pm_pos 3 ltac:(lra) u ltac:(lra)). field. lra. }
  destruct (area_exists (pm 3) 3 5 ltac:(lra)) as [n A2]; [intros x Hx; apply pm_cont; lra|].
  assert (A3 : area f 3 5 n).
  { refine (area_ext _ _ _ _ _ [] _ A2). intros u Hu _. unfold f. destruct (Rle_dec u 5); [reflexivity|lra]. }
  destruct (boost_exists 3 (4 / 5) (5 / 3) ltac:(lra) ltac:(lra) ltac:(lra) ltac:(lra) 5 n f) as (F & BF & _).
  { repeat split; [lra| |eauto|exact A3]. intros u Hu. unfold f. destruct (Rle_dec u 5); [lra|reflexivity]. }
  exists F, n. split; [exact A1|]. split; [exact A3|]. exact BF.
Qed.
(** The constants of the code meet the hypotheses for muons and pions at 200 MeV. *)
Example ex_flight_counts :
  0 < pdg_MASS_E RMath < pdg_MASS_MU RMath /\ pdg_MASS_MU RMath <= 2 ^ 51 /\ pdg_R_FACTOR RMath <> 0
  /\ pdg_MASS_MU RMath + / 2 ^ 52 <= 200 /\ pdg_MASS_MU RMath < pdg_MASS_PI RMath /\ pdg_MASS_PI RMath + / 2 ^ 52 <= 200
  /\ pdg_MASS_MU RMath + / 2 ^ 52 <= (pdg_MASS_PI RMath ^ 2 + pdg_MASS_MU RMath ^ 2) / (2 * pdg_MASS_PI RMath)
  /\ (exists quad, exact_oriented quad) /\ (exists spence, dilogarithm spence).
Proof.
  rewrite literal_me, literal_mmu, literal_R.
  assert (P : pdg_MASS_PI RMath = 13957039 / 10 ^ 5) by (unfold pdg_MASS_PI; rmodel; unfold Q2R; cbn -[IZR Rinv Rmult pow]; lra).
  rewrite P. split; [lra|]. split; [lra|]. split; [lra|]. split; [lra|]. split; [lra|]. split; [lra|]. split; [lra|].
  split; [exact exact_oriented_exists|exact dilogarithm_exists].
Qed.
(** A flat spectrum for the pions of a rho of mass 2. *)
Example ex_rho_energy : (forall u, 1 < u -> (fun e (_ : R) => if Rle_dec e 1 then 1 else 0) u (2 / 2) = 0)
  /\ area (fun e => e * (fun e (_ : R) => if Rle_dec e 1 then 1 else 0) e (2 / 2)) 0 1 (/ 2).
Proof.
  split; [intros u Hu; cbv beta; destruct (Rle_dec u 1); [lra|reflexivity]|].
  apply (area_val _ _ _ (1 * 1 / 2 - 0 * 0 / 2)); [lra|].
  refine (area_ext _ _ _ _ _ [] _ (area_of_antiderivative (fun e => e * e / 2) (fun e => e) 0 1 _)).
  - intros e He _. destruct (Rle_dec e 1); [ring|lra].
  - intros e He. eapply dl_val; [apply dl_div; [apply dl_mult; apply dl_id|apply (dl_const 2)|lra]|unfold Rsqr; field].
Qed.
