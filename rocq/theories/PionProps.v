(** Property theorems for the photon spectrum of the muon and for spectra obtained by boosting the spectra
    of decay products (C75, C76, C77). *)
From Coq Require Import Reals Lra Lia Qreals QArith List.
From Verif Require Import RustBase RustBaseFacts RustMath Area Primitive BoostModel BoostProofs SpecModel SpecProofs SpecProps
  PionModel PionProofs MedSpecProofs.
Import ListNotations.
Local Open Scope nat_scope.
Local Open Scope R_scope.

(** ** C75: photons from muon decay *)

(** At rest the spectrum is the radiative formula below the energy mmu (1 - me/mmu)/2 and zero above. *)
Theorem photon_muon_rest : forall spence (me mmu alpha e : R), 0 < me < mmu ->
  dnde_photon_muon RMath spence me mmu alpha e mmu =
  if Rle_dec e 0 then 0 else if Rle_dec (mmu * (1 - me / mmu) / 2) e then 0 else rad_muon me mmu alpha e.
Proof. exact photon_rest. Qed.
Print Assumptions photon_muon_rest.

(** In flight the long closed form is the boost of the radiative formula, continued up to the kinematic end
    (mmu^2 - me^2)/(2 mmu) of the photon energy at rest, and zero beyond. *)
Theorem photon_muon_boost : forall spence (me mmu alpha e emu : R),
  dilogarithm spence -> 0 < me < mmu -> mmu + / 2 ^ 52 <= emu -> 0 < e ->
  let gamma := emu / mmu in let beta := sqrt (1 - (mmu / emu) ^ 2) in
  let edge := (mmu ^ 2 - me ^ 2) / (2 * mmu) in
  (gamma * (1 - beta) * e < edge ->
   area (fun e0 => rad_muon me mmu alpha e0 / (2 * gamma * beta * e0))
     (gamma * (1 - beta) * e) (Rmin (gamma * (1 + beta) * e) edge) (dnde_photon_muon RMath spence me mmu alpha e emu))
  /\ (edge <= gamma * (1 - beta) * e -> dnde_photon_muon RMath spence me mmu alpha e emu = 0).
Proof.
  intros spence me mmu alpha e emu S Hm Hemu He gamma beta edge.
  assert (H52 : 0 < / 2 ^ 52) by (apply Rinv_0_lt_compat; lra).
  pose proof (ratio_unit me mmu Hm) as Hr. set (r := (me / mmu) ^ 2). assert (R1 : 0 < r < 1) by (unfold r; nra).
  destruct (velo_facts emu mmu ltac:(lra)) as (B & _ & _). change (velo emu mmu) with beta in B.
  assert (G : 0 < gamma) by (unfold gamma; apply Rdiv_lt_0_compat; lra).
  assert (T : 0 < 2 / mmu) by (apply Rdiv_lt_0_compat; lra).
  assert (ED : 2 / mmu * edge = 1 - r) by (unfold edge, r; field; lra).
  rewrite (photon_flight spence me mmu alpha e emu Hm Hemu He). change (velo emu mmu) with beta. fold gamma r.
  set (lo := gamma * (1 - beta) * e).
  replace (gamma * (1 - beta) * (2 * e / mmu)) with (2 / mmu * lo) by (unfold lo; field; lra).
  replace (Rmin (gamma * (1 + beta) * (2 * e / mmu)) (1 - r)) with (2 / mmu * Rmin (gamma * (1 + beta) * e) edge).
  2:{ rewrite <- ED. replace (gamma * (1 + beta) * (2 * e / mmu)) with (2 / mmu * (gamma * (1 + beta) * e)) by (field; lra).
      unfold Rmin. destruct (Rle_dec _ edge) as [U|U], (Rle_dec _ (2 / mmu * edge)) as [V|V]; nra. }
  set (hi := Rmin _ edge).
  assert (LO : 0 < lo) by (unfold lo; apply Rmult_lt_0_compat; [apply Rmult_lt_0_compat|]; lra).
  split; intro H.
  - destruct (Rle_dec (1 - r) (2 / mmu * lo)) as [K|_]; [exfalso; nra|].
    assert (HI : lo <= hi <= edge).
    { unfold hi. split; [apply Rmin_glb; [|lra]|apply Rmin_r]. unfold lo. apply Rmult_le_compat_r; [lra|]. apply Rmult_le_compat_l; lra. }
    set (k := alpha / (3 * PI * emu * beta)).
    apply (area_val _ _ _ (k * rad_H spence r (2 / mmu * hi) - k * rad_H spence r (2 / mmu * lo))); [ring|].
    apply (area_of_antiderivative (fun x => k * rad_H spence r (2 / mmu * x))). intros x Hx.
    assert (Y : 0 < 2 / mmu * x < 1) by (split; [apply Rmult_lt_0_compat; lra|]; nra).
    eapply dl_val.
    + eapply dl_mult; [apply dl_const|]. eapply (dl_comp (fun x => 2 / mmu * x)); [dl; lra|]. now apply rad_H_der.
    + unfold rad_muon. replace (2 * x / mmu) with (2 / mmu * x) by (field; lra). fold r.
      set (h := rad_bracket r _). clearbody h. unfold k, gamma. unfold Rsqr. pose proof PI_RGT_0. field. repeat split; lra.
  - destruct (Rle_dec (1 - r) (2 / mmu * lo)) as [_|K]; [reflexivity|]. exfalso. apply K. rewrite <- ED. nra.
Qed.
Print Assumptions photon_muon_boost.

(** The bracket of the radiative formula is negative within twice the squared mass ratio of the end. *)
Lemma bracket_negative r y : 0 < r < 1 / 4 -> 1 - 2 * r <= y < 1 - r -> rad_bracket r y < 0.
Proof.
  intros Hr Hy. set (u := 1 - y). assert (U : r < u <= 2 * r) by (unfold u; lra).
  replace (rad_bracket r y) with ((3 * u - 2 * u ^ 3 + 2 * u ^ 4) * ln (u / r) - u * (102 + 9 * u - 64 * u ^ 2 + 55 * u ^ 3) / 12).
  2:{ unfold rad_bracket. fold u. replace y with (1 - u) by (unfold u; ring).
      set (L := ln _). field. }
  assert (Q : 1 < u / r <= 2).
  { split; apply (Rmult_lt_reg_r r) || apply (Rmult_le_reg_r r); try lra; unfold Rdiv; rewrite Rmult_assoc, Rinv_l; lra. }
  assert (L1 : 0 < ln (u / r)) by (rewrite <- ln_1; apply ln_increasing; lra).
  assert (L2 : ln (u / r) < 1).
  { apply exp_lt_inv. rewrite exp_ln by lra. apply Rle_lt_trans with 2; [lra|]. pose proof (exp_ineq1 1 ltac:(lra)). lra. }
  set (L := ln (u / r)) in *. clearbody L.
  assert (A : (3 * u - 2 * u ^ 3 + 2 * u ^ 4) * L < 3 * u * 1).
  { assert (3 * u - 2 * u ^ 3 + 2 * u ^ 4 <= 3 * u) by (assert (0 <= u ^ 3 * (1 - u)) by (apply Rmult_le_pos; [apply pow_le|]; lra); nra).
    assert (0 <= 3 * u - 2 * u ^ 3 + 2 * u ^ 4) by (assert (u ^ 2 <= 1) by nra; assert (0 <= u * (3 - 2 * u ^ 2)) by (apply Rmult_le_pos; nra); assert (0 <= u ^ 4) by (apply pow_le; lra); nra).
    nra. }
  assert (D : 38 <= 102 + 9 * u - 64 * u ^ 2 + 55 * u ^ 3) by (assert (0 <= u ^ 3) by (apply pow_le; lra); nra).
  assert (u * 38 <= u * (102 + 9 * u - 64 * u ^ 2 + 55 * u ^ 3)) by (apply Rmult_le_compat_l; lra). lra.
Qed.

(** Near the forward edge the spectrum in flight is negative, for every muon energy; and there it is not the
    boost of the spectrum the same code returns at rest, which vanishes on the whole window. *)
Theorem photon_muon_flight_refuted : forall spence (me mmu alpha emu : R),
  dilogarithm spence -> 0 < me -> 2 * me < mmu -> 0 < alpha -> mmu + / 2 ^ 52 <= emu ->
  let gamma := emu / mmu in let beta := sqrt (1 - (mmu / emu) ^ 2) in
  exists e, 0 < e /\ dnde_photon_muon RMath spence me mmu alpha e emu < 0
    /\ area (fun e0 => dnde_photon_muon RMath spence me mmu alpha e0 mmu / (2 * gamma * beta * e0))
         (gamma * (1 - beta) * e) (gamma * (1 + beta) * e) 0.
Proof.
  intros spence me mmu alpha emu S Hme Hm Ha Hemu gamma beta.
  assert (H52 : 0 < / 2 ^ 52) by (apply Rinv_0_lt_compat; lra).
  set (q := me / mmu). assert (Q : 0 < q < 1 / 2).
  { unfold q. split; [apply Rdiv_lt_0_compat; lra|]. apply (Rmult_lt_reg_r mmu); [lra|]. unfold Rdiv at 1. rewrite Rmult_assoc, Rinv_l; lra. }
  set (r := q ^ 2). assert (R1 : 0 < r < 1 / 4) by (unfold r; nra). assert (R2 : 2 * r < q) by (unfold r; nra).
  destruct (velo_facts emu mmu ltac:(lra)) as (B & _ & _). change (velo emu mmu) with beta in B.
  assert (G : 0 < gamma) by (unfold gamma; apply Rdiv_lt_0_compat; lra).
  assert (GB : 0 < gamma * (1 - beta)) by (apply Rmult_lt_0_compat; lra).
  assert (GP : 0 < gamma * (1 + beta)) by (apply Rmult_lt_0_compat; lra).
  set (e := mmu / 2 * (1 - 2 * r) / (gamma * (1 - beta))).
  assert (E0 : 0 < e) by (unfold e; apply Rdiv_lt_0_compat; [apply Rmult_lt_0_compat|]; lra).
  assert (LO : gamma * (1 - beta) * e = mmu / 2 * (1 - 2 * r)) by (unfold e; field; lra).
  assert (BB : 0 < gamma * beta * e) by (apply Rmult_lt_0_compat; [apply Rmult_lt_0_compat|]; lra).
  assert (LH : gamma * (1 - beta) * e < gamma * (1 + beta) * e) by lra.
  exists e. split; [exact E0|]. split.
  - rewrite (photon_flight spence me mmu alpha e emu ltac:(lra) Hemu E0). change (velo emu mmu) with beta. fold gamma q r.
    replace (gamma * (1 - beta) * (2 * e / mmu)) with (1 - 2 * r).
    2:{ replace (gamma * (1 - beta) * (2 * e / mmu)) with (2 / mmu * (gamma * (1 - beta) * e)) by (field; lra). rewrite LO. field. lra. }
    destruct (Rle_dec (1 - r) (1 - 2 * r)); [lra|].
    set (xp := Rmin _ (1 - r)).
    assert (XP : 1 - 2 * r < xp <= 1 - r).
    { unfold xp. split; [|apply Rmin_r]. apply Rmin_glb_lt; [|lra].
      replace (gamma * (1 + beta) * (2 * e / mmu)) with (2 / mmu * (gamma * (1 + beta) * e)) by (field; lra).
      replace (1 - 2 * r) with (2 / mmu * (gamma * (1 - beta) * e)) by (rewrite LO; field; lra).
      apply Rmult_lt_compat_l; [apply Rdiv_lt_0_compat; lra|exact LH]. }
    destruct (MVT_cor2 (rad_H spence r) (fun y => rad_bracket r y / y ^ 2) (1 - 2 * r) xp (proj1 XP)) as (c & Hc & C1).
    { intros c Hc. apply rad_H_der; [exact S|lra|lra]. }
    rewrite Hc. assert (N : rad_bracket r c < 0) by (apply bracket_negative; lra).
    assert (I : 0 < / c ^ 2) by (apply Rinv_0_lt_compat; nra).
    assert (K : 0 < alpha / (3 * PI * emu * beta)).
    { pose proof PI_RGT_0. apply Rdiv_lt_0_compat; [lra|]. apply Rmult_lt_0_compat; [apply Rmult_lt_0_compat|]; lra. }
    unfold Rdiv at 2. assert (rad_bracket r c * / c ^ 2 < 0) by nra. assert (rad_bracket r c * / c ^ 2 * (xp - (1 - 2 * r)) < 0) by nra. nra.
  - apply (area_val _ _ _ (0 * (gamma * (1 + beta) * e - gamma * (1 - beta) * e))); [ring|].
    refine (area_ext _ _ _ _ _ [] _ (area_const 0 _ _)). intros x Hx _. rewrite photon_rest by lra. fold q.
    destruct (Rle_dec x 0); [unfold Rdiv; ring|].
    destruct (Rle_dec (mmu * (1 - q) / 2) x) as [_|K]; [unfold Rdiv; ring|]. exfalso. apply K. nra.
Qed.
Print Assumptions photon_muon_flight_refuted.

(** At rest the spectrum is never negative, when the electron is light enough. *)
Theorem photon_muon_rest_nonnegative : forall spence (me mmu alpha e : R),
  0 < me -> 81 * me <= mmu -> 0 <= alpha -> 0 <= dnde_photon_muon RMath spence me mmu alpha e mmu.
Proof.
  intros spence me mmu alpha e Hme Hm Ha. rewrite photon_rest by lra.
  destruct (Rle_dec e 0) as [|E]; [lra|]. apply Rnot_le_lt in E.
  destruct (Rle_dec _ e) as [|F]; [lra|]. apply Rnot_le_lt in F.
  unfold rad_muon. set (q := me / mmu) in *. set (y := 2 * e / mmu).
  assert (Q : 0 < q <= / 81).
  { unfold q. split; [apply Rdiv_lt_0_compat; lra|]. apply (Rmult_le_reg_r mmu); [lra|]. unfold Rdiv. rewrite Rmult_assoc, Rinv_l; lra. }
  assert (Y : 0 < y < 1 - q).
  { unfold y. split; [apply Rdiv_lt_0_compat; lra|]. apply (Rmult_lt_reg_r mmu); [lra|]. unfold Rdiv. rewrite Rmult_assoc, Rinv_l; lra. }
  pose proof PI_RGT_0.
  apply Rmult_le_pos; [|left; apply Rinv_0_lt_compat; lra]. apply Rmult_le_pos.
  { apply Rmult_le_pos; [left; apply Rdiv_lt_0_compat; lra|]. apply Rmult_le_pos; [lra|]. left. apply Rinv_0_lt_compat. lra. }
  unfold rad_bracket. set (u := 1 - y). assert (U : q < u < 1) by (unfold u; lra).
  replace y with (1 - u) by (unfold u; ring).
  assert (L : 4 <= ln (u / q ^ 2)).
  { apply Rle_trans with (ln 81).
    - apply Rnot_lt_le. intro K. apply exp_increasing in K. rewrite exp_ln in K by lra.
      replace 4 with (1 + 1 + 1 + 1) in K by ring. rewrite !exp_plus in K. pose proof exp_le_3. pose proof (exp_pos 1).
      assert (exp 1 * exp 1 <= 9) by nra. assert (exp 1 * exp 1 * exp 1 <= 27) by nra. nra.
    - assert (81 < u / q ^ 2).
      { apply (Rmult_lt_reg_r (q ^ 2)); [nra|]. unfold Rdiv. rewrite Rmult_assoc, Rinv_l by nra. nra. }
      left. apply ln_increasing; lra. }
  set (l := ln _) in *. clearbody l.
  replace ((3 - 5 * (1 - u) + 6 * (1 - u) ^ 2 - 6 * (1 - u) ^ 3 + 2 * (1 - u) ^ 4) * l
           + (- 102 + 46 * (1 - u) - 101 * (1 - u) ^ 2 + 55 * (1 - u) ^ 3) * u / 12)
    with (u * ((3 - 2 * u ^ 2 + 2 * u ^ 3) * l - (102 + 9 * u - 64 * u ^ 2 + 55 * u ^ 3) / 12)) by field.
  apply Rmult_le_pos; [lra|].
  assert (A : 27 / 10 <= 3 - 2 * u ^ 2 + 2 * u ^ 3) by (assert (0 <= (u - 2 / 3) ^ 2 * (u + 1 / 3)) by (apply Rmult_le_pos; [apply pow2_ge_0|lra]); nra).
  assert (D : 102 + 9 * u - 64 * u ^ 2 + 55 * u ^ 3 <= 108).
  { assert (0 <= u * (1 - u)) by nra. assert (9 * u - 64 * u ^ 2 + 55 * u ^ 3 = u * (1 - u) * (9 - 55 * u)) by ring.
    assert (u * (1 - u) * (9 - 55 * u) <= 9 * u * (1 - u)) by nra. nra. }
  nra.
Qed.
Print Assumptions photon_muon_rest_nonnegative.

(** A dilogarithm exists, and the masses of constants.rs meet all the conditions. *)
Example ex_photon_muon : (exists s, dilogarithm s) /\ 0 < pdg_MASS_E RMath /\ 81 * pdg_MASS_E RMath <= pdg_MASS_MU RMath
  /\ 0 < pdg_ALPHA_EM RMath /\ pdg_MASS_MU RMath + / 2 ^ 52 <= 200.
Proof.
  split; [exact dilogarithm_exists|]. rewrite literal_me, literal_mmu. split; [lra|]. split; [lra|]. split.
  - unfold pdg_ALPHA_EM. rmodel. apply Rdiv_lt_0_compat; unfold Q2R; cbn [Qnum Qden]; lra.
  - lra.
Qed.

(** ** C76: spectra of charged pions *)

(** Positrons in flight: the boost of the muon's positron spectrum at the muon energy of pi -> mu nu, weighted
    by the branching ratio, plus the boosted line of pi -> e nu.  The cut at [EMAX] loses nothing. *)
Theorem positron_pion_boost : forall quad (me mmu mpi N EMAX BRmu BRe e epi v : R),
  exact_oriented quad -> 0 < me < mmu -> mmu <= 2 ^ 51 -> mmu + / 2 ^ 52 <= (mpi ^ 2 + mmu ^ 2) / (2 * mpi) -> mmu < mpi ->
  (mpi ^ 2 + me ^ 2) / (2 * mpi) <= EMAX -> mpi + / 2 ^ 52 <= epi -> me < e ->
  let gamma := epi / mpi in let beta := sqrt (1 - (mpi / epi) ^ 2) in let k := sqrt (e * e - me * me) in
  let emu := (mpi ^ 2 + mmu ^ 2) / (2 * mpi) in let ee := (mpi ^ 2 + me ^ 2) / (2 * mpi) in
  area (fun e0 => BRmu * dnde_positron_muon RMath me mmu N e0 emu / (2 * gamma * beta * sqrt (e0 * e0 - me * me)))
    (gamma * (e - beta * k)) (gamma * (e + beta * k)) v ->
  dnde_positron_charged_pion RMath quad me mmu mpi N EMAX BRmu BRe e epi
  = v + BRe * boost_delta_function RMath ee e me beta.
Proof.
  intros quad me mmu mpi N EMAX BRmu BRe e epi v (QF & QB) Hm Hbig Hemu Hmu Hmax Hepi He gamma beta k emu ee A.
  assert (H52 : 0 < / 2 ^ 52) by (apply Rinv_0_lt_compat; lra).
  destruct (velo_facts epi mpi ltac:(lra)) as (B & _ & L). change (velo epi mpi) with beta in B, L.
  assert (G : 0 < gamma) by (unfold gamma; apply Rdiv_lt_0_compat; lra).
  unfold dnde_positron_charged_pion. rmodel.
  destruct (Rlt_dec epi mpi); [lra|]. destruct (Rlt_dec e me); [lra|]. cbn [orb].
  cbn [fabs RNum]. change (epmach RNum) with (/ 2 ^ 52). rewrite (Rabs_right (epi - mpi)) by lra.
  destruct (Rlt_dec (epi - mpi) (/ 2 ^ 52)); [lra|].
  rewrite beta_velo. change (velo epi mpi) with beta.
  assert (GE : boost_gamma RMath epi mpi = gamma) by (unfold boost_gamma; rmodel; reflexivity). rewrite GE.
  assert (EE : pp_ENG_E_PI_RF RMath me mpi = ee) by (unfold pp_ENG_E_PI_RF, ee; rmodel; rewrite Q2R_half; field; lra).
  assert (EM : pp_ENG_MU_PI_RF RMath mmu mpi = emu) by (unfold pp_ENG_MU_PI_RF, emu; rmodel; rewrite Q2R_half; field; lra).
  rewrite EE. f_equal. fold k.
  replace (gamma * (- beta * k + e)) with (gamma * (e - beta * k)) by ring.
  replace (gamma * (beta * k + e)) with (gamma * (e + beta * k)) by ring.
  set (lo := gamma * (e - beta * k)) in *. set (hi := gamma * (e + beta * k)) in *.
  assert (LO : me <= lo) by (unfold lo, gamma; rewrite <- L; apply above_mass; lra).
  rewrite Rmax_left by lra.
  assert (KP : 0 < k) by (apply momentum_pos; lra).
  assert (LH : lo <= hi).
  { assert (0 < gamma * (beta * k)) by (apply Rmult_lt_0_compat; [lra|apply Rmult_lt_0_compat; lra]). unfold lo, hi. lra. }
  (* the integrand vanishes beyond the cut *)
  assert (Z : forall x, EMAX < x -> dnde_positron_muon RMath me mmu N x emu = 0).
  { intros x Hx. apply positron_muon_window; [exact Hm|exact Hbig|right; right].
    assert (ME : me < ee).
    { unfold ee. apply (Rmult_lt_reg_r (2 * mpi)); [lra|]. unfold Rdiv. rewrite Rmult_assoc, Rinv_l by lra. nra. }
    split; [exact Hemu|]. fold ee in Hmax. split; [lra|].
    apply (chain_end me mmu mpi Hm Hmu x). unfold pion_pmax. fold ee. lra. }
  assert (BP : 0 < beta * gamma) by (apply Rmult_lt_0_compat; lra).
  set (pp := pp_integrand RMath me mmu mpi N).
  assert (PP : forall x, pp x = dnde_positron_muon RMath me mmu N x emu / sqrt (x * x - me * me)).
  { intro x. unfold pp, pp_integrand. rewrite EM. rmodel. reflexivity. }
  (* the scaled integrand *)
  assert (SC : forall a b w, area (fun e0 => BRmu * dnde_positron_muon RMath me mmu N e0 emu / (2 * gamma * beta * sqrt (e0 * e0 - me * me))) a b w ->
    me <= a -> BRmu <> 0 -> area pp a b (w * (2 * gamma * beta) / BRmu)).
  { intros a b w W Ha HB. apply (area_val _ _ _ ((2 * gamma * beta) / BRmu * w)); [field; lra|].
    refine (area_ext _ _ _ _ _ [] _ (area_scale _ _ _ _ _ W)). intros x Hx _. rewrite PP.
    pose proof (momentum_pos x me ltac:(lra)) as MP. unfold momentum in MP. field. repeat split; lra. }
  destruct (Req_dec BRmu 0) as [B0|B0].
  { rewrite B0. assert (v = 0).
    { apply (area_unique _ lo hi v 0 LH A). apply area_zero_on. intros x Hx. rewrite B0. unfold Rdiv. ring. }
    rewrite H. unfold Rdiv. ring. }
  destruct (Rle_dec lo EMAX) as [C|C].
  - assert (A' : area (fun e0 => BRmu * dnde_positron_muon RMath me mmu N e0 emu / (2 * gamma * beta * sqrt (e0 * e0 - me * me))) lo (Rmin hi EMAX) v).
    { apply (area_tail _ lo hi); [split; [now apply Rmin_glb|apply Rmin_l]| |exact A].
      intros x Hx. destruct (Rle_dec hi EMAX) as [D|D]; [rewrite Rmin_left in Hx by lra; lra|]. rewrite Rmin_right in Hx by lra.
      rewrite Z by lra. unfold Rdiv. ring. }
    rewrite (QF pp lo (Rmin hi EMAX) _ ltac:(apply Rmin_glb; lra) (SC _ _ _ A' LO B0)). field. repeat split; lra.
  - apply Rnot_le_lt in C. rewrite Rmin_right by lra.
    assert (PZ : area pp EMAX lo 0) by (apply area_zero_on; intros x Hx; rewrite PP, Z by lra; unfold Rdiv; ring).
    rewrite (QB pp lo EMAX 0 C PZ).
    assert (v = 0).
    { apply (area_unique _ lo hi v 0 LH A). apply area_zero_on. intros x Hx. rewrite Z by lra. unfold Rdiv. ring. }
    rewrite H. unfold Rdiv. ring.
Qed.
Print Assumptions positron_pion_boost.

(** The literal in positron_pion.rs is above the true end of the positron energy, as required. *)
Theorem emax_literal_covers : (pdg_MASS_PI RMath ^ 2 + pdg_MASS_E RMath ^ 2) / (2 * pdg_MASS_PI RMath) <= pdg_EMAX_PI_RF RMath.
Proof.
  rewrite literal_me. assert (P : pdg_MASS_PI RMath = 13957039 / 10 ^ 5) by (unfold pdg_MASS_PI; rmodel; unfold Q2R; cbn -[IZR Rinv Rmult pow]; lra).
  assert (X : pdg_EMAX_PI_RF RMath = 6978613044168974 / 10 ^ 14) by (unfold pdg_EMAX_PI_RF; rmodel; unfold Q2R; cbn -[IZR Rinv Rmult pow]; lra).
  rewrite P, X. lra.
Qed.
Print Assumptions emax_literal_covers.

(** Strictly inside its range the Michel spectrum is positive. *)
Lemma michel_positive me mmu N e : 0 < me < mmu -> 0 < N -> me < e -> e < mmu * (1 + (me / mmu) ^ 2) / 2 ->
  0 < dnde_positron_muon RMath me mmu N e mmu.
Proof.
  intros Hm HN H1 H2. rewrite positron_muon_michel by exact Hm. cbv zeta.
  destruct (Rlt_dec me e); [|lra]. destruct (Rlt_dec e _); [|lra].
  pose proof (ratio_unit me mmu Hm) as Hr. set (q := me / mmu) in *. set (x := 2 * e / mmu).
  assert (ME : me = mmu * q) by (unfold q; field; lra).
  assert (EX : e = mmu / 2 * x) by (unfold x; field; lra).
  assert (X : 2 * q < x < 1 + q ^ 2) by (split; apply (Rmult_lt_reg_l (mmu / 2)); lra).
  apply Rdiv_lt_0_compat; [|exact HN]. apply Rmult_lt_0_compat; [apply Rdiv_lt_0_compat; lra|]. apply Rmult_lt_0_compat.
  - apply Rmult_lt_0_compat; [lra|]. apply sqrt_lt_R0. nra.
  - set (t := 1 + q ^ 2) in *.
    assert (T : 0 < t - 2 * q) by lra.
    assert (D : 0 < x * (t - 4 * q) + 4 * q * (t - q)).
    { apply (Rmult_lt_reg_l (t - 2 * q)); [exact T|]. rewrite Rmult_0_r.
      replace ((t - 2 * q) * (x * (t - 4 * q) + 4 * q * (t - q)))
        with ((t - x) * (6 * q * (t - 2 * q)) + (x - 2 * q) * ((t - 2 * q) * (t + 2 * q))) by ring.
      assert (0 < (t - x) * (6 * q * (t - 2 * q))) by (apply Rmult_lt_0_compat; [lra|apply Rmult_lt_0_compat; lra]).
      assert (0 < (x - 2 * q) * ((t - 2 * q) * (t + 2 * q))) by (apply Rmult_lt_0_compat; [lra|apply Rmult_lt_0_compat; lra]). lra. }
    assert (0 < (x - 2 * q) * (t - x)) by (apply Rmult_lt_0_compat; lra).
    replace (3 + 3 * q ^ 2) with (3 * t) by (unfold t; ring). nra.
Qed.

(** A moving muon gives positrons of some energy. *)
Lemma muon_positrons_somewhere me mmu N emu : 0 < me < mmu -> mmu <= 2 ^ 51 -> 0 < N -> mmu + / 2 ^ 52 <= emu ->
  exists e, me < e /\ 0 < dnde_positron_muon RMath me mmu N e emu.
Proof.
  intros Hm Hbig HN Hemu. assert (H52 : 0 < / 2 ^ 52) by (apply Rinv_0_lt_compat; lra).
  destruct (velo_facts emu mmu ltac:(lra)) as (B & B2 & L). set (b := velo emu mmu) in *. set (g := emu / mmu) in *.
  pose proof (ratio_unit me mmu Hm) as Hr.
  set (emax := mmu * (1 + (me / mmu) ^ 2) / 2).
  assert (EM : me < emax).
  { assert (D : emax - me = mmu / 2 * (1 - me / mmu) ^ 2) by (unfold emax; field; lra).
    assert (0 < mmu / 2 * (1 - me / mmu) ^ 2) by (apply Rmult_lt_0_compat; [lra|nra]). lra. }
  set (E0 := (me + emax) / 2). assert (HE0 : me < E0 < emax) by (unfold E0; lra).
  set (k0 := momentum E0 me). pose proof (momentum_pos E0 me ltac:(lra)) as K0. fold k0 in K0.
  assert (K2 : k0 * k0 = E0 * E0 - me * me) by (unfold k0, momentum; apply sqrt_def; nra).
  assert (G1 : 1 < g).
  { unfold g. apply (Rmult_lt_reg_r mmu); [lra|]. unfold Rdiv. rewrite Rmult_assoc, Rinv_l; lra. }
  assert (G2 : g * g * (1 - b * b) = 1).
  { rewrite B2. unfold g. field. lra. }
  set (e := g * (E0 + b * k0)). set (k := g * (k0 + b * E0)).
  assert (BK : 0 < b * k0) by (apply Rmult_lt_0_compat; lra).
  assert (He : me < e) by (unfold e; nra).
  assert (BE : 0 < b * E0) by (apply Rmult_lt_0_compat; lra).
  assert (KP : 0 < k) by (unfold k; apply Rmult_lt_0_compat; lra).
  assert (KE : momentum e me = k).
  { unfold momentum. replace (e * e - me * me) with (k ^ 2); [apply sqrt_pow2; lra|].
    replace (me * me) with ((E0 * E0 - k0 * k0) * (g * g * (1 - b * b))) by (rewrite G2; lra). unfold e, k. ring. }
  exists e. split; [exact He|].
  pose proof (positron_muon_boost me mmu N e emu Hm Hbig ltac:(lra) Hemu He) as A. cbv zeta in A.
  change (sqrt (e * e - me * me)) with (momentum e me) in A. rewrite KE in A.
  change (sqrt (1 - (mmu / emu) ^ 2)) with b in A. fold g in A.
  replace (g * (e - b * k)) with E0 in A.
  2:{ transitivity (E0 * (g * g * (1 - b * b))); [rewrite G2; ring|unfold e, k; ring]. }
  set (hi := g * (e + b * k)) in A.
  assert (HI : E0 < hi).
  { assert (e < hi); [|unfold e in *; nra]. unfold hi. assert (0 < b * k) by (apply Rmult_lt_0_compat; lra). nra. }
  apply (area_tail _ E0 hi _ (Rmin hi emax)) in A.
  - refine (area_pos _ _ _ _ _ _ A); [apply Rmin_glb_lt; lra|]. intros x Hx.
    assert (x < emax) by (apply Rlt_le_trans with (Rmin hi emax); [lra|apply Rmin_r]).
    apply Rdiv_lt_0_compat; [apply michel_positive; auto; lra|].
    apply Rmult_lt_0_compat; [apply Rmult_lt_0_compat; [lra|lra]|]. apply (momentum_pos x me). lra.
  - split; [apply Rmin_glb; lra|apply Rmin_l].
  - intros x Hx. assert (emax <= x).
    { destruct (Rle_dec hi emax) as [D|D]; [rewrite Rmin_left in Hx by lra; lra|rewrite Rmin_right in Hx by lra; lra]. }
    rewrite positron_muon_michel by exact Hm. cbv zeta. destruct (Rlt_dec me x); [|unfold Rdiv; ring].
    destruct (Rlt_dec x _) as [D|D]; [fold emax in D; lra|unfold Rdiv; ring].
Qed.

(** At rest the pion gives no positrons at all in the code, though its muon does. *)
Theorem positron_pion_rest_refuted : forall quad (me mmu mpi N EMAX BRmu BRe : R),
  0 < me < mmu -> mmu <= 2 ^ 51 -> 0 < N -> 0 < BRmu -> mmu < mpi -> mmu + / 2 ^ 52 <= (mpi ^ 2 + mmu ^ 2) / (2 * mpi) ->
  (forall e, dnde_positron_charged_pion RMath quad me mmu mpi N EMAX BRmu BRe e mpi = 0)
  /\ exists e, me < e /\ 0 < BRmu * dnde_positron_muon RMath me mmu N e ((mpi ^ 2 + mmu ^ 2) / (2 * mpi)).
Proof.
  intros quad me mmu mpi N EMAX BRmu BRe Hm Hbig HN HB Hmu Hemu. split.
  - intro e. unfold dnde_positron_charged_pion. rmodel. destruct (Rlt_dec mpi mpi); [lra|].
    destruct (Rlt_dec e me); [reflexivity|]. cbn [orb fabs RNum]. change (epmach RNum) with (/ 2 ^ 52).
    replace (mpi - mpi) with 0 by ring. rewrite Rabs_R0. assert (H52 : 0 < / 2 ^ 52) by (apply Rinv_0_lt_compat; lra).
    destruct (Rlt_dec 0 (/ 2 ^ 52)); [reflexivity|lra].
  - destruct (muon_positrons_somewhere me mmu N _ Hm Hbig HN Hemu) as (e & E1 & E2). exists e. split; [exact E1|].
    apply Rmult_lt_0_compat; lra.
Qed.
Print Assumptions positron_pion_rest_refuted.

(** Neutrinos in flight.  The muon flavour is right: boost of the muon's spectrum plus the line of
    pi -> mu nu.  The electron flavour has the line of pi -> e nu twice. *)
Theorem neutrino_pion_boost : forall quad (me mmu N mpi BRmu BRe e epi v w : R),
  exact_oriented quad -> 0 < me < mmu -> mmu < mpi -> mpi + / 2 ^ 52 <= epi -> 0 < e ->
  let gamma := epi / mpi in let beta := sqrt (1 - (mpi / epi) ^ 2) in
  let emu := (mpi ^ 2 + mmu ^ 2) / (2 * mpi) in
  let rest e0 := dnde_neutrino_muon RMath me mmu N e0 emu in
  area (fun e0 => BRmu * electron _ (rest e0) / (2 * gamma * beta * e0)) (gamma * (1 - beta) * e) (gamma * (1 + beta) * e) v ->
  area (fun e0 => BRmu * muon _ (rest e0) / (2 * gamma * beta * e0)) (gamma * (1 - beta) * e) (gamma * (1 + beta) * e) w ->
  let f := dnde_neutrino_charged_pion RMath quad me mmu N mpi BRmu BRe e epi in
  electron _ f = v + 2 * (BRe * boost_delta_function RMath ((mpi ^ 2 - me ^ 2) / (2 * mpi)) e 0 beta)
  /\ muon _ f = w + BRmu * boost_delta_function RMath ((mpi ^ 2 - mmu ^ 2) / (2 * mpi)) e 0 beta
  /\ tau _ f = 0.
Proof.
  intros quad me mmu N mpi BRmu BRe e epi v w (QF & _) Hm Hmu Hepi He gamma beta emu rest A1 A2 f.
  assert (H52 : 0 < / 2 ^ 52) by (apply Rinv_0_lt_compat; lra).
  destruct (velo_facts epi mpi ltac:(lra)) as (B & B2 & L). change (velo epi mpi) with beta in B, B2, L.
  assert (G : 0 < gamma) by (unfold gamma; apply Rdiv_lt_0_compat; lra).
  unfold f, dnde_neutrino_charged_pion, dnde_mu_numu, dnde_e_nue, np_boost_window. rmodel.
  destruct (Rlt_dec epi mpi); [lra|]. change (epmach RNum) with (/ 2 ^ 52). destruct (Rlt_dec (epi - mpi) (/ 2 ^ 52)); [lra|].
  rewrite beta_velo. change (velo epi mpi) with beta.
  replace (1 / sqrt (1 - beta * beta)) with gamma by (unfold gamma; rewrite <- L; unfold lorentz, Rdiv; ring).
  replace (sqrt (1 - mpi / epi * (mpi / epi))) with beta by (unfold beta; f_equal; ring).
  assert (E1 : ENU_E_PI_RF RMath me mpi = (mpi ^ 2 - me ^ 2) / (2 * mpi)) by (unfold ENU_E_PI_RF; rmodel; field; lra).
  assert (E2 : ENU_MU_PI_RF RMath mmu mpi = (mpi ^ 2 - mmu ^ 2) / (2 * mpi)) by (unfold ENU_MU_PI_RF; rmodel; field; lra).
  assert (E3 : np_ENG_MU_PI_RF RMath mmu mpi = emu) by (unfold np_ENG_MU_PI_RF, emu; rmodel; field; lra).
  rewrite E1, E2. cbn [electron muon tau]. rewrite Q2R_half.
  set (lo := gamma * (1 - beta) * e) in *. set (hi := gamma * (1 + beta) * e) in *.
  assert (LO : 0 < lo) by (unfold lo; apply Rmult_lt_0_compat; [apply Rmult_lt_0_compat|]; lra).
  assert (LH : lo <= hi) by (unfold lo, hi; apply Rmult_le_compat_r; [lra|]; apply Rmult_le_compat_l; lra).
  replace (e * gamma * (1 - beta)) with lo by (unfold lo; ring). replace (e * gamma * (1 + beta)) with hi by (unfold hi; ring).
  rewrite Rmax_left by lra.
  assert (BG : 0 < gamma * beta) by (apply Rmult_lt_0_compat; lra).
  assert (SC : forall (g : R -> R) u, area (fun e0 => BRmu * g e0 / (2 * gamma * beta * e0)) lo hi u ->
    forall h, (forall x, h x = g x / x) -> / 2 / (gamma * beta) * BRmu * quad h lo hi = u).
  { intros g u U h Hh. destruct (Req_dec BRmu 0) as [Z|Z].
    - rewrite Z. rewrite (area_unique _ lo hi u 0 LH U); [ring|]. apply area_zero_on. intros x _. rewrite Z. unfold Rdiv. ring.
    - rewrite (QF h lo hi ((2 * gamma * beta) / BRmu * u) LH); [field; lra|].
      refine (area_ext _ _ _ _ _ [] _ (area_scale _ _ _ _ _ U)). intros x Hx _. rewrite Hh. field. lra. }
  rewrite (SC (fun x => electron _ (rest x)) v A1).
  2:{ intro x. unfold mu_numu_integrand. rewrite E3. rmodel. reflexivity. }
  rewrite (SC (fun x => muon _ (rest x)) w A2).
  2:{ intro x. unfold mu_numu_integrand. rewrite E3. rmodel. reflexivity. }
  split; [ring|]. split; [ring|reflexivity].
Qed.
Print Assumptions neutrino_pion_boost.

(** One electron neutrino per pi -> e nu is refuted: inside the window of the line the code's spectrum
    exceeds the sum of the two decay chains. *)
Theorem neutrino_pion_line_refuted : forall quad (me mmu N mpi BRmu BRe epi : R),
  exact_oriented quad -> 0 < me < mmu -> mmu < mpi -> mpi + / 2 ^ 52 <= epi -> 0 < BRe ->
  let gamma := epi / mpi in let beta := sqrt (1 - (mpi / epi) ^ 2) in
  let emu := (mpi ^ 2 + mmu ^ 2) / (2 * mpi) in let line := (mpi ^ 2 - me ^ 2) / (2 * mpi) in
  let rest e0 := dnde_neutrino_muon RMath me mmu N e0 emu in
  exists e, 0 < e /\ forall v w,
  area (fun e0 => BRmu * electron _ (rest e0) / (2 * gamma * beta * e0)) (gamma * (1 - beta) * e) (gamma * (1 + beta) * e) v ->
  area (fun e0 => BRmu * muon _ (rest e0) / (2 * gamma * beta * e0)) (gamma * (1 - beta) * e) (gamma * (1 + beta) * e) w ->
  v + BRe * boost_delta_function RMath line e 0 beta
  < electron _ (dnde_neutrino_charged_pion RMath quad me mmu N mpi BRmu BRe e epi).
Proof.
  intros quad me mmu N mpi BRmu BRe epi Q Hm Hmu Hepi HB gamma beta emu line rest.
  assert (H52 : 0 < / 2 ^ 52) by (apply Rinv_0_lt_compat; lra).
  destruct (velo_facts epi mpi ltac:(lra)) as (B & B2 & L). change (velo epi mpi) with beta in B, B2, L.
  assert (G : 0 < gamma) by (unfold gamma; apply Rdiv_lt_0_compat; lra).
  assert (LN : 0 < line) by (unfold line; apply Rdiv_lt_0_compat; nra).
  exists (gamma * line). split; [now apply Rmult_lt_0_compat|]. intros v w A1 A2.
  destruct (neutrino_pion_boost quad me mmu N mpi BRmu BRe (gamma * line) epi v w Q Hm Hmu Hepi (Rmult_lt_0_compat _ _ G LN) A1 A2) as [E1 _].
  assert (GL : 0 < gamma * (beta * line)) by (apply Rmult_lt_0_compat; [lra|apply Rmult_lt_0_compat; lra]).
  assert (DE : boost_delta_function RMath line (gamma * line) 0 beta = / (2 * gamma * beta * line)).
  { rewrite (delta_inside line 0 beta (gamma * line) ltac:(lra) B).
    - rewrite L, momentum_massless by lra. reflexivity.
    - unfold window_lo, window_hi. rewrite ?L, ?momentum_massless by lra. fold gamma. lra. }
  rewrite E1. fold line beta. rewrite DE.
  assert (0 < / (2 * gamma * beta * line)).
  { apply Rinv_0_lt_compat. apply Rmult_lt_0_compat; [apply Rmult_lt_0_compat|]; lra. }
  nra.
Qed.
Print Assumptions neutrino_pion_line_refuted.

Example ex_pion : (exists quad, exact_oriented quad) /\
  0 < pdg_MASS_E RMath < pdg_MASS_MU RMath /\ pdg_MASS_MU RMath <= 2 ^ 51 /\ pdg_MASS_MU RMath < pdg_MASS_PI RMath
  /\ pdg_MASS_MU RMath + / 2 ^ 52 <= (pdg_MASS_PI RMath ^ 2 + pdg_MASS_MU RMath ^ 2) / (2 * pdg_MASS_PI RMath)
  /\ 0 < pdg_R_FACTOR RMath /\ 0 < pdg_BR_PI_TO_MU_NUMU RMath /\ 0 < pdg_BR_PI_TO_E_NUE RMath.
Proof.
  split; [exact exact_oriented_exists|]. rewrite literal_me, literal_mmu, literal_R.
  assert (P : pdg_MASS_PI RMath = 13957039 / 10 ^ 5) by (unfold pdg_MASS_PI; rmodel; unfold Q2R; cbn -[IZR Rinv Rmult pow]; lra).
  rewrite P. repeat split; try lra.
  - unfold pdg_BR_PI_TO_MU_NUMU. rmodel. unfold Q2R. cbn -[IZR Rinv Rmult pow]. lra.
  - unfold pdg_BR_PI_TO_E_NUE. rmodel. unfold Q2R. cbn -[IZR Rinv Rmult pow]. lra.
Qed.

(** ** C77: photons from charged pions and from rho mesons *)

(** Photons of a charged pion per unit energy in its own frame: pi -> mu nu gamma, pi -> e nu gamma and the
    photons of the muon *)
Definition pion_photons_rest spence (me mmu mpi alpha fpi fa fv slope emu BRmu BRe e0 : R) : R :=
  BRmu * (dnde_photon_muon RMath spence me mmu alpha e0 emu + dnde_pi_to_lnug RMath mpi alpha fpi fa fv slope e0 mmu)
  + BRe * dnde_pi_to_lnug RMath mpi alpha fpi fa fv slope e0 me.

(** In flight it is boosted, at rest it is returned unchanged, below the mass it is zero. *)
Theorem photon_charged_pion_boost : forall spence quad (me mmu mpi alpha fpi fa fv slope emu BRmu BRe e epi : R),
  exact_oriented quad -> 0 < mpi -> 0 < e ->
  let f := dnde_photon_charged_pion RMath spence quad me mmu mpi alpha fpi fa fv slope emu BRmu BRe e epi in
  let rest := pion_photons_rest spence me mmu mpi alpha fpi fa fv slope emu BRmu BRe in
  let gamma := epi / mpi in let beta := sqrt (1 - (mpi / epi) ^ 2) in
  (epi < mpi -> f = 0) /\ (epi = mpi -> f = rest e)
  /\ forall v, mpi < epi ->
     area (fun e0 => rest e0 / (2 * gamma * beta * e0)) (gamma * (1 - beta) * e) (gamma * (1 + beta) * e) v -> f = v.
Proof.
  intros spence quad me mmu mpi alpha fpi fa fv slope emu BRmu BRe e epi (QF & _) Hpi He f rest gamma beta.
  assert (IG : mpi <= epi -> forall c, charged_pion_integrand RMath spence me mmu mpi alpha fpi fa fv slope emu BRmu BRe e epi c
     = 1 / (2 * gamma * Rabs (1 - beta * c)) * rest (e * gamma * (1 - beta * c))).
  { intros H c. unfold charged_pion_integrand. cbv zeta. rewrite beta_velo. change (velo epi mpi) with beta.
    assert (GE : boost_gamma RMath epi mpi = gamma) by (unfold boost_gamma; rmodel; reflexivity). rewrite GE.
    rmodel. cbn [fabs RNum]. replace (- beta * c + 1) with (1 - beta * c) by ring.
    replace (gamma + gamma) with (2 * gamma) by ring. unfold rest, pion_photons_rest. ring. }
  unfold f, dnde_photon_charged_pion. rmodel. split; [|split].
  - intro H. destruct (Rlt_dec epi mpi); [reflexivity|lra].
  - intro H. destruct (Rlt_dec epi mpi); [lra|].
    rewrite (QF _ (-1) 1 (rest e / 2 * (1 - -1))); [field|lra|].
    refine (area_ext _ _ _ _ _ [] _ (area_const (rest e / 2) _ _)). intros c _ _. rewrite IG by lra.
    unfold beta, gamma. rewrite H. replace (mpi / mpi) with 1 by (field; lra). replace (1 - 1 ^ 2) with 0 by ring. rewrite sqrt_0.
    replace (1 - 0 * c) with 1 by ring. rewrite Rabs_R1. replace (e * 1 * 1) with e by ring. field.
  - intros v H A. destruct (Rlt_dec epi mpi); [lra|]. apply QF; [lra|].
    destruct (velo_facts epi mpi ltac:(lra)) as (B & _ & _). change (velo epi mpi) with beta in B.
    assert (G : 0 < gamma) by (unfold gamma; apply Rdiv_lt_0_compat; lra).
    apply photon_angles in A; auto. refine (area_ext _ _ _ _ _ [] _ A). intros c _ _. symmetry. apply IG. lra.
Qed.
Print Assumptions photon_charged_pion_boost.

(** Rho mesons: in flight the boost of the photons of the two pions at their two-body energies. *)
Theorem photon_rho_boost : forall quad (mpi mpi0 mrho : R) (charged neutral : R -> R -> R) (e erho v : R),
  exact_oriented quad -> 0 < mrho -> mrho + / 2 ^ 52 <= erho -> 0 < e ->
  let gamma := erho / mrho in let beta := sqrt (1 - (mrho / erho) ^ 2) in
  let two_body m1 m2 := (mrho ^ 2 + m1 ^ 2 - m2 ^ 2) / (2 * mrho) in
  (area (fun e0 => (charged e0 (two_body mpi mpi) + charged e0 (two_body mpi mpi)) / (2 * gamma * beta * e0))
     (gamma * (1 - beta) * e) (gamma * (1 + beta) * e) v ->
   dnde_photon_neutral_rho RMath quad mrho charged e erho = v)
  /\ (area (fun e0 => (charged e0 (two_body mpi mpi0) + neutral e0 (two_body mpi0 mpi)) / (2 * gamma * beta * e0))
     (gamma * (1 - beta) * e) (gamma * (1 + beta) * e) v ->
   dnde_photon_charged_rho RMath quad mpi mpi0 mrho charged neutral e erho = v).
Proof.
  intros quad mpi mpi0 mrho charged neutral e erho v (QF & _) Hm Hr He gamma beta two_body.
  assert (H52 : 0 < / 2 ^ 52) by (apply Rinv_0_lt_compat; lra).
  destruct (velo_facts erho mrho ltac:(lra)) as (B & _ & _). change (velo erho mrho) with beta in B.
  assert (G : 0 < gamma) by (unfold gamma; apply Rdiv_lt_0_compat; lra).
  assert (BG : 0 < gamma * beta) by (apply Rmult_lt_0_compat; lra).
  assert (LO : 0 < gamma * (1 - beta) * e) by (apply Rmult_lt_0_compat; [apply Rmult_lt_0_compat|]; lra).
  assert (LH : gamma * (1 - beta) * e <= gamma * (1 + beta) * e) by (apply Rmult_le_compat_r; [lra|]; apply Rmult_le_compat_l; lra).
  assert (K : forall (g h : R -> R), (forall x, h x = g x / x) ->
    area (fun e0 => g e0 / (2 * gamma * beta * e0)) (gamma * (1 - beta) * e) (gamma * (1 + beta) * e) v ->
    rho_boosted RMath quad mrho e erho h = v).
  { intros g h Hh A. unfold rho_boosted, rho_boost_window. rmodel. change (epmach RNum) with (/ 2 ^ 52).
    destruct (Rlt_dec erho mrho); [lra|]. destruct (Rlt_dec (erho - mrho) (/ 2 ^ 52)); [lra|].
    rewrite beta_velo. change (velo erho mrho) with beta.
    assert (GE : boost_gamma RMath erho mrho = gamma) by (unfold boost_gamma; rmodel; reflexivity). rewrite GE, Q2R_half.
    replace (gamma * e * (1 - beta)) with (gamma * (1 - beta) * e) by ring.
    replace (gamma * e * (1 + beta)) with (gamma * (1 + beta) * e) by ring.
    rewrite (QF h _ _ (2 * gamma * beta * v) LH); [field; lra|].
    refine (area_ext _ _ _ _ _ [] _ (area_scale _ _ _ _ _ A)). intros x Hx _. rewrite Hh. field. lra. }
  split; intro A.
  - apply (K (fun x => charged x (two_body mpi mpi) + charged x (two_body mpi mpi))); [|exact A].
    intro x. unfold neutral_rho_integrand, ENG_PI_NEUTRAL_RHO. rmodel.
    replace (mrho / 2) with (two_body mpi mpi) by (unfold two_body; field; lra). reflexivity.
  - apply (K (fun x => charged x (two_body mpi mpi0) + neutral x (two_body mpi0 mpi))); [|exact A].
    intro x. unfold charged_rho_integrand, ENG_PI_CHARGED_RHO, ENG_PI0_CHARGED_RHO. rmodel.
    replace ((mrho * mrho + mpi * mpi - mpi0 * mpi0) / (2 * mrho)) with (two_body mpi mpi0) by (unfold two_body; field; lra).
    replace ((mrho * mrho + mpi0 * mpi0 - mpi * mpi) / (2 * mrho)) with (two_body mpi0 mpi) by (unfold two_body; field; lra).
    reflexivity.
Qed.
Print Assumptions photon_rho_boost.

(** At rest the code returns the spectrum divided by the photon energy: wrong at every energy other than
    1 MeV where there are photons. *)
Theorem photon_rho_rest_refuted : forall quad (mpi mpi0 mrho : R) (charged neutral : R -> R -> R) (e : R),
  0 < e -> e <> 1 ->
  (charged e (mrho / 2) <> 0 ->
   dnde_photon_neutral_rho RMath quad mrho charged e mrho <> 2 * charged e (mrho / 2))
  /\ (let rest := charged e ((mrho * mrho + mpi * mpi - mpi0 * mpi0) / (2 * mrho))
                 + neutral e ((mrho * mrho + mpi0 * mpi0 - mpi * mpi) / (2 * mrho)) in
      rest <> 0 -> dnde_photon_charged_rho RMath quad mpi mpi0 mrho charged neutral e mrho <> rest).
Proof.
  intros quad mpi mpi0 mrho charged neutral e He H1.
  assert (H52 : 0 < / 2 ^ 52) by (apply Rinv_0_lt_compat; lra).
  assert (K : forall h, rho_boosted RMath quad mrho e mrho h = h e).
  { intro h. unfold rho_boosted. rmodel. change (epmach RNum) with (/ 2 ^ 52). destruct (Rlt_dec mrho mrho); [lra|].
    replace (mrho - mrho) with 0 by ring. destruct (Rlt_dec 0 (/ 2 ^ 52)); [reflexivity|lra]. }
  assert (D : forall z, z <> 0 -> z / e <> z).
  { intros z Hz E. apply H1. apply (Rmult_eq_reg_l z); [|exact Hz].
    transitivity ((z / e) * e); [now rewrite E|field; lra]. }
  split; intros; unfold dnde_photon_neutral_rho, dnde_photon_charged_rho; rewrite K.
  - unfold neutral_rho_integrand, ENG_PI_NEUTRAL_RHO. rmodel.
    replace (charged e (mrho / 2) + charged e (mrho / 2)) with (2 * charged e (mrho / 2)) by ring. apply D. lra.
  - unfold charged_rho_integrand, ENG_PI_CHARGED_RHO, ENG_PI0_CHARGED_RHO. rmodel. now apply D.
Qed.
Print Assumptions photon_rho_rest_refuted.

Example ex_rho : (exists quad, exact_oriented quad) /\ 0 < pdg_MASS_RHO RMath /\ pdg_MASS_RHO RMath + / 2 ^ 52 <= 1000.
Proof.
  split; [exact exact_oriented_exists|]. unfold pdg_MASS_RHO. rmodel. unfold Q2R. cbn -[IZR Rinv Rmult pow]. lra.
Qed.
