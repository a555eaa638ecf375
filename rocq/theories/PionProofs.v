(** Lemmas for the photon spectrum of the muon and for spectra that are boosts of other spectra. *)
From Coq Require Import Reals Lra Lia Qreals QArith List.
From Verif Require Import RustBase RustBaseFacts RustMath Area Primitive BoostModel BoostProofs SpecModel SpecProofs PionModel.
Import ListNotations.
Local Open Scope nat_scope.
Local Open Scope R_scope.

(** * Photons from muons *)
(** The dilogarithm in scipy's convention: derivative ln z / (1 - z) on (0, 1) *)
Definition dilogarithm (spence : R -> R) : Prop :=
  forall z, 0 < z < 1 -> derivable_pt_lim spence z (ln z / (1 - z)).
Lemma dilogarithm_exists : exists s, dilogarithm s.
Proof.
  apply (primitive_open (fun z => ln z / (1 - z)) 0 (1 / 2) 1); [lra|]. intros x Hx.
  apply derivable_continuous_pt. eexists. dl; lra.
Qed.

(** Spectrum of the radiative decay at rest, to leading order in the electron mass (r its squared ratio to
    the muon mass, y the photon energy over mmu/2): the dimensionless bracket *)
Definition rad_bracket (r y : R) : R :=
  (3 - 5 * y + 6 * y ^ 2 - 6 * y ^ 3 + 2 * y ^ 4) * ln ((1 - y) / r)
  + (- 102 + 46 * y - 101 * y ^ 2 + 55 * y ^ 3) * (1 - y) / 12.
Definition rad_muon (me mmu alpha e : R) : R :=
  let y := 2 * e / mmu in
  2 / mmu * (alpha / (3 * PI)) * rad_bracket ((me / mmu) ^ 2) y / y.

(** An antiderivative of [rad_bracket r y / y^2] *)
Definition rad_H (spence : R -> R) (r y : R) : R :=
  (102 / y - 21 * y ^ 3 + 92 * y ^ 2 - 191 * y) / 12
  - ln ((1 - y) / r) * (9 + 18 * y - 18 * y ^ 2 + 9 * y ^ 3 - 2 * y ^ 4) / (3 * y)
  - 5 * (ln ((1 - y) / r) * ln y) + 4 / 3 * (4 * ln (1 - y) + 7 * ln y) - 5 * spence y.

Lemma rad_H_der spence r y : dilogarithm spence -> 0 < r -> 0 < y < 1 ->
  derivable_pt_lim (rad_H spence r) y (rad_bracket r y / y ^ 2).
Proof.
  intros S Hr Hy. assert (P : 0 < (1 - y) / r) by (apply Rdiv_lt_0_compat; lra).
  unfold rad_H. eapply dl_val.
  - eapply dl_minus; [|eapply dl_mult; [apply dl_const|now apply S]].
    dl; try lra; try nra.
  - cbn [INR pred pow]. unfold rad_bracket, Rsqr. cbn [pow]. field. lra.
Qed.

Lemma photon_rest spence me mmu alpha e : 0 < me < mmu ->
  dnde_photon_muon RMath spence me mmu alpha e mmu =
  if Rle_dec e 0 then 0 else if Rle_dec (mmu * (1 - me / mmu) / 2) e then 0 else rad_muon me mmu alpha e.
Proof.
  intro Hm. assert (H52 : 0 < / 2 ^ 52) by (apply Rinv_0_lt_compat; lra). pose proof (ratio_unit me mmu Hm) as Hr.
  unfold dnde_photon_muon. rmodel. change (epmach RNum) with (/ 2 ^ 52). destruct (Rlt_dec mmu mmu); [lra|].
  replace (mmu - mmu) with 0 by ring. destruct (Rlt_dec 0 (/ 2 ^ 52)); [|lra].
  unfold dnde_photon_muon_rest_frame, pm_Y_MAX, pm_R, pm_MASS_RATIO, THREE_PI. rmodel. change (fpi RMath) with PI.
  assert (Y : forall c, c <= e <-> 2 * c / mmu <= 2 * e / mmu).
  { intro c. assert (I : 0 < / mmu) by (apply Rinv_0_lt_compat; lra). unfold Rdiv. split; intro H; [nra|].
    apply Rmult_le_reg_r in H; lra. }
  assert (Y' : forall c, e <= c <-> 2 * e / mmu <= 2 * c / mmu).
  { intro c. assert (I : 0 < / mmu) by (apply Rinv_0_lt_compat; lra). unfold Rdiv. split; intro H; [nra|].
    apply Rmult_le_reg_r in H; lra. }
  destruct (Rle_dec e 0) as [A|A].
  { apply Y' in A. replace (2 * 0 / mmu) with 0 in A by (field; lra). destruct (Rle_dec (2 * e / mmu) 0); [reflexivity|lra]. }
  destruct (Rle_dec (2 * e / mmu) 0) as [K|K].
  { exfalso. apply A, Y'. replace (2 * 0 / mmu) with 0 by (field; lra). exact K. }
  destruct (Rle_dec (mmu * (1 - me / mmu) / 2) e) as [B|B]; apply Rnot_le_lt in A.
  - apply Y in B. replace (2 * (mmu * (1 - me / mmu) / 2) / mmu) with (1 - me / mmu) in B by (field; lra).
    destruct (Rle_dec (1 - me / mmu) (2 * e / mmu)); [reflexivity|lra].
  - destruct (Rle_dec (1 - me / mmu) (2 * e / mmu)) as [D|D].
    { exfalso. apply B, Y. replace (2 * (mmu * (1 - me / mmu) / 2) / mmu) with (1 - me / mmu) by (field; lra). exact D. }
    cbn [orb]. unfold rad_muon, rad_bracket.
    replace (me / mmu * (me / mmu)) with ((me / mmu) ^ 2) by ring.
    set (y := 2 * e / mmu) in *. assert (0 < y) by (apply Rnot_le_lt in K; exact K). set (L := ln _). clearbody L.
    pose proof PI_RGT_0. field. lra.
Qed.

Lemma photon_flight spence me mmu alpha e emu : 0 < me < mmu -> mmu + / 2 ^ 52 <= emu -> 0 < e ->
  let gamma := emu / mmu in let beta := velo emu mmu in let r := (me / mmu) ^ 2 in
  let xm := gamma * (1 - beta) * (2 * e / mmu) in
  let xp := Rmin (gamma * (1 + beta) * (2 * e / mmu)) (1 - r) in
  dnde_photon_muon RMath spence me mmu alpha e emu =
  if Rle_dec (1 - r) xm then 0 else
  alpha / (3 * PI * emu * beta) * (rad_H spence r xp - rad_H spence r xm).
Proof.
  intros Hm Hemu He gamma beta r xm xp. assert (H52 : 0 < / 2 ^ 52) by (apply Rinv_0_lt_compat; lra).
  pose proof (ratio_unit me mmu Hm) as Hr.
  destruct (velo_facts emu mmu ltac:(lra)) as (B & B2 & L). fold beta in B, B2, L.
  unfold dnde_photon_muon. rmodel. change (epmach RNum) with (/ 2 ^ 52).
  destruct (Rlt_dec emu mmu); [lra|]. destruct (Rlt_dec (emu - mmu) (/ 2 ^ 52)); [lra|].
  unfold pm_ONE_MINUS_R, pm_R, pm_MASS_RATIO, THREE_PI. rmodel. change (fpi RMath) with PI.
  rewrite beta_velo. fold beta.
  assert (GE : boost_gamma RMath emu mmu = gamma) by (unfold boost_gamma; rmodel; reflexivity). rewrite GE.
  replace (me / mmu * (me / mmu)) with r by (unfold r; ring).
  assert (R1 : 0 < r < 1) by (unfold r; nra).
  set (y := 2 * e / mmu) in *. assert (Y : 0 < y) by (unfold y; apply Rdiv_lt_0_compat; lra).
  assert (G : 0 < gamma) by (unfold gamma; apply Rdiv_lt_0_compat; lra).
  assert (X : 0 < y * gamma) by (apply Rmult_lt_0_compat; lra). set (x := y * gamma) in *.
  assert (XM : x * (1 - beta) = xm) by (unfold xm, x; ring).
  destruct (Rlt_dec x 0); [lra|]. cbn [orb].
  assert (DIV : forall w, 0 < w -> (1 - r) / w <= x <-> 1 - r <= x * w).
  { intros w Hw. assert (E0 : (1 - r) / w * w = 1 - r) by (field; lra). split; intro K.
    - rewrite <- E0. apply Rmult_le_compat_r; lra.
    - apply (Rmult_le_reg_r w); [exact Hw|]. rewrite E0. exact K. }
  destruct (Rle_dec ((1 - r) / (1 - beta)) x) as [K|K].
  { apply DIV in K; [|lra]. rewrite XM in K. destruct (Rle_dec (1 - r) xm); [reflexivity|lra]. }
  destruct (Rle_dec (1 - r) xm) as [K'|K'].
  { exfalso. apply K, DIV; [lra|]. now rewrite XM. }
  apply Rnot_le_lt in K'. clear K.
  assert (XP : x * (if (if Rlt_dec x ((1 - r) / (1 + beta)) then true else false) then 1 + beta else (1 - r) / x) = xp).
  { unfold xp. replace (gamma * (1 + beta) * y) with (x * (1 + beta)) by (unfold x; ring).
    destruct (Rlt_dec x ((1 - r) / (1 + beta))) as [U|U].
    - rewrite Rmin_left; [reflexivity|]. assert (~ 1 - r <= x * (1 + beta)); [|lra]. intro V. apply DIV in V; lra.
    - apply Rnot_lt_le, DIV in U; [|lra]. rewrite Rmin_right by lra. field. lra. }
  rewrite XP, XM. clear XP.
  assert (M0 : 0 < xm) by (rewrite <- XM; apply Rmult_lt_0_compat; lra).
  assert (P0 : xm <= xp < 1).
  { unfold xp. split; [apply Rmin_glb; [|lra]|].
    - unfold xm. apply Rmult_le_compat_r; [lra|]. apply Rmult_le_compat_l; lra.
    - apply Rle_lt_trans with (1 - r); [apply Rmin_r|lra]. }
  clearbody xm xp. unfold rad_H.
  rewrite (ln_div_pos (1 - xp) (1 - xm)), (ln_div_pos xp xm) by lra.
  set (Lm := ln ((1 - xm) / r)). set (Lp := ln ((1 - xp) / r)).
  set (a := ln (1 - xp)). set (b := ln (1 - xm)). set (c := ln xp). set (d := ln xm). clearbody Lm Lp a b c d.
  set (s1 := spence xm). set (s2 := spence xp). clearbody s1 s2.
  pose proof PI_RGT_0. field. lra.
Qed.

(** * Quadrature with orientation *)
Definition exact_oriented (quad : (R -> R) -> R -> R -> R) : Prop :=
  (forall f a b v, a <= b -> area f a b v -> quad f a b = v)
  /\ (forall f a b v, b < a -> area f b a v -> quad f a b = - v).
Lemma exact_oriented_exists : exists quad, exact_oriented quad.
Proof.
  exists (fun f a b => if Rle_dec a b then the_area f a b else - the_area f b a). split; intros f a b v H A.
  - destruct (Rle_dec a b); [|lra]. now apply the_area_val.
  - destruct (Rle_dec a b); [lra|]. rewrite (the_area_val f b a v); [reflexivity|lra|exact A].
Qed.

(** * More on areas *)
Lemma area_sub f a b v c d : area f a b v -> a <= c -> d <= b -> exists w, area f c d w.
Proof.
  intros (G & Gc & (l & Gd) & _) H1 H2. exists (G d - G c), G. split; [|split; [|reflexivity]].
  - intros x Hx. apply Gc. lra.
  - exists l. intros x Hx Hn. apply Gd; [lra|exact Hn].
Qed.
Lemma area_zero_on f a b : (forall x, a < x < b -> f x = 0) -> area f a b 0.
Proof.
  intro H. apply (area_val _ _ _ (0 * (b - a))); [ring|].
  refine (area_ext _ _ _ _ _ [] _ (area_const 0 a b)). intros x Hx _. symmetry. now apply H.
Qed.
Lemma area_tail f a b v d : a <= d <= b -> (forall x, d < x < b -> f x = 0) -> area f a b v -> area f a d v.
Proof.
  intros H Z A. destruct (area_sub f a b v a d A ltac:(lra) ltac:(lra)) as [w W].
  pose proof (area_join f a d b w 0 H W (area_zero_on f d b Z)) as J.
  rewrite (area_unique f a b v (w + 0) ltac:(lra) A J). apply (area_val _ _ _ w); [ring|exact W].
Qed.
Lemma list_avoid (l : list R) a b : a < b -> exists x, a < x < b /\ ~ In x l.
Proof.
  revert a b. induction l as [|p l IH]; intros a b H; [exists ((a + b) / 2); split; [lra|easy]|].
  destruct (Rlt_dec p ((a + b) / 2)) as [Q|Q].
  - destruct (IH ((a + b) / 2) b ltac:(lra)) as (x & Hx & Hn). exists x. split; [lra|]. intros [E|E]; [lra|now apply Hn].
  - destruct (IH a ((a + b) / 2) ltac:(lra)) as (x & Hx & Hn). exists x. split; [lra|]. intros [E|E]; [lra|now apply Hn].
Qed.
Lemma area_pos f a b v : a < b -> (forall x, a < x < b -> 0 < f x) -> area f a b v -> 0 < v.
Proof.
  intros Hab P (G & Gc & (l & Gd) & Gv).
  assert (M : forall c d, a <= c -> c <= d -> d <= b -> G c <= G d).
  { intros c d H1 H2 H3. apply (mono_except G f l); [exact H2|intros x Hx; apply Gc; lra|].
    intros x Hx Hn. split; [apply Gd; [lra|exact Hn]|left; apply P; lra]. }
  destruct (Rlt_dec 0 v) as [|N]; [assumption|exfalso].
  assert (K : forall x, a <= x <= b -> G x = G a).
  { intros x Hx. pose proof (M a x). pose proof (M x b). pose proof (M a b). lra. }
  destruct (list_avoid l a b Hab) as (x & Hx & Hn).
  pose proof (Gd x Hx Hn) as D.
  assert (D0 : derivable_pt_lim G x 0).
  { apply (derivable_pt_lim_locally_ext (fun _ => G a) G x a b); [lra| |apply derivable_pt_lim_const].
    intros y Hy. symmetry. apply K. lra. }
  pose proof (uniqueness_limite G x _ _ D D0). pose proof (P x Hx). lra.
Qed.

(** * Kinematics of pi -> mu nu, mu -> e nu nu *)
Section PionChain.
Variables me mmu mpi : R.
Hypothesis Hme : 0 < me < mmu.
Hypothesis Hmu : mmu < mpi.
Definition pion_emu : R := (mpi ^ 2 + mmu ^ 2) / (2 * mpi).
Definition pion_pmax : R := (mpi ^ 2 + me ^ 2) / (2 * mpi).

Lemma emu_above : mmu < pion_emu.
Proof.
  unfold pion_emu. apply (Rmult_lt_reg_r (2 * mpi)); [lra|]. unfold Rdiv. rewrite Rmult_assoc, Rinv_l by lra. nra.
Qed.
Lemma emu_velo : velo pion_emu mmu = (mpi ^ 2 - mmu ^ 2) / (mpi ^ 2 + mmu ^ 2).
Proof.
  unfold velo, pion_emu. assert (A : 0 < mpi ^ 2 + mmu ^ 2) by nra.
  replace (1 - (mmu / ((mpi ^ 2 + mmu ^ 2) / (2 * mpi))) ^ 2) with (((mpi ^ 2 - mmu ^ 2) / (mpi ^ 2 + mmu ^ 2)) ^ 2) by (field; lra).
  apply sqrt_pow2. apply Rmult_le_pos; [nra|left; now apply Rinv_0_lt_compat].
Qed.

(** Beyond the two-body end of the chain the muon cannot give the positron that much energy. *)
Lemma chain_end e : pion_pmax <= e ->
  mmu * (1 + (me / mmu) ^ 2) / 2 <= pion_emu / mmu * (e - velo pion_emu mmu * momentum e me).
Proof.
  intro He. rewrite emu_velo.
  assert (A : 0 < mpi ^ 2) by nra. set (a := mpi ^ 2) in *.
  set (E0 := pion_pmax) in *. set (K0 := (mpi ^ 2 - me ^ 2) / (2 * mpi)).
  assert (K0p : 0 < K0) by (unfold K0; apply Rdiv_lt_0_compat; nra).
  assert (EK : E0 * E0 - me * me = K0 * K0) by (unfold E0, pion_pmax, K0; field; lra).
  assert (ME : me < E0).
  { unfold E0, pion_pmax. apply (Rmult_lt_reg_r (2 * mpi)); [lra|]. unfold Rdiv. rewrite Rmult_assoc, Rinv_l by lra. nra. }
  set (k := momentum e me).
  assert (KK : k * k = e * e - me * me) by (unfold k, momentum; apply sqrt_def; nra).
  assert (KP : 0 <= k) by apply sqrt_pos.
  assert (KG : K0 <= k) by nra.
  assert (S1 : (k - K0) * K0 <= (e - E0) * E0).
  { assert (CS : K0 * k + me * me <= E0 * e).
    { assert ((K0 * k + me * me) ^ 2 <= (E0 * e) ^ 2).
      { replace ((E0 * e) ^ 2) with ((E0 * E0) * (e * e)) by ring.
        replace (E0 * E0) with (K0 * K0 + me * me) by lra. replace (e * e) with (k * k + me * me) by lra.
        assert (0 <= me * me * (k - K0) ^ 2) by (apply Rmult_le_pos; [nra|apply pow2_ge_0]). nra. }
      assert (0 <= E0 * e) by nra. nra. }
    nra. }
  assert (G : (a - mmu ^ 2) * (k - K0) <= (a + mmu ^ 2) * (e - E0)).
  { assert (T : (a - mmu ^ 2) * E0 <= (a + mmu ^ 2) * K0).
    { unfold E0, pion_pmax, K0. fold a. assert (I : 0 < / (2 * mpi)) by (apply Rinv_0_lt_compat; lra). unfold Rdiv.
      rewrite <- !Rmult_assoc. apply Rmult_le_compat_r; [lra|].
      assert (me ^ 2 <= mmu ^ 2) by nra. assert (a * me ^ 2 <= a * mmu ^ 2) by (apply Rmult_le_compat_l; lra). lra. }
    assert (EE : 0 <= e - E0) by lra.
    apply (Rmult_le_reg_r K0); [exact K0p|].
    apply Rle_trans with ((a - mmu ^ 2) * ((e - E0) * E0)).
    - rewrite Rmult_assoc. apply Rmult_le_compat_l; [unfold a; nra|exact S1].
    - replace ((a - mmu ^ 2) * ((e - E0) * E0)) with ((a - mmu ^ 2) * E0 * (e - E0)) by ring.
      replace ((a + mmu ^ 2) * (e - E0) * K0) with ((a + mmu ^ 2) * K0 * (e - E0)) by ring.
      now apply Rmult_le_compat_r. }
  assert (L0 : ((a + mmu ^ 2) * E0 - (a - mmu ^ 2) * K0) / (2 * mpi * mmu) = mmu * (1 + (me / mmu) ^ 2) / 2).
  { unfold E0, pion_pmax, K0, a. field. lra. }
  rewrite <- L0. unfold pion_emu. fold a.
  replace ((a + mmu ^ 2) / (2 * mpi) / mmu * (e - (a - mmu ^ 2) / (a + mmu ^ 2) * k))
    with (((a + mmu ^ 2) * e - (a - mmu ^ 2) * k) / (2 * mpi * mmu)) by (field; nra).
  apply Rmult_le_compat_r; [left; apply Rinv_0_lt_compat; nra|]. lra.
Qed.
End PionChain.
