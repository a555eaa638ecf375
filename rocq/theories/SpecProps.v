(** C26-C30: decay spectra of the muon, the neutral pion and the tabulated mesons, over the reals. *)
From Coq Require Import List Bool ZArith QArith Reals Lra Lia Qreals.
From Verif Require Import RustBase RustBaseFacts RustMath Area BoostModel BoostProofs BoostProps SpecModel SpecProofs.
Import ListNotations.
Local Open Scope R_scope.
Ltac req := match goal with |- ?a = ?b => change (@eq R a b) end.

(** ** C26.  The positron spectrum of a moving muon is the boost of the one at rest.

    A positron seen with energy e comes from rest-frame energies between gamma (e - beta p) and
    gamma (e + beta p), each isotropic line at e0 being spread with density 1/(2 gamma beta p0). *)
Theorem positron_muon_boost (me mmu N e emu : R) :
  0 < me < mmu -> mmu <= 2 ^ 51 -> N <> 0 -> mmu + / 2 ^ 52 <= emu -> me < e ->
  let gamma := emu / mmu in let beta := sqrt (1 - (mmu / emu) ^ 2) in let p := sqrt (e * e - me * me) in
  area (fun e0 => dnde_positron_muon RMath me mmu N e0 mmu / (2 * gamma * beta * sqrt (e0 * e0 - me * me)))
    (gamma * (e - beta * p)) (gamma * (e + beta * p)) (dnde_positron_muon RMath me mmu N e emu).
Proof.
  intros Hm Hbig HN Hemu He gamma beta p. assert (H52 : 0 < / 2 ^ 52) by (apply Rinv_0_lt_compat; lra).
  change (gamma * (e - beta * p)) with (rest_lo me mmu e emu). change (gamma * (e + beta * p)) with (rest_hi me mmu e emu).
  destruct (velo_facts emu mmu ltac:(lra)) as (B & _ & _). change (velo emu mmu) with beta in B.
  destruct (rest_window me mmu Hm e emu ltac:(lra) ltac:(lra)) as [W1 W2].
  assert (Hg : 0 < gamma) by (apply Rdiv_lt_0_compat; lra).
  rewrite (pos_muon_flight me mmu N Hm e emu Hbig Hemu He). change (velo emu mmu) with beta.
  destruct (Rlt_dec (pos_emax me mmu) (rest_lo me mmu e emu)) as [D|D].
  - apply area_zero. intros x Hx. rewrite pos_muon_rest by lra.
    destruct (Rle_dec (pos_emax me mmu) x); [unfold Rdiv; ring|lra].
  - set (c := 2 / mmu / (2 * gamma * beta * N)).
    apply (area_val _ _ _ (c * posG me mmu (2 / mmu * Rmin (rest_hi me mmu e emu) (pos_emax me mmu))
                           - c * posG me mmu (2 / mmu * rest_lo me mmu e emu))).
    { unfold c, gamma. field. repeat split; lra. }
    apply (area_clip (fun x => c * (2 / mmu * (- 2 * pos_poly me mmu (2 / mmu * x)))) (fun x => c * posG me mmu (2 / mmu * x))); try lra.
    + intros x _. eapply dl_val; [eapply dl_mult; [apply dl_const|apply (posG_diff me mmu Hm)]|]. cbv beta. ring.
    + intros x Hx Hh. rewrite pos_muon_rest by lra. destruct (Rle_dec (pos_emax me mmu) x); [lra|].
      fold (momentum x me). assert (0 < momentum x me) by (apply sqrt_lt_R0; nra).
      unfold c. field. repeat split; lra.
    + intros x Hx Hh. rewrite pos_muon_rest by lra. destruct (Rle_dec (pos_emax me mmu) x); [unfold Rdiv; ring|lra].
Qed.
Print Assumptions positron_muon_boost.

(** C26.  At rest the spectrum is the tree-level Michel spectrum of mass ratio r = me/mmu, on
    (me, mmu (1 + r^2)/2). *)
Theorem positron_muon_michel (me mmu N e : R) : 0 < me < mmu ->
  let r := me / mmu in let x := 2 * e / mmu in
  dnde_positron_muon RMath me mmu N e mmu =
  if Rlt_dec me e then if Rlt_dec e (mmu * (1 + r ^ 2) / 2)
    then 2 / mmu * (2 * sqrt (x ^ 2 - 4 * r ^ 2) * (x * (3 + 3 * r ^ 2 - 2 * x) - 4 * r ^ 2)) / N
    else 0 else 0.
Proof.
  intros Hm r x. destruct (Rlt_dec me e) as [He|He].
  - rewrite pos_muon_rest by lra. unfold pos_emax. fold r.
    destruct (Rle_dec _ e), (Rlt_dec e _); try lra.
    assert (Hmu : 0 < 2 / mmu) by (apply Rdiv_lt_0_compat; lra).
    replace (x ^ 2 - 4 * r ^ 2) with ((2 / mmu) ^ 2 * (e * e - me * me)) by (unfold x, r; field; lra).
    rewrite sqrt_mult_alt by apply pow2_ge_0. rewrite sqrt_pow2 by lra. fold (momentum e me).
    replace x with (2 / mmu * e) by (unfold x; field; lra). unfold pos_poly. fold r. req. unfold Rdiv. ring.
  - unfold dnde_positron_muon. rmodel. destruct (Rlt_dec mmu mmu); [lra|]. destruct (Rle_dec e me); [reflexivity|lra].
Qed.
Print Assumptions positron_muon_michel.

(** C26.  Never negative, whatever the energies. *)
Theorem positron_muon_nonnegative (me mmu N e emu : R) : 0 < me < mmu -> mmu <= 2 ^ 51 -> 0 < N ->
  0 <= dnde_positron_muon RMath me mmu N e emu.
Proof.
  intros Hm Hbig HN. assert (H52 : 0 < / 2 ^ 52) by (apply Rinv_0_lt_compat; lra).
  assert (Hrest : forall e0, me < e0 -> 0 <= dnde_positron_muon RMath me mmu N e0 mmu).
  { intros e0 H0. rewrite pos_muon_rest by lra. destruct (Rle_dec (pos_emax me mmu) e0) as [|C]; [lra|].
    assert (Hmu : 0 < 2 / mmu) by (apply Rdiv_lt_0_compat; lra).
    assert (S : pos_poly me mmu (2 / mmu * e0) <= 0).
    { apply (pos_poly_sign me mmu Hm). apply Rnot_le_lt in C. split.
      - replace (2 * (me / mmu)) with (2 / mmu * me) by (field; lra). apply Rmult_le_compat_l; lra.
      - replace (1 + (me / mmu) ^ 2) with (2 / mmu * pos_emax me mmu) by (unfold pos_emax; field; lra).
        apply Rmult_le_compat_l; lra. }
    apply Rmult_le_pos; [|left; now apply Rinv_0_lt_compat].
    apply Rmult_le_pos; [apply Rmult_le_pos; [apply pow2_ge_0|apply sqrt_pos]|lra]. }
  destruct (Rlt_dec me e) as [He|He].
  - destruct (Rle_dec (mmu + / 2 ^ 52) emu) as [Hf|Hf].
    + pose proof (positron_muon_boost me mmu N e emu Hm Hbig ltac:(lra) Hf He) as A. cbv zeta in A.
      destruct (rest_window me mmu Hm e emu ltac:(lra) ltac:(lra)) as [W1 W2].
      destruct (velo_facts emu mmu ltac:(lra)) as (B & _ & _).
      refine (area_le (fun _ => 0) _ _ _ 0 _ W2 _ _ A).
      * intros x Hx. change (emu / mmu * (e - velo emu mmu * momentum e me)) with (rest_lo me mmu e emu) in Hx.
        apply Rmult_le_pos; [apply Hrest; lra|]. left. apply Rinv_0_lt_compat.
        assert (0 < emu / mmu) by (apply Rdiv_lt_0_compat; lra).
        apply Rmult_lt_0_compat; [apply Rmult_lt_0_compat; [lra|apply B]|apply sqrt_lt_R0; nra].
      * apply area_zero. reflexivity.
    + pose proof (Hrest e He) as P. revert P. unfold dnde_positron_muon. rmodel. change (epmach RNum) with (/ 2 ^ 52).
      destruct (Rlt_dec mmu mmu); [lra|]. destruct (Rlt_dec emu mmu), (Rle_dec e me); cbn [orb]; try lra.
      destruct (Rlt_dec (mmu - mmu) (/ 2 ^ 52)), (Rlt_dec (emu - mmu) (/ 2 ^ 52)); lra.
  - unfold dnde_positron_muon. rmodel. destruct (Rlt_dec emu mmu), (Rle_dec e me); cbn [orb]; lra.
Qed.
Print Assumptions positron_muon_nonnegative.

(** C26.  Zero outside the kinematic window: below threshold, for energies not above the electron mass, and
    when even the least rest-frame energy exceeds the end point mmu (1 + r^2)/2. *)
Theorem positron_muon_window (me mmu N e emu : R) : 0 < me < mmu -> mmu <= 2 ^ 51 -> 
  emu < mmu \/ e <= me
  \/ mmu + / 2 ^ 52 <= emu /\ me < e
     /\ mmu * (1 + (me / mmu) ^ 2) / 2 <= emu / mmu * (e - sqrt (1 - (mmu / emu) ^ 2) * sqrt (e * e - me * me)) ->
  dnde_positron_muon RMath me mmu N e emu = 0.
Proof.
  intros Hm Hbig [H|[H|(Hf & He & H)]].
  - unfold dnde_positron_muon. rmodel. destruct (Rlt_dec emu mmu); [reflexivity|lra].
  - unfold dnde_positron_muon. rmodel. destruct (Rlt_dec emu mmu); [reflexivity|]. destruct (Rle_dec e me); [reflexivity|lra].
  - assert (H52 : 0 < / 2 ^ 52) by (apply Rinv_0_lt_compat; lra).
    rewrite (pos_muon_flight me mmu N Hm e emu Hbig Hf He).
    change (pos_emax me mmu <= rest_lo me mmu e emu) in H.
    destruct (Rlt_dec (pos_emax me mmu) (rest_lo me mmu e emu)); [reflexivity|].
    pose proof (rest_lo_lt me mmu Hm e emu ltac:(lra) He). rewrite Rmin_right by lra.
    replace (pos_emax me mmu) with (rest_lo me mmu e emu) by lra. req. unfold Rdiv. ring.
Qed.
Print Assumptions positron_muon_window.

(** Masses 3 and 5, muon energy 25/3 (velocity 4/5), positron energy 5: the window is (3, 41/3), so every
    rest-frame energy up to the end point 17/5 contributes. *)
Example ex_positron : dnde_positron_muon RMath 3 5 1 5 (25 / 3) = 376 / 15625.
Proof.
  assert (V : velo (25 / 3) 5 = 4 / 5)
    by (unfold velo; replace (1 - (5 / (25 / 3)) ^ 2) with ((4 / 5) ^ 2) by field; apply sqrt_pow2; lra).
  assert (MO : momentum 5 3 = 4) by (unfold momentum; replace (5 * 5 - 3 * 3) with (4 ^ 2) by ring; apply sqrt_pow2; lra).
  assert (LO : rest_lo 3 5 5 (25 / 3) = 3) by (unfold rest_lo; rewrite V, MO; field).
  assert (HI : rest_hi 3 5 5 (25 / 3) = 41 / 3) by (unfold rest_hi; rewrite V, MO; field).
  rewrite pos_muon_flight by lra. rewrite LO, HI, V. unfold pos_emax, posG.
  destruct (Rlt_dec (5 * (1 + (3 / 5) ^ 2) / 2) 3); [lra|]. rewrite Rmin_right by lra. req. field.
Qed.

(** ** C27.  The number of positrons from a muon at rest.

    The rest-frame spectrum integrates to I(r)/N with I(r) = 1 - 8 r^2 + 8 r^6 - r^8 - 24 r^4 ln r, so
    it is normalised exactly when N = I(r). *)
Theorem positron_muon_count (me mmu N hi : R) : 0 < me < mmu -> N <> 0 -> mmu * (1 + (me / mmu) ^ 2) / 2 <= hi ->
  area (fun e => dnde_positron_muon RMath me mmu N e mmu) me hi (muon_I (me / mmu) / N).
Proof. intros Hm HN Hh. exact (pos_count me mmu N Hm hi HN Hh). Qed.
Print Assumptions positron_muon_count.
Theorem positron_muon_normalised_iff (me mmu N hi : R) : 0 < me < mmu -> N <> 0 -> mmu * (1 + (me / mmu) ^ 2) / 2 <= hi ->
  (area (fun e => dnde_positron_muon RMath me mmu N e mmu) me hi 1 <->
   N = 1 - 8 * (me / mmu) ^ 2 + 8 * (me / mmu) ^ 6 - (me / mmu) ^ 8 - 24 * (me / mmu) ^ 4 * ln (me / mmu)).
Proof.
  intros Hm HN Hh. pose proof (positron_muon_count me mmu N hi Hm HN Hh) as A. fold (muon_I (me / mmu)). split; intro H.
  - assert (E : muon_I (me / mmu) / N = 1) by (refine (area_unique _ me hi _ _ _ A H); pose proof (emax_gt me mmu Hm); unfold pos_emax in *; lra).
    apply (f_equal (fun z => z * N)) in E. unfold Rdiv in E. rewrite Rmult_assoc, Rinv_l in E by exact HN. lra.
  - apply (area_val _ _ _ (muon_I (me / mmu) / N)); [|exact A]. rewrite <- H. field. exact HN.
Qed.
Print Assumptions positron_muon_normalised_iff.

(** The literals of constants.rs. *)
Lemma literal_me : pdg_MASS_E RMath = 5109989461 / 10 ^ 10.
Proof. unfold pdg_MASS_E. rmodel. unfold Q2R. cbn -[IZR Rinv Rmult pow]. lra. Qed.
Lemma literal_mmu : pdg_MASS_MU RMath = 1056583745 / 10 ^ 7.
Proof. unfold pdg_MASS_MU. rmodel. unfold Q2R. cbn -[IZR Rinv Rmult pow]. lra. Qed.
Lemma literal_R : pdg_R_FACTOR RMath = 10001870858234163 / 10 ^ 16.
Proof. unfold pdg_R_FACTOR. rmodel. unfold Q2R. cbn -[IZR Rinv Rmult pow]. lra. Qed.
Lemma exp_8 : 256 < exp 8.
Proof.
  pose proof (exp_ineq1 1 ltac:(lra)) as E. replace 8 with (1 + 1 + 1 + 1 + (1 + 1 + 1 + 1)) by lra. rewrite !exp_plus.
  set (x := exp 1) in *. clearbody x. assert (4 < x * x) by nra. assert (16 < x * x * x * x) by nra.
  set (y := x * x * x * x) in *. clearbody y. nra.
Qed.
Lemma exp_4 : exp 4 <= 81.
Proof.
  pose proof exp_le_3 as E. pose proof (exp_pos 1). replace 4 with (1 + 1 + 1 + 1) by lra. rewrite !exp_plus.
  set (x := exp 1) in *. clearbody x. assert (x * x <= 9) by nra. assert (x * x * x <= 27) by nra. nra.
Qed.
(** I(r) at the physical masses, to seven digits. *)
Lemma muon_I_pdg : 9998129316 / 10 ^ 10 < muon_I (pdg_MASS_E RMath / pdg_MASS_MU RMath) < 9998129845 / 10 ^ 10.
Proof.
  rewrite literal_me, literal_mmu. set (r := 5109989461 / 10 ^ 10 / (1056583745 / 10 ^ 7)).
  assert (Er : r = 5109989461 / 1056583745 / 1000) by (unfold r; field).
  assert (R1 : 48363314 / 10 ^ 10 < r < 48363319 / 10 ^ 10) by (rewrite Er; lra).
  clearbody r. clear Er.
  assert (L : 4 < - ln r < 8).
  { replace (- ln r) with (ln (/ r)) by (apply ln_Rinv; lra).
    assert (I1 : 206 < / r < 207).
    { split; (apply (Rmult_lt_reg_l r); [lra|]); rewrite Rinv_r by lra; lra. }
    split.
    - rewrite <- (ln_exp 4). apply ln_increasing; [apply exp_pos|]. pose proof exp_4. lra.
    - rewrite <- (ln_exp 8). apply ln_increasing; [lra|]. pose proof exp_8. lra. }
  unfold muon_I. set (l := - ln r) in *.
  replace (1 - 8 * r ^ 2 + 8 * r ^ 6 - r ^ 8 - 24 * r ^ 4 * ln r) with (1 - 8 * r ^ 2 + 8 * r ^ 6 - r ^ 8 + 24 * r ^ 4 * l)
    by (unfold l; ring).
  clearbody l.
  assert (R2 : 23390101 / 10 ^ 12 < r ^ 2 < 23390107 / 10 ^ 12) by (split; nra).
  assert (R4 : 547096 / 10 ^ 15 < r ^ 4 < 547098 / 10 ^ 15) by (replace (r ^ 4) with (r ^ 2 * r ^ 2) by ring; split; nra).
  assert (R6 : 0 < r ^ 6 < 2 / 10 ^ 14).
  { replace (r ^ 6) with (r ^ 2 * r ^ 4) by ring. split; [apply Rmult_lt_0_compat; lra|]. nra. }
  assert (R8 : 0 < r ^ 8 < 1 / 10 ^ 18).
  { replace (r ^ 8) with (r ^ 4 * r ^ 4) by ring. split; [apply Rmult_lt_0_compat; lra|]. nra. }
  assert (RL : 547096 / 10 ^ 15 * 4 < r ^ 4 * l < 547098 / 10 ^ 15 * 8) by (split; nra).
  set (a2 := r ^ 2) in *. set (a4 := r ^ 4) in *. set (a6 := r ^ 6) in *. set (a8 := r ^ 8) in *. set (al := a4 * l) in *.
  replace (24 * a4 * l) with (24 * al) by (unfold al; ring). clearbody a2 a4 a6 a8 al. lra.
Qed.

(** C27 is false of the code at its own constants: the constant multiplies the neutrino spectra, where it
    belongs, but divides here.  About 3.7 positrons in 10^4 are missing. *)
Theorem positron_muon_normalised_refuted :
  exists v, area (fun e => dnde_positron_muon RMath (pdg_MASS_E RMath) (pdg_MASS_MU RMath) (pdg_R_FACTOR RMath) e (pdg_MASS_MU RMath))
                 (pdg_MASS_E RMath) (pdg_MASS_MU RMath) v
            /\ 1 - 375 / 10 ^ 6 < v < 1 - 373 / 10 ^ 6.
Proof.
  exists (muon_I (pdg_MASS_E RMath / pdg_MASS_MU RMath) / pdg_R_FACTOR RMath). split.
  - apply positron_muon_count.
    + rewrite literal_me, literal_mmu. lra.
    + rewrite literal_R. lra.
    + rewrite literal_me, literal_mmu. set (r := 5109989461 / 10 ^ 10 / (1056583745 / 10 ^ 7)).
      assert (r = 5109989461 / 1056583745 / 1000) by (unfold r; field). assert (0 < r < 1) by lra. clearbody r. nra.
  - pose proof muon_I_pdg as I. set (i := muon_I _) in *. clearbody i. rewrite literal_R.
    split; (apply (Rmult_lt_reg_r (10001870858234163 / 10 ^ 16)); [lra|]);
      unfold Rdiv at 1; unfold Rdiv; rewrite ?(Rmult_assoc i), ?Rinv_l by lra; lra.
Qed.
Print Assumptions positron_muon_normalised_refuted.
(** Some mass ratio and normalisation meet the hypotheses of the count; the end point is below mmu. *)
Example ex_count : area (fun e => dnde_positron_muon RMath 3 5 2 e 5) 3 5 (muon_I (3 / 5) / 2).
Proof. apply positron_muon_count; lra. Qed.

(** ** C28.  The neutrino spectra of a moving muon are the boosts of the ones at rest.

    A neutrino seen with energy e comes from rest-frame energies between gamma (1 - beta) e and
    gamma (1 + beta) e, each isotropic line at e0 being spread with density 1/(2 gamma beta e0). *)
Theorem neutrino_muon_boost (me mmu N e emu : R) : 0 < me < mmu -> mmu + / 2 ^ 52 <= emu -> 0 < e ->
  let gamma := emu / mmu in let beta := sqrt (1 - (mmu / emu) ^ 2) in
  let rest e0 := dnde_neutrino_muon RMath me mmu N e0 mmu in
  let flight := dnde_neutrino_muon RMath me mmu N e emu in
  area (fun e0 => electron _ (rest e0) / (2 * gamma * beta * e0)) (gamma * (1 - beta) * e) (gamma * (1 + beta) * e) (electron _ flight)
  /\ area (fun e0 => muon _ (rest e0) / (2 * gamma * beta * e0)) (gamma * (1 - beta) * e) (gamma * (1 + beta) * e) (muon _ flight)
  /\ tau _ flight = 0.
Proof.
  intros Hm Hemu He gamma beta rest flight. assert (H52 : 0 < / 2 ^ 52) by (apply Rinv_0_lt_compat; lra).
  change (gamma * (1 - beta) * e) with (nu_lo mmu e emu). change (gamma * (1 + beta) * e) with (nu_hi mmu e emu).
  destruct (velo_facts emu mmu ltac:(lra)) as (B & _ & _). change (velo emu mmu) with beta in B.
  destruct (nu_window me mmu Hm e emu ltac:(lra) He) as [W1 W2].
  assert (Hg : 0 < gamma) by (apply Rdiv_lt_0_compat; lra).
  assert (Hmu : 0 < 2 / mmu) by (apply Rdiv_lt_0_compat; lra).
  assert (X1 : forall y, y <= nu_emax me mmu -> 2 / mmu * y < 1).
  { intros y Hy. pose proof (ratio_unit me mmu Hm). apply Rle_lt_trans with (2 / mmu * nu_emax me mmu); [apply Rmult_le_compat_l; lra|].
    replace (2 / mmu * nu_emax me mmu) with (1 - (me / mmu) ^ 2) by (unfold nu_emax; field; lra). nra. }
  assert (Z : forall y, 0 < y -> nu_emax me mmu <= y -> rest y = MkFlavors RMath 0 0 0).
  { intros y H1 H2. unfold rest. rewrite nu_rest by lra. destruct (Rle_dec (nu_emax me mmu) y); [reflexivity|lra]. }
  unfold flight. rewrite (nu_flight me mmu N Hm e emu Hemu He). change (velo emu mmu) with beta.
  destruct (Rle_dec (nu_emax me mmu) (nu_lo mmu e emu)) as [D|D]; cbn [electron muon tau].
  - split; [|split; [|reflexivity]]; apply area_zero; intros x Hx; rewrite Z by lra; cbn [electron muon]; unfold Rdiv; ring.
  - apply Rnot_le_lt in D. set (c := 2 / mmu * N / (2 * gamma * beta)).
    assert (A : forall (G g : R -> R) (pick : flavors RMath -> R),
      (forall x, x < 1 -> derivable_pt_lim G x (g x)) -> pick (MkFlavors RMath 0 0 0) = 0 ->
      (forall y, 0 < y < nu_emax me mmu -> pick (rest y) = N * (2 / mmu) * (2 / mmu * y * g (2 / mmu * y))) ->
      area (fun e0 => pick (rest e0) / (2 * gamma * beta * e0)) (nu_lo mmu e emu) (nu_hi mmu e emu)
        (N * (2 / emu) / (2 * beta) * (G (2 / mmu * Rmin (nu_hi mmu e emu) (nu_emax me mmu)) - G (2 / mmu * nu_lo mmu e emu)))).
    { intros G g pick HG H0 Hp.
      apply (area_val _ _ _ (c * G (2 / mmu * Rmin (nu_hi mmu e emu) (nu_emax me mmu)) - c * G (2 / mmu * nu_lo mmu e emu))).
      { unfold c, gamma. field. repeat split; lra. }
      apply (area_clip (fun x => c * (2 / mmu * g (2 / mmu * x))) (fun x => c * G (2 / mmu * x))); try lra.
      - intros x Hx. eapply dl_val.
        + eapply dl_mult; [apply dl_const|]. apply (scaled (2 / mmu) G). apply HG. apply X1.
          pose proof (Rmin_r (nu_hi mmu e emu) (nu_emax me mmu)). lra.
        + cbv beta. ring.
      - intros x Hx Hh. rewrite Hp by lra. unfold c. field. repeat split; lra.
      - intros x Hx Hh. rewrite Z by lra. rewrite H0. unfold Rdiv. ring. }
    split; [|split; [|reflexivity]].
    + apply (A (nueG me mmu) (nue me mmu) (electron RMath)); [intros x Hx; now apply nueG_der|reflexivity|].
      intros y Hy. unfold rest. rewrite nu_rest by lra. destruct (Rle_dec (nu_emax me mmu) y); [lra|reflexivity].
    + apply (A (numG me mmu) (num me mmu) (muon RMath)); [intros x Hx; now apply numG_der|reflexivity|].
      intros y Hy. unfold rest. rewrite nu_rest by lra. destruct (Rle_dec (nu_emax me mmu) y); [lra|reflexivity].
Qed.
Print Assumptions neutrino_muon_boost.

(** C28.  At rest the rows are the tree-level spectra of mu -> e nu_e nu_mu on (0, mmu (1 - r^2)/2). *)
Theorem neutrino_muon_rest_spectra (me mmu N e : R) : 0 < me < mmu ->
  let r := me / mmu in let x := 2 * e / mmu in
  dnde_neutrino_muon RMath me mmu N e mmu =
  if Rlt_dec 0 e then if Rlt_dec e (mmu * (1 - r ^ 2) / 2) then
    MkFlavors RMath (2 / mmu * (12 * N * x ^ 2 * (1 - r ^ 2 - x) ^ 2 / (1 - x)))
      (2 / mmu * (2 * N * x ^ 2 * (1 - r ^ 2 - x) ^ 2 * ((1 - x) * (3 - 2 * x) + r ^ 2 * (3 - x)) / (1 - x) ^ 3)) 0
    else MkFlavors RMath 0 0 0 else MkFlavors RMath 0 0 0.
Proof.
  intros Hm r x. pose proof (ratio_unit me mmu Hm) as Hr. assert (Hmu : 0 < 2 / mmu) by (apply Rdiv_lt_0_compat; lra).
  assert (H52 : 0 < / 2 ^ 52) by (apply Rinv_0_lt_compat; lra).
  destruct (Rlt_dec 0 e) as [He|He].
  - rewrite nu_rest by lra. unfold nu_emax. fold r.
    destruct (Rle_dec _ e), (Rlt_dec e _) as [Hx|Hx]; try lra; try reflexivity.
    assert (x < 1).
    { unfold x. apply (Rmult_lt_compat_l (2 / mmu)) in Hx; [|exact Hmu].
      replace (2 / mmu * (mmu * (1 - r ^ 2) / 2)) with (1 - r ^ 2) in Hx by (field; lra).
      replace (2 * e / mmu) with (2 / mmu * e) by (field; lra). fold r in Hr. nra. }
    replace (2 / mmu * e) with x by (unfold x; field; lra). unfold nue, num. fold r. clearbody x.
    f_equal; req; field; lra.
  - unfold dnde_neutrino_muon, dnde_neutrino_muon_rest_frame, TWO_OVER_MASS_MU, no_flavors. rmodel.
    change (epmach RNum) with (/ 2 ^ 52). destruct (Rlt_dec mmu mmu); [lra|].
    destruct (Rlt_dec (mmu - mmu) (/ 2 ^ 52)); [|lra]. cbn zeta.
    destruct (Rle_dec (2 / mmu * e) 0) as [|C]; [reflexivity|]. exfalso. apply C. nra.
Qed.
Print Assumptions neutrino_muon_rest_spectra.

(** C28.  No row is ever negative, and the tau row is zero for every pair of energies. *)
Theorem neutrino_muon_nonnegative (me mmu N e emu : R) : 0 < me < mmu -> 0 <= N ->
  let f := dnde_neutrino_muon RMath me mmu N e emu in 0 <= electron _ f /\ 0 <= muon _ f /\ tau _ f = 0.
Proof.
  intros Hm HN f. assert (H52 : 0 < / 2 ^ 52) by (apply Rinv_0_lt_compat; lra).
  assert (Hmu : 0 < 2 / mmu) by (apply Rdiv_lt_0_compat; lra).
  assert (Hrest : forall e0, let g := dnde_neutrino_muon RMath me mmu N e0 mmu in 0 <= electron _ g /\ 0 <= muon _ g /\ tau _ g = 0).
  { intros e0 g. unfold g. rewrite (neutrino_muon_rest_spectra me mmu N e0 Hm).
    destruct (Rlt_dec 0 e0) as [H1|]; [|cbn [electron muon tau]; lra].
    destruct (Rlt_dec e0 _) as [H2|]; [|cbn [electron muon tau]; lra]. cbn [electron muon tau].
    set (r := me / mmu) in *. pose proof (ratio_unit me mmu Hm) as Hr. fold r in Hr. set (x := 2 * e0 / mmu).
    assert (Hx : 0 < x < 1).
    { apply (Rmult_lt_compat_l (2 / mmu)) in H2; [|exact Hmu].
      replace (2 / mmu * (mmu * (1 - r ^ 2) / 2)) with (1 - r ^ 2) in H2 by (field; lra).
      unfold x. replace (2 * e0 / mmu) with (2 / mmu * e0) by (field; lra). split; [apply Rmult_lt_0_compat; lra|nra]. }
    clearbody x r.
    assert (P2 : 0 <= x ^ 2 * (1 - r ^ 2 - x) ^ 2) by (apply Rmult_le_pos; apply pow2_ge_0).
    assert (P3 : 0 <= (1 - x) * (3 - 2 * x) + r ^ 2 * (3 - x)).
    { apply Rplus_le_le_0_compat; apply Rmult_le_pos; try lra. apply pow2_ge_0. }
    assert (P1 : 0 <= N * (x ^ 2 * (1 - r ^ 2 - x) ^ 2)) by (apply Rmult_le_pos; lra).
    split; [|split; [|reflexivity]].
    - apply Rmult_le_pos; [lra|]. apply Rmult_le_pos; [lra|left; apply Rinv_0_lt_compat; lra].
    - apply Rmult_le_pos; [lra|]. apply Rmult_le_pos; [|left; apply Rinv_0_lt_compat, pow_lt; lra].
      apply Rmult_le_pos; [lra|exact P3]. }
  destruct (Rle_dec (mmu + / 2 ^ 52) emu) as [Hf|Hf].
  - destruct (velo_facts emu mmu ltac:(lra)) as (B & _ & _).
    destruct (Rlt_dec 0 e) as [He|He].
    + destruct (neutrino_muon_boost me mmu N e emu Hm Hf He) as (A1 & A2 & A3).
      destruct (nu_window me mmu Hm e emu ltac:(lra) He) as [W1 W2].
      assert (Hg : 0 < emu / mmu) by (apply Rdiv_lt_0_compat; lra).
      assert (W : forall x, nu_lo mmu e emu < x -> 0 <= / (2 * (emu / mmu) * velo emu mmu * x)).
      { intros x Hx. left. apply Rinv_0_lt_compat. apply Rmult_lt_0_compat; [apply Rmult_lt_0_compat; lra|lra]. }
      split; [|split; [|exact A3]].
      * refine (area_le (fun _ => 0) _ _ _ 0 _ (Rlt_le _ _ W2) _ _ A1); [|apply area_zero; reflexivity].
        intros x Hx. apply Rmult_le_pos; [apply Hrest|]. apply W, Hx.
      * refine (area_le (fun _ => 0) _ _ _ 0 _ (Rlt_le _ _ W2) _ _ A2); [|apply area_zero; reflexivity].
        intros x Hx. apply Rmult_le_pos; [apply Hrest|]. apply W, Hx.
    + unfold f, dnde_neutrino_muon. rmodel. change (epmach RNum) with (/ 2 ^ 52).
      destruct (Rlt_dec emu mmu); [lra|]. destruct (Rlt_dec (emu - mmu) (/ 2 ^ 52)); [lra|]. cbn zeta.
      assert (0 < 2 / emu) by (apply Rdiv_lt_0_compat; lra).
      destruct (Rle_dec (2 / emu * e) 0) as [|C]; [|exfalso; apply C; nra]. cbn [orb]. unfold no_flavors. cbn [electron muon tau]. rmodel. lra.
  - specialize (Hrest e). revert Hrest. unfold f, dnde_neutrino_muon. rmodel. change (epmach RNum) with (/ 2 ^ 52).
    destruct (Rlt_dec mmu mmu); [lra|]. destruct (Rlt_dec (mmu - mmu) (/ 2 ^ 52)); [|lra].
    destruct (Rlt_dec emu mmu).
    + intros _. unfold no_flavors. cbn [electron muon tau]. rmodel. lra.
    + destruct (Rlt_dec (emu - mmu) (/ 2 ^ 52)); [auto|lra].
Qed.
Print Assumptions neutrino_muon_nonnegative.

(** C28.  All rows vanish below threshold, for energies not above zero, and when even the least rest-frame
    energy exceeds the end point mmu (1 - r^2)/2. *)
Theorem neutrino_muon_window (me mmu N e emu : R) : 0 < me < mmu ->
  emu < mmu \/ e <= 0
  \/ mmu + / 2 ^ 52 <= emu /\ mmu * (1 - (me / mmu) ^ 2) / 2 <= emu / mmu * (1 - sqrt (1 - (mmu / emu) ^ 2)) * e ->
  dnde_neutrino_muon RMath me mmu N e emu = MkFlavors RMath 0 0 0.
Proof.
  intros Hm H. assert (H52 : 0 < / 2 ^ 52) by (apply Rinv_0_lt_compat; lra).
  assert (N0 : emu < mmu -> dnde_neutrino_muon RMath me mmu N e emu = MkFlavors RMath 0 0 0).
  { intro L. unfold dnde_neutrino_muon, no_flavors. rmodel. destruct (Rlt_dec emu mmu); [reflexivity|lra]. }
  destruct H as [H|[H|(Hf & H)]]; [now apply N0| |].
  - destruct (Rlt_dec emu mmu) as [L|L]; [now apply N0|].
    unfold dnde_neutrino_muon, dnde_neutrino_muon_rest_frame, TWO_OVER_MASS_MU, no_flavors. rmodel.
    change (epmach RNum) with (/ 2 ^ 52). destruct (Rlt_dec emu mmu); [lra|]. cbn zeta.
    assert (0 < 2 / emu) by (apply Rdiv_lt_0_compat; lra). assert (0 < 2 / mmu) by (apply Rdiv_lt_0_compat; lra).
    destruct (Rle_dec (2 / emu * e) 0) as [|C]; [|exfalso; apply C; nra].
    destruct (Rle_dec (2 / mmu * e) 0) as [|C]; [|exfalso; apply C; nra].
    cbn [orb]. destruct (Rlt_dec (emu - mmu) (/ 2 ^ 52)); reflexivity.
  - destruct (velo_facts emu mmu ltac:(lra)) as (B & _ & _). pose proof (ratio_unit me mmu Hm).
    assert (0 < mmu * (1 - (me / mmu) ^ 2) / 2) by (apply Rmult_lt_0_compat; [apply Rmult_lt_0_compat; nra|lra]).
    assert (He : 0 < e).
    { destruct (Rlt_dec 0 e) as [|C]; [assumption|exfalso].
      assert (0 < emu / mmu * (1 - velo emu mmu)) by (apply Rmult_lt_0_compat; [apply Rdiv_lt_0_compat; lra|lra]).
      unfold velo in *. nra. }
    rewrite (nu_flight me mmu N Hm e emu Hf He). change (nu_emax me mmu <= nu_lo mmu e emu) in H.
    destruct (Rle_dec (nu_emax me mmu) (nu_lo mmu e emu)); [reflexivity|lra].
Qed.
Print Assumptions neutrino_muon_window.

(** C28.  Each row integrates to N I(r) at rest: one neutrino of each kind when N = 1/I(r), and to within
    4 in 10^8 at the constants of the code. *)
Theorem neutrino_muon_count (me mmu N hi : R) : 0 < me < mmu -> mmu * (1 - (me / mmu) ^ 2) / 2 <= hi ->
  let f e := dnde_neutrino_muon RMath me mmu N e mmu in
  area (fun e => electron _ (f e)) 0 hi (N * muon_I (me / mmu)) /\ area (fun e => muon _ (f e)) 0 hi (N * muon_I (me / mmu)).
Proof.
  intros Hm Hh f. change (nu_emax me mmu <= hi) in Hh. pose proof (ratio_unit me mmu Hm) as Hr.
  assert (Hmu : 0 < 2 / mmu) by (apply Rdiv_lt_0_compat; lra).
  assert (MX : 2 / mmu * nu_emax me mmu = 1 - (me / mmu) ^ 2) by (unfold nu_emax; field; lra).
  assert (H0 : 0 <= nu_emax me mmu).
  { unfold nu_emax. apply Rmult_le_pos; [|lra]. apply Rmult_le_pos; [lra|]. nra. }
  assert (A : forall (G g : R -> R) (pick : flavors RMath -> R),
    (forall x, x < 1 -> derivable_pt_lim G x (x * g x)) -> pick (MkFlavors RMath 0 0 0) = 0 ->
    (forall y, 0 < y < nu_emax me mmu -> pick (f y) = N * (2 / mmu) * (2 / mmu * y * g (2 / mmu * y))) ->
    G (1 - (me / mmu) ^ 2) - G 0 = muon_I (me / mmu) ->
    area (fun e => pick (f e)) 0 hi (N * muon_I (me / mmu))).
  { intros G g pick HG Hp0 Hp HV.
    apply (area_val _ _ _ (N * G (2 / mmu * Rmin hi (nu_emax me mmu)) - N * G (2 / mmu * 0))).
    { rewrite Rmin_right by lra. rewrite MX, Rmult_0_r, <- HV. ring. }
    apply (area_clip (fun y => N * (2 / mmu * (2 / mmu * y * g (2 / mmu * y)))) (fun y => N * G (2 / mmu * y))); try lra.
    - intros x Hx. eapply dl_val; [eapply dl_mult; [apply dl_const|]; apply (scaled (2 / mmu) G); apply HG|].
      + apply Rle_lt_trans with (2 / mmu * nu_emax me mmu).
        * apply Rmult_le_compat_l; [lra|]. pose proof (Rmin_r hi (nu_emax me mmu)). lra.
        * rewrite MX. nra.
      + cbv beta. ring.
    - intros x Hx Hx2. rewrite Hp by lra. ring.
    - intros x Hx Hx2. unfold f. rewrite nu_rest by lra. destruct (Rle_dec (nu_emax me mmu) x); [exact Hp0|lra]. }
  assert (LN : ln (1 - (1 - (me / mmu) ^ 2)) = 2 * ln (me / mmu)).
  { replace (1 - (1 - (me / mmu) ^ 2)) with (me / mmu * (me / mmu)) by ring. rewrite ln_mult by lra. ring. }
  split.
  - apply (A (nueK me mmu) (nue me mmu) (electron RMath)); [intros x Hx; now apply nueK_der|reflexivity| |].
    + intros y Hy. unfold f. rewrite nu_rest by lra. destruct (Rle_dec (nu_emax me mmu) y); [lra|reflexivity].
    + unfold nueK, muon_I. rewrite LN. replace (1 - 0) with 1 by ring. rewrite ln_1. set (r := me / mmu). set (l := ln r). clearbody l r. field.
  - apply (A (numK me mmu) (num me mmu) (muon RMath)); [intros x Hx; now apply numK_der|reflexivity| |].
    + intros y Hy. unfold f. rewrite nu_rest by lra. destruct (Rle_dec (nu_emax me mmu) y); [lra|reflexivity].
    + unfold numK, muon_I. rewrite LN. replace (1 - 0) with 1 by ring. rewrite ln_1. set (r := me / mmu) in *. set (l := ln r). replace (1 - (1 - r ^ 2)) with (r ^ 2) by ring. clearbody l r. field. lra.
Qed.
Print Assumptions neutrino_muon_count.
Theorem neutrino_muon_count_pdg :
  let f e := dnde_neutrino_muon RMath (pdg_MASS_E RMath) (pdg_MASS_MU RMath) (pdg_R_FACTOR RMath) e (pdg_MASS_MU RMath) in
  exists v, area (fun e => electron _ (f e)) 0 (pdg_MASS_MU RMath) v /\ area (fun e => muon _ (f e)) 0 (pdg_MASS_MU RMath) v
            /\ Rabs (v - 1) < 4 / 10 ^ 8.
Proof.
  intro f. exists (pdg_R_FACTOR RMath * muon_I (pdg_MASS_E RMath / pdg_MASS_MU RMath)).
  assert (Hm : 0 < pdg_MASS_E RMath < pdg_MASS_MU RMath) by (rewrite literal_me, literal_mmu; lra).
  destruct (neutrino_muon_count (pdg_MASS_E RMath) (pdg_MASS_MU RMath) (pdg_R_FACTOR RMath) (pdg_MASS_MU RMath) Hm) as [A1 A2].
  { pose proof (pow2_ge_0 (pdg_MASS_E RMath / pdg_MASS_MU RMath)). set (q := (_ / _) ^ 2) in *. clearbody q.
    rewrite literal_mmu. nra. }
  split; [exact A1|]. split; [exact A2|]. pose proof muon_I_pdg as I. set (i := muon_I _) in *. clearbody i.
  rewrite literal_R. apply Rabs_def1; lra.
Qed.
Print Assumptions neutrino_muon_count_pdg.

(** Masses 3 and 5, muon energy 25/3 (velocity 4/5), neutrino energy 1: rest-frame energies from 1/3 to the end
    point 8/5 contribute to both rows. *)
Example ex_neutrino : 0 < 3 < 5 /\ 5 + / 2 ^ 52 <= 25 / 3
  /\ 25 / 3 / 5 * (1 - sqrt (1 - (5 / (25 / 3)) ^ 2)) * 1 = 1 / 3 /\ 5 * (1 - (3 / 5) ^ 2) / 2 = 8 / 5
  /\ 8 / 5 < 25 / 3 / 5 * (1 + sqrt (1 - (5 / (25 / 3)) ^ 2)) * 1.
Proof.
  assert (V : sqrt (1 - (5 / (25 / 3)) ^ 2) = 4 / 5)
    by (replace (1 - (5 / (25 / 3)) ^ 2) with ((4 / 5) ^ 2) by field; apply sqrt_pow2; lra).
  rewrite V. repeat split; lra.
Qed.
Example ex_neutrino_rest : electron _ (dnde_neutrino_muon RMath 3 5 1 1 5) = 2 / 5 * (12 * (4 / 25) * (6 / 25) ^ 2 / (3 / 5)).
Proof.
  rewrite (neutrino_muon_rest_spectra 3 5 1 1) by lra. destruct (Rlt_dec 0 1); [|lra].
  destruct (Rlt_dec 1 _) as [|C]; [|exfalso; apply C; lra]. cbn [electron]. req. field.
Qed.

(** ** C29.  The neutral pion *)

(** A rounding to single precision: relative error at most 2^-24 for values in the normal range. *)
Definition single (f32 : R -> R) : Prop := forall x, / 2 ^ 126 <= x -> Rabs (f32 x - x) <= / 2 ^ 24 * x.

(** C29.  Two photons and all the energy for each two-photon decay, up to the rounding of the height. *)
Theorem neutral_pion_photons (mass BR epi a b : R) (f32 : R -> R) : single f32 ->
  0 < mass < epi -> let beta := sqrt (1 - (mass / epi) ^ 2) in
  / 2 ^ 126 <= beta -> / 2 ^ 126 <= 2 * BR / (epi * f32 beta) ->
  a <= epi / 2 * (1 - f32 beta) -> epi / 2 * (1 + f32 beta) <= b ->
  exists v w,
    area (fun e => dnde_photon_neutral_pion RMath mass BR f32 e epi) a b v /\ Rabs (v - 2 * BR) <= / 2 ^ 24 * (2 * BR)
    /\ area (fun e => e * dnde_photon_neutral_pion RMath mass BR f32 e epi) a b w /\ Rabs (w - epi * BR) <= / 2 ^ 24 * (epi * BR).
Proof.
  intros Hs Hm beta Hb Hh Ha Hbb.
  assert (Hp : 0 < / 2 ^ 126) by (apply Rinv_0_lt_compat; lra).
  assert (Hfb : 0 < f32 beta).
  { specialize (Hs beta Hb). revert Hs. unfold Rabs. destruct (Rcase_abs (f32 beta - beta)); lra. }
  set (fb := f32 beta) in *. set (h := f32 (2 * BR / (epi * fb))).
  pose proof (Hs _ Hh) as HH. fold h in HH.
  assert (Hv : forall e, dnde_photon_neutral_pion RMath mass BR f32 e epi =
     if Rle_dec (epi / 2 * (1 - fb)) e then if Rle_dec e (epi / 2 * (1 + fb)) then h else 0 else 0).
  { intro e. unfold dnde_photon_neutral_pion. rmodel. rewrite Q2R_half. destruct (Rlt_dec epi mass); [lra|]. cbn zeta.
    replace (sqrt (1 - mass / epi * (mass / epi))) with beta by (unfold beta; f_equal; ring). fold fb.
    replace (epi * (1 - fb) * / 2) with (epi / 2 * (1 - fb)) by field.
    replace (epi * (1 + fb) * / 2) with (epi / 2 * (1 + fb)) by field.
    destruct (Rle_dec (epi / 2 * (1 - fb)) e); [|reflexivity]. destruct (Rle_dec e (epi / 2 * (1 + fb))); [|reflexivity].
    cbn [andb]. unfold h. f_equal. req. unfold Rdiv. ring. }
  assert (Hk : h * (epi * fb) = 2 * BR + (h - 2 * BR / (epi * fb)) * (epi * fb)) by (field; lra).
  assert (HK : Rabs ((h - 2 * BR / (epi * fb)) * (epi * fb)) <= / 2 ^ 24 * (2 * BR)).
  { assert (0 < epi * fb) by (apply Rmult_lt_0_compat; lra).
    rewrite Rabs_mult, (Rabs_right (epi * fb)) by lra.
    replace (/ 2 ^ 24 * (2 * BR)) with (/ 2 ^ 24 * (2 * BR / (epi * fb)) * (epi * fb)) by (field; lra).
    apply Rmult_le_compat_r; lra. }
  assert (W : epi / 2 * (1 - fb) <= epi / 2 * (1 + fb)) by nra.
  exists (h * (epi * fb)), (epi / 2 * (h * (epi * fb))). split; [|split; [|split]].
  - apply (area_val _ _ _ (h * (epi / 2 * (1 + fb) - epi / 2 * (1 - fb)))); [field|].
    apply area_box; try lra.
    + intros x Hx. rewrite Hv. destruct (Rle_dec _ x); [|lra]. destruct (Rle_dec x _); [reflexivity|lra].
    + intros x Hx. rewrite Hv. destruct (Rle_dec _ x); [|reflexivity]. destruct (Rle_dec x _); [lra|reflexivity].
  - rewrite Hk. replace (2 * BR + _ - 2 * BR) with ((h - 2 * BR / (epi * fb)) * (epi * fb)) by ring. exact HK.
  - apply (area_val _ _ _ (0 + (h / 2 * (epi / 2 * (1 + fb)) ^ 2 - h / 2 * (epi / 2 * (1 - fb)) ^ 2) + 0)); [field|].
    apply area_join with (epi / 2 * (1 + fb)); [lra| |]; [apply area_join with (epi / 2 * (1 - fb)); [lra| |]|].
    + apply area_zero. intros x Hx. rewrite Hv. destruct (Rle_dec _ x); [lra|ring].
    + apply (area_anti (fun x => h * x) (fun x => h / 2 * x ^ 2)).
      * intros x _. eapply dl_val; [dl|]. cbn [INR pred pow]. field.
      * intros x Hx. rewrite Hv. destruct (Rle_dec _ x); [|lra]. destruct (Rle_dec x _); [ring|lra].
    + apply area_zero. intros x Hx. rewrite Hv. destruct (Rle_dec _ x); [|ring]. destruct (Rle_dec x _); [lra|ring].
  - rewrite Hk. replace (epi / 2 * (2 * BR + (h - 2 * BR / (epi * fb)) * (epi * fb)) - epi * BR)
      with (epi / 2 * ((h - 2 * BR / (epi * fb)) * (epi * fb))) by (field; lra).
    rewrite Rabs_mult, (Rabs_right (epi / 2)) by lra.
    replace (/ 2 ^ 24 * (epi * BR)) with (epi / 2 * (/ 2 ^ 24 * (2 * BR))) by field. apply Rmult_le_compat_l; lra.
Qed.
Print Assumptions neutral_pion_photons.

(** C29.  Without rounding: the box on (E/2)(1 -+ beta) of height 2 BR/(E beta), zero outside and below threshold. *)
Theorem neutral_pion_box (mass BR epi e : R) : 0 < mass < epi ->
  let beta := sqrt (1 - (mass / epi) ^ 2) in
  (epi / 2 * (1 - beta) < e < epi / 2 * (1 + beta) -> 
     dnde_photon_neutral_pion RMath mass BR (fun x => x) e epi * (epi / 2 * (1 + beta) - epi / 2 * (1 - beta)) = 2 * BR)
  /\ (e < epi / 2 * (1 - beta) \/ epi / 2 * (1 + beta) < e ->
     dnde_photon_neutral_pion RMath mass BR (fun x => x) e epi = 0).
Proof.
  intros Hm beta. destruct (velo_facts epi mass Hm) as (B & _ & _). change (velo epi mass) with beta in B.
  unfold dnde_photon_neutral_pion. rmodel. rewrite Q2R_half. destruct (Rlt_dec epi mass); [lra|]. cbn zeta.
  replace (sqrt (1 - mass / epi * (mass / epi))) with beta by (unfold beta; f_equal; ring).
  replace (epi * (1 - beta) * / 2) with (epi / 2 * (1 - beta)) by field.
  replace (epi * (1 + beta) * / 2) with (epi / 2 * (1 + beta)) by field.
  split; intro H; destruct (Rle_dec (epi / 2 * (1 - beta)) e), (Rle_dec e (epi / 2 * (1 + beta))); cbn [andb]; try lra; try reflexivity.
  req. field. lra.
Qed.
Print Assumptions neutral_pion_box.
Theorem neutral_pion_below (mass BR epi e : R) (f32 : R -> R) : epi < mass ->
  dnde_photon_neutral_pion RMath mass BR f32 e epi = 0.
Proof. intro H. unfold dnde_photon_neutral_pion. rmodel. destruct (Rlt_dec epi mass); [reflexivity|lra]. Qed.
Print Assumptions neutral_pion_below.

(** Mass 3, energy 5 (velocity 4/5), no rounding: the box is (1/2, 9/2). *)
Example ex_pion : single (fun x => x) /\ sqrt (1 - (3 / 5) ^ 2) = 4 / 5
  /\ dnde_photon_neutral_pion RMath 3 1 (fun x => x) 2 5 = 1 / 2 /\ dnde_photon_neutral_pion RMath 3 1 (fun x => x) (1 / 4) 5 = 0.
Proof.
  assert (V : sqrt (1 - (3 / 5) ^ 2) = 4 / 5)
    by (replace (1 - (3 / 5) ^ 2) with ((4 / 5) ^ 2) by field; apply sqrt_pow2; lra).
  destruct (neutral_pion_box 3 1 5 2 ltac:(lra)) as [P _]. destruct (neutral_pion_box 3 1 5 (1 / 4) ltac:(lra)) as [_ Q].
  cbv zeta in P, Q. rewrite V in P, Q. split; [|split; [exact V|split; [lra|apply Q; lra]]].
  intros x Hx. replace (x - x) with 0 by ring. rewrite Rabs_R0.
  assert (0 < / 2 ^ 126) by (apply Rinv_0_lt_compat; lra). apply Rmult_le_pos; lra.
Qed.

(** ** C30.  Lines of the tabulated mesons *)

(** A decay of a parent at rest into [photons] photons of one energy: M -> gamma + (something of mass m), where the
    something is the second photon when m = 0. *)
Record line_decay := { parent : R; recoil : R; photons : R; ratio : R }.
(** The line sits where the energies of the photon and of the recoil add up to the mass of the parent, and carries
    the photons of the decay. *)
Definition line_ok (d : line_decay) (l : R * R) : Prop :=
  0 < fst l /\ fst l + sqrt (fst l * fst l + recoil d * recoil d) = parent d /\ snd l = photons d * ratio d.

Lemma two_body_energy M m : 0 <= m < M ->
  let e := (M * M - m * m) / (2 * M) in 0 < e /\ e + sqrt (e * e + m * m) = M.
Proof.
  intros H e. split.
  - apply Rdiv_lt_0_compat; nra.
  - replace (e * e + m * m) with (((M * M + m * m) / (2 * M)) ^ 2) by (unfold e; field; lra).
    rewrite sqrt_pow2.
    + unfold e. field. lra.
    + left. apply Rdiv_lt_0_compat; nra.
Qed.
Lemma half_energy M : 0 < M -> 0 < M / 2 /\ M / 2 + sqrt (M / 2 * (M / 2) + 0 * 0) = M.
Proof.
  intro H. replace (M / 2) with ((M * M - 0 * 0) / (2 * M)) by (field; lra). apply two_body_energy. lra.
Qed.
Lemma literal_masses :
  pdg_MASS_PI0 RMath = 1349768 / 10 ^ 4 /\ pdg_MASS_ETA RMath = 547862 / 10 ^ 3 /\ pdg_MASS_ETAP RMath = 95778 / 10 ^ 2
  /\ pdg_MASS_K0 RMath = 497611 / 10 ^ 3 /\ pdg_MASS_OMEGA RMath = 78266 / 10 ^ 2 /\ pdg_MASS_PHI RMath = 1019461 / 10 ^ 3.
Proof.
  unfold pdg_MASS_PI0, pdg_MASS_ETA, pdg_MASS_ETAP, pdg_MASS_K0, pdg_MASS_OMEGA, pdg_MASS_PHI. rmodel. unfold Q2R.
  cbn -[IZR Rinv Rmult pow]. repeat split; lra.
Qed.

(** C30.  Long and short kaons, eta and omega. *)
Theorem meson_lines :
  let K0 := pdg_MASS_K0 RMath in let eta := pdg_MASS_ETA RMath in let omega := pdg_MASS_OMEGA RMath in let pi0 := pdg_MASS_PI0 RMath in
  Forall2 line_ok [{| parent := K0; recoil := 0; photons := 2; ratio := pdg_BR_KL_TO_A_A RMath |}] (long_kaon_lines RMath)
  /\ Forall2 line_ok [{| parent := K0; recoil := 0; photons := 2; ratio := pdg_BR_KS_TO_A_A RMath |}] (short_kaon_lines RMath)
  /\ Forall2 line_ok [{| parent := eta; recoil := 0; photons := 2; ratio := pdg_BR_ETA_TO_A_A RMath |}] (eta_lines RMath)
  /\ Forall2 line_ok [{| parent := omega; recoil := pi0; photons := 1; ratio := pdg_BR_OMEGA_TO_PI0_A RMath |};
                      {| parent := omega; recoil := eta; photons := 1; ratio := pdg_BR_OMEGA_TO_ETA_A RMath |}] (omega_lines RMath).
Proof.
  intros K0 eta omega pi0. destruct literal_masses as (L1 & L2 & L3 & L4 & L5 & L6).
  assert (H2 : forall M w, 0 < M -> line_ok {| parent := M; recoil := 0; photons := 2; ratio := w |} (M / 2, 2 * w)).
  { intros M w HM. destruct (half_energy M HM). split; [|split]; cbn [fst snd parent recoil photons ratio]; auto. }
  assert (H1 : forall M m w, 0 <= m < M -> line_ok {| parent := M; recoil := m; photons := 1; ratio := w |} (two_body_minus RMath M m, w)).
  { intros M m w HM. destruct (two_body_energy M m HM). unfold two_body_minus. rmodel.
    split; [|split]; cbn [fst snd parent recoil photons ratio]; auto. ring. }
  unfold long_kaon_lines, short_kaon_lines, eta_lines, omega_lines. rmodel.
  split; [|split; [|split]]; repeat match goal with |- Forall2 _ _ _ => constructor end.
  1-3: apply H2; unfold K0, eta; rewrite ?L2, ?L4; lra.
  - apply H1. unfold omega, pi0. rewrite L1, L5. lra.
  - apply H1. unfold omega, eta. rewrite L2, L5. lra.
Qed.
Print Assumptions meson_lines.

(** C30 is false of the eta prime: its line carries one photon for each decay into two. *)
Theorem eta_prime_line_refuted :
  let d := {| parent := pdg_MASS_ETAP RMath; recoil := 0; photons := 2; ratio := pdg_BR_ETAP_TO_A_A RMath |} in
  exists l, eta_prime_lines RMath = [l] /\ ~ line_ok d l /\ snd l = photons d * ratio d / 2.
Proof.
  intro d. eexists. split; [reflexivity|]. assert (H : pdg_BR_ETAP_TO_A_A RMath = 2307 / 10 ^ 5).
  { unfold pdg_BR_ETAP_TO_A_A. rmodel. unfold Q2R. cbn -[IZR Rinv Rmult pow]. lra. }
  split.
  - intros (_ & _ & E). cbn [d snd photons ratio] in E. rewrite H in E. lra.
  - cbn [d snd photons ratio]. lra.
Qed.
Print Assumptions eta_prime_line_refuted.
(** C30 is false of the phi: both lines sit at the energy of the recoiling meson, so the energies in the decay
    add up to more than the mass. *)
Theorem phi_lines_refuted :
  let phi := pdg_MASS_PHI RMath in
  let ds := [{| parent := phi; recoil := pdg_MASS_ETA RMath; photons := 1; ratio := pdg_BR_PHI_TO_ETA_A RMath |};
             {| parent := phi; recoil := pdg_MASS_ETAP RMath; photons := 1; ratio := pdg_BR_PHI_TO_ETAP_A RMath |}] in
  Forall2 (fun d l => ~ line_ok d l /\ parent d < fst l + sqrt (fst l * fst l + recoil d * recoil d)
                      /\ snd l = photons d * ratio d) ds (phi_lines RMath).
Proof.
  intros phi ds. destruct literal_masses as (L1 & L2 & L3 & L4 & L5 & L6).
  assert (G : forall m w, 0 < m < phi -> let d := {| parent := phi; recoil := m; photons := 1; ratio := w |} in
    let l := (two_body_plus RMath phi m, w) in
    ~ line_ok d l /\ parent d < fst l + sqrt (fst l * fst l + recoil d * recoil d) /\ snd l = photons d * ratio d).
  { intros m w Hm d l. destruct (two_body_energy phi m ltac:(lra)) as [P E]. set (e := _ / _) in P, E.
    assert (T : parent d < fst l + sqrt (fst l * fst l + recoil d * recoil d)).
    { unfold l, d, two_body_plus. cbn [fst parent recoil]. rmodel.
      assert (X : e < (phi * phi + m * m) / (2 * phi)).
      { unfold e. apply Rmult_lt_compat_r; [apply Rinv_0_lt_compat; lra|]. nra. }
      set (f := (phi * phi + m * m) / (2 * phi)) in *. rewrite <- E at 1.
      apply Rplus_lt_compat; [exact X|]. apply sqrt_lt_1; nra. }
    split; [|split; [exact T|]].
    - intros (_ & E' & _). exact (Rlt_not_eq _ _ T (eq_sym E')).
    - cbn [l d snd photons ratio]. ring. }
  unfold phi_lines, ds. repeat match goal with |- Forall2 _ _ _ => constructor end; apply G; unfold phi; rewrite ?L2, ?L3, ?L6; lra.
Qed.
Print Assumptions phi_lines_refuted.

(** C30.  In flight the lines add exactly their weights to the number of photons, and gamma times their energy to
    the energy: the difference to the spectrum without lines has those areas. *)
Definition without_lines (s : Spectrum RMath) : Spectrum RMath :=
  {| energies := energies RMath s; values := values RMath s; smass := smass RMath s; lines := [] |}.
Definition got (r : rr unit R) : R := match r with Ok v => v | _ => 0 end.
Definition total (l : list R) : R := fold_right Rplus 0 l.
Theorem meson_lines_in_flight (s : Spectrum RMath) (beta a b : R) : 0 < beta < 1 ->
  length (energies RMath s) = length (values RMath s) -> energies RMath s <> [] ->
  Forall (fun l : R * R => 0 < fst l /\ a <= window_lo (fst l) 0 beta /\ window_hi (fst l) 0 beta <= b) (lines RMath s) ->
  let extra e := got (dnde RMath e (InFlight (M := RMath) beta) s) - got (dnde RMath e (InFlight (M := RMath) beta) (without_lines s)) in
  area extra a b (total (map snd (lines RMath s)))
  /\ area (fun e => e * extra e) a b (/ sqrt (1 - beta * beta) * total (map (fun l : R * R => snd l * fst l) (lines RMath s))).
Proof.
  intros Hb Hlen Hne HF extra.
  assert (X : forall e, extra e = total (map (fun l : R * R => snd l * boost_delta_function RMath (fst l) e 0 beta) (lines RMath s))).
  { intro e. unfold extra, dnde, without_lines. cbn [energies values lines].
    destruct (table_boost_never_panics e beta (energies RMath s) (values RMath s) Hb Hlen Hne) as (v & E).
    rewrite E. cbn [got fold_left]. rmodel.
    assert (G : forall ls r, fold_left (fun result (l : R * R) => boost_delta_function RMath (fst l) e 0 beta * snd l + result) ls r
                 = r + total (map (fun l : R * R => snd l * boost_delta_function RMath (fst l) e 0 beta) ls)).
    { induction ls as [|l ls IH]; intro r; cbn [fold_left map total fold_right]; [ring|].
      rewrite IH. cbn [total]. fold total. unfold total. ring. }
    change (F RMath * F RMath)%type with (R * R)%type. rewrite G. ring. }
  split.
  - apply (area_ext (fun e => total (map (fun l : R * R => snd l * boost_delta_function RMath (fst l) e 0 beta) (lines RMath s))) _ _ _ _ []).
    { intros x _ _. now rewrite X. }
    clear X extra. induction HF as [|l ls (H1 & H2 & H3) HF IH]; cbn [map total fold_right].
    + apply area_zero. reflexivity.
    + apply area_plus; [|exact IH]. apply (area_val _ _ _ (snd l * 1)); [apply Rmult_1_r|]. apply area_scale. apply delta_area; lra.
  - apply (area_ext (fun e => e * total (map (fun l : R * R => snd l * boost_delta_function RMath (fst l) e 0 beta) (lines RMath s))) _ _ _ _ []).
    { intros x _ _. now rewrite X. }
    clear X extra. induction HF as [|l ls (H1 & H2 & H3) HF IH]; cbn [map total fold_right].
    + apply (area_val _ _ _ 0); [ring|]. apply area_zero. intros. ring.
    + apply (area_ext (fun e => snd l * (e * boost_delta_function RMath (fst l) e 0 beta)
               + e * total (map (fun l : R * R => snd l * boost_delta_function RMath (fst l) e 0 beta) ls)) _ _ _ _ []).
      { intros x _ _. unfold total. ring. }
      apply (area_val _ _ _ (snd l * (lorentz beta * fst l) + / sqrt (1 - beta * beta) * total (map (fun l : R * R => snd l * fst l) ls))).
      { unfold lorentz, total. ring. }
      apply area_plus; [|exact IH]. apply area_scale. apply delta_energy; lra.
Qed.
Print Assumptions meson_lines_in_flight.
(** A table of two points with one line at 4, velocity 3/5: the window of the line is (2, 8). *)
Example ex_lines : let s : Spectrum RMath := Build_Spectrum RMath [1; 2] [1; 1] 8 [(4, 3 / 10)] in
  area (fun e => got (dnde RMath e (InFlight (M := RMath) (3 / 5)) s) - got (dnde RMath e (InFlight (M := RMath) (3 / 5)) (without_lines s)))
    0 10 (3 / 10).
Proof.
  intro s. destruct ex_line as (_ & W1 & W2).
  destruct (meson_lines_in_flight s (3 / 5) 0 10 ltac:(lra) eq_refl ltac:(discriminate)) as [A _].
  - repeat constructor; cbn [s lines fst]; rewrite ?W1, ?W2; lra.
  - cbv zeta in A. refine (area_val _ _ _ _ _ _ A). cbn [s lines map snd total fold_right]. apply Rplus_0_r.
Qed.
