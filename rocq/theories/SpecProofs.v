(** Proofs about SpecModel: derivatives, antiderivatives and the real-number form of the spectra. *)
From Coq Require Import List Bool ZArith QArith Reals Ranalysis5 Lra Lia Qreals.
From Verif Require Import RustBase RustBaseFacts RustMath Area BoostModel BoostProofs SpecModel.
Import ListNotations.
Local Open Scope R_scope.

(** ** Derivatives in lambda form *)
Lemma dl_val f x a b : derivable_pt_lim f x a -> a = b -> derivable_pt_lim f x b.
Proof. now intros H ->. Qed.
Lemma dl_const c x : derivable_pt_lim (fun _ => c) x 0.
Proof. apply derivable_pt_lim_const. Qed.
Lemma dl_id x : derivable_pt_lim (fun y => y) x 1.
Proof. apply derivable_pt_lim_id. Qed.
Lemma dl_plus f g x a b : derivable_pt_lim f x a -> derivable_pt_lim g x b -> derivable_pt_lim (fun y => f y + g y) x (a + b).
Proof. apply derivable_pt_lim_plus. Qed.
Lemma dl_minus f g x a b : derivable_pt_lim f x a -> derivable_pt_lim g x b -> derivable_pt_lim (fun y => f y - g y) x (a - b).
Proof. apply derivable_pt_lim_minus. Qed.
Lemma dl_opp f x a : derivable_pt_lim f x a -> derivable_pt_lim (fun y => - f y) x (- a).
Proof. apply derivable_pt_lim_opp. Qed.
Lemma dl_mult f g x a b : derivable_pt_lim f x a -> derivable_pt_lim g x b ->
  derivable_pt_lim (fun y => f y * g y) x (a * g x + f x * b).
Proof. apply derivable_pt_lim_mult. Qed.
Lemma dl_div f g x a b : derivable_pt_lim f x a -> derivable_pt_lim g x b -> g x <> 0 ->
  derivable_pt_lim (fun y => f y / g y) x ((a * g x - b * f x) / Rsqr (g x)).
Proof. apply derivable_pt_lim_div. Qed.
Lemma dl_comp f g x a b : derivable_pt_lim f x a -> derivable_pt_lim g (f x) b ->
  derivable_pt_lim (fun y => g (f y)) x (b * a).
Proof. intros H1 H2. apply (derivable_pt_lim_comp f g); assumption. Qed.
Lemma dl_ln f x a : derivable_pt_lim f x a -> 0 < f x -> derivable_pt_lim (fun y => ln (f y)) x (/ f x * a).
Proof. intros H P. apply (dl_comp f ln); [exact H|now apply derivable_pt_lim_ln]. Qed.
Lemma dl_sqrt f x a : derivable_pt_lim f x a -> 0 < f x -> derivable_pt_lim (fun y => sqrt (f y)) x (/ (2 * sqrt (f x)) * a).
Proof. intros H P. apply (dl_comp f sqrt); [exact H|now apply derivable_pt_lim_sqrt]. Qed.
Lemma dl_pow f x a n : derivable_pt_lim f x a -> derivable_pt_lim (fun y => f y ^ n) x (INR n * f x ^ pred n * a).
Proof. intro H. apply (dl_comp f (fun z => z ^ n)); [exact H|apply derivable_pt_lim_pow]. Qed.
Ltac dl := first
  [ apply dl_const | apply dl_id
  | eapply dl_plus; dl | eapply dl_minus; dl | eapply dl_opp; dl
  | eapply dl_pow; dl | eapply dl_ln; [dl|] | eapply dl_sqrt; [dl|]
  | eapply dl_mult; dl | eapply dl_div; [dl|dl|] ].

(** ** Areas of functions with a cut-off *)
Lemma area_zero f a b : (forall x, a < x < b -> f x = 0) -> area f a b 0.
Proof.
  intro H. apply (area_ext (fun _ => 0) _ _ _ _ []); [intros x Hx _; symmetry; auto|].
  apply (area_val _ _ _ (0 * (b - a))); [ring|apply area_const].
Qed.
Lemma area_anti P G f a b : (forall x, a <= x <= b -> derivable_pt_lim G x (P x)) ->
  (forall x, a < x < b -> f x = P x) -> area f a b (G b - G a).
Proof.
  intros D E. apply (area_ext P _ _ _ _ []); [intros x Hx _; symmetry; auto|].
  now apply area_of_antiderivative.
Qed.
(** The same when the derivative exists inside only. *)
Lemma area_anti_open P G f a b : (forall x, a <= x <= b -> continuity_pt G x) ->
  (forall x, a < x < b -> derivable_pt_lim G x (P x)) ->
  (forall x, a < x < b -> f x = P x) -> area f a b (G b - G a).
Proof.
  intros C D E. exists G. split; [exact C|]. split; [|reflexivity]. exists []. intros x Hx _. rewrite E by exact Hx.
  apply D, Hx.
Qed.
Lemma area_clip P G f a b hi : a <= b -> a <= hi ->
  (forall x, a <= x <= Rmin b hi -> derivable_pt_lim G x (P x)) ->
  (forall x, a < x < b -> x < hi -> f x = P x) -> (forall x, a < x < b -> hi < x -> f x = 0) ->
  area f a b (G (Rmin b hi) - G a).
Proof.
  intros H1 H2 D E1 E2. destruct (Rle_lt_dec b hi) as [L|L].
  - rewrite Rmin_left in * by exact L. apply (area_anti P); [exact D|]. intros x Hx. apply E1; lra.
  - rewrite Rmin_right in * by lra. apply (area_val _ _ _ (G hi - G a + 0)); [ring|].
    apply area_join with hi; [lra| |].
    + apply (area_anti P); [exact D|]. intros x Hx. apply E1; lra.
    + apply area_zero. intros x Hx. apply E2; lra.
Qed.

(** ** Literals *)
Lemma Q2R_int z : Q2R (z # 1) = IZR z.
Proof. unfold Q2R. cbn [Qnum Qden]. rewrite Rinv_1. ring. Qed.
Ltac rmodel := cbn [F lit fadd fsub fmul fdiv fneg fma fmax fmin fsqrt fln flt fle mnum RMath RNum] in *;
  rewrite ?Q2R_int in *.

(** ** Velocity and Lorentz factor *)
Definition velo (e m : R) : R := sqrt (1 - (m / e) ^ 2).
Lemma beta_velo e m : boost_beta RMath e m = velo e m.
Proof. unfold boost_beta, velo. rmodel. f_equal. ring. Qed.
Lemma ratio_unit m e : 0 < m < e -> 0 < m / e < 1.
Proof.
  intro H. split; [apply Rdiv_lt_0_compat; lra|]. apply (Rmult_lt_reg_r e); [lra|]. unfold Rdiv.
  rewrite Rmult_assoc, Rinv_l, Rmult_1_r, Rmult_1_l; lra.
Qed.
Lemma velo_facts e m : 0 < m < e ->
  0 < velo e m < 1 /\ velo e m * velo e m = 1 - (m / e) ^ 2 /\ lorentz (velo e m) = e / m.
Proof.
  intro H. pose proof (ratio_unit _ _ H) as Hr. split; [rewrite <- beta_velo; now apply beta_real|].
  assert (E : velo e m * velo e m = 1 - (m / e) ^ 2) by (unfold velo; apply sqrt_def; nra).
  split; [exact E|]. unfold lorentz. rewrite E. replace (1 - (1 - (m / e) ^ 2)) with ((m / e) ^ 2) by ring.
  rewrite sqrt_pow2 by lra. field. lra.
Qed.
(** A moving particle as the code sees it is fast enough for the code's second test. *)
Lemma velo_resolved e m : 0 < m <= 2 ^ 51 -> m + / 2 ^ 52 <= e -> / 2 ^ 52 <= velo e m.
Proof.
  intros Hm He. assert (Heps : 0 < / 2 ^ 52) by (apply Rinv_0_lt_compat; lra).
  destruct (velo_facts e m ltac:(lra)) as (B & E & _).
  assert (K : / 2 ^ 52 * / 2 ^ 52 <= velo e m * velo e m).
  { rewrite E. assert (Hr : m / e <= 1 - / 2 ^ 52 * / 2 ^ 52).
    { apply (Rmult_le_reg_r e); [lra|]. unfold Rdiv. rewrite Rmult_assoc, Rinv_l, Rmult_1_r by lra.
      assert (H1 : / 2 ^ 52 * (/ 2 ^ 52 * e) <= e - m); [|nra].
      assert (H2 : / 2 ^ 52 * 2 ^ 52 = 1) by (apply Rinv_l; lra).
      set (k := / 2 ^ 52) in *. assert (Hk : k <= 1 / 4) by (unfold k; lra).
      assert (Hmk : m * k <= 1 / 2) by (unfold k; lra). clearbody k. nra. }
    pose proof (ratio_unit m e ltac:(lra)) as Hu. set (q := m / e) in *. clearbody q.
    assert (Hk2 : 0 < / 2 ^ 52 * / 2 ^ 52) by (apply Rmult_lt_0_compat; exact Heps).
    set (k2 := / 2 ^ 52 * / 2 ^ 52) in *. clearbody k2. nra. }
  destruct (Rle_lt_dec (/ 2 ^ 52) (velo e m)) as [|L]; [assumption|exfalso].
  set (k := / 2 ^ 52) in *. clearbody k. nra.
Qed.

(** ** Positrons of the muon *)
Section Positron.
Variables me mmu N : R.
Hypothesis Hm : 0 < me < mmu.
Let r := me / mmu.
Lemma r_unit : 0 < r < 1.
Proof. now apply ratio_unit. Qed.
(** Antiderivative, in the scaled energy, of the rest-frame spectrum over the momentum. *)
Definition posG (x : R) : R := - 8 * (me / mmu) ^ 2 * x + (3 + 3 * (me / mmu) ^ 2) * x ^ 2 - 4 / 3 * x ^ 3.
Definition pos_poly (x : R) : R := 4 * (me / mmu) ^ 2 + x * (- 3 - 3 * (me / mmu) ^ 2 + 2 * x).
Lemma posG_diff k x : derivable_pt_lim (fun y => posG (k * y)) x (k * (- 2 * pos_poly (k * x))).
Proof. unfold posG. eapply dl_val; [dl|]. cbn [INR pred pow]. unfold pos_poly. field. lra. Qed.
Lemma pos_rest_real x : pos_dndx_rest_frame RMath me mmu N x =
  if Rle_dec x (2 * r) then 0 else if Rle_dec (1 + r ^ 2) x then 0 else
  - 2 * sqrt (x ^ 2 - 4 * r ^ 2) * pos_poly x / N.
Proof.
  unfold pos_dndx_rest_frame, TWO_R, ONE_PLUS_R2, FOUR_R2, NEG_THREE_MINUS_THREE_R2, c_R2, c_R.
  rmodel. fold r. replace (r * r) with (r ^ 2) by ring. replace (x * x) with (x ^ 2) by ring.
  destruct (Rle_dec x (2 * r)); [reflexivity|]. destruct (Rle_dec (1 + r ^ 2) x); [reflexivity|]. cbn [orb].
  f_equal. unfold pos_poly. fold r. ring.
Qed.
Lemma pos_flight_real x beta : / 2 ^ 52 <= beta -> beta < 1 -> pos_dndx RMath me mmu N x beta =
  let g2 := 1 / (1 - beta * beta) in
  let root := sqrt (x ^ 2 - 4 * r ^ 2 * (1 - beta * beta)) in
  let xm := Rmax (g2 * (x - beta * root)) (2 * r) in
  let xp := Rmin (g2 * (x + beta * root)) (1 + r ^ 2) in
  if Rlt_dec xp xm then 0 else (posG xp - posG xm) / (2 * beta * N).
Proof.
  intros B1 B2. assert (0 < / 2 ^ 52) by (apply Rinv_0_lt_compat; lra).
  unfold pos_dndx, TWO_R, ONE_PLUS_R2, FOUR_R2, EIGHT_R2, NEG_THREE_MINUS_THREE_R2, THREE_PLUS_THREE_R2, c_R2, c_R.
  rmodel. fold r. change (epmach RNum) with (/ 2 ^ 52).
  destruct (Rlt_dec beta 0); [lra|]. destruct (Rlt_dec 1 beta); [lra|]. cbn [orb].
  destruct (Rlt_dec beta (/ 2 ^ 52)); [lra|]. cbn zeta.
  replace (r * r) with (r ^ 2) by ring. replace (x * x) with (x ^ 2) by ring.
  set (root := sqrt (x ^ 2 - 4 * r ^ 2 * (1 - beta * beta))).
  replace (- beta * root + x) with (x - beta * root) by ring.
  replace (beta * root + x) with (x + beta * root) by ring.
  set (xm := Rmax _ _). set (xp := Rmin _ _).
  destruct (Rlt_dec xp xm); [reflexivity|].
  replace (beta + beta) with (2 * beta) by ring.
  apply (f_equal (fun z => z / (2 * beta * N))). unfold posG. fold r. field.
Qed.

(** The two kinematic limits for the rest-frame energy of an electron seen with energy [e]. *)
Definition rest_lo (e emu : R) : R := emu / mmu * (e - velo emu mmu * momentum e me).
Definition rest_hi (e emu : R) : R := emu / mmu * (e + velo emu mmu * momentum e me).
Lemma rest_window e emu : mmu < emu -> me <= e -> me <= rest_lo e emu <= rest_hi e emu.
Proof.
  intros H1 H2. destruct (velo_facts emu mmu ltac:(lra)) as (B & E & L).
  split.
  - unfold rest_lo. rewrite <- L. apply above_mass; lra.
  - unfold rest_lo, rest_hi. assert (0 < emu / mmu) by (apply Rdiv_lt_0_compat; lra).
    assert (0 <= momentum e me) by apply sqrt_pos. apply Rmult_le_compat_l; [lra|]. nra.
Qed.
Lemma rest_lo_lt e emu : mmu < emu -> me < e -> rest_lo e emu < rest_hi e emu.
Proof.
  intros H1 H2. destruct (velo_facts emu mmu ltac:(lra)) as (B & E & L).
  unfold rest_lo, rest_hi. assert (0 < emu / mmu) by (apply Rdiv_lt_0_compat; lra).
  assert (0 < momentum e me) by (apply sqrt_lt_R0; nra). apply Rmult_lt_compat_l; [lra|]. nra.
Qed.
Definition pos_emax : R := mmu * (1 + (me / mmu) ^ 2) / 2.

Lemma pos_muon_rest e : me < e -> dnde_positron_muon RMath me mmu N e mmu =
  if Rle_dec pos_emax e then 0 else
  (2 / mmu) ^ 2 * momentum e me * (- 2 * pos_poly (2 / mmu * e)) / N.
Proof.
  intro He. assert (0 < / 2 ^ 52) by (apply Rinv_0_lt_compat; lra).
  unfold dnde_positron_muon, TWO_OVER_MASS_MU. rmodel. change (epmach RNum) with (/ 2 ^ 52).
  destruct (Rlt_dec mmu mmu); [lra|]. destruct (Rle_dec e me); [lra|]. cbn [orb].
  destruct (Rlt_dec (mmu - mmu) (/ 2 ^ 52)); [|lra]. cbn zeta. rewrite pos_rest_real.
  assert (Hmu : 0 < 2 / mmu) by (apply Rdiv_lt_0_compat; lra).
  destruct (Rle_dec (2 / mmu * e) (2 * r)) as [C|C].
  { exfalso. apply (Rmult_le_compat_l (mmu / 2)) in C; [|lra].
    replace (mmu / 2 * (2 / mmu * e)) with e in C by (field; lra).
    replace (mmu / 2 * (2 * r)) with me in C by (unfold r; field; lra). lra. }
  assert (K : 1 + r ^ 2 <= 2 / mmu * e <-> pos_emax <= e).
  { unfold pos_emax. fold r. split; intro K.
    - apply (Rmult_le_compat_l (mmu / 2)) in K; [|lra].
      replace (mmu / 2 * (2 / mmu * e)) with e in K by (field; lra). lra.
    - apply (Rmult_le_compat_l (2 / mmu)) in K; [|lra].
      replace (2 / mmu * (mmu * (1 + r ^ 2) / 2)) with (1 + r ^ 2) in K by (field; lra). exact K. }
  destruct (Rle_dec (1 + r ^ 2) (2 / mmu * e)) as [D|D]; destruct (Rle_dec pos_emax e) as [D'|D']; try tauto; [ring|].
  replace ((2 / mmu * e) ^ 2 - 4 * r ^ 2) with ((2 / mmu) ^ 2 * (e * e - me * me)) by (unfold r; field; lra).
  rewrite sqrt_mult_alt by apply pow2_ge_0. rewrite sqrt_pow2 by lra. fold (momentum e me).
  unfold Rdiv. ring.
Qed.

Lemma pos_muon_flight e emu : mmu <= 2 ^ 51 -> mmu + / 2 ^ 52 <= emu -> me < e ->
  dnde_positron_muon RMath me mmu N e emu =
  if Rlt_dec pos_emax (rest_lo e emu) then 0 else
  2 / emu * (posG (2 / mmu * Rmin (rest_hi e emu) pos_emax) - posG (2 / mmu * rest_lo e emu)) / (2 * velo emu mmu * N).
Proof.
  intros Hbig Hemu He. assert (0 < / 2 ^ 52) by (apply Rinv_0_lt_compat; lra).
  destruct (velo_facts emu mmu ltac:(lra)) as (B & E & L).
  pose proof (velo_resolved emu mmu ltac:(lra) Hemu) as BR.
  destruct (rest_window e emu ltac:(lra) ltac:(lra)) as [W1 W2].
  unfold dnde_positron_muon. rmodel. change (epmach RNum) with (/ 2 ^ 52).
  destruct (Rlt_dec emu mmu); [lra|]. destruct (Rle_dec e me); [lra|]. cbn [orb].
  destruct (Rlt_dec (emu - mmu) (/ 2 ^ 52)); [lra|]. cbn zeta. rewrite beta_velo, pos_flight_real by lra. cbn zeta.
  set (b := velo emu mmu) in *.
  replace ((2 / emu * e) ^ 2 - 4 * r ^ 2 * (1 - b * b)) with ((2 / emu) ^ 2 * (e * e - me * me))
    by (rewrite E; unfold r; field; lra).
  assert (Hmu : 0 < 2 / mmu) by (apply Rdiv_lt_0_compat; lra).
  assert (Hem : 0 < 2 / emu) by (apply Rdiv_lt_0_compat; lra).
  rewrite sqrt_mult_alt by apply pow2_ge_0. rewrite sqrt_pow2 by lra. fold (momentum e me).
  replace (1 / (1 - b * b)) with ((emu / mmu) ^ 2)
    by (replace (1 - b * b) with ((mmu / emu) ^ 2) by (rewrite E; ring); field; lra).
  replace ((emu / mmu) ^ 2 * (2 / emu * e - b * (2 / emu * momentum e me))) with (2 / mmu * rest_lo e emu)
    by (unfold rest_lo; fold b; field; lra).
  replace ((emu / mmu) ^ 2 * (2 / emu * e + b * (2 / emu * momentum e me))) with (2 / mmu * rest_hi e emu)
    by (unfold rest_hi; fold b; field; lra).
  replace (2 * r) with (2 / mmu * me) by (unfold r; field; lra).
  replace (1 + r ^ 2) with (2 / mmu * pos_emax) by (unfold pos_emax; fold r; field; lra).
  assert (RM : forall u v, Rmin (2 / mmu * u) (2 / mmu * v) = 2 / mmu * Rmin u v).
  { intros u v. unfold Rmin. destruct (Rle_dec u v), (Rle_dec (2 / mmu * u) (2 / mmu * v)); try reflexivity; nra. }
  rewrite (Rmax_left (2 / mmu * rest_lo e emu)) by nra. rewrite RM.
  pose proof (rest_lo_lt e emu ltac:(lra) He) as W3.
  destruct (Rlt_dec (2 / mmu * Rmin (rest_hi e emu) pos_emax) (2 / mmu * rest_lo e emu)) as [C|C];
    destruct (Rlt_dec pos_emax (rest_lo e emu)) as [D|D].
  - ring.
  - exfalso. apply (Rmult_lt_reg_l _ _ _ Hmu) in C. unfold Rmin in C. destruct (Rle_dec (rest_hi e emu) pos_emax); lra.
  - exfalso. apply C. apply Rmult_lt_compat_l; [exact Hmu|]. eapply Rle_lt_trans; [apply Rmin_r|exact D].
  - unfold Rdiv. ring.
Qed.
(** In the allowed range the polynomial is not positive. *)
Lemma pos_poly_sign x : 2 * r <= x <= 1 + r ^ 2 -> pos_poly x <= 0.
Proof.
  intro Hx. pose proof r_unit as Hr. unfold pos_poly. fold r. set (q := r) in *. clearbody q.
  assert (0 <= (x - 2 * q) * (1 + q ^ 2 - x)) by (apply Rmult_le_pos; lra).
  assert (0 <= (1 - q) ^ 2) by apply pow2_ge_0.
  assert (0 <= x * (1 - q) ^ 2) by (apply Rmult_le_pos; lra).
  nra.
Qed.
End Positron.

(** ** How many positrons *)
(** The phase-space integral of muon decay as a function of the mass ratio. *)
Definition muon_I (r : R) : R := 1 - 8 * r ^ 2 + 8 * r ^ 6 - r ^ 8 - 24 * r ^ 4 * ln r.

Lemma ln_div_pos a b : 0 < a -> 0 < b -> ln (a / b) = ln a - ln b.
Proof. intros. unfold Rdiv. rewrite ln_mult, ln_Rinv; [ring|assumption|assumption|now apply Rinv_0_lt_compat]. Qed.

Section PositronCount.
Variables me mmu N : R.
Hypothesis Hm : 0 < me < mmu.
Let P e := sqrt (e ^ 2 - me ^ 2).
Let A e := (e * P e - me ^ 2 * ln (e + P e)) / 2.
Let B e := P e ^ 3 / 3.
Let C e := e * P e ^ 3 / 4 + me ^ 2 / 8 * (e * P e - me ^ 2 * ln (e + P e)).
Lemma P_sq e : me <= e -> P e * P e = e ^ 2 - me ^ 2.
Proof. intro H. apply sqrt_def. nra. Qed.
Lemma P_pos e : me < e -> 0 < P e.
Proof. intro H. apply sqrt_lt_R0. nra. Qed.
Lemma P_der e : me < e -> derivable_pt_lim P e (e / P e).
Proof.
  intro H. pose proof (P_pos e H). eapply dl_val; [unfold P; dl; nra|].
  cbv beta. change (sqrt (e ^ 2 - me ^ 2)) with (P e). set (q := P e) in *. clearbody q. cbn [INR pred pow]. field. lra.
Qed.
Lemma ln_der e : me < e -> derivable_pt_lim (fun y => ln (y + P y)) e (/ P e).
Proof.
  intro H. pose proof (P_pos e H). eapply dl_val.
  - eapply dl_ln; [eapply dl_plus; [apply dl_id|now apply P_der]|]. lra.
  - cbv beta. field. lra.
Qed.
Lemma A_der e : me < e -> derivable_pt_lim A e (P e).
Proof.
  intro H. pose proof (P_pos e H). pose proof (P_sq e ltac:(lra)) as Q. unfold A. eapply dl_val.
  - eapply dl_div; [eapply dl_minus; eapply dl_mult; [apply dl_id|now apply P_der|apply dl_const|now apply ln_der]|apply dl_const|lra].
  - cbv beta. unfold Rsqr. apply (Rmult_eq_reg_r (P e)); [|lra].
    transitivity ((P e * P e + e ^ 2 - me ^ 2) / 2); [field; lra|]. rewrite Q. lra.
Qed.
Lemma B_der e : me < e -> derivable_pt_lim B e (e * P e).
Proof.
  intro H. pose proof (P_pos e H). unfold B. eapply dl_val.
  - eapply dl_div; [eapply dl_pow; now apply P_der|apply dl_const|lra].
  - cbv beta. unfold Rsqr. cbn [INR pred]. field. lra.
Qed.
Lemma C_der e : me < e -> derivable_pt_lim C e (e ^ 2 * P e).
Proof.
  intro H. pose proof (P_pos e H). pose proof (P_sq e ltac:(lra)) as Q. unfold C. eapply dl_val.
  - eapply dl_plus.
    + eapply dl_div; [eapply dl_mult; [apply dl_id|eapply dl_pow; now apply P_der]|apply dl_const|lra].
    + eapply dl_mult; [apply dl_const|].
      eapply dl_minus; eapply dl_mult; [apply dl_id|now apply P_der|apply dl_const|now apply ln_der].
  - cbv beta. unfold Rsqr. cbn [INR pred]. apply (Rmult_eq_reg_r (P e)); [|lra].
    transitivity ((P e * P e) ^ 2 / 4 + 3 / 4 * e ^ 2 * (P e * P e) + me ^ 2 / 8 * (P e * P e + e ^ 2 - me ^ 2)); [field; lra|].
    replace (e ^ 2 * P e * P e) with (e ^ 2 * (P e * P e)) by ring. rewrite Q. field.
Qed.
Lemma P_cont e : me <= e -> continuity_pt P e.
Proof.
  intro H. apply (continuity_pt_comp (fun y => y ^ 2 - me ^ 2) sqrt).
  - apply derivable_continuous_pt. eexists. dl.
  - apply continuity_pt_sqrt. nra.
Qed.
Lemma id_cont e : continuity_pt (fun y => y) e.
Proof. apply derivable_continuous_pt. eexists. apply dl_id. Qed.
Lemma const_cont c e : continuity_pt (fun _ => c) e.
Proof. apply continuity_pt_const. now intros u v. Qed.
Lemma log_cont e : me <= e -> continuity_pt (fun y => ln (y + P y)) e.
Proof.
  intro H. apply (continuity_pt_comp (fun y => y + P y) ln).
  - apply (continuity_pt_plus (fun y => y) P); [apply id_cont|now apply P_cont].
  - assert (0 <= P e) by apply sqrt_pos. apply derivable_continuous_pt. eexists. apply derivable_pt_lim_ln. lra.
Qed.
Lemma cube_cont e : me <= e -> continuity_pt (fun y => P y ^ 3) e.
Proof.
  intro H. apply (continuity_pt_comp P (fun z => z ^ 3)); [now apply P_cont|].
  apply derivable_continuous_pt. eexists. apply derivable_pt_lim_pow.
Qed.
Let K e := 2 / N * (2 / mmu) ^ 2 *
  (- (4 * (me / mmu) ^ 2) * A e + (3 + 3 * (me / mmu) ^ 2) * (2 / mmu) * B e - 2 * (2 / mmu) ^ 2 * C e).
Lemma K_der e : me < e -> derivable_pt_lim K e ((2 / mmu) ^ 2 * P e * (- 2 * pos_poly me mmu (2 / mmu * e)) / N).
Proof.
  intro H. unfold K. eapply dl_val.
  - eapply dl_mult; [apply dl_const|].
    eapply dl_minus; [eapply dl_plus|]; (eapply dl_mult; [apply dl_const|]); [now apply A_der|now apply B_der|now apply C_der].
  - cbv beta. unfold pos_poly. unfold Rdiv. ring.
Qed.
Lemma K_cont e : me <= e -> continuity_pt K e.
Proof.
  intro H. unfold K.
  assert (CA : continuity_pt A e).
  { unfold A. apply (continuity_pt_mult (fun y => y * P y - me ^ 2 * ln (y + P y)) (fun _ => / 2)); [|apply const_cont].
    apply (continuity_pt_minus (fun y => y * P y) (fun y => me ^ 2 * ln (y + P y))).
    - apply (continuity_pt_mult (fun y => y) P); [apply id_cont|now apply P_cont].
    - apply (continuity_pt_mult (fun y => me ^ 2) (fun y => ln (y + P y))); [apply const_cont|now apply log_cont]. }
  assert (CB : continuity_pt B e).
  { unfold B. apply (continuity_pt_mult (fun y => P y ^ 3) (fun _ => / 3)); [now apply cube_cont|apply const_cont]. }
  assert (CC : continuity_pt C e).
  { unfold C. apply (continuity_pt_plus (fun y => y * P y ^ 3 / 4) (fun y => me ^ 2 / 8 * (y * P y - me ^ 2 * ln (y + P y)))).
    - apply (continuity_pt_mult (fun y => y * P y ^ 3) (fun _ => / 4)); [|apply const_cont].
      apply (continuity_pt_mult (fun y => y) (fun y => P y ^ 3)); [apply id_cont|now apply cube_cont].
    - apply (continuity_pt_mult (fun _ => me ^ 2 / 8) (fun y => y * P y - me ^ 2 * ln (y + P y))); [apply const_cont|].
      apply (continuity_pt_minus (fun y => y * P y) (fun y => me ^ 2 * ln (y + P y))).
      + apply (continuity_pt_mult (fun y => y) P); [apply id_cont|now apply P_cont].
      + apply (continuity_pt_mult (fun y => me ^ 2) (fun y => ln (y + P y))); [apply const_cont|now apply log_cont]. }
  apply (continuity_pt_mult (fun _ => 2 / N * (2 / mmu) ^ 2)); [apply const_cont|].
  apply (continuity_pt_minus (fun y => - (4 * (me / mmu) ^ 2) * A y + (3 + 3 * (me / mmu) ^ 2) * (2 / mmu) * B y)
          (fun y => 2 * (2 / mmu) ^ 2 * C y)).
  - apply (continuity_pt_plus (fun y => - (4 * (me / mmu) ^ 2) * A y) (fun y => (3 + 3 * (me / mmu) ^ 2) * (2 / mmu) * B y)).
    + apply (continuity_pt_mult (fun _ => - (4 * (me / mmu) ^ 2)) A); [apply const_cont|exact CA].
    + apply (continuity_pt_mult (fun _ => (3 + 3 * (me / mmu) ^ 2) * (2 / mmu)) B); [apply const_cont|exact CB].
  - apply (continuity_pt_mult (fun _ => 2 * (2 / mmu) ^ 2) C); [apply const_cont|exact CC].
Qed.
Lemma emax_gt : me < pos_emax me mmu.
Proof.
  unfold pos_emax. pose proof (ratio_unit me mmu Hm) as Hr. replace me with (mmu * (me / mmu)) at 1 by (field; lra).
  set (r := me / mmu) in *. clearbody r. assert (0 < (1 - r) ^ 2) by (apply pow_lt; lra). nra.
Qed.
Lemma P_emax : P (pos_emax me mmu) = mmu * (1 - (me / mmu) ^ 2) / 2.
Proof.
  pose proof (ratio_unit me mmu Hm) as Hr. unfold P, pos_emax.
  replace ((mmu * (1 + (me / mmu) ^ 2) / 2) ^ 2 - me ^ 2) with ((mmu * (1 - (me / mmu) ^ 2) / 2) ^ 2) by (field; lra).
  apply sqrt_pow2. assert (0 <= mmu * (1 - (me / mmu) ^ 2)); [apply Rmult_le_pos; nra|lra].
Qed.
Lemma P_low : P me = 0.
Proof. unfold P. replace (me ^ 2 - me ^ 2) with 0 by ring. apply sqrt_0. Qed.
Lemma pos_count hi : N <> 0 -> pos_emax me mmu <= hi ->
  area (fun e => dnde_positron_muon RMath me mmu N e mmu) me hi (muon_I (me / mmu) / N).
Proof.
  intros HN Hhi. pose proof emax_gt as HE. apply (area_val _ _ _ (muon_I (me / mmu) / N + 0)); [ring|].
  apply area_join with (pos_emax me mmu); [lra| |].
  - apply (area_val _ _ _ (K (pos_emax me mmu) - K me)).
    + unfold K, A, B, C. rewrite P_emax, P_low.
      replace (pos_emax me mmu + mmu * (1 - (me / mmu) ^ 2) / 2) with mmu by (unfold pos_emax; field; lra).
      unfold muon_I. rewrite (ln_div_pos me mmu) by lra. rewrite Rplus_0_r. unfold pos_emax. field. lra.
    + apply (area_anti_open (fun e => (2 / mmu) ^ 2 * P e * (- 2 * pos_poly me mmu (2 / mmu * e)) / N)).
      * intros x Hx. apply K_cont. lra.
      * intros x Hx. apply K_der. lra.
      * intros x Hx. rewrite pos_muon_rest by lra. destruct (Rle_dec (pos_emax me mmu) x); [lra|].
        unfold P, momentum. replace (x * x - me * me) with (x ^ 2 - me ^ 2) by ring. reflexivity.
  - apply area_zero. intros x Hx. rewrite pos_muon_rest by lra. destruct (Rle_dec (pos_emax me mmu) x); [reflexivity|lra].
Qed.
End PositronCount.

(** ** Neutrinos of the muon *)
Section Neutrino.
Variables me mmu N : R.
Hypothesis Hm : 0 < me < mmu.
Let r := me / mmu.
Lemma rr_unit : 0 < r < 1.
Proof. now apply ratio_unit. Qed.
Definition nu_emax : R := mmu * (1 - (me / mmu) ^ 2) / 2.
(** Rest-frame spectra in the scaled energy, over the energy. *)
Definition nue (x : R) : R := 12 * x * (1 - r ^ 2 - x) ^ 2 / (1 - x).
Definition num (x : R) : R :=
  2 * x * (1 - r ^ 2 - x) ^ 2 * (3 - 5 * x + 2 * x ^ 2 + (3 - x) * r ^ 2) / (1 - x) ^ 3.
Definition nueG (x : R) : R := 2 * (3 * x ^ 2 - 2 * x ^ 3 - 6 * r ^ 4 * x - 6 * r ^ 2 * x ^ 2 - 6 * r ^ 4 * ln (1 - x)).
Definition numG (x : R) : R :=
  2 * r ^ 4 * (r ^ 2 - 3) * ln (1 - x) - 3 * r ^ 2 * x ^ 2 + (9 - 4 * x) * x ^ 2 / 3
  + 2 * r ^ 6 * x / (1 - x) ^ 2 - 6 * r ^ 4 / (1 - x).
Definition nueK (x : R) : R := 4 * x ^ 3 - 3 * x ^ 4 - 8 * r ^ 2 * x ^ 3 + 12 * r ^ 4 * (- x ^ 2 / 2 - x - ln (1 - x)).
Definition numK (x : R) : R :=
  2 * (2 * x ^ 3 / 3 - x ^ 4 / 2 + (1 - 3 * r ^ 2) * x ^ 3 / 3
       + (r ^ 6 - 3 * r ^ 4) * (/ (1 - x) + 2 * ln (1 - x) + x)
       + 2 * r ^ 6 * (/ (1 - x) ^ 2 / 2 - 2 / (1 - x) - ln (1 - x))).
Lemma dl_inv f x a : derivable_pt_lim f x a -> f x <> 0 -> derivable_pt_lim (fun y => / f y) x (- a / (f x * f x)).
Proof.
  intros H Hn. eapply dl_val.
  - apply (derivable_pt_lim_ext (fun y => 1 / f y)); [intro z; unfold Rdiv; ring|].
    eapply dl_div; [apply dl_const|exact H|exact Hn].
  - unfold Rsqr. field. exact Hn.
Qed.
Ltac dli := first
  [ apply dl_const | apply dl_id
  | eapply dl_plus; dli | eapply dl_minus; dli | eapply dl_opp; dli
  | eapply dl_pow; dli | eapply dl_ln; [dli|] | eapply dl_sqrt; [dli|]
  | eapply dl_inv; [dli|]
  | eapply dl_mult; dli | eapply dl_div; [dli|dli|] ].
Lemma pow_nz (x : R) n : x <> 0 -> x ^ n <> 0.
Proof. apply pow_nonzero. Qed.
Lemma scaled k G g x : derivable_pt_lim G (k * x) g -> derivable_pt_lim (fun y => G (k * y)) x (k * g).
Proof.
  intro H. eapply dl_val; [apply (dl_comp (fun y => k * y) G)|].
  - eapply dl_mult; [apply dl_const|apply dl_id].
  - exact H.
  - cbv beta. ring.
Qed.
Lemma nueG_der x : x < 1 -> derivable_pt_lim nueG x (nue x).
Proof.
  intro H. unfold nueG. eapply dl_val; [dli|].
  all: try lra.
  all: try (apply pow_nz; lra).
  cbv beta. unfold nue. set (q := r). clearbody q. cbn [INR pred]. field. lra.
Qed.
Lemma numG_der x : x < 1 -> derivable_pt_lim numG x (num x).
Proof.
  intro H. unfold numG. eapply dl_val; [dli|].
  all: try lra.
  all: try (apply pow_nz; lra).
  cbv beta. unfold num, Rsqr. set (q := r). clearbody q. cbn [INR pred]. field. lra.
Qed.
Lemma nueK_der x : x < 1 -> derivable_pt_lim nueK x (x * nue x).
Proof.
  intro H. unfold nueK. eapply dl_val; [dli|].
  all: try lra.
  all: try (apply pow_nz; lra).
  cbv beta. unfold nue, Rsqr. set (q := r). clearbody q. cbn [INR pred]. field. lra.
Qed.
Lemma numK_der x : x < 1 -> derivable_pt_lim numK x (x * num x).
Proof.
  intro H. unfold numK. eapply dl_val; [dli|].
  all: try lra.
  all: try (apply pow_nz; lra).
  cbv beta. unfold num, Rsqr. set (q := r). clearbody q. cbn [INR pred]. field. lra.
Qed.
Lemma nue_sign x : 0 <= x < 1 -> 0 <= nue x.
Proof.
  intro H. unfold nue. apply Rmult_le_pos; [|left; apply Rinv_0_lt_compat; lra].
  apply Rmult_le_pos; [lra|apply pow2_ge_0].
Qed.
Lemma num_sign x : 0 <= x < 1 -> 0 <= num x.
Proof.
  intro H. unfold num. apply Rmult_le_pos; [|left; apply Rinv_0_lt_compat, pow_lt; lra].
  apply Rmult_le_pos; [apply Rmult_le_pos; [lra|apply pow2_ge_0]|].
  assert (0 <= (3 - x) * r ^ 2) by (apply Rmult_le_pos; [lra|apply pow2_ge_0]). nra.
Qed.

Lemma nu_rest e : 0 < e -> dnde_neutrino_muon RMath me mmu N e mmu =
  if Rle_dec nu_emax e then MkFlavors RMath 0 0 0 else
  MkFlavors RMath (N * (2 / mmu) * (2 / mmu * e * nue (2 / mmu * e)))
                  (N * (2 / mmu) * (2 / mmu * e * num (2 / mmu * e))) 0.
Proof.
  intro He. assert (0 < / 2 ^ 52) by (apply Rinv_0_lt_compat; lra). pose proof rr_unit as Hr.
  unfold dnde_neutrino_muon, dnde_neutrino_muon_rest_frame, TWO_OVER_MASS_MU, XMAX_RF, no_flavors, c_R2, c_R. rmodel. fold r.
  change (epmach RNum) with (/ 2 ^ 52).
  destruct (Rlt_dec mmu mmu); [lra|]. destruct (Rlt_dec (mmu - mmu) (/ 2 ^ 52)); [|lra]. cbn zeta.
  assert (Hmu : 0 < 2 / mmu) by (apply Rdiv_lt_0_compat; lra).
  destruct (Rle_dec (2 / mmu * e) 0); [nra|]. cbn [orb].
  assert (K : 1 - r * r <= 2 / mmu * e <-> nu_emax <= e).
  { unfold nu_emax. fold r. split; intro K.
    - apply (Rmult_le_compat_l (mmu / 2)) in K; [|lra].
      replace (mmu / 2 * (2 / mmu * e)) with e in K by (field; lra). lra.
    - apply (Rmult_le_compat_l (2 / mmu)) in K; [|lra].
      replace (2 / mmu * (mmu * (1 - r ^ 2) / 2)) with (1 - r * r) in K by (field; lra). exact K. }
  destruct (Rle_dec (1 - r * r) (2 / mmu * e)) as [D|D]; destruct (Rle_dec nu_emax e) as [D'|D']; try tauto.
  apply Rnot_le_lt in D. set (x := 2 / mmu * e) in *. assert (x < 1) by nra. clearbody x.
  f_equal.
  - unfold nue. set (q := r). clearbody q. field. lra.
  - unfold num. set (q := r). clearbody q. field. lra.
Qed.

Definition nu_lo (e emu : R) : R := emu / mmu * (1 - velo emu mmu) * e.
Definition nu_hi (e emu : R) : R := emu / mmu * (1 + velo emu mmu) * e.
Lemma nu_window e emu : mmu < emu -> 0 < e -> 0 < nu_lo e emu < nu_hi e emu.
Proof.
  intros H1 H2. destruct (velo_facts emu mmu ltac:(lra)) as (B & _ & _).
  assert (0 < emu / mmu) by (apply Rdiv_lt_0_compat; lra). unfold nu_lo, nu_hi. split.
  - apply Rmult_lt_0_compat; [apply Rmult_lt_0_compat; lra|lra].
  - apply Rmult_lt_compat_r; [exact H2|]. apply Rmult_lt_compat_l; lra.
Qed.
Lemma nu_flight e emu : mmu + / 2 ^ 52 <= emu -> 0 < e ->
  dnde_neutrino_muon RMath me mmu N e emu =
  if Rle_dec nu_emax (nu_lo e emu) then MkFlavors RMath 0 0 0 else
  let xm := 2 / mmu * nu_lo e emu in let xp := 2 / mmu * Rmin (nu_hi e emu) nu_emax in
  let c := N * (2 / emu) / (2 * velo emu mmu) in
  MkFlavors RMath (c * (nueG xp - nueG xm)) (c * (numG xp - numG xm)) 0.
Proof.
  intros Hemu He. assert (0 < / 2 ^ 52) by (apply Rinv_0_lt_compat; lra). pose proof rr_unit as Hr.
  destruct (velo_facts emu mmu ltac:(lra)) as (B & E & _). destruct (nu_window e emu ltac:(lra) He) as [W1 W2].
  unfold dnde_neutrino_muon, XMAX_RF, THREE_R2, THREE_R4, SIX_R4, TWO_R4_TIMES_R2_MINUS_THREE, no_flavors, c_R6, c_R4, c_R2, c_R.
  rmodel. fold r. change (epmach RNum) with (/ 2 ^ 52).
  destruct (Rlt_dec emu mmu); [lra|]. destruct (Rlt_dec (emu - mmu) (/ 2 ^ 52)); [lra|]. cbn zeta.
  replace (sqrt (1 - mmu / emu * (mmu / emu))) with (velo emu mmu) by (unfold velo; f_equal; ring).
  set (b := velo emu mmu) in *.
  assert (Hmu : 0 < 2 / mmu) by (apply Rdiv_lt_0_compat; lra).
  assert (Hem : 0 < 2 / emu) by (apply Rdiv_lt_0_compat; lra).
  assert (Hx : 0 < 2 / emu * e) by (apply Rmult_lt_0_compat; lra).
  destruct (Rle_dec (2 / emu * e) 0); [lra|]. cbn [orb].
  assert (G2 : (1 - b) * (1 + b) = (mmu / emu) ^ 2) by nra.
  assert (LO : emu / mmu * (emu / mmu) * (2 / emu * e) * (1 - b) = 2 / mmu * nu_lo e emu)
    by (unfold nu_lo; fold b; field; lra).
  assert (HI : emu / mmu * (emu / mmu) * (2 / emu * e) * (b + 1) = 2 / mmu * nu_hi e emu)
    by (unfold nu_hi; fold b; field; lra).
  assert (MX : 1 - r * r = 2 / mmu * nu_emax) by (unfold nu_emax; fold r; field; lra).
  assert (K : (b + 1) * (1 - r * r) <= 2 / emu * e <-> nu_emax <= nu_lo e emu).
  { rewrite MX.
    assert (X : 2 / emu * e = (b + 1) * (2 / mmu * nu_lo e emu)).
    { rewrite <- LO.
      replace ((b + 1) * (emu / mmu * (emu / mmu) * (2 / emu * e) * (1 - b)))
        with (emu / mmu * (emu / mmu) * (2 / emu * e) * ((1 - b) * (1 + b))) by ring.
      rewrite G2. field. lra. }
    rewrite X. split; intro K.
    - apply (Rmult_le_reg_l ((b + 1) * (2 / mmu))); [apply Rmult_lt_0_compat; lra|]. lra.
    - apply Rmult_le_compat_l; [lra|]. apply Rmult_le_compat_l; lra. }
  rewrite LO, HI, MX in *.
  assert (RM : forall u v, Rmin (2 / mmu * u) (2 / mmu * v) = 2 / mmu * Rmin u v).
  { intros u v. unfold Rmin. destruct (Rle_dec u v), (Rle_dec (2 / mmu * u) (2 / mmu * v)); try reflexivity; nra. }
  rewrite RM.
  destruct (Rle_dec ((b + 1) * (2 / mmu * nu_emax)) (2 / emu * e)) as [D|D];
    destruct (Rle_dec nu_emax (nu_lo e emu)) as [D'|D']; try tauto.
  assert (P1 : 2 / mmu * nu_lo e emu < 1).
  { apply Rlt_le_trans with (2 / mmu * nu_emax); [apply Rmult_lt_compat_l; lra|]. rewrite <- MX. nra. }
  assert (P2 : 2 / mmu * Rmin (nu_hi e emu) nu_emax < 1).
  { apply Rle_lt_trans with (2 / mmu * nu_emax); [apply Rmult_le_compat_l; [lra|apply Rmin_r]|]. rewrite <- MX. nra. }
  set (xm := 2 / mmu * nu_lo e emu) in *. set (xp := 2 / mmu * Rmin (nu_hi e emu) nu_emax) in *.
  clear - P1 P2 B Hem. clearbody xm xp b. set (em := 2 / emu) in *. clearbody em.
  rewrite ln_div_pos by lra. f_equal.
  - unfold nueG. set (q := r). clearbody q. field. lra.
  - unfold numG. set (q := r). clearbody q. field. lra.
Qed.
End Neutrino.
