(** Theorems about SpecialModel: the modified Bessel functions and Spence's integral. *)
From Coq Require Import List Arith Bool ZArith QArith Reals Lra Lia Qreals.
From Verif Require Import RustBase RustBaseFacts RustMath Area Primitive BoostProofs SpecModel SpecProofs
  PionModel PionProofs PionProps SpecialModel SpecialProofs SpenceProofs.
Import ListNotations.
Local Open Scope nat_scope.
Local Open Scope R_scope.

Ltac asR := match goal with |- ?a = ?b => change (@eq R a b) end.

(** * C64: Bessel functions of integer order *)
(** Order n is the n-th member of the sequence that the recurrence grows from the two seeds, and the sign of
    the order does not matter. *)
Theorem bessel_recurrence : forall (k0 k1 : R -> R) (x : R), x <> 0 ->
  let K n := bessel_kn RMath k0 k1 n x in
  K 0%Z = k0 x /\ K 1%Z = k1 x /\ (forall n, K (- n)%Z = K n) /\
  (forall n : Z, K (n + 1)%Z = K (n - 1)%Z + 2 * IZR n / x * K n).
Proof.
  intros k0 k1 x X K.
  assert (E : forall n, K n = Kf k0 k1 (Z.abs_nat n) x) by (intro n; now apply Kf_bessel).
  assert (P : forall n : Z, (1 <= n)%Z -> K (n + 1)%Z = K (n - 1)%Z + 2 * IZR n / x * K n).
  { intros n Hn. rewrite !E.
    replace (Z.abs_nat (n + 1)) with (S (S (Z.abs_nat (n - 1)))) by lia. rewrite Kf_step.
    replace (S (Z.abs_nat (n - 1))) with (Z.abs_nat n) by lia. do 3 f_equal. f_equal.
    rewrite INR_IZR_INZ. f_equal. lia. }
  repeat split.
  - now rewrite E.
  - now rewrite E.
  - intro n. rewrite !E. f_equal. lia.
  - intro n. destruct (Z_le_gt_dec 1 n) as [H|H]; [now apply P|].
    destruct (Z.eq_dec n 0) as [-> | N].
    + rewrite !E. cbn. asR. field. exact X.
    + pose proof (P (- n)%Z ltac:(lia)) as Q. rewrite !E in *. rewrite opp_IZR in Q.
      replace (Z.abs_nat (- n + 1)) with (Z.abs_nat (n - 1)) in Q by lia.
      replace (Z.abs_nat (- n - 1)) with (Z.abs_nat (n + 1)) in Q by lia.
      replace (Z.abs_nat (- n)) with (Z.abs_nat n) in Q by lia. rewrite Q. asR. field. exact X.
Qed.
Print Assumptions bessel_recurrence.
Example bessel_recurrence_ex : bessel_kn RMath (fun _ => 1) (fun _ => 2) (-3)%Z 2 = 8.
Proof.
  destruct (bessel_recurrence (fun _ => 1) (fun _ => 2) 2 ltac:(lra)) as (H0 & H1 & S & H).
  change (-3)%Z with (- (3))%Z. rewrite S. pose proof (H 2%Z) as A. pose proof (H 1%Z) as B.
  change (2 + 1)%Z with 3%Z in A. change (2 - 1)%Z with 1%Z in A. change (1 + 1)%Z with 2%Z in B. change (1 - 1)%Z with 0%Z in B.
  rewrite A, B, H0, H1. asR. field.
Qed.

(** With seeds in the ratio of K0 and K1, larger orders have larger values. *)
Theorem bessel_grows : forall (k0 k1 : R -> R) (x : R), 0 < x -> 0 < k0 x <= k1 x -> (1 - 2 / x) * k1 x < k0 x ->
  forall n m : Z, (1 <= Z.abs n < Z.abs m)%Z ->
  0 < bessel_kn RMath k0 k1 n x < bessel_kn RMath k0 k1 m x.
Proof.
  intros k0 k1 x X H1 H2 n m H. rewrite !Kf_bessel by lra.
  assert (G : forall i, (1 <= i)%nat -> 0 < Kf k0 k1 i x < Kf k0 k1 (S i) x).
  { apply (sequence_grows x (fun i => Kf k0 k1 i x)); [exact X|intro i; apply Kf_step|exact H1|exact H2]. }
  assert (A : forall d i, (1 <= i)%nat -> 0 < Kf k0 k1 i x < Kf k0 k1 (S i + d) x).
  { induction d as [|d IH]; intros i Hi; [rewrite Nat.add_0_r; now apply G|].
    pose proof (G i Hi). pose proof (IH (S i) ltac:(lia)).
    replace (S i + S d)%nat with (S (S i) + d)%nat by lia. lra. }
  specialize (A (Z.abs_nat m - S (Z.abs_nat n))%nat (Z.abs_nat n) ltac:(lia)).
  replace (S (Z.abs_nat n) + (Z.abs_nat m - S (Z.abs_nat n)))%nat with (Z.abs_nat m) in A by lia. exact A.
Qed.
Print Assumptions bessel_grows.
Example bessel_grows_ex : bessel_kn RMath (fun _ => 1) (fun _ => 2) (-2)%Z 2 < bessel_kn RMath (fun _ => 1) (fun _ => 2) 5%Z 2.
Proof. apply bessel_grows; [lra|lra|lra|lia]. Qed.

(** If the seeds have the derivatives of K0 and K1 at x, every order has the derivative
    - (K_{n-1} + K_{n+1}) / 2 (DLMF 10.29.2), and x^2 K_2 has the derivative - x^2 K_1. *)
Theorem bessel_derivative : forall (k0 k1 : R -> R) (x : R), x <> 0 ->
  derivable_pt_lim k0 x (- k1 x) -> derivable_pt_lim k1 x (- k0 x - k1 x / x) ->
  (forall n : Z, derivable_pt_lim (bessel_kn RMath k0 k1 n) x
    (- (bessel_kn RMath k0 k1 (n - 1) x + bessel_kn RMath k0 k1 (n + 1) x) / 2))
  /\ derivable_pt_lim (fun z => z ^ 2 * bessel_kn RMath k0 k1 2 z) x (- (x ^ 2 * bessel_kn RMath k0 k1 1 x)).
Proof.
  intros k0 k1 x X D0 D1.
  assert (D : forall n : Z, derivable_pt_lim (bessel_kn RMath k0 k1 n) x
    (- (bessel_kn RMath k0 k1 (n - 1) x + bessel_kn RMath k0 k1 (n + 1) x) / 2)).
  { intro n. apply (near_nonzero _ (Kf k0 k1 (Z.abs_nat n)) x _ X); [intros z Hz; now apply Kf_bessel|].
    eapply dl_val; [apply (Kf_derivative k0 k1 x X D0 D1)|]. rewrite !Kf_bessel by exact X.
    destruct (Z.eq_dec n 0) as [-> | N].
    { change (Z.abs_nat (0 - 1)) with 1%nat. change (Z.abs_nat (0 + 1)) with 1%nat. change (Z.abs_nat 0) with 0%nat.
      cbn [INR]. field. exact X. }
    replace (Z.abs_nat (n - 1)) with (if Z.ltb 0 n then Z.abs_nat n - 1 else S (Z.abs_nat n))%nat
      by (destruct (Z.ltb_spec 0 n); lia).
    replace (Z.abs_nat (n + 1)) with (if Z.ltb 0 n then S (Z.abs_nat n) else Z.abs_nat n - 1)%nat
      by (destruct (Z.ltb_spec 0 n); lia).
    destruct (Z.abs_nat n) as [|i] eqn:Hi; [lia|]. replace (S i - 1)%nat with i by lia.
    destruct (0 <? n)%Z; rewrite Kf_step; field; exact X. }
  split; [exact D|].
  eapply dl_val; [apply dl_mult; [apply dl_pow, dl_id|apply (D 2%Z)]|].
  change (2 - 1)%Z with 1%Z. cbv beta. cbn [INR pred].
  destruct (bessel_recurrence k0 k1 x X) as (_ & _ & _ & H). rewrite (H 2%Z). change (2 - 1)%Z with 1%Z.
  set (a := bessel_kn RMath k0 k1 1 x). set (b := bessel_kn RMath k0 k1 2 x). clearbody a b. field. exact X.
Qed.
Print Assumptions bessel_derivative.
Example bessel_derivative_ex : let k0 z := 2 - z in let k1 z := 3 - 2 * z in
  derivable_pt_lim (bessel_kn RMath k0 k1 2) 1 (-7).
Proof.
  intros k0 k1. unfold k0, k1.
  eapply dl_val; [apply (proj1 (bessel_derivative k0 k1 1 ltac:(lra) ltac:(eapply dl_val; [unfold k0; dl|unfold k1; lra])
    ltac:(eapply dl_val; [unfold k1; dl|unfold k0, k1; lra])) 2%Z)|].
  destruct (bessel_recurrence k0 k1 1 ltac:(lra)) as (H0 & H1 & _ & H). pose proof (H 2%Z) as A. pose proof (H 1%Z) as B.
  change (2 - 1)%Z with 1%Z in A. change (1 + 1)%Z with 2%Z in B. change (1 - 1)%Z with 0%Z in B.
  change (2 - 1)%Z with 1%Z. rewrite A, B, H0, H1. unfold k0, k1. lra.
Qed.

(** At zero every order is infinite, whatever the seeds return there. *)
Theorem bessel_at_zero : forall (M : Math) (k0 k1 : F M -> F M) (n : Z) (x : F M),
  feq M x (lit M 0) = true -> bessel_kn M k0 k1 n x = finf M.
Proof. intros M k0 k1 n x H. unfold bessel_kn. now rewrite H. Qed.
Print Assumptions bessel_at_zero.
Example bessel_at_zero_ex : feq RMath 0 (lit RMath 0) = true.
Proof. rmodel. cbn [feq RNum]. destruct (Req_EM_T 0 0); [reflexivity|lra]. Qed.

(** * C78: Spence's integral *)
Ltac cases := repeat match goal with
  | |- context [Rlt_dec ?a ?b] => destruct (Rlt_dec a b); try lra
  | |- context [Req_EM_T ?a ?b] => destruct (Req_EM_T a b); try lra
  end.
Lemma spence_mid (x : R) : 1 / 2 <= x <= 3 / 2 -> spence RMath x = rational (x - 1).
Proof.
  intro H. unfold spence. rmodel. cbn [feq RNum]. rewrite ?Q2R_half.
  replace (Q2R 1.5) with (3 / 2) by (unfold Q2R; cbn; lra).
  cases; unfold rational; [|reflexivity].
  subst. replace (1 - 1) with 0 by ring. rewrite Ropp_0, Rmult_0_l. unfold Rdiv. ring.
Qed.
Lemma spence_low (x : R) : 0 < x < 1 / 2 ->
  spence RMath x = PI * PI / 6 - ln x * ln (1 - x) - rational (- x).
Proof.
  intro H. unfold spence, PI_SQ_OVER_SIX. rmodel. cbn [feq RNum]. rewrite ?Q2R_half.
  replace (Q2R 1.5) with (3 / 2) by (unfold Q2R; cbn; lra). cases. unfold rational.
  change (fpi RMath) with PI. ring.
Qed.
Lemma spence_high2 (x : R) : 3 / 2 < x <= 2 ->
  spence RMath x = - (1 / 2) * (ln x * ln x) - rational (1 / x - 1).
Proof.
  intro H. unfold spence, PI_SQ_OVER_SIX. rmodel. cbn [feq RNum]. rewrite ?Q2R_half.
  replace (Q2R 1.5) with (3 / 2) by (unfold Q2R; cbn; lra). cases. unfold rational.
  set (q := _ / polevl RMath _ (SPENCE_B RMath)). clearbody q. asR. field.
Qed.
Lemma spence_big (x : R) : 2 < x ->
  spence RMath x = - (1 / 2) * (ln (1 / x) * ln (1 / x)) - spence RMath (1 / x).
Proof.
  intro H. assert (I : 0 < 1 / x < 1 / 2).
  { split; [apply Rdiv_lt_0_compat; lra|]. apply Rmult_lt_reg_r with x; [lra|]. replace (1 / x * x) with 1 by (field; lra). lra. }
  rewrite (spence_low (1 / x) I). unfold spence, PI_SQ_OVER_SIX. rmodel. cbn [feq RNum]. rewrite ?Q2R_half.
  replace (Q2R 1.5) with (3 / 2) by (unfold Q2R; cbn; lra). cases. unfold rational. change (fpi RMath) with PI.
  set (q := _ / polevl RMath _ (SPENCE_B RMath)). clearbody q. asR. field.
Qed.
Lemma ln_recip (x : R) : 0 < x -> ln (1 / x) = - ln x.
Proof. intro H. unfold Rdiv. rewrite Rmult_1_l. now apply ln_Rinv. Qed.
Lemma recip_bounds (x a b : R) : 0 < a -> 0 < b -> a < x <= b -> 1 / b <= 1 / x < 1 / a.
Proof.
  intros A B H. unfold Rdiv. rewrite !Rmult_1_l. split; [apply Rinv_le_contravar; lra|apply Rinv_lt_contravar; [nra|lra]].
Qed.

(** In real arithmetic the function of the source is within 4e-16 of Spence's integral for every positive
    argument; between 1/2 and 2 it is within 2.9e-16. *)
Theorem spence_error : forall (L : R -> R) (x : R), spence_integral L -> 0 < x ->
  Rabs (spence RMath x - L x) <= 4 / 10 ^ 16 /\ (1 / 2 <= x <= 2 -> Rabs (spence RMath x - L x) <= 29 / 10 ^ 17).
Proof.
  intros L x HL H.
  assert (W : forall y, 1 / 2 <= y <= 3 / 2 -> Rabs (rational (y - 1) - L y) <= 29 / 10 ^ 17).
  { intros y Hy. pose proof (rational_ok L (y - 1) HL) as R1. replace (1 + (y - 1)) with y in R1 by ring. apply R1.
    apply Rabs_le. lra. }
  assert (LOW : forall y, 0 < y < 1 / 2 -> Rabs (spence RMath y - L y) <= 37 / 10 ^ 17).
  { intros y Hy. rewrite spence_low by exact Hy. pose proof (exact_reflection L y HL ltac:(lra)) as E.
    pose proof (W (1 - y) ltac:(lra)) as R1. replace (1 - y - 1) with (- y) in R1 by ring.
    replace (_ - L y) with (- (spence_const L - PI * PI / 6) - (rational (- y) - L (1 - y))) by lra.
    eapply Rle_trans; [apply Rabs_triang|]. rewrite !Rabs_Ropp. pose proof (const_ok L HL). lra. }
  assert (MID : 1 / 2 <= x <= 2 -> Rabs (spence RMath x - L x) <= 29 / 10 ^ 17).
  { intro Hx. destruct (Rle_dec x (3 / 2)) as [X|X].
    - rewrite spence_mid by lra. apply W. lra.
    - rewrite spence_high2 by lra. pose proof (exact_inversion L x HL H) as E.
      pose proof (recip_bounds x (3 / 2) 2 ltac:(lra) ltac:(lra) ltac:(lra)) as I.
      pose proof (W (1 / x) ltac:(lra)) as R1.
      replace (_ - L x) with (- (rational (1 / x - 1) - L (1 / x))) by lra. now rewrite Rabs_Ropp. }
  split; [|exact MID].
  destruct (Rlt_dec x (1 / 2)) as [X|X]; [pose proof (LOW x ltac:(lra)); lra|].
  destruct (Rle_dec x 2) as [Y|Y]; [pose proof (MID ltac:(lra)); lra|].
  rewrite spence_big by lra. pose proof (exact_inversion L x HL H) as E. rewrite ln_recip by exact H.
  assert (I : 0 < 1 / x < 1 / 2).
  { split; [apply Rdiv_lt_0_compat; lra|]. apply Rmult_lt_reg_r with x; [lra|]. replace (1 / x * x) with 1 by (field; lra). lra. }
  pose proof (LOW (1 / x) I) as R1.
  replace (_ - L x) with (- (spence RMath (1 / x) - L (1 / x))) by lra. rewrite Rabs_Ropp. lra.
Qed.
Print Assumptions spence_error.
Example spence_error_ex : exists L, spence_integral L /\ Rabs (spence RMath 3 - L 3) <= 4 / 10 ^ 16.
Proof. destruct spence_integral_exists as [L HL]. exists L. split; [exact HL|]. apply spence_error; [exact HL|lra]. Qed.

(** Reflection and inversion hold exactly, away from the switching points; the value at 1 is exact; the value
    at 0 is the limit from the right. *)
Theorem spence_identities :
  (forall x, 0 < x < 1 -> x <> 1 / 2 ->
    spence RMath x + spence RMath (1 - x) = PI ^ 2 / 6 - ln x * ln (1 - x)) /\
  (forall x, 3 / 2 < x -> spence RMath x + spence RMath (1 / x) = - (ln x) ^ 2 / 2) /\
  spence RMath 1 = 0 /\ spence RMath 0 = PI ^ 2 / 6 /\
  (forall x, 0 < x < 1 / 2 -> Rabs (spence RMath x - spence RMath 0) <= 4 * sqrt x + 115 * x).
Proof.
  assert (Z : spence RMath 0 = PI ^ 2 / 6).
  { unfold spence, PI_SQ_OVER_SIX. rmodel. cbn [feq RNum]. cases. change (fpi RMath) with PI. unfold Rdiv. asR. ring. }
  repeat split.
  - assert (K : forall x, 0 < x < 1 / 2 -> spence RMath x + spence RMath (1 - x) = PI ^ 2 / 6 - ln x * ln (1 - x)).
    { intros x Hx. rewrite (spence_low x), (spence_mid (1 - x)) by lra. replace (1 - x - 1) with (- x) by ring. asR. field. }
    intros x Hx N. destruct (Rlt_dec x (1 / 2)); [now apply K|].
    pose proof (K (1 - x) ltac:(lra)) as K'. replace (1 - (1 - x)) with x in K' by ring. lra.
  - intros x Hx. destruct (Rle_dec x 2).
    + pose proof (recip_bounds x (3 / 2) 2 ltac:(lra) ltac:(lra) ltac:(lra)) as I.
      rewrite spence_high2, spence_mid by lra. asR. field.
    + rewrite (spence_big x), ln_recip by lra. asR. field.
  - rewrite spence_mid by lra. unfold rational. replace (1 - 1) with 0 by ring. rewrite Ropp_0, Rmult_0_l. unfold Rdiv. asR. ring.
  - exact Z.
  - intros x Hx. rewrite Z, spence_low by lra.
    replace (PI * PI / 6 - ln x * ln (1 - x) - rational (- x) - PI ^ 2 / 6) with (- (ln x * ln (1 - x)) + - rational (- x)) by field.
    eapply Rle_trans; [apply Rabs_triang|]. rewrite !Rabs_Ropp. apply Rplus_le_compat.
    + rewrite Rabs_mult.
      assert (S : 0 < sqrt x) by (apply sqrt_lt_R0; lra).
      assert (S2 : sqrt x * sqrt x = x) by (apply sqrt_sqrt; lra).
      assert (LE : forall t, 0 < t -> ln t <= t - 1).
      { intros t Ht. pose proof (exp_ineq1_le (ln t)) as X. rewrite exp_ln in X by exact Ht. lra. }
      assert (A1 : Rabs (ln x) <= 2 / sqrt x).
      { assert (E : ln x = 2 * ln (sqrt x)) by (rewrite <- S2 at 1; rewrite ln_mult; lra).
        pose proof (LE (/ sqrt x) ltac:(now apply Rinv_0_lt_compat)) as X. rewrite ln_Rinv in X by exact S.
        pose proof (LE x ltac:(lra)). rewrite Rabs_left1; [|lra]. rewrite E. unfold Rdiv. lra. }
      assert (A2 : Rabs (ln (1 - x)) <= 2 * x).
      { pose proof (LE (1 - x) ltac:(lra)). rewrite Rabs_left1 by lra.
        pose proof (LE (/ (1 - x)) ltac:(apply Rinv_0_lt_compat; lra)) as X. rewrite ln_Rinv in X by lra.
        assert (/ (1 - x) - 1 <= 2 * x); [|lra]. apply Rmult_le_reg_r with (1 - x); [lra|].
        rewrite Rmult_minus_distr_r, Rinv_l by lra. nra. }
      eapply Rle_trans; [apply Rmult_le_compat; [apply Rabs_pos|apply Rabs_pos|exact A1|exact A2]|].
      right. rewrite <- S2 at 2. field. lra.
    + unfold rational. rewrite A_table, B_table. pose proof (B_below (- x) ltac:(lra)) as B.
      pose proof (peval_sumabs A25 (- x) ltac:(apply Rabs_le; lra)) as A.
      let v := eval vm_compute in (sumabs A25) in change (sumabs A25) with v in A.
      set (a := peval A25 (- x)) in *. set (b := peval B25 (- x)) in *. clearbody a b.
      replace (- - x * (a / 10 ^ 25) / (b / 10 ^ 25)) with (x * (a / b)) by (field; lra).
      rewrite Rabs_mult, (Rabs_pos_eq x), Rmult_comm by lra. apply Rmult_le_compat_r; [lra|].
      unfold Rdiv. rewrite Rabs_mult, Rabs_inv, (Rabs_pos_eq b) by lra.
      apply Rmult_le_reg_r with b; [lra|]. rewrite Rmult_assoc, Rinv_l, Rmult_1_r by lra. lra.
Qed.
Print Assumptions spence_identities.
Example spence_identities_ex : spence RMath 2 + spence RMath (1 / 2) = - (ln 2) ^ 2 / 2.
Proof. apply spence_identities. lra. Qed.

(** Negative arguments give the not-a-number, in any arithmetic. *)
Theorem spence_negative : forall (M : Math) (x : F M), flt M x (lit M 0) = true -> spence M x = fnan M.
Proof. intros M x H. unfold spence. now rewrite H. Qed.
Print Assumptions spence_negative.
Example spence_negative_ex : flt RMath (-1) (lit RMath 0) = true.
Proof. rmodel. destruct (Rlt_dec (-1) 0); [reflexivity|lra]. Qed.

(** * C75 with the source's own Spence function *)
(** The photon spectrum of a muon in flight, computed with the source's Spence function, differs from the exact
    boost of the spectrum at rest by at most 4e-15 alpha / (3 pi Emu beta). *)
Theorem photon_muon_spence_error : forall (me mmu alpha e emu : R),
  0 < me < mmu -> 0 <= alpha -> mmu + / 2 ^ 52 <= emu -> 0 < e ->
  let gamma := emu / mmu in let beta := sqrt (1 - (mmu / emu) ^ 2) in
  let edge := (mmu ^ 2 - me ^ 2) / (2 * mmu) in
  gamma * (1 - beta) * e < edge ->
  exists v, area (fun e0 => rad_muon me mmu alpha e0 / (2 * gamma * beta * e0))
     (gamma * (1 - beta) * e) (Rmin (gamma * (1 + beta) * e) edge) v
  /\ Rabs (dnde_photon_muon RMath (spence RMath) me mmu alpha e emu - v) <= 4 / 10 ^ 15 * (alpha / (3 * PI * emu * beta)).
Proof.
  intros me mmu alpha e emu Hm Ha Hemu He gamma beta edge H.
  destruct spence_integral_exists as [L HL]. pose proof HL as (_ & _ & DL).
  exists (dnde_photon_muon RMath L me mmu alpha e emu). split.
  - apply (photon_muon_boost L me mmu alpha e emu); [intros z Hz; apply DL; lra|exact Hm|exact Hemu|exact He|exact H].
  - assert (H52 : 0 < / 2 ^ 52) by (apply Rinv_0_lt_compat; lra).
    destruct (velo_facts emu mmu ltac:(lra)) as (B & _ & _). change (velo emu mmu) with beta in B.
    assert (G : 0 < gamma) by (unfold gamma; apply Rdiv_lt_0_compat; lra).
    pose proof (ratio_unit me mmu Hm) as Hr.
    rewrite !(photon_flight _ me mmu alpha e emu Hm Hemu He). change (velo emu mmu) with beta. fold gamma.
    set (r := (me / mmu) ^ 2). assert (R1 : 0 < r < 1) by (unfold r; nra).
    assert (Y : 0 < 2 * e / mmu) by (apply Rdiv_lt_0_compat; lra).
    set (xm := gamma * (1 - beta) * (2 * e / mmu)). set (xp := Rmin _ (1 - r)).
    assert (XM : 0 < xm) by (unfold xm; apply Rmult_lt_0_compat; [apply Rmult_lt_0_compat|]; lra).
    assert (K : 0 <= alpha / (3 * PI * emu * beta)).
    { pose proof PI_RGT_0. apply Rmult_le_pos; [exact Ha|]. left. apply Rinv_0_lt_compat.
      apply Rmult_lt_0_compat; [apply Rmult_lt_0_compat; [apply Rmult_lt_0_compat|]|]; lra. }
    destruct (Rle_dec (1 - r) xm) as [Q|Q]; [rewrite Rminus_0_r, Rabs_R0; lra|].
    assert (XP : 0 < xp).
    { unfold xp. apply Rmin_glb_lt; [|lra]. apply Rmult_lt_0_compat; [apply Rmult_lt_0_compat|]; lra. }
    pose proof (proj1 (spence_error L xm HL XM)) as E1. pose proof (proj1 (spence_error L xp HL XP)) as E2.
    rewrite <- Rmult_minus_distr_l, Rabs_mult, (Rabs_pos_eq _ K), Rmult_comm. apply Rmult_le_compat_r; [exact K|].
    unfold rad_H.
    match goal with |- Rabs ?t <= _ => replace t with (5 * (spence RMath xm - L xm) + - (5 * (spence RMath xp - L xp))) by ring end.
    eapply Rle_trans; [apply Rabs_triang|]. rewrite Rabs_Ropp, !Rabs_mult, (Rabs_pos_eq 5) by lra. lra.
Qed.
Print Assumptions photon_muon_spence_error.
Example photon_muon_spence_error_ex : let gamma := 2 / 1 in let beta := sqrt (1 - (1 / 2) ^ 2) in
  gamma * (1 - beta) * (1 / 2) < (1 ^ 2 - (1 / 200) ^ 2) / (2 * 1).
Proof.
  cbv zeta. assert (4 / 5 < sqrt (1 - (1 / 2) ^ 2)); [|lra].
  replace (4 / 5) with (sqrt ((4 / 5) ^ 2)) by (apply sqrt_pow2; lra). apply sqrt_lt_1; lra.
Qed.
