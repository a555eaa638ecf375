(** Spence's integral: the rational approximation of SpecialModel against the function it stands for.

    The comparison is done with integer polynomials: on |w| <= 1/2 the logarithm and the dilogarithm are
    replaced by their power series, and the difference is bounded on eight subintervals. *)
From Coq Require Import List Arith Bool ZArith QArith Reals Lra Lia Qreals Machin Ratan.
From Verif Require Import RustBase RustBaseFacts RustMath Area Primitive BoostProofs SpecModel SpecProofs SpecialModel.
Import ListNotations.
Local Open Scope nat_scope.
Local Open Scope R_scope.

(** * Specification *)
(** Spence's integral: zero at 1, derivative ln z / (1 - z). *)
Definition spence_integral (L : R -> R) : Prop :=
  L 1 = 0 /\ continuity_pt L 1 /\ (forall z, 0 < z -> z <> 1 -> derivable_pt_lim L z (ln z / (1 - z))).

(** * Integer polynomials, lowest coefficient first *)
Fixpoint peval (l : list Z) (w : R) : R :=
  match l with [] => 0 | a :: r => IZR a + w * peval r w end.
Fixpoint padd (l m : list Z) : list Z :=
  match l, m with
  | [], _ => m
  | _, [] => l
  | a :: r, b :: s => (a + b)%Z :: padd r s
  end.
Definition pscale (c : Z) (l : list Z) : list Z := map (Z.mul c) l.
Fixpoint pmul (l m : list Z) : list Z :=
  match l with [] => [] | a :: r => padd (pscale a m) (0%Z :: pmul r m) end.
Definition sumabs (l : list Z) : Z := fold_right (fun a s => (Z.abs a + s)%Z) 0%Z l.

Lemma peval_add l : forall m w, peval (padd l m) w = peval l w + peval m w.
Proof.
  induction l as [|a r IH]; intros m w; [cbn; ring|].
  destruct m as [|b s]; cbn [padd peval]; [ring|]. rewrite IH, plus_IZR. ring.
Qed.
Lemma peval_scale c l w : peval (pscale c l) w = IZR c * peval l w.
Proof. unfold pscale. induction l as [|a r IH]; cbn [map peval]; [ring|]. rewrite IH, mult_IZR. ring. Qed.
Lemma peval_mul l m w : peval (pmul l m) w = peval l w * peval m w.
Proof.
  induction l as [|a r IH]; cbn [pmul peval]; [ring|].
  rewrite peval_add, peval_scale. cbn [peval]. rewrite IH. ring.
Qed.
Lemma peval_sumabs l u : Rabs u <= 1 -> Rabs (peval l u) <= IZR (sumabs l).
Proof.
  intro U. induction l as [|a r IH]; cbn [peval sumabs fold_right]; [rewrite Rabs_R0; lra|].
  change (fold_right _ _ r) with (sumabs r). rewrite plus_IZR, abs_IZR.
  eapply Rle_trans; [apply Rabs_triang|]. rewrite Rabs_mult.
  pose proof (Rabs_pos (peval r u)). pose proof (Rabs_pos u). nra.
Qed.

(** The polynomial at w = (u + c)/16, times a power of 16, as a polynomial in u *)
Fixpoint pshift (c : Z) (l : list Z) : list Z :=
  match l with
  | [] => []
  | a :: r => let q := pshift c r in padd [(16 ^ Z.of_nat (length r) * a)%Z] (padd (0%Z :: q) (pscale c q))
  end.
Lemma peval_shift c l u :
  16 * peval (pshift c l) u = IZR (16 ^ Z.of_nat (length l)) * peval l ((u + IZR c) / 16).
Proof.
  induction l as [|a r IH]; [cbn; ring|].
  cbn [pshift peval length]. rewrite !peval_add, peval_scale. cbn [peval]. rewrite mult_IZR.
  rewrite Nat2Z.inj_succ, Z.pow_succ_r by lia. rewrite mult_IZR.
  transitivity (16 * IZR (16 ^ Z.of_nat (length r)) * IZR a + (u + IZR c) * (16 * peval (pshift c r) u)); [ring|].
  rewrite IH. field.
Qed.

(** Bounds of |P| on -1/2 <= w <= 0 and on 0 <= w <= 1/2 when the shifted coefficients give them on the eight
    intervals of length 1/8 *)
Definition centers : list Z := [-7; -5; -3; -1; 1; 3; 5; 7]%Z.
Definition pbound (l : list Z) (Eneg Epos : Z) : bool :=
  forallb (fun c => (16 * sumabs (pshift c l) <=? (if c <? 0 then Eneg else Epos) * 16 ^ Z.of_nat (length l))%Z) centers.
Lemma centers_cover w : - (1 / 2) <= w <= 1 / 2 ->
  exists c u, In c centers /\ w = (u + IZR c) / 16 /\ Rabs u <= 1 /\ (if (c <? 0)%Z then w <= 0 else 0 <= w).
Proof.
  intro H.
  assert (K : forall c, IZR c - 1 <= 16 * w <= IZR c + 1 -> w = (16 * w - IZR c + IZR c) / 16 /\ Rabs (16 * w - IZR c) <= 1).
  { intros c Hc. split; [field|]. apply Rabs_le. lra. }
  destruct (Rle_dec (16 * w) (-6)) as [|H1]; [exists (-7)%Z, (16 * w - IZR (-7)); split; [cbn; auto 10|rewrite <- and_assoc; split; [apply K|cbn]; lra]|].
  destruct (Rle_dec (16 * w) (-4)) as [|H2]; [exists (-5)%Z, (16 * w - IZR (-5)); split; [cbn; auto 10|rewrite <- and_assoc; split; [apply K|cbn]; lra]|].
  destruct (Rle_dec (16 * w) (-2)) as [|H3]; [exists (-3)%Z, (16 * w - IZR (-3)); split; [cbn; auto 10|rewrite <- and_assoc; split; [apply K|cbn]; lra]|].
  destruct (Rle_dec (16 * w) 0) as [|H4]; [exists (-1)%Z, (16 * w - IZR (-1)); split; [cbn; auto 10|rewrite <- and_assoc; split; [apply K|cbn]; lra]|].
  destruct (Rle_dec (16 * w) 2) as [|H5]; [exists 1%Z, (16 * w - IZR 1); split; [cbn; auto 10|rewrite <- and_assoc; split; [apply K|cbn]; lra]|].
  destruct (Rle_dec (16 * w) 4) as [|H6]; [exists 3%Z, (16 * w - IZR 3); split; [cbn; auto 10|rewrite <- and_assoc; split; [apply K|cbn]; lra]|].
  destruct (Rle_dec (16 * w) 6) as [|H7]; [exists 5%Z, (16 * w - IZR 5); split; [cbn; auto 10|rewrite <- and_assoc; split; [apply K|cbn]; lra]|].
  exists 7%Z, (16 * w - IZR 7); split; [cbn; auto 10|rewrite <- and_assoc; split; [apply K|cbn]; lra].
Qed.
Lemma pbound_ok l E1 E2 : pbound l E1 E2 = true -> forall w, - (1 / 2) <= w <= 1 / 2 ->
  w <= 0 /\ Rabs (peval l w) <= IZR E1 \/ 0 <= w /\ Rabs (peval l w) <= IZR E2.
Proof.
  intros H w Hw. destruct (centers_cover w Hw) as (c & u & Hc & Ew & U & Sg).
  unfold pbound in H. rewrite forallb_forall in H. specialize (H c Hc). apply Z.leb_le in H. apply IZR_le in H.
  rewrite !mult_IZR in H. pose proof (peval_shift c l u) as S. pose proof (peval_sumabs (pshift c l) u U) as B.
  rewrite <- Ew in S.
  assert (P : 0 < IZR (16 ^ Z.of_nat (length l))) by (apply IZR_lt, Z.pow_pos_nonneg; lia).
  assert (G : forall E, 16 * IZR (sumabs (pshift c l)) <= IZR E * IZR (16 ^ Z.of_nat (length l)) -> Rabs (peval l w) <= IZR E).
  { intros E HE. apply Rmult_le_reg_l with (IZR (16 ^ Z.of_nat (length l))); [exact P|].
    rewrite <- (Rabs_pos_eq (IZR (16 ^ Z.of_nat (length l)))) at 1 by lra. rewrite <- Rabs_mult, <- S, Rabs_mult.
    rewrite (Rabs_pos_eq 16) by lra. lra. }
  destruct (c <? 0)%Z; [left|right]; auto.
Qed.
(** A polynomial with non-negative coefficients is at least its constant term to the right of zero. *)
Lemma peval_nonneg l u : forallb (Z.leb 0) l = true -> 0 <= u -> IZR (hd 0%Z l) <= peval l u.
Proof.
  intros H U.
  assert (N : forall m, forallb (Z.leb 0) m = true -> 0 <= peval m u).
  { induction m as [|a r IH]; cbn [forallb peval]; [lra|]. intro X. apply andb_prop in X as [X1 X2].
    apply Z.leb_le, IZR_le in X1. pose proof (IH X2). nra. }
  destruct l as [|a r]; cbn [hd peval]; [lra|]. cbn [forallb] in H. apply andb_prop in H as [_ H].
  pose proof (N r H). nra.
Qed.

(** * Mean value bounds *)
Lemma mvt_bound f f' a b m : a <= b -> (forall x, a <= x <= b -> continuity_pt f x) ->
  (forall x, a < x < b -> derivable_pt_lim f x (f' x) /\ Rabs (f' x) <= m) -> Rabs (f b - f a) <= m * (b - a).
Proof.
  intros H C D.
  assert (M : forall s, s = 1 \/ s = -1 -> s * (f b - f a) <= m * (b - a)).
  { intros s Hs.
    assert (E : (fun x => m * x - s * f x) a <= (fun x => m * x - s * f x) b).
    { apply (mono_except (fun x => m * x - s * f x) (fun x => m * 1 - s * f' x) [] a b); [exact H| |].
      - intros x Hx. apply (continuity_pt_minus (fun x => m * x) (fun x => s * f x)).
        + apply (continuity_pt_scal (fun x => x)). apply derivable_continuous_pt, derivable_pt_id.
        + apply (continuity_pt_scal f). now apply C.
      - intros x Hx _. destruct (D x Hx) as [Dx Bx]. split.
        + apply dl_minus.
          * apply (derivable_pt_lim_scal (fun x => x)). apply derivable_pt_lim_id.
          * now apply (derivable_pt_lim_scal f).
        + apply Rabs_le_between in Bx || (pose proof (Rle_abs (f' x)); pose proof (Rle_abs (- f' x)); rewrite Rabs_Ropp in *).
          destruct Hs as [-> | ->]; lra. }
    cbv beta in E. lra. }
  apply Rabs_le. pose proof (M 1 (or_introl eq_refl)). pose proof (M (-1) (or_intror eq_refl)). lra.
Qed.
(** From 0 to w, on either side *)
Lemma mvt_zero f f' w m : (forall x, Rabs x <= Rabs w -> continuity_pt f x) ->
  (forall x, x <> 0 -> Rabs x <= Rabs w -> derivable_pt_lim f x (f' x) /\ Rabs (f' x) <= m) -> f 0 = 0 ->
  Rabs (f w) <= m * Rabs w.
Proof.
  intros C D Z. destruct (Rle_lt_dec 0 w) as [P|P].
  - rewrite (Rabs_pos_eq w) in * by exact P. replace (f w) with (f w - f 0) by lra. replace w with (w - 0) at 2 by ring.
    apply (mvt_bound f f'); [exact P| |].
    + intros x Hx. apply C. rewrite Rabs_pos_eq; lra.
    + intros x Hx. apply D; [lra|]. rewrite Rabs_pos_eq; lra.
  - rewrite (Rabs_left w) in * by exact P. replace (Rabs (f w)) with (Rabs (f 0 - f w)) by (rewrite Z, <- Rabs_Ropp; f_equal; ring).
    replace (- w) with (0 - w) by ring.
    apply (mvt_bound f f'); [lra| |].
    + intros x Hx. apply C. rewrite Rabs_left1; lra.
    + intros x Hx. apply D; [lra|]. rewrite Rabs_left1; lra.
Qed.

(** * Power series *)
(** sum of (-1)^(k+1) w^k / k for k = 1 .. n; sum of (-1)^k w^k / k^2; the same divided by w *)
Fixpoint log_series (n : nat) (w : R) : R :=
  match n with O => 0 | S m => log_series m w - (- w) ^ S m / INR (S m) end.
Fixpoint dilog_series (n : nat) (w : R) : R :=
  match n with O => 0 | S m => dilog_series m w + (- w) ^ S m / INR (S m) ^ 2 end.
Fixpoint slope_series (n : nat) (w : R) : R :=
  match n with O => 0 | S m => slope_series m w - (- w) ^ m / INR (S m) end.
Lemma INR_S_pos n : 0 < INR (S n).
Proof. apply lt_0_INR. lia. Qed.
Lemma series_zero n : log_series n 0 = 0 /\ dilog_series n 0 = 0.
Proof.
  induction n as [|n [IH1 IH2]]; [split; reflexivity|]. cbn [log_series dilog_series]. rewrite IH1, IH2.
  pose proof (INR_S_pos n). replace (- 0) with 0 by ring. cbn [pow]. split; field; lra.
Qed.
Lemma slope_log n w : w * slope_series n w = - log_series n w.
Proof.
  induction n as [|n IH]; cbn [slope_series log_series]; [ring|]. pose proof (INR_S_pos n).
  rewrite Rmult_minus_distr_l, IH. cbn [pow]. field. lra.
Qed.
Lemma dilog_slope n w : derivable_pt_lim (dilog_series n) w (slope_series n w).
Proof.
  induction n as [|n IH]; [apply (dl_const 0)|].
  change (dilog_series (S n)) with (fun w => dilog_series n w + (- w) ^ S n / INR (S n) ^ 2).
  cbn [slope_series]. pose proof (INR_S_pos n) as P.
  eapply dl_val; [eapply dl_plus; [exact IH|eapply dl_div; [eapply (dl_pow (fun w => - w)), dl_opp, dl_id|apply (dl_const)|nra]]|].
  cbv beta. unfold Rsqr. cbn [pred]. field. lra.
Qed.
Lemma log_slope n w : w <> - 1 -> derivable_pt_lim (log_series n) w ((1 - (- w) ^ n) / (1 + w)).
Proof.
  intro W. induction n as [|n IH].
  - eapply dl_val; [apply (dl_const 0)|]. cbn [pow]. field. lra.
  - change (log_series (S n)) with (fun w => log_series n w - (- w) ^ S n / INR (S n)). pose proof (INR_S_pos n) as P.
    eapply dl_val; [eapply dl_minus; [exact IH|eapply dl_div; [eapply (dl_pow (fun w => - w)), dl_opp, dl_id|apply (dl_const)|lra]]|].
    cbv beta. unfold Rsqr. cbn [pred pow]. field. lra.
Qed.
Lemma pow_bound w n v : Rabs w <= v -> Rabs (w ^ n) <= v ^ n.
Proof. intro H. rewrite <- RPow_abs. apply pow_incr. split; [apply Rabs_pos|exact H]. Qed.
Lemma half_range w : Rabs w <= 1 / 2 -> 1 / 2 <= 1 + w.
Proof. intro H. pose proof (Rle_abs (- w)). rewrite Rabs_Ropp in *. lra. Qed.
Lemma log_series_ok n w : Rabs w <= 1 / 2 -> Rabs (ln (1 + w) - log_series n w) <= 2 * Rabs w ^ n * Rabs w.
Proof.
  intro H.
  apply (mvt_zero (fun w => ln (1 + w) - log_series n w) (fun w => (- w) ^ n / (1 + w))).
  - intros x Hx. pose proof (half_range x ltac:(lra)). apply derivable_continuous_pt. eexists.
    eapply dl_minus; [eapply dl_ln; [dl|lra]|apply log_slope; lra].
  - intros x _ Hx. pose proof (half_range x ltac:(lra)). split.
    + eapply dl_val; [eapply dl_minus; [eapply dl_ln; [dl|lra]|apply log_slope; lra]|]. cbv beta. field. lra.
    + unfold Rdiv. rewrite Rabs_mult, Rmult_comm. apply Rmult_le_compat; try apply Rabs_pos.
      * rewrite Rabs_pos_eq; [|left; apply Rinv_0_lt_compat; lra].
        replace 2 with (/ (1 / 2)) by field. apply Rinv_le_contravar; lra.
      * apply pow_bound. rewrite Rabs_Ropp. exact Hx.
  - rewrite (proj1 (series_zero n)), Rplus_0_r, ln_1. ring.
Qed.
Lemma shift_derivative L : spence_integral L -> forall w, w <> 0 -> 0 < 1 + w ->
  derivable_pt_lim (fun w => L (1 + w)) w (- (ln (1 + w) / w)).
Proof.
  intros (_ & _ & D) w N P.
  eapply dl_val; [apply (dl_comp (fun w => 1 + w) L); [dl|apply D; lra]|]. cbv beta. field. lra.
Qed.
Lemma dilog_series_ok L n w : spence_integral L -> Rabs w <= 1 / 2 ->
  Rabs (dilog_series n w - L (1 + w)) <= 2 * Rabs w ^ n * Rabs w.
Proof.
  intros HL H. pose proof HL as (L1 & Lc & _).
  apply (mvt_zero (fun w => dilog_series n w - L (1 + w)) (fun w => slope_series n w + ln (1 + w) / w)).
  - intros x Hx. pose proof (half_range x ltac:(lra)). apply (continuity_pt_minus (dilog_series n) (fun w => L (1 + w))).
    + apply derivable_continuous_pt. eexists. apply dilog_slope.
    + destruct (Req_dec x 0) as [-> | X].
      * apply (continuity_pt_comp (fun w => 1 + w) L); [|now rewrite Rplus_0_r].
        apply derivable_continuous_pt. eexists. dl.
      * apply derivable_continuous_pt. eexists. apply (shift_derivative L HL x X). lra.
  - intros x X Hx. pose proof (half_range x ltac:(lra)). split.
    + eapply dl_val; [apply dl_minus; [apply dilog_slope|apply (shift_derivative L HL x X); lra]|]. ring.
    + apply Rmult_le_reg_l with (Rabs x); [now apply Rabs_pos_lt|]. rewrite <- Rabs_mult.
      replace (x * (slope_series n x + ln (1 + x) / x)) with (ln (1 + x) - log_series n x).
      2:{ rewrite Rmult_plus_distr_l, slope_log. field. exact X. }
      eapply Rle_trans; [apply log_series_ok; lra|]. rewrite (Rmult_comm (Rabs x)).
      apply Rmult_le_compat_r; [apply Rabs_pos|]. apply Rmult_le_compat_l; [lra|].
      apply pow_incr. split; [apply Rabs_pos|exact Hx].
  - rewrite (proj2 (series_zero n)), Rplus_0_r, L1. ring.
Qed.

(** * The series with integer coefficients *)
Definition mono (k : nat) (c : Z) : list Z := repeat 0%Z k ++ [c].
Lemma peval_mono k c w : peval (mono k c) w = IZR c * w ^ k.
Proof. unfold mono. induction k as [|k IH]; cbn [repeat app peval pow]; [ring|]. rewrite IH. ring. Qed.
Definition zk (k : nat) : Z := Z.of_nat k.
Fixpoint dilog_poly (d : Z) (n : nat) : list Z :=
  match n with
  | O => []
  | S m => padd (dilog_poly d m) (mono n ((-1) ^ zk n * (d / zk n ^ 2)))
  end.
Fixpoint log_poly (d : Z) (n : nat) : list Z :=
  match n with
  | O => []
  | S m => padd (log_poly d m) (mono n (- ((-1) ^ zk n * (d / zk n))))
  end.
Fixpoint divides_all (d : Z) (n : nat) : bool :=
  match n with
  | O => true
  | S m => (d / zk n ^ 2 * zk n ^ 2 =? d)%Z && (d / zk n * zk n =? d)%Z && divides_all d m
  end.
Lemma IZR_pow_m1 n w : IZR ((-1) ^ zk n) * w ^ n = (- w) ^ n.
Proof.
  unfold zk. rewrite <- pow_IZR. replace (- w) with (-1 * w) by ring. rewrite Rpow_mult_distr. reflexivity.
Qed.
Lemma poly_series d n w : divides_all d n = true ->
  peval (dilog_poly d n) w = IZR d * dilog_series n w /\ peval (log_poly d n) w = IZR d * log_series n w.
Proof.
  induction n as [|n IH]; intro H; [cbn; split; ring|].
  cbn [divides_all] in H. apply andb_prop in H as [H H3]. apply andb_prop in H as [H1 H2].
  destruct (IH H3) as [I1 I2]. apply Z.eqb_eq in H1, H2. apply (f_equal IZR) in H1, H2.
  cbn [dilog_poly log_poly dilog_series log_series]. rewrite !peval_add, !peval_mono, I1, I2.
  rewrite mult_IZR in H1, H2. unfold zk in H1 at 2. rewrite <- (pow_IZR _ 2) in H1. unfold zk in H2 at 2.
  rewrite <- INR_IZR_INZ in H1, H2. pose proof (INR_S_pos n) as P.
  rewrite opp_IZR, !mult_IZR, <- (IZR_pow_m1 (S n) w).
  assert (E1 : IZR (d / zk (S n) ^ 2) = IZR d / INR (S n) ^ 2) by (rewrite <- H1; field; lra).
  assert (E2 : IZR (d / zk (S n)) = IZR d / INR (S n)) by (rewrite <- H2; field; lra).
  rewrite E1, E2. split; field; lra.
Qed.

Definition NT : nat := 56.
Definition DT : Z := Eval vm_compute in (fold_right Z.lcm 1%Z (map zk (seq 1 NT)) ^ 2)%Z.
Lemma DT_divides : divides_all DT NT = true.
Proof. vm_compute. reflexivity. Qed.

(** The two tables as integers, times 10^25 *)
Definition A25 : list Z := [10000000000000000012600000; 32977134098522510693600000; 42569715600812175572400000;
  27114985119655346992000000; 8796913117545303153410000; 1338476395783090186500000; 73158904523809471107100;
  465128586073990045278]%Z.
Definition B25 : list Z := [9999999999999999987400000; 35477134098522509621700000; 50327888014331699039000000;
  36380053334513707541800000; 14117259775183106961700000; 2829748606025680899430000; 254043763932544379113000;
  6909904889125532769990]%Z.
Definition P25 : list Z := padd (pmul B25 (dilog_poly DT NT)) (0%Z :: pscale DT A25).
Lemma P25_bound : pbound P25 (DT * 3 * 10 ^ 8) (DT * 1130000000) = true.
Proof. vm_compute. reflexivity. Qed.
Lemma B25_shift : forallb (Z.leb 0) (pshift (-8) B25) = true /\ forallb (Z.leb 0) B25 = true /\
  (109 * 10 ^ 22 * 16 ^ 7 <=? hd 0 (pshift (-8) B25))%Z = true.
Proof. vm_compute. auto. Qed.
Ltac tables :=
  unfold Q2R;
  repeat match goal with |- context [IZR (Qnum ?q)] => let v := eval vm_compute in (Qnum q) in change (Qnum q) with v end;
  repeat match goal with |- context [QDen ?q] => let v := eval vm_compute in (QDen q) in change (QDen q) with v end;
  change (F RMath) with R in *; change (F RNum) with R in *; field.
Lemma A_table (w : R) : polevl RMath w (SPENCE_A RMath) = peval A25 w / 10 ^ 25.
Proof.
  unfold polevl, SPENCE_A, A25. cbn [fold_left fma RMath mnum RNum lit peval]. tables.
Qed.
Lemma B_table (w : R) : polevl RMath w (SPENCE_B RMath) = peval B25 w / 10 ^ 25.
Proof.
  unfold polevl, SPENCE_B, B25. cbn [fold_left fma RMath mnum RNum lit peval]. tables.
Qed.

(** * The rational approximation around 1 *)
Definition rational (w : R) : R := - w * polevl RMath w (SPENCE_A RMath) / polevl RMath w (SPENCE_B RMath).
Lemma B_below w : - (1 / 2) <= w -> 109 / 1000 * 10 ^ 25 <= peval B25 w.
Proof.
  intro H. destruct B25_shift as (H1 & _ & H3). apply Z.leb_le, IZR_le in H3.
  pose proof (peval_nonneg _ (16 * w + 8) H1 ltac:(lra)) as P. pose proof (peval_shift (-8) B25 (16 * w + 8)) as S.
  replace ((16 * w + 8 + -8) / 16) with w in S by field.
  change (IZR (16 ^ Z.of_nat (length B25))) with 4294967296 in S.
  change (109 * 10 ^ 22 * 16 ^ 7)%Z with 292594647040000000000000000000000%Z in H3. lra.
Qed.
Lemma B_above w : 0 <= w -> 9999999999 / 10000000000 * 10 ^ 25 <= peval B25 w.
Proof.
  intro H. destruct B25_shift as (_ & H2 & _). pose proof (peval_nonneg _ w H2 H) as P. cbn [hd B25] in P. lra.
Qed.
Lemma rational_series w : - (1 / 2) <= w <= 1 / 2 -> Rabs (rational w - dilog_series NT w) <= 276 / 10 ^ 18.
Proof.
  intro H. pose proof (B_below w ltac:(lra)) as Bp. unfold rational. rewrite A_table, B_table.
  pose proof (proj1 (poly_series DT NT w DT_divides)) as E.
  assert (D : 0 < IZR DT) by (apply IZR_lt; reflexivity).
  assert (EP : peval P25 w = IZR DT * (peval B25 w * dilog_series NT w + w * peval A25 w)).
  { unfold P25. rewrite peval_add, peval_mul, E. cbn [peval]. rewrite peval_scale. ring. }
  replace (- w * (peval A25 w / 10 ^ 25) / (peval B25 w / 10 ^ 25) - dilog_series NT w)
    with (- (peval P25 w / (IZR DT * peval B25 w))).
  2:{ rewrite EP. field. lra. }
  rewrite Rabs_Ropp. unfold Rdiv. rewrite Rabs_mult.
  rewrite (Rabs_pos_eq (/ (IZR DT * peval B25 w))) by (left; apply Rinv_0_lt_compat; nra).
  apply Rmult_le_reg_r with (IZR DT * peval B25 w); [nra|]. rewrite Rmult_assoc, Rinv_l by nra. rewrite Rmult_1_r.
  destruct (pbound_ok _ _ _ P25_bound w H) as [[W P] | [W P]].
  - eapply Rle_trans; [exact P|]. rewrite !mult_IZR. change (IZR (10 ^ 8)) with 100000000. nra.
  - pose proof (B_above w W). eapply Rle_trans; [exact P|]. rewrite !mult_IZR. nra.
Qed.
Lemma pow_half n w : Rabs w <= 1 / 2 -> 2 * Rabs w ^ n * Rabs w <= (1 / 2) ^ n.
Proof.
  intro H. pose proof (pow_incr (Rabs w) (1 / 2) n (conj (Rabs_pos w) H)). pose proof (pow_le (1 / 2) n ltac:(lra)).
  pose proof (Rabs_pos w). pose proof (pow_le (Rabs w) n ltac:(lra)). nra.
Qed.
Lemma half_56 : (1 / 2) ^ NT <= 14 / 10 ^ 18.
Proof. unfold NT. lra. Qed.
Lemma rational_ok L w : spence_integral L -> Rabs w <= 1 / 2 -> Rabs (rational w - L (1 + w)) <= 29 / 10 ^ 17.
Proof.
  intros HL H. assert (W : - (1 / 2) <= w <= 1 / 2) by (pose proof (half_range w H); pose proof (Rle_abs w); lra).
  pose proof (rational_series w W) as S1. pose proof (dilog_series_ok L NT w HL H) as S2.
  pose proof (pow_half NT w H) as S3. pose proof half_56 as S4.
  replace (rational w - L (1 + w)) with ((rational w - dilog_series NT w) + (dilog_series NT w - L (1 + w))) by ring.
  eapply Rle_trans; [apply Rabs_triang|]. lra.
Qed.

(** * The constant pi^2/6 *)
Definition pi_term (n : nat) : Q :=
  ((2 * (1 # 3) ^ Z.of_nat (2 * n + 1) + (1 # 7) ^ Z.of_nat (2 * n + 1)) * (1 # Pos.of_nat (2 * n + 1)))%Q.
Fixpoint pi_sum (n : nat) : Q :=
  match n with
  | O => Qred (pi_term 0)
  | S m => Qred (pi_sum m + (if Nat.even n then pi_term n else - pi_term n))%Q
  end.
Lemma Q2R_pow q n : Q2R (q ^ Z.of_nat n) = Q2R q ^ n.
Proof.
  induction n as [|n IH]; [cbn; unfold Q2R; cbn; field|].
  rewrite Nat2Z.inj_succ. unfold Z.succ. cbn [pow]. rewrite <- IH, <- Q2R_mult. apply Qeq_eqR.
  destruct n as [|n].
  - cbn. ring.
  - rewrite Z.add_comm. apply Qpower.Qpower_plus_positive || rewrite Qpower.Qpower_plus'; try lia; try reflexivity.
Qed.
Lemma pi_term_R n : Q2R (pi_term n) = PI_2_3_7_tg n.
Proof.
  unfold pi_term, PI_2_3_7_tg, Ratan_seq. rewrite Q2R_mult, Q2R_plus, Q2R_mult, !Q2R_pow.
  replace (Q2R (1 # Pos.of_nat (2 * n + 1))) with (/ INR (2 * n + 1)).
  2:{ unfold Q2R. cbn [Qnum Qden]. rewrite Rmult_1_l, INR_IZR_INZ. do 2 f_equal. rewrite <- positive_nat_Z, Nat2Pos.id by lia.
    reflexivity. }
  replace (Q2R 2) with 2 by (unfold Q2R; cbn; field). replace (Q2R (1 # 3)) with (/ 3) by (unfold Q2R; cbn; field).
  replace (Q2R (1 # 7)) with (/ 7) by (unfold Q2R; cbn; field). unfold Rdiv. ring.
Qed.
Lemma Q2R_Qred q : Q2R (Qred q) = Q2R q.
Proof. apply Qeq_eqR, Qred_correct. Qed.
Lemma pi_sum_R n : Q2R (pi_sum n) = sum_f_R0 (tg_alt PI_2_3_7_tg) n.
Proof.
  induction n as [|n IH].
  - cbn [pi_sum sum_f_R0]. rewrite Q2R_Qred, pi_term_R. unfold tg_alt. cbn [pow]. ring.
  - cbn [sum_f_R0]. rewrite <- IH. change (pi_sum (S n)) with
      (Qred (pi_sum n + (if Nat.even (S n) then pi_term (S n) else - pi_term (S n)))).
    rewrite Q2R_Qred, Q2R_plus. f_equal. unfold tg_alt. rewrite <- pi_term_R. destruct (Nat.even (S n)) eqn:E.
    + apply Nat.even_spec in E as [k ->]. rewrite pow_1_even. ring.
    + rewrite <- Nat.negb_odd in E. apply negb_false_iff, Nat.odd_spec in E as [k ->].
      replace (2 * k + 1)%nat with (S (2 * k)) by lia. rewrite pow_1_odd, Q2R_opp. ring.
Qed.
Lemma Q2R_le_bool q p : Qle_bool q p = true -> Q2R q <= Q2R p.
Proof. intro H. apply Qle_Rle. now apply Qle_bool_iff. Qed.
Lemma pi_check : Qle_bool (314159265358979323846 # 400000000000000000000) (pi_sum 25) &&
  Qle_bool (pi_sum 24) (314159265358979323847 # 400000000000000000000) = true.
Proof. vm_compute. reflexivity. Qed.
Lemma PI_digits : 314159265358979323846 / 10 ^ 20 <= PI <= 314159265358979323847 / 10 ^ 20.
Proof.
  pose proof pi_check as H. apply andb_prop in H as [H1 H2]. apply Q2R_le_bool in H1, H2.
  pose proof (PI_2_3_7_ineq 12) as P. change (S (2 * 12)) with 25%nat in P. change (2 * 12)%nat with 24%nat in P.
  rewrite <- !pi_sum_R in P. set (a := Q2R (pi_sum 25)) in *. set (b := Q2R (pi_sum 24)) in *. clearbody a b.
  unfold Q2R in H1, H2. cbn [Qnum Qden] in H1, H2. lra.
Qed.
(** Values at -1/2 from the shifted polynomials *)
Lemma peval_half l : IZR (16 * hd 0%Z (pshift (-8) l)) = IZR (16 ^ Z.of_nat (length l)) * peval l (- (1 / 2)).
Proof.
  rewrite mult_IZR. pose proof (peval_shift (-8) l 0) as H. replace ((0 + -8) / 16) with (- (1 / 2)) in H by field.
  rewrite <- H. f_equal. destruct (pshift (-8) l) as [|a r]; cbn [hd peval]; ring.
Qed.
Definition half_check (l : list Z) (lo hi : Z) : bool :=
  let v := (16 * hd 0 (pshift (-8) l) * 10 ^ 20)%Z in let s := (16 ^ Z.of_nat (length l) * DT)%Z in
  ((lo * s <=? v) && (v <=? hi * s))%Z.
Lemma half_check_ok l lo hi v : half_check l lo hi = true -> peval l (- (1 / 2)) = IZR DT * v ->
  IZR lo / 10 ^ 20 <= v <= IZR hi / 10 ^ 20.
Proof.
  intros H E. unfold half_check in H. apply andb_prop in H as [H1 H2]. apply Z.leb_le, IZR_le in H1, H2.
  rewrite (mult_IZR _ (10 ^ 20)), peval_half, E, (mult_IZR lo), (mult_IZR _ DT) in H1.
  rewrite (mult_IZR _ (10 ^ 20)), peval_half, E, (mult_IZR hi), (mult_IZR _ DT) in H2.
  assert (D : 0 < IZR DT) by (apply IZR_lt; reflexivity).
  assert (P : 0 < IZR (16 ^ Z.of_nat (length l))) by (apply IZR_lt, Z.pow_pos_nonneg; lia).
  assert (S : 0 < IZR (16 ^ Z.of_nat (length l)) * IZR DT) by nra.
  set (s := IZR (16 ^ Z.of_nat (length l)) * IZR DT) in *.
  replace (IZR (16 ^ Z.of_nat (length l)) * (IZR DT * v)) with (s * v) in H1, H2 by (unfold s; ring).
  change (IZR (10 ^ 20)) with 100000000000000000000 in H1, H2. clearbody s. split.
  - apply Rmult_le_reg_l with s; [exact S|]. lra.
  - apply Rmult_le_reg_l with s; [exact S|]. lra.
Qed.
Lemma dilog_half_check : half_check (dilog_poly DT NT) 58224052646501250580 58224052646501250600 = true.
Proof. vm_compute. reflexivity. Qed.
Lemma log_half_check : half_check (log_poly DT NT) (-69314718055994531000) (-69314718055994530900) = true.
Proof. vm_compute. reflexivity. Qed.
(** The exact value of the constant is twice the value at one half plus the squared logarithm; it agrees with
    pi^2/6 to 8e-17, which is what the use below needs. *)
Definition spence_const (L : R -> R) : R := 2 * L (1 / 2) + ln (1 / 2) * ln (1 / 2).
Lemma Rabs_between a b e : Rabs (a - b) <= e -> b - e <= a <= b + e.
Proof. intro H. pose proof (Rle_abs (a - b)). pose proof (Rle_abs (- (a - b))). rewrite Rabs_Ropp in *. lra. Qed.
Lemma const_ok L : spence_integral L -> Rabs (spence_const L - PI * PI / 6) <= 8 / 10 ^ 17.
Proof.
  intro HL.
  assert (H : Rabs (- (1 / 2)) <= 1 / 2) by (rewrite Rabs_Ropp, Rabs_pos_eq; lra).
  pose proof (dilog_series_ok L NT _ HL H) as D. pose proof (log_series_ok NT _ H) as G.
  pose proof (pow_half NT _ H) as P. pose proof half_56 as Hf.
  destruct (poly_series DT NT (- (1 / 2)) DT_divides) as [E1 E2].
  pose proof (half_check_ok _ _ _ _ dilog_half_check E1) as C1. pose proof (half_check_ok _ _ _ _ log_half_check E2) as C2.
  replace (1 + - (1 / 2)) with (1 / 2) in * by field.
  set (d := dilog_series NT (- (1 / 2))) in *. set (g := log_series NT (- (1 / 2))) in *. clearbody d g.
  pose proof (Rabs_between _ _ _ (Rle_trans _ _ _ D (Rle_trans _ _ _ P Hf))) as D'.
  pose proof (Rabs_between _ _ _ (Rle_trans _ _ _ G (Rle_trans _ _ _ P Hf))) as G'.
  clear D G P E1 E2. unfold spence_const. set (l := ln (1 / 2)) in *. set (v := L (1 / 2)) in *. clearbody l v.
  pose proof PI_digits as HP. set (p := PI) in *. clearbody p.
  assert (sq : forall a b x, 0 <= a -> a <= x <= b -> a * a <= x * x <= b * b) by (intros; nra).
  pose proof (sq (69314718055994529400 / 10 ^ 20) (69314718055994532500 / 10 ^ 20) (- l) ltac:(lra) ltac:(lra)) as l2.
  pose proof (sq (314159265358979323846 / 10 ^ 20) (314159265358979323847 / 10 ^ 20) p ltac:(lra) HP) as p2.
  replace (- l * - l) with (l * l) in l2 by ring. set (x := l * l) in *. set (y := p * p) in *. clearbody x y.
  apply Rabs_le. split; lra.
Qed.

(** * Reflection and inversion *)
Lemma constant_between f a b : a < b -> (forall x, a < x < b -> derivable_pt_lim f x 0) ->
  forall x y, a < x < b -> a < y < b -> f x = f y.
Proof.
  intros H D.
  assert (K : forall x y, a < x < b -> a < y < b -> x <= y -> f x = f y).
  { intros x y Hx Hy Hxy.
    assert (B : Rabs (f y - f x) <= 0 * (y - x)).
    { apply (mvt_bound f (fun _ => 0)); [exact Hxy| |].
      - intros z Hz. apply derivable_continuous_pt. exists 0. apply D. lra.
      - intros z Hz. rewrite Rabs_R0. split; [apply D|]; lra. }
    rewrite Rmult_0_l in B. apply Rabs_between in B. lra. }
  intros x y Hx Hy. destruct (Rle_dec x y); [now apply K|]. symmetry. apply K; lra.
Qed.
Lemma exact_reflection L x : spence_integral L -> 0 < x < 1 -> L x + L (1 - x) = spence_const L - ln x * ln (1 - x).
Proof.
  intros (_ & _ & D) H.
  assert (E : (fun x => L x + L (1 - x) + ln x * ln (1 - x)) x = (fun x => L x + L (1 - x) + ln x * ln (1 - x)) (1 / 2)).
  { apply (constant_between (fun x => L x + L (1 - x) + ln x * ln (1 - x)) 0 1); [lra| |lra|lra]. intros y Hy.
    eapply dl_val.
    - apply dl_plus; [apply dl_plus; [apply D; lra|apply (dl_comp (fun x => 1 - x) L); [dl|apply D; lra]]|].
      apply dl_mult; [apply derivable_pt_lim_ln; lra|eapply dl_ln; [dl|lra]].
    - cbv beta. replace (1 - (1 - y)) with y by ring. field. lra. }
  cbv beta in E. unfold spence_const. replace (1 - 1 / 2) with (1 / 2) in E by field. lra.
Qed.
Lemma exact_inversion L x : spence_integral L -> 0 < x -> L x + L (1 / x) = - (1 / 2) * (ln x * ln x).
Proof.
  intros (L1 & Lc & D) H.
  set (G := fun x => L x + L (1 / x) + 1 / 2 * (ln x * ln x)).
  assert (Gd : forall y, 0 < y -> y <> 1 -> derivable_pt_lim G y 0).
  { intros y Y N. assert (1 / y <> 1) by (intro E; apply N; apply Rmult_eq_reg_r with (1 / y); [rewrite E at 2; field; lra|rewrite E; lra]).
    assert (0 < 1 / y) by (apply Rdiv_lt_0_compat; lra).
    eapply dl_val.
    - apply dl_plus; [apply dl_plus; [apply D; lra|apply (dl_comp (fun x => 1 / x) L); [apply dl_div; [dl|dl|lra]|apply D; lra]]|].
      apply dl_mult; [dl|apply dl_mult; apply derivable_pt_lim_ln; lra].
    - cbv beta. replace (ln (1 / y)) with (- ln y) by (unfold Rdiv; rewrite Rmult_1_l, ln_Rinv; lra).
      unfold Rsqr. field. lra. }
  assert (Gc : forall y, 0 < y -> continuity_pt G y).
  { intros y Y. destruct (Req_dec y 1) as [-> | N].
    - unfold G. apply (continuity_pt_plus (fun x => L x + L (1 / x)) (fun x => 1 / 2 * (ln x * ln x))).
      + apply (continuity_pt_plus L (fun x => L (1 / x))); [exact Lc|].
        apply (continuity_pt_comp (fun x => 1 / x) L).
        * apply derivable_continuous_pt. eexists. apply dl_div; [dl|dl|lra].
        * now replace (1 / 1) with 1 by field.
      + apply derivable_continuous_pt. eexists.
        apply dl_mult; [dl|apply dl_mult; apply derivable_pt_lim_ln; lra].
    - apply derivable_continuous_pt. exists 0. now apply Gd. }
  assert (G1 : G 1 = 0) by (unfold G; replace (1 / 1) with 1 by field; rewrite L1, ln_1; ring).
  assert (E : G x = 0).
  { destruct (Rle_dec 1 x) as [X|X].
    - assert (B : Rabs (G x - G 1) <= 0 * (x - 1)).
      { apply (mvt_bound G (fun _ => 0)); [exact X|intros; apply Gc; lra|].
        intros z Hz. rewrite Rabs_R0. split; [apply Gd|]; lra. }
      rewrite Rmult_0_l in B. apply Rabs_between in B. lra.
    - assert (B : Rabs (G 1 - G x) <= 0 * (1 - x)).
      { apply (mvt_bound G (fun _ => 0)); [lra|intros; apply Gc; lra|].
        intros z Hz. rewrite Rabs_R0. split; [apply Gd|]; lra. }
      rewrite Rmult_0_l in B. apply Rabs_between in B. lra. }
  unfold G in E. lra.
Qed.

(** * Such a function exists *)
Definition spence_slope (z : R) : R := if Req_EM_T z 1 then -1 else ln z / (1 - z).
Lemma spence_slope_cont z : 0 < z -> continuity_pt spence_slope z.
Proof.
  intro Z. destruct (Req_dec z 1) as [-> | N].
  - intros eps He. pose proof (derivable_pt_lim_ln 1 ltac:(lra) eps He) as [d Hd].
    exists d. split; [apply cond_pos|]. intros x [[_ Nx] Dx]. cbn in *. unfold R_dist in *.
    specialize (Hd (x - 1) ltac:(lra) Dx). replace (1 + (x - 1)) with x in Hd by ring. rewrite ln_1 in Hd.
    unfold spence_slope. destruct (Req_EM_T x 1); [lra|]. destruct (Req_EM_T 1 1); [|lra].
    replace (ln x / (1 - x) - -1) with (- ((ln x - 0) / (x - 1) - / 1)) by (field; lra).
    now rewrite Rabs_Ropp.
  - apply (continuity_pt_locally_ext (fun z => ln z / (1 - z)) spence_slope (Rabs (z - 1))).
    + apply Rabs_pos_lt. lra.
    + intros y Hy. unfold spence_slope. destruct (Req_EM_T y 1); [|reflexivity]. subst. unfold R_dist in Hy.
      rewrite <- Rabs_Ropp in Hy. replace (- (1 - z)) with (z - 1) in Hy by ring. lra.
    + apply derivable_continuous_pt. eexists. apply dl_div; [apply derivable_pt_lim_ln, Z|dl|lra].
Qed.
Lemma primitive_right g : (forall x, 0 < x -> continuity_pt g x) ->
  exists G, forall x, 0 < x -> derivable_pt_lim G x (g x).
Proof.
  intro C. exists (fun x => if Rle_dec 1 x then the_area g 1 x else - the_area g x 1). intros x Hx.
  destruct (primitive_open g 0 1 (x + 2)) as [H HH]; [lra|intros; apply C; lra|].
  assert (E : forall y, 0 < y < x + 2 -> (if Rle_dec 1 y then the_area g 1 y else - the_area g y 1) = H y - H 1).
  { intros y Hy. destruct (Rle_dec 1 y).
    - apply the_area_val; [lra|]. apply area_of_antiderivative. intros; apply HH; lra.
    - rewrite (the_area_val g y 1 (H 1 - H y)); [ring|lra|]. apply area_of_antiderivative. intros; apply HH; lra. }
  apply (derivable_pt_lim_locally_ext (fun y => H y - H 1) _ x 0 (x + 2)); [lra| |].
  - intros y Hy. symmetry. now apply E.
  - eapply dl_val; [apply dl_minus; [apply HH; lra|apply (dl_const (H 1))]|ring].
Qed.
Lemma spence_integral_exists : exists L, spence_integral L.
Proof.
  destruct (primitive_right spence_slope spence_slope_cont) as [G HG].
  exists (fun x => G x - G 1). repeat split; [ring| |].
  - apply derivable_continuous_pt. eexists. apply dl_minus; [apply HG; lra|apply (dl_const (G 1))].
  - intros z Z N. eapply dl_val; [apply dl_minus; [apply HG; exact Z|apply (dl_const (G 1))]|].
    unfold spence_slope. destruct (Req_EM_T z 1); [lra|ring].
Qed.
