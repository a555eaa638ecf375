(** The Gauss-Kronrod rules of QuadModel over exact real arithmetic. *)
From Coq Require Import List Arith Bool ZArith QArith Lia Reals Lra Qreals RMicromega.
From Verif Require Import RustBase RustBaseFacts QuadModel QuadProofs.
Import ListNotations.
Local Open Scope R_scope.

(** ** Vocabulary *)
Definition sum_over {A} (g : A -> R) (l : list A) : R := fold_right (fun a s => g a + s) 0 l.

(** A symmetric rule on [a,b]: weight [w0] at the middle, and for each pair (w, x) the weight w at
    the two points at distance x (in units of the half length) from the middle. *)
Definition rule_sum (w0 : Q) (wx : list (Q * Q)) (m h : R) (g : R -> R) : R :=
  Q2R w0 * g m
  + sum_over (fun p => Q2R (fst p) * (g (m - h * Q2R (snd p)) + g (m + h * Q2R (snd p)))) wx.
Definition rule (w0 : Q) (wx : list (Q * Q)) (a b : R) (g : R -> R) : R :=
  (b - a) / 2 * rule_sum w0 wx ((a + b) / 2) ((b - a) / 2) g.

(** The polynomial with coefficients [cs] (constant term first), and its integral over [a,b]. *)
Fixpoint poly (k : nat) (cs : list R) (x : R) : R :=
  match cs with [] => 0 | c :: r => c * x ^ k + poly (S k) r x end.
Fixpoint integral (k : nat) (cs : list R) (a b : R) : R :=
  match cs with [] => 0 | c :: r => c * ((b ^ S k - a ^ S k) / INR (S k)) + integral (S k) r a b end.
Definition size (cs : list R) : R := sum_over Rabs cs.

(** The pairs of the four rules: the Kronrod ones use all nodes, the Gauss ones every second. *)
Definition pick {A} (d : A) (l : list A) (js : list nat) : list A := map (fun j => nth j l d) js.
Definition K21 : list (Q * Q) := combine (firstn 10 WGK21) (firstn 10 XGK21).
Definition G10 : list (Q * Q) := combine WG21 (pick 0%Q XGK21 [1; 3; 5; 7; 9]%nat).
Definition K15 : list (Q * Q) := combine (firstn 7 WGK15) (firstn 7 XGK15).
Definition G7 : list (Q * Q) := combine (firstn 3 WG15) (pick 0%Q XGK15 [1; 3; 5]%nat).
Definition K21_0 : Q := nth 10 WGK21 0%Q.
Definition K15_0 : Q := nth 7 WGK15 0%Q.
Definition G7_0 : Q := nth 3 WG15 0%Q.

(** ** The code computes these rules *)
Lemma half_of (x : R) : Q2R 0.5 * x = x / 2.
Proof. unfold Q2R. cbn. lra. Qed.


Ltac run_rule :=
  cbv beta iota zeta delta [krule krule15 qk21 qk15 for_range loop rbind get set nth_error upd repeat length
    Nat.ltb Nat.leb Nat.sub Nat.mul Nat.add XGK21 WGK21 WG21 XGK15 WGK15 WG15 fadd fsub fmul fabs lit RNum
    K21 K15 G10 G7 K21_0 K15_0 G7_0 rule_sum sum_over fold_right combine firstn pick map nth fst snd].

Lemma kronrod_error_ext k k' g g' ra rs h :
  k = k' -> g = g' ->
  exists ra' rs', kronrod_error RNum k g ra rs h = kronrod_error RNum k' g' ra' rs' h.
Proof. intros -> ->. now exists ra, rs. Qed.
Ltac same_sum :=
  match goal with |- ?x = ?y => change (@eq R x y) end;
  repeat match goal with |- context [Q2R (Qmake ?n ?d)] => generalize (Q2R (Qmake n d)); intro end; ring.

Lemma krule_eq g c a b :
  exists resabs resasc,
    krule RNum (fun _ => g) c a b =
    kronrod_error RNum (rule_sum K21_0 K21 ((a + b) / 2) ((b - a) / 2) g)
      (rule_sum 0 G10 ((a + b) / 2) ((b - a) / 2) g) resabs resasc ((b - a) / 2).
Proof.
  rewrite <- (half_of (a + b)), <- (half_of (b - a)).
  run_rule. apply kronrod_error_ext; [|rewrite RMicromega.Q2R_0]; same_sum.
Qed.

Lemma krule15_eq g c a b :
  exists resabs resasc,
    krule15 RNum (fun _ => g) c a b =
    kronrod_error RNum (rule_sum K15_0 K15 ((a + b) / 2) ((b - a) / 2) g)
      (rule_sum G7_0 G7 ((a + b) / 2) ((b - a) / 2) g) resabs resasc ((b - a) / 2).
Proof.
  rewrite <- (half_of (a + b)), <- (half_of (b - a)).
  run_rule. apply kronrod_error_ext; same_sum.
Qed.

(** ** Moments *)
Definition scale : Z := (10 ^ 33)%Z.
Definition scaled (q : Q) : bool := Z.eqb (Zpos (Qden q)) scale.
Definition scaled_rule (w0 : Q) (wx : list (Q * Q)) : bool :=
  (Z.eqb (Qnum w0) 0 || scaled w0) && forallb (fun p => scaled (fst p) && scaled (snd p)) wx.
(** Powers are carried as integers in units of 10^-40, rounded down after every multiplication by
    the square of the node; the weights are integers in units of 10^-33. *)
Definition T : Z := (10 ^ 40)%Z.
Record term := Term { t_w : Z; t_sq : Z; t_pow : Z }.
Definition start (p : Q * Q) : term :=
  Term (Qnum (fst p)) (Qnum (snd p) * Qnum (snd p) / 10 ^ 26) T.
Definition step (t : term) : term := Term (t_w t) (t_sq t) (t_pow t * t_sq t / T).
Definition total (ts : list term) : Z := fold_right (fun t s => t_w t * t_pow t + s)%Z 0%Z ts.
(** |2 total + w0 - 2/(2j+1)| <= 9 * 10^-33 *)
Definition close (w0 : Z) (ts : list term) (j : nat) : bool :=
  let n := Z.of_nat (S (2 * j)) in
  (Z.abs ((w0 * T + 2 * total ts) * n - 2 * scale * T) <=? 9 * n * T)%Z.
Fixpoint all_close (w0 : Z) (ts : list term) (j more : nat) : bool :=
  match more with
  | O => true
  | S more => close w0 ts j && all_close 0 (map step ts) (S j) more
  end.
Definition unit_Z (z : Z) : bool := (0 <=? z)%Z && (z <=? scale)%Z.
Definition even_moments_ok (w0 : Q) (wx : list (Q * Q)) (d : nat) : bool :=
  all_close (Qnum w0) (map start wx) 0 (S (d / 2))
  && forallb (fun p => unit_Z (Qnum (fst p)) && unit_Z (Qnum (snd p))) wx
  && Nat.leb (length wx) 10 && Nat.leb d 31.

Lemma moments_checked :
  even_moments_ok K21_0 K21 31 && scaled_rule K21_0 K21
  && even_moments_ok 0 G10 19 && scaled_rule 0 G10
  && even_moments_ok K15_0 K15 23 && scaled_rule K15_0 K15
  && even_moments_ok G7_0 G7 13 && scaled_rule G7_0 G7 = true.
Proof. vm_compute. reflexivity. Qed.

Lemma scale_pos : 0 < IZR scale.
Proof. apply IZR_lt. reflexivity. Qed.
Lemma scaled_Q2R q : scaled q = true -> Q2R q = IZR (Qnum q) / IZR scale.
Proof.
  unfold scaled. intro H. apply Z.eqb_eq in H. unfold Q2R. rewrite H. reflexivity.
Qed.
Lemma zero_num_Q2R q : Z.eqb (Qnum q) 0 = true -> Q2R q = 0.
Proof. intro H. apply Z.eqb_eq in H. unfold Q2R. rewrite H. ring. Qed.

Lemma sum_over_ext {A} (f g : A -> R) l : (forall x, In x l -> f x = g x) -> sum_over f l = sum_over g l.
Proof.
  induction l as [|x l IH]; intro H; [reflexivity|]. cbn [sum_over fold_right].
  unfold sum_over in IH. rewrite IH by (intros y Hy; apply H; now right). rewrite (H x) by now left. reflexivity.
Qed.
Lemma sum_over_plus {A} (f g : A -> R) l : sum_over (fun x => f x + g x) l = sum_over f l + sum_over g l.
Proof. induction l as [|x l IH]; unfold sum_over in *; cbn [fold_right]; [ring|rewrite IH; ring]. Qed.
Lemma sum_over_scale {A} c (f : A -> R) l : sum_over (fun x => c * f x) l = c * sum_over f l.
Proof. induction l as [|x l IH]; unfold sum_over in *; cbn [fold_right]; [ring|rewrite IH; ring]. Qed.

Lemma pow_opp_even k x : Nat.even k = true -> (- x) ^ k = x ^ k.
Proof.
  intro H. apply Nat.even_spec in H. destruct H as [j ->]. rewrite !pow_mult. f_equal. ring.
Qed.
Lemma pow_opp_odd k x : Nat.even k = false -> (- x) ^ k = - x ^ k.
Proof.
  intro H. assert (Ho : Nat.odd k = true) by (unfold Nat.odd; now rewrite H).
  apply Nat.odd_spec in Ho. destruct Ho as [j ->]. rewrite Nat.add_1_r. cbn [pow].
  rewrite !pow_mult. replace ((- x) ^ 2) with (x ^ 2) by ring. ring.
Qed.

Lemma monomial_odd w0 wx k : Nat.even k = false -> rule_sum w0 wx 0 1 (fun x => x ^ k) = 0.
Proof.
  intro H. unfold rule_sum. assert (E : 0 ^ k = 0) by (apply pow_i; destruct k; [discriminate|lia]).
  rewrite E, (sum_over_ext _ (fun p => 0 * 0)).
  - rewrite sum_over_scale. ring.
  - intros [w x] _. cbn [fst snd]. replace (0 - 1 * Q2R x) with (- (Q2R x)) by ring.
    replace (0 + 1 * Q2R x) with (Q2R x) by ring. rewrite pow_opp_odd by exact H. ring.
Qed.

Lemma div_IZR a b : (0 < b)%Z -> IZR a / IZR b - 1 <= IZR (a / b) <= IZR a / IZR b.
Proof.
  intro Hb. pose proof (Z.mul_div_le a b Hb) as H1. pose proof (Z.mul_succ_div_gt a b Hb) as H2.
  apply IZR_le in H1. apply IZR_lt in H2. rewrite mult_IZR in *. unfold Z.succ in H2. rewrite plus_IZR in H2.
  assert (0 < IZR b) by (apply IZR_lt; exact Hb). set (q := IZR (a / b)) in *. clearbody q.
  assert (E : IZR a / IZR b * IZR b = IZR a) by (field; lra). set (r := IZR a / IZR b) in *. clearbody r. nra.
Qed.

(** A term stands for weight w and node x after j steps. *)
Definition stands (t : term) (w x : R) (j : nat) : Prop :=
  0 <= w <= 1 /\ 0 <= x <= 1 /\ IZR (t_w t) = w * IZR scale
  /\ x ^ 2 * IZR T - 1 <= IZR (t_sq t) <= x ^ 2 * IZR T
  /\ x ^ (2 * j) * IZR T - 2 * INR j <= IZR (t_pow t) <= x ^ (2 * j) * IZR T
  /\ 0 <= IZR (t_pow t) /\ 0 <= IZR (t_sq t).
Lemma T_pos : 0 < IZR T.
Proof. apply IZR_lt. reflexivity. Qed.

Lemma pow_unit x n : 0 <= x <= 1 -> 0 <= x ^ n <= 1.
Proof. intro H. induction n as [|n IH]; cbn [pow]; [lra|]. nra. Qed.

Lemma start_stands p : scaled (fst p) = true -> scaled (snd p) = true ->
  unit_Z (Qnum (fst p)) = true -> unit_Z (Qnum (snd p)) = true ->
  stands (start p) (Q2R (fst p)) (Q2R (snd p)) 0.
Proof.
  destruct p as [w x]. cbn [fst snd start]. intros Hw Hx Uw Ux.
  assert (U : forall q, scaled q = true -> unit_Z (Qnum q) = true -> 0 <= Q2R q <= 1 /\ IZR (Qnum q) = Q2R q * IZR scale).
  { intros q Hq Uq. rewrite (scaled_Q2R _ Hq). pose proof scale_pos as Hp. unfold unit_Z in Uq.
    apply andb_true_iff in Uq. destruct Uq as [U1 U2]. apply Z.leb_le, IZR_le in U1. apply Z.leb_le, IZR_le in U2.
    assert (E : IZR (Qnum q) / IZR scale * IZR scale = IZR (Qnum q)) by (field; lra).
    set (r := IZR (Qnum q) / IZR scale) in *. clearbody r. split; [|lra]. split; nra. }
  destruct (U _ Hw Uw) as [W1 W2]. destruct (U _ Hx Ux) as [X1 X2]. clear U.
  pose proof T_pos as HT. unfold stands, start. cbn [t_w t_sq t_pow fst snd].
  pose proof (div_IZR (Qnum x * Qnum x) (10 ^ 26) ltac:(reflexivity)) as D.
  rewrite mult_IZR, X2 in D.
  assert (E : Q2R x * IZR scale * (Q2R x * IZR scale) / IZR (10 ^ 26) = Q2R x ^ 2 * IZR T).
  { assert (K : (scale * scale = T * 10 ^ 26)%Z) by reflexivity. apply (f_equal IZR) in K. rewrite !mult_IZR in K.
    assert (0 < IZR (10 ^ 26)) by (apply IZR_lt; reflexivity).
    replace (Q2R x * IZR scale * (Q2R x * IZR scale)) with (Q2R x ^ 2 * (IZR scale * IZR scale)) by ring.
    rewrite K. field. lra. }
  rewrite E in D. clear E.
  split; [exact W1|]. split; [exact X1|]. split; [exact W2|]. split; [exact D|].
  rewrite Nat.mul_0_r. rewrite pow_O. change (INR 0) with 0.
  split; [lra|]. split; [lra|]. apply (IZR_le 0), Z.div_pos; [apply Z.square_nonneg|reflexivity].
Qed.

Lemma step_stands t w x j : stands t w x j -> stands (step t) w x (S j).
Proof.
  intros (Hw & Hx & Ew & Hsq & Hp & P0 & S0). pose proof T_pos as HT. unfold stands, step. cbn [t_w t_sq t_pow].
  pose proof (div_IZR (t_pow t * t_sq t) T ltac:(reflexivity)) as D. rewrite mult_IZR in D.
  split; [exact Hw|]. split; [exact Hx|]. split; [exact Ew|]. split; [exact Hsq|].
  assert (N : 0 <= IZR (t_pow t * t_sq t / T)).
  { apply (IZR_le 0), Z.div_pos; [|reflexivity]. apply Z.mul_nonneg_nonneg; apply le_IZR; assumption. }
  split; [|split; assumption]. clear N.
  replace (2 * S j)%nat with (2 * j + 2)%nat by lia. rewrite pow_add, S_INR.
  pose proof (pow_unit x (2 * j) Hx) as H1. pose proof (pow_unit x 2 Hx) as H2.
  set (u := x ^ (2 * j)) in *. set (v := x ^ 2) in *. clearbody u v.
  set (p := IZR (t_pow t)) in *. set (q := IZR (t_sq t)) in *. set (r := IZR (t_pow t * t_sq t / T)) in *.
  set (M := IZR T) in *. clearbody p q r M. pose proof (pos_INR j) as Hj. set (n := INR j) in *. clearbody n.
  assert (E : p * q / M * M = p * q) by (field; lra). set (d := p * q / M) in *. clearbody d.
  assert (L : d <= u * v * M).
  { apply (Rmult_le_reg_r M); [lra|]. rewrite E. replace (u * v * M * M) with ((u * M) * (v * M)) by ring.
    apply Rmult_le_compat; lra. }
  assert (G : u * v * M - 2 * n - 1 <= d).
  { apply (Rmult_le_reg_r M); [lra|]. rewrite E.
    (* p = uM - a with 0 <= a <= 2n, q = vM - b with 0 <= b <= 1 *)
    set (a := u * M - p). set (b := v * M - q). assert (0 <= a <= 2 * n) by (unfold a; lra).
    assert (0 <= b <= 1) by (unfold b; lra).
    replace p with (u * M - a) by (unfold a; ring). replace q with (v * M - b) by (unfold b; ring).
    replace ((u * M - a) * (v * M - b)) with (u * v * M * M - a * v * M - b * u * M + a * b) by ring.
    assert (a * v <= 2 * n) by nra. assert (b * u <= 1) by nra. assert (0 <= a * b) by nra.
    assert (a * v * M <= 2 * n * M) by nra. assert (b * u * M <= 1 * M) by nra. nra. }
  lra.
Qed.

Lemma steps_stand ts wx j :
  Forall2 (fun t p => stands t (Q2R (fst p)) (Q2R (snd p)) j) ts wx ->
  Forall2 (fun t p => stands t (Q2R (fst p)) (Q2R (snd p)) (S j)) (map step ts) wx.
Proof. induction 1; cbn [map]; constructor; [now apply step_stands|assumption]. Qed.

Lemma total_close ts wx j :
  Forall2 (fun t p => stands t (Q2R (fst p)) (Q2R (snd p)) j) ts wx ->
  let e := sum_over (fun p => Q2R (fst p) * Q2R (snd p) ^ (2 * j)) wx - IZR (total ts) / (IZR scale * IZR T) in
  0 <= e <= INR (length wx) * (2 * INR j / IZR T).
Proof.
  pose proof scale_pos as Hs. pose proof T_pos as HT.
  induction 1 as [|t [w x] ts wx H HF IH]; cbn [sum_over fold_right total length fst snd].
  - cbn [INR]. unfold Rdiv. rewrite Rmult_0_l. lra.
  - cbn zeta in IH. unfold sum_over, total in IH. rewrite plus_IZR, mult_IZR, S_INR.
    destruct H as (Hw & Hx & Ew & _ & Hp & P0 & _). cbn [fst snd] in *. rewrite Ew.
    set (w' := Q2R w) in *. set (u := Q2R x ^ (2 * j)) in *. set (p := IZR (t_pow t)) in *.
    set (s := fold_right _ _ wx) in *. set (z := IZR (fold_right _ _ ts)) in *. set (n := INR (length wx)) in *.
    replace (w' * u + s - (w' * IZR scale * p + z) / (IZR scale * IZR T))
      with (w' * (u - p / IZR T) + (s - z / (IZR scale * IZR T))) by (field; lra).
    pose proof (pos_INR j) as Hj. set (e := s - z / (IZR scale * IZR T)) in *. clearbody e.
    assert (K : 0 <= u - p / IZR T <= 2 * INR j / IZR T).
    { assert (E : p / IZR T * IZR T = p) by (field; lra). assert (E2 : 2 * INR j / IZR T * IZR T = 2 * INR j) by (field; lra).
      set (d := p / IZR T) in *. set (m := 2 * INR j / IZR T) in *. clearbody d m. split; nra. }
    set (y := u - p / IZR T) in *. clearbody y. nra.
Qed.

Lemma monomial_even w0 wx j :
  rule_sum w0 wx 0 1 (fun x => x ^ (2 * j))
  = (if Nat.eqb j 0 then Q2R w0 else 0) + 2 * sum_over (fun p => Q2R (fst p) * Q2R (snd p) ^ (2 * j)) wx.
Proof.
  unfold rule_sum. rewrite <- sum_over_scale. f_equal.
  - destruct j as [|j]; [cbn; ring|]. cbn [Nat.eqb]. rewrite pow_i by lia. ring.
  - apply sum_over_ext. intros [w x] _. cbn [fst snd]. replace (0 - 1 * Q2R x) with (- (Q2R x)) by ring.
    replace (0 + 1 * Q2R x) with (Q2R x) by ring. rewrite pow_opp_even; [ring|].
    rewrite Nat.even_mul. reflexivity.
Qed.

Lemma all_close_nth w0 ts j m i : all_close w0 ts j m = true -> (i < m)%nat ->
  close (if Nat.eqb i 0 then w0 else 0) (Nat.iter i (map step) ts) (j + i) = true.
Proof.
  revert w0 ts j i. induction m as [|m IH]; intros w0 ts j i H Hi; [lia|].
  cbn [all_close] in H. apply andb_true_iff in H. destruct H as [H1 H2]. destruct i as [|i].
  - rewrite Nat.add_0_r. exact H1.
  - specialize (IH _ _ _ i H2 ltac:(lia)). cbn [Nat.eqb]. rewrite Nat.add_succ_r.
    assert (E : forall (f : list term -> list term) n l, Nat.iter n f (f l) = f (Nat.iter n f l)).
    { intros f n l. induction n as [|n IHn]; [reflexivity|]. cbn [Nat.iter nat_rect]. f_equal. exact IHn. }
    rewrite E in IH. destruct (Nat.eqb i 0); exact IH.
Qed.

Lemma moment_close w0 wx d j : scaled_rule w0 wx = true -> even_moments_ok w0 wx d = true -> (2 * j <= d)%nat ->
  Rabs (rule_sum w0 wx 0 1 (fun x => x ^ (2 * j)) - 2 / INR (S (2 * j))) <= / 10 ^ 32.
Proof.
  intros Hs Hm Hj. unfold even_moments_ok in Hm. apply andb_true_iff in Hm. destruct Hm as [Hm Hd].
  apply andb_true_iff in Hm. destruct Hm as [Hm Hl]. apply andb_true_iff in Hm. destruct Hm as [Hm H1].
  apply andb_true_iff in Hs. destruct Hs as [H0 Hs].
  assert (Hjd : (j < S (d / 2))%nat).
  { pose proof (Nat.div_le_lower_bound d 2 j ltac:(lia) ltac:(lia)). lia. }
  apply (all_close_nth _ _ _ _ _ Hm) in Hjd. clear Hm. cbn [Nat.add] in Hjd.
  assert (HF : forall i, Forall2 (fun t p => stands t (Q2R (fst p)) (Q2R (snd p)) i) (Nat.iter i (map step) (map start wx)) wx).
  { induction i as [|i IH].
    - cbn [Nat.iter nat_rect]. clear - Hs H1. induction wx as [|p wx IH]; cbn [map]; constructor.
      + cbn [forallb] in Hs, H1. apply andb_true_iff in Hs, H1. destruct Hs as [Ha _], H1 as [Hb _].
        apply andb_true_iff in Ha, Hb. apply start_stands; tauto.
      + cbn [forallb] in Hs, H1. apply andb_true_iff in Hs, H1. apply IH; tauto.
    - exact (steps_stand _ _ _ IH). }
  pose proof (total_close _ _ _ (HF j)) as HT. clear HF. cbn zeta in HT. rewrite monomial_even.
  set (M := sum_over _ wx) in *. set (z := total _) in *. unfold close in Hjd. fold z in Hjd.
  apply Nat.leb_le in Hd. apply Nat.leb_le in Hl.
  assert (Hw : IZR (if Nat.eqb j 0 then Qnum w0 else 0) = (if Nat.eqb j 0 then Q2R w0 else 0) * IZR scale).
  { pose proof scale_pos. destruct (Nat.eqb j 0); [|ring]. apply orb_true_iff in H0. destruct H0 as [H0|H0].
    - rewrite (zero_num_Q2R _ H0). apply Z.eqb_eq in H0. rewrite H0. ring.
    - rewrite (scaled_Q2R _ H0). field. lra. }
  set (v := if Nat.eqb j 0 then Q2R w0 else 0) in *. apply Z.leb_le, IZR_le in Hjd.
  rewrite abs_IZR, minus_IZR, !mult_IZR, plus_IZR, !mult_IZR, Hw in Hjd. rewrite INR_IZR_INZ.
  assert (Hn : 0 < IZR (Z.of_nat (S (2 * j)))) by (apply IZR_lt; lia).
  set (n := IZR (Z.of_nat (S (2 * j)))) in *. clearbody n. clearbody v z M. clear Hw H0.
  assert (Hlen : INR (length wx) * (2 * INR j / IZR T) <= / 2 * / 10 ^ 33).
  { assert (L1 : INR (length wx) <= 10) by (replace 10 with (INR 10) by (cbn; lra); now apply le_INR).
    assert (L2 : 2 * INR j <= 31).
    { replace 31 with (INR 31) by (cbn; lra). replace 2 with (INR 2) by (cbn; lra). rewrite <- mult_INR. apply le_INR. lia. }
    pose proof (pos_INR (length wx)). pose proof (pos_INR j). pose proof T_pos as HTp.
    apply Rle_trans with (10 * (31 / IZR T)).
    - apply Rmult_le_compat; try lra.
      + apply Rmult_le_pos; [lra|]. left. now apply Rinv_0_lt_compat.
      + unfold Rdiv. apply Rmult_le_compat_r; [|lra]. left. now apply Rinv_0_lt_compat.
    - apply (Rmult_le_reg_r (IZR T)); [lra|]. replace (10 * (31 / IZR T) * IZR T) with 310 by (field; lra).
      replace (IZR T) with (10000000 * 10 ^ 33).
      2:{ change (IZR T) with (IZR (10000000 * 10 ^ Z.of_nat 33)). rewrite mult_IZR, <- pow_IZR. reflexivity. }
      assert (0 < 10 ^ 33) by (apply pow_lt; lra). field_simplify; lra. }
  assert (Esc : IZR scale = 10 ^ 33).
  { change scale with (10 ^ Z.of_nat 33)%Z. now rewrite <- pow_IZR. }
  pose proof scale_pos as Hsp. pose proof T_pos as HTp. rewrite <- Esc in Hlen.
  replace (10 ^ 32) with (IZR scale / 10) by (rewrite Esc; cbn [pow]; lra). clear Esc.
  set (S := IZR scale) in *. set (t := IZR T) in *. set (z' := IZR z) in *. clearbody S t z'. clear z. rename z' into z.
  replace (v + 2 * M - 2 / n) with ((v + 2 * (z / (S * t)) - 2 / n) + 2 * (M - z / (S * t))) by ring.
  eapply Rle_trans; [apply Rabs_triang|].
  assert (B1 : Rabs (v + 2 * (z / (S * t)) - 2 / n) <= 9 * / S).
  { replace (v + 2 * (z / (S * t)) - 2 / n) with (((v * S * t + 2 * z) * n - 2 * S * t) * / (n * (S * t))) by (field; lra).
    assert (0 < S * t) by now apply Rmult_lt_0_compat. assert (0 < n * (S * t)) by now apply Rmult_lt_0_compat.
    rewrite Rabs_mult, Rabs_inv, (Rabs_pos_eq (n * (S * t))) by lra.
    apply (Rmult_le_reg_r (n * (S * t))); [assumption|].
    rewrite Rmult_assoc, Rinv_l, Rmult_1_r by lra.
    replace (9 * / S * (n * (S * t))) with (9 * n * t) by (field; lra). exact Hjd. }
  assert (B2 : Rabs (2 * (M - z / (S * t))) <= / S).
  { rewrite Rabs_pos_eq by lra. lra. }
  assert (/ (S / 10) = 10 * / S) by (field; lra). lra.
Qed.

Lemma rule_sum_lin w0 wx m h c f g :
  rule_sum w0 wx m h (fun x => c * f x + g x) = c * rule_sum w0 wx m h f + rule_sum w0 wx m h g.
Proof.
  unfold rule_sum.
  rewrite (sum_over_ext _ (fun p => c * (Q2R (fst p) * (f (m - h * Q2R (snd p)) + f (m + h * Q2R (snd p))))
     + Q2R (fst p) * (g (m - h * Q2R (snd p)) + g (m + h * Q2R (snd p)))))
    by (intros p _; ring).
  rewrite sum_over_plus, sum_over_scale. ring.
Qed.
Lemma rule_sum_zero w0 wx m h : rule_sum w0 wx m h (fun _ => 0) = 0.
Proof.
  unfold rule_sum. rewrite (sum_over_ext _ (fun _ => 0 * 0)) by (intros p _; ring).
  rewrite sum_over_scale. ring.
Qed.
Lemma rule_sum_ext w0 wx m h f g : (forall x, f x = g x) -> rule_sum w0 wx m h f = rule_sum w0 wx m h g.
Proof.
  intro H. unfold rule_sum. rewrite H. f_equal. apply sum_over_ext. intros p _. now rewrite !H.
Qed.
Lemma rule_sum_affine w0 wx m h g : rule_sum w0 wx m h g = rule_sum w0 wx 0 1 (fun t => g (m + h * t)).
Proof.
  unfold rule_sum. f_equal; [do 2 f_equal; ring|]. apply sum_over_ext. intros p _.
  do 2 f_equal; f_equal; ring.
Qed.

Lemma poly_close w0 wx d : scaled_rule w0 wx = true -> even_moments_ok w0 wx d = true ->
  forall cs k, (k + length cs <= S d)%nat ->
  Rabs (rule_sum w0 wx 0 1 (poly k cs) - integral k cs (-1) 1) <= size cs / 10 ^ 32.
Proof.
  intros Hs Hm. induction cs as [|c cs IH]; intros k Hk.
  - cbn [integral]. change (size []) with 0. change (poly k []) with (fun _ : R => 0). rewrite rule_sum_zero.
    rewrite Rminus_0_r, Rabs_R0. unfold Rdiv. rewrite Rmult_0_l. apply Rle_refl.
  - cbn [length] in Hk. specialize (IH (S k) ltac:(lia)).
    cbn [integral]. change (poly k (c :: cs)) with (fun x => c * x ^ k + poly (S k) cs x).
    rewrite rule_sum_lin. change (size (c :: cs)) with (Rabs c + size cs).
    assert (Hmk : Rabs (rule_sum w0 wx 0 1 (fun x => x ^ k) - (1 ^ S k - (-1) ^ S k) / INR (S k)) <= / 10 ^ 32).
    { rewrite pow1. destruct (Nat.even k) eqn:He.
      - replace ((-1) ^ S k) with (-1).
        2:{ symmetry. change (-1) with (- (1)). rewrite pow_opp_odd; [rewrite pow1; reflexivity|].
            rewrite Nat.even_succ. unfold Nat.odd. now rewrite He. }
        replace (1 - -1) with 2 by ring. apply Nat.even_spec in He. destruct He as [j ->].
        apply (moment_close _ _ d); auto. lia.
      - replace ((-1) ^ S k) with 1.
        2:{ symmetry. change (-1) with (- (1)). rewrite pow_opp_even; [apply pow1|].
            rewrite Nat.even_succ. unfold Nat.odd. now rewrite He. }
        rewrite monomial_odd by exact He. unfold Rdiv. rewrite Rminus_eq_0, Rmult_0_l, Rminus_0_r, Rabs_R0.
        left. apply Rinv_0_lt_compat, pow_lt. lra. }
    set (M := rule_sum w0 wx 0 1 (fun x => x ^ k)) in *.
    set (I := (1 ^ S k - (-1) ^ S k) / INR (S k)) in *.
    set (P := rule_sum w0 wx 0 1 (poly (S k) cs)) in *. set (J := integral (S k) cs (-1) 1) in *.
    clearbody M I P J.
    replace (c * M + P - (c * I + J)) with (c * (M - I) + (P - J)) by ring.
    eapply Rle_trans; [apply Rabs_triang|]. rewrite Rabs_mult.
    pose proof (Rmult_le_compat_l (Rabs c) _ _ (Rabs_pos c) Hmk).
    unfold Rdiv in *. rewrite Rmult_plus_distr_r. lra.
Qed.

(** ** The 21-point rule *)
Lemma krule_result g c a b : k_result RNum (krule RNum (fun _ => g) c a b) = rule K21_0 K21 a b g.
Proof.
  destruct (krule_eq g c a b) as (ra & rs & ->). unfold kronrod_error. cbn [k_result].
  change (fmul RNum) with Rmult. unfold rule. apply Rmult_comm.
Qed.
Lemma krule15_result g c a b : k_result RNum (krule15 RNum (fun _ => g) c a b) = rule K15_0 K15 a b g.
Proof.
  destruct (krule15_eq g c a b) as (ra & rs & ->). unfold kronrod_error. cbn [k_result].
  change (fmul RNum) with Rmult. unfold rule. apply Rmult_comm.
Qed.

Definition degree_exact (w0 : Q) (wx : list (Q * Q)) (d : nat) : Prop :=
  forall cs a b g, (length cs <= S d)%nat ->
  (forall x, (b - a) / 2 * g x = (b - a) / 2 * poly 0 cs ((x - (a + b) / 2) / ((b - a) / 2))) ->
  Rabs (rule w0 wx a b g - (b - a) / 2 * integral 0 cs (-1) 1) <= Rabs ((b - a) / 2) * (size cs / 10 ^ 32).

Lemma degree_exact_of w0 wx d : scaled_rule w0 wx = true -> even_moments_ok w0 wx d = true ->
  degree_exact w0 wx d.
Proof.
  intros Hs Hm cs a b g Hl Hg. unfold rule. set (h := (b - a) / 2) in *. set (m := (a + b) / 2) in *.
  destruct (Req_dec h 0) as [E|E].
  - rewrite E, !Rmult_0_l, Rminus_0_r, Rabs_R0, Rmult_0_l. apply Rle_refl.
  - rewrite <- Rmult_minus_distr_l, Rabs_mult. apply Rmult_le_compat_l; [apply Rabs_pos|].
    rewrite rule_sum_affine, (rule_sum_ext _ _ _ _ _ (poly 0 cs)).
    + eapply poly_close; eauto.
    + intro x. apply (Rmult_eq_reg_l h); [|exact E]. rewrite Hg. do 2 f_equal. field. exact E.
Qed.

Lemma rules_exact :
  degree_exact K21_0 K21 31 /\ degree_exact 0 G10 19 /\ degree_exact K15_0 K15 23 /\ degree_exact G7_0 G7 13.
Proof.
  pose proof moments_checked as H. do 7 (apply andb_true_iff in H; destruct H as [H ?]).
  split; [|split; [|split]]; apply degree_exact_of; assumption.
Qed.

(** ** Where the rules look *)
Lemma loop_ext {E S} (b1 b2 : nat -> S -> rr E (ctl S)) n i s :
  (forall j t, b1 j t = b2 j t) -> loop n i b1 s = loop n i b2 s.
Proof.
  intro H. revert i s. induction n as [|n IH]; intros i s; [reflexivity|]. cbn [loop]. rewrite H.
  destruct (b2 i s) as [c| |]; try reflexivity. cbn [rbind]. destruct c; auto.
Qed.
Lemma bind_ext {E A B} (r : rr E A) (k1 k2 : A -> rr E B) :
  (forall a, r = Ok a -> k1 a = k2 a) -> rbind r k1 = rbind r k2.
Proof. intro H. destruct r; cbn [rbind]; auto. Qed.

Definition in_unit (q : Q) : bool := Qle_bool 0 q && Qle_bool q 1.
Lemma in_unit_R q : in_unit q = true -> 0 <= Q2R q <= 1.
Proof.
  unfold in_unit. intro H. apply andb_true_iff in H. destruct H as [H1 H2].
  apply Qle_bool_iff, Qle_Rle in H1. apply Qle_bool_iff, Qle_Rle in H2.
  rewrite RMicromega.Q2R_0 in H1. rewrite RMicromega.Q2R_1 in H2. lra.
Qed.
Lemma nodes_in_unit : forallb in_unit XGK21 && forallb in_unit XGK15 = true.
Proof. vm_compute. reflexivity. Qed.

Lemma get_node (l : list Q) i x : forallb in_unit l = true -> @get QuadError Q l i = Ok x -> 0 <= Q2R x <= 1.
Proof.
  intros Hl H. unfold get in H. destruct (nth_error l i) as [y|] eqn:E; [|discriminate]. injection H as ->.
  apply in_unit_R. rewrite forallb_forall in Hl. apply Hl. eapply nth_error_In; eauto.
Qed.

Lemma inside_node a b x : 0 <= x <= 1 ->
  Rmin a b <= Q2R 0.5 * (a + b) - Q2R 0.5 * (b - a) * x <= Rmax a b /\
  Rmin a b <= Q2R 0.5 * (a + b) + Q2R 0.5 * (b - a) * x <= Rmax a b.
Proof.
  intro H. rewrite !half_of. unfold Rmin, Rmax. destruct (Rle_dec a b); nra.
Qed.
Lemma inside_middle a b : Rmin a b <= Q2R 0.5 * (a + b) <= Rmax a b.
Proof. rewrite half_of. unfold Rmin, Rmax. destruct (Rle_dec a b); lra. Qed.

Lemma qk21_local (f g : fn RNum) c a b :
  (forall k x, Rmin a b <= x <= Rmax a b -> f k x = g k x) -> qk21 RNum f c a b = qk21 RNum g c a b.
Proof.
  intro H. pose proof nodes_in_unit as HN. apply andb_true_iff in HN. destruct HN as [HN _].
  unfold qk21. change (F RNum) with R in *.
  change (fmul RNum (lit RNum 0.5) (fadd RNum a b)) with (Q2R 0.5 * (a + b)).
  change (fmul RNum (lit RNum 0.5) (fsub RNum b a)) with (Q2R 0.5 * (b - a)).
  rewrite <- (H c _ (inside_middle a b)).
  apply bind_ext. intros wk _.
  match goal with |- rbind ?r1 ?k1 = rbind ?r2 ?k2 => assert (E : r1 = r2); [|rewrite E; apply bind_ext] end.
  { apply loop_ext. intros j [[[[[fv1 fv2] rg] rk] ra] n]. apply bind_ext. intros x Hx.
    destruct (inside_node a b (Q2R x) (get_node _ _ _ HN Hx)) as [I1 I2].
    change (fmul RNum (Q2R 0.5 * (b - a)) (lit RNum x)) with (Q2R 0.5 * (b - a) * Q2R x).
    change (fsub RNum (Q2R 0.5 * (a + b))) with (Rminus (Q2R 0.5 * (a + b))).
    change (fadd RNum (Q2R 0.5 * (a + b))) with (Rplus (Q2R 0.5 * (a + b))).
    rewrite (H _ _ I1), (H _ _ I2). reflexivity. }
  intros [[[[[fv1 fv2] rg] rk] ra] n] _. clear E.
  match goal with |- rbind ?r1 ?k1 = rbind ?r2 ?k2 => assert (E : r1 = r2); [|rewrite E; reflexivity] end.
  apply loop_ext. intros j [[[[fv1' fv2'] rk'] ra'] n']. apply bind_ext. intros x Hx.
  destruct (inside_node a b (Q2R x) (get_node _ _ _ HN Hx)) as [I1 I2].
  change (fmul RNum (Q2R 0.5 * (b - a)) (lit RNum x)) with (Q2R 0.5 * (b - a) * Q2R x).
  change (fsub RNum (Q2R 0.5 * (a + b))) with (Rminus (Q2R 0.5 * (a + b))).
  change (fadd RNum (Q2R 0.5 * (a + b))) with (Rplus (Q2R 0.5 * (a + b))).
  rewrite (H _ _ I1), (H _ _ I2). reflexivity.
Qed.
