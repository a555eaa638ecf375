(** The boost integral of a table: what it adds up, over exact real arithmetic. *)
From Coq Require Import String ZArith QArith Bool Arith Lia ZifyNat Reals Lra Qreals List.
From Verif Require Import PyBase RustBase RustBaseFacts RustMath Area InterpModel BoostModel BoostProofs.
Import ListNotations.
Local Open Scope R_scope.

Definition X (x : list R) (i : nat) : R := nth i x 0.
(** The integrand y/x at the nodes. *)
Definition V (x y : list R) (i : nat) : R := nth i y 0 / nth i x 0.
Definition sorted (x : list R) : Prop := forall i, (S i < length x)%nat -> X x i < X x (S i).
(** [L] is the piecewise-linear interpolant of the integrand. *)
Definition interpolates (L : R -> R) (x y : list R) : Prop :=
  forall i t, (S i < length x)%nat -> X x i <= t <= X x (S i) ->
  L t = V x y i + (V x y (S i) - V x y i) / (X x (S i) - X x i) * (t - X x i).
(** Area of one cell of the table (between nodes i and i+1). *)
Definition cell (x y : list R) (i : nat) : R := (X x (S i) - X x i) * (V x y i + V x y (S i)) / 2.

Lemma sorted_lt x : sorted x -> forall i j, (i < j)%nat -> (j < length x)%nat -> X x i < X x j.
Proof.
  intros H i j Hij. induction Hij as [|j Hij IH]; intro Hj; [now apply H|].
  apply Rlt_trans with (X x j); [apply IH; lia|apply H; lia].
Qed.
Lemma sorted_le x : sorted x -> forall i j, (i <= j)%nat -> (j < length x)%nat -> X x i <= X x j.
Proof. intros H i j Hij Hj. destruct (Nat.eq_dec i j) as [->|]; [lra|]. left. apply sorted_lt; auto. lia. Qed.
Lemma X_get {E} (x : list R) i : (i < length x)%nat -> @get E R x i = Ok (X x i).
Proof.
  intro H. unfold get, X. destruct (nth_error x i) as [a|] eqn:Ea.
  - now rewrite (nth_error_nth _ _ 0 Ea).
  - apply nth_error_None in Ea. lia.
Qed.

(** *** Searching *)
Lemma find_from_first {E} bound : forall (x : list R) k i, (i < length x)%nat -> bound <= X x i ->
  (forall p, (p < i)%nat -> X x p < bound) -> @find_from RMath E bound x k = Ok (k + i)%nat.
Proof.
  induction x as [|v x IH]; intros k i Hi Hv Hp; [cbn in Hi; lia|]. cbn [find_from]. change (mnum RMath) with RNum in *.
  destruct i as [|i].
  - rewrite (proj2 (Rfle_true bound v)) by exact Hv. now rewrite Nat.add_0_r.
  - rewrite (proj2 (Rfle_false bound v)) by exact (Hp 0%nat ltac:(lia)).
    rewrite (IH (S k) i); [f_equal; lia|cbn in Hi; lia|exact Hv|].
    intros p Hpi. apply (Hp (S p)). lia.
Qed.

(** *** Areas of the interpolant *)
Section Areas.
Variables (L : R -> R) (x y : list R).
Hypothesis Hs : sorted x.
Hypothesis HL : interpolates L x y.

Definition slope i := (V x y (S i) - V x y i) / (X x (S i) - X x i).
Definition line i t := V x y i + slope i * (t - X x i).
Definition part i a b := (b - a) * (line i a + line i b) / 2.

Lemma line_area i a b : (S i < length x)%nat -> X x i <= a -> b <= X x (S i) -> area L a b (part i a b).
Proof.
  intros Hi Ha Hb. apply (area_ext (line i) _ _ _ _ []).
  - intros t Ht _. symmetry. apply HL; [exact Hi|lra].
  - set (v := V x y i). set (m := slope i). set (x0 := X x i).
    apply (area_val _ _ _ ((v * b + m / 2 * ((b - x0) * (b - x0))) - (v * a + m / 2 * ((a - x0) * (a - x0))))).
    { unfold part, line. fold v m x0. field. }
    apply (area_of_antiderivative (fun t => v * t + m / 2 * ((t - x0) * (t - x0)))). intros t _.
    unfold line. fold v m x0.
    pose proof (derivable_pt_lim_scal id v t 1 (derivable_pt_lim_id t)) as D1.
    pose proof (derivable_pt_lim_minus id (fct_cte x0) t 1 0 (derivable_pt_lim_id t) (derivable_pt_lim_const x0 t)) as D2.
    pose proof (derivable_pt_lim_scal _ (m / 2) t _ (derivable_pt_lim_mult _ _ t _ _ D2 D2)) as D3.
    pose proof (derivable_pt_lim_plus _ _ t _ _ D1 D3) as D.
    unfold plus_fct, mult_fct, minus_fct, mult_real_fct, fct_cte, id in D.
    replace (v + m * (t - x0)) with (v * 1 + m / 2 * ((1 - 0) * (t - x0) + (t - x0) * (1 - 0))) by field.
    exact D.
Qed.
Lemma line_left i : line i (X x i) = V x y i.
Proof. unfold line. ring. Qed.
Lemma line_right i : (S i < length x)%nat -> line i (X x (S i)) = V x y (S i).
Proof. intro H. pose proof (Hs i H). unfold line, slope. field. lra. Qed.
Lemma cell_part i : (S i < length x)%nat -> cell x y i = part i (X x i) (X x (S i)).
Proof. intro H. unfold cell, part. rewrite line_left, line_right by exact H. reflexivity. Qed.

Definition cells i n : R := rsum (map (cell x y) (seq i n)).
Lemma cells_area i n : (i + n < length x)%nat -> area L (X x i) (X x (i + n)) (cells i n).
Proof.
  induction n as [|n IH]; intro H.
  - rewrite Nat.add_0_r. apply area_empty.
  - unfold cells. rewrite seq_S, map_app, rsum_app. cbn [map rsum fold_right]. rewrite Rplus_0_r.
    apply area_join with (X x (i + n)).
    + split; apply sorted_le; auto; lia.
    + apply IH. lia.
    + replace (i + S n)%nat with (S (i + n)) by lia. rewrite cell_part by lia. apply line_area; [lia|lra|lra].
Qed.
Lemma cells_S i n : cells i (S n) = cells i n + cell x y (i + n).
Proof. unfold cells. rewrite seq_S, map_app, rsum_app. cbn [map rsum fold_right]. ring. Qed.

(** *** The interior sum *)
Lemma collect_ok {E A} (f : nat -> rr E A) (g : nat -> A) n : forall i,
  (forall k, (i <= k < i + n)%nat -> f k = Ok (g k)) -> collect n i f = Ok (map g (seq i n)).
Proof.
  induction n as [|n IH]; intros i H; [reflexivity|]. cbn [collect seq map].
  rewrite H by lia. cbn [rbind]. rewrite IH by (intros k Hk; apply H; lia). reflexivity.
Qed.
Lemma X_slice i n k : (k < n)%nat -> (i + n <= length x)%nat -> X (firstn n (skipn i x)) k = X x (i + k).
Proof.
  intros Hk Hn. unfold X. rewrite <- (firstn_skipn i x) at 2.
  rewrite app_nth2 by (rewrite firstn_length; lia). rewrite firstn_length.
  replace (i + k - Nat.min i (length x))%nat with k by lia.
  rewrite <- (firstn_skipn n (skipn i x)) at 2. rewrite app_nth1; [reflexivity|].
  rewrite firstn_length, skipn_length. lia.
Qed.

Variable yy : nat -> rr BoostError R.
Hypothesis Hyy : forall i, (i < length x)%nat -> yy i = Ok (V x y i).

Lemma trapezoid_real i n : (1 <= n)%nat -> (i + n <= length x)%nat ->
  trapezoid RMath (firstn n (skipn i x)) i yy = Ok (cells i (n - 1)).
Proof.
  intros Hn Hl. unfold trapezoid. change (F RMath) with R in *.
  assert (Hlen : length (firstn n (skipn i x)) = n) by (rewrite firstn_length, skipn_length; lia).
  rewrite Hlen. destruct (Nat.ltb_spec n 2).
  - replace (n - 1)%nat with 0%nat by lia. unfold cells. cbn [seq map rsum fold_right].
    change (lit RMath 0) with (Q2R 0). now rewrite RMicromega.Q2R_0.
  - rewrite (collect_ok _ (fun k => cell x y (i + k))).
    + cbn [rbind]. rewrite pairwise_sum_real. cbn [lift]. unfold cells. do 2 f_equal.
      replace (seq i (n - 1)) with (map (Nat.add i) (seq 0 (n - 1))).
      * now rewrite map_map.
      * clear. generalize (n - 1)%nat as m. intro m.
        assert (K : forall k, map (Nat.add i) (seq k m) = seq (i + k) m).
        { induction m as [|m IH]; intro k; [reflexivity|]. cbn [seq map]. rewrite IH. now rewrite Nat.add_succ_r. }
        rewrite K. now rewrite Nat.add_0_r.
    + intros k Hk. rewrite !X_get by (rewrite Hlen; lia). cbn [rbind]. rewrite !X_slice by lia.
      rewrite !Hyy by lia. cbn [rbind]. f_equal. unfold cell.
      change (fdiv RMath) with Rdiv. change (fmul RMath) with Rmult. change (fsub RMath) with Rminus.
      change (fadd RMath) with Rplus. change (lit RMath 2) with (Q2R 2). rewrite Q2R_2.
      replace (i + (k + 1))%nat with (S (i + k)) by lia. replace (i + k + 1)%nat with (S (i + k)) by lia.
      rewrite (Rplus_comm (V x y (S (i + k)))). reflexivity.
Qed.
End Areas.

(** ** What the integral adds up *)

(** The window of rest-frame energies, cut to the table. *)
Definition low_end (e beta : R) (x : list R) : R := Rmax (X x 0) (e * lorentz beta * (1 - beta)).
Definition high_end (e beta : R) (x : list R) : R := Rmin (X x (length x - 1)) (e * lorentz beta * (1 + beta)).
(** Contribution of energies below the table, where the spectrum continues as 1/E: the area under
    y0 x0 / t^2 from the lower end of the window to x0. *)
Definition below (e beta : R) (x y : list R) : R :=
  let lb := e * lorentz beta * (1 - beta) in
  if Rlt_dec lb (X x 0) then nth 0 y 0 * X x 0 * (/ lb - / X x 0) else 0.
(** Node [i] is the first one at or above [b]; node [j] is the last one at or below [b]. *)
Definition first_above (x : list R) (b : R) (i : nat) : Prop :=
  (i < length x)%nat /\ b <= X x i /\ forall p, (p < i)%nat -> X x p < b.
Definition last_below (x : list R) (b : R) (j : nat) : Prop :=
  (j < length x)%nat /\ X x j <= b /\ forall p, (j < p < length x)%nat -> b < X x p.
(** No node is within 1e-6 of [b] without being equal to it. *)
Definition clear_of (x : list R) (b : R) : Prop :=
  forall i, (i < length x)%nat -> X x i = b \/ / 10 ^ 6 < Rabs (X x i - b).
(** Error of the code: the cell below the last node of the window is left out; when the window
    lies inside one cell that cell is added. *)
Definition miscounted (x y : list R) (i j : nat) : R :=
  if Nat.ltb i j then - cell x y (j - 1) else if Nat.ltb j i then cell x y j else 0.

Lemma Q2R_micro : Q2R 1e-6 = / 10 ^ 6.
Proof. unfold Q2R. cbn. lra. Qed.

Section Account.
Variables (e beta : R) (x y : list R) (L : R -> R) (i j : nat).
Hypothesis Hbeta : 0 < beta < 1.
Hypothesis He : 0 < e.
Hypothesis Hlen : length x = length y.
Hypothesis Hs : sorted x.
Hypothesis Hx0 : 0 < X x 0.
Hypothesis HL : interpolates L x y.
Let lb := low_end e beta x.
Let ub := high_end e beta x.
Hypothesis Hi : first_above x lb i.
Hypothesis Hj : last_below x ub j.
Hypothesis Hcl : clear_of x lb.
Hypothesis Hcu : clear_of x ub.
Let lb0 := e * lorentz beta * (1 - beta).
Let ub0 := e * lorentz beta * (1 + beta).
Hypothesis Hlo : lb0 <= X x (length x - 1).
Hypothesis Hhi : X x 0 <= ub0.

Lemma lb_ub : lb0 < ub0.
Proof.
  unfold lb0, ub0. pose proof (lorentz_pos beta Hbeta). apply Rmult_lt_compat_l; [|lra]. now apply Rmult_lt_0_compat.
Qed.
Lemma nonempty : (0 < length x)%nat.
Proof. destruct Hi. lia. Qed.
Lemma ends : X x 0 <= lb /\ lb <= ub /\ ub <= X x (length x - 1).
Proof.
  pose proof nonempty. pose proof lb_ub. pose proof (sorted_le x Hs 0 (length x - 1) ltac:(lia) ltac:(lia)).
  unfold lb, ub, low_end, high_end. fold lb0 ub0.
  unfold Rmax, Rmin. destruct (Rle_dec _ _), (Rle_dec _ _); lra.
Qed.
Lemma j_next : (S j < length x)%nat -> ub < X x (S j).
Proof. intro H. destruct Hj as (_ & _ & K). apply K. lia. Qed.
(** The two indices differ by at most one in the wrong direction. *)
Lemma i_le : (i <= S j)%nat.
Proof.
  destruct (le_lt_dec i (S j)) as [|H]; [assumption|]. exfalso.
  destruct Hi as (Hil & _ & K). pose proof (K (S j) H). pose proof (j_next ltac:(lia)). pose proof ends. lra.
Qed.

Lemma low_found : find_low RMath lb x (if Rlt_dec lb0 (X x 0) then Some 0%nat else None) = Ok i.
Proof.
  unfold find_low. destruct (Rlt_dec lb0 (X x 0)) as [H|H].
  - f_equal. destruct i as [|i']; [reflexivity|]. exfalso. destruct Hi as (_ & _ & K). specialize (K 0%nat ltac:(lia)).
    unfold lb, low_end in K. fold lb0 in K. rewrite Rmax_left in K by lra. lra.
  - destruct Hi as (H1 & H2 & H3). now rewrite (find_from_first lb x 0 i).
Qed.
Lemma high_found :
  find_high RMath ub x (if Rlt_dec (X x (length x - 1)) ub0 then Some (length x - 1)%nat else None) = Ok j.
Proof.
  unfold find_high. pose proof nonempty as Hn. destruct ends as (E1 & E2 & E3).
  destruct Hj as (J1 & J2 & J3). destruct (Rlt_dec (X x (length x - 1)) ub0) as [H|H].
  - f_equal. destruct (Nat.eq_dec j (length x - 1)) as [|Hne]; [lia|]. exfalso.
    specialize (J3 (length x - 1)%nat ltac:(lia)).
    unfold ub, high_end in J3. fold ub0 in J3. rewrite Rmin_left in J3 by lra. lra.
  - change (mnum RMath) with RNum in *. change (F RNum) with R.
    destruct (Req_dec (X x j) ub) as [Eq|Ne].
    + rewrite (find_from_first ub x 0 j); [|exact J1|lra|].
      2:{ intros p Hp. rewrite <- Eq. apply sorted_lt; auto. }
      cbn [rbind Nat.add]. rewrite X_get by exact J1. cbn [rbind].
      change (lit RNum 1e-6) with (Q2R 1e-6). rewrite Q2R_micro.
      change (fabs RNum) with Rabs. change (fsub RNum) with Rminus. rewrite Eq, Rminus_eq_0, Rabs_R0.
      rewrite (proj2 (Rflt_false (/ 10 ^ 6) 0)); [reflexivity|]. left. apply Rinv_0_lt_compat, pow_lt. lra.
    + assert (Hj1 : (S j < length x)%nat).
      { destruct (le_lt_dec (length x) (S j)) as [Hle|]; [|assumption]. exfalso. apply Ne.
        replace j with (length x - 1)%nat in * by lia. lra. }
      pose proof (j_next Hj1) as Hjn.
      rewrite (find_from_first ub x 0 (S j)); [|exact Hj1|lra|].
      2:{ intros p Hp. apply Rle_lt_trans with (X x j); [apply sorted_le; auto; lia|lra]. }
      cbn [rbind Nat.add]. rewrite X_get by exact Hj1. cbn [rbind].
      change (lit RNum 1e-6) with (Q2R 1e-6). rewrite Q2R_micro.
      change (fabs RNum) with Rabs. change (fsub RNum) with Rminus.
      rewrite (proj2 (Rflt_true (/ 10 ^ 6) _)).
      * unfold csub. cbn [Nat.leb]. f_equal. lia.
      * destruct (Hcu (S j) Hj1) as [Q|Q]; [lra|exact Q].
Qed.

(** The parts added by the code. *)
Definition low_part : R := if Nat.ltb 0 i then part x y (i - 1) lb (X x i) else 0.
Definition high_part : R := if Nat.ltb j (length x - 1) then part x y j (X x j) ub else 0.
Definition inner_part : R := if Nat.ltb i j then cells x y i (j - i - 1) else 0.

Lemma low_area : area L lb (X x i) low_part.
Proof.
  destruct Hi as (H1 & H2 & H3). unfold low_part. destruct (Nat.ltb_spec 0 i).
  - apply line_area; auto; [lia| |].
    + left. apply H3. lia.
    + replace (S (i - 1)) with i by lia. lra.
  - assert (Ei : i = 0%nat) by lia. destruct ends as [E1 _]. rewrite Ei in *.
    replace lb with (X x 0) by lra. apply area_empty.
Qed.
Lemma high_area : area L (X x j) ub high_part.
Proof.
  destruct Hj as (J1 & J2 & J3). unfold high_part. destruct (Nat.ltb_spec j (length x - 1)).
  - apply line_area; auto; [lia|lra|]. left. apply j_next. lia.
  - destruct ends as (_ & _ & E3). replace j with (length x - 1)%nat in * by lia.
    replace ub with (X x (length x - 1)) by lra. apply area_empty.
Qed.

Lemma account_value A : area L lb ub A ->
  low_part + inner_part + high_part = A + miscounted x y i j.
Proof.
  intro HA. destruct ends as (E1 & E2 & E3). pose proof Hi as (H1 & H2 & H3). pose proof Hj as (J1 & J2 & J3).
  unfold inner_part, miscounted. destruct (Nat.ltb_spec i j) as [Hij|Hij].
  - assert (HB : area L lb ub (low_part + cells x y i (j - i) + high_part)).
    { pose proof (sorted_le x Hs i j ltac:(lia) J1).
      apply area_join with (X x j); [lra| |apply high_area].
      apply area_join with (X x i); [lra|apply low_area|].
      replace (X x j) with (X x (i + (j - i))) by (f_equal; lia). apply cells_area; auto; lia. }
    rewrite (area_unique _ _ _ _ _ E2 HA HB). replace (j - i)%nat with (S (j - i - 1)) at 2 by lia.
    rewrite cells_S. replace (i + (j - i - 1))%nat with (j - 1)%nat by lia. ring.
  - destruct (Nat.ltb_spec j i) as [Hji|Hji].
    + assert (Hij' : i = S j) by (pose proof i_le; lia).
      assert (Hn : (S j < length x)%nat) by lia.
      pose proof (j_next Hn) as Hjn.
      pose proof (H3 j ltac:(lia)) as Hl.
      assert (HB : area L lb ub (part x y j lb ub)).
      { apply line_area; auto; lra. }
      rewrite (area_unique _ _ _ _ _ E2 HA HB). unfold low_part, high_part.
      destruct (Nat.ltb_spec 0 i); [|lia]. destruct (Nat.ltb_spec j (length x - 1)); [|lia].
      rewrite cell_part by auto. rewrite Hij'. replace (S j - 1)%nat with j by lia.
      unfold part, line. field.
    + assert (Hij' : i = j) by lia.
      assert (HB : area L lb ub (low_part + high_part)).
      { apply area_join with (X x j); [rewrite <- Hij' at 1; lra| |apply high_area].
        rewrite <- Hij' at 1. apply low_area. }
      rewrite (area_unique _ _ _ _ _ E2 HA HB). ring.
Qed.

Lemma account A : area L lb ub A ->
  boost_integrate_linear_interp RMath e beta x y
  = Ok ((below e beta x y + A + miscounted x y i j) / (2 * lorentz beta * beta)).
Proof.
  intro HA. pose proof (account_value A HA) as HV. pose proof low_found as LF. pose proof high_found as HF.
  pose proof nonempty as Hn. destruct ends as (E1 & E2 & E3).
  pose proof Hi as (I1 & I2 & I3). pose proof Hj as (J1 & J2 & J3).
  assert (Hmic : 0 < / 10 ^ 6) by (apply Rinv_0_lt_compat, pow_lt; lra).
  unfold boost_integrate_linear_interp.
  change (mnum RMath) with RNum in *. change (lit RNum) with Q2R. change (F RNum) with R in *.
  rewrite Q2R_1, Q2R_2, RMicromega.Q2R_0, Q2R_half, Q2R_micro.
  rewrite (proj2 (Rflt_true 0 beta)), (proj2 (Rflt_true beta 1)) by lra. cbn [andb negb].
  rewrite Hlen, Nat.eqb_refl. cbn [negb]. rewrite <- Hlen.
  destruct (Nat.eqb_spec (length x) 0); [lia|].
  rewrite !X_get by lia. cbn [rbind]. 
  change (fma RNum) with (fun a b c : R => a * b + c). cbn beta.
  change (fneg RNum) with Ropp. change (fmul RNum) with Rmult. change (fdiv RNum) with Rdiv.
  change (fsub RNum) with Rminus. change (fadd RNum) with Rplus. change (fabs RNum) with Rabs.
  change (fsqrt RMath) with sqrt. change (is_nan RNum) with (fun _ : R => false). cbn beta. cbn [orb].
  replace (1 / sqrt (- beta * beta + 1)) with (lorentz beta).
  2:{ unfold lorentz, Rdiv. rewrite Rmult_1_l. do 2 f_equal. ring. }
  fold lb0 ub0.
  rewrite (proj2 (Rflt_false (X x (length x - 1)) lb0)) by exact Hlo.
  rewrite (proj2 (Rflt_false ub0 (X x 0))) by exact Hhi.
  set (u := if flt RNum (X x (length x - 1)) ub0 then (X x (length x - 1), Some (length x - 1)%nat) else (ub0, None)).
  assert (Eu : u = (ub, if Rlt_dec (X x (length x - 1)) ub0 then Some (length x - 1)%nat else None)).
  { unfold u, ub, high_end. fold ub0. cbn [flt RNum]. destruct (Rlt_dec (X x (length x - 1)) ub0).
    - now rewrite Rmin_left by lra.
    - now rewrite Rmin_right by lra. }
  rewrite Eu. clear Eu u.
  set (l := if flt RNum lb0 (X x 0) then _ else _).
  assert (El : l = (below e beta x y, lb, if Rlt_dec lb0 (X x 0) then Some 0%nat else None)).
  { unfold l, lb, low_end, below. fold lb0. cbn [flt RNum]. destruct (Rlt_dec lb0 (X x 0)) as [H|H].
    - rewrite Rmax_left by lra. do 2 f_equal. change (X y 0) with (nth 0 y 0).
      assert (P : 0 < lb0).
      { unfold lb0. pose proof (lorentz_pos beta Hbeta). apply Rmult_lt_0_compat; [now apply Rmult_lt_0_compat|lra]. }
      replace ((1 - beta) * e * lorentz beta) with lb0 by (unfold lb0; ring). clearbody lb0. field. lra.
    - rewrite Rmax_right by lra. reflexivity. }
  rewrite El. clear El l. rewrite LF. cbn [rbind]. rewrite HF. cbn [rbind]. clear LF HF.
  set (yy := fun k : nat => rbind (get y k) (fun a => rbind (get x k) (fun b => Ok (a / b)))).
  assert (Hyy : forall k, (k < length x)%nat -> yy k = Ok (V x y k)).
  { intros k Hk. unfold yy. rewrite !X_get by lia. reflexivity. }
  match goal with |- rbind ?t _ = _ => assert (T1 : t = Ok (below e beta x y + inner_part)) end.
  { unfold inner_part. destruct (Nat.ltb_spec i j).
    - change (rbind (trapezoid RMath (firstn (j - i) (skipn i x)) i yy) (fun t => Ok (below e beta x y + t))
        = Ok (below e beta x y + cells x y i (j - i - 1))).
      rewrite (trapezoid_real x y yy Hyy) by lia. reflexivity.
    - f_equal. ring. }
  rewrite T1. clear T1. cbn [rbind].
  rewrite (X_get x i) by lia. cbn [rbind].
  set (s1 := below e beta x y + inner_part) in *.
  match goal with |- rbind ?t _ = _ => assert (T2 : t = Ok (s1 + low_part)) end.
  { unfold low_part. destruct (Nat.ltb_spec 0 i) as [Hp|Hp]; cbn [andb].
    - rewrite (Rabs_pos_eq (X x i - lb)) by lra. cbn [flt RNum].
      destruct (Rlt_dec (/ 10 ^ 6) (X x i - lb)) as [Hd|Hd].
      + repeat (rewrite X_get by lia; cbn [rbind]). f_equal.
        repeat match goal with |- context [X y ?k / X x ?k] => change (X y k / X x k) with (V x y k) end.
        replace (V x y i) with (V x y (S (i - 1))) by (f_equal; lia).
        unfold part, line, slope. replace (X x i) with (X x (S (i - 1))) by (f_equal; lia). field.
        pose proof (Hs (i - 1)%nat ltac:(lia)). lra.
      + destruct (Hcl i I1) as [Q|Q].
        * f_equal. rewrite Q. unfold part. ring_simplify. lra.
        * rewrite Rabs_pos_eq in Q by lra. lra.
    - f_equal. ring. }
  rewrite T2. clear T2. cbn [rbind].
  match goal with |- rbind ?t _ = _ => assert (T3 : t = Ok (s1 + low_part + high_part)) end.
  { unfold high_part. destruct (Nat.ltb_spec j (length x - 1)) as [Hp|Hp].
    - rewrite X_get by lia. cbn [rbind]. rewrite (Rabs_pos_eq (ub - X x j)) by lra. cbn [flt RNum].
      destruct (Rlt_dec (/ 10 ^ 6) (ub - X x j)) as [Hd|Hd].
      + repeat (rewrite X_get by lia; cbn [rbind]). f_equal.
        repeat match goal with |- context [X y ?k / X x ?k] => change (X y k / X x k) with (V x y k) end.
        rewrite !Nat.add_1_r. unfold part, line, slope. field.
        pose proof (Hs j ltac:(lia)). lra.
      + destruct (Hcu j J1) as [Q|Q].
        * f_equal. rewrite Q. unfold part. ring_simplify. lra.
        * rewrite Rabs_minus_sym, Rabs_pos_eq in Q by lra. lra.
    - f_equal. ring. }
  rewrite T3. cbn [rbind]. f_equal. f_equal. unfold s1. lra.
Qed.
End Account.

(** ** Every real table gets an answer *)
Lemma find_from_tot {E} bound : forall (x : list R) k, (exists v, In v x /\ bound <= v) ->
  tot (@find_from RMath E bound x k) (fun i => (k <= i < k + length x)%nat /\ bound <= X x (i - k)).
Proof.
  induction x as [|v x IH]; intros k (w & Hw & Hb); [destruct Hw|]. cbn [find_from].
  change (mnum RMath) with RNum. destruct (fle RNum bound v) eqn:Ev.
  - apply Rfle_true in Ev. cbn [tot length]. split; [lia|]. now rewrite Nat.sub_diag.
  - apply Rfle_false in Ev. eapply tot_mono; [apply (IH (S k))|].
    + destruct Hw as [->|Hw]; [lra|]. exists w. auto.
    + cbn beta. intros i (Hi & Hv). cbn [length]. split; [lia|].
      replace (i - k)%nat with (S (i - S k)) by lia. exact Hv.
Qed.
Lemma collect_tot {E A} (f : nat -> rr E A) n : forall i,
  (forall k, (i <= k < i + n)%nat -> tot (f k) (fun _ => True)) -> tot (collect n i f) (fun _ => True).
Proof.
  induction n as [|n IH]; intros i H; [exact I|]. cbn [collect].
  apply tot_bind. eapply tot_mono; [apply H; lia|]. intros a _. apply tot_bind.
  eapply tot_mono; [apply IH; intros; apply H; lia|]. intros r _. exact I.
Qed.
Lemma trapezoid_tot (xs : list R) offset (yy : nat -> rr BoostError R) :
  (forall k, (offset <= k < offset + length xs)%nat -> tot (yy k) (fun _ => True)) ->
  tot (trapezoid RMath xs offset yy) (fun _ => True).
Proof.
  intro H. unfold trapezoid. change (F RMath) with R in *. destruct (Nat.ltb_spec (length xs) 2); [exact I|].
  apply tot_bind. eapply tot_mono; [apply collect_tot|].
  - intros k Hk. rewrite !X_get by lia. cbn [rbind]. apply tot_bind. eapply tot_mono; [apply H; lia|]. intros a _.
    apply tot_bind. eapply tot_mono; [apply H; lia|]. intros b _. exact I.
  - intros t _. rewrite pairwise_sum_real. exact I.
Qed.
Lemma In_X (x : list R) i : (i < length x)%nat -> In (X x i) x.
Proof. intro H. now apply nth_In. Qed.

Lemma table_answers (e beta : R) (x y : list R) : 0 < beta < 1 -> length x = length y -> x <> [] ->
  exists v, boost_integrate_linear_interp RMath e beta x y = Ok v.
Proof.
  intros Hb Hlen Hne.
  assert (Hn : (0 < length x)%nat) by (destruct x; [now destruct Hne|cbn [length]; lia]).
  enough (T : tot (boost_integrate_linear_interp RMath e beta x y) (fun _ => True)).
  { destruct (tot_ok _ _ T) as (v & Hv & _). now exists v. }
  unfold boost_integrate_linear_interp.
  change (mnum RMath) with RNum in *. change (lit RNum) with Q2R. change (F RNum) with R in *.
  rewrite Q2R_1, RMicromega.Q2R_0, Q2R_micro.
  rewrite (proj2 (Rflt_true 0 beta)), (proj2 (Rflt_true beta 1)) by lra. cbn [andb negb].
  rewrite Hlen, Nat.eqb_refl. cbn [negb]. rewrite <- Hlen. destruct (Nat.eqb_spec (length x) 0); [lia|].
  rewrite !X_get by lia. cbn [rbind]. change (is_nan RNum) with (fun _ : R => false). cbn beta. cbn [orb].
  set (lb0 := fmul RNum (fmul RNum e _) (fsub RNum 1 beta)). set (ub0 := fmul RNum _ (fadd RNum 1 beta)).
  clearbody lb0 ub0. change (F RNum) with R in *.
  destruct (flt RNum (X x (length x - 1)) lb0) eqn:C1; [exact I|]. apply Rflt_false in C1.
  destruct (flt RNum ub0 (X x 0)) eqn:C2; [exact I|]. apply Rflt_false in C2.
  set (u := if flt RNum (X x (length x - 1)) ub0 then (X x (length x - 1), Some (length x - 1)%nat) else (ub0, None)).
  assert (Hu : tot (find_high RMath (fst u) x (snd u)) (fun i => (i < length x)%nat)).
  { unfold u. destruct (flt RNum (X x (length x - 1)) ub0) eqn:C3; cbn [fst snd find_high].
    - cbn [tot]. lia.
    - apply Rflt_false in C3. apply tot_bind. change (F RNum) with R in *.
      eapply tot_mono; [apply find_from_tot; exists (X x (length x - 1)); split; [apply In_X; lia|exact C3]|].
      cbn beta. intros i (Hi & Hv). rewrite Nat.sub_0_r in Hv. rewrite X_get by lia. cbn [rbind].
      change (mnum RMath) with RNum. change (lit RNum) with Q2R. rewrite Q2R_micro.
      change (fabs RNum) with Rabs. change (fsub RNum) with Rminus.
      destruct (flt RNum (/ 10 ^ 6) (Rabs (X x i - ub0))) eqn:C4; [|cbn [tot]; lia].
      apply Rflt_true in C4. assert (Hi0 : i <> 0%nat).
      { intros ->. replace (X x 0 - ub0) with 0 in C4 by lra. rewrite Rabs_R0 in C4.
        assert (0 < / 10 ^ 6) by (apply Rinv_0_lt_compat, pow_lt; lra). lra. }
      apply tot_csub; lia. }
  destruct u as [ub ih]. cbn [fst snd] in Hu.
  set (l := if flt RNum lb0 (X x 0) then _ else _).
  assert (Hl : tot (find_low RMath (snd (fst l)) x (snd l)) (fun i => (i < length x)%nat)).
  { unfold l. destruct (flt RNum lb0 (X x 0)) eqn:C3; cbn [fst snd find_low].
    - exact Hn.
    - eapply tot_mono; [apply find_from_tot; exists (X x (length x - 1)); split; [apply In_X; lia|exact C1]|].
      cbn beta. intros i (Hi & _). lia. }
  destruct l as [[s lb] il]. cbn [fst snd] in Hl.
  apply tot_bind. eapply tot_mono; [exact Hl|]. cbn beta. intros i Hi.
  apply tot_bind. eapply tot_mono; [exact Hu|]. cbn beta. intros j Hj.
  apply tot_bind. eapply tot_mono with (P := fun _ => True).
  { destruct (Nat.ltb_spec i j); [|exact I]. apply tot_bind. eapply tot_mono; [apply trapezoid_tot|intros; exact I].
    rewrite firstn_length, skipn_length. intros k Hk. rewrite !X_get by lia. exact I. }
  intros s1 _. rewrite X_get by lia. cbn [rbind].
  apply tot_bind. eapply tot_mono with (P := fun _ => True).
  { destruct (Nat.ltb_spec 0 i); cbn [andb]; [|exact I].
    match goal with |- tot (if ?c then _ else _) _ => destruct c end; [|exact I].
    repeat (rewrite X_get by lia; cbn [rbind]). exact I. }
  intros s2 _. apply tot_bind. eapply tot_mono with (P := fun _ => True).
  { destruct (Nat.ltb_spec j (length x - 1)); [|exact I]. rewrite X_get by lia. cbn [rbind].
    match goal with |- tot (if ?c then _ else _) _ => destruct c end; [|exact I].
    repeat (rewrite X_get by lia; cbn [rbind]). exact I. }
  intros s3 _. exact I.
Qed.

(** ** A table whose boost is wrong *)
Definition ramp : list R := [1; 2; 3; 4].
Lemma ramp_sorted : sorted ramp.
Proof. intros [|[|[|i]]] H; unfold X, ramp in *; cbn [nth length] in *; try lra. lia. Qed.
Lemma ramp_V i : (i < 4)%nat -> V ramp ramp i = 1.
Proof. intro H. unfold V, ramp. destruct i as [|[|[|[|i]]]]; cbn [nth]; [field|field|field|field|lia]. Qed.
Lemma ramp_interp : interpolates (fun _ => 1) ramp ramp.
Proof.
  intros i t Hi _. change (length ramp) with 4%nat in Hi. rewrite !ramp_V by lia.
  pose proof (ramp_sorted i ltac:(exact Hi)). field. lra.
Qed.
Lemma ramp_low : low_end 2 (3 / 5) ramp = 1.
Proof. unfold low_end, X, ramp. cbn [nth]. rewrite lorentz_35. rewrite Rmax_left; lra. Qed.
Lemma ramp_high : high_end 2 (3 / 5) ramp = 4.
Proof. unfold high_end, X, ramp. cbn [nth length Nat.sub]. rewrite lorentz_35. rewrite Rmin_left; lra. Qed.
Lemma far_enough a b : 1 <= a - b \/ 1 <= b - a -> / 10 ^ 6 < Rabs (a - b).
Proof. intro H. assert (/ 10 ^ 6 < 1) by (simpl; lra). unfold Rabs. destruct (Rcase_abs _); lra. Qed.
Lemma ramp_clear b : b = 1 \/ b = 4 -> clear_of ramp b.
Proof.
  intros [-> | ->] [|[|[|[|i]]]] Hi; change (length ramp) with 4%nat in Hi; unfold X, ramp; cbn [nth]; try lia;
    first [left; lra|right; apply far_enough; lra].
Qed.
Lemma ramp_first : first_above ramp (low_end 2 (3 / 5) ramp) 0.
Proof.
  rewrite ramp_low. split; [unfold ramp; cbn [length]; lia|]. split; [unfold X, ramp; cbn [nth]; lra|]. intros p Hp. lia.
Qed.
Lemma ramp_last : last_below ramp (high_end 2 (3 / 5) ramp) 3.
Proof.
  rewrite ramp_high. split; [unfold ramp; cbn [length]; lia|]. split; [unfold X, ramp; cbn [nth]; lra|].
  unfold ramp. cbn [length]. intros p Hp. lia.
Qed.
Lemma ramp_area : area (fun _ => 1) (low_end 2 (3 / 5) ramp) (high_end 2 (3 / 5) ramp) 3.
Proof. rewrite ramp_low, ramp_high. apply (area_val _ _ _ (1 * (4 - 1))); [ring|]. apply area_const. Qed.
Lemma ramp_run : boost_integrate_linear_interp RMath 2 (3 / 5) ramp ramp = Ok (2 / (2 * lorentz (3 / 5) * (3 / 5))).
Proof.
  rewrite (account 2 (3 / 5) ramp ramp (fun _ => 1) 0 3) with (A := 3).
  - f_equal. f_equal. unfold below, miscounted, cell. rewrite lorentz_35.
    destruct (Rlt_dec _ _) as [H|H]; [unfold X, ramp in H; cbn [nth] in H; lra|].
    cbn [Nat.ltb Nat.leb Nat.sub]. rewrite !ramp_V by lia. unfold X, ramp. cbn [nth]. lra.
  - lra.
  - lra.
  - reflexivity.
  - apply ramp_sorted.
  - unfold X, ramp. cbn [nth]. lra.
  - apply ramp_interp.
  - apply ramp_first.
  - apply ramp_last.
  - rewrite ramp_low. apply ramp_clear. auto.
  - rewrite ramp_high. apply ramp_clear. auto.
  - rewrite lorentz_35. unfold X, ramp. cbn [nth length Nat.sub]. lra.
  - rewrite lorentz_35. unfold X, ramp. cbn [nth]. lra.
  - apply ramp_area.
Qed.
