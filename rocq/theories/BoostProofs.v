(** Proofs about BoostModel. *)
From Coq Require Import String ZArith QArith Bool Arith Lia ZifyNat Reals Lra Qreals List.
From Verif Require Import PyBase RustBase RustBaseFacts RustMath Area InterpModel BoostModel.
Import ListNotations.
Local Open Scope nat_scope.
Ltac Zify.zify_post_hook ::= Z.to_euclidean_division_equations.

(** ** Pairwise summation *)
Definition rsum (l : list R) : R := fold_right Rplus 0%R l.

Section Pairwise.
Variable M : Math.

Lemma block_sum_ok (values : list (F M)) : 8 <= length values -> exists s, block_sum M values = Ok s.
Proof.
  intro Hn. assert (H : tot (block_sum M values) (fun _ => True)).
  { unfold block_sum.
    do 8 (apply tot_bind, tot_get; [lia|]; intros ? _).
    apply tot_bind. apply tot_loop with (I := fun _ r => length r = 8); [reflexivity| |].
    - intros j r Hj Hr. apply tot_bind.
      apply tot_loop with (I := fun _ r => length r = 8); [exact Hr| |].
      + intros k q Hk Hq. apply tot_bind, tot_get; [lia|]. intros u _. apply tot_bind, tot_get; [lia|]. intros v _.
        apply tot_bind, tot_set; [lia|]. cbn [tot]. now rewrite upd_length.
      + intros q Hq. exact Hq.
    - intros r Hr. do 8 (apply tot_bind, tot_get; [lia|]; intros ? _).
      apply tot_loop with (I := fun _ _ => True); [exact I| |].
      + intros i s Hi _. apply tot_bind, tot_get; [lia|]. intros v _. exact I.
      + intros s _. exact I. }
  destruct (tot_ok _ _ H) as (s & E & _). eauto.
Qed.

Lemma psum_ok fuel : forall values : list (F M), length values < fuel -> exists s, psum M fuel values = Ok s.
Proof.
  induction fuel as [|fuel IH]; intros values Hf; [lia|]. cbn [psum].
  destruct (Nat.ltb_spec (length values) 8); [eauto|].
  destruct (Nat.leb_spec (length values) 128); [now apply block_sum_ok|].
  set (n := length values) in *. set (half := n / 2 - (n / 2) mod 8).
  assert (Hh : 8 <= half < n) by (unfold half; lia).
  destruct (IH (firstn half values)) as (a & ->); [rewrite firstn_length; lia|].
  destruct (IH (skipn half values)) as (b & ->); [rewrite skipn_length; lia|]. cbn [rbind]. eauto.
Qed.

Lemma pairwise_sum_ok (values : list (F M)) : exists s, pairwise_sum M values = Ok s.
Proof. apply psum_ok. lia. Qed.
End Pairwise.

Local Open Scope R_scope.
Lemma rsum_app a b : rsum (a ++ b) = rsum a + rsum b.
Proof. unfold rsum. induction a as [|x a IH]; cbn [app fold_right]; [ring|rewrite IH; ring]. Qed.
Lemma rsum_upd (r : list R) k u v : nth_error r k = Some u -> rsum (upd r k (u + v)) = rsum r + v.
Proof.
  revert k. induction r as [|x r IH]; intros [|k] H; cbn [nth_error upd] in *; try discriminate.
  - injection H as ->. unfold rsum. cbn [fold_right]. ring.
  - cbn [rsum fold_right]. unfold rsum in IH. rewrite (IH _ H). unfold rsum. ring.
Qed.
Definition pre (values : list R) (i : nat) : R := rsum (firstn i values).
Lemma pre_S (values : list R) i v : nth_error values i = Some v -> pre values (S i) = pre values i + v.
Proof.
  unfold pre. revert i. induction values as [|x l IH]; intros [|i] H; cbn [nth_error] in H; try discriminate.
  - injection H as ->. cbn. ring.
  - change (x + rsum (firstn (S i) l) = x + rsum (firstn i l) + v). rewrite (IH _ H). ring.
Qed.
Lemma fold_left_rsum l : forall a, fold_left (fun acc v : R => acc + v) l a = a + rsum l.
Proof. induction l as [|x l IH]; intro a; cbn [fold_left]; [cbn; ring|]. rewrite IH. change (rsum (x :: l)) with (x + rsum l). ring. Qed.

Lemma block_sum_real (values : list R) : (8 <= length values)%nat ->
  block_sum RMath values = Ok (rsum values).
Proof.
  intro Hn. assert (H : tot (block_sum RMath values) (fun s => s = rsum values)).
  { unfold block_sum. change (F RMath) with R in *. change (fadd RMath) with Rplus.
    do 8 (apply tot_bind, tot_get; [lia|]; let a := fresh "a" in let Ha := fresh "Ha" in intros a Ha).
    apply tot_bind.
    apply tot_loop with (I := fun j r => length r = 8%nat /\ rsum r = pre values (8 * j)).
    - split; [reflexivity|].
      change (8 * 1)%nat with 8%nat.
      rewrite (pre_S _ _ _ Ha6), (pre_S _ _ _ Ha5), (pre_S _ _ _ Ha4), (pre_S _ _ _ Ha3), (pre_S _ _ _ Ha2),
        (pre_S _ _ _ Ha1), (pre_S _ _ _ Ha0), (pre_S _ _ _ Ha). unfold pre. cbn [firstn rsum fold_right]. ring.
    - intros j r Hj [Hl Hr]. apply tot_bind.
      apply tot_loop with (I := fun k r => length r = 8%nat /\ rsum r = pre values (8 * j + k)).
      + split; [exact Hl|]. now rewrite Nat.add_0_r.
      + intros k q Hk [Hql Hq]. apply tot_bind, tot_get; [lia|]. intros u Hu.
        apply tot_bind, tot_get; [lia|]. intros v Hv.
        apply tot_bind, tot_set; [lia|]. cbn [tot]. split; [now rewrite upd_length|].
        rewrite (rsum_upd _ _ _ _ Hu), Hq. rewrite Nat.add_succ_r. now rewrite (pre_S _ _ _ Hv).
      + intros q Hq. cbn [tot]. replace (8 * S j)%nat with (8 * j + (0 + 8))%nat by lia. exact Hq.
    - intros r [Hl Hr]. 
      do 8 (apply tot_bind, tot_get; [lia|]; let b := fresh "b" in let Hb := fresh "Hb" in intros b Hb).
      assert (E : rsum r = b + b0 + (b1 + b2) + (b3 + b4 + (b5 + b6))).
      { destruct r as [|c0 [|c1 [|c2 [|c3 [|c4 [|c5 [|c6 [|c7 [|]]]]]]]]]; try discriminate.
        cbn in Hb, Hb0, Hb1, Hb2, Hb3, Hb4, Hb5, Hb6. injection Hb as <-. injection Hb0 as <-. injection Hb1 as <-.
        injection Hb2 as <-. injection Hb3 as <-. injection Hb4 as <-. injection Hb5 as <-. injection Hb6 as <-.
        cbn. ring. }
      rewrite <- E, Hr.
      replace (8 * (1 + ((length values - length values mod 8) / 8 - 1)))%nat
        with (length values - length values mod 8)%nat by lia.
      apply tot_loop with (I := fun i s => s = pre values i).
      + reflexivity.
      + intros i s Hi ->. apply tot_bind, tot_get; [lia|]. intros v Hv. cbn [tot]. now rewrite (pre_S _ _ _ Hv).
      + intros s ->. unfold pre. rewrite firstn_all2 by lia. reflexivity. }
  destruct (tot_ok _ _ H) as (s & E & ->). exact E.
Qed.

Lemma psum_real fuel : forall values : list R, (length values < fuel)%nat -> psum RMath fuel values = Ok (rsum values).
Proof.
  induction fuel as [|fuel IH]; intros values Hf; [lia|]. cbn [psum]. change (F RMath) with R in *.
  destruct (Nat.ltb_spec (length values) 8).
  { f_equal. change (fadd RMath) with Rplus. rewrite fold_left_rsum. change (lit RMath 0) with (Q2R 0).
    rewrite RMicromega.Q2R_0. apply Rplus_0_l. }
  destruct (Nat.leb_spec (length values) 128); [now apply block_sum_real|].
  set (n := length values) in *. set (half := (n / 2 - (n / 2) mod 8)%nat).
  assert (Hh : (8 <= half < n)%nat) by (unfold half; lia).
  rewrite (IH (firstn half values)) by (rewrite firstn_length; lia).
  rewrite (IH (skipn half values)) by (rewrite skipn_length; lia). cbn [rbind].
  change (fadd RMath) with Rplus. now rewrite <- rsum_app, firstn_skipn.
Qed.
Lemma pairwise_sum_real (values : list R) : pairwise_sum RMath values = Ok (rsum values).
Proof. unfold pairwise_sum. apply psum_real. apply Nat.lt_succ_diag_r. Qed.

(** ** Boosted lines *)
Definition lorentz (beta : R) : R := / sqrt (1 - beta * beta).
Definition momentum (e m : R) : R := sqrt (e * e - m * m).
(** Ends of the window a line at [e0] is spread over. *)
Definition window_lo (e0 m beta : R) : R := lorentz beta * (e0 - beta * momentum e0 m).
Definition window_hi (e0 m beta : R) : R := lorentz beta * (e0 + beta * momentum e0 m).

Lemma Q2R_1 : Q2R 1 = 1.
Proof. unfold Q2R. cbn. lra. Qed.
Lemma Q2R_2 : Q2R 2 = 2.
Proof. unfold Q2R. cbn. lra. Qed.
Lemma Q2R_half : Q2R 0.5 = / 2.
Proof. unfold Q2R. cbn. lra. Qed.

Lemma delta_real (e0 e m beta : R) :
  boost_delta_function RMath e0 e m beta =
  if Rlt_dec 1 beta then 0 else if Rle_dec beta 0 then 0 else if Rlt_dec e m then 0 else
  if Rlt_dec (lorentz beta * (e - beta * momentum e m)) e0 then
    if Rlt_dec e0 (lorentz beta * (e + beta * momentum e m))
    then / (2 * lorentz beta * beta * momentum e0 m) else 0
  else 0.
Proof.
  unfold boost_delta_function. change (lit RMath) with Q2R. rewrite Q2R_1, Q2R_2, RMicromega.Q2R_0.
  change (F RMath) with R in *. unfold lorentz, momentum.
  change (fma RMath) with (fun a b c : R => a * b + c). cbn beta.
  change (fneg RMath) with Ropp. change (fmul RMath) with Rmult. change (fdiv RMath) with Rdiv.
  change (fsqrt RMath) with sqrt.
  change (flt RMath) with (fun x y : R => if Rlt_dec x y then true else false).
  change (fle RMath) with (fun x y : R => if Rle_dec x y then true else false). cbn beta.
  replace (- beta * beta + 1) with (1 - beta * beta) by ring.
  replace (e * e + - (m * m)) with (e * e - m * m) by ring.
  replace (e0 * e0 + - (m * m)) with (e0 * e0 - m * m) by ring.
  unfold Rdiv. rewrite !Rmult_1_l.
  replace (- beta * sqrt (e * e - m * m) + e) with (e - beta * sqrt (e * e - m * m)) by ring.
  rewrite (Rplus_comm (beta * _) e).
  destruct (Rlt_dec 1 beta); [reflexivity|]. destruct (Rle_dec beta 0); [reflexivity|].
  destruct (Rlt_dec e m); [reflexivity|]. cbn [orb].
  destruct (Rlt_dec _ e0); [|reflexivity]. destruct (Rlt_dec e0 _); reflexivity.
Qed.

Section Window.
Variables (e0 m beta : R).
Hypothesis Hb : 0 < beta < 1.
Hypothesis Hm : 0 <= m.
Let s := sqrt (1 - beta * beta).
Lemma s_facts : 0 < s /\ s * s = 1 - beta * beta.
Proof.
  split; unfold s.
  - apply sqrt_lt_R0. nra.
  - apply sqrt_def. nra.
Qed.
Lemma lorentz_pos : 0 < lorentz beta.
Proof. apply Rinv_0_lt_compat. apply s_facts. Qed.
Lemma momentum_sq e : m <= e -> 0 <= momentum e m /\ momentum e m * momentum e m = e * e - m * m.
Proof. intro H. split; [apply sqrt_pos|]. apply sqrt_def. nra. Qed.
Lemma lorentz_lt a b : lorentz beta * a < b <-> a < s * b.
Proof.
  destruct s_facts as [Hs _]. unfold lorentz. fold s. split; intro H.
  - apply (Rmult_lt_compat_l s) in H; [|exact Hs]. rewrite <- Rmult_assoc, Rinv_r, Rmult_1_l in H by lra. exact H.
  - apply (Rmult_lt_reg_l s); [exact Hs|]. rewrite <- Rmult_assoc, Rinv_r, Rmult_1_l by lra. exact H.
Qed.
Lemma lorentz_gt a b : b < lorentz beta * a <-> s * b < a.
Proof.
  destruct s_facts as [Hs _]. unfold lorentz. fold s. split; intro H.
  - apply (Rmult_lt_compat_l s) in H; [|exact Hs]. rewrite <- (Rmult_assoc s (/ s)), Rinv_r, Rmult_1_l in H by lra. exact H.
  - apply (Rmult_lt_reg_l s); [exact Hs|]. rewrite <- (Rmult_assoc s (/ s)), Rinv_r, Rmult_1_l by lra. exact H.
Qed.
(** Being inside the window is symmetric in the two energies. *)
Lemma inside_poly e f : m <= e ->
  (lorentz beta * (e - beta * momentum e m) < f < lorentz beta * (e + beta * momentum e m)
   <-> (1 - beta * beta) * (e * e + f * f) - 2 * s * e * f + beta * beta * (m * m) < 0).
Proof.
  intro He. destruct (momentum_sq e He) as [K0 K]. destruct s_facts as [Hs S].
  set (k := momentum e m) in *. clearbody k. rewrite lorentz_lt, lorentz_gt.
  assert (E : (1 - beta * beta) * (e * e + f * f) - 2 * s * e * f + beta * beta * (m * m)
              = (s * f - e) * (s * f - e) - (beta * k) * (beta * k)).
  { replace ((beta * k) * (beta * k)) with (beta * beta * (k * k)) by ring. rewrite K.
    replace ((s * f - e) * (s * f - e)) with (s * s * (f * f) - 2 * s * e * f + e * e) by ring. rewrite S. ring. }
  rewrite E. split.
  - intros [H1 H2]. nra.
  - intro H. assert (B0 : 0 <= beta * k) by nra.
    assert (A : Rabs (s * f - e) < Rabs (beta * k)) by (apply Rsqr_lt_abs_0; unfold Rsqr; lra).
    rewrite (Rabs_pos_eq (beta * k)) in A by exact B0. apply Rabs_def2 in A. lra.
Qed.
Lemma above_mass e : m <= e -> m <= lorentz beta * (e - beta * momentum e m).
Proof.
  intro He. destruct (Rle_dec m (lorentz beta * (e - beta * momentum e m))) as [|H]; [assumption|].
  apply Rnot_le_lt in H. apply lorentz_lt in H. destruct s_facts as [Hs S].
  destruct (momentum_sq e He) as [K0 K]. set (k := momentum e m) in *. clearbody k. exfalso.
  assert (k <= e) by nra. assert (0 <= e - beta * k) by nra.
  assert (Q : (e - beta * k) * (e - beta * k) < (s * m) * (s * m)) by (apply Rmult_le_0_lt_compat; lra).
  replace ((s * m) * (s * m)) with (s * s * (m * m)) in Q by ring. rewrite S in Q.
  assert (0 <= (k - beta * e) * (k - beta * e)) by apply Rle_0_sqr. nra.
Qed.

Lemma window_iff e : m <= e0 ->
  (m <= e /\ lorentz beta * (e - beta * momentum e m) < e0 < lorentz beta * (e + beta * momentum e m))
  <-> window_lo e0 m beta < e < window_hi e0 m beta.
Proof.
  intro H0. unfold window_lo, window_hi. split.
  - intros [He H]. apply inside_poly in H; [|exact He]. apply inside_poly; [exact H0|]. lra.
  - intro H. assert (He : m <= e) by (pose proof (above_mass e0 H0); lra). split; [exact He|].
    apply inside_poly in H; [|exact H0]. apply inside_poly; [exact He|]. lra.
Qed.
End Window.

Lemma delta_box (e0 m beta : R) : 0 <= m <= e0 -> 0 < beta < 1 -> forall e,
  boost_delta_function RMath e0 e m beta =
  if Rlt_dec (window_lo e0 m beta) e then
    if Rlt_dec e (window_hi e0 m beta) then / (2 * lorentz beta * beta * momentum e0 m) else 0
  else 0.
Proof.
  intros Hm Hb e. rewrite delta_real. pose proof (window_iff e0 m beta Hb (proj1 Hm) e (proj2 Hm)) as W.
  destruct (Rlt_dec 1 beta); [lra|]. destruct (Rle_dec beta 0); [lra|].
  destruct (Rlt_dec e m) as [Hem|Hem].
  - destruct (Rlt_dec (window_lo e0 m beta) e); [|reflexivity].
    destruct (Rlt_dec e (window_hi e0 m beta)); [|reflexivity]. exfalso. destruct W as [_ W]. destruct W; lra.
  - apply Rnot_lt_le in Hem.
    destruct (Rlt_dec (lorentz beta * (e - beta * momentum e m)) e0);
      [destruct (Rlt_dec e0 (lorentz beta * (e + beta * momentum e m)))|];
      destruct (Rlt_dec (window_lo e0 m beta) e); try (destruct (Rlt_dec e (window_hi e0 m beta)));
      try reflexivity; exfalso; destruct W as [W1 W2]; try (destruct W1; tauto || lra); destruct W2; tauto || lra.
Qed.

Lemma delta_zero (e0 e m beta : R) : 1 < beta \/ beta <= 0 \/ e < m ->
  boost_delta_function RMath e0 e m beta = 0.
Proof.
  intro H. rewrite delta_real. destruct (Rlt_dec 1 beta); [reflexivity|]. destruct (Rle_dec beta 0); [reflexivity|].
  destruct (Rlt_dec e m); [reflexivity|]. exfalso. destruct H as [H|[H|H]]; lra.
Qed.

Lemma momentum_pos e m : 0 <= m < e -> 0 < momentum e m.
Proof. intro H. apply sqrt_lt_R0. nra. Qed.

(** The line holds one particle, with the boosted energy. *)
Lemma window_order (e0 m beta : R) : 0 <= m < e0 -> 0 < beta < 1 ->
  m <= window_lo e0 m beta < window_hi e0 m beta.
Proof.
  intros Hm Hb. split.
  - apply above_mass; lra.
  - unfold window_lo, window_hi. pose proof (lorentz_pos beta Hb). pose proof (momentum_pos e0 m Hm).
    apply Rmult_lt_compat_l; [assumption|]. nra.
Qed.
Lemma delta_area (e0 m beta a b : R) : 0 <= m < e0 -> 0 < beta < 1 ->
  a <= window_lo e0 m beta -> window_hi e0 m beta <= b ->
  area (fun e => boost_delta_function RMath e0 e m beta) a b 1.
Proof.
  intros Hm Hb Ha Hbb. pose proof (lorentz_pos beta Hb). pose proof (momentum_pos e0 m Hm).
  pose proof (window_order e0 m beta Hm Hb).
  apply (area_val _ _ _ (/ (2 * lorentz beta * beta * momentum e0 m) * (window_hi e0 m beta - window_lo e0 m beta))).
  - unfold window_lo, window_hi. field. lra.
  - apply area_box; [lra|lra| |].
    + intros x Hx. change (F RMath) with R in *. rewrite delta_box by lra.
      destruct (Rlt_dec (window_lo e0 m beta) x); [|lra]. destruct (Rlt_dec x (window_hi e0 m beta)); [reflexivity|lra].
    + intros x Hx. change (F RMath) with R in *. rewrite delta_box by lra.
      destruct (Rlt_dec (window_lo e0 m beta) x); [|reflexivity].
      destruct (Rlt_dec x (window_hi e0 m beta)); [lra|reflexivity].
Qed.
Lemma delta_energy (e0 m beta a b : R) : 0 <= m < e0 -> 0 < beta < 1 ->
  a <= window_lo e0 m beta -> window_hi e0 m beta <= b ->
  area (fun e => e * boost_delta_function RMath e0 e m beta) a b (lorentz beta * e0).
Proof.
  intros Hm Hb Ha Hbb. pose proof (lorentz_pos beta Hb). pose proof (momentum_pos e0 m Hm).
  pose proof (window_order e0 m beta Hm Hb).
  set (h := / (2 * lorentz beta * beta * momentum e0 m)). set (lo := window_lo e0 m beta) in *.
  set (hi := window_hi e0 m beta) in *.
  apply (area_val _ _ _ (0 * (lo - a) + (h * (hi * hi) / 2 - h * (lo * lo) / 2) + 0 * (b - hi))).
  - unfold h, lo, hi, window_lo, window_hi. field. lra.
  - apply area_join with hi; [lra| |]; [apply area_join with lo; [lra| |]|].
    + apply (area_ext (fun _ => 0) _ _ _ _ []); [|apply area_const]. intros x Hx _.
      change (F RMath) with R in *. rewrite delta_box by lra. fold lo hi.
      destruct (Rlt_dec lo x); [lra|ring].
    + apply (area_ext (fun x => h * x) _ _ _ _ []).
      * intros x Hx _. change (F RMath) with R in *. rewrite delta_box by lra. fold lo hi h.
        destruct (Rlt_dec lo x); [|lra]. destruct (Rlt_dec x hi); [ring|lra].
      * apply (area_of_antiderivative (fun x => h * (x * x) / 2)). intros x _.
        pose proof (derivable_pt_lim_scal (id * id)%F (h / 2) x _
          (derivable_pt_lim_mult id id x 1 1 (derivable_pt_lim_id x) (derivable_pt_lim_id x))) as D.
        unfold id, mult_fct, mult_real_fct in D.
        apply (derivable_pt_lim_ext (fun x => h / 2 * (x * x))); [intro z; field|].
        replace (h * x) with (h / 2 * (1 * x + x * 1)) by field. exact D.
    + apply (area_ext (fun _ => 0) _ _ _ _ []); [|apply area_const]. intros x Hx _.
      change (F RMath) with R in *. rewrite delta_box by lra. fold lo hi.
      destruct (Rlt_dec lo x); [|ring]. destruct (Rlt_dec x hi); [lra|ring].
Qed.

(** ** The Python helpers *)
Lemma py_delta_agrees of_int trunc (es : list R) (e0 m beta : R) : 0 < beta < 1 ->
  py_boost_delta_function RMath of_int trunc (Floats (M:=RMath) es) e0 m beta
  = Floats (map (fun e => boost_delta_function RMath e0 e m beta) es).
Proof.
  intro Hb. unfold py_boost_delta_function. cbn [stored_like as_floats]. f_equal.
  apply map_ext. intro e. rewrite delta_real. change (lit RMath) with Q2R. rewrite Q2R_1, Q2R_2, RMicromega.Q2R_0.
  change (F RMath) with R in *. unfold lorentz, momentum.
  change (fmul RMath) with Rmult. change (fdiv RMath) with Rdiv. change (fsub RMath) with Rminus.
  change (fadd RMath) with Rplus. change (fsqrt RMath) with sqrt.
  change (flt RMath) with (fun x y : R => if Rlt_dec x y then true else false).
  change (fle RMath) with (fun x y : R => if Rle_dec x y then true else false). cbn beta.
  unfold Rdiv. rewrite !Rmult_1_l.
  destruct (Rlt_dec 0 beta); [|lra]. destruct (Rlt_dec beta 1); [|lra]. cbn [andb].
  destruct (Rlt_dec 1 beta); [lra|]. destruct (Rle_dec beta 0); [lra|].
  destruct (Rle_dec m e), (Rlt_dec e m); try lra; cbn [andb]; [|reflexivity].
  destruct (Rlt_dec _ e0); [|reflexivity]. destruct (Rlt_dec e0 _); reflexivity.
Qed.

Lemma delta_inside (e0 m beta e : R) : 0 <= m < e0 -> 0 < beta < 1 ->
  window_lo e0 m beta < e < window_hi e0 m beta ->
  boost_delta_function RMath e0 e m beta = / (2 * lorentz beta * beta * momentum e0 m).
Proof.
  intros Hm Hb He. rewrite delta_box by lra. destruct (Rlt_dec _ e); [|lra]. destruct (Rlt_dec e _); [reflexivity|lra].
Qed.

(** Velocity 3/5, Lorentz factor 5/4. *)
Lemma lorentz_35 : lorentz (3 / 5) = 5 / 4.
Proof.
  unfold lorentz. replace (1 - 3 / 5 * (3 / 5)) with ((4 / 5) * (4 / 5)) by field.
  rewrite sqrt_square by lra. field.
Qed.
Lemma momentum_massless e : 0 <= e -> momentum e 0 = e.
Proof. intro H. unfold momentum. replace (e * e - 0 * 0) with (e * e) by ring. now apply sqrt_square. Qed.

Lemma py_delta_ints (trunc : R -> Z) : (forall x, 0 <= x < 1 -> trunc x = 0%Z) ->
  py_boost_delta_function RMath IZR trunc (Ints [5]%Z) 4 0 (3 / 5) = Ints [0]%Z
  /\ py_boost_delta_function RMath IZR trunc (Floats (M:=RMath) [5]) 4 0 (3 / 5) = Floats (M:=RMath) [1 / 6].
Proof.
  intro Ht. assert (E : boost_delta_function RMath 4 5 0 (3 / 5) = 1 / 6).
  { rewrite delta_inside; [|lra|lra|].
    - rewrite lorentz_35, momentum_massless by lra.
      match goal with |- ?a = ?b => change (@eq R a b) end. field.
    - unfold window_lo, window_hi. rewrite lorentz_35, momentum_massless by lra. lra. }
  pose proof (py_delta_agrees IZR trunc [5] 4 0 (3 / 5) ltac:(lra)) as A.
  cbn [map] in A. rewrite E in A. split; [|exact A].
  unfold py_boost_delta_function in *. cbn [stored_like as_floats map] in *.
  match type of A with Floats [?v] = _ => set (w := v) in * end.
  injection A as Ew. f_equal. f_equal. rewrite <- (Ht (1 / 6)) by lra. f_equal. exact Ew.
Qed.

Lemma boost_array_above spline (dnde energies : list R) (beta mass : R) : 1 < beta ->
  dnde_boost_array RMath spline dnde energies beta mass = map (fun _ => 0) energies.
Proof.
  intro Hb. unfold dnde_boost_array. change (lit RMath) with Q2R. rewrite Q2R_1, RMicromega.Q2R_0.
  change (mnum RMath) with RNum. rewrite (proj2 (Rflt_false beta (epmach RNum))).
  2:{ cbn [epmach RNum]. apply Rle_trans with 1; [|lra]. rewrite <- Rinv_1. apply Rinv_le_contravar; [lra|].
      apply pow_R1_Rle. lra. }
  rewrite (proj2 (Rflt_true 1 beta)) by exact Hb. rewrite orb_true_r. reflexivity.
Qed.
Lemma boost_array_negative spline (dnde energies : list R) (beta mass : R) : beta < 0 ->
  dnde_boost_array RMath spline dnde energies beta mass = dnde.
Proof.
  intro Hb. unfold dnde_boost_array. change (mnum RMath) with RNum.
  rewrite (proj2 (Rflt_true beta (epmach RNum))); [reflexivity|]. cbn [epmach RNum].
  apply Rlt_trans with 0; [exact Hb|]. apply Rinv_0_lt_compat, pow_lt. lra.
Qed.
Lemma boost_fn_above Args (none : Args) fn integrate (mass beta : R) energies method args :
  In method methods -> 1 < beta ->
  fn_boosted RMath Args none fn integrate mass energies beta method args = Ret (map (fun _ => 0) energies).
Proof.
  intros Hm Hb. unfold fn_boosted. change (lit RMath) with Q2R. rewrite Q2R_1, RMicromega.Q2R_0.
  assert (E : existsb (String.eqb method) methods = true).
  { apply existsb_exists. exists method. split; [exact Hm|apply String.eqb_refl]. }
  rewrite E. cbn [negb].
  change (mnum RMath) with RNum. rewrite (proj2 (Rflt_false beta (epmach RNum))).
  2:{ cbn [epmach RNum]. apply Rle_trans with 1; [|lra]. rewrite <- Rinv_1. apply Rinv_le_contravar; [lra|].
      apply pow_R1_Rle. lra. }
  rewrite (proj2 (Rflt_true 1 beta)) by exact Hb. rewrite orb_true_r. reflexivity.
Qed.
Lemma boost_fn_small Args (none : Args) fn integrate (mass beta : R) energies method args :
  In method methods -> beta < / 2 ^ 52 ->
  fn_boosted RMath Args none fn integrate mass energies beta method args = Ret (map (fun e => fn e none) energies).
Proof.
  intros Hm Hb. unfold fn_boosted.
  assert (E : existsb (String.eqb method) methods = true).
  { apply existsb_exists. exists method. split; [exact Hm|apply String.eqb_refl]. }
  rewrite E. cbn [negb].
  change (mnum RMath) with RNum. rewrite (proj2 (Rflt_true beta (epmach RNum))) by exact Hb. reflexivity.
Qed.
Lemma boost_fn_method (M : Math) Args (none : Args) fn integrate mass energies beta method args :
  ~ In method methods -> fn_boosted M Args none fn integrate mass energies beta method args = Raise ValueError.
Proof.
  intro H. unfold fn_boosted. destruct (existsb (String.eqb method) methods) eqn:E; [|reflexivity].
  apply existsb_exists in E. destruct E as (s & Hs & Es). apply String.eqb_eq in Es. subst s. contradiction.
Qed.

(** ** The branch taken by a parent energy *)
Lemma beta_real (e m : R) : 0 < m < e -> 0 < boost_beta RMath e m < 1.
Proof.
  intro H. unfold boost_beta. change (lit RMath) with Q2R. rewrite Q2R_1.
  change (fmul RMath) with Rmult. change (fdiv RMath) with Rdiv. change (fsub RMath) with Rminus.
  change (fsqrt RMath) with sqrt. cbn zeta.
  assert (Hr : 0 < m / e < 1).
  { split; [apply Rdiv_lt_0_compat; lra|]. apply (Rmult_lt_reg_r e); [lra|]. unfold Rdiv.
    rewrite Rmult_assoc, Rinv_l, Rmult_1_r, Rmult_1_l; lra. }
  set (r := m / e) in *. clearbody r. split; [apply sqrt_lt_R0; nra|].
  eapply Rlt_le_trans; [apply (sqrt_lt_1 _ 1); nra|rewrite sqrt_1; lra].
Qed.
Lemma branch_real (e m : R) : 0 < m ->
  branch RMath e m = (if Rlt_dec e m then Ok BelowThreshold else
    if Rlt_dec (e - m) (/ 2 ^ 52) then Ok RestFrame else Ok (InFlight (boost_beta RMath e m))).
Proof.
  intro Hm. unfold branch. change (mnum RMath) with RNum. cbn [flt RNum]. change (F RNum) with R in *.
  destruct (Rlt_dec e m); [reflexivity|]. change (fsub RNum) with Rminus. change (epmach RNum) with (/ 2 ^ 52).
  destruct (Rlt_dec (e - m) (/ 2 ^ 52)) as [|H]; [reflexivity|].
  assert (0 < / 2 ^ 52) by (apply Rinv_0_lt_compat, pow_lt; lra).
  assert (Hb : 0 < m < e) by (apply Rnot_lt_le in H; set (eps := / 2 ^ 52) in *; clearbody eps; change (eps <= Rminus e m) in H; lra).
  pose proof (beta_real e m Hb) as B. change (mnum RMath) with RNum in B. change (F RNum) with R in B.
  change (lit RNum) with Q2R. rewrite Q2R_1, RMicromega.Q2R_0.
  destruct (Rlt_dec 0 (boost_beta RMath e m)) as [|Q]; [|exfalso; apply Q; apply B].
  destruct (Rlt_dec (boost_beta RMath e m) 1) as [|Q]; [|exfalso; apply Q; apply B]. reflexivity.
Qed.
