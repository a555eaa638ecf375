(** The traces of DiracProofs are those of the Dirac matrices, written out. *)
From Coq Require Import Reals Lra Psatz List Arith FunctionalExtensionality.
From Verif Require Import DiracProofs ChanProofs.
Import ListNotations.
Local Open Scope R_scope.

(** * Complex four by four matrices *)
Inductive ix : Type := I0 | I1 | I2 | I3.
Record cm : Type := CM { re : ix -> ix -> R; im : ix -> ix -> R }.
Definition sum4 (f : ix -> R) : R := f I0 + f I1 + f I2 + f I3.
Definition mul (a b : cm) : cm :=
  CM (fun i j => sum4 (fun k => re a i k * re b k j - im a i k * im b k j))
     (fun i j => sum4 (fun k => re a i k * im b k j + im a i k * re b k j)).
Definition comb (x : R) (a : cm) (y : R) (b : cm) : cm :=
  CM (fun i j => x * re a i j + y * re b i j) (fun i j => x * im a i j + y * im b i j).
(** the real and the imaginary part of the trace *)
Definition rtr (a : cm) : R := sum4 (fun i => re a i i).
Definition itr (a : cm) : R := sum4 (fun i => im a i i).

(** a matrix given by its rows *)
Definition pick (x : R * R * R * R) (i : ix) : R :=
  let '(a, b, c, d) := x in match i with I0 => a | I1 => b | I2 => c | I3 => d end.
Definition mat (r0 r1 r2 r3 : R * R * R * R) (i j : ix) : R :=
  pick (match i with I0 => r0 | I1 => r1 | I2 => r2 | I3 => r3 end) j.
Definition zero : ix -> ix -> R := fun _ _ => 0.
Definition one : cm := CM (mat (1, 0, 0, 0) (0, 1, 0, 0) (0, 0, 1, 0) (0, 0, 0, 1)) zero.
(** the Dirac matrices in the Dirac representation; that of the second direction is imaginary *)
Definition gamma0 : cm := CM (mat (1, 0, 0, 0) (0, 1, 0, 0) (0, 0, -1, 0) (0, 0, 0, -1)) zero.
Definition gamma1 : cm := CM (mat (0, 0, 0, 1) (0, 0, 1, 0) (0, -1, 0, 0) (-1, 0, 0, 0)) zero.
Definition gamma2 : cm := CM zero (mat (0, 0, 0, -1) (0, 0, 1, 0) (0, 1, 0, 0) (-1, 0, 0, 0)).
Definition gamma3 : cm := CM (mat (0, 0, 1, 0) (0, 0, 0, -1) (-1, 0, 0, 0) (0, 1, 0, 0)) zero.
Definition gamma5 : cm := CM (mat (0, 0, 1, 0) (0, 0, 0, 1) (1, 0, 0, 0) (0, 1, 0, 0)) zero.
(** a slashed vector, its spatial components lowered *)
Definition slash (a : vec) : cm :=
  comb 1 (comb (v0 a) gamma0 (- v1 a) gamma1) 1 (comb (- v2 a) gamma2 (- v3 a) gamma3).
Definition prod (l : list vec) : cm := fold_right (fun a m => mul (slash a) m) one l.
(** a product of pslash + m *)
Definition spins (l : list (vec * R)) : cm :=
  fold_right (fun pm m => mul (comb 1 (slash (fst pm)) (snd pm) one) m) one l.

(** * Lemmas *)
Lemma cm_ext : forall a b, (forall i j, re a i j = re b i j) -> (forall i j, im a i j = im b i j) -> a = b.
Proof.
  intros [ra ia] [rb ib] H1 H2. cbn in *. f_equal; apply functional_extensionality; intro; apply functional_extensionality; intro; auto.
Qed.
Lemma mul_assoc : forall a b c, mul a (mul b c) = mul (mul a b) c.
Proof. intros. apply cm_ext; intros i j; unfold mul, sum4; cbn [re im]; ring. Qed.
Lemma mul_one_l : forall a, mul one a = a.
Proof. intro a. apply cm_ext; intros i j; unfold mul, sum4, one, zero, mat, pick; cbn [re im]; destruct i; ring. Qed.
Lemma mul_one_r : forall a, mul a one = a.
Proof. intro a. apply cm_ext; intros i j; unfold mul, sum4, one, zero, mat, pick; cbn [re im]; destruct j; ring. Qed.
Lemma mul_comb_r : forall a x b y c, mul a (comb x b y c) = comb x (mul a b) y (mul a c).
Proof. intros. apply cm_ext; intros i j; unfold mul, comb, sum4; cbn [re im]; ring. Qed.
Lemma mul_comb_l : forall a x b y c, mul (comb x b y c) a = comb x (mul b a) y (mul c a).
Proof. intros. apply cm_ext; intros i j; unfold mul, comb, sum4; cbn [re im]; ring. Qed.

Ltac entries := apply cm_ext; intros i j; destruct i, j;
  cbv [mul comb slash sum4 one gamma0 gamma1 gamma2 gamma3 gamma5 mat pick zero mdot re im]; ring.
Lemma clifford : forall a b, mul (slash a) (slash b) = comb (2 * mdot a b) one (-1) (mul (slash b) (slash a)).
Proof. intros. entries. Qed.
Lemma gamma5_sq : mul gamma5 gamma5 = one.
Proof. entries. Qed.
Lemma gamma5_anti : forall a, mul gamma5 (slash a) = comb (-1) (mul (slash a) gamma5) 0 one.
Proof. intros. entries. Qed.

Lemma prod_app : forall l l', prod (l ++ l') = mul (prod l) (prod l').
Proof. induction l; intro l'; cbn [app prod fold_right]; [symmetry; apply mul_one_l|]. fold (prod (l ++ l')). rewrite IHl. apply mul_assoc. Qed.

Section Functional.
Variable f : cm -> R.
Hypothesis lin : forall x a y b, f (comb x a y b) = x * f a + y * f b.
Hypothesis cyc : forall a b, f (mul a b) = f (mul b a).

Lemma odd_zero : forall l, Nat.odd (length l) = true -> f (prod l) = 0.
Proof.
  assert (G : forall l, mul gamma5 (prod l) = comb (if Nat.odd (length l) then -1 else 1) (mul (prod l) gamma5) 0 one).
  { induction l as [|a l IH].
    - change (prod []) with one. change (Nat.odd (length [])) with false. cbv iota. rewrite mul_one_l, mul_one_r.
      apply cm_ext; intros i j; unfold comb; cbn [re im]; ring.
    - change (prod (a :: l)) with (mul (slash a) (prod l)). rewrite mul_assoc, gamma5_anti, mul_comb_l, mul_one_l.
      rewrite <- mul_assoc, IH, mul_comb_r, mul_one_r, mul_assoc. cbn [length]. rewrite Nat.odd_succ, <- Nat.negb_odd.
      set (X := mul (mul (slash a) (prod l)) gamma5). set (Y := prod l). clearbody X Y.
      apply cm_ext; intros i j; unfold comb; cbn [re im]; destruct (Nat.odd (length l)); cbn [negb]; ring. }
  intros l O. pose proof (G l) as E. rewrite O in E.
  assert (A : f (prod l) = f (mul gamma5 (mul gamma5 (prod l)))) by (rewrite mul_assoc, gamma5_sq, mul_one_l; reflexivity).
  rewrite E in A at 1. rewrite mul_comb_r, lin in A.
  rewrite cyc, <- mul_assoc, gamma5_sq, mul_one_r in A. lra.
Qed.

(** the pairings of the first factor *)
Fixpoint alt (g : list vec -> R) (a : vec) (sign : R) (before after : list vec) : R :=
  match after with
  | [] => 0
  | b :: rest => sign * (mdot a b * g (before ++ rest)) + alt g a (- sign) (before ++ [b]) rest
  end.
Definition parity (n : nat) : R := if Nat.odd n then -1 else 1.
Lemma swap : forall l a b r, f (prod (l ++ a :: b :: r)) = 2 * mdot a b * f (prod (l ++ r)) - f (prod (l ++ b :: a :: r)).
Proof.
  intros. rewrite !prod_app. change (prod (a :: b :: r)) with (mul (slash a) (mul (slash b) (prod r))).
  change (prod (b :: a :: r)) with (mul (slash b) (mul (slash a) (prod r))).
  rewrite (mul_assoc (slash a)), clifford, mul_comb_l, mul_one_l, mul_comb_r, lin. rewrite <- (mul_assoc (slash b)). ring.
Qed.
Lemma move : forall a after sign before,
  2 * alt (fun l => f (prod l)) a sign before after
  = sign * f (prod (before ++ a :: after)) - sign * parity (length after) * f (prod (before ++ after ++ [a])).
Proof.
  intros a after. induction after as [|b r IH]; intros sign before.
  - cbn [alt app length parity Nat.odd]. unfold parity. cbn [Nat.odd Nat.even negb]. ring.
  - cbn [alt length]. rewrite Rmult_plus_distr_l, IH. rewrite swap. rewrite <- !app_assoc. cbn [app].
    unfold parity. rewrite Nat.odd_succ, <- Nat.negb_odd. destruct (Nat.odd (length r)); cbn [negb]; ring.
Qed.
Lemma pairings : forall a r, f (prod (a :: r)) = alt (fun l => f (prod l)) a 1 [] r.
Proof.
  intros a r. destruct (Nat.odd (length r)) eqn:O.
  - pose proof (move a r 1 []) as E. cbn [app] in E. unfold parity in E. rewrite O in E.
    rewrite (prod_app r [a]), cyc, <- prod_app in E. cbn [app] in E. lra.
  - rewrite odd_zero by (cbn [length]; rewrite Nat.odd_succ, <- Nat.negb_odd, O; reflexivity). symmetry.
    assert (G : forall after sign before, Nat.odd (length before + length after) = false -> alt (fun l => f (prod l)) a sign before after = 0).
    { induction after as [|b l IH]; intros sign before H; [reflexivity|]. cbn [alt length] in *. rewrite Nat.add_succ_r, Nat.odd_succ in H.
      rewrite IH by (rewrite app_length; cbn [length]; rewrite Nat.add_1_r, Nat.add_succ_l, Nat.odd_succ; exact H).
      rewrite odd_zero; [ring|]. rewrite app_length, <- Nat.negb_even, H. reflexivity. }
    apply G. exact O.
Qed.
End Functional.

Lemma rtr_lin : forall x a y b, rtr (comb x a y b) = x * rtr a + y * rtr b.
Proof. intros. unfold rtr, comb, sum4. cbn [re]. ring. Qed.
Lemma itr_lin : forall x a y b, itr (comb x a y b) = x * itr a + y * itr b.
Proof. intros. unfold itr, comb, sum4. cbn [im]. ring. Qed.
Lemma rtr_cyc : forall a b, rtr (mul a b) = rtr (mul b a).
Proof. intros. unfold rtr, mul, sum4. cbn [re]. ring. Qed.
Lemma itr_cyc : forall a b, itr (mul a b) = itr (mul b a).
Proof. intros. unfold itr, mul, sum4. cbn [im]. ring. Qed.

(** the recursion of [trace] is that of the matrices *)
Lemma trace_matrices : forall n l ms, (length l + steps (map (map Slash) ms) < n)%nat ->
  trace n (map Slash l) (map (map Slash) ms) = rtr (prod l) * fold_right (fun m x => rtr (prod m) * x) 1 ms.
Proof.
  induction n as [|n IH]; intros l ms H; [lia|]. destruct l as [|a r].
  - assert (E : rtr (prod []) = 4) by (unfold rtr, prod, one, sum4, mat, pick; cbn; ring). rewrite E. destruct ms as [|m ms].
    + cbn. ring.
    + cbn [trace map fold_right]. rewrite IH; [reflexivity|]. unfold steps in *. cbn [map fold_right length] in H. rewrite map_length in H. lia.
  - cbn [map trace]. set (c := fold_right _ _ _).
    match goal with |- ?F 1 [] (map Slash r) = _ =>
      assert (G : forall after sign before, (length before + length after = length r)%nat ->
        F sign (map Slash before) (map Slash after) = alt (fun l => rtr (prod l)) a sign before after * c) end.
    { induction after as [|b rest IHa]; intros sign before L; cbn [map alt]; [ring|].
      rewrite <- map_app, IH.
      - change [Slash b] with (map Slash [b]). rewrite <- map_app, IHa by (rewrite app_length; cbn [length] in *; lia). fold c. ring.
      - cbn [length] in *. rewrite app_length. lia. }
    specialize (G r 1 [] eq_refl). cbn [map] in G. rewrite G, <- (pairings rtr rtr_lin rtr_cyc). reflexivity.
Qed.
Lemma imaginary_part : forall n l, (length l < n)%nat -> itr (prod l) = 0.
Proof.
  induction n as [|n IH]; intros l H; [lia|]. destruct l as [|a r].
  - unfold itr, prod, one, sum4, zero. cbn. ring.
  - rewrite (pairings itr itr_lin itr_cyc). cbn [length] in H.
    assert (G : forall after sign before, (length before + length after <= n)%nat -> alt (fun l => itr (prod l)) a sign before after = 0).
    { induction after as [|b rest IHa]; intros sign before L; [reflexivity|]. cbn [alt length] in *.
      rewrite IHa by (rewrite app_length; cbn [length]; lia). rewrite IH by (rewrite app_length; lia). ring. }
    apply G. cbn. lia.
Qed.

(** a product of pslash + m *)
Definition as_factors (l : list (vec * R)) : list factor := map (fun pm => Spin (fst pm) (snd pm)) l.
Lemma expand_linear : forall f (lin : forall x a y b, f (comb x a y b) = x * f a + y * f b) k l acc,
  (forall l', k (map Slash l') = f (prod l')) ->
  expand (map Slash acc) k (as_factors l) = f (mul (prod acc) (spins l)).
Proof.
  intros f lin k l. induction l as [|(p, m) l IH]; intros acc H.
  - cbn [as_factors map expand spins fold_right]. rewrite mul_one_r. apply H.
  - cbn [as_factors map expand spins fold_right fst snd]. fold (as_factors l). fold (spins l).
    change [Slash p] with (map Slash [p]). rewrite <- map_app, !IH by exact H.
    rewrite mul_comb_l, mul_comb_r, lin, mul_one_l, prod_app. cbn [prod fold_right]. rewrite mul_one_r, <- mul_assoc. ring.
Qed.
