(** C177: a one-dimensional distribution as a function and its expectation values by the three methods. *)
From Coq Require Import Reals Lra Lia Psatz Arith Bool String Sorted List.
From Verif Require Import PyBase Area RamboModel RamboProofs KinModel KinProofs KinProps DistModel DistProofs.
Import ListNotations.
Local Open Scope R_scope.

(** the middle of each bin *)
Definition midpoints (edges : list R) : list R := map (fun q => (fst q + snd q) / 2) (neighbours edges).
Lemma midpoints_ok : forall l, bin_centers l = midpoints l.
Proof.
  induction l as [|a l IH]; [reflexivity|]. destruct l as [|b l]; [reflexivity|]. rewrite centers_cons, IH. reflexivity.
Qed.

(** A histogram with positive content over increasing edges. *)
Definition histogram (edges ys : list R) (d : dist) : Prop :=
  Sorted Rlt edges /\ ys <> [] /\ 0 < binned_integral ys edges /\ dist_new edges ys = Ret d.

Lemma object : forall edges ys d, histogram edges ys d ->
  length edges = S (length ys) /\ exists ps, probabilities d = Some ps /\ centers d = bin_centers edges /\ bins d = edges /\ length ps = length ys /\
  binned_integral ps edges = 1 /\ forall i p, nth_error ys i = Some p -> nth_error ps i = Some (p / binned_integral ys edges).
Proof.
  intros edges ys d (Hs & Hne & Hp & Hd). unfold dist_new in Hd.
  destruct (Nat.eqb (length edges) (length ys + 1)) eqn:El; [|discriminate]. apply Nat.eqb_eq in El.
  assert (Hl : length edges = S (length ys)) by lia. split; [assumption|].
  destruct (normalize_distribution_exact ys edges Hne Hl) as [N _]. destruct (N Hp) as (ps & En & Eb & Lp & Hq).
  rewrite En in Hd. cbn [bind] in Hd. injection Hd as <-. exists ps. cbn. now repeat split.
Qed.
Lemma limits_sorted : forall d a l, bins d = a :: l -> Sorted Rlt (a :: l) -> dist_limits d = Ret (a, last (a :: l) 0).
Proof.
  intros d a l E Hs. unfold dist_limits. rewrite E. cbn [np_min np_max bind]. f_equal. f_equal.
  - pose proof (sorted_first a l Hs) as F. assert (K : forall l, (forall y, In y l -> a <= y) -> fold_left Rmin l a = a).
    { clear. induction l as [|b l IH]; intro H; [reflexivity|]. cbn [fold_left]. rewrite Rmin_left by (apply H; now left).
      apply IH. intros y Hy. apply H. now right. }
    apply K. intros y Hy. apply F. now right.
  - clear E. revert a Hs. induction l as [|b l IH]; intros a Hs; [reflexivity|]. apply sorted_cons in Hs. destruct Hs as [A B].
    cbn [fold_left]. rewrite Rmax_right by lra. change (last (a :: b :: l) 0) with (last (b :: l) 0). now apply IH.
Qed.
Lemma centers_inside : forall l a, Sorted Rlt (a :: l) -> forall x, In x (bin_centers (a :: l)) -> a < x < last (a :: l) 0.
Proof.
  induction l as [|b l IH]; intros a Hs x Hx; [destruct Hx|]. rewrite centers_cons in Hx.
  pose proof Hs as Hs'. apply sorted_cons in Hs'. destruct Hs' as [A B].
  change (last (a :: b :: l) 0) with (last (b :: l) 0).
  destruct Hx as [<-|Hx].
  - pose proof (sorted_last b l B b (or_introl eq_refl)). lra.
  - specialize (IH b B x Hx). lra.
Qed.

(** ** The distribution as a function
    It passes through the probabilities at the middle of the bins, is a straight line between two middles
    and is zero in the outer halves of the first and of the last bin. *)
Theorem distribution_function : forall edges ys d, histogram edges ys d ->
  exists ps, probabilities d = Some ps /\ binned_integral ps edges = 1 /\
  (forall i a b p, nth_error edges i = Some a -> nth_error edges (S i) = Some b -> nth_error ps i = Some p ->
     dist_call d ((a + b) / 2) = Some p) /\
  (forall i a b c p q t, nth_error edges i = Some a -> nth_error edges (S i) = Some b -> nth_error edges (S (S i)) = Some c ->
     nth_error ps i = Some p -> nth_error ps (S i) = Some q -> 0 <= t < 1 ->
     dist_call d ((1 - t) * ((a + b) / 2) + t * ((b + c) / 2)) = Some ((1 - t) * p + t * q)) /\
  (forall a b l x, edges = a :: b :: l -> x < (a + b) / 2 -> dist_call d x = Some 0) /\
  (forall a b l x, edges = l ++ [a; b] -> (a + b) / 2 < x -> dist_call d x = Some 0).
Proof.
  intros edges ys d H. pose proof H as H'. destruct H' as (Hs & Hne & _). destruct (object edges ys d H) as (Hl & ps & Ep & Ec & Eb & Lp & E1 & _).
  assert (Lc : length (bin_centers edges) = length ps) by (rewrite centers_length; lia).
  pose proof (centers_sorted edges Hs) as Hc. exists ps. split; [assumption|]. split; [assumption|].
  unfold dist_call. rewrite Ep, Ec.
  assert (From : forall x y, In y (bin_centers edges) -> y <= x -> np_interp_zero x (bin_centers edges) ps = interp_from x (bin_centers edges) ps).
  { intros x y Hy Hx. unfold np_interp_zero. destruct (bin_centers edges) as [|c0 cs] eqn:E; [destruct Hy|].
    pose proof (sorted_first c0 cs Hc y Hy). destruct (Rlt_dec x c0); [lra|reflexivity]. }
  split; [|split; [|split]].
  - intros i a b p Ha Hb Hp. pose proof (centers_nth edges i a b Ha Hb) as N. f_equal.
    rewrite (From _ _ (nth_error_In _ _ N)) by lra. now apply (interp_node _ _ i).
  - intros i a b c p q t Ha Hb Hc' Hp Hq Ht. pose proof (centers_nth edges i a b Ha Hb) as N0. pose proof (centers_nth edges (S i) b c Hb Hc') as N1.
    assert (L : a < b < c).
    { clear - Hs Ha Hb Hc'. revert i Ha Hb Hc'. induction edges as [|x l IH]; intros i Ha Hb Hc'; [destruct i; discriminate|].
      destruct i as [|i]; [|inversion Hs; subst; now apply (IH H1 i)].
      destruct l as [|y [|z l]]; try discriminate. cbn in *. injection Ha as ->. injection Hb as ->. injection Hc' as ->.
      apply sorted_cons in Hs. destruct Hs as [A B]. apply sorted_cons in B. destruct B. lra. }
    f_equal. rewrite (From _ _ (nth_error_In _ _ N0)) by nra.
    rewrite (interp_segment _ _ i _ _ _ _ _ Hc Lc N0 N1 Hp Hq) by (split; nra). field. lra.
  - intros a b l x -> Hx. rewrite centers_cons. cbn [np_interp_zero]. destruct (Rlt_dec x ((a + b) / 2)); [reflexivity|lra].
  - intros a b l x E Hx. f_equal. unfold np_interp_zero. destruct (bin_centers edges) as [|c0 cs] eqn:Ece; [reflexivity|].
    destruct (Rlt_dec x c0); [reflexivity|]. apply interp_above; try assumption.
    intros y Hy. pose proof (sorted_last c0 cs Hc y Hy) as K. rewrite <- Ece, E in K. rewrite centers_last in K by (now rewrite <- E). lra.
Qed.
Print Assumptions distribution_function.

Lemma sample : exists d, histogram [0; 1; 3; 4] [2; 1; 3] d.
Proof.
  assert (P : 0 < binned_integral [2; 1; 3] [0; 1; 3; 4]) by (unfold binned_integral, widths; cbn; lra).
  destruct (normalize_distribution_exact [2; 1; 3] [0; 1; 3; 4]) as [N _]; [discriminate|reflexivity|].
  destruct (N P) as (qs & En & _). eexists. split; [repeat (constructor; try lra)|]. split; [discriminate|]. split; [exact P|].
  unfold dist_new. cbn [length Nat.eqb Nat.add]. rewrite En. reflexivity.
Qed.
Example distribution_function_example : exists d, histogram [0; 1; 3; 4] [2; 1; 3] d.
Proof. exact sample. Qed.

(** The limits are the outer edges, which hold every edge, and the length is the number of bins. *)
Theorem distribution_limits : forall edges ys d, histogram edges ys d ->
  dist_len d = Some (length ys) /\
  exists lo hi, dist_limits d = Ret (lo, hi) /\ In lo edges /\ In hi edges /\ forall x, In x edges -> lo <= x <= hi.
Proof.
  intros edges ys d H. pose proof H as H'. destruct H' as (Hs & _). destruct (object edges ys d H) as (Hl & ps & Ep & _ & Eb & Lp & _).
  split; [unfold dist_len; now rewrite Ep, Lp|]. destruct edges as [|a l]; [discriminate|].
  exists a, (last (a :: l) 0). split; [now apply limits_sorted|]. split; [now left|]. split.
  - destruct (exists_last (l := a :: l)) as (r & y & E); [discriminate|]. rewrite E, last_last. apply in_or_app. right. now left.
  - intros x Hx. split; [now apply (sorted_first a l)|now apply (sorted_last a l)].
Qed.
Print Assumptions distribution_limits.
Example distribution_limits_example : exists d, histogram [0; 1; 3; 4] [2; 1; 3] d.
Proof. exact sample. Qed.

(** ** The method is chosen by name *)
Theorem expect_methods : forall quad d fn args method,
  let f x := fn x args in
  (expect quad d fn "trapz" args = Ret (expect_trapz d f)) /\
  (expect quad d fn "simps" args = Ret (expect_fixed d f simpson)) /\
  (expect quad d fn "quad" args = expect_quad quad d f) /\
  (~ In method ["trapz"; "simps"; "quad"]%string -> expect quad d fn method args = Raise ValueError).
Proof.
  intros quad d fn args method f.
  assert (Ef : forall x, (if Nat.ltb 0 (length args) then fn x args else fn x []) = f x) by (intro x; unfold f; now destruct args).
  assert (Em : forall cs ps, map (fun xp => snd xp * (if Nat.ltb 0 (length args) then fn (fst xp) args else fn (fst xp) [])) (combine cs ps)
                = map (fun xp => snd xp * f (fst xp)) (combine cs ps)) by (intros; apply map_ext; intro; now rewrite Ef).
  unfold expect. cbn [String.eqb Ascii.eqb Bool.eqb]. repeat split.
  - unfold expect_fixed, expect_trapz. destruct (probabilities d); [|reflexivity]. now rewrite Em.
  - unfold expect_fixed. destruct (probabilities d); [|reflexivity]. now rewrite Em.
  - unfold f. destruct args; reflexivity.
  - intro H. destruct (String.eqb_spec method "trapz"); [destruct H; subst; now left|].
    destruct (String.eqb_spec method "simps"); [destruct H; subst; right; now left|].
    destruct (String.eqb_spec method "quad"); [destruct H; subst; right; right; now left|reflexivity].
Qed.
Print Assumptions expect_methods.
Example expect_methods_example : ~ In "trapezoid"%string ["trapz"; "simps"; "quad"]%string.
Proof. intros [H|[H|[H|[]]]]; discriminate. Qed.

(** ** Adaptive integration against the trapezoidal rule
    With no error of integration the method quad differs from trapz only by the curvature of the product of
    the interpolated probability and the function: for an affine function by a sum over neighbouring bins,
    for a constant by nothing.  So it loses the outer half bins as well. *)
Theorem expect_quad_affine : forall quad edges ys d u v, exact_quad quad -> histogram edges ys d ->
  exists ps t, probabilities d = Some ps /\ binned_integral ps edges = 1 /\
    expect quad d (fun x _ => u + v * x) "trapz" [] = Ret (Some t) /\
    expect quad d (fun x _ => u + v * x) "quad" [] = Ret (Some (t - v / 6 *
      sum (map (fun q => (snd (fst q) - fst (fst q)) ^ 2 * (snd (snd q) - fst (snd q)))
             (combine (neighbours (midpoints edges)) (neighbours ps))))).
Proof.
  intros quad edges ys d u v Hq H. pose proof H as H'. destruct H' as (Hs & Hne & _).
  destruct (object edges ys d H) as (Hl & ps & Ep & Ec & Eb & Lp & E1 & _).
  assert (Lc : length (bin_centers edges) = length ps) by (rewrite centers_length; lia).
  exists ps, (trapezoid (bin_centers edges) (products (fun x => u + v * x) (bin_centers edges) ps)).
  split; [assumption|]. split; [assumption|].
  destruct (expect_methods quad d (fun x _ => u + v * x) [] "") as (T & _ & Q & _). cbv zeta in T, Q. rewrite T, Q. clear T Q.
  unfold expect_trapz, expect_quad. rewrite Ep, Ec. split; [reflexivity|].
  destruct edges as [|a [|b l]]; [discriminate|destruct ys; [now destruct Hne|discriminate]|].
  rewrite (limits_sorted d a (b :: l) Eb Hs). cbn [bind fst snd]. f_equal. f_equal.
  rewrite <- midpoints_ok, <- trapezoid_pieces by assumption.
  apply Hq; [apply (sorted_last a (b :: l) Hs); now left|].
  apply np_interp_area; [rewrite centers_cons; discriminate|now apply centers_sorted|assumption|].
  now apply centers_inside.
Qed.
Print Assumptions expect_quad_affine.
Example expect_quad_affine_example : exists quad d, exact_quad quad /\ histogram [0; 1; 3; 4] [2; 1; 3] d.
Proof. destruct exact_quad_exists as [q Hq]. destruct sample as [d Hd]. now exists q, d. Qed.

(** ** A flat distribution by the three methods
    For n >= 2 bins with the same content over [a, z] every method gives, for every affine function, the mean
    of the function between the middle A of the first bin and the middle B of the last bin times
    (B - A) / (z - a), whatever the widths of the bins.  The expectation value is the mean over [a, z]. *)
Lemma binned_flat : forall c l a, binned_integral (repeat c (length l)) (a :: l) = c * (last (a :: l) 0 - a).
Proof.
  intros c. unfold binned_integral, widths. induction l as [|b l IH]; intro a; [cbn; ring|].
  change (total (c * (b - a) :: map (fun pw => fst pw * snd pw) (combine (repeat c (length l)) (map (fun ab => snd ab - fst ab) (combine (b :: l) (tl (b :: l))))))
    = c * (last (b :: l) 0 - a)).
  rewrite total_cons, IH. ring.
Qed.
Lemma nth_error_ext_repeat : forall (p : R) n ps, length ps = n -> (forall i, (i < n)%nat -> nth_error ps i = Some p) -> ps = repeat p n.
Proof.
  intros p. induction n as [|n IH]; intros [|q ps] L H; try discriminate L; [reflexivity|]. cbn [repeat]. f_equal.
  - specialize (H 0%nat ltac:(lia)). now injection H.
  - apply IH; [now injection L|]. intros i Hi. apply (H (S i)). lia.
Qed.
Lemma nth_error_repeat_in : forall (c : R) n i, (i < n)%nat -> nth_error (repeat c n) i = Some c.
Proof. intros c. induction n as [|n IH]; intros [|i] H; try lia; [reflexivity|]. cbn. apply IH. lia. Qed.
Lemma products_flat : forall p u v xs, products (fun x => u + v * x) xs (repeat p (length xs)) = map (fun x => p * u + p * v * x) xs.
Proof.
  intros p u v. induction xs as [|x xs IH]; [reflexivity|]. cbn [length repeat map]. rewrite products_cons, IH. f_equal. ring.
Qed.
Lemma flat_correction : forall p n xs,
  sum (map (fun q => (snd (fst q) - fst (fst q)) ^ 2 * (snd (snd q) - fst (snd q))) (combine (neighbours xs) (neighbours (repeat p n)))) = 0.
Proof.
  intros p n xs. assert (F : forall q, In q (neighbours (repeat p n)) -> snd q - fst q = 0).
  { intros [x y] Hq. unfold neighbours in Hq. pose proof (in_combine_l _ _ _ _ Hq) as A. pose proof (in_combine_r _ _ _ _ Hq) as B.
    apply repeat_spec in A. assert (B' : In y (repeat p n)) by (destruct n; [destruct B|right; exact B]). apply repeat_spec in B'. cbn. lra. }
  revert F. generalize (neighbours xs), (neighbours (repeat p n)). induction l as [|x l IH]; intros r F; [reflexivity|].
  destruct r as [|y r]; [reflexivity|]. cbn [combine map sum fold_right fst snd]. unfold sum in IH. rewrite IH by (intros; apply F; now right).
  rewrite (F y) by now left. ring.
Qed.

Theorem expect_flat : forall quad n c d a b l y z l' u v, exact_quad quad -> (2 <= n)%nat ->
  histogram (a :: b :: l) (repeat c n) d -> a :: b :: l = l' ++ [y; z] ->
  let A := (a + b) / 2 in let B := (y + z) / 2 in
  forall method, In method ["trapz"; "simps"; "quad"]%string ->
  expect quad d (fun x _ => u + v * x) method [] = Ret (Some ((B - A) / (z - a) * ((u + v * A + (u + v * B)) / 2))).
Proof.
  intros quad n c d a b l y z l' u v Hq Hn H E A B method Hm.
  pose proof H as H'. destruct H' as (Hs & Hne & Hp & _).
  destruct (object _ _ d H) as (Hl & ps & Ep & Ec & Eb & Lp & E1 & Hi). rewrite repeat_length in *.
  assert (Ez : last (a :: b :: l) 0 = z) by (rewrite E; change [y; z] with ([y] ++ [z]); rewrite app_assoc; apply last_last).
  assert (Len : n = length (b :: l)) by (cbn in *; lia).
  assert (Bi : binned_integral (repeat c n) (a :: b :: l) = c * (z - a)) by (rewrite Len, binned_flat, Ez; reflexivity).
  assert (Haz : a < z).
  { rewrite <- Ez. change (last (a :: b :: l) 0) with (last (b :: l) 0). apply sorted_cons in Hs. destruct Hs as [S1 S2].
    pose proof (sorted_last b l S2 b (or_introl eq_refl)). lra. }
  assert (Hc : 0 < c) by (rewrite Bi in Hp; nra).
  assert (Eps : ps = repeat (/ (z - a)) n).
  { apply nth_error_ext_repeat; [assumption|]. intros i Hi'. rewrite (Hi i c).
    - rewrite Bi. f_equal. field. lra.
    - now apply nth_error_repeat_in. }
  set (cs := bin_centers (a :: b :: l)) in *.
  assert (Lc : length cs = n) by (unfold cs; rewrite centers_length; cbn in *; lia).
  assert (Sc : Sorted Rlt cs) by now apply centers_sorted.
  assert (Ecs : exists r, cs = A :: r /\ r <> []).
  { unfold cs. rewrite centers_cons. exists (bin_centers (b :: l)). split; [reflexivity|]. destruct l; [cbn in Len; lia|]. rewrite centers_cons. discriminate. }
  destruct Ecs as (r & Er & Hr).
  assert (Lr : last cs 0 = B) by (unfold cs; rewrite E; apply centers_last; now rewrite <- E).
  assert (V : line_area (/ (z - a) * u) (/ (z - a) * v) A B = (B - A) / (z - a) * ((u + v * A + (u + v * B)) / 2))
    by (unfold line_area; field; lra).
  assert (Pr : products (fun x => u + v * x) cs ps = map (fun x => / (z - a) * u + / (z - a) * v * x) cs)
    by (rewrite Eps, <- Lc; apply products_flat).
  assert (Tr : trapezoid cs (products (fun x => u + v * x) cs ps) = line_area (/ (z - a) * u) (/ (z - a) * v) A B).
  { rewrite Pr, <- Lr, Er. apply trapezoid_affine. now rewrite <- Er. }
  destruct (expect_methods quad d (fun x _ => u + v * x) [] "") as (T & Sm & _ & _). cbv zeta in T, Sm.
  destruct Hm as [<-|[<-|[<-|[]]]].
  - rewrite T. unfold expect_trapz. rewrite Ep, Ec. fold (products (fun x => u + v * x) cs ps). now rewrite Tr, V.
  - rewrite Sm. unfold expect_fixed. rewrite Ep, Ec. fold (products (fun x => u + v * x) cs ps). rewrite Pr, <- V, <- Lr, Er.
    rewrite simpson_affine; [reflexivity|assumption|now rewrite <- Er].
  - destruct (expect_quad_affine quad _ _ d u v Hq H) as (ps' & t & Ep' & _ & Et & Eq). rewrite Ep in Ep'. injection Ep' as <-.
    rewrite T in Et. unfold expect_trapz in Et. rewrite Ep, Ec in Et. fold (products (fun x => u + v * x) cs ps) in Et. rewrite Tr, V in Et.
    injection Et as <-. rewrite Eq, Eps, flat_correction. f_equal. f_equal. ring.
Qed.
Print Assumptions expect_flat.

Lemma flat_sample : exists d, histogram [0; 1; 3; 4] (repeat 2 3) d.
Proof.
  assert (P : 0 < binned_integral (repeat 2 3) [0; 1; 3; 4]) by (unfold binned_integral, widths; cbn; lra).
  destruct (normalize_distribution_exact (repeat 2 3) [0; 1; 3; 4]) as [N _]; [discriminate|reflexivity|].
  destruct (N P) as (qs & En & _). eexists. split; [repeat (constructor; try lra)|]. split; [discriminate|]. split; [exact P|].
  unfold dist_new. cbn [length repeat Nat.eqb Nat.add]. cbn [repeat] in En. rewrite En. reflexivity.
Qed.
Example expect_flat_example : exists d, (2 <= 3)%nat /\ histogram [0; 1; 3; 4] (repeat 2 3) d /\ [0; 1; 3; 4] = [0; 1] ++ [3; 4].
Proof. destruct flat_sample as [d Hd]. exists d. split; [lia|]. now split. Qed.

(** Three bins over [0, 4]: the expectation of one is 3/4 and the mean of the variable is 3/2, by each of the
    three methods, where one and 2 are right. *)
Theorem expect_methods_refuted : exists edges ys d, histogram edges ys d /\
  forall quad, exact_quad quad -> forall method, In method ["trapz"; "simps"; "quad"]%string ->
  expect quad d (fun _ _ => 1) method [] = Ret (Some (3 / 4)) /\ expect quad d (fun x _ => x) method [] = Ret (Some (3 / 2)).
Proof.
  destruct flat_sample as [d Hd]. exists [0; 1; 3; 4], (repeat 2 3), d. split; [assumption|]. intros quad Hq method Hm.
  assert (Ext : forall f g, (forall x, f x = g x) -> expect quad d (fun x _ => f x) method [] = expect quad d (fun x _ => g x) method []).
  { intros f g Efg. replace g with f; [reflexivity|]. apply FunctionalExtensionality.functional_extensionality. exact Efg. }
  split.
  - rewrite (Ext (fun _ => 1) (fun x => 1 + 0 * x)) by (intro; ring).
    rewrite (expect_flat quad 3 2 d 0 1 [3; 4] 3 4 [0; 1] 1 0 Hq ltac:(lia) Hd eq_refl method Hm). f_equal. f_equal. lra.
  - rewrite (Ext (fun x => x) (fun x => 0 + 1 * x)) by (intro; ring).
    rewrite (expect_flat quad 3 2 d 0 1 [3; 4] 3 4 [0; 1] 0 1 Hq ltac:(lia) Hd eq_refl method Hm). f_equal. f_equal. lra.
Qed.
Print Assumptions expect_methods_refuted.
