(** Lemmas about the interpolated histogram, its area and Simpson's rule. *)
From Coq Require Import Reals Lra Lia Psatz Arith Bool String Sorted ClassicalEpsilon List.
From Verif Require Import PyBase Area KinModel KinProofs KinProps DistModel SpecProofs.
Import ListNotations.
Local Open Scope R_scope.

(** ** Vocabulary *)
(** neighbours *)
Definition neighbours {A} (l : list A) : list (A * A) := combine l (tl l).
Definition sum (l : list R) : R := fold_right Rplus 0 l.
(** integration with no error *)
Definition exact_quad (quad : (R -> R) -> R -> R -> R) : Prop :=
  forall f a b v, a <= b -> area f a b v -> quad f a b = v.

Lemma exact_quad_exists : exists quad, exact_quad quad.
Proof.
  exists (fun f a b => epsilon (inhabits 0) (fun v => area f a b v)). intros f a b v Hab A.
  apply (area_unique f a b); [assumption| |assumption].
  apply (epsilon_spec (inhabits 0) (fun v => area f a b v)). now exists v.
Qed.

Lemma sorted_cons x y l : Sorted Rlt (x :: y :: l) <-> x < y /\ Sorted Rlt (y :: l).
Proof.
  split.
  - intro H. inversion H as [|? ? Hs Hh]; subst. inversion Hh; subst. now split.
  - intros [A B]. constructor; [assumption|now constructor].
Qed.
Lemma sorted_first x l : Sorted Rlt (x :: l) -> forall y, In y (x :: l) -> x <= y.
Proof.
  revert x. induction l as [|z l IH]; intros x H y [<-|Hy]; try lra; [destruct Hy|].
  apply sorted_cons in H. destruct H as [A B]. specialize (IH z B y Hy). lra.
Qed.
Lemma sorted_last x l : Sorted Rlt (x :: l) -> forall y, In y (x :: l) -> y <= last (x :: l) 0.
Proof.
  revert x. induction l as [|z l IH]; intros x H y [<-|Hy]; try (cbn; lra); [destruct Hy| |];
    apply sorted_cons in H; destruct H as [A B]; change (last (x :: z :: l) 0) with (last (z :: l) 0).
  - specialize (IH z B z (or_introl eq_refl)). lra.
  - now apply IH.
Qed.

(** ** Bin centres *)
Lemma centers_cons a b l : bin_centers (a :: b :: l) = (a + b) / 2 :: bin_centers (b :: l).
Proof. cbn [bin_centers]. f_equal. lra. Qed.
Lemma centers_sorted : forall l, Sorted Rlt l -> Sorted Rlt (bin_centers l).
Proof.
  induction l as [|a l IH]; intro H; [constructor|]. destruct l as [|b l]; [constructor|].
  apply sorted_cons in H. destruct H as [A B]. specialize (IH B). rewrite centers_cons.
  destruct l as [|c l]; [repeat constructor|]. rewrite centers_cons in *. apply sorted_cons. split; [|assumption].
  apply sorted_cons in B. destruct B. lra.
Qed.
Lemma centers_nth : forall l i a b, nth_error l i = Some a -> nth_error l (S i) = Some b ->
  nth_error (bin_centers l) i = Some ((a + b) / 2).
Proof.
  induction l as [|x l IH]; intros i a b Ha Hb; [destruct i; discriminate|]. destruct l as [|y l]; [destruct i as [|[|i]]; discriminate|].
  rewrite centers_cons. destruct i as [|i].
  - cbn in *. injection Ha as ->. injection Hb as ->. reflexivity.
  - cbn [nth_error]. apply IH; assumption.
Qed.
Lemma centers_last : forall l a b, Sorted Rlt (l ++ [a; b]) -> last (bin_centers (l ++ [a; b])) 0 = (a + b) / 2.
Proof.
  induction l as [|x l IH]; intros a b H.
  - cbn. lra.
  - destruct l as [|y l].
    + cbn [app]. rewrite !centers_cons. cbn. lra.
    + cbn [app] in *. rewrite centers_cons. apply sorted_cons in H. destruct H as [_ H]. specialize (IH a b H).
      destruct l; cbn [app] in *; rewrite centers_cons in *; exact IH.
Qed.

(** ** Interpolation *)
Lemma interp_cons x x0 x1 l f0 f1 r :
  interp_from x (x0 :: x1 :: l) (f0 :: f1 :: r) =
    if Rlt_dec x x1 then (f1 - f0) / (x1 - x0) * (x - x0) + f0 else interp_from x (x1 :: l) (f1 :: r).
Proof. reflexivity. Qed.
Lemma interp_segment : forall xs ps i x0 x1 p0 p1 x, Sorted Rlt xs -> length xs = length ps ->
  nth_error xs i = Some x0 -> nth_error xs (S i) = Some x1 -> nth_error ps i = Some p0 -> nth_error ps (S i) = Some p1 ->
  x0 <= x < x1 -> interp_from x xs ps = p0 + (p1 - p0) * (x - x0) / (x1 - x0).
Proof.
  induction xs as [|a xs IH]; intros ps i x0 x1 p0 p1 x Hs Hl H0 H1 P0 P1 Hx; [destruct i; discriminate|].
  destruct xs as [|b xs]; [destruct i as [|[|i]]; discriminate|].
  destruct ps as [|p ps]; [discriminate|]. destruct ps as [|q ps]; [discriminate|].
  rewrite interp_cons. apply sorted_cons in Hs. destruct Hs as [Hab Hs]. destruct i as [|i].
  - cbn in *. injection H0 as ->. injection H1 as ->. injection P0 as ->. injection P1 as ->.
    destruct (Rlt_dec x x1); [|lra]. field. lra.
  - assert (b <= x0) by (apply (sorted_first b xs Hs); apply (nth_error_In (b :: xs) i H0)).
    destruct (Rlt_dec x b); [lra|]. apply (IH (q :: ps) i); try assumption. cbn in *. lia.
Qed.
Lemma interp_node : forall xs ps i x0 p0, Sorted Rlt xs -> length xs = length ps ->
  nth_error xs i = Some x0 -> nth_error ps i = Some p0 -> interp_from x0 xs ps = p0.
Proof.
  induction xs as [|a xs IH]; intros ps i x0 p0 Hs Hl H0 P0; [destruct i; discriminate|].
  destruct ps as [|p ps]; [discriminate|]. destruct xs as [|b xs].
  - destruct i as [|[|i]]; try discriminate. destruct ps; [|discriminate]. cbn in *. injection H0 as ->. injection P0 as ->.
    destruct (Rle_dec x0 x0); [reflexivity|lra].
  - destruct ps as [|q ps]; [discriminate|]. rewrite interp_cons. apply sorted_cons in Hs. destruct Hs as [Hab Hs].
    destruct i as [|i].
    + cbn in *. injection H0 as ->. injection P0 as ->. destruct (Rlt_dec x0 b); [|lra]. field. lra.
    + assert (b <= x0) by (apply (sorted_first b xs Hs); apply (nth_error_In (b :: xs) i H0)).
      destruct (Rlt_dec x0 b); [lra|]. apply (IH (q :: ps) i); try assumption. cbn in *. lia.
Qed.
Lemma interp_above : forall xs ps x, Sorted Rlt xs -> length xs = length ps -> (forall y, In y xs -> y < x) ->
  interp_from x xs ps = 0.
Proof.
  induction xs as [|a xs IH]; intros ps x Hs Hl Hx; [reflexivity|].
  destruct ps as [|p ps]; [discriminate|]. destruct xs as [|b xs].
  - destruct ps; [|discriminate]. cbn. specialize (Hx a (or_introl eq_refl)). destruct (Rle_dec x a); [lra|reflexivity].
  - destruct ps as [|q ps]; [discriminate|]. rewrite interp_cons. apply sorted_cons in Hs. destruct Hs as [Hab Hs].
    pose proof (Hx b (or_intror (or_introl eq_refl))). destruct (Rlt_dec x b); [lra|].
    apply IH; [assumption|cbn in *; lia|]. intros y Hy. apply Hx. now right.
Qed.

(** ** The area under the interpolation times an affine function *)
Fixpoint pieces (u v : R) (xs ps : list R) : R :=
  match xs, ps with
  | x0 :: ((x1 :: _) as xr), p0 :: ((p1 :: _) as pr) =>
      (x1 - x0) * ((p0 * (u + v * x0) + p1 * (u + v * x1)) / 2 - (p1 - p0) * (v * (x1 - x0)) / 6) + pieces u v xr pr
  | _, _ => 0
  end.
Lemma pieces_area u v : forall xs ps x0, Sorted Rlt (x0 :: xs) -> length (x0 :: xs) = length ps ->
  area (fun x => interp_from x (x0 :: xs) ps * (u + v * x)) x0 (last (x0 :: xs) 0) (pieces u v (x0 :: xs) ps).
Proof.
  induction xs as [|x1 xs IH]; intros ps x0 Hs Hl.
  - destruct ps as [|p [|]]; try discriminate. cbn. apply area_empty.
  - destruct ps as [|p0 [|p1 ps]]; try discriminate. pose proof Hs as Hs'. apply sorted_cons in Hs'. destruct Hs' as [H01 H1].
    change (last (x0 :: x1 :: xs) 0) with (last (x1 :: xs) 0).
    change (pieces u v (x0 :: x1 :: xs) (p0 :: p1 :: ps)) with
      ((x1 - x0) * ((p0 * (u + v * x0) + p1 * (u + v * x1)) / 2 - (p1 - p0) * (v * (x1 - x0)) / 6) + pieces u v (x1 :: xs) (p1 :: ps)).
    apply (area_join _ _ x1); [split; [lra|apply (sorted_last x1 xs H1); now left]| |].
    + set (s := (p1 - p0) / (x1 - x0)).
      apply (area_ext (fun x => (s * (x - x0) + p0) * (u + v * x)) _ _ _ _ []).
      { intros x Hx _. rewrite interp_cons. destruct (Rlt_dec x x1); [reflexivity|lra]. }
      set (G := fun x => s * v * x ^ 3 / 3 + (s * u + (p0 - s * x0) * v) * x ^ 2 / 2 + (p0 - s * x0) * u * x).
      apply (area_val _ _ _ (G x1 - G x0)).
      { unfold G, s. field. lra. }
      apply area_of_antiderivative. intros x _. unfold G. eapply dl_val; [dl; lra|]. cbn [INR pred]. field.
    + apply (area_ext (fun x => interp_from x (x1 :: xs) (p1 :: ps) * (u + v * x)) _ _ _ _ []).
      { intros x Hx _. rewrite interp_cons. destruct (Rlt_dec x x1); [lra|reflexivity]. }
      apply IH; [assumption|cbn in *; lia].
Qed.

Lemma np_interp_area u v xs ps lo hi : xs <> [] -> Sorted Rlt xs -> length xs = length ps ->
  (forall x, In x xs -> lo < x < hi) ->
  area (fun x => np_interp_zero x xs ps * (u + v * x)) lo hi (pieces u v xs ps).
Proof.
  intros Hne Hs Hl Hb. destruct xs as [|x0 xs]; [now destruct Hne|]. set (c := last (x0 :: xs) 0).
  assert (Hx0 : lo < x0 < hi) by (apply Hb; now left).
  assert (Hc : In c (x0 :: xs)).
  { unfold c. destruct (exists_last Hne) as (l & y & E). rewrite E, last_last. apply in_or_app. right. now left. }
  assert (x0 <= c) by now apply (sorted_first x0 xs Hs). pose proof (Hb c Hc).
  apply (area_val _ _ _ (0 * (x0 - lo) + (pieces u v (x0 :: xs) ps + 0 * (hi - c)))); [ring|].
  apply (area_join _ _ x0); [lra| |apply (area_join _ _ c); [lra| |]].
  - apply (area_ext (fun _ => 0) _ _ _ _ []); [|apply area_const]. intros x Hx _. cbn [np_interp_zero].
    destruct (Rlt_dec x x0); [ring|lra].
  - apply (area_ext (fun x => interp_from x (x0 :: xs) ps * (u + v * x)) _ _ _ _ []); [|now apply pieces_area].
    intros x Hx _. unfold np_interp_zero. destruct (Rlt_dec x x0); [lra|reflexivity].
  - apply (area_ext (fun _ => 0) _ _ _ _ []); [|apply area_const]. intros x Hx _. unfold np_interp_zero.
    destruct (Rlt_dec x x0); [lra|]. rewrite interp_above; [ring|assumption|assumption|].
    intros y Hy. pose proof (sorted_last x0 xs Hs y Hy). fold c in H1. lra.
Qed.

(** ** The two rules *)
Definition products (fn : R -> R) (xs ps : list R) : list R := map (fun xp => snd xp * fn (fst xp)) (combine xs ps).
Lemma products_cons fn x xs p ps : products fn (x :: xs) (p :: ps) = p * fn x :: products fn xs ps.
Proof. reflexivity. Qed.
Lemma products_length fn xs ps : length xs = length ps -> length (products fn xs ps) = length xs.
Proof. intro H. unfold products. rewrite map_length, combine_length, H. apply Nat.min_id. Qed.

Lemma trapezoid_pieces u v : forall xs ps, length xs = length ps ->
  pieces u v xs ps = trapezoid xs (products (fun x => u + v * x) xs ps)
    - v / 6 * sum (map (fun q => (snd (fst q) - fst (fst q)) ^ 2 * (snd (snd q) - fst (snd q))) (combine (neighbours xs) (neighbours ps))).
Proof.
  induction xs as [|x0 xs IH]; intros ps Hl; [cbn; ring|]. destruct ps as [|p0 ps]; [discriminate|].
  destruct xs as [|x1 xs]; [destruct ps; [cbn; ring|discriminate]|]. destruct ps as [|p1 ps]; [discriminate|].
  change (pieces u v (x0 :: x1 :: xs) (p0 :: p1 :: ps)) with
    ((x1 - x0) * ((p0 * (u + v * x0) + p1 * (u + v * x1)) / 2 - (p1 - p0) * (v * (x1 - x0)) / 6) + pieces u v (x1 :: xs) (p1 :: ps)).
  rewrite IH by (cbn in *; lia). clear IH. rewrite !products_cons.
  change (neighbours (x0 :: x1 :: xs)) with ((x0, x1) :: neighbours (x1 :: xs)).
  change (neighbours (p0 :: p1 :: ps)) with ((p0, p1) :: neighbours (p1 :: ps)).
  cbn [combine map sum fold_right fst snd]. unfold sum. set (t := fold_right Rplus 0 _). clearbody t.
  match goal with |- context [trapezoid (x0 :: x1 :: xs) (?a :: ?b :: ?r)] =>
    change (trapezoid (x0 :: x1 :: xs) (a :: b :: r)) with ((x1 - x0) * (a + b) / 2 + trapezoid (x1 :: xs) (b :: r)); set (m := trapezoid _ (b :: r)) end.
  clearbody m. field.
Qed.

(** Simpson's rule on the values of an affine function *)
Lemma basic_cons x0 x1 x2 xr y0 y1 y2 yr :
  basic_simpson (x0 :: x1 :: x2 :: xr) (y0 :: y1 :: y2 :: yr) =
  (x1 - x0 + (x2 - x1)) / 6 * (y0 * (2 - (x2 - x1) / (x1 - x0))
    + y1 * ((x1 - x0 + (x2 - x1)) * ((x1 - x0 + (x2 - x1)) / ((x1 - x0) * (x2 - x1)))) + y2 * (2 - (x1 - x0) / (x2 - x1)))
  + basic_simpson (x2 :: xr) (y2 :: yr).
Proof. reflexivity. Qed.
Definition line_area u v a b := (b - a) * ((u + v * a) + (u + v * b)) / 2.
Lemma basic_affine u v : forall n xs x0, length xs = (2 * n)%nat -> Sorted Rlt (x0 :: xs) ->
  basic_simpson (x0 :: xs) (map (fun x => u + v * x) (x0 :: xs)) = line_area u v x0 (last (x0 :: xs) 0).
Proof.
  induction n as [|n IH]; intros xs x0 Hl Hs.
  - destruct xs; [|discriminate]. cbn. unfold line_area. field.
  - destruct xs as [|x1 [|x2 xs]]; try (cbn in Hl; lia). apply sorted_cons in Hs. destruct Hs as [H01 Hs].
    pose proof Hs as Hs'. apply sorted_cons in Hs'. destruct Hs' as [H12 H2].
    cbn [map]. rewrite basic_cons. change (u + v * x2 :: map (fun x => u + v * x) xs) with (map (fun x => u + v * x) (x2 :: xs)).
    rewrite IH; [|cbn in *; lia|assumption]. change (last (x0 :: x1 :: x2 :: xs) 0) with (last (x2 :: xs) 0).
    set (c := last (x2 :: xs) 0). clearbody c. unfold line_area. field. lra.
Qed.
Lemma sorted_app_l : forall l m, Sorted Rlt (l ++ m) -> Sorted Rlt l.
Proof.
  induction l as [|x l IH]; intros m H; [constructor|]. destruct l as [|y l]; [repeat constructor|].
  cbn [app] in H. apply sorted_cons in H. destruct H as [A B]. apply sorted_cons. split; [assumption|]. now apply (IH m).
Qed.
Lemma sorted_app_r : forall l m, Sorted Rlt (l ++ m) -> Sorted Rlt m.
Proof. induction l as [|x l IH]; intros m H; [assumption|]. inversion H; subst. now apply IH. Qed.

Lemma simpson_affine u v : forall xs x0, xs <> [] -> Sorted Rlt (x0 :: xs) ->
  simpson (x0 :: xs) (map (fun x => u + v * x) (x0 :: xs)) = line_area u v x0 (last (x0 :: xs) 0).
Proof.
  intros xs x0 Hne Hs. unfold simpson. rewrite map_length. destruct (Nat.even (length (x0 :: xs))) eqn:E.
  - destruct xs as [|x1 [|x2 xs]]; [now destruct Hne|cbn; unfold line_area; lra|].
    destruct (exists_last (l := x2 :: xs)) as (l & c & El); [discriminate|].
    assert (D : exists m a b, x0 :: x1 :: x2 :: xs = m ++ [a; b; c] /\ m <> []).
    { rewrite El in E |- *. destruct l as [|y l] using rev_ind; [cbn in E; discriminate|]. clear IHl.
      destruct l as [|z l] using rev_ind; [exists [x0], x1, y; now split|]. clear IHl.
      exists (x0 :: x1 :: l), z, y. split; [|discriminate]. rewrite <- !app_assoc. reflexivity. }
    destruct D as (m & a & b & D & Hm). clear El l.
    change (match x0 :: x1 :: x2 :: xs with [x3; x4] => match map (fun x => u + v * x) (x0 :: x1 :: x2 :: xs) with [y0; y1] => 0.5 * (x4 - x3) * (y1 + y0) | _ => basic_simpson (removelast (x0 :: x1 :: x2 :: xs)) (removelast (map (fun x => u + v * x) (x0 :: x1 :: x2 :: xs))) + simpson_last (x0 :: x1 :: x2 :: xs) (map (fun x => u + v * x) (x0 :: x1 :: x2 :: xs)) end | _ => basic_simpson (removelast (x0 :: x1 :: x2 :: xs)) (removelast (map (fun x => u + v * x) (x0 :: x1 :: x2 :: xs))) + simpson_last (x0 :: x1 :: x2 :: xs) (map (fun x => u + v * x) (x0 :: x1 :: x2 :: xs)) end
      = line_area u v x0 (last (x0 :: x1 :: x2 :: xs) 0)).
    cbv iota.
    assert (Em : exists m', m = x0 :: m').
    { destruct m as [|y m']; [now destruct Hm|]. exists m'. cbn in D. now injection D as ->. }
    destruct Em as [m' ->]. rewrite D in *. clear D Hm Hne.
    replace ((x0 :: m') ++ [a; b; c]) with (((x0 :: m') ++ [a; b]) ++ [c]) in * by (rewrite <- app_assoc; reflexivity).
    rewrite map_app. cbn [map]. rewrite !removelast_last, last_last.
    assert (Hs1 := sorted_app_l _ _ Hs).
    change ((x0 :: m') ++ [a; b]) with (x0 :: (m' ++ [a; b])). 
    assert (Hl : exists n, length (m' ++ [a; b]) = (2 * n)%nat).
    { rewrite app_length in E. cbn [length] in E. rewrite Nat.add_1_r in E. apply Nat.even_spec in E. destruct E as [n En].
      exists (n - 1)%nat. change (length ((x0 :: m') ++ [a; b])) with (S (length (m' ++ [a; b]))) in En. lia. }
    destruct Hl as [n Hl]. rewrite (basic_affine u v n _ _ Hl Hs1).
    replace (last (x0 :: m' ++ [a; b]) 0) with b
      by (change (x0 :: m' ++ [a; b]) with ((x0 :: m') ++ [a] ++ [b]); rewrite app_assoc, last_last; reflexivity).
    unfold simpson_last.
    replace (rev ((x0 :: m' ++ [a; b]) ++ [c])) with (c :: b :: a :: rev (x0 :: m'))
      by (change (x0 :: m' ++ [a; b]) with ((x0 :: m') ++ [a; b]); now rewrite !rev_app_distr).
    replace (rev (map (fun x => u + v * x) (x0 :: m' ++ [a; b]) ++ [u + v * c]))
      with (u + v * c :: u + v * b :: u + v * a :: rev (map (fun x => u + v * x) (x0 :: m')))
      by (change (x0 :: m' ++ [a; b]) with ((x0 :: m') ++ [a; b]); rewrite map_app, !rev_app_distr; reflexivity).
    rewrite <- app_assoc in Hs. apply sorted_app_r in Hs. cbn [app] in Hs. apply sorted_cons in Hs. destruct Hs as [Hab Hs].
    apply sorted_cons in Hs. destruct Hs as [Hbc _]. unfold line_area. field. lra.
  - assert (Hl : exists n, length xs = (2 * n)%nat).
    { cbn [length] in E. rewrite Nat.even_succ in E. rewrite <- Nat.negb_even in E. apply negb_false_iff in E.
      apply Nat.even_spec in E. destruct E as [n En]. now exists n. }
    destruct Hl as [n Hl]. now apply (basic_affine u v n).
Qed.
Lemma trapezoid_affine u v : forall xs x0, Sorted Rlt (x0 :: xs) ->
  trapezoid (x0 :: xs) (map (fun x => u + v * x) (x0 :: xs)) = line_area u v x0 (last (x0 :: xs) 0).
Proof.
  induction xs as [|x1 xs IH]; intros x0 Hs; [cbn; unfold line_area; field|]. apply sorted_cons in Hs. destruct Hs as [H01 Hs].
  change (trapezoid (x0 :: x1 :: xs) (map (fun x => u + v * x) (x0 :: x1 :: xs))) with
    ((x1 - x0) * ((u + v * x0) + (u + v * x1)) / 2 + trapezoid (x1 :: xs) (map (fun x => u + v * x) (x1 :: xs))).
  rewrite (IH x1 Hs). change (last (x0 :: x1 :: xs) 0) with (last (x1 :: xs) 0). unfold line_area. field.
Qed.
