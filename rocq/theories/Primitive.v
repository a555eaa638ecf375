(** Continuous functions have an area under them and, on an open interval, a global antiderivative. *)
From Coq Require Import Reals Lra List ClassicalEpsilon.
From Verif Require Import RustBase RustMath Area.
Import ListNotations.
Local Open Scope R_scope.

Lemma cont_primitive g a b : a <= b -> (forall x, a <= x <= b -> continuity_pt g x) ->
  exists G, forall x, a <= x <= b -> derivable_pt_lim G x (g x).
Proof.
  intros H C. exists (primitive H (FTC_P1 H C)). intros x Hx. exact (RiemannInt_P28 H C Hx).
Qed.

Lemma area_exists g a b : a <= b -> (forall x, a <= x <= b -> continuity_pt g x) -> exists v, area g a b v.
Proof.
  intros H C. destruct (cont_primitive g a b H C) as [G HG]. exists (G b - G a). now apply area_of_antiderivative.
Qed.

(** The area, as a function (an arbitrary value where there is none). *)
Definition the_area (f : R -> R) (a b : R) : R := epsilon (inhabits 0) (fun v => area f a b v).
Lemma the_area_val f a b v : a <= b -> area f a b v -> the_area f a b = v.
Proof.
  intros H A. apply (area_unique f a b); [exact H| |exact A].
  apply (epsilon_spec (inhabits 0) (fun v => area f a b v)). now exists v.
Qed.

Lemma primitive_open g lo c hi : lo < c < hi -> (forall x, lo < x < hi -> continuity_pt g x) ->
  exists G, forall x, lo < x < hi -> derivable_pt_lim G x (g x).
Proof.
  intros Hc C.
  set (F := fun z => if Rle_dec c z then the_area g c z else - the_area g z c).
  exists F. intros x Hx.
  set (a := Rmin ((lo + x) / 2) ((lo + c) / 2)). set (b := Rmax ((hi + x) / 2) ((hi + c) / 2)).
  assert (Ha : lo < a /\ a < x /\ a < c) by (unfold a; split; [apply Rmin_glb_lt; lra|]; split;
    [apply Rle_lt_trans with ((lo + x) / 2); [apply Rmin_l|lra]|apply Rle_lt_trans with ((lo + c) / 2); [apply Rmin_r|lra]]).
  assert (Hb : b < hi /\ x < b /\ c < b) by (unfold b; split; [apply Rmax_lub_lt; lra|]; split;
    [apply Rlt_le_trans with ((hi + x) / 2); [lra|apply Rmax_l]|apply Rlt_le_trans with ((hi + c) / 2); [lra|apply Rmax_r]]).
  destruct (cont_primitive g a b ltac:(lra)) as [G HG]; [intros y Hy; apply C; lra|].
  apply (derivable_pt_lim_locally_ext (fun y => G y - G c) F x a b); [lra| |].
  - intros y Hy. unfold F. destruct (Rle_dec c y).
    + symmetry. apply the_area_val; [lra|]. apply area_of_antiderivative. intros z Hz. apply HG. lra.
    + rewrite (the_area_val g y c (G c - G y)); [ring|lra|]. apply area_of_antiderivative. intros z Hz. apply HG. lra.
  - replace (g x) with (g x - 0) by ring. apply (derivable_pt_lim_minus G (fun _ => G c)).
    + apply HG. lra.
    + apply derivable_pt_lim_const.
Qed.
