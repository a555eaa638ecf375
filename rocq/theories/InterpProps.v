(** Property theorems for table interpolation (C40, C41). *)
From Coq Require Import List Arith Bool QArith Reals Lra Lia.
From Verif Require Import RustBase RustBaseFacts InterpModel InterpProofs.
Import ListNotations.
Local Open Scope nat_scope.
Local Open Scope R_scope.

(** A grid with a repeated node, used in the examples. *)
Example ex_grid_ok : grid_ok [0; 1; 1; 3] [2; 4; 5; 9].
Proof.
  split; [simpl; lia|]. split; [reflexivity|].
  intros i j a b Hij Ha Hb.
  destruct i as [|[|[|[|i]]]]; simpl in Ha; try (destruct i; discriminate);
  destruct j as [|[|[|[|j]]]]; simpl in Hb; try (destruct j; discriminate);
  inversion Ha; inversion Hb; subst; try lra; lia.
Qed.

(** C40.  For every number type, whatever its comparisons do, interpolation on a non-empty grid
    with as many values as nodes returns a value: no index is out of range and no index
    subtraction underflows.  The only condition: when the argument is not NaN and not below the
    first node, the first node is at most the argument (it fails only for a NaN first node). *)
Theorem interpolation_never_panics (N : Num) x xp fp :
  xp <> [] -> length xp = length fp ->
  (is_nan N x = false -> forall v, nth_error xp 0 = Some v -> flt N x v = false -> fle N v x = true) ->
  exists y, interp N x xp fp = Ok y.
Proof. exact (interp_no_panic N x xp fp). Qed.
Print Assumptions interpolation_never_panics.

Example ex_never_panics : [Some 1; Some 4; None]%nat <> [] /\
  (is_nan NanNat (Some 3)%nat = false -> forall v, nth_error [Some 1; Some 4; None]%nat 0 = Some v ->
     flt NanNat (Some 3)%nat v = false -> fle NanNat v (Some 3)%nat = true).
Proof. split; [discriminate|]. intros _ v Hv _. inversion Hv. reflexivity. Qed.

(** C40, finding: the condition is needed.  A grid whose first node is NaN makes the search return
    slot 0 minus 1, an underflow. *)
Theorem interpolation_nan_first_node_panics :
  exists (x : F NanNat) xp fp, is_nan NanNat x = false /\ (2 <= length xp)%nat /\ length xp = length fp
    /\ interp NanNat x xp fp = Panic.
Proof. exact interp_nan_node_panics. Qed.
Print Assumptions interpolation_nan_first_node_panics.

(** C40, over the reals: on every ascending grid (repeated nodes allowed) the result is the clamped
piecewise-linear interpolant. *)

Theorem interpolation_correct x xp fp :
  grid_ok xp fp -> exists y, interp RNum x xp fp = Ok y /\ interpolant xp fp x y.
Proof. exact (interp_correct x xp fp). Qed.
Print Assumptions interpolation_correct.

(** C40: at a node (the last one, if repeated) the tabulated value is returned. *)

Theorem interpolation_at_node x xp fp j f :
  grid_ok xp fp -> nth_error xp j = Some x -> nth_error fp j = Some f ->
  (forall k b, (j < k)%nat -> nth_error xp k = Some b -> x < b) ->
  interp RNum x xp fp = Ok f.
Proof. exact (interp_at_node x xp fp j f). Qed.
Print Assumptions interpolation_at_node.

Example ex_at_node : interp RNum 1 [0; 1; 1; 3] [2; 4; 5; 9] = Ok 5.
Proof.
  apply (interp_at_node 1 [0; 1; 1; 3] [2; 4; 5; 9] 2); try reflexivity; [exact ex_grid_ok|].
  intros k b Hk Hb. destruct k as [|[|[|[|k]]]]; try lia; simpl in Hb; [inversion Hb; lra|destruct k; discriminate].
Qed.

(** C40: inside a cell the value is the linear one and lies between the two end values. *)

Theorem interpolation_in_cell x xp fp j a b f g :
  grid_ok xp fp ->
  nth_error xp j = Some a -> nth_error xp (S j) = Some b ->
  nth_error fp j = Some f -> nth_error fp (S j) = Some g -> a <= x < b ->
  interp RNum x xp fp = Ok (f + (g - f) * ((x - a) / (b - a)))
  /\ Rmin f g <= f + (g - f) * ((x - a) / (b - a)) <= Rmax f g.
Proof. exact (interp_in_cell x xp fp j a b f g). Qed.
Print Assumptions interpolation_in_cell.

Example ex_in_cell : interp RNum 2 [0; 1; 1; 3] [2; 4; 5; 9] = Ok (5 + (9 - 5) * ((2 - 1) / (3 - 1))).
Proof.
  apply (interp_in_cell 2 [0; 1; 1; 3] [2; 4; 5; 9] 2 1 3 5 9); try reflexivity; [exact ex_grid_ok|lra].
Qed.

(** C40: outside the grid the end values are returned. *)

Theorem interpolation_clamped x xp fp :
  grid_ok xp fp ->
  (forall a f, nth_error xp 0 = Some a -> nth_error fp 0 = Some f -> x < a -> interp RNum x xp fp = Ok f) /\
  (forall a f, nth_error xp (length xp - 1) = Some a -> nth_error fp (length xp - 1) = Some f ->
     a < x -> interp RNum x xp fp = Ok f).
Proof. exact (interp_clamped x xp fp). Qed.
Print Assumptions interpolation_clamped.

Example ex_clamped : interp RNum (-1) [0; 1; 1; 3] [2; 4; 5; 9] = Ok 2 /\ interp RNum 7 [0; 1; 1; 3] [2; 4; 5; 9] = Ok 9.
Proof.
  split.
  - apply (proj1 (interp_clamped (-1) _ _ ex_grid_ok) 0 2); try reflexivity; lra.
  - apply (proj2 (interp_clamped 7 _ _ ex_grid_ok) 3 9); try reflexivity; lra.
Qed.

(** C41: non-decreasing data on an ascending grid give a non-decreasing function. *)

Theorem interpolation_monotone x y xp fp u v :
  grid_ok xp fp -> ascending fp -> x <= y ->
  interp RNum x xp fp = Ok u -> interp RNum y xp fp = Ok v -> u <= v.
Proof. exact (interp_monotone x y xp fp u v). Qed.
Print Assumptions interpolation_monotone.

Example ex_monotone : ascending [2; 4; 5; 9].
Proof.
  intros i j a b Hij Ha Hb.
  destruct i as [|[|[|[|i]]]]; simpl in Ha; try (destruct i; discriminate);
  destruct j as [|[|[|[|j]]]]; simpl in Hb; try (destruct j; discriminate);
  inversion Ha; inversion Hb; subst; try lra; lia.
Qed.

(** C41: a NaN argument is returned, for every number type and every grid of two or more points. *)
Theorem interpolation_nan (N : Num) x xp fp :
  (2 <= length xp)%nat -> length xp = length fp -> is_nan N x = true -> interp N x xp fp = Ok x.
Proof. exact (interp_nan N x xp fp). Qed.
Print Assumptions interpolation_nan.

Example ex_nan : is_nan NanNat None = true /\ interp NanNat None [Some 1; Some 4]%nat [Some 5; Some 6]%nat = Ok None.
Proof. split; reflexivity. Qed.

(** C41, boundary: a one-point table ignores its argument, NaN included. *)
Theorem interpolation_one_point (N : Num) x x0 f0 : interp N x [x0] [f0] = Ok f0.
Proof. exact (interp_one_point N x x0 f0). Qed.
Print Assumptions interpolation_one_point.
