(** Model of hazma/theory/_theory_constrain.py: constraint images over parameter
    planes.  The theory object is an abstract mutable state [St]; attribute
    assignment and the constraint functions are arguments. *)
From Coq Require Import String Reals List.
From Verif Require Import PyBase.
Import ListNotations.
Local Open Scope string_scope.
Local Open Scope list_scope.
Local Open Scope R_scope.

(** A 2-d numpy array, row by row. *)
Definition mat : Type := list (list R).

(** np.zeros([r, c]) *)
Definition zeros (r c : nat) : mat := repeat (repeat 0 c) r.

(** m[j, i] = v, with numpy's IndexError (non-negative indices only) *)
Definition mset (m : mat) (j i : nat) (v : R) : res mat :=
  let* row := lindex m j in
  let* row' := lupd row i v in
  lupd m j row'.

(** [enumerate(l)] *)
Definition enum {A : Type} (l : list A) : list (nat * A) := combine (seq 0 (length l)) l.

Section Constrain.
Variable St : Type.
(** [setattr(self, name, value)]; may raise. *)
Variable setattr : string -> R -> St -> res St.

Definition action (A : Type) : Type := St -> res A * St.

(** _theory_constrain.py 46-47 and 105-106: evaluate every constraint at the
    current state of the theory and store the values at [j, i]. *)
Fixpoint eval_point (cons : dict (St -> res R)) (s : St) (j i : nat) (imgs : dict mat)
  : res (dict mat) :=
  match cons with
  | [] => Ret imgs
  | (cn, fn) :: rest =>
      let* v := fn s in
      let* m := dindex imgs cn in
      let* m' := mset m j i v in
      eval_point rest s j i (dset imgs cn m')
  end.

(** A loop whose body updates the images and the theory. *)
Fixpoint for_points {P : Type} (pts : list P)
    (body : P -> dict mat -> action (dict mat)) (imgs : dict mat) : action (dict mat) :=
  fun s =>
    match pts with
    | [] => (Ret imgs, s)
    | p :: rest =>
        match body p imgs s with
        | (Ret imgs', s') => for_points rest body imgs' s'
        | (Raise e, s') => (Raise e, s')
        end
    end.

(** _theory_constrain.py 101-106: the body of the double loop *)
Definition constrain_body (cons : dict (St -> res R)) (p1 p2 : string)
    (pt : (nat * R) * (nat * R)) (imgs : dict mat) : action (dict mat) :=
  fun s =>
    let '((idx_p1, p1_val), (idx_p2, p2_val)) := pt in
    match setattr p1 p1_val s with
    | Raise e => (Raise e, s)
    | Ret s1 =>
        match setattr p2 p2_val s1 with
        | Raise e => (Raise e, s1)
        | Ret s2 => (eval_point cons s2 idx_p2 idx_p1 imgs, s2)
        end
    end.

(** _theory_constrain.py 49-52 and 108-111 *)
Definition finish (mode : string) (r : res (dict mat)) : res (option (dict mat)) :=
  let* imgs := r in
  if String.eqb mode "image" then Ret (Some imgs)
  else if String.eqb mode "ls" then Raise NotImplementedError
  else Ret None.

(** _theory_constrain.py 54-111.  The nested loops of 99-100 visit
    [list_prod (enumerate p1_vals) (enumerate p2_vals)] in that order. *)
Definition constrain (cons : dict (St -> res R)) (p1 : string) (p1_vals : list R)
    (p2 : string) (p2_vals : list R) (mode : string) : action (option (dict mat)) :=
  fun s =>
    if String.eqb p1 p2 then (Raise ValueError, s)
    else
      let imgs := dmap (fun _ => zeros (length p2_vals) (length p1_vals)) cons in
      let (r, s') :=
        for_points (list_prod (enum p1_vals) (enum p2_vals))
                   (constrain_body cons p1 p2) imgs s in
      (finish mode r, s').

(** _theory_constrain.py 43: [self.__dict__.update(param_grid[i, j].__dict__)] *)
Variable Obj : Type.
Variable update : Obj -> St -> St.

(** _theory_constrain.py 43-47 *)
Definition custom_body (cons : dict (St -> res R)) (grid : list (list Obj))
    (pt : nat * nat) (imgs : dict mat) : action (dict mat) :=
  fun s =>
    let (i, j) := pt in
    match bind (lindex grid i) (fun row => lindex row j) with
    | Raise e => (Raise e, s)
    | Ret o => let s1 := update o s in (eval_point cons s1 i j imgs, s1)
    end.

(** _theory_constrain.py 8-52.  [n_rows, n_cols] is the shape of the grid; the
    images are allocated n_rows by n_rows (line 37). *)
Definition custom_constrain (cons : dict (St -> res R)) (n_rows n_cols : nat)
    (grid : list (list Obj)) (mode : string) : action (option (dict mat)) :=
  fun s =>
    let imgs := dmap (fun _ => zeros n_rows n_rows) cons in
    let (r, s') :=
      for_points (list_prod (seq 0 n_rows) (seq 0 n_cols)) (custom_body cons grid) imgs s in
    (finish mode r, s').

End Constrain.
