(** Model of rust/src/interp.rs. *)
From Coq Require Import List Arith Bool QArith.
From Verif Require Import RustBase.
Import ListNotations.
Local Open Scope nat_scope.

Section Interp.
Variable N : Num.
Notation FN := (F N).

(** interp.rs 136-143 *)
Inductive slot : Type := Below | Above | Cell (j : nat).

(** interp.rs 164-173: the bisection loop; [fuel] bounds the number of
    iterations, running out is reported as a panic (it never happens, see
    bisect_ok). *)
Fixpoint bisect (fuel : nat) (x : FN) (xp : list FN) (imin imax : nat) : rr unit nat :=
  match fuel with
  | O => Panic
  | S fuel' =>
      if Nat.ltb imin imax then
        let imid := imin + (imax - imin) / 2 in
        v <- get xp imid ;;
        if fle N v x then bisect fuel' x xp (imid + 1) imax
        else bisect fuel' x xp imin imid
      else Ok imin
  end.

(** interp.rs 152-175 *)
Definition search (x : FN) (xp : list FN) : rr unit slot :=
  let n := length xp in
  n1 <- csub n 1 ;;
  hi <- get xp n1 ;;
  if flt N hi x then Ok Above else
  lo <- get xp 0 ;;
  if flt N x lo then Ok Below else
  i <- bisect (S n) x xp 0 n ;;
  j <- csub i 1 ;;
  Ok (Cell j).

(** interp.rs 86-133; the asserts are panics *)
Definition interp (x : FN) (xp fp : list FN) : rr unit FN :=
  match xp with
  | [] => Panic
  | _ =>
    if negb (Nat.eqb (length xp) (length fp)) then Panic else
    let n := length xp in
    if Nat.eqb n 1 then get fp 0 else
    if is_nan N x then Ok x else
    s <- search x xp ;;
    match s with
    | Below => get fp 0
    | Above => get fp (n - 1)
    | Cell j =>
        if Nat.eqb j (n - 1) then get fp j else
        xj <- get xp j ;;
        if feq N xj x then get fp j else
        xj1 <- get xp (j + 1) ;;
        fj <- get fp j ;;
        fj1 <- get fp (j + 1) ;;
        let slope := fdiv N (fsub N fj1 fj) (fsub N xj1 xj) in
        let value := fma N slope (fsub N x xj) fj in
        if negb (is_nan N value) then Ok value else
        let from_right := fma N slope (fsub N x xj1) fj1 in
        if negb (is_nan N from_right) then Ok from_right
        else if feq N fj fj1 then Ok fj else Ok from_right
    end
  end.

End Interp.
