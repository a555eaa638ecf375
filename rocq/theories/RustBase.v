(** Vocabulary for modelling the Rust core (rust/src): panics and error returns
    as values, bounds-checked arrays, checked subtraction, for-loops with
    break, and an arbitrary floating-point type. *)
From Coq Require Import List Arith QArith.
Import ListNotations.
Local Open Scope nat_scope.

(** Outcome of a Rust computation: a value, an [Err], or a panic (index out
    of range, arithmetic underflow, failed assertion). *)
Inductive rr (E A : Type) : Type :=
| Ok (a : A)
| Err (e : E)
| Panic.
Arguments Ok {E A} a.
Arguments Err {E A} e.
Arguments Panic {E A}.

Definition rbind {E A B} (r : rr E A) (k : A -> rr E B) : rr E B :=
  match r with Ok a => k a | Err e => Err e | Panic => Panic end.
Notation "x <- r ;; k" := (rbind r (fun x => k)) (at level 61, r at next level, right associativity).
Notation "' p <- r ;; k" := (rbind r (fun x => match x with p => k end))
  (at level 61, p pattern, r at next level, right associativity).

(** [v[i]] *)
Definition get {E A} (v : list A) (i : nat) : rr E A :=
  match nth_error v i with Some a => Ok a | None => Panic end.
Fixpoint upd {A} (v : list A) (i : nat) (a : A) : list A :=
  match v, i with
  | [], _ => []
  | _ :: r, O => a :: r
  | x :: r, S i' => x :: upd r i' a
  end.
(** [v[i] = a] *)
Definition set {E A} (v : list A) (i : nat) (a : A) : rr E (list A) :=
  if Nat.ltb i (length v) then Ok (upd v i a) else Panic.
(** usize subtraction *)
Definition csub {E} (a b : nat) : rr E nat := if Nat.leb b a then Ok (a - b) else Panic.
(** [v.resize(n, d)] *)
Definition resize {A} (v : list A) (n : nat) (d : A) : list A :=
  firstn n v ++ repeat d (n - length v).

(** Loop bodies either fall through to the next iteration or break. *)
Inductive ctl (S : Type) : Type := Cont (s : S) | Brk (s : S).
Arguments Cont {S} s.
Arguments Brk {S} s.

(** [n] iterations starting at index [i] *)
Fixpoint loop {E S} (n i : nat) (body : nat -> S -> rr E (ctl S)) (s : S) : rr E S :=
  match n with
  | O => Ok s
  | Datatypes.S n' =>
      c <- body i s ;;
      match c with
      | Cont s' => loop n' (Datatypes.S i) body s'
      | Brk s' => Ok s'
      end
  end.
(** [for i in lo..=hi] (empty when hi < lo) *)
Definition for_range {E S} (lo hi : nat) (body : nat -> S -> rr E (ctl S)) (s : S) : rr E S :=
  loop (Datatypes.S hi - lo) lo body s.

(** An arbitrary number type standing for f64.  No law is assumed of any
    operation or comparison, so NaN, infinities and rounding are covered; [lit]
    gives the literals of the source. *)
Record Num : Type := {
  F : Type;
  lit : Q -> F;
  fadd : F -> F -> F; fsub : F -> F -> F; fmul : F -> F -> F; fdiv : F -> F -> F;
  fneg : F -> F; fabs : F -> F; fmax : F -> F -> F; fmin : F -> F -> F;
  fma : F -> F -> F -> F;            (* a.mul_add(b, c) *)
  fpow15 : F -> F;                   (* powf(1.5) *)
  flt : F -> F -> bool; fle : F -> F -> bool; feq : F -> F -> bool;
  is_nan : F -> bool;
  total_cmp_le : F -> F -> bool;     (* f64::total_cmp(x, y) is not Greater *)
  epmach : F; uflow : F; oflow : F   (* f64::EPSILON, MIN_POSITIVE, MAX *)
}.
