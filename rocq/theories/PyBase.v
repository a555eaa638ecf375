(** Shared vocabulary of the models: Python results, dictionaries and
    float-or-array values.  Nothing here models a particular function of /repo;
    it fixes how the Python constructs used there are represented. *)
From Coq Require Import String Bool List.
Import ListNotations.
Local Open Scope string_scope.
Local Open Scope list_scope.

(** Python exceptions that the modelled code can raise. *)
Inductive exn : Type :=
| KeyError (key : string)
| ValueError
| IndexError
| AttributeError (name : string)
| TypeError
| NameError (name : string)
| NotImplementedError
| AssertionError
| ZeroDivisionError
| RuntimeError.

(** A Python call either returns or raises. *)
Inductive res (A : Type) : Type :=
| Ret (a : A)
| Raise (e : exn).
Arguments Ret {A} a.
Arguments Raise {A} e.

Definition bind {A B : Type} (r : res A) (k : A -> res B) : res B :=
  match r with
  | Ret a => k a
  | Raise e => Raise e
  end.

Notation "'let*' x ':=' r 'in' k" :=
  (bind r (fun x => k)) (at level 200, x pattern, r at level 100, k at level 200).

(** Dictionaries: association lists in insertion order. *)
Definition dict (A : Type) : Type := list (string * A).

Fixpoint dget {A : Type} (d : dict A) (k : string) : option A :=
  match d with
  | [] => None
  | (k', v) :: r => if String.eqb k' k then Some v else dget r k
  end.

(** [d[k]] *)
Definition dindex {A : Type} (d : dict A) (k : string) : res A :=
  match dget d k with
  | Some v => Ret v
  | None => Raise (KeyError k)
  end.

(** [d[k] = v]: replaces in place, or appends *)
Fixpoint dset {A : Type} (d : dict A) (k : string) (v : A) : dict A :=
  match d with
  | [] => [(k, v)]
  | (k', v') :: r => if String.eqb k' k then (k', v) :: r else (k', v') :: dset r k v
  end.

Definition dkeys {A : Type} (d : dict A) : list string := map fst d.
Definition dvals {A : Type} (d : dict A) : list A := map snd d.

(** [{k: f(v) for k, v in d.items()}] *)
Definition dmap {A B : Type} (f : A -> B) (d : dict A) : dict B :=
  map (fun kv => (fst kv, f (snd kv))) d.

(** A dictionary comprehension whose value expression may raise. *)
Fixpoint dmapM {A B : Type} (f : string -> A -> res B) (d : dict A) : res (dict B) :=
  match d with
  | [] => Ret []
  | (k, v) :: r =>
      let* b := f k v in
      let* r' := dmapM f r in
      Ret ((k, b) :: r')
  end.

(** Looking up a list index, Python style for non-negative indices. *)
Definition lindex {A : Type} (l : list A) (i : nat) : res A :=
  match nth_error l i with
  | Some v => Ret v
  | None => Raise IndexError
  end.

(** [l[i] = v] *)
Fixpoint lupd {A : Type} (l : list A) (i : nat) (v : A) : res (list A) :=
  match l, i with
  | [], _ => Raise IndexError
  | _ :: r, O => Ret (v :: r)
  | x :: r, S j => let* r' := lupd r j v in Ret (x :: r')
  end.
