(** Model of the argument dispatch of the compiled extension, rust/src/dispatch.rs: which Python arguments are
    scalars, which are energy grids and which are refused, and what comes back. Lines refer to that file.

    Python values are the type [val]; NumPy arrays are views (first element, strides) of buffers of a heap, so
    that aliasing and non-contiguous views can be spoken of. A buffer holds the [float()] of each element of a
    numeric array; the contents of other arrays are never looked at. Simplifications: complex numbers and NumPy
    structured or time dtypes are not represented, nor are error messages (only the exception class). *)
From Coq Require Import List Arith Bool ZArith Lia.
From Verif Require Import PyBase.
Import ListNotations.
Local Open Scope nat_scope.

(** NumPy dtypes, with their size in bytes; [native] is the byte order *)
Inductive dtype := DBool | DInt (size : nat) | DUInt (size : nat) | DFloat (size : nat) (native : bool) | DStr | DObj.
(** 113-116, [has_numeric_dtype] *)
Definition has_numeric_dtype (d : dtype) : bool :=
  match d with DBool | DInt _ | DUInt _ | DFloat _ _ => true | DStr | DObj => false end.
(** the element type that [extract::<PyReadonlyArray1<f64>>] asks for *)
Definition is_float64 (d : dtype) : bool := match d with DFloat 8 true => true | _ => false end.

(** An ndarray: a view of a buffer. Offsets and strides are in elements. *)
Record ndarray := Arr { dt : dtype; shape : list nat; buffer : nat; offset : Z; strides : list Z }.
Definition ndim (a : ndarray) : nat := length (shape a).

Section Dispatch.
(** binary64 numbers, with one of them as a filler; [float(z)] for an integer, which overflows for large ones;
    and [float(b)] *)
Variable F : Type.
Variable f0 : F.
Variable of_int : Z -> option F.
Variable of_bool : bool -> F.

(** Python objects: [PFloat] is float and its subclass np.float64; [PNum] another NumPy scalar, given its dtype
    and float(); [PFloatable] an object with only a __float__, such as a Fraction; [POther] has neither, and
    may or may not have a __len__ (a dict does, a generator does not) *)
Inductive val :=
| PFloat (x : F) | PInt (z : Z) | PBool (b : bool) | PNone | PStr
| PNum (d : dtype) (x : F) | PFloatable (x : F) | POther (sized : bool)
| PSeq (items : list val) | PArr (a : ndarray) | PTuple (items : list F).

Definition heap := list (list F).
Definition cell (h : heap) (b : nat) (i : Z) : F := nth (Z.to_nat i) (nth b h []) f0.
Fixpoint position (idx : list nat) (st : list Z) : Z :=
  match idx, st with i :: idx', s :: st' => (Z.of_nat i * s + position idx' st')%Z | _, _ => 0%Z end.
Definition item (h : heap) (a : ndarray) (idx : list nat) : F := cell h (buffer a) (offset a + position idx (strides a)).
Fixpoint indices (sh : list nat) : list (list nat) :=
  match sh with [] => [[]] | n :: r => flat_map (fun i => map (cons i) (indices r)) (seq 0 n) end.
Definition elements (h : heap) (a : ndarray) : list F := map (item h a) (indices (shape a)).
(** A new C-contiguous array with the given contents; the heap grows by one buffer *)
Fixpoint c_strides (sh : list nat) : list Z :=
  match sh with [] => [] | _ :: r => Z.of_nat (fold_right Nat.mul 1 r) :: c_strides r end.
Definition alloc (h : heap) (d : dtype) (sh : list nat) (xs : list F) : heap * ndarray :=
  (h ++ [xs], Arr d sh (length h) 0 (c_strides sh)).

(** np.asarray on something that is not an array: dtype promotion and shape discovery *)
Definition float_for (size : nat) : nat := match size with 1 => 2 | 2 => 4 | _ => 8 end.
Definition promote (d e : dtype) : dtype :=
  match d, e with
  | DObj, _ | _, DObj => DObj
  | DStr, _ | _, DStr => DStr
  | DBool, x | x, DBool => x
  | DInt a, DInt b => DInt (Nat.max a b)
  | DUInt a, DUInt b => DUInt (Nat.max a b)
  | DInt a, DUInt b | DUInt b, DInt a => if b <? a then DInt a else if b <? 8 then DInt (2 * b) else DFloat 8 true
  | DFloat a _, DFloat b _ => DFloat (Nat.max a b) true
  | DFloat a _, DInt b | DInt b, DFloat a _ | DFloat a _, DUInt b | DUInt b, DFloat a _ => DFloat (Nat.max a (float_for b)) true
  end.
Definition int_dtype (z : Z) : dtype :=
  if ((- 2 ^ 63 <=? z) && (z <? 2 ^ 63))%Z then DInt 8 else if ((0 <=? z) && (z <? 2 ^ 64))%Z then DUInt 8 else DObj.
Definition list_nat_eqb (a b : list nat) : bool := if list_eq_dec Nat.eq_dec a b then true else false.
(** shape and leaves of a value; different shapes in one sequence make NumPy raise ValueError *)
Fixpoint discover (h : heap) (v : val) : res (list nat * list (dtype * F)) :=
  match v with
  | PFloat x => Ret ([], [(DFloat 8 true, x)])
  | PInt z => Ret ([], [(int_dtype z, match of_int z with Some x => x | None => f0 end)])
  | PBool b => Ret ([], [(DBool, of_bool b)])
  | PStr => Ret ([], [(DStr, f0)])
  | PNum d x => Ret ([], [(d, x)])
  | PNone | PFloatable _ | POther _ => Ret ([], [(DObj, f0)])
  | PArr a => Ret (shape a, map (pair (dt a)) (elements h a))
  | PTuple xs => Ret ([length xs], map (pair (DFloat 8 true)) xs)
  | PSeq items =>
      (fix go (items : list val) : res (list nat * list (dtype * F)) :=
         match items with
         | [] => Ret ([0], [])
         | [v] => let* r := discover h v in Ret (1 :: fst r, snd r)
         | v :: rest =>
             let* r := discover h v in
             let* s := go rest in
             match fst s with
             | n :: sh => if list_nat_eqb sh (fst r) then Ret (S n :: sh, snd r ++ snd s) else Raise ValueError
             | [] => Raise ValueError
             end
         end) items
  end.
Definition leaves_dtype (l : list (dtype * F)) : dtype :=
  match map fst l with [] => DFloat 8 true | d :: r => fold_left promote r d end.
(** 100-102, [as_numpy_array] *)
Definition as_numpy_array (h : heap) (v : val) : res (heap * ndarray) :=
  let* r := discover h v in Ret (alloc h (leaves_dtype (snd r)) (fst r) (map snd (snd r))).

(** 61-64, [Argument]: the vector is a view, so an array of the heap *)
Inductive argument := Scalar (x : F) | Vector (a : ndarray).
(** 124-142, [classify_array]: by rank; a 0-d array by the kind of its dtype, a 1-d array only as float64 *)
Definition classify_array (h : heap) (a : ndarray) : res argument :=
  match ndim a with
  | 0 => if has_numeric_dtype (dt a) then Ret (Scalar (item h a [])) else Raise ValueError
  | 1 => if is_float64 (dt a) then Ret (Vector a) else Raise ValueError
  | _ => Raise ValueError
  end.
(** [obj.hasattr("__len__")]: sequences, strings, arrays, and some other objects *)
Definition has_len (v : val) : bool :=
  match v with PStr | PSeq _ | PArr _ | PTuple _ => true | POther b => b | _ => false end.
(** [obj.extract::<f64>()]: __float__ or __index__, with an overflow error for large integers *)
Definition extract_f64 (v : val) : option F :=
  match v with
  | PFloat x | PNum _ x | PFloatable x => Some x
  | PInt z => of_int z
  | PBool b => Some (of_bool b)
  | _ => None
  end.
(** 150-198, [classify]: a float, an array, anything with a __len__ through np.asarray, anything that extracts;
    the returned heap holds the converted array. The cast after np.asarray (187-189) cannot fail: it returns
    an ndarray. *)
Definition classify (h : heap) (v : val) : heap * res argument :=
  match v with
  | PFloat x => (h, Ret (Scalar x))
  | PArr a => (h, classify_array h a)
  | _ =>
      if has_len v then
        match as_numpy_array h v with
        | Ret (h', a) => (h', classify_array h' a)
        | Raise e => (h, Raise e)
        end
      else match extract_f64 v with Some x => (h, Ret (Scalar x)) | None => (h, Raise TypeError) end
  end.
(** the elements of a 1-d view in order: [values.as_array().iter()] *)
Definition iter (h : heap) (a : ndarray) : list F :=
  match shape a with n :: _ => map (fun i => item h a [i]) (seq 0 n) | [] => [] end.

(** 211-226, [map_unary] *)
Definition map_unary (h : heap) (v : val) (kernel : F -> F) : heap * res val :=
  match classify h v with
  | (h1, Ret (Scalar x)) => (h1, Ret (PFloat (kernel x)))
  | (h1, Ret (Vector a)) =>
      let mapped := map kernel (iter h1 a) in
      let '(h2, b) := alloc h1 (DFloat 8 true) [length mapped] mapped in (h2, Ret (PArr b))
  | (h1, Raise e) => (h1, Raise e)
  end.
(** 249-265, [map_unary_try]: collecting into a Result stops at the first error *)
Fixpoint collect (l : list (res F)) : res (list F) :=
  match l with [] => Ret [] | r :: rest => let* x := r in let* xs := collect rest in Ret (x :: xs) end.
Definition map_unary_try (h : heap) (v : val) (kernel : F -> res F) : heap * res val :=
  match classify h v with
  | (h1, Ret (Scalar x)) => (h1, let* y := kernel x in Ret (PFloat y))
  | (h1, Ret (Vector a)) =>
      match collect (map kernel (iter h1 a)) with
      | Ret mapped => let '(h2, b) := alloc h1 (DFloat 8 true) [length mapped] mapped in (h2, Ret (PArr b))
      | Raise e => (h1, Raise e)
      end
  | (h1, Raise e) => (h1, Raise e)
  end.
(** 282-301, [map_flavors]: the kernel returns the electron, muon and tau values; rows are pushed one flavor
    after another *)
Definition flavor (k : nat) (t : F * F * F) : F := match t, k with (e, m, tau), 0 => e | (e, m, tau), 1 => m | (e, m, tau), _ => tau end.
Definition map_flavors (h : heap) (v : val) (kernel : F -> F * F * F) : heap * res val :=
  match classify h v with
  | (h1, Ret (Scalar x)) => (h1, Ret (PTuple (map (fun k => flavor k (kernel x)) [0; 1; 2])))
  | (h1, Ret (Vector a)) =>
      let flavors := map kernel (iter h1 a) in
      let rows := flat_map (fun k => map (flavor k) flavors) [0; 1; 2] in
      let '(h2, b) := alloc h1 (DFloat 8 true) [3; length flavors] rows in (h2, Ret (PArr b))
  | (h1, Raise e) => (h1, Raise e)
  end.
(** 315-345, [require_vector] *)
Definition require_vector (h : heap) (v : val) : heap * res (list F) :=
  if negb (has_len v) then (h, Raise ValueError) else
  let converted := match v with PArr a => Ret (h, a) | _ => as_numpy_array h v end in
  match converted with
  | Raise e => (h, Raise e)
  | Ret (h1, a) =>
      if negb (ndim a =? 1) then (h1, Raise ValueError)
      else if is_float64 (dt a) then (h1, Ret (iter h1 a)) else (h1, Raise ValueError)
  end.
End Dispatch.
Arguments PFloat {F} x. Arguments PInt {F} z. Arguments PBool {F} b. Arguments PNone {F}. Arguments PStr {F}.
Arguments PNum {F} d x. Arguments PFloatable {F} x. Arguments POther {F} sized. Arguments PSeq {F} items.
Arguments PArr {F} a. Arguments PTuple {F} items.
