(** Model of the class TwoBody of hazma/phase_space/_two_body.py: its settings and its integral. *)
From Coq Require Import String Reals Bool List.
From Verif Require Import PyBase RamboModel KinModel.
Import ListNotations.
Local Open Scope R_scope.

(** A squared matrix element: a function of the two momenta, of the cosine, or the default of lines 15-19, which gives
    one for a number and an array for an array *)
Inductive pyfn2 : Type := OfPair (f : vec -> vec -> R) | OfAngle (f : R -> R) | Flat.

(** __cme, __masses, __msqrd, __msqrd_signature_z *)
Record two_body_obj : Type := MkDuo { duo_cme : R; duo_masses : R * R; duo_msqrd : pyfn2; duo_z : bool }.

(** 50-55, 89-93: the assertion and the tuple *)
Definition two_masses (ms : list R) : res (R * R) :=
  match ms with [m1; m2] => Ret (m1, m2) | _ => Raise AssertionError end.

(** 25-71 *)
Definition duo_new (cme : R) (masses : list R) (msqrd : option pyfn2) (sig : option string) : res two_body_obj :=
  let* ms := two_masses masses in
  let g := match msqrd with Some g => g | None => Flat end in
  match sig with
  | None => Ret (MkDuo cme ms g true)
  | Some s =>
      if String.eqb s "momenta" then Ret (MkDuo cme ms g false)
      else if String.eqb s "z" then Ret (MkDuo cme ms g true)
      else Raise AssertionError
  end.

(** The assignments: 78-80, 87-93, 100-103 *)
Inductive assign2 : Type := Cme2 (q : R) | Masses2 (ms : list R) | Msqrd2 (g : pyfn2).
Definition duo_run1 (o : two_body_obj) (a : assign2) : res two_body_obj :=
  match a with
  | Cme2 q => Ret (MkDuo q (duo_masses o) (duo_msqrd o) (duo_z o))
  | Masses2 l => let* ms := two_masses l in Ret (MkDuo (duo_cme o) ms (duo_msqrd o) (duo_z o))
  | Msqrd2 g => Ret (MkDuo (duo_cme o) (duo_masses o) g (duo_z o))
  end.
Fixpoint duo_run (o : two_body_obj) (l : list assign2) : res two_body_obj :=
  match l with [] => Ret o | a :: r => let* o' := duo_run1 o a in duo_run o' r end.

(** 112-121: the momenta at the cosine [z] *)
Definition pair_momenta (cme m1 m2 z : R) : vec * vec :=
  let p := two_body_momentum cme m1 m2 in
  let e1 := hypot m1 p in
  let e2 := hypot m2 p in
  let sin := sqrt (1 - z ^ 2) in
  (V4 e1 (sin * p) 0 (z * p), V4 e2 (- sin * p) 0 (- z * p)).

Section Integral.
(** [integ f a b] is integrate.quad(f, a, b)[0] *)
Variable integ : (R -> R) -> R -> R -> R.

(** 105-154: the value, without its error estimate.  [None]: the function is called with what it does not take, or gives
    an array, which integrate.quad cannot use; both raise. *)
Definition duo_integrate (o : two_body_obj) : option R :=
  let (m1, m2) := duo_masses o in
  let pre := two_body_pre (duo_cme o) m1 m2 in
  match duo_z o, duo_msqrd o with
  | true, OfAngle f => Some (integ f (-1) 1 * pre)
  | true, Flat => Some (integ (fun _ => 1) (-1) 1 * pre)
  | false, OfPair f => Some (integ (fun z => let (p1, p2) := pair_momenta (duo_cme o) m1 m2 z in f p1 p2) (-1) 1 * pre)
  | _, _ => None
  end.
End Integral.
