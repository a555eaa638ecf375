(** Model of hazma/background_model.py 8-63 and of the three background models made from it in
    hazma/gamma_ray_parameters.py. *)
From Coq Require Import Reals List.
From Verif Require Import PyBase LimitsModel.
Import ListNotations.
Local Open Scope R_scope.

(** A float *)
Inductive flt : Type := FNum (x : R) | FInf | FNaN.
(** The energies: a Python float, a numpy array of one axis or a Python list.  Energies are finite. *)
Inductive energies : Type := EFloat (e : R) | EArray (es : list R) | EList (es : list R).
Inductive answer : Type := AFloat (v : flt) | AArray (vs : list flt).

(** background_model.py 25-27; the function given is vectorised: it is given the whole argument *)
Record background : Type := { bg_low : R; bg_high : R; bg_fn : energies -> res answer }.

Definition outside (b : background) (e : R) : bool :=
  if Rlt_dec e (bg_low b) then true else if Rlt_dec (bg_high b) e then true else false.

(** 33-63: the energy named in the warning, if one is issued, and the answer.  49: the comparison of a list with a float is
    a TypeError. *)
Definition bg_flux (b : background) (es : energies) : option R * res answer :=
  match es with
  | EList _ => (None, Raise TypeError)
  | EArray l =>
      let es_out_of_bounds := filter (outside b) l in
      (match es_out_of_bounds with [] => None | e :: _ => Some e end, bg_fn b es)
  | EFloat e => (if outside b e then Some e else None, bg_fn b es)
  end.

(** gamma_ray_parameters.py 33, 39: c / e ** 2, where division by zero raises for floats and is infinite in arrays *)
Definition inverse_square (c : R) (es : energies) : res answer :=
  match es with
  | EFloat e => if Req_EM_T (e ^ 2) 0 then Raise ZeroDivisionError else Ret (AFloat (FNum (c / e ^ 2)))
  | EArray l => Ret (AArray (map (fun e => if Req_EM_T (e ^ 2) 0 then FInf else FNum (c / e ^ 2)) l))
  | EList _ => Raise TypeError
  end.
Definition gecco_bg_model : background := {| bg_low := 2 / 10; bg_high := 4 * 10 ^ 3; bg_fn := inverse_square (2 * (4 / 10 ^ 3)) |}.
Definition default_bg_model : background := {| bg_low := 0; bg_high := 10 * 10 ^ 3; bg_fn := inverse_square (2.74 / 10 ^ 3) |}.

(** scipy's interp1d on a table of (energy, flux) in increasing order: the line between the two entries around the energy *)
Fixpoint segment (x0 y0 : R) (rest : list (R * R)) (e : R) : option R :=
  match rest with
  | [] => if Req_EM_T e x0 then Some y0 else None
  | (x1, y1) :: r =>
      if Rlt_dec e x0 then None
      else if Rle_dec e x1 then Some (y0 + (y1 - y0) / (x1 - x0) * (e - x0))
      else segment x1 y1 r e
  end.
Definition table_at (t : list (R * R)) (e : R) : option R :=
  match t with [] => None | (x0, y0) :: r => segment x0 y0 r e end.
(** gamma_ray_parameters.py 24-27: [bounds_error=True]: one energy outside raises ValueError.  A float is answered by an array
    without axes, written [AFloat]. *)
Definition interp (t : list (R * R)) (es : energies) : res answer :=
  let at_ e := match table_at t e with Some v => Ret (FNum v) | None => Raise ValueError end in
  match es with
  | EFloat e => let* v := at_ e in Ret (AFloat v)
  | EArray l | EList l => let* vs := mapM at_ l in Ret (AArray vs)
  end.
(** background_model.py 29-31: interp.x[[0, -1]]; an empty table raises IndexError *)
Definition from_interp (t : list (R * R)) : res background :=
  match t with
  | [] => Raise IndexError
  | (x0, _) :: _ => Ret {| bg_low := x0; bg_high := fst (last t (0, 0)); bg_fn := interp t |}
  end.
