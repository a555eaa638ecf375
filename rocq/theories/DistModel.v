(** Model of the rest of hazma/phase_space/_dist.py: a histogram as a function and the three methods of its
    expectation values, over exact real arithmetic.  [KinModel.dist] is the object.  np.interp, np.min, np.max
    and scipy.integrate.simpson are written from their documentation; scipy.integrate.quad is a parameter.
    Only functions with one number as value are modelled (line 102, not 100).  [None] stands for NaN. *)
From Coq Require Import Reals Arith Bool String List.
From Verif Require Import PyBase KinModel.
Import ListNotations.
Local Open Scope R_scope.

(** np.interp(x, xp, fp, 0.0, 0.0) for x at or above the first node *)
Fixpoint interp_from (x : R) (xp fp : list R) : R :=
  match xp, fp with
  | x0 :: ((x1 :: _) as xs), f0 :: ((f1 :: _) as fs) =>
      if Rlt_dec x x1 then (f1 - f0) / (x1 - x0) * (x - x0) + f0 else interp_from x xs fs
  | x0 :: _, f0 :: _ => if Rle_dec x x0 then f0 else 0
  | _, _ => 0
  end.
Definition np_interp_zero (x : R) (xp fp : list R) : R :=
  match xp with
  | [] => 0
  | x0 :: _ => if Rlt_dec x x0 then 0 else interp_from x xp fp
  end.

(** _dist.py 161-163 *)
Definition dist_call (d : dist) (x : R) : option R :=
  match probabilities d with None => None | Some ps => Some (np_interp_zero x (centers d) ps) end.

(** _dist.py 72-74 *)
Definition np_max (l : list R) : res R :=
  match l with [] => Raise ValueError | x :: r => Ret (fold_left Rmax r x) end.
Definition dist_limits (d : dist) : res (R * R) :=
  let* lo := np_min (bins d) in let* hi := np_max (bins d) in Ret (lo, hi).
(** _dist.py 76-77 *)
Definition dist_len (d : dist) : option nat :=
  match probabilities d with None => None | Some ps => Some (length ps) end.

(** scipy.integrate.simpson: the parabola through each three points that share their ends *)
Fixpoint basic_simpson (xs ys : list R) : R :=
  match xs, ys with
  | x0 :: x1 :: ((x2 :: _) as xr), y0 :: y1 :: ((y2 :: _) as yr) =>
      let h0 := x1 - x0 in let h1 := x2 - x1 in
      (h0 + h1) / 6 * (y0 * (2 - h1 / h0) + y1 * ((h0 + h1) * ((h0 + h1) / (h0 * h1))) + y2 * (2 - h0 / h1))
      + basic_simpson xr yr
  | _, _ => 0
  end.
(** its last interval when the number of points is even: the parabola through the last three *)
Definition simpson_last (xs ys : list R) : R :=
  match rev xs, rev ys with
  | x2 :: x1 :: x0 :: _, y2 :: y1 :: y0 :: _ =>
      let h0 := x1 - x0 in let h1 := x2 - x1 in
      (2 * h1 ^ 2 + 3 * h0 * h1) / (6 * (h1 + h0)) * y2 + (h1 ^ 2 + 3 * h0 * h1) / (6 * h0) * y1
      - h1 ^ 3 / (6 * h0 * (h0 + h1)) * y0
  | _, _ => 0
  end.
Definition simpson (xs ys : list R) : R :=
  if Nat.even (length ys) then
    match xs, ys with
    | [x0; x1], [y0; y1] => 0.5 * (x1 - x0) * (y1 + y0)
    | _, _ => basic_simpson (removelast xs) (removelast ys) + simpson_last xs ys
    end
  else basic_simpson xs ys.

(** _dist.py 94-105 *)
Definition expect_fixed (d : dist) (fn : R -> R) (method : list R -> list R -> R) : option R :=
  match probabilities d with
  | None => None
  | Some ps => Some (method (centers d) (map (fun xp => snd xp * fn (fst xp)) (combine (centers d) ps)))
  end.

Section Quad.
Variable quad : (R -> R) -> R -> R -> R.

(** _dist.py 107-113 *)
Definition expect_quad (d : dist) (fn : R -> R) : res (option R) :=
  let* l := dist_limits d in
  match probabilities d with
  | None => Ret None
  | Some ps => Ret (Some (quad (fun x => np_interp_zero x (centers d) ps * fn x) (fst l) (snd l)))
  end.

(** _dist.py 115-159; [fn x args] is fn(x, *args) *)
Definition expect (d : dist) (fn : R -> list R -> R) (method : string) (args : list R) : res (option R) :=
  let f x := if Nat.ltb 0 (length args) then fn x args else fn x [] in
  if String.eqb method "trapz" then Ret (expect_fixed d f trapezoid)
  else if String.eqb method "simps" then Ret (expect_fixed d f simpson)
  else if String.eqb method "quad" then expect_quad d f
  else Raise ValueError.
End Quad.
