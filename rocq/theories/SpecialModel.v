(** Model of rust/src/special.rs: Spence's integral and the modified Bessel functions.

    The arithmetic is that of an arbitrary [Math].  Two functions are parameters: [k0] and [k1], the
    Bessel functions of orders zero and one, which the source takes from the crate spec_math. *)
From Coq Require Import List Arith Bool ZArith QArith.
From Verif Require Import RustBase RustMath.
Import ListNotations.
Local Open Scope nat_scope.

Section Special.
Variable M : Math.
Notation FN := (F M).
Local Infix "+." := (fadd M) (at level 50, left associativity).
Local Infix "-." := (fsub M) (at level 50, left associativity).
Local Infix "*." := (fmul M) (at level 40, left associativity).
Local Infix "/." := (fdiv M) (at level 40, left associativity).
Local Infix "<." := (flt M) (at level 70).
Local Infix "==." := (feq M) (at level 70).
Local Notation "# q" := (lit M q%Q) (at level 5, q at level 0).
Local Notation neg := (fneg M).

(** special.rs 57 *)
Definition PI_SQ_OVER_SIX : FN := fpi M *. fpi M /. #6.

(** special.rs 65-74 and 77-87 *)
Definition SPENCE_A : list FN := [
  #4.65128586073990045278e-5; #7.31589045238094711071e-3; #1.33847639578309018650e-1;
  #8.79691311754530315341e-1; #2.71149851196553469920; #4.25697156008121755724;
  #3.29771340985225106936; #1.00000000000000000126].
Definition SPENCE_B : list FN := [
  #6.90990488912553276999e-4; #2.54043763932544379113e-2; #2.82974860602568089943e-1;
  #1.41172597751831069617; #3.63800533345137075418; #5.03278880143316990390;
  #3.54771340985225096217; #9.99999999999999998740e-1].

(** special.rs 93-99; the tables have eight entries, so the empty one does not occur *)
Definition polevl (x : FN) (coefficients : list FN) : FN :=
  match coefficients with
  | [] => #0
  | c :: cs => fold_left (fun answer c => fma M answer x c) cs c
  end.

(** special.rs 146-198.  [flag]'s two bits are the booleans [reflected] (bit 0) and [inverted] (bit 1). *)
Definition spence (x : FN) : FN :=
  if x <. #0 then fnan M else
  if x ==. #1 then #0 else
  if x ==. #0 then PI_SQ_OVER_SIX else
  let big := #2 <. x in
  let x := if big then #1 /. x else x in
  let '(w, reflected, inverted) :=
    if #1.5 <. x then (#1 /. x -. #1, false, true)
    else if x <. #0.5 then (neg x, true, big)
    else (x -. #1, false, big) in
  let y := neg w *. polevl w SPENCE_A /. polevl w SPENCE_B in
  let y := if reflected : bool
    then fma M (neg (fln M x)) (fln M (#1 -. x)) PI_SQ_OVER_SIX -. y else y in
  if inverted : bool then
    let z := fln M x in fma M (neg #0.5 *. z) z (neg y)
  else y.

Section Bessel.
Variables k0 k1 : FN -> FN.

(** special.rs 282-286: [n] passes of the loop, the first with index [m] *)
Fixpoint kn_loop (n m : nat) (x lower current : FN) : FN :=
  match n with
  | O => current
  | S n' => kn_loop n' (S m) x current (lower +. #2 *. lit M (inject_Z (Z.of_nat m)) *. current /. x)
  end.

(** special.rs 260-290; [n] is an i32, whose absolute value fits a u32 *)
Definition bessel_kn (n : Z) (x : FN) : FN :=
  if x ==. #0 then finf M else
  match Z.abs_nat n with
  | O => k0 x
  | S O => k1 x
  | order => kn_loop (order - 1) 1 x (k0 x) (k1 x)
  end.
End Bessel.
End Special.
