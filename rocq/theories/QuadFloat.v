(** IEEE binary64 as an instance of [Num], for concrete runs of the quadrature.  Literals are
    correctly rounded.  powf(1.5) is x * sqrt x, which can differ from libm in the last bit; total_cmp
    does not separate NaNs of different sign or payload. *)
From Coq Require Import List Arith Bool ZArith QArith Floats.
From Verif Require Import RustBase QuadModel.
Import ListNotations.
Local Open Scope nat_scope.

Definition sf_of_Z (z : Z) : spec_float :=
  match z with Z0 => S754_zero false | Zpos p => S754_finite false p 0 | Zneg p => S754_finite true p 0 end.
Definition float_of_Q (q : Q) : float :=
  SF2Prim (SFdiv 53 1024 (sf_of_Z (Qnum q)) (sf_of_Z (Zpos (Qden q)))).

(** The literals of the rules, converted once; [rounded_literals] compares them with [float_of_Q]. *)
Definition rule_literals : list (Q * float) := Eval vm_compute in
  map (fun q => (q, float_of_Q q)) ([0; 0.5; 1.5]%Q ++ XGK21 ++ WGK21 ++ WG21).
Fixpoint find_literal (q : Q) (l : list (Q * float)) : option float :=
  match l with
  | [] => None
  | (q', x) :: l => if Z.eqb (Qnum q) (Qnum q') && Pos.eqb (Qden q) (Qden q') then Some x else find_literal q l
  end.
Definition float_lit (q : Q) : float :=
  match find_literal q rule_literals with Some x => x | None => float_of_Q q end.
Example rounded_literals :
  forallb (fun p => PrimFloat.eqb (snd p) (float_of_Q (fst p))) rule_literals = true.
Proof. vm_compute. reflexivity. Qed.

Definition float_nan (x : float) : bool := negb (PrimFloat.eqb x x).
(** f64::max and f64::min ignore a NaN operand *)
Definition float_max (x y : float) : float :=
  if float_nan x then y else if float_nan y then x else if PrimFloat.ltb x y then y else x.
Definition float_min (x y : float) : float :=
  if float_nan x then y else if float_nan y then x else if PrimFloat.ltb y x then y else x.
Definition float_fma (a b c : float) : float :=
  SF2Prim (SFadd 53 1024 (SFmul 200 5000 (Prim2SF a) (Prim2SF b)) (Prim2SF c)).
Definition float_neg (x : float) : bool := PrimFloat.ltb (1 / x)%float 0%float || PrimFloat.ltb x 0%float.
Definition float_total_le (x y : float) : bool :=
  if float_nan x then float_nan y else
  if float_nan y then true else
  if PrimFloat.eqb x y then float_neg x || negb (float_neg y) else PrimFloat.ltb x y.

Definition FloatNum : Num := {|
  F := float; lit := float_lit;
  fadd := PrimFloat.add; fsub := PrimFloat.sub; fmul := PrimFloat.mul; fdiv := PrimFloat.div;
  fneg := PrimFloat.opp; fabs := PrimFloat.abs; fmax := float_max; fmin := float_min;
  fma := float_fma; fpow15 := fun x => (x * PrimFloat.sqrt x)%float;
  flt := PrimFloat.ltb; fle := PrimFloat.leb; feq := PrimFloat.eqb; is_nan := float_nan;
  total_cmp_le := float_total_le;
  epmach := 0x1p-52%float; uflow := 0x1p-1022%float; oflow := 0x1.fffffffffffffp+1023%float |}.

Definition bad_integrand : fn FloatNum := fun _ x =>
  if PrimFloat.eqb x 0.5%float then PrimFloat.nan
  else if PrimFloat.ltb x 0.5%float then (1 / PrimFloat.sqrt x)%float else 1%float.
