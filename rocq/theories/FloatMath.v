(** Binary64 as an instance of [Math], for concrete runs that use no logarithm or exponential: those
    two answer NaN here. *)
From Coq Require Import Floats.
From Verif Require Import RustBase RustMath QuadModel QuadFloat.
Definition FloatMath : Math := {|
  mnum := FloatNum; fsqrt := PrimFloat.sqrt;
  fln := fun _ => PrimFloat.nan; fexp := fun _ => PrimFloat.nan;
  fpi := 0x1.921fb54442d18p+1%float; fnan := PrimFloat.nan; finf := PrimFloat.infinity |}.
