(** [Num] with the elementary functions the kernels of rust/src use.  Like [Num], no law is assumed. *)
From Coq Require Import QArith.
From Verif Require Import RustBase.

Record Math : Type := {
  mnum :> Num;
  fsqrt : F mnum -> F mnum;
  fln : F mnum -> F mnum;
  fexp : F mnum -> F mnum;
  fpi : F mnum;                      (* std::f64::consts::PI *)
  fnan : F mnum;                     (* f64::NAN *)
  finf : F mnum                      (* f64::INFINITY *)
}.
