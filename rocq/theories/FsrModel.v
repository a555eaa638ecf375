(** Model of the radiation formulas of the two mediator models over exact real arithmetic: the ones used
    in dark matter annihilation (hazma/scalar_mediator/_scalar_mediator_fsr.py,
    hazma/vector_mediator/_vector_mediator_fsr.py) and the ones used in mediator decay
    (scalar_mediator_decay_spectrum.pyx, vector_mediator_decay_spectrum.pyx).

    Simplifications.  The Python formulas are evaluated with cmath and the real part is returned; behind
    the guards every square root and logarithm has a non-negative real argument, so the real functions
    are used here.  A zero photon energy divides by zero, which raises ZeroDivisionError in Python and is
    infinite or NaN in Cython (cdivision); only Python's is modelled, and statements about the Cython
    functions ask for a positive energy.  Array arguments are mapped pointwise and not modelled. *)
From Coq Require Import Reals Bool List.
From Verif Require Import PyBase MedModel.
Import ListNotations.
Local Open Scope R_scope.

(** hazma/_utils/legacy_parameters.pxd 18-21 and 77: the masses and the coupling of the .pyx files
    (the other fields are not used by them and are copied from [rs_consts]) *)
Definition legacy_consts : consts :=
  MkConsts (c_vh rs_consts) (1 / 137) (510998928 / 1000000000) (1056583715 / 10000000)
    (1349766 / 10000) (13957018 / 100000)
    (c_b0 rs_consts) (c_muq rs_consts) (c_mdq rs_consts) (c_fpi rs_consts).

(** The value of a division by [x] in Python: an error when the divisor is zero *)
Definition py_div (a b : R) : res R := if Req_EM_T b 0 then Raise ZeroDivisionError else Ret (a / b).
(** [assert val >= 0; return val] *)
Definition py_assert_nonneg (v : R) : res R := if Rle_dec 0 v then Ret v else Raise AssertionError.

Section Annihilation.
Variable C : consts.
(** [self.mx] *)
Variable mx : R.
Let alpha_em := c_alpha C.
Let mpi := c_mpi C.

(** _scalar_mediator_fsr.py 7-40.  The comparison [4 mf^2 < s < Q^2] keeps the energy away from zero. *)
Definition s_to_ffg (photon_energy Q mf : R) : res R :=
  let s := Q ^ 2 - 2 * Q * photon_energy in
  if Rlt_dec (2 * mf) Q then
  if Rlt_dec (4 * mf ^ 2) s then
  if Rlt_dec s (Q ^ 2) then
  if Rlt_dec (2 * mx) Q then
    let x := 2 * photon_energy / Q in
    let mu_l := mf / Q in
    let* val := py_div
      (2 * alpha_em
       * (- 2 * (- 1 + x) * (- 1 + 4 * mu_l ^ 2) * sqrt (1 + 4 * mu_l ^ 2 / (- 1 + x))
          + ((x + 4 * mu_l ^ 2) ^ 2 - 2 * (- 1 + x + 6 * mu_l ^ 2))
            * ln ((1 + sqrt (1 + 4 * mu_l ^ 2 / (- 1 + x))) / (1 - sqrt (1 + 4 * mu_l ^ 2 / (- 1 + x))))))
      (PI * Q * x * pow15 (1 - 4 * mu_l ^ 2)) in
    py_assert_nonneg val
  else Ret 0 else Ret 0 else Ret 0 else Ret 0.

(** _scalar_mediator_fsr.py 77-108 *)
Definition s_to_pipig (photon_energy Q : R) : res R :=
  let mu_pi := mpi / Q in
  let x := 2 * photon_energy / Q in
  if Rlt_dec x 0 then Ret 0 else
  if Rlt_dec (1 - 4 * mu_pi ^ 2) x then Ret 0 else
  if Rlt_dec Q (2 * mx) then Ret 0 else
    let* val := py_div
      (4 * alpha_em
       * ((- 1 + x) * sqrt (1 + 4 * mu_pi ^ 2 / (- 1 + x))
          - (- 1 + x + 2 * mu_pi ^ 2)
            * ln (- ((1 + sqrt (1 + 4 * mu_pi ^ 2 / (- 1 + x)))
                     / (- 1 + sqrt (1 + 4 * mu_pi ^ 2 / (- 1 + x)))))))
      (PI * Q * x * sqrt (1 - 4 * mu_pi ^ 2)) in
    py_assert_nonneg val.

(** _vector_mediator_fsr.py 11-68; [mf] is the mass selected by the name of the fermion in lines 31-34 *)
Definition v_to_ffg (egam Q mf : R) : res R :=
  let mu_l := mf / Q in
  let x := 2 * egam / Q in
  let s := Q ^ 2 - 2 * Q * egam in
  if Rle_dec (4 * mf ^ 2) s then
  if Rle_dec s (Q ^ 2) then
  if Rlt_dec (2 * mf) Q then
  if Rlt_dec (2 * mx) Q then
    let* val := py_div
      (2 * alpha_em
       * (- (sqrt (1 + 4 * mu_l ^ 2 / (- 1 + x)) * (2 - 2 * x + x ^ 2 - 4 * (- 1 + x) * mu_l ^ 2))
          + (2 + (- 2 + x) * x - 4 * x * mu_l ^ 2 - 8 * mu_l ^ 4)
            * ln (- ((1 + sqrt (1 + 4 * mu_l ^ 2 / (- 1 + x)))
                     / (- 1 + sqrt (1 + 4 * mu_l ^ 2 / (- 1 + x)))))))
      (PI * Q * x * sqrt (1 - 4 * mu_l ^ 2) * (1 + 2 * mu_l ^ 2)) in
    py_assert_nonneg val
  else Ret 0 else Ret 0 else Ret 0 else Ret 0.

(** _vector_mediator_fsr.py 95-131 *)
Definition v_to_pipig (egam Q : R) : res R :=
  let mu_pi := mpi / Q in
  let x := 2 * egam / Q in
  if Rlt_dec x 0 then Ret 0 else
  if Rlt_dec (1 - 4 * mu_pi ^ 2) x then Ret 0 else
  if Rlt_dec Q (2 * mpi) then Ret 0 else
  if Rlt_dec Q (2 * mx) then Ret 0 else
    let* val := py_div
      (4 * alpha_em
       * (sqrt (1 + 4 * mu_pi ^ 2 / (- 1 + x)) * (- 1 + x + x ^ 2 - 4 * (- 1 + x) * mu_pi ^ 2)
          + (- 1 + x + 2 * mu_pi ^ 2) * (- 1 + 4 * mu_pi ^ 2)
            * ln (- ((1 + sqrt (1 + 4 * mu_pi ^ 2 / (- 1 + x)))
                     / (- 1 + sqrt (1 + 4 * mu_pi ^ 2 / (- 1 + x)))))))
      (PI * Q * x * pow15 (1 - 4 * mu_pi ^ 2)) in
    py_assert_nonneg val.
End Annihilation.

Section Decay.
Variable C : consts.
Let mpi := c_mpi C.
(** scalar_mediator_decay_spectrum.pyx 27 and vector_mediator_decay_spectrum.pyx 20 *)
Definition qe : R := sqrt (4 * PI * c_alpha C).

(** scalar_mediator_decay_spectrum.pyx 63-84 *)
Definition fsr_cp_srf (egam ms : R) : R :=
  let mupi := mpi / ms in
  let x := 2 * egam / ms in
  if Rlt_dec x 0 then 0 else
  if Rlt_dec (1 - 4 * mupi ^ 2) x then 0 else
  let dynamic :=
    (- 2 * sqrt (1 - x) * sqrt (1 - 4 * mupi ^ 2 - x)
     + (- 1 + 2 * mupi ^ 2 + x)
       * ln ((1 - x - sqrt (1 - x) * sqrt (1 - 4 * mupi ^ 2 - x)) ^ 2
             / (- 1 + x - sqrt (1 - x) * sqrt (1 - 4 * mupi ^ 2 - x)) ^ 2)) / x in
  let coeff := qe ^ 2 / (8 * sqrt (1 - 4 * mupi ^ 2) * PI ^ 2) in
  2 * (dynamic * coeff) / ms.

(** scalar_mediator_decay_spectrum.pyx 90-115 *)
Definition fsr_l_srf (egam ml ms : R) : R :=
  let mul := ml / ms in
  let x := 2 * egam / ms in
  if Rlt_dec x 0 then 0 else
  if Rlt_dec (1 - 4 * mul ^ 2) x then 0 else
  let dynamic :=
    (4 * (- 1 + 4 * mul ^ 2) * sqrt (1 - x) * sqrt (1 - 4 * mul ^ 2 - x)
     + (2 - 12 * mul ^ 2 + 16 * mul ^ 4 - 2 * x + 8 * mul ^ 2 * x + x ^ 2)
       * ln ((1 - x + sqrt ((- 1 + x) * (- 1 + 4 * mul ^ 2 + x))) ^ 2
             / (- 1 + x + sqrt ((- 1 + x) * (- 1 + 4 * mul ^ 2 + x))) ^ 2)) / x in
  let coeff := qe ^ 2 / (16 * pow15 (1 - 4 * mul ^ 2) * PI ^ 2) in
  2 * (dynamic * coeff) / ms.

(** vector_mediator_decay_spectrum.pyx 61-83 *)
Definition fsr_cp_vrf (egam mv : R) : R :=
  let mupi := mpi / mv in
  let x := 2 * egam / mv in
  if Rlt_dec x 0 then 0 else
  if Rlt_dec (1 - 4 * mupi ^ 2) x then 0 else
  let coeff := qe ^ 2 / (4 * pow15 (1 - 4 * mupi ^ 2) * PI ^ 2) in
  let dynamic :=
    (2 * sqrt (1 - 4 * mupi ^ 2 - x) * (- 1 - 4 * mupi ^ 2 * (- 1 + x) + x + x ^ 2) / sqrt (1 - x)
     + (- 1 + 4 * mupi ^ 2) * (- 1 + 2 * mupi ^ 2 + x)
       * ln ((1 + sqrt (1 - x) * sqrt (1 - 4 * mupi ^ 2 - x) - x) ^ 2
             / (- 1 + sqrt (1 - x) * sqrt (1 - 4 * mupi ^ 2 - x) + x) ^ 2)) / x in
  2 * (dynamic * coeff) / mv.

(** vector_mediator_decay_spectrum.pyx 86-110 *)
Definition fsr_l_vrf (egam ml mv : R) : R :=
  let mul := ml / mv in
  let x := 2 * egam / mv in
  if Rlt_dec x 0 then 0 else
  if Rlt_dec (1 - 4 * mul ^ 2) x then 0 else
  let coeff := - qe ^ 2 / (8 * sqrt (1 - 4 * mul ^ 2) * (1 + 2 * mul ^ 2) * PI ^ 2) in
  let dynamic :=
    (2 * sqrt (1 - 4 * mul ^ 2 - x) * (2 - 4 * mul ^ 2 * (- 1 + x) - 2 * x + x ^ 2) / sqrt (1 - x)
     + (2 - 8 * mul ^ 4 - 4 * mul ^ 2 * x + (- 2 + x) * x)
       * ln ((- 1 + sqrt (1 - x) * sqrt (1 - 4 * mul ^ 2 - x) + x) ^ 2
             / (1 + sqrt (1 - x) * sqrt (1 - 4 * mul ^ 2 - x) - x) ^ 2)) / x in
  2 * (dynamic * coeff) / mv.
End Decay.
