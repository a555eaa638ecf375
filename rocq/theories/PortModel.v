(** Model of the Cython functions that survive beside the Rust kernels that replace them:
    hazma/_utils/boost.pxd and boost.pyx, the muon and pion spectra of hazma/spectra/_photon/_muon.pyx,
    _photon/_pion.pyx, _positron/_muon.pyx and _positron/_pion.pyx, and the two tables of constants with their
    transcription in rust/src/constants.rs.

    The arithmetic is that of an arbitrary [Math]; the C double arithmetic of the compiled modules may fuse
    multiplications and additions, which the source does not show.  Whole powers are written as products, and C's
    [fmax], [fmin] and [fabs] are those of [Math].  [spence] and [quad] (the first entry of what
    scipy.integrate.quad returns) are parameters, and so are masses, branching ratios and couplings.  Array versions of
    the functions are pointwise and not modelled. *)
From Coq Require Import String List Arith Bool ZArith QArith.
From Verif Require Import PyBase RustBase RustMath.
Import ListNotations.
Local Open Scope nat_scope.

Section Cython.
Variable M : Math.
Notation FN := (F M).
Local Infix "+." := (fadd M) (at level 50, left associativity).
Local Infix "-." := (fsub M) (at level 50, left associativity).
Local Infix "*." := (fmul M) (at level 40, left associativity).
Local Infix "/." := (fdiv M) (at level 40, left associativity).
Local Infix "<." := (flt M) (at level 70).
Local Infix "<=." := (fle M) (at level 70).
Local Notation "# q" := (lit M q%Q) (at level 5, q at level 0).
Local Notation neg := (fneg M).
Local Notation abs := (fabs M).
Local Notation sqrt := (fsqrt M).
Local Notation log := (fln M).
Local Notation "x ²" := (x *. x) (at level 1).
Local Notation "x ³" := (x *. x *. x) (at level 1).
Local Notation "x ⁴" := (x *. x *. x *. x) (at level 1).

(** ** hazma/_utils *)

(** boost.pxd 9-20 and 23-34 *)
Definition cy_boost_gamma (energy mass : FN) : FN := energy /. mass.
Definition cy_boost_beta (energy mass : FN) : FN := sqrt (#1 -. (mass /. energy)²).

(** boost.pyx 8-46 *)
Definition boost_jac (ep mp ed md zl : FN) : FN :=
  let b := cy_boost_beta ep mp in
  let g := cy_boost_gamma ep mp in
  let kt := sqrt (#1 -. (md /. ed)²) in
  kt /. (g *. (#1 +. b *. kt *. zl)).

(** boost.pyx 50-71 *)
Definition boost_eng (ep mp ed md zl : FN) : FN :=
  let b := cy_boost_beta ep mp in
  let g := cy_boost_gamma ep mp in
  let kt := sqrt (#1 -. (md /. ed)²) in
  g *. ed *. (#1 +. kt *. b *. zl).

(** boost.pyx 75-110 *)
Definition cy_boost_delta_function (e0 e m beta : FN) : FN :=
  if (#1 <. beta) || (beta <=. #0) || (e <. m) then #0 else
  let gamma := #1 /. sqrt (#1 -. beta *. beta) in
  let k := sqrt (e *. e -. m *. m) in
  let eminus := gamma *. (e -. beta *. k) in
  let eplus := gamma *. (e +. beta *. k) in
  if (eminus <. e0) && (e0 <. eplus) then
    let k0 := sqrt (e0 *. e0 -. m *. m) in
    #1 /. (#2 *. gamma *. beta *. k0)
  else #0.

(** [x[i]] for a C int [i] in a function with wraparound switched off and bounds checks on *)
Definition at_ {A} (v : list A) (i : Z) : res A :=
  if (i <? 0)%Z then Raise IndexError else
  match nth_error v (Z.to_nat i) with Some a => Ret a | None => Raise IndexError end.
(** [v[lo:hi]] for 0 <= lo <= hi *)
Definition slice {A} (v : list A) (lo hi : Z) : list A :=
  firstn (Z.to_nat hi - Z.to_nat lo) (skipn (Z.to_nat lo) v).
(** [np.flatnonzero(bound <= x)[0]] *)
Fixpoint first_nonzero (bound : FN) (x : list FN) (i : Z) : res Z :=
  match x with
  | [] => Raise IndexError
  | v :: r => if bound <=. v then Ret i else first_nonzero bound r (i + 1)%Z
  end.
(** [np.trapezoid(ys, x=xs)]: the terms are added from the left, NumPy adds them in blocks *)
Fixpoint np_trapezoid_from (acc : FN) (ys xs : list FN) : FN :=
  match ys, xs with
  | y0 :: ((y1 :: _) as ys'), x0 :: ((x1 :: _) as xs') =>
      np_trapezoid_from (acc +. (x1 -. x0) *. (y1 +. y0) /. #2) ys' xs'
  | _, _ => acc
  end.
Definition np_trapezoid (ys xs : list FN) : FN := np_trapezoid_from #0 ys xs.
(** [y / x] for arrays of one length *)
Definition np_divide (y x : list FN) : list FN := map (fun p => fst p /. snd p) (combine y x).

(** boost.pyx 133-241 *)
Definition cy_boost_integrate_linear_interp (photon_energy beta : FN) (x y : list FN) : res FN :=
  if negb ((#0 <. beta) && (beta <. #1)) then Raise AssertionError else
  let npts := Z.of_nat (length x) in
  if negb (npts =? Z.of_nat (length y))%Z then Raise AssertionError else
  let* xmax := at_ x (npts - 1)%Z in
  let* x0 := at_ x 0%Z in
  let* y0 := at_ y 0%Z in
  let gamma := #1 /. sqrt (#1 -. beta *. beta) in
  let lb := photon_energy *. gamma *. (#1 -. beta) in
  let ub := photon_energy *. gamma *. (#1 +. beta) in
  if xmax <. lb then Ret #0 else
  if ub <. x0 then Ret (y0 *. x0 /. photon_energy) else
  let '(ub, ihigh) := if xmax <. ub then (xmax, (npts - 1)%Z) else (ub, (-1)%Z) in
  let '(integral, lb, ilow) :=
    if lb <. x0 then
      let rat := (#1 -. beta) *. photon_energy *. gamma /. x0 in
      (#0 +. y0 *. (#1 -. rat) /. rat, x0, 0%Z)
    else (#0, lb, (-1)%Z) in
  let yy := np_divide y x in
  let* ilow := if (ilow =? -1)%Z then first_nonzero lb x 0%Z else Ret ilow in
  let* ihigh :=
    if (ihigh =? -1)%Z then
      let* ihigh := first_nonzero ub x 0%Z in
      let* xh := at_ x ihigh in
      Ret (if #(1e-6) <. abs (xh -. ub) then (ihigh - 1)%Z else ihigh)
    else Ret ihigh in
  let integral :=
    if (ilow <? ihigh)%Z
    then integral +. np_trapezoid (slice yy ilow ihigh) (slice x ilow ihigh) else integral in
  let* integral :=
    (if (0 <? ilow)%Z then
       let* xl := at_ x ilow in
       if #(1e-6) <. abs (xl -. lb) then
         let x2 := xl in
         let* x1 := at_ x (ilow - 1)%Z in
         let* y2 := at_ yy ilow in
         let* y1 := at_ yy (ilow - 1)%Z in
         let m := (y2 -. y1) /. (x2 -. x1) in
         let b := y1 -. m *. x1 in
         Ret (integral +. (x2 -. lb) *. (#0.5 *. m *. (x2 +. lb) +. b))
       else Ret integral
     else Ret integral) in
  let* integral :=
    (if (ihigh <? npts - 1)%Z then
       let* xh := at_ x ihigh in
       if #(1e-6) <. abs (ub -. xh) then
         let* x2 := at_ x (ihigh + 1)%Z in
         let x1 := xh in
         let* y2 := at_ yy (ihigh + 1)%Z in
         let* y1 := at_ yy ihigh in
         let m := (y2 -. y1) /. (x2 -. x1) in
         let b := y1 -. m *. x1 in
         Ret (integral +. (ub -. x1) *. (#0.5 *. m *. (ub +. x1) +. b))
       else Ret integral
     else Ret integral) in
  Ret (integral /. (#2 *. gamma *. beta)).

Variable spence : FN -> FN.
Variable quad : (FN -> FN) -> FN -> FN -> FN.

(** ** hazma/spectra/_photon/_muon.pyx *)
Section PhotonMuon.
Variables MASS_E MASS_MU ALPHA_EM : FN.

(** 29-50 *)
Definition cy_photon_muon_rest_frame (egam : FN) : FN :=
  let y := #2 *. egam /. MASS_MU in
  let r := (MASS_E /. MASS_MU)² in
  if (y <=. #0) || (#1 -. MASS_E /. MASS_MU <=. y) then #0 else
  let pre := ALPHA_EM /. (#3 *. fpi M *. y *. MASS_MU) in
  let ym := #1 -. y in
  let poly1 := neg #102 +. #46 *. y -. #101 *. y² +. #55 *. y³ in
  let poly2 := #3 -. #5 *. y +. #6 *. y² -. #6 *. y³ +. #2 *. y⁴ in
  #2 *. pre *. (poly1 *. ym /. #12 +. poly2 *. log (ym /. r)).

(** 58-115 *)
Definition cy_photon_muon (egam emu : FN) : FN :=
  if emu <. MASS_MU then #0 else
  if (emu -. MASS_MU) <. epmach M then cy_photon_muon_rest_frame egam else
  let gamma := emu /. MASS_MU in
  let beta := sqrt (#1 -. (MASS_MU /. emu)²) in
  let y := #2 *. egam /. MASS_MU in
  let r := (MASS_E /. MASS_MU)² in
  let x := y *. gamma in
  if (x <. #0) || ((#1 -. r) /. (#1 -. beta) <=. x) then #0 else
  let wp := if x <. (#1 -. r) /. (#1 +. beta) then #1 +. beta else (#1 -. r) /. x in
  let wm := #1 -. beta in
  let xp := x *. wp in
  let xm := x *. wm in
  let result := (xm -. xp) *. (#102 +. xm *. xp *. (
                   #191 +. #21 *. xm² +. xm *. (neg #92 +. #21 *. xp) +. xp *. (neg #92 +. #21 *. xp))
                ) /. (#12 *. xm *. xp *. beta) in
  let result := result +. (#9 +. xm *. (#18 +. xm *. (neg #18 +. (#9 -. #2 *. xm) *. xm)))
                          *. log ((#1 -. xm) /. r) /. (#3 *. xm *. beta) in
  let result := result +. (neg #9 +. xp *. (neg #18 +. xp *. (#18 +. xp *. (neg #9 +. #2 *. xp))))
                          *. log ((#1 -. xp) /. r) /. (#3 *. xp *. beta) in
  let result := result +. #5 /. beta *. (log ((#1 -. xm) /. r) *. log xm -. log ((#1 -. xp) /. r) *. log xp) in
  let result := result +. #4 /. (#3 *. beta) *. (#4 *. log ((#1 -. xp) /. (#1 -. xm)) +. #7 *. log (xp /. xm)) in
  let result := result +. #5 /. beta *. (spence xm -. spence xp) in
  result *. ALPHA_EM /. (#3 *. fpi M *. emu).
End PhotonMuon.

(** ** hazma/spectra/_photon/_pion.pyx *)
Section PhotonPion.
(** [MPI], [ME], [MMU] are 20-22; [ENG_MU_PIRF], [ENG_GAM_MAX_MURF], [BETA_MU_PIRF], [GAMMA_MU_PIRF] are 16-24; [FPI]
    is 19 *)
Variables ME MMU MPI ALPHA_EM FPI F_A_PI F_V_PI F_V_PI_SLOPE ENG_MU_PIRF : FN.
Variables BR_PI_TO_MU_NUMU BR_PI_TO_E_NUE : FN.
Variables ENG_GAM_MAX_MURF BETA_MU_PIRF GAMMA_MU_PIRF : FN.

(** 34-62 *)
Definition cy_pi_to_lnug (egam ml : FN) : FN :=
  let x := #2 *. egam /. MPI in
  let r := (ml /. MPI) *. (ml /. MPI) in
  if (x <. #0) || ((#1 -. r) <. x) then #0 else
  let F_V := F_V_PI *. (#1 +. F_V_PI_SLOPE *. (#1 -. x)) in
  let f := (r +. x -. #1) *. (
      MPI *. MPI *. x *. x *. x *. x *. (F_A_PI *. F_A_PI +. F_V *. F_V)
        *. (r *. r -. r *. x +. r -. #2 *. (x -. #1) *. (x -. #1))
      -. #12 *. sqrt #2 *. FPI *. MPI *. r *. (x -. #1) *. x *. x *. (F_A_PI *. (r -. #2 *. x +. #1) +. F_V *. x)
      -. #24 *. FPI *. FPI *. r *. (x -. #1) *. (#4 *. r *. (x -. #1) +. (x -. #2) *. (x -. #2))) in
  let g := #12 *. sqrt #2 *. FPI *. r *. (x -. #1) *. (x -. #1) *. log (r /. (#1 -. x)) *. (
      MPI *. x *. x *. (F_A_PI *. (x -. #2 *. r) -. F_V *. x)
      +. sqrt #2 *. FPI *. (#2 *. r *. r -. #2 *. r *. x -. x *. x +. #2 *. x -. #2)) in
  ALPHA_EM *. (f +. g) /. (#24 *. fpi M *. MPI *. FPI *. FPI *. (r -. #1) *. (r -. #1)
                           *. (x -. #1) *. (x -. #1) *. r *. x).

(** 67-82 *)
Definition eng_gam_max (eng_pi : FN) : FN :=
  let beta_pi := cy_boost_beta eng_pi MPI in
  let gamma_pi := cy_boost_gamma eng_pi MPI in
  ENG_GAM_MAX_MURF *. gamma_pi *. GAMMA_MU_PIRF *. (#1 +. beta_pi) *. (#1 +. BETA_MU_PIRF).

(** 86-107 *)
Definition cy_charged_pion_integrand (eng_gam eng_pi cl : FN) : FN :=
  let beta_pi := cy_boost_beta eng_pi MPI in
  let gamma_pi := cy_boost_gamma eng_pi MPI in
  let eng_gam_pi_rF := eng_gam *. gamma_pi *. (#1 -. beta_pi *. cl) in
  let jac := #1 /. (#2 *. gamma_pi *. abs (#1 -. beta_pi *. cl)) in
  let result := #0 in
  let result := result +. BR_PI_TO_MU_NUMU *. jac *. cy_photon_muon ME MMU ALPHA_EM eng_gam_pi_rF ENG_MU_PIRF in
  let result := result +. BR_PI_TO_MU_NUMU *. jac *. cy_pi_to_lnug eng_gam_pi_rF MMU in
  let result := result +. BR_PI_TO_E_NUE *. jac *. cy_pi_to_lnug eng_gam_pi_rF ME in
  result.

(** 110-125 *)
Definition cy_photon_charged_pion (eng_gam eng_pi : FN) : FN :=
  if eng_pi <. MPI then #0 else quad (cy_charged_pion_integrand eng_gam eng_pi) (neg #1) #1.
End PhotonPion.

(** _pion.pyx 147-160; [f32] is the rounding of a value stored in a [cdef float] *)
Section NeutralPion.
Variables MASS_PI0 BR_PI0_TO_A_A : FN.
Variable f32 : FN -> FN.
Definition cy_photon_neutral_pion (eng_gam eng_pi : FN) : FN :=
  if eng_pi <. MASS_PI0 then #0 else
  let beta := f32 (sqrt (#1 -. (MASS_PI0 /. eng_pi)²)) in
  let ret_val := f32 #0 in
  let ret_val :=
    if (eng_pi *. (#1 -. beta) /. #2 <=. eng_gam) && (eng_gam <=. eng_pi *. (#1 +. beta) /. #2)
    then f32 (BR_PI0_TO_A_A *. #2 /. (eng_pi *. beta)) else ret_val in
  ret_val.
End NeutralPion.

(** ** hazma/spectra/_positron/_muon.pyx *)
Section PositronMuon.
Variables MASS_E MASS_MU R_FACTOR : FN.
(** 12-13 *)
Definition cy_R : FN := MASS_E /. MASS_MU.
Definition cy_R2 : FN := cy_R *. cy_R.

(** 25-28 *)
Definition cy_dndx_rest_frame (x : FN) : FN :=
  if (x <=. #2 *. cy_R) || (#1 +. cy_R2 <=. x) then #0 else
  neg #2 *. sqrt (x² -. #4 *. cy_R2) *. (#4 *. cy_R2 +. x *. (neg #3 -. #3 *. cy_R2 +. #2 *. x)) /. R_FACTOR.

(** 34-57 *)
Definition cy_dndx (x beta : FN) : FN :=
  if (beta <. #0) || (#1 <. beta) then #0 else
  if beta <. epmach M then cy_dndx_rest_frame x else
  let gamma2 := #1 /. (#1 -. beta²) in
  let r22 := #4 *. cy_R2 *. (#1 -. beta²) in
  let xm := fmax M (gamma2 *. (x -. beta *. sqrt (x² -. r22))) (#2 *. cy_R) in
  let xp := fmin M (gamma2 *. (x +. beta *. sqrt (x² -. r22))) (#1 +. cy_R2) in
  if (xp <. xm) || (xp <. xm) then #0 else
  (xm *. (#8 *. cy_R2 +. xm *. (neg #3 -. #3 *. cy_R2 +. (#4 *. xm) /. #3)) +. xp *. (
      neg #8 *. cy_R2 +. (#3 +. #3 *. cy_R2 -. (#4 *. xp) /. #3) *. xp
  )) /. (#2 *. beta *. R_FACTOR).

(** 63-79 *)
Definition cy_positron_muon (e emu : FN) : FN :=
  if (emu <. MASS_MU) || (e <=. MASS_E) then #0 else
  if (emu -. MASS_MU) <. epmach M then
    let pre := #2 /. MASS_MU in
    pre *. cy_dndx_rest_frame (pre *. e)
  else
    let beta := cy_boost_beta emu MASS_MU in
    let pre := #2 /. emu in
    pre *. cy_dndx (pre *. e) beta.
End PositronMuon.

(** ** hazma/spectra/_positron/_pion.pyx *)
Section PositronPion.
Variables me mmu mpi R_FACTOR : FN.
Variables BR_PI_TO_MU_NUMU BR_PI_TO_E_NUE : FN.
(** 18-25 *)
Definition eng_mu_pi_rf : FN := #0.5 *. (mpi *. mpi +. mmu *. mmu) /. mpi.
Definition eng_e_pi_rf : FN := #0.5 *. (mpi *. mpi +. me *. me) /. mpi.
Definition gamma_mu : FN := eng_mu_pi_rf /. mmu.
Definition beta_mu : FN := sqrt (#1 -. (mmu /. eng_mu_pi_rf)²).
Definition emax_mu_rf : FN := (me *. me +. mmu *. mmu) /. (#2 *. mmu).
Definition emax_pi_rf : FN :=
  gamma_mu *. emax_mu_rf *. (#1 +. beta_mu *. sqrt (#1 -. (me /. emax_mu_rf)²)).

(** 31-32 *)
Definition cy_pp_integrand (e : FN) : FN :=
  cy_positron_muon me mmu R_FACTOR e eng_mu_pi_rf /. sqrt (e² -. me²).

(** 38-65 *)
Definition cy_positron_charged_pion (e epi : FN) : FN :=
  if (epi <. mpi) || (e <. me) then #0 else
  if abs (epi -. mpi) <. epmach M then #0 else
  let gamma := cy_boost_gamma epi mpi in
  let beta := cy_boost_beta epi mpi in
  let emin := fmax M (gamma *. (e -. beta *. sqrt (e² -. me²))) me in
  let emax := fmin M (gamma *. (e +. beta *. sqrt (e² -. me²))) emax_pi_rf in
  let dnde_mu := BR_PI_TO_MU_NUMU *. quad cy_pp_integrand emin emax in
  let dnde_mu := dnde_mu /. (#2 *. beta *. gamma) in
  let dnde_e := BR_PI_TO_E_NUE *. cy_boost_delta_function eng_e_pi_rf e me beta in
  dnde_mu +. dnde_e.
End PositronPion.
End Cython.

(** ** The tables of constants *)
Local Open Scope string_scope.
(** hazma/_utils/constants.pxd 5-352: every DEF, in order *)
Definition constants_pxd : list (string * Q) := [
  ("MASS_E", 0.5109989461); ("MASS_MU", 105.6583745); ("MASS_TAU", 1776.86); ("MASS_PI0", 134.9768);
  ("MASS_PI", 139.57039); ("MASS_ETA", 547.862); ("MASS_ETAP", 957.78); ("MASS_K", 493.677); ("MASS_K0", 497.611);
  ("MASS_KL", 497.611); ("MASS_KS", 497.611); ("MASS_RHO", 775.26); ("MASS_OMEGA", 782.66); ("MASS_PHI", 1019.461);
  ("BR_PI_TO_MU_NUMU", 0.9998770); ("BR_PI_TO_E_NUE", 1.230e-4); ("BR_PI0_TO_A_A", 98.823e-2);
  ("BR_PI0_TO_E_E_A", 1.174e-2); ("BR_PI0_TO_E_E_E_E", 3.34e-5); ("BR_ETA_TO_A_A", 39.41e-2);
  ("BR_ETA_TO_PI0_PI0_PI0", 32.68e-2); ("BR_ETA_TO_PI0_A_A", 2.56e-4); ("BR_ETA_TO_PI_PI_PI0", 22.92e-2);
  ("BR_ETA_TO_PI_PI_A", 4.22e-2); ("BR_ETA_TO_E_E_A", 6.9e-3); ("BR_ETA_TO_MU_MU_A", 3.1e-4);
  ("BR_ETA_TO_MU_MU", 5.8e-6); ("BR_ETA_TO_PI_PI_E_E", 2.68e-4); ("BR_ETA_TO_E_E_E_E", 2.40e-5);
  ("BR_RHO_TO_PI_PI", 0.9988447); ("BR_RHO_TO_PI0_A", 4.7e-4); ("BR_RHO_TO_ETA_A", 3.00e-4);
  ("BR_RHO_TO_PI_PI_PI0", 1.01e-4); ("BR_RHO_TO_E_E", 4.72e-5); ("BR_RHO_TO_MU_MU", 4.55e-5);
  ("BR_RHO_TO_PI0_PI0_A", 4.5e-5); ("BR_RHO_TO_PI_PI_PI_PI", 1.8e-5); ("BR_RHO_TO_PI_PI_PI0_PI0", 1.6e-5);
  ("BR_RHO_TO_PI_PI_A", 9.9e-3); ("RHOP_TO_PI_PI0", 0.9995502); ("RHOP_TO_PI_A", 4.5e-4);
  ("BR_KL_TO_PI0_PI0_PI0", 19.52e-2); ("BR_KL_TO_PI_PI_PI0", 12.54e-2); ("BR_KL_TO_PI_E_NUE", 40.55e-2);
  ("BR_KL_TO_PI_MU_NUMU", 27.04e-2); ("BR_KL_TO_PI_PI", 1.967e-3); ("BR_KL_TO_PI0_PI0", 8.64e-4);
  ("BR_KL_TO_A_A", 5.47e-4); ("BR_KL_TO_PI0_PI_E_NU", 5.20e-5); ("BR_KL_TO_PI_E_E_E_NU", 1.26e-5);
  ("BR_KS_TO_PI_PI", 69.20e-2); ("BR_KS_TO_PI0_PI0", 30.69e-2); ("BR_KS_TO_PI_PI_E_E", 4.79e-5);
  ("BR_KS_TO_PI_E_NUE", 7.04e-4); ("BR_KS_TO_A_A", 2.63e-6); ("BR_KS_TO_PI_PI_PI0", 3.5e-7);
  ("BR_KS_TO_PI_PI_A", 1.79e-3); ("BR_KS_TO_PI0_A_A", 4.9e-8); ("BR_KS_TO_PI0_E_E", 3e-9);
  ("BR_KS_TO_PI0_MU_MU", 2.9e-9); ("BR_K0_TO_KL", 0.5); ("BR_K0_TO_KS", 0.5); ("BR_K0STAR_TO_K_PI", 0.6649467);
  ("BR_K0STAR_TO_K0_PI0", 0.3326633); ("BR_K0STAR_TO_K0_A", 0.0023900); ("BR_K_TO_MU_NUMU", 63.56e-2);
  ("BR_K_TO_E_NUE", 1.582e-5); ("BR_K_TO_PI_PI0", 20.67e-2); ("BR_K_TO_PI_PI_PI", 5.583e-2);
  ("BR_K_TO_PI_PI0_PI0", 1.760e-2); ("BR_K_TO_E_NUE_PI0", 5.07e-2); ("BR_K_TO_MU_NUMU_PI0", 3.352e-2);
  ("BR_K_TO_E_NUE_PI0_PI0", 2.55e-5); ("BR_K_TO_E_NUE_PI_PI", 4.247e-5); ("BR_K_TO_MU_NUMU_PI0_PI0", 0.0000140);
  ("BR_K_TO_MU_NUMU_PI_PI", 1.4e-5); ("BR_K_TO_E_E_E_NUE", 2.48e-8); ("BR_K_TO_MU_E_E_NUMU", 7.06e-8);
  ("BR_K_TO_MU_MU_E_NUE", 1.7e-8); ("BR_K_TO_PI_E_E", 3.00e-7); ("BR_K_TO_PI_MU_MU", 9.4e-8);
  ("BR_KSTAR_TO_K0_PI", 0.6660067); ("BR_KSTAR_TO_K_PI0", 0.3330033); ("BR_KSTAR_TO_K_A", 0.0009900);
  ("BR_ETAP_TO_PI_PI_ETA", 42.5e-2); ("BR_ETAP_TO_RHO_A", 29.5e-2); ("BR_ETAP_TO_PI0_PI0_ETA", 22.4e-2);
  ("BR_ETAP_TO_OMEGA_A", 2.52e-2); ("BR_ETAP_TO_A_A", 2.307e-2); ("BR_ETAP_TO_PI0_PI0_PI0", 2.50e-3);
  ("BR_ETAP_TO_MU_MU_A", 1.13e-4); ("BR_ETAP_TO_OMEGA_E_E", 2e-4); ("BR_ETAP_TO_PI_PI_PI0", 3.61e-3);
  ("BR_ETAP_TO_PI_RHOP", 7.4e-4); ("BR_ETAP_TO_PI_PI_PI_PI", 8.4e-5); ("BR_ETAP_TO_PI_PI_PI0_PI0", 1.8e-4);
  ("BR_ETAP_TO_PI_PI_E_E", 2.4e-3); ("BR_ETAP_TO_E_E_A", 4.91e-4); ("BR_ETAP_TO_PI0_A_A", 3.20e-3);
  ("BR_OMEGA_TO_PI_PI_PI0", 89.2e-2); ("BR_OMEGA_TO_PI0_A", 8.34e-2); ("BR_OMEGA_TO_PI_PI", 1.53e-2);
  ("BR_OMEGA_TO_ETA_A", 4.5e-4); ("BR_OMEGA_TO_PI0_E_E", 7.7e-4); ("BR_OMEGA_TO_PI0_MU_MU", 1.34e-4);
  ("BR_OMEGA_TO_E_E", 7.39e-5); ("BR_OMEGA_TO_MU_MU", 7.4e-5); ("BR_OMEGA_TO_PI0_PI0_A", 6.7e-5);
  ("BR_PHI_TO_K_K", 49.2e-2); ("BR_PHI_TO_KL_KS", 34.0e-2); ("BR_PHI_TO_RHOP_PI", 0.0420984);
  ("BR_PHI_TO_RHO_PI0", 0.0420984); ("BR_PHI_TO_PI_PI_PI0", 0.0270000); ("BR_PHI_TO_ETA_A", 1.303e-2);
  ("BR_PHI_TO_PI0_A", 1.32e-3); ("BR_PHI_TO_E_E", 2.974e-4); ("BR_PHI_TO_MU_MU", 2.86e-4);
  ("BR_PHI_TO_ETA_E_E", 1.08e-4); ("BR_PHI_TO_PI_PI", 7.3e-5); ("BR_PHI_TO_OMEGA_PI0", 4.7e-5);
  ("BR_PHI_TO_PI_PI_A", 4.1e-5); ("BR_PHI_TO_F0980_A", 3.22e-4); ("BR_PHI_TO_PI0_PI0_A", 1.12e-4);
  ("BR_PHI_TO_PI_PI_PI_PI", 3.9e-6); ("BR_PHI_TO_PI0_E_E", 1.33e-5); ("BR_PHI_TO_PI0_ETA_A", 7.27e-5);
  ("BR_PHI_TO_A0980_A", 7.6e-5); ("BR_PHI_TO_ETAP_A", 6.22e-5); ("BR_PHI_TO_MU_MU_A", 1.4e-5); ("WIDTH_E", 0.0);
  ("WIDTH_MU", 2.9959837e-16); ("WIDTH_TAU", 2.267e-09); ("WIDTH_PI0", 7.81e-06); ("WIDTH_PI", 2.5284e-14);
  ("WIDTH_ETA", 0.00131); ("WIDTH_ETAP", 0.188); ("WIDTH_K", 5.317e-14); ("WIDTH_KL", 1.287e-14);
  ("WIDTH_KS", 7.3508e-12); ("WIDTH_RHO", 149.1); ("WIDTH_OMEGA", 8.68); ("WIDTH_PHI", 4.249);
  ("ALPHA_EM", 1 / 137.035999084);
  ("RATIO_E_MU_MASS_SQ", (0.5109989461 / 105.6583745) * (0.5109989461 / 105.6583745)); ("F_A_PI", 0.0119);
  ("F_V_PI", 0.0254); ("F_V_PI_SLOPE", 0.10); ("F_A_K", 0.042); ("F_V_K", 0.096); ("DECAY_CONST_PI", 130.41);
  ("DECAY_CONST_K", 156.1)]%Q.
(** rust/src/constants.rs 72-417: every constant of the module pdg, in order *)
Definition constants_rs_pdg : list (string * Q) := [
  ("MASS_E", 0.5109989461); ("MASS_MU", 105.6583745); ("MASS_TAU", 1776.86); ("MASS_PI0", 134.9768);
  ("MASS_PI", 139.57039); ("MASS_ETA", 547.862); ("MASS_ETAP", 957.78); ("MASS_K", 493.677); ("MASS_K0", 497.611);
  ("MASS_KL", 497.611); ("MASS_KS", 497.611); ("MASS_RHO", 775.26); ("MASS_OMEGA", 782.66); ("MASS_PHI", 1019.461);
  ("BR_PI_TO_MU_NUMU", 0.9998770); ("BR_PI_TO_E_NUE", 1.230e-4); ("BR_PI0_TO_A_A", 98.823e-2);
  ("BR_PI0_TO_E_E_A", 1.174e-2); ("BR_PI0_TO_E_E_E_E", 3.34e-5); ("BR_ETA_TO_A_A", 39.41e-2);
  ("BR_ETA_TO_PI0_PI0_PI0", 32.68e-2); ("BR_ETA_TO_PI0_A_A", 2.56e-4); ("BR_ETA_TO_PI_PI_PI0", 22.92e-2);
  ("BR_ETA_TO_PI_PI_A", 4.22e-2); ("BR_ETA_TO_E_E_A", 6.9e-3); ("BR_ETA_TO_MU_MU_A", 3.1e-4);
  ("BR_ETA_TO_MU_MU", 5.8e-6); ("BR_ETA_TO_PI_PI_E_E", 2.68e-4); ("BR_ETA_TO_E_E_E_E", 2.40e-5);
  ("BR_RHO_TO_PI_PI", 0.9988447); ("BR_RHO_TO_PI0_A", 4.7e-4); ("BR_RHO_TO_ETA_A", 3.00e-4);
  ("BR_RHO_TO_PI_PI_PI0", 1.01e-4); ("BR_RHO_TO_E_E", 4.72e-5); ("BR_RHO_TO_MU_MU", 4.55e-5);
  ("BR_RHO_TO_PI0_PI0_A", 4.5e-5); ("BR_RHO_TO_PI_PI_PI_PI", 1.8e-5); ("BR_RHO_TO_PI_PI_PI0_PI0", 1.6e-5);
  ("BR_RHO_TO_PI_PI_A", 9.9e-3); ("RHOP_TO_PI_PI0", 0.9995502); ("RHOP_TO_PI_A", 4.5e-4);
  ("BR_KL_TO_PI0_PI0_PI0", 19.52e-2); ("BR_KL_TO_PI_PI_PI0", 12.54e-2); ("BR_KL_TO_PI_E_NUE", 40.55e-2);
  ("BR_KL_TO_PI_MU_NUMU", 27.04e-2); ("BR_KL_TO_PI_PI", 1.967e-3); ("BR_KL_TO_PI0_PI0", 8.64e-4);
  ("BR_KL_TO_A_A", 5.47e-4); ("BR_KL_TO_PI0_PI_E_NU", 5.20e-5); ("BR_KL_TO_PI_E_E_E_NU", 1.26e-5);
  ("BR_KS_TO_PI_PI", 69.20e-2); ("BR_KS_TO_PI0_PI0", 30.69e-2); ("BR_KS_TO_PI_PI_E_E", 4.79e-5);
  ("BR_KS_TO_PI_E_NUE", 7.04e-4); ("BR_KS_TO_A_A", 2.63e-6); ("BR_KS_TO_PI_PI_PI0", 3.5e-7);
  ("BR_KS_TO_PI_PI_A", 1.79e-3); ("BR_KS_TO_PI0_A_A", 4.9e-8); ("BR_KS_TO_PI0_E_E", 3e-9);
  ("BR_KS_TO_PI0_MU_MU", 2.9e-9); ("BR_K0_TO_KL", 0.5); ("BR_K0_TO_KS", 0.5); ("BR_K0STAR_TO_K_PI", 0.6649467);
  ("BR_K0STAR_TO_K0_PI0", 0.3326633); ("BR_K0STAR_TO_K0_A", 0.0023900); ("BR_K_TO_MU_NUMU", 63.56e-2);
  ("BR_K_TO_E_NUE", 1.582e-5); ("BR_K_TO_PI_PI0", 20.67e-2); ("BR_K_TO_PI_PI_PI", 5.583e-2);
  ("BR_K_TO_PI_PI0_PI0", 1.760e-2); ("BR_K_TO_E_NUE_PI0", 5.07e-2); ("BR_K_TO_MU_NUMU_PI0", 3.352e-2);
  ("BR_K_TO_E_NUE_PI0_PI0", 2.55e-5); ("BR_K_TO_E_NUE_PI_PI", 4.247e-5); ("BR_K_TO_MU_NUMU_PI0_PI0", 0.0000140);
  ("BR_K_TO_MU_NUMU_PI_PI", 1.4e-5); ("BR_K_TO_E_E_E_NUE", 2.48e-8); ("BR_K_TO_MU_E_E_NUMU", 7.06e-8);
  ("BR_K_TO_MU_MU_E_NUE", 1.7e-8); ("BR_K_TO_PI_E_E", 3.00e-7); ("BR_K_TO_PI_MU_MU", 9.4e-8);
  ("BR_KSTAR_TO_K0_PI", 0.6660067); ("BR_KSTAR_TO_K_PI0", 0.3330033); ("BR_KSTAR_TO_K_A", 0.0009900);
  ("BR_ETAP_TO_PI_PI_ETA", 42.5e-2); ("BR_ETAP_TO_RHO_A", 29.5e-2); ("BR_ETAP_TO_PI0_PI0_ETA", 22.4e-2);
  ("BR_ETAP_TO_OMEGA_A", 2.52e-2); ("BR_ETAP_TO_A_A", 2.307e-2); ("BR_ETAP_TO_PI0_PI0_PI0", 2.50e-3);
  ("BR_ETAP_TO_MU_MU_A", 1.13e-4); ("BR_ETAP_TO_OMEGA_E_E", 2e-4); ("BR_ETAP_TO_PI_PI_PI0", 3.61e-3);
  ("BR_ETAP_TO_PI_RHOP", 7.4e-4); ("BR_ETAP_TO_PI_PI_PI_PI", 8.4e-5); ("BR_ETAP_TO_PI_PI_PI0_PI0", 1.8e-4);
  ("BR_ETAP_TO_PI_PI_E_E", 2.4e-3); ("BR_ETAP_TO_E_E_A", 4.91e-4); ("BR_ETAP_TO_PI0_A_A", 3.20e-3);
  ("BR_OMEGA_TO_PI_PI_PI0", 89.2e-2); ("BR_OMEGA_TO_PI0_A", 8.34e-2); ("BR_OMEGA_TO_PI_PI", 1.53e-2);
  ("BR_OMEGA_TO_ETA_A", 4.5e-4); ("BR_OMEGA_TO_PI0_E_E", 7.7e-4); ("BR_OMEGA_TO_PI0_MU_MU", 1.34e-4);
  ("BR_OMEGA_TO_E_E", 7.39e-5); ("BR_OMEGA_TO_MU_MU", 7.4e-5); ("BR_OMEGA_TO_PI0_PI0_A", 6.7e-5);
  ("BR_PHI_TO_K_K", 49.2e-2); ("BR_PHI_TO_KL_KS", 34.0e-2); ("BR_PHI_TO_RHOP_PI", 0.0420984);
  ("BR_PHI_TO_RHO_PI0", 0.0420984); ("BR_PHI_TO_PI_PI_PI0", 0.0270000); ("BR_PHI_TO_ETA_A", 1.303e-2);
  ("BR_PHI_TO_PI0_A", 1.32e-3); ("BR_PHI_TO_E_E", 2.974e-4); ("BR_PHI_TO_MU_MU", 2.86e-4);
  ("BR_PHI_TO_ETA_E_E", 1.08e-4); ("BR_PHI_TO_PI_PI", 7.3e-5); ("BR_PHI_TO_OMEGA_PI0", 4.7e-5);
  ("BR_PHI_TO_PI_PI_A", 4.1e-5); ("BR_PHI_TO_F0980_A", 3.22e-4); ("BR_PHI_TO_PI0_PI0_A", 1.12e-4);
  ("BR_PHI_TO_PI_PI_PI_PI", 3.9e-6); ("BR_PHI_TO_PI0_E_E", 1.33e-5); ("BR_PHI_TO_PI0_ETA_A", 7.27e-5);
  ("BR_PHI_TO_A0980_A", 7.6e-5); ("BR_PHI_TO_ETAP_A", 6.22e-5); ("BR_PHI_TO_MU_MU_A", 1.4e-5); ("WIDTH_E", 0.0);
  ("WIDTH_MU", 2.9959837e-16); ("WIDTH_TAU", 2.267e-09); ("WIDTH_PI0", 7.81e-06); ("WIDTH_PI", 2.5284e-14);
  ("WIDTH_ETA", 0.00131); ("WIDTH_ETAP", 0.188); ("WIDTH_K", 5.317e-14); ("WIDTH_KL", 1.287e-14);
  ("WIDTH_KS", 7.3508e-12); ("WIDTH_RHO", 149.1); ("WIDTH_OMEGA", 8.68); ("WIDTH_PHI", 4.249);
  ("ALPHA_EM", 1 / 137.035999084);
  ("RATIO_E_MU_MASS_SQ", (0.5109989461 / 105.6583745) * (0.5109989461 / 105.6583745)); ("F_A_PI", 0.0119);
  ("F_V_PI", 0.0254); ("F_V_PI_SLOPE", 0.10); ("F_A_K", 0.042); ("F_V_K", 0.096); ("DECAY_CONST_PI", 130.41);
  ("DECAY_CONST_K", 156.1)]%Q.
(** hazma/_utils/legacy_parameters.pxd 18-85: every constant, in order *)
Definition legacy_pxd : list (string * Q) := [
  ("MASS_E", 0.510998928); ("MASS_MU", 105.6583715); ("MASS_PI0", 134.9766); ("MASS_PI", 139.57018);
  ("MASS_K0", 497.61); ("MASS_K", 493.68); ("MASS_ETA", 547.86); ("MASS_ETAP", 957.8); ("MASS_RHO", 775.3);
  ("MASS_OMEGA", 782.7); ("BR_PI0_TO_GG", 0.9882); ("BR_PI_TO_MUNU", 0.9998); ("BR_PI_TO_ENU", 0.000123);
  ("BR_KS_TO_PIPI", 0.6920); ("BR_KS_TO_PI0PI0", 0.3069); ("BR_KL_TO_PIENU", 0.4055); ("BR_KL_TO_PIMUNU", 0.2704);
  ("BR_KL_TO_3PI0", 0.1952); ("BR_KL_TO_2PIPI0", 0.1254); ("BR_K_TO_MUNU", 0.6356); ("BR_K_TO_PIPI0", 0.2067);
  ("BR_K_TO_3PI", 0.05583); ("BR_K_TO_PI0ENU", 0.0507); ("BR_K_TO_PI0MUNU", 0.03352); ("BR_K_TO_PI2PI0", 0.01760);
  ("BR_ETA_TO_GG", 0.3941); ("BR_ETA_TO_3PI0", 0.3268); ("BR_ETA_TO_2PIPI0", 0.2292); ("BR_ETA_TO_2PIG", 0.0422);
  ("BR_ETAP_TO_2PIETA", 0.429); ("BR_ETAP_TO_RHOG", 0.291); ("etap_BR_pi0_pi0_eta", 0.222);
  ("BR_ETAP_TO_OMEGAG", 0.0275); ("BR_ETAP_TO_GG", 0.0220); ("BR_ETAP_TO_3PI0", 0.0214);
  ("BR_ETAP_TO_MUMUG", 0.0108); ("BR_OMEGA_TO_2PIPI0", 0.892); ("BR_OMEGA_TO_PI0G", 0.0828);
  ("BR_OMEGA_TO_2PI", 0.0153); ("ALPHA_EM", 1 / 137.0);
  ("RATIO_E_MU_MASS_SQ", (0.510998928 / 105.6583715) * (0.510998928 / 105.6583715)); ("F_A_PI", 0.0119);
  ("F_V_PI", 0.0254); ("F_V_PI_SLOPE", 0.1); ("F_A_K", 0.042); ("F_V_K", 0.096); ("DECAY_CONST_PI", 130.41);
  ("DECAY_CONST_K", 156.1)]%Q.
(** rust/src/constants.rs 432-499: every constant of the module legacy, in order *)
Definition constants_rs_legacy : list (string * Q) := [
  ("MASS_E", 0.510998928); ("MASS_MU", 105.6583715); ("MASS_PI0", 134.9766); ("MASS_PI", 139.57018);
  ("MASS_K0", 497.61); ("MASS_K", 493.68); ("MASS_ETA", 547.86); ("MASS_ETAP", 957.8); ("MASS_RHO", 775.3);
  ("MASS_OMEGA", 782.7); ("BR_PI0_TO_GG", 0.9882); ("BR_PI_TO_MUNU", 0.9998); ("BR_PI_TO_ENU", 0.000123);
  ("BR_KS_TO_PIPI", 0.6920); ("BR_KS_TO_PI0PI0", 0.3069); ("BR_KL_TO_PIENU", 0.4055); ("BR_KL_TO_PIMUNU", 0.2704);
  ("BR_KL_TO_3PI0", 0.1952); ("BR_KL_TO_2PIPI0", 0.1254); ("BR_K_TO_MUNU", 0.6356); ("BR_K_TO_PIPI0", 0.2067);
  ("BR_K_TO_3PI", 0.05583); ("BR_K_TO_PI0ENU", 0.0507); ("BR_K_TO_PI0MUNU", 0.03352); ("BR_K_TO_PI2PI0", 0.01760);
  ("BR_ETA_TO_GG", 0.3941); ("BR_ETA_TO_3PI0", 0.3268); ("BR_ETA_TO_2PIPI0", 0.2292); ("BR_ETA_TO_2PIG", 0.0422);
  ("BR_ETAP_TO_2PIETA", 0.429); ("BR_ETAP_TO_RHOG", 0.291); ("ETAP_BR_PI0_PI0_ETA", 0.222);
  ("BR_ETAP_TO_OMEGAG", 0.0275); ("BR_ETAP_TO_GG", 0.0220); ("BR_ETAP_TO_3PI0", 0.0214);
  ("BR_ETAP_TO_MUMUG", 0.0108); ("BR_OMEGA_TO_2PIPI0", 0.892); ("BR_OMEGA_TO_PI0G", 0.0828);
  ("BR_OMEGA_TO_2PI", 0.0153); ("ALPHA_EM", 1 / 137.0);
  ("RATIO_E_MU_MASS_SQ", (0.510998928 / 105.6583715) * (0.510998928 / 105.6583715)); ("F_A_PI", 0.0119);
  ("F_V_PI", 0.0254); ("F_V_PI_SLOPE", 0.1); ("F_A_K", 0.042); ("F_V_K", 0.096); ("DECAY_CONST_PI", 130.41);
  ("DECAY_CONST_K", 156.1)]%Q.
(** hazma/parameters.py 50-76, 142-163 (the entries given as numbers) and 205: names of constants.pxd and the
    value of the same quantity there *)
Definition parameters_py : list (string * Q) := [
  ("MASS_E", 0.5109989461); ("MASS_MU", 105.6583745); ("MASS_TAU", 1776.86); ("MASS_PI0", 134.9768);
  ("MASS_PI", 139.57039); ("MASS_ETA", 547.862); ("MASS_ETAP", 957.78); ("MASS_K", 493.677);
  ("MASS_K0", 497.611); ("MASS_KL", 497.611); ("MASS_KS", 497.611); ("MASS_RHO", 775.26);
  ("MASS_OMEGA", 782.66); ("MASS_PHI", 1019.461); ("WIDTH_RHO", 147.4); ("WIDTH_K", 5.32e-14);
  ("WIDTH_KL", 1.29e-14); ("WIDTH_ETA", 1.31e-3); ("WIDTH_OMEGA", 8.68); ("WIDTH_ETAP", 0.188);
  ("WIDTH_PHI", 4.249); ("ALPHA_EM", 1 / 137.04)]%Q.
(** hazma/spectra/_photon/_pion.pyx 16-18, 23-24 and rust/src/constants.rs 537-553 *)
Definition photon_pion_pyx : list (string * Q) := [
  ("ENG_GAM_MAX_MURF", 52.82795006985128); ("ENG_GAM_MAX_PIRG", 69.78345771948752);
  ("ENG_MU_PIRF", 109.77820123634007); ("BETA_MU_PIRF", 0.27138337509758564);
  ("GAMMA_MU_PIRF", 1.0389919859434902)]%Q.
Definition photon_pion_rs : list (string * Q) := [
  ("ENG_GAM_MAX_MURF", 52.82795006985128); ("ENG_GAM_MAX_PIRG", 69.78345771948752);
  ("ENG_MU_PIRF", 109.77820123634007); ("BETA_MU_PIRF", 0.27138337509758564);
  ("GAMMA_MU_PIRF", 1.0389919859434902)]%Q.
