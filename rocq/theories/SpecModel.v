(** Model of decay spectra: rust/src/kernels/positron_muon.rs, neutrino_muon.rs, the neutral pion of
    photon_pion.rs and the lines of photon_tables.rs.

    The arithmetic is that of an arbitrary [Math] (instantiated by the reals in the theorems); the masses
    and the normalisation constant are parameters, and the literals of constants.rs are at the end. *)
From Coq Require Import List Arith Bool ZArith QArith.
From Verif Require Import RustBase RustMath BoostModel.
Import ListNotations.
Local Open Scope nat_scope.

Section Spectra.
Variable M : Math.
Notation FN := (F M).
Local Infix "+." := (fadd M) (at level 50, left associativity).
Local Infix "-." := (fsub M) (at level 50, left associativity).
Local Infix "*." := (fmul M) (at level 40, left associativity).
Local Infix "/." := (fdiv M) (at level 40, left associativity).
Local Infix "<." := (flt M) (at level 70).
Local Infix "<=." := (fle M) (at level 70).
Local Notation "# q" := (lit M q%Q) (at level 5, q at level 0).
Local Notation neg := (fneg M).

Section Muon.
(** constants.rs 72-73 ([MASS_E], [MASS_MU]) and 572 ([R_FACTOR]) *)
Variables MASS_E MASS_MU R_FACTOR : FN.

(** constants.rs 561-563; neutrino_muon.rs 70-76 *)
Definition c_R : FN := MASS_E /. MASS_MU.
Definition c_R2 : FN := c_R *. c_R.
Definition c_R4 : FN := c_R2 *. c_R2.
Definition c_R6 : FN := c_R4 *. c_R2.

(** ** Positrons *)

(** positron_muon.rs 70-88 *)
Definition TWO_R : FN := #2 *. c_R.
Definition ONE_PLUS_R2 : FN := #1 +. c_R2.
Definition FOUR_R2 : FN := #4 *. c_R2.
Definition EIGHT_R2 : FN := #8 *. c_R2.
Definition NEG_THREE_MINUS_THREE_R2 : FN := neg #3 -. #3 *. c_R2.
Definition THREE_PLUS_THREE_R2 : FN := #3 +. #3 *. c_R2.
Definition TWO_OVER_MASS_MU : FN := #2 /. MASS_MU.

(** positron_muon.rs 101-115 *)
Definition pos_dndx_rest_frame (x : FN) : FN :=
  if (x <=. TWO_R) || (ONE_PLUS_R2 <=. x) then #0 else
  let root := fsqrt M (x *. x -. FOUR_R2) in
  let inner := fma M x #2 NEG_THREE_MINUS_THREE_R2 in
  let poly := fma M x inner FOUR_R2 in
  (neg #2 *. root) *. poly /. R_FACTOR.

(** positron_muon.rs 150-194 *)
Definition pos_dndx (x beta : FN) : FN :=
  if (beta <. #0) || (#1 <. beta) then #0 else
  if beta <. epmach M then pos_dndx_rest_frame x else
  let one_minus_beta2 := #1 -. beta *. beta in
  let gamma2 := #1 /. one_minus_beta2 in
  let r22 := FOUR_R2 *. one_minus_beta2 in
  let root := fsqrt M (x *. x -. r22) in
  let xm := fmax M (gamma2 *. fma M (neg beta) root x) TWO_R in
  let xp := fmin M (gamma2 *. fma M beta root x) ONE_PLUS_R2 in
  if xp <. xm then #0 else
  let inner_m := (#4 *. xm) /. #3 +. NEG_THREE_MINUS_THREE_R2 in
  let term_m := fma M xm inner_m EIGHT_R2 in
  let inner_p := THREE_PLUS_THREE_R2 -. (#4 *. xp) /. #3 in
  let term_p := xp *. fma M inner_p xp (neg EIGHT_R2) in
  let numerator := fma M xm term_m term_p in
  numerator /. ((beta +. beta) *. R_FACTOR).

(** positron_muon.rs 217-230 *)
Definition dnde_positron_muon (e emu : FN) : FN :=
  if (emu <. MASS_MU) || (e <=. MASS_E) then #0 else
  if (emu -. MASS_MU) <. epmach M then
    let pre := TWO_OVER_MASS_MU in
    pre *. pos_dndx_rest_frame (pre *. e)
  else
    let beta := boost_beta M emu MASS_MU in
    let pre := #2 /. emu in
    pre *. pos_dndx (pre *. e) beta.

(** ** Neutrinos *)

(** neutrino_flavors.rs: the three rows *)
Record flavors : Type := MkFlavors { electron : FN; muon : FN; tau : FN }.
Definition no_flavors : flavors := MkFlavors #0 #0 #0.

(** neutrino_muon.rs 88-106 *)
Definition XMAX_RF : FN := #1 -. c_R2.
Definition THREE_R2 : FN := #3 *. c_R2.
Definition THREE_R4 : FN := #3 *. c_R4.
Definition SIX_R4 : FN := #6 *. c_R4.
Definition TWO_R4_TIMES_R2_MINUS_THREE : FN := #2 *. c_R4 *. (neg #3 +. c_R2).

(** neutrino_muon.rs 121-153 *)
Definition dnde_neutrino_muon_rest_frame (enu : FN) : flavors :=
  let pre := TWO_OVER_MASS_MU in
  let x := pre *. enu in
  if (x <=. #0) || (XMAX_RF <=. x) then no_flavors else
  let xm := #1 -. x in
  let x2 := x *. x in
  let gap := XMAX_RF -. x in
  let common := R_FACTOR *. x2 *. (gap *. gap) /. xm in
  let dndxe := #12 *. common in
  let two_common := common +. common in
  let poly := fma M (#3 -. x) c_R2 #3 in
  let poly := fma M x (neg #5) poly in
  let poly := fma M x2 #2 poly in
  let dndxm := two_common *. poly /. (xm *. xm) in
  MkFlavors (dndxe *. pre) (dndxm *. pre) #0.

(** neutrino_muon.rs 179-258 *)
Definition dnde_neutrino_muon (enu emu : FN) : flavors :=
  if emu <. MASS_MU then no_flavors else
  if (emu -. MASS_MU) <. epmach M then dnde_neutrino_muon_rest_frame enu else
  let e_to_x := #2 /. emu in
  let x := e_to_x *. enu in
  let gam := emu /. MASS_MU in
  let ratio := MASS_MU /. emu in
  let beta := fsqrt M (#1 -. ratio *. ratio) in
  let one_plus_beta := beta +. #1 in
  let pre := R_FACTOR *. e_to_x /. (beta +. beta) in
  if (x <=. #0) || (one_plus_beta *. XMAX_RF <=. x) then no_flavors else
  let gam2x := gam *. gam *. x in
  let xm := gam2x *. (#1 -. beta) in
  let xp := fmin M (gam2x *. one_plus_beta) XMAX_RF in
  let xmm := #1 -. xm in
  let xpm := #1 -. xp in
  let diff := xm -. xp in
  let sum := xm +. xp in
  let xm2 := xm *. xm in
  let xp2 := xp *. xp in
  let log_ratio := fln M (xpm /. xmm) in
  let poly := xm2 +. THREE_R4 in
  let poly := fma M xm xp poly in
  let poly := xp2 +. poly in
  let poly := fma M sum THREE_R2 poly in
  let poly := poly +. poly in
  let bracket := fma M sum (neg #3) poly in
  let electron := (pre +. pre) *. fma M diff bracket (log_ratio *. neg SIX_R4) in
  let low := fma M xm #4 (neg #9) in
  let high := fma M xp (neg #4) #9 *. xp2 in
  let cubic := fma M xm2 low high /. #3 in
  let acc := fma M (THREE_R2 *. diff) sum cubic in
  let poles := (xp +. xp) /. (xpm *. xpm) -. (xm +. xm) /. (xmm *. xmm) in
  let acc := fma M poles c_R6 acc in
  let acc := fma M (#1 /. xmm -. #1 /. xpm) SIX_R4 acc in
  let muon := pre *. fma M log_ratio TWO_R4_TIMES_R2_MINUS_THREE acc in
  MkFlavors electron muon #0.
End Muon.

(** ** Neutral pion: photon_pion.rs 396-416.  [f32] is the rounding of [x as f32] back to f64. *)
Section NeutralPion.
Variables MASS_PI0 BR_PI0_TO_A_A : FN.
Variable f32 : FN -> FN.
Definition dnde_photon_neutral_pion (egam epi : FN) : FN :=
  if epi <. MASS_PI0 then #0 else
  let ratio := MASS_PI0 /. epi in
  let beta := f32 (fsqrt M (#1 -. ratio *. ratio)) in
  let lower := (epi *. (#1 -. beta)) *. #0.5 in
  let upper := (epi *. (#1 +. beta)) *. #0.5 in
  if (lower <=. egam) && (egam <=. upper) then
    f32 ((BR_PI0_TO_A_A *. #2) /. (epi *. beta))
  else #0.
End NeutralPion.

(** ** The literals of constants.rs 72-85, 101, 112, 181, 200, 286, 317, 321, 347, 375, 572 *)
Definition pdg_MASS_E : FN := #0.5109989461.
Definition pdg_MASS_MU : FN := #105.6583745.
Definition pdg_R_FACTOR : FN := #1.0001870858234163.
Definition pdg_MASS_PI0 : FN := #134.9768.
Definition pdg_MASS_ETA : FN := #547.862.
Definition pdg_MASS_ETAP : FN := #957.78.
Definition pdg_MASS_K0 : FN := #497.611.
Definition pdg_MASS_OMEGA : FN := #782.66.
Definition pdg_MASS_PHI : FN := #1019.461.
Definition pdg_BR_PI0_TO_A_A : FN := #0.98823.
Definition pdg_BR_ETA_TO_A_A : FN := #0.3941.
Definition pdg_BR_KL_TO_A_A : FN := #0.000547.
Definition pdg_BR_KS_TO_A_A : FN := #0.00000263.
Definition pdg_BR_ETAP_TO_A_A : FN := #0.02307.
Definition pdg_BR_OMEGA_TO_PI0_A : FN := #0.0834.
Definition pdg_BR_OMEGA_TO_ETA_A : FN := #0.00045.
Definition pdg_BR_PHI_TO_ETA_A : FN := #0.01303.
Definition pdg_BR_PHI_TO_ETAP_A : FN := #0.0000622.

(** ** The lines of photon_tables.rs 88-144, 276-351: (energy, weight) *)
Definition two_body_minus (m1 m2 : FN) : FN := (m1 *. m1 -. m2 *. m2) /. (#2 *. m1).
Definition two_body_plus (m1 m2 : FN) : FN := (m1 *. m1 +. m2 *. m2) /. (#2 *. m1).
Definition long_kaon_lines : list (FN * FN) := [(pdg_MASS_K0 /. #2, #2 *. pdg_BR_KL_TO_A_A)].
Definition short_kaon_lines : list (FN * FN) := [(pdg_MASS_K0 /. #2, #2 *. pdg_BR_KS_TO_A_A)].
Definition eta_lines : list (FN * FN) := [(pdg_MASS_ETA /. #2, #2 *. pdg_BR_ETA_TO_A_A)].
Definition eta_prime_lines : list (FN * FN) := [(pdg_MASS_ETAP /. #2, pdg_BR_ETAP_TO_A_A)].
Definition omega_lines : list (FN * FN) :=
  [(two_body_minus pdg_MASS_OMEGA pdg_MASS_PI0, pdg_BR_OMEGA_TO_PI0_A);
   (two_body_minus pdg_MASS_OMEGA pdg_MASS_ETA, pdg_BR_OMEGA_TO_ETA_A)].
Definition phi_lines : list (FN * FN) :=
  [(two_body_plus pdg_MASS_PHI pdg_MASS_ETA, pdg_BR_PHI_TO_ETA_A);
   (two_body_plus pdg_MASS_PHI pdg_MASS_ETAP, pdg_BR_PHI_TO_ETAP_A)].
End Spectra.
