(** Model of the spectra that are boosts of other spectra: rust/src/kernels/photon_muon.rs, the charged
    pion of photon_pion.rs, positron_pion.rs, neutrino_pion.rs and photon_rho.rs.

    The arithmetic is that of an arbitrary [Math].  Two functions are parameters: [spence], the
    dilogarithm of special.rs 146-198, and [quad], the value part of crate::quad::quad at the options of
    each call site (the options are constant and always accepted, so the error arms cannot be reached).
    Masses and branching ratios are parameters; the literals of constants.rs are at the end. *)
From Coq Require Import List Arith Bool ZArith QArith.
From Verif Require Import RustBase RustMath BoostModel SpecModel.
Import ListNotations.
Local Open Scope nat_scope.

Section Pion.
Variable M : Math.
Notation FN := (F M).
Local Infix "+." := (fadd M) (at level 50, left associativity).
Local Infix "-." := (fsub M) (at level 50, left associativity).
Local Infix "*." := (fmul M) (at level 40, left associativity).
Local Infix "/." := (fdiv M) (at level 40, left associativity).
Local Infix "<." := (flt M) (at level 70).
Local Infix "<=." := (fle M) (at level 70).
Local Notation "# q" := (lit M q%Q) (at level 5, q at level 0).
Local Notation neg := (fneg M).

Variable spence : FN -> FN.
Variable quad : (FN -> FN) -> FN -> FN -> FN.

(** ** photon_muon.rs *)
Section PhotonMuon.
Variables MASS_E MASS_MU ALPHA_EM : FN.

(** photon_muon.rs 85-98 *)
Definition pm_MASS_RATIO : FN := MASS_E /. MASS_MU.
Definition pm_R : FN := pm_MASS_RATIO *. pm_MASS_RATIO.
Definition pm_Y_MAX : FN := #1 -. pm_MASS_RATIO.
Definition pm_ONE_MINUS_R : FN := #1 -. pm_R.
Definition THREE_PI : FN := #3 *. fpi M.

(** photon_muon.rs 114-146; [y.powf(3.0)] and [y.powf(4.0)] are written as products *)
Definition dnde_photon_muon_rest_frame (egam : FN) : FN :=
  let y := (#2 *. egam) /. MASS_MU in
  if (y <=. #0) || (pm_Y_MAX <=. y) then #0 else
  let pre := ALPHA_EM /. ((THREE_PI *. y) *. MASS_MU) in
  let ym := #1 -. y in
  let y2 := y *. y in
  let y3 := y *. y *. y in
  let y4 := y *. y *. y *. y in
  let poly1 := fma M y3 #55 (fma M y2 (neg #101) (fma M y #46 (neg #102))) in
  let poly2 := fma M y4 #2 (fma M y3 (neg #6) (fma M y2 #6 (fma M y (neg #5) #3))) in
  (pre +. pre) *. fma M poly2 (fln M (ym /. pm_R)) ((poly1 *. ym) /. #12).

(** photon_muon.rs 175-258 *)
Definition dnde_photon_muon (egam emu : FN) : FN :=
  if emu <. MASS_MU then #0 else
  if (emu -. MASS_MU) <. epmach M then dnde_photon_muon_rest_frame egam else
  let gamma := boost_gamma M emu MASS_MU in
  let beta := boost_beta M emu MASS_MU in
  let y := (#2 *. egam) /. MASS_MU in
  let x := y *. gamma in
  let wm := #1 -. beta in
  if (x <. #0) || (pm_ONE_MINUS_R /. wm <=. x) then #0 else
  let wp := if x <. pm_ONE_MINUS_R /. (#1 +. beta) then #1 +. beta else pm_ONE_MINUS_R /. x in
  let xp := x *. wp in
  let xm := x *. wm in
  let edge := fma M xp #21 (neg #92) in
  let inner := fma M xp edge (fma M edge xm (fma M (xm *. xm) #21 #191)) in
  let poly := fma M (xp *. xm) inner #102 in
  let r0 := ((xm -. xp) *. poly) /. (#12 *. xm *. xp *. beta) in
  let log_m := fln M ((#1 -. xm) /. pm_R) in
  let log_p := fln M ((#1 -. xp) /. pm_R) in
  let poly_m := fma M (fma M (fma M (fma M xm (neg #2) #9) xm (neg #18)) xm #18) xm #9 in
  let poly_p := fma M (fma M (fma M (fma M xp #2 (neg #9)) xp #18) xp (neg #18)) xp (neg #9) in
  let r1 := r0 +. (log_m *. poly_m) /. (#3 *. xm *. beta) in
  let r2 := r1 +. (log_p *. poly_p) /. (#3 *. xp *. beta) in
  let five_over_beta := #5 /. beta in
  let log_xm := fln M xm in
  let log_xp := fln M xp in
  let r3 := fma M five_over_beta (fma M log_m log_xm (neg (log_p *. log_xp))) r2 in
  let ratio_term := fma M (fln M ((#1 -. xp) /. (#1 -. xm))) #4 (fln M (xp /. xm) *. #7) in
  let r4 := fma M (#4 /. (#3 *. beta)) ratio_term r3 in
  let r5 := fma M five_over_beta (spence xm -. spence xp) r4 in
  (r5 *. ALPHA_EM) /. (emu *. THREE_PI).
End PhotonMuon.

(** ** positron_pion.rs *)
Section PositronPion.
Variables ME MMU MPI R_FACTOR EMAX_PI_RF : FN.
Variables BR_PI_TO_MU_NUMU BR_PI_TO_E_NUE : FN.

(** constants.rs, module derived::positron_pion *)
Definition pp_ENG_MU_PI_RF : FN := #0.5 *. (MPI *. MPI +. MMU *. MMU) /. MPI.
Definition pp_ENG_E_PI_RF : FN := #0.5 *. (MPI *. MPI +. ME *. ME) /. MPI.

(** positron_pion.rs 115-118 *)
Definition pp_integrand (e : FN) : FN :=
  dnde_positron_muon M ME MMU R_FACTOR e pp_ENG_MU_PI_RF /. fsqrt M (e *. e -. ME *. ME).

(** positron_pion.rs 141-182 *)
Definition dnde_positron_charged_pion (e epi : FN) : FN :=
  if (epi <. MPI) || (e <. ME) then #0 else
  if fabs M (epi -. MPI) <. epmach M then #0 else
  let gamma := boost_gamma M epi MPI in
  let beta := boost_beta M epi MPI in
  let k := fsqrt M (e *. e -. ME *. ME) in
  let emin := fmax M (gamma *. fma M (neg beta) k e) ME in
  let emax := fmin M (gamma *. fma M beta k e) EMAX_PI_RF in
  let integral := quad pp_integrand emin emax in
  let dnde_mu := (BR_PI_TO_MU_NUMU *. integral) /. ((#2 *. beta) *. gamma) in
  let dnde_e := BR_PI_TO_E_NUE *. boost_delta_function M pp_ENG_E_PI_RF e ME beta in
  dnde_mu +. dnde_e.
End PositronPion.

(** ** neutrino_pion.rs *)
Section NeutrinoPion.
Variables MASS_E MASS_MU R_FACTOR MASS_PI : FN.
Variables BR_PI_TO_MU_NUMU BR_PI_TO_E_NUE : FN.

(** neutrino_pion.rs 66-79 *)
Definition np_ENG_MU_PI_RF : FN := (MASS_PI *. MASS_PI +. MASS_MU *. MASS_MU) /. (#2 *. MASS_PI).
Definition ENU_E_PI_RF : FN := (MASS_PI *. MASS_PI -. MASS_E *. MASS_E) /. (#2 *. MASS_PI).
Definition ENU_MU_PI_RF : FN := (MASS_PI *. MASS_PI -. MASS_MU *. MASS_MU) /. (#2 *. MASS_PI).

(** neutrino_pion.rs 101-107 *)
Inductive flavor : Type := Electron | Muon.

(** neutrino_pion.rs 122-128 *)
Definition mu_numu_integrand (f : flavor) (e1 : FN) : FN :=
  let point := dnde_neutrino_muon M MASS_E MASS_MU R_FACTOR e1 np_ENG_MU_PI_RF in
  match f with
  | Electron => electron M point /. e1
  | Muon => muon M point /. e1
  end.

(** neutrino_pion.rs 216-226 *)
Definition np_boost_window (enu epi : FN) : FN * FN * FN :=
  let beta := boost_beta M epi MASS_PI in
  let gamma := #1 /. fsqrt M (#1 -. beta *. beta) in
  (fmax M (enu *. gamma *. (#1 -. beta)) #0, enu *. gamma *. (#1 +. beta), #0.5 /. (gamma *. beta)).

(** neutrino_pion.rs 161-187 *)
Definition dnde_mu_numu (enu epi : FN) : flavors M :=
  if epi <. MASS_PI then no_flavors M else
  if (epi -. MASS_PI) <. epmach M then
    let point := dnde_neutrino_muon M MASS_E MASS_MU R_FACTOR enu np_ENG_MU_PI_RF in
    MkFlavors M (electron M point *. BR_PI_TO_MU_NUMU) (muon M point *. BR_PI_TO_MU_NUMU) (tau M point)
  else
  let beta := boost_beta M epi MASS_PI in
  let '(emin, emax, pre) := np_boost_window enu epi in
  let delta_e := BR_PI_TO_E_NUE *. boost_delta_function M ENU_E_PI_RF enu #0 beta in
  let delta_m := BR_PI_TO_MU_NUMU *. boost_delta_function M ENU_MU_PI_RF enu #0 beta in
  let weight := pre *. BR_PI_TO_MU_NUMU in
  MkFlavors M (delta_e +. weight *. quad (mu_numu_integrand Electron) emin emax)
    (delta_m +. weight *. quad (mu_numu_integrand Muon) emin emax) #0.

(** neutrino_pion.rs 263-279 *)
Definition dnde_e_nue (enu epi : FN) : flavors M :=
  if epi <. MASS_PI then no_flavors M else
  let ratio := MASS_PI /. epi in
  let beta := fsqrt M (#1 -. ratio *. ratio) in
  MkFlavors M (BR_PI_TO_E_NUE *. boost_delta_function M ENU_E_PI_RF enu #0 beta) #0 #0.

(** neutrino_pion.rs 305-314 *)
Definition dnde_neutrino_charged_pion (enu epi : FN) : flavors M :=
  let mu_nu := dnde_mu_numu enu epi in
  let e_nu := dnde_e_nue enu epi in
  MkFlavors M (electron M mu_nu +. electron M e_nu) (muon M mu_nu +. muon M e_nu) #0.
End NeutrinoPion.

(** ** photon_pion.rs: the charged pion *)
Section PhotonPion.
Variables ME MMU MPI ALPHA_EM FPI F_A_PI F_V_PI F_V_PI_SLOPE ENG_MU_PIRF : FN.
Variables BR_PI_TO_MU_NUMU BR_PI_TO_E_NUE : FN.
Local Notation sqrt2 := (fsqrt M #2).

(** photon_pion.rs 163-273, with the folded constants of 118-136 *)
Definition dnde_pi_to_lnug (egam ml : FN) : FN :=
  let x := (#2 *. egam) /. MPI in
  let mass_ratio := ml /. MPI in
  let r := mass_ratio *. mass_ratio in
  if (x <. #0) || (#1 -. r <. x) then #0 else
  let one_minus_x := #1 -. x in
  let x_minus_1 := x -. #1 in
  let x_minus_2 := x -. #2 in
  let f_v := fma M one_minus_x F_V_PI_SLOPE #1 *. F_V_PI in
  let r_plus_x_minus_1 := (x +. r) -. #1 in
  let term_x4 := (MPI *. MPI *. x *. x *. x *. x) *. fma M f_v f_v (F_A_PI *. F_A_PI) in
  let poly_r0 := fma M r r (neg (x *. r)) +. r in
  let poly_r := fma M (x_minus_1 *. neg #2) x_minus_1 poly_r0 in
  let twelve_sqrt2_fpi := FPI *. (#12 *. sqrt2) in
  let term_fv := twelve_sqrt2_fpi *. MPI *. r *. x_minus_1 *. x *. x in
  let f_v_x := x *. f_v in
  let form_factors := fma M (fma M x (neg #2) r +. #1) F_A_PI f_v_x in
  let bracket0 := fma M term_x4 poly_r (neg (form_factors *. term_fv)) in
  let term_fpi2 := FPI *. neg #24 *. FPI *. r *. x_minus_1 in
  let inner := fma M (r *. #4) x_minus_1 (x_minus_2 *. x_minus_2) in
  let bracket := fma M term_fpi2 inner bracket0 in
  let f := r_plus_x_minus_1 *. bracket in
  let log_prefactor := r *. twelve_sqrt2_fpi *. x_minus_1 *. x_minus_1 in
  let log_term := fln M (r /. one_minus_x) *. log_prefactor in
  let m_pi_x2 := x *. MPI *. x in
  let axial := fma M (fma M r (neg #2) x) F_A_PI (neg f_v_x) in
  let two_r := r +. r in
  let poly_g := fma M x #2 (fma M (neg x) x (fma M two_r r (neg (x *. two_r)))) -. #2 in
  let g := fma M m_pi_x2 axial (poly_g *. (FPI *. sqrt2)) *. log_term in
  let r_minus_1 := r -. #1 in
  let denominator := FPI *. (#24 *. fpi M *. MPI) *. FPI *. r_minus_1 *. r_minus_1
                     *. x_minus_1 *. x_minus_1 *. r *. x in
  ((g +. f) *. ALPHA_EM) /. denominator.

(** photon_pion.rs 295-317 *)
Definition charged_pion_integrand (egam epi cl : FN) : FN :=
  let beta_pi := boost_beta M epi MPI in
  let gamma_pi := boost_gamma M epi MPI in
  let doppler := fma M (neg beta_pi) cl #1 in
  let eng_gam_pi_rf := (egam *. gamma_pi) *. doppler in
  let jac := #1 /. ((gamma_pi +. gamma_pi) *. fabs M doppler) in
  let weight_mu := jac *. BR_PI_TO_MU_NUMU in
  let s1 := fma M weight_mu (dnde_photon_muon ME MMU ALPHA_EM eng_gam_pi_rf ENG_MU_PIRF) #0 in
  let s2 := fma M weight_mu (dnde_pi_to_lnug eng_gam_pi_rf MMU) s1 in
  fma M (jac *. BR_PI_TO_E_NUE) (dnde_pi_to_lnug eng_gam_pi_rf ME) s2.

(** photon_pion.rs 355-374 *)
Definition dnde_photon_charged_pion (egam epi : FN) : FN :=
  if epi <. MPI then #0 else quad (charged_pion_integrand egam epi) (neg #1) #1.
End PhotonPion.

(** ** photon_rho.rs *)
Section Rho.
Variables MASS_PI MASS_PI0 MASS_RHO : FN.
(** the photon spectra of the pions, photon_pion.rs *)
Variables charged_pion neutral_pion : FN -> FN -> FN.

(** photon_rho.rs 91-105 *)
Definition ENG_PI_CHARGED_RHO : FN :=
  (MASS_RHO *. MASS_RHO +. MASS_PI *. MASS_PI -. MASS_PI0 *. MASS_PI0) /. (#2 *. MASS_RHO).
Definition ENG_PI0_CHARGED_RHO : FN :=
  (MASS_RHO *. MASS_RHO +. MASS_PI0 *. MASS_PI0 -. MASS_PI *. MASS_PI) /. (#2 *. MASS_RHO).
Definition ENG_PI_NEUTRAL_RHO : FN := MASS_RHO /. #2.

(** photon_rho.rs 133-136 and 145-149 *)
Definition neutral_rho_integrand (e : FN) : FN :=
  let dnde := charged_pion e ENG_PI_NEUTRAL_RHO in (dnde +. dnde) /. e.
Definition charged_rho_integrand (e : FN) : FN :=
  (charged_pion e ENG_PI_CHARGED_RHO +. neutral_pion e ENG_PI0_CHARGED_RHO) /. e.

(** photon_rho.rs 178-186 *)
Definition rho_boost_window (e erho : FN) : FN * FN * FN :=
  let beta := boost_beta M erho MASS_RHO in
  let gamma := boost_gamma M erho MASS_RHO in
  (gamma *. e *. (#1 -. beta), gamma *. e *. (#1 +. beta), #0.5 /. (beta *. gamma)).

(** photon_rho.rs 211-240 *)
Definition rho_boosted (e erho : FN) (integrand : FN -> FN) : FN :=
  if erho <. MASS_RHO then #0 else
  if (erho -. MASS_RHO) <. epmach M then integrand e else
  let '(emin, emax, pre) := rho_boost_window e erho in
  pre *. quad integrand emin emax.

(** photon_rho.rs 260-279 *)
Definition dnde_photon_neutral_rho (egam erho : FN) : FN := rho_boosted egam erho neutral_rho_integrand.
Definition dnde_photon_charged_rho (egam erho : FN) : FN := rho_boosted egam erho charged_rho_integrand.
End Rho.

(** ** Literals of constants.rs *)
(** constants.rs 76, 83, 92, 94 and 403; positron_pion.rs 87 *)
Definition pdg_MASS_PI : FN := #139.57039.
Definition pdg_MASS_RHO : FN := #775.26.
Definition pdg_BR_PI_TO_MU_NUMU : FN := #0.9998770.
Definition pdg_BR_PI_TO_E_NUE : FN := #0.0001230.
Definition pdg_ALPHA_EM : FN := #1 /. #137.035999084.
Definition pdg_EMAX_PI_RF : FN := #69.78613044168974.
End Pion.
