(** Model over exact real arithmetic of the spectra of boosted mediators:
    scalar_mediator_decay_spectrum.pyx, vector_mediator_decay_spectrum.pyx (photons),
    scalar_mediator_positron_spec.pyx, vector_mediator_positron_spec.pyx (positrons), and of the positron
    spectrum tables of the model classes (_scalar_mediator_positron_spectra.py,
    _vector_mediator_positron_spectra.py).

    Simplifications.  [quad] stands for scipy.integrate.quad over the given interval.  The muon and
    charged-pion spectra, which the code tabulates at 500 points and interpolates, are parameters
    ([cp], [mu]: a function of the mediator mass and of the energy).  A list of branching fractions that is
    too short would raise IndexError; here a missing entry counts as 0 and the callers always pass enough.
    Array arguments are mapped pointwise and not modelled. *)
From Coq Require Import String Reals NArith Bool List.
From Verif Require Import PyBase RustBase RustMath Area MedModel FsrModel SpecModel PionModel.
Import ListNotations.
Local Open Scope R_scope.

Definition pw (pws : list R) (i : nat) : R := nth i pws 0.
(** [m in modes] *)
Definition in_modes (m : string) (modes : list string) : bool := existsb (String.eqb m) modes.
(** [a <= x <= b] *)
Definition between (a x b : R) : bool :=
  if Rle_dec a x then if Rle_dec x b then true else false else false.

Section Decay.
Variable quad : (R -> R) -> R -> R -> R.

(** * Photons from the scalar mediator *)
Section ScalarPhotons.
Variable C : consts.
(** interp_spec_cp, lines 42-57 *)
Variable cp : R -> R -> R.
(** dnde_photon_muon_point and dnde_photon_neutral_pion_point *)
Variables photon_muon photon_pi0 : R -> R -> R.

(** scalar_mediator_decay_spectrum.pyx 16-22 *)
Definition BITFLAG_PP : N := 1.
Definition BITFLAG_MM : N := 2.
Definition BITFLAG_P0P0 : N := 4.
Definition BITFLAG_GG : N := 8.
Definition BITFLAG_EEG : N := 16.
Definition BITFLAG_PPG : N := 32.
Definition BITFLAG_MMG : N := 64.
Definition flag_set (bitflag f : N) : bool := negb (N.land bitflag f =? 0)%N.

(** scalar_mediator_decay_spectrum.pyx 123-155 *)
Definition s_integrand (eng_gam eng_s ms : R) (pws : list R) (bitflag : N) (cl : R) : R :=
  let pwee := pw pws 0 in
  let pwmumu := pw pws 1 in
  let pwpi0pi0 := pw pws 2 in
  let pwpipi := pw pws 3 in
  let beta := sqrt (1 - (ms / eng_s) ^ 2) in
  let gamma := eng_s / ms in
  let jac := 1 / (2 * gamma * Rabs (1 - beta * cl)) in
  let e := eng_gam * gamma * (1 - beta * cl) in
  let result := 0 in
  let result := if flag_set bitflag BITFLAG_EEG then result + pwee * fsr_l_srf C e (c_me C) ms else result in
  let result := if flag_set bitflag BITFLAG_PPG then result + pwpipi * fsr_cp_srf C e ms else result in
  let result := if flag_set bitflag BITFLAG_PP then result + 2 * pwpipi * cp ms e else result in
  let result := if flag_set bitflag BITFLAG_P0P0 then result + 2 * pwpi0pi0 * photon_pi0 e (ms / 2) else result in
  let result := if flag_set bitflag BITFLAG_MMG then result + pwmumu * fsr_l_srf C e (c_mmu C) ms else result in
  let result := if flag_set bitflag BITFLAG_MM then result + 2 * pwmumu * photon_muon e (ms / 2) else result in
  jac * result.

(** scalar_mediator_decay_spectrum.pyx 166-191 *)
Definition s_decay_point (eng_gam eng_s ms : R) (pws : list R) (bitflag : N) : R :=
  if Rlt_dec eng_s ms then 0 else
  let beta := sqrt (1 - (ms / eng_s) ^ 2) in
  let eplus := eng_s * (1 + beta) / 2 in
  let eminus := eng_s * (1 - beta) / 2 in
  let result := quad (s_integrand eng_gam eng_s ms pws bitflag) (- 1) 1 in
  if flag_set bitflag BITFLAG_GG && between eminus eng_gam eplus
  then result + pw pws 4 * 1 / (eng_s * beta) else result.

(** scalar_mediator_decay_spectrum.pyx 246-266 *)
Definition s_bitflag (modes : list string) : N :=
  let add (m : string) (f b : N) := if in_modes m modes then (b + f)%N else b in
  (add "mu mu g" BITFLAG_MMG (add "pi pi g" BITFLAG_PPG (add "e e g" BITFLAG_EEG (add "g g" BITFLAG_GG
    (add "pi0 pi0" BITFLAG_P0P0 (add "mu mu" BITFLAG_MM (add "pi pi" BITFLAG_PP 0%N)))))))%string.

(** scalar_mediator_decay_spectrum.pyx 220, also _scalar_mediator_spectra.py 11 *)
Definition SM_DECAY_MODES : list string :=
  ["pi pi"; "mu mu"; "pi0 pi0"; "g g"; "e e g"; "pi pi g"; "mu mu g"]%string.

(** scalar_mediator_decay_spectrum.pyx 215-272, one photon energy *)
Definition scalar_mediator_decay_spectrum (eng_gam eng_s ms : R) (pws : list R) (modes : list string) : R :=
  s_decay_point eng_gam eng_s ms pws (s_bitflag modes).
End ScalarPhotons.

(** * Photons from the vector mediator *)
Section VectorPhotons.
Variable C : consts.
(** __interp_spec(e, "cp") and __interp_spec(e, "mu"), lines 28-58 *)
Variables cp mu : R -> R -> R.
Variable photon_pi0 : R -> R -> R.

(** vector_mediator_decay_spectrum.pyx 115-179; an unknown mode falls off the end, which for a C double
    return value is 0.0 *)
Definition v_integrand (eng_gam eng_v mv : R) (pws : list R) (mode : string) (cl : R) : R :=
  let pwee := pw pws 0 in
  let pwmumu := pw pws 1 in
  let pwpi0g := pw pws 2 in
  let pwpipi := pw pws 3 in
  let beta := sqrt (1 - (mv / eng_v) ^ 2) in
  let gamma := eng_v / mv in
  let jac := 1 / (2 * gamma * Rabs (1 - beta * cl)) in
  let e := eng_gam * gamma * (1 - beta * cl) in
  let dnde_ee_f := pwee * fsr_l_vrf C e (c_me C) mv in
  let dnde_mu_f := pwmumu * fsr_l_vrf C e (c_mmu C) mv in
  let dnde_cp_f := pwpipi * fsr_cp_vrf C e mv in
  let dnde_cp_d := 2 * pwpipi * cp mv e in
  let e_pi0 := 1 / 2 * (c_mpi0 C ^ 2 + mv ^ 2) / mv in
  let dnde_np_d := pwpi0g * photon_pi0 e e_pi0 in
  let dnde_mu_d := 2 * pwmumu * mu mv e in
  let dnde := dnde_ee_f + dnde_mu_f + dnde_cp_f + dnde_cp_d + dnde_np_d + dnde_mu_d in
  if String.eqb mode "total"%string then jac * dnde else
  if String.eqb mode "e e g"%string then jac * dnde_ee_f else
  if String.eqb mode "pi pi g"%string then jac * dnde_cp_f else
  if String.eqb mode "pi pi"%string then jac * dnde_cp_d else
  if String.eqb mode "pi0 g"%string then jac * dnde_np_d else
  if String.eqb mode "mu mu g"%string then jac * dnde_mu_f else
  if String.eqb mode "mu mu"%string then jac * dnde_mu_d else 0.

(** vector_mediator_decay_spectrum.pyx 184-227 *)
Definition v_decay_photon (eng_gam eng_v mv : R) (pws : list R) (mode : string) : R :=
  let beta := sqrt (1 - (mv / eng_v) ^ 2) in
  if Rlt_dec eng_v mv then 0 else
  let eplus := eng_v * (1 + beta) / 2 in
  let eminus := eng_v * (1 - beta) / 2 in
  let lines_contrib := if between eminus eng_gam eplus then pw pws 2 / (eng_v * beta) else 0 in
  let result := quad (v_integrand eng_gam eng_v mv pws mode) (- 1) 1 in
  if String.eqb mode "pi0 g"%string || String.eqb mode "total"%string then result + lines_contrib else result.
End VectorPhotons.

(** * Positrons: the scalar and vector files are the same up to the name of the mediator *)
Section Positrons.
Variable C : consts.
Variables cp mu : R -> R -> R.

(** scalar_mediator_positron_spec.pyx 106-161, vector_mediator_positron_spec.pyx 107-162 *)
Definition p_integrand (eng_p eng_s ms : R) (pws : list R) (fs : string) (cl : R) : R :=
  let me := c_me C in
  if Rlt_dec eng_p me then 0 else
  let pwmumu := pw pws 1 in
  let pwpipi := pw pws 2 in
  let p := sqrt (eng_p * eng_p - me * me) in
  let gamma := eng_s / ms in
  let beta := sqrt (1 - (ms / eng_s) ^ 2) in
  let e := gamma * (eng_p - p * beta * cl) in
  let jac := p / (2 * sqrt ((1 + (beta * cl) ^ 2) * eng_p * eng_p
                            - (1 + beta * beta * (- 1 + cl * cl)) * me * me
                            - 2 * beta * cl * eng_p * p) * gamma) in
  if String.eqb fs "total"%string then jac * (pwpipi * cp ms e + pwmumu * mu ms e) else
  if String.eqb fs "pi pi"%string then jac * (pwpipi * cp ms e + 0) else
  if String.eqb fs "mu mu"%string then jac * (0 + pwmumu * mu ms e) else 0.

(** scalar_mediator_positron_spec.pyx 166-215, vector_mediator_positron_spec.pyx 167-216 *)
Definition decay_positron (eng_p eng_s ms : R) (pws : list R) (fs : string) : R :=
  let me := c_me C in
  let beta := sqrt (1 - (ms / eng_s) ^ 2) in
  if Rlt_dec eng_s ms then 0 else
  let r := sqrt (1 - 4 * me * me / (ms * ms)) in
  let eplus := eng_s * (1 + r * beta) / 2 in
  let eminus := eng_s * (1 - r * beta) / 2 in
  let lines_contrib := if between eminus eng_p eplus then pw pws 0 * 1 / (eng_s * beta) else 0 in
  if String.eqb fs "e e"%string then lines_contrib else
  if String.eqb fs "total"%string || String.eqb fs "pi pi"%string || String.eqb fs "mu mu"%string
  then quad (p_integrand eng_p eng_s ms pws fs) (- 1) 1 + lines_contrib
  else 0.
End Positrons.
End Decay.

(** * The tables of positron spectra *)
(** The functions of hazma.spectra that the tables choose from ([spectra.dnde_...]): positrons from charged pions and from muons,
    photons from muons *)
Record spectra_functions := MkSpectra {
  spectra_positron_charged_pion : R -> R -> R;
  spectra_positron_muon : R -> R -> R;
  spectra_photon_muon : R -> R -> R }.
Section Tables.
Variable spectra : spectra_functions.
(** dnde_decay_s / dnde_decay_v of the .pyx files with the model's branching fractions: energy of the
    positron, energy of the mediator, final state *)
Variable dnde_decay : R -> R -> string -> R.
(** [pws["total"] != 0] *)
Variable decays : bool.

(** _scalar_mediator_positron_spectra.py 7-85 *)
Definition s_dnde_pos_pipi (e cme : R) : R := spectra_positron_charged_pion spectra e (cme / 2).
Definition s_dnde_pos_mumu (e cme : R) : R := spectra_positron_muon spectra e (cme / 2).
Definition s_dnde_pos_ss (e cme : R) : R := if decays then 2 * dnde_decay e (cme / 2) "total"%string else 0.
Definition s_positron_spectrum_funcs : list (string * (R -> R -> R)) :=
  [("mu mu", s_dnde_pos_mumu); ("pi pi", s_dnde_pos_pipi); ("s s", s_dnde_pos_ss)]%string.

(** _vector_mediator_positron_spectra.py 8-35 *)
Definition v_dnde_pos_pipi (e cme : R) : R := spectra_positron_charged_pion spectra e (cme / 2).
Definition v_dnde_pos_mumu (e cme : R) : R := spectra_photon_muon spectra e (cme / 2).
Definition v_dnde_pos_vv (e cme : R) : R := if decays then 2 * dnde_decay e (cme / 2) "total"%string else 0.
Definition v_positron_spectrum_funcs : list (string * (R -> R -> R)) :=
  [("mu mu", v_dnde_pos_mumu); ("pi pi", v_dnde_pos_pipi); ("v v", v_dnde_pos_vv)]%string.
End Tables.
