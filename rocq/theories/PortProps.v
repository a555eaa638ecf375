(** Theorems C144-C147: the surviving Cython functions and tables against the Rust kernels that replace them. *)
From Coq Require Import String ZArith QArith Bool Arith Lia Floats Reals Lra Qreals List.
From Verif Require Import PyBase RustBase RustBaseFacts RustMath Area FloatMath BoostModel BoostProofs BoostTable SpecModel
  SpecProofs PionModel PionProofs PortModel PortProofs.
Import ListNotations.
Local Open Scope nat_scope.
Local Open Scope R_scope.

(** ** C144.  The Cython functions still in use and their Rust replacements compute the same real numbers *)

(** C144.  Photons from muons, for every mass, coupling and dilogarithm. *)
Theorem photon_muon_port spence me mmu alpha e emu :
  cy_photon_muon RMath spence me mmu alpha e emu = dnde_photon_muon RMath spence me mmu alpha e emu.
Proof. apply port_photon_muon. Qed.
Print Assumptions photon_muon_port.

(** C144.  Photons from charged pions, for every integrator. *)
Theorem photon_charged_pion_port spence quad me mmu mpi alpha fpi fa fv fvs emu br1 br2 e epi :
  cy_photon_charged_pion RMath spence quad me mmu mpi alpha fpi fa fv fvs emu br1 br2 e epi
  = dnde_photon_charged_pion RMath spence quad me mmu mpi alpha fpi fa fv fvs emu br1 br2 e epi.
Proof. apply port_charged_pion. Qed.
Print Assumptions photon_charged_pion_port.

(** C144.  Photons from neutral pions, for every rounding to single precision that keeps zero. *)
Theorem photon_neutral_pion_port m br f32 e epi : f32 0 = 0 ->
  cy_photon_neutral_pion RMath m br f32 e epi = dnde_photon_neutral_pion RMath m br f32 e epi.
Proof. apply port_neutral_pion. Qed.
Print Assumptions photon_neutral_pion_port.
Example ex_photon_neutral_pion_port : (fun x : R => x) 0 = 0.
Proof. reflexivity. Qed.

(** C144.  Positrons from muons. *)
Theorem positron_muon_port me mmu rf e emu :
  cy_positron_muon RMath me mmu rf e emu = dnde_positron_muon RMath me mmu rf e emu.
Proof. apply port_pos_muon. Qed.
Print Assumptions positron_muon_port.

(** C144.  Positrons from charged pions, when the Rust endpoint is the formula of the Cython module. *)
Theorem positron_charged_pion_port quad me mmu mpi rf br1 br2 e epi :
  cy_positron_charged_pion RMath quad me mmu mpi rf br1 br2 e epi
  = dnde_positron_charged_pion RMath quad me mmu mpi rf (emax_pi_rf RMath me mmu mpi) br1 br2 e epi.
Proof. apply port_pos_pion. Qed.
Print Assumptions positron_charged_pion_port.

(** C144.  That endpoint is the energy of a massive particle recoiling against a massless one, and the literal of the
    Rust kernel is within 2 10^-14 MeV of it. *)
Theorem positron_endpoint_port :
  (forall me mmu mpi : R, 0 < me < mmu -> mmu < mpi -> emax_pi_rf RMath me mmu mpi = (mpi ^ 2 + me ^ 2) / (2 * mpi))
  /\ Rabs (emax_pi_rf RMath 0.5109989461 105.6583745 139.57039 - 69.78613044168974) <= 2 / 10 ^ 14.
Proof.
  split; [exact emax_value|]. rewrite emax_value by lra. rmodel. apply Rabs_le. split; lra.
Qed.
Print Assumptions positron_endpoint_port.
Example ex_positron_endpoint : 0 < 0.5109989461 < 105.6583745 /\ 105.6583745 < 139.57039.
Proof. lra. Qed.

(** C144.  Boosted lines. *)
Theorem boost_delta_port e0 e m beta :
  cy_boost_delta_function RMath e0 e m beta = boost_delta_function RMath e0 e m beta.
Proof. apply port_delta. Qed.
Print Assumptions boost_delta_port.

(** C144.  Boost integrals of tables: for any lists of reals the two functions return the same number, or both report
    the velocity, the lengths or the empty table. *)
Theorem boost_table_port e beta (x y : list R) :
  same_outcome (cy_boost_integrate_linear_interp RMath e beta x y) (boost_integrate_linear_interp RMath e beta x y).
Proof. apply port_table. Qed.
Print Assumptions boost_table_port.
(** A table with an answer, and one without *)
Example ex_boost_table : cy_boost_integrate_linear_interp RMath 2 (3 / 5) ramp ramp
    = Ret (2 / (2 * lorentz (3 / 5) * (3 / 5)))
  /\ cy_boost_integrate_linear_interp RMath 2 (3 / 5) [] [] = Raise IndexError.
Proof.
  split.
  - pose proof (port_table 2 (3 / 5) ramp ramp) as H. rewrite ramp_run in H.
    destruct (cy_boost_integrate_linear_interp RMath 2 (3 / 5) ramp ramp) as [v|[]]; cbn in H; try contradiction.
    now subst v.
  - unfold cy_boost_integrate_linear_interp. change (mnum RMath) with RNum. change (lit RNum) with Q2R.
    rewrite Q2R_1, RMicromega.Q2R_0, (proj2 (Rflt_true 0 (3 / 5))), (proj2 (Rflt_true (3 / 5) 1)) by lra. reflexivity.
Qed.

(** C144 fails for numbers that are not real: at a NaN photon energy the Cython function raises IndexError and the Rust
    function returns NaN; with a NaN node the Cython function raises IndexError and the Rust function panics. *)
Theorem boost_table_nan_refuted :
  exists (e : float) (x1 x2 y : list float),
    match cy_boost_integrate_linear_interp FloatMath e 0.5%float x1 y,
          boost_integrate_linear_interp FloatMath e 0.5%float x1 y with
    | Raise IndexError, Ok v => is_nan (mnum FloatMath) v | _, _ => false end = true
    /\ match cy_boost_integrate_linear_interp FloatMath 3%float 0.5%float x2 y,
             boost_integrate_linear_interp FloatMath 3%float 0.5%float x2 y with
       | Raise IndexError, Panic => true | _, _ => false end = true.
Proof. exists nan, [1; 2]%float, [1; nan]%float, [1; 1]%float. split; vm_compute; reflexivity. Qed.
Print Assumptions boost_table_nan_refuted.

(** ** C145.  A physical constant has one value *)

(** C145.  Every constant of constants.pxd has the same name and value in the Rust module pdg, and the other way round. *)
Theorem pdg_constants_port : constants_pxd = constants_rs_pdg /\ length constants_pxd = 151%nat
  /\ NoDup (map fst constants_pxd).
Proof.
  split; [reflexivity|]. split; [reflexivity|].
  assert (E : nodup string_dec (map fst constants_pxd) = map fst constants_pxd) by (vm_compute; reflexivity).
  rewrite <- E. apply NoDup_nodup.
Qed.
Print Assumptions pdg_constants_port.

(** C145.  Every constant of legacy_parameters.pxd has the same value in the Rust module legacy, under its name in
    capitals. *)
Theorem legacy_constants_port :
  map (fun p => (upper (fst p), snd p)) legacy_pxd = constants_rs_legacy /\ length legacy_pxd = 48%nat.
Proof. split; reflexivity. Qed.
Print Assumptions legacy_constants_port.

(** C145.  The masses of hazma/parameters.py are those of constants.pxd. *)
Theorem masses_agree name m : In (name, m) parameters_py -> String.prefix "MASS" name = true ->
  value constants_pxd name = Some m.
Proof.
  intros H P. repeat (destruct H as [H|H]; [injection H as <- <-; first [reflexivity|discriminate P]|]). destruct H.
Qed.
Print Assumptions masses_agree.
Example ex_masses_agree : In ("MASS_PHI"%string, 1019.461%Q) parameters_py /\ String.prefix "MASS" "MASS_PHI" = true.
Proof. split; [repeat (try (left; reflexivity); right)|reflexivity]. Qed.

(** C145 is false: the fine structure constant has three values and the width of the rho two; the mediator spectra use
    other masses than the spectra of the particles the mediators decay to. *)
Theorem one_value_refuted :
  (exists a b c, value constants_pxd "ALPHA_EM" = Some a /\ value legacy_pxd "ALPHA_EM" = Some b
    /\ value parameters_py "ALPHA_EM" = Some c /\ (c < a)%Q /\ (a < b)%Q)
  /\ (exists a b, value constants_pxd "WIDTH_RHO" = Some a /\ value parameters_py "WIDTH_RHO" = Some b /\ (b < a)%Q)
  /\ (exists a b, value constants_pxd "MASS_PI" = Some a /\ value legacy_pxd "MASS_PI" = Some b /\ (b < a)%Q).
Proof.
  split; [|split].
  - do 3 eexists. repeat split; vm_compute; reflexivity.
  - do 2 eexists. repeat split; vm_compute; reflexivity.
  - do 2 eexists. repeat split; vm_compute; reflexivity.
Qed.
Print Assumptions one_value_refuted.

(** C145.  Branching ratios of one parent add up to at most 1 in the legacy table, for each of its parents. *)
Theorem legacy_branching_totals parent :
  In parent ["PI0"; "PI"; "KS"; "KL"; "K"; "ETA"; "ETAP"; "OMEGA"]%string ->
  (0 < branching_total legacy_pxd parent <= 1)%Q.
Proof.
  intro H. repeat (destruct H as [<-|H]; [split; vm_compute; [reflexivity|discriminate]|]). destruct H.
Qed.
Print Assumptions legacy_branching_totals.
Example ex_legacy_branching : (branching_total legacy_pxd "KS" == 0.9989)%Q.
Proof. vm_compute. reflexivity. Qed.

(** C145 is false of the other table: those of the rho meson add up to 1.0098 and those of the eta' to 1.0058; no parent
    exceeds 1.01. *)
Theorem branching_totals_refuted :
  (branching_total constants_pxd "RHO" == 1.0097874)%Q /\ (branching_total constants_pxd "ETAP" == 1.005788)%Q
  /\ (forall parent, In parent ["PI"; "PI0"; "ETA"; "RHO"; "KL"; "KS"; "K0"; "K0STAR"; "K"; "KSTAR"; "ETAP"; "OMEGA"; "PHI"]%string ->
      (0 < branching_total constants_pxd parent <= 1.01)%Q).
Proof.
  split; [vm_compute; reflexivity|]. split; [vm_compute; reflexivity|]. intros parent H.
  repeat (destruct H as [<-|H]; [split; vm_compute; [reflexivity|discriminate]|]). destruct H.
Qed.
Print Assumptions branching_totals_refuted.

(** ** C146.  The kinematic numbers typed into the charged pion photon spectrum *)

(** C146.  They are the same in both languages, and those of the legacy masses to 10^-14. *)
Theorem pion_literals_legacy :
  photon_pion_pyx = photon_pion_rs
  /\ exists me mmu mpi emax emaxpi emu beta gamma,
     value legacy_pxd "MASS_E" = Some me /\ value legacy_pxd "MASS_MU" = Some mmu /\ value legacy_pxd "MASS_PI" = Some mpi
     /\ value photon_pion_pyx "ENG_GAM_MAX_MURF" = Some emax /\ value photon_pion_pyx "ENG_GAM_MAX_PIRG" = Some emaxpi
     /\ value photon_pion_pyx "ENG_MU_PIRF" = Some emu
     /\ value photon_pion_pyx "BETA_MU_PIRF" = Some beta /\ value photon_pion_pyx "GAMMA_MU_PIRF" = Some gamma
     /\ near emu ((mpi * mpi + mmu * mmu) / (2 * mpi)) 1e-14 = true
     /\ near gamma (emu / mmu) 1e-14 = true
     /\ near (gamma * gamma * (1 - beta * beta)) 1 1e-14 = true
     /\ near emax ((mmu * mmu - me * me) / (2 * mmu)) 1e-14 = true
     /\ near emaxpi (emax * gamma * (1 + beta)) 1e-14 = true.
Proof.
  split; [reflexivity|]. do 8 eexists. repeat split; vm_compute; reflexivity.
Qed.
Print Assumptions pion_literals_legacy.

(** C146 is false for the masses the spectrum itself uses: the muon energy is 4.7 10^-5 MeV below the one of those
    masses. *)
Theorem pion_literals_refuted :
  exists mmu mpi emu, value constants_pxd "MASS_MU" = Some mmu /\ value constants_pxd "MASS_PI" = Some mpi
    /\ value photon_pion_pyx "ENG_MU_PIRF" = Some emu
    /\ (emu + 4.7e-5 < (mpi * mpi + mmu * mmu) / (2 * mpi))%Q.
Proof. do 3 eexists. repeat split; vm_compute; reflexivity. Qed.
Print Assumptions pion_literals_refuted.

(** C146.  Above [eng_gam_max] the muons of a moving pion radiate nothing, in any direction. *)
Theorem eng_gam_max_muons spence alpha e epi cl : 139.57039 < epi -> -1 <= cl <= 1 -> pyx_gam_max epi < e ->
  cy_photon_muon RMath spence 0.5109989461 105.6583745 alpha
    (e * (epi / 139.57039) * (1 - velo epi 139.57039 * cl)) 109.77820123634007 = 0.
Proof. apply gam_max_muon. Qed.
Print Assumptions eng_gam_max_muons.
Example ex_eng_gam_max : 139.57039 < 200 /\ -1 <= 1 <= 1 /\ exists e, pyx_gam_max 200 < e.
Proof. split; [lra|]. split; [lra|]. exists (pyx_gam_max 200 + 1). lra. Qed.

(** C146 is false for the pion: [eng_gam_max] of a pion at rest is below the largest photon energy in pi -> e nu gamma. *)
Theorem eng_gam_max_refuted :
  pyx_gam_max 139.57039 + 8 / 10 ^ 4 < (139.57039 ^ 2 - 0.5109989461 ^ 2) / (2 * 139.57039).
Proof.
  unfold pyx_gam_max, eng_gam_max. rewrite port_beta, beta_velo. unfold cy_boost_gamma, velo. rmodel.
  replace (139.57039 / 139.57039) with 1 by lra. replace (1 - 1 ^ 2) with 0 by ring. rewrite sqrt_0. lra.
Qed.
Print Assumptions eng_gam_max_refuted.

(** ** C147.  boost_eng and boost_jac *)

(** C147.  [boost_eng] is the invariant product of the two momenta over the mass of the parent, for a parent moving
    along the negative z-axis. *)
Theorem boost_eng_invariant ep mp ed md z : 0 < mp < ep -> 0 <= md < ed ->
  boost_eng RMath ep mp ed md z = (ep * ed - (- momentum ep mp) * (momentum ed md * z)) / mp.
Proof. intros Hp Hd. rewrite eng_invariant by assumption. f_equal. rmodel. ring. Qed.
Print Assumptions boost_eng_invariant.
Example ex_boost_eng : 0 < 4 < 5 /\ 0 <= 0 < 3.
Proof. lra. Qed.

(** C147.  For massless daughters [boost_jac] is the determinant of the derivatives of the energy and cosine after the
    boost. *)
Theorem boost_jac_massless ep mp ed z Ee Ez Ce Cz : 0 < mp < ep -> 0 < ed -> 0 < rest_energy (velo ep mp) 0 ed z ->
  derivable_pt_lim (fun t => rest_energy (velo ep mp) 0 t z) ed Ee ->
  derivable_pt_lim (fun t => rest_energy (velo ep mp) 0 ed t) z Ez ->
  derivable_pt_lim (fun t => rest_cos (velo ep mp) 0 t z) ed Ce ->
  derivable_pt_lim (fun t => rest_cos (velo ep mp) 0 ed t) z Cz ->
  boost_jac RMath ep mp ed 0 z = Ee * Cz - Ez * Ce.
Proof.
  intros Hp Hd HE D1 D2 D3 D4. destruct (velo_facts ep mp Hp) as (B & _).
  rewrite (jacobian_value (velo ep mp) 0 ed z B ltac:(lra) HE Ee Ez Ce Cz D1 D2 D3 D4), jac_rest by lra.
  rewrite (momentum_massless (rest_energy _ _ _ _)) by lra. reflexivity.
Qed.
Print Assumptions boost_jac_massless.
(** The hypotheses hold for a photon of energy 3 along the axis in the decay of a particle of mass 4 and energy 5. *)
Example ex_boost_jac : 0 < 4 < 5 /\ 0 < rest_energy (velo 5 4) 0 3 1 /\ exists Ee Ez Ce Cz,
  derivable_pt_lim (fun t => rest_energy (velo 5 4) 0 t 1) 3 Ee /\ derivable_pt_lim (fun t => rest_energy (velo 5 4) 0 3 t) 1 Ez
  /\ derivable_pt_lim (fun t => rest_cos (velo 5 4) 0 t 1) 3 Ce /\ derivable_pt_lim (fun t => rest_cos (velo 5 4) 0 3 t) 1 Cz.
Proof.
  destruct (velo_facts 5 4 ltac:(lra)) as (B & _ & L). split; [lra|].
  assert (K : momentum 3 0 = 3) by (apply momentum_massless; lra).
  assert (P : 0 < rest_energy (velo 5 4) 0 3 1).
  { unfold rest_energy. rewrite L, K. apply Rmult_lt_0_compat; lra. }
  split; [exact P|]. do 4 eexists. split; [apply d_E_e; lra|]. split; [apply d_E_z; lra|].
  split; [apply d_c_e; [lra|exact P]|apply d_c_z; [lra|exact P]].
Qed.

(** C147, partial: for massive daughters [boost_jac] is that determinant times the velocity after the boost; missing: it
    should be the determinant. *)
Theorem boost_jac_partial ep mp ed md z Ee Ez Ce Cz : 0 < mp < ep -> 0 <= md < ed -> md < rest_energy (velo ep mp) md ed z ->
  derivable_pt_lim (fun t => rest_energy (velo ep mp) md t z) ed Ee ->
  derivable_pt_lim (fun t => rest_energy (velo ep mp) md ed t) z Ez ->
  derivable_pt_lim (fun t => rest_cos (velo ep mp) md t z) ed Ce ->
  derivable_pt_lim (fun t => rest_cos (velo ep mp) md ed t) z Cz ->
  let E := rest_energy (velo ep mp) md ed z in
  boost_jac RMath ep mp ed md z = (Ee * Cz - Ez * Ce) * (momentum E md / E).
Proof.
  intros Hp Hd HE D1 D2 D3 D4 E. destruct (velo_facts ep mp Hp) as (B & _).
  rewrite (jacobian_value (velo ep mp) md ed z B Hd HE Ee Ez Ce Cz D1 D2 D3 D4), jac_rest by lra. fold E. rmodel.
  assert (0 < momentum E md) by (apply momentum_pos; unfold E; lra). assert (E <> 0) by (unfold E; lra). field. lra.
Qed.
Print Assumptions boost_jac_partial.

(** C147 is false: a daughter of mass 4 and energy 5 along the axis, parent of mass 4 and energy 5.  The determinant is
    2/5 and the function returns 6/17. *)
Theorem boost_jac_refuted : exists Ee Ez Ce Cz,
  derivable_pt_lim (fun t => rest_energy (velo 5 4) 4 t 1) 5 Ee /\ derivable_pt_lim (fun t => rest_energy (velo 5 4) 4 5 t) 1 Ez
  /\ derivable_pt_lim (fun t => rest_cos (velo 5 4) 4 t 1) 5 Ce /\ derivable_pt_lim (fun t => rest_cos (velo 5 4) 4 5 t) 1 Cz
  /\ Ee * Cz - Ez * Ce = 2 / 5 /\ boost_jac RMath 5 4 5 4 1 = 6 / 17.
Proof.
  destruct (velo_facts 5 4 ltac:(lra)) as (B & _ & L).
  assert (K : momentum 5 4 = 3).
  { unfold momentum. replace (5 * 5 - 4 * 4) with (3 * 3) by ring. apply sqrt_square. lra. }
  assert (W : velo 5 4 = 3 / 5).
  { unfold velo. replace (1 - (4 / 5) ^ 2) with ((3 / 5) * (3 / 5)) by field. apply sqrt_square. lra. }
  assert (E : rest_energy (velo 5 4) 4 5 1 = 17 / 2).
  { unfold rest_energy. rewrite L, K, W. lra. }
  assert (P : 4 < rest_energy (velo 5 4) 4 5 1) by lra.
  pose proof (d_E_e (velo 5 4) 4 5 1 ltac:(lra)) as D1. pose proof (d_E_z (velo 5 4) 4 5 1) as D2.
  pose proof (d_c_e (velo 5 4) 4 5 1 ltac:(lra) P) as D3. pose proof (d_c_z (velo 5 4) 4 5 1 ltac:(lra) P) as D4.
  do 4 eexists. split; [exact D1|]. split; [exact D2|]. split; [exact D3|]. split; [exact D4|]. split.
  - rewrite (jacobian_value (velo 5 4) 4 5 1 B ltac:(lra) P _ _ _ _ D1 D2 D3 D4), E, K.
    replace (momentum (17 / 2) 4) with (15 / 2); [lra|]. symmetry. unfold momentum.
    replace (17 / 2 * (17 / 2) - 4 * 4) with (15 / 2 * (15 / 2)) by field. apply sqrt_square. lra.
  - rewrite jac_rest by lra. rewrite E, K. rmodel. lra.
Qed.
Print Assumptions boost_jac_refuted.
