(** Model of the photon, positron and neutrino spectra of the GeV vector mediator
    (hazma/vector_mediator/_gev/spectra.py, positron.py, neutrino.py), of the dictionaries that hold them and
    of the neutrino spectra of the model class (model.py 960-1080).

    A spectrum is modelled at one product energy [e]; the code is pointwise in its array of energies, except
    where the decay of the two mediators is boosted.  Parameters of the model: the spectra [dec] of the
    decaying parents, the radiation functions, the boosts, the energy and invariant-mass distributions of the
    form-factor classes, and the masses.  Real numbers instead of floats. *)
From Coq Require Import String Reals Bool NArith List.
From Verif Require Import PyBase GevModel.
Import ListNotations.
Local Open Scope R_scope.

(** The parents whose decay spectra hazma.spectra has and these modules use *)
Inductive parent : Type := Muon | PiC | Pi0 | KC | KL | KS | Eta | EtaP | Omega | Phi.

Inductive flavour : Type := NuE | NuMu | NuTau.
Inductive messenger : Type := Photon | Positron | Neutrino (f : flavour).

(** parameters.py: the masses *)
Record masses : Type := MkMasses {
  m_e : R; m_mu : R; m_pi : R; m_pi0 : R; m_k : R; m_k0 : R; m_eta : R; m_etap : R; m_omega : R; m_phi : R }.

(** PhaseSpaceDistribution1D: bin centers and probabilities *)
Definition dist1 : Type := list (R * R).

(** np.trapezoid(ys, x=xs) for a list of points *)
Fixpoint trapz (l : list (R * R)) : R :=
  match l with
  | (x0, y0) :: (((x1, y1) :: _) as r) => (x1 - x0) * (y0 + y1) / 2 + trapz r
  | _ => 0
  end.

Section Spectra.
Variable M : masses.
(** [dec m p e ep]: the spectrum of messenger [m] at energy [e] from parent [p] of energy [ep] *)
Variable dec : messenger -> parent -> R -> R -> R.
(** dnde_photon_ap_fermion and dnde_photon_ap_scalar: energy, squared invariant mass, mass *)
Variable ap_fermion ap_scalar : R -> R -> R -> R.
(** boost_delta_function(e, e0, 0, beta) and double_boost_delta_function(e, e0, 0, beta1, beta2) *)
Variable bdelta : R -> R -> R -> R.
Variable bdelta2 : R -> R -> R -> R -> R.
(** energy_distributions of the form factor, in the order of its fsp_masses, and
    invariant_mass_distributions of a pair *)
Variable edists : chan -> R -> list dist1.
Variable idist : chan -> R -> nat * nat -> dist1.

(** What a slot of [dnde_decays] is: a spectrum of hazma.spectra, or the zero function *)
Definition slot : Type := option parent.
Definition run_slot (m : messenger) (s : slot) (e ep : R) : R :=
  match s with Some p => dec m p e ep | None => 0 end.

(** spectra.py 74-88, positron.py 67-81, neutrino.py 73-88: [_make_spectrum_n_body_decay] *)
Definition n_body (m : messenger) (e : R) (dists : list dist1) (slots : list slot) : R :=
  fold_left (fun acc ds =>
               acc + trapz (map (fun xp => (fst xp, snd xp * run_slot m (snd ds) e (fst xp))) (fst ds)))
            (combine dists slots) 0.

(** spectra.py 91-96, positron.py 84-89, neutrino.py 91-99 *)
Definition two_body (m : messenger) (e cme m1 m2 : R) (s1 s2 : slot) : R :=
  if Rlt_dec cme (m1 + m2) then 0
  else
    let e1 := (cme ^ 2 + m1 ^ 2 - m2 ^ 2) / (2 * cme) in
    let e2 := (cme ^ 2 - m1 ^ 2 + m2 ^ 2) / (2 * cme) in
    run_slot m s1 e e1 + run_slot m s2 e e2.

(** spectra.py 235-239, positron.py 238-242, neutrino.py 270-274 *)
Definition m_gamma (m : messenger) (e cme mass : R) (s : slot) : R :=
  if Rlt_dec cme mass then 0 else run_slot m s e ((cme ^ 2 + mass ^ 2) / (2 * cme)).

(** spectra.py 285-291, positron.py 296-302, neutrino.py 335-347 *)
Definition m_phi_state (m : messenger) (e cme mass : R) (s : slot) : R :=
  if Rlt_dec cme (mass + m_phi M) then 0 else two_body m e cme mass (m_phi M) s (Some Phi).

(** The guards at the head of the functions, the same in the three modules: spectra.py 119, 142, 172, 197, 220,
    354, 383, 439, 486, 519, 552, 576, 600, 622, 644, 674, 717 and the like lines of positron.py and
    neutrino.py.  The channels with a photon or a phi have their guard in [m_gamma] and [m_phi_state]. *)
Definition open_at (c : chan) : R :=
  match c with
  | EE => 2 * m_e M
  | MuMu => 2 * m_mu M
  | PiPi => 2 * m_pi M
  | K0K0 => 2 * m_k0 M
  | KK => 2 * m_k M
  | EtaOmega => m_eta M + m_omega M
  | Pi0Pi0A => m_pi0 M + m_omega M
  | PiPiPi0 => 2 * m_pi M + m_pi0 M
  | PiPiEta => 2 * m_pi M + m_eta M
  | PiPiEtap => 2 * m_pi M + m_etap M
  | PiPiOmega => 2 * m_pi M + m_omega M
  | Pi0Pi0Omega => 2 * m_pi0 M + m_omega M
  | Pi0K0K0 => m_pi0 M + 2 * m_k0 M
  | Pi0KK => m_pi0 M + 2 * m_k M
  | PiKK0 => m_pi M + m_k M + m_k0 M
  | PiPiPiPi => 4 * m_pi M
  | PiPiPi0Pi0 => 2 * m_pi M + 2 * m_pi0 M
  | _ => 0
  end.

Definition guarded (c : chan) (cme v : R) : R := if Rlt_dec cme (open_at c) then 0 else v.

(** The radiation of a pair: trapezoid of the pair's invariant-mass distribution with twice the scalar
    function (spectra.py 457-464, 702-709, 743-751) *)
Definition pair_radiation (c : chan) (e cme : R) (pr : nat * nat) : R :=
  trapz (map (fun xp => (fst xp, snd xp * (2 * ap_scalar e (fst xp ^ 2) (m_pi M)))) (idist c cme pr)).

(** The [dnde_decays] of the photon functions: spectra.py 445-449, 491-495, 524-528, 557-561, 581-585,
    605-609, 627-631, 649-653, 679-684, 722-727 *)
Definition photon_slots (c : chan) : list slot :=
  match c with
  | PiPiPi0 => [Some PiC; Some PiC; Some Pi0]
  | PiPiEta => [Some PiC; Some PiC; Some Eta]
  | PiPiEtap => [Some PiC; Some PiC; Some EtaP]
  | PiPiOmega => [Some PiC; Some PiC; Some Omega]
  | Pi0Pi0Omega => [Some Pi0; Some Pi0; Some Omega]
  | Pi0K0K0 => [Some Pi0; Some KL; Some KS]
  | Pi0KK => [Some Pi0; Some KC; Some KC]
  | PiKK0 => [Some Pi0; Some KC; Some KC]
  | PiPiPiPi => [Some KC; Some KC; Some PiC; Some PiC]
  | PiPiPi0Pi0 => [Some PiC; Some PiC; Some Pi0; Some Pi0]
  | _ => []
  end.

(** positron.py 440-444, 482-486, 524-528, 566-570, 608-612, 651-655, 695-699, 739-743, 788-793, 833-838 *)
Definition positron_slots (c : chan) : list slot :=
  match c with
  | PiPiPi0 => [Some PiC; Some PiC; None]
  | PiPiEta => [Some PiC; Some PiC; Some Eta]
  | PiPiEtap => [Some PiC; Some PiC; Some EtaP]
  | PiPiOmega => [Some PiC; Some PiC; Some Omega]
  | Pi0Pi0Omega => [None; None; Some Omega]
  | Pi0K0K0 => [None; Some KL; Some KS]
  | Pi0KK => [None; Some KC; Some KC]
  | PiKK0 => [None; Some KC; Some KC]
  | PiPiPiPi => [Some KC; Some KC; Some PiC; Some PiC]
  | PiPiPi0Pi0 => [Some KC; Some KC; None; None]
  | _ => []
  end.

(** neutrino.py 511-515, 558-562, 603-607, 648-652, 693-697, 739-743, 786-790, 833-837, 885-890, 933-938 *)
Definition neutrino_slots (c : chan) : list slot :=
  match c with
  | PiPiPi0 => [Some PiC; Some PiC; None]
  | PiPiEta => [Some PiC; Some PiC; Some Eta]
  | PiPiEtap => [Some PiC; Some PiC; Some EtaP]
  | PiPiOmega => [Some PiC; Some PiC; Some Omega]
  | Pi0Pi0Omega => [None; None; Some Omega]
  | Pi0K0K0 => [None; Some KL; Some KS]
  | Pi0KK => [None; Some KC; Some KC]
  | PiKK0 => [None; Some KC; Some KC]
  | PiPiPiPi => [Some KC; Some KC; Some PiC; Some PiC]
  | PiPiPi0Pi0 => [Some KC; Some KC; None; None]
  | _ => []
  end.

(** The pairs the photon functions radiate from, with the weight in front of the trapezoid:
    spectra.py 457-464, 694-709, 743-751 *)
Definition radiating_pairs (c : chan) : list (R * (nat * nat)) :=
  match c with
  | PiPiPi0 => [(1, (0%nat, 1%nat))]
  | PiPiPiPi => [(1 / 2, (0%nat, 1%nat)); (1 / 2, (1%nat, 2%nat)); (1 / 2, (2%nat, 3%nat))]
  | PiPiPi0Pi0 => [(1, (0%nat, 1%nat))]
  | _ => []
  end.

Definition n_body_photon (c : chan) (e cme : R) : R :=
  guarded c cme
    (fold_left (fun acc wp => acc + fst wp * pair_radiation c e cme (snd wp)) (radiating_pairs c)
       (n_body Photon e (edists c cme) (photon_slots c))).

(** spectra.py 368-419: the final state of V -> pi0 omega, omega -> pi0 gamma *)
Definition photon_pi0_pi0_gamma (e cme : R) : R :=
  guarded Pi0Pi0A cme
    (let epi1 := (cme ^ 2 + m_pi0 M ^ 2 - m_omega M ^ 2) / (2 * cme) in
     let eomega := (cme ^ 2 - m_pi0 M ^ 2 + m_omega M ^ 2) / (2 * cme) in
     let br := 834 / 10000 in
     let gamma2 := eomega / m_omega M in
     let beta2 := sqrt (1 - / gamma2 ^ 2) in
     let gamma1 := (m_omega M ^ 2 + m_pi0 M ^ 2) / (2 * m_omega M * m_pi0 M) in
     let beta1 := sqrt (1 - / gamma1 ^ 2) in
     dec Photon Pi0 e epi1
     + br * bdelta e ((m_omega M ^ 2 - m_pi0 M ^ 2) / (2 * m_omega M)) beta2
     + 2 * br * (98823 / 100000) * bdelta2 e (m_pi0 M / 2) beta1 beta2).

(** spectra.py 104-753: the photon functions of the channels.  The neutrino channels are zero (874-876); "x x"
    and "pi0 pi0", which have no entry in the dictionary, are given as zero. *)
Definition photon_spectrum (c : chan) (e cme : R) : R :=
  match c with
  | EE => guarded EE cme (2 * ap_fermion e (cme ^ 2) (m_e M))
  | MuMu => guarded MuMu cme (2 * ap_fermion e (cme ^ 2) (m_mu M) + 2 * dec Photon Muon e (cme / 2))
  | PiPi => guarded PiPi cme (2 * ap_scalar e (cme ^ 2) (m_pi M) + 2 * dec Photon PiC e (cme / 2))
  | K0K0 => guarded K0K0 cme (dec Photon KL e (cme / 2) + dec Photon KS e (cme / 2))
  | KK => guarded KK cme (2 * ap_scalar e (cme ^ 2) (m_k M) + 2 * dec Photon KC e (cme / 2))
  | Pi0A => m_gamma Photon e cme (m_pi0 M) (Some Pi0)
  | EtaA => m_gamma Photon e cme (m_eta M) (Some Eta)
  | Pi0Phi => m_phi_state Photon e cme (m_pi0 M) (Some Pi0)
  | EtaPhi => m_phi_state Photon e cme (m_eta M) (Some Eta)
  | EtaOmega => guarded EtaOmega cme (two_body Photon e cme (m_eta M) (m_omega M) (Some Eta) (Some Omega))
  | Pi0Pi0A => photon_pi0_pi0_gamma e cme
  | PiPiPi0 | PiPiEta | PiPiEtap | PiPiOmega | Pi0Pi0Omega | Pi0K0K0 | Pi0KK | PiKK0 | PiPiPiPi
  | PiPiPi0Pi0 => n_body_photon c e cme
  | VeVe | VmVm | VtVt | XX | Pi0Pi0 => 0
  end.

(** positron.py 101-848 *)
Definition positron_spectrum (c : chan) (e cme : R) : R :=
  let m := Positron in
  match c with
  | EE => 0
  | MuMu => guarded MuMu cme (2 * dec m Muon e (cme / 2))
  | PiPi => guarded PiPi cme (2 * dec m PiC e (cme / 2))
  | K0K0 => guarded K0K0 cme (dec m KL e (cme / 2) + dec m KS e (cme / 2))
  | KK => guarded KK cme (dec m KC e (cme / 2))
  | Pi0A => 0
  | EtaA => m_gamma m e cme (m_eta M) (Some Eta)
  | Pi0Phi => m_phi_state m e cme (m_pi0 M) None
  | EtaPhi => m_phi_state m e cme (m_eta M) (Some Eta)
  | EtaOmega => guarded EtaOmega cme (two_body m e cme (m_eta M) (m_omega M) (Some Eta) (Some Omega))
  | Pi0Pi0A => 0
  | PiPiPi0 | PiPiEta | PiPiEtap | PiPiOmega | Pi0Pi0Omega | Pi0K0K0 | Pi0KK | PiKK0 | PiPiPiPi
  | PiPiPi0Pi0 => guarded c cme (n_body m e (edists c cme) (positron_slots c))
  | VeVe | VmVm | VtVt | XX | Pi0Pi0 => 0
  end.

(** neutrino.py 112-948 *)
Definition neutrino_spectrum (f : flavour) (c : chan) (e cme : R) : R :=
  let m := Neutrino f in
  match c with
  | EE => 0
  | MuMu => guarded MuMu cme (2 * dec m Muon e (cme / 2))
  | PiPi => guarded PiPi cme (2 * dec m PiC e (cme / 2))
  | K0K0 => guarded K0K0 cme (dec m KL e (cme / 2) + dec m KS e (cme / 2))
  | KK => guarded KK cme (dec m KC e (cme / 2))
  | Pi0A => 0
  | EtaA => m_gamma m e cme (m_eta M) (Some Eta)
  | Pi0Phi => m_phi_state m e cme (m_pi0 M) None
  | EtaPhi => m_phi_state m e cme (m_eta M) (Some Eta)
  | EtaOmega => guarded EtaOmega cme (two_body m e cme (m_eta M) (m_omega M) (Some Eta) (Some Omega))
  | Pi0Pi0A => 0
  | PiPiPi0 | PiPiEta | PiPiEtap | PiPiOmega | Pi0Pi0Omega | Pi0K0K0 | Pi0KK | PiKK0 | PiPiPiPi
  | PiPiPi0Pi0 => guarded c cme (n_body m e (edists c cme) (neutrino_slots c))
  | VeVe | VmVm | VtVt | XX | Pi0Pi0 => 0
  end.

Definition spectrum_of (m : messenger) (c : chan) (e cme : R) : R :=
  match m with
  | Photon => photon_spectrum c e cme
  | Positron => positron_spectrum c e cme
  | Neutrino f => neutrino_spectrum f c e cme
  end.

(** * Two mediators *)

(** The channels summed in [_dnde_photon_v_v_rest_frame] (spectra.py 793-815) and in the functions [dnde] of
    positron.py 886-906 and neutrino.py 989-1009 *)
Definition vv_channels : list chan :=
  [EE; MuMu; PiPi; K0K0; KK; Pi0A; EtaA; Pi0Phi; EtaPhi; EtaOmega; Pi0Pi0A; PiPiPi0; PiPiEta; PiPiEtap;
   PiPiOmega; Pi0Pi0Omega; Pi0K0K0; Pi0KK; PiKK0; PiPiPiPi; PiPiPi0Pi0].

(** spectra.py 756-815; [pw] is the dictionary of partial widths, read at the names of the channels.  The
    dictionary has every name, so a missing one is given as zero. *)
Definition vv_rest_frame (mv : R) (pw : dict R) (e : R) : R :=
  if Rlt_dec mv (2 * m_e M) then 0
  else
    let tot := fold_left Rplus (dvals pw) 0 in
    2 * fold_left Rplus
          (map (fun c => match dget pw (cname c) with Some w => w / tot | None => 0 end
                         * photon_spectrum c e mv) vv_channels) 0.

(** [bst f beta e]: dnde_boost_array or the function made by make_boost_function, at one energy *)
Variable bst : (R -> R) -> R -> R -> R.

(** spectra.py 818-844 *)
Definition photon_vv (mv : R) (pw : dict R) (e cme : R) : R :=
  let gamma := 1 / 2 * cme / mv in
  if Rlt_dec gamma 1 then 0
  else
    let beta := sqrt (1 - / gamma ^ 2) in
    let e0pi := 1 / 2 * (mv - m_pi M ^ 2 / mv) in
    let e0eta := 1 / 2 * (mv - m_eta M ^ 2 / mv) in
    bst (vv_rest_frame mv pw) beta e + 2 * bdelta e e0pi beta + 2 * bdelta e e0eta beta.

(** positron.py 851-912, neutrino.py 951-1014; the sum has neither branching fractions nor a factor for two
    mediators, and takes the energy of the pair for that of the decaying mediator *)
Definition lepton_vv (m : messenger) (mv : R) (e cme : R) : R :=
  let gamma := 2 * mv / cme in
  if Rlt_dec gamma 1 then 0
  else
    let beta := sqrt (1 - / gamma ^ 2) in
    bst (fun es => fold_left (fun acc c => acc + spectrum_of m c es cme) vv_channels 0) beta e.

End Spectra.

(** * Dictionaries *)

(** cross_sections.py 520-546: annihilation_cross_section_funcs *)
Definition cross_section_keys : list string :=
  ["e e"; "mu mu"; "ve ve"; "vt vt"; "vm vm"; "pi pi"; "k0 k0"; "k k"; "pi0 gamma"; "eta gamma"; "pi0 phi";
   "eta phi"; "eta omega"; "pi0 pi0 gamma"; "pi pi pi0"; "pi pi eta"; "pi pi etap"; "pi pi omega";
   "pi0 pi0 omega"; "pi0 k0 k0"; "pi0 k k"; "pi k k0"; "pi pi pi pi"; "pi pi pi0 pi0"; "v v"]%string.

(** spectra.py 871-897: dnde_photon_spectrum_fns *)
Definition photon_keys : list string :=
  ["e e"; "mu mu"; "ve ve"; "vt vt"; "vm vm"; "pi pi"; "k0 k0"; "k k"; "pi0 gamma"; "eta gamma"; "pi0 phi";
   "eta phi"; "eta omega"; "pi0 pi0 gamma"; "pi pi pi0"; "pi pi eta"; "pi pi etap"; "pi pi omega";
   "pi0 pi0 omega"; "pi0 k0 k0"; "pi0 k k"; "pi k k0"; "pi pi pi pi"; "pi pi pi0 pi0"; "v v"]%string.

(** positron.py 967-993: dnde_positron_spectrum_fns *)
Definition positron_keys : list string :=
  ["e e"; "mu mu"; "ve ve"; "vt vt"; "vm vm"; "pi pi"; "k0 k0"; "k k"; "pi0 gamma"; "eta gamma"; "pi0 phi";
   "eta phi"; "eta omega"; "pi0 pi0 gamma"; "pi pi pi0"; "pi pi eta"; "pi pi etap"; "pi pi omega";
   "pi0 pi0 omega"; "pi0 k0 k0"; "pi0 k k"; "pi k k0"; "pi pi pi pi"; "pi pi pi0 pi0"; "v v"]%string.

(** neutrino.py 1069-1095: dnde_neutrino_spectrum_fns *)
Definition neutrino_keys : list string :=
  ["e e"; "mu mu"; "ve ve"; "vt vt"; "vm vm"; "pi pi"; "k0 k0"; "k k"; "pi0 gamma"; "eta gamma"; "pi0 phi";
   "eta phi"; "eta omega"; "pi0 pi0 gamma"; "pi pi pi0"; "pi pi eta"; "pi pi etap"; "pi pi omega";
   "pi0 pi0 omega"; "pi0 k0 k0"; "pi0 k k"; "pi k k0"; "pi pi pi pi"; "pi pi pi0 pi0"; "v v"]%string.

(** model.py 965-980: the monochromatic lines *)
Definition gamma_ray_line_energies (M : masses) (e_cm : R) : dict R :=
  [("pi0 gamma", 1 / 2 * (e_cm - m_pi0 M * (m_pi0 M / e_cm)));
   ("eta gamma", 1 / 2 * (e_cm - m_eta M * (m_eta M / e_cm)))]%string.
Definition positron_line_energies (e_cm : R) : dict R := [("e e", e_cm / 2)]%string.

(** model.py 985-992 *)
Definition neutrino_line_energies (e_cm : R) (flavor : string) : res (dict R) :=
  if String.eqb flavor "e" then Ret [("ve ve", e_cm / 2)]%string
  else if String.eqb flavor "mu" then Ret [("vm vm", e_cm / 2)]%string
  else if String.eqb flavor "tau" then Ret [("vt vt", e_cm / 2)]%string
  else Raise ValueError.

(** * Neutrino spectra of the model class *)

(** model.py 994-1008: neutrino_lines; [bfs] is annihilation_branching_fractions *)
Definition neutrino_lines (bfs : dict R) (e_cm : R) (flavor : string) : res (dict (R * R)) :=
  let* d := neutrino_line_energies e_cm flavor in
  dmapM (fun fs e => let* b := dindex bfs fs in Ret (e, b)) d.

(** model.py 1010-1026: neutrino_spectrum_funcs, applied to one energy; [sig] maps the name of a final state
    to its cross section, [fns] to its spectrum *)
Definition wrapped_spectrum (sig fns : string -> R) (fs : string) : R :=
  if Rlt_dec 0 (sig fs) then fns fs else 0.

(** model.py 1028-1059: neutrino_spectra; the keys are those of the cross sections *)
Definition neutrino_spectra (keys : list string) (bfs : dict R) (sig fns : string -> R) : res (dict R) :=
  let* d := dmapM (fun fs _ => let* b := dindex bfs fs in Ret (b * wrapped_spectrum sig fns fs))
              (map (fun k => (k, tt)) keys) in
  Ret (dset d "total" (fold_left Rplus (dvals d) 0)).

(** What a Python call gives back: a number (or array) or a dictionary of them *)
Inductive pyval : Type := PNum (x : R) | PDict (d : dict R).

(** model.py 1061-1080: total_neutrino_spectrum returns the dictionary in both branches *)
Definition total_neutrino_spectrum (keys : list string) (bfs : dict R) (sig fns : string -> R) : res pyval :=
  let* d := neutrino_spectra keys bfs sig fns in Ret (PDict d).
