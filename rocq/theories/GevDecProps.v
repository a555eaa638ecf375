(** Theorems about the photon spectra of the decays of the GeV vector mediator at rest (C168). *)
From Coq Require Import Reals Lra List.
From Verif Require Import PyBase GevModel GevSpecModel GevProofs GevSpecProofs GevDecModel.
Import ListNotations.
Local Open Scope R_scope.

(** * Specification *)

(** The photons of one particle of energy [ep] in a final state of energy [mv]: those of its decay, and those it
    radiates if it is charged *)
Definition photons_of (M : masses) (dec : parent -> R -> R -> R) (af asc : R -> R -> R -> R) (e mv : R)
    (p : particle) (ep : R) : R :=
  (match p with Dec q => dec q e ep | _ => 0 end)
  + (if charged p then (if is_lepton p then af else asc) e (mv ^ 2) (mass_of M p) else 0).

(** The energies of two particles of opposite momenta that share [mv] *)
Definition shared (m1 m2 mv e1 e2 : R) : Prop := e1 + e2 = mv /\ e1 ^ 2 - m1 ^ 2 = e2 ^ 2 - m2 ^ 2.

Lemma shared_energies m1 m2 mv e1 e2 : 0 < mv -> shared m1 m2 mv e1 e2 ->
  e1 = (mv ^ 2 + m1 ^ 2 - m2 ^ 2) / (2 * mv) /\ e2 = (mv ^ 2 - m1 ^ 2 + m2 ^ 2) / (2 * mv).
Proof.
  intros Hm [Hs Hp]. assert (He : e2 = mv - e1) by lra. subst e2.
  assert (H : 2 * mv * e1 = mv ^ 2 + m1 ^ 2 - m2 ^ 2) by nra.
  split; apply (Rmult_eq_reg_l (2 * mv)); try lra; field_simplify; lra.
Qed.

Lemma shared_equal m mv e1 e2 : 0 < mv -> shared m m mv e1 e2 -> e1 = mv / 2 /\ e2 = mv / 2.
Proof.
  intros Hm H. destruct (shared_energies _ _ _ _ _ Hm H) as [-> ->]. split; field; lra.
Qed.

Lemma opened_above t cme v : t <= cme -> opened t cme v = Some v.
Proof. intros H. unfold opened. destruct (Rlt_dec cme t); [lra|reflexivity]. Qed.

Ltac decay_case Hm Hs Ha :=
  unfold dnde_photon_v_to, above in *; cbn [map final sumR fold_right mass_of] in Ha;
  rewrite opened_above by lra; f_equal; unfold photons_of; cbn [charged is_lepton mass_of] in *.

(** * C168 *)

(** Both particles are counted for two neutral kaons, pi0 gamma, eta gamma and eta omega *)
Theorem decay_spectra_count_neutral_pairs : forall M dec af asc c p q e mv e1 e2,
  In c [K0K0; Pi0A; EtaA; EtaOmega] -> final KL c = [p; q] -> 0 < mv -> above M c mv ->
  shared (mass_of M p) (mass_of M q) mv e1 e2 ->
  dnde_photon_v_to M dec af asc c e mv =
  Some (photons_of M (dec Photon) af asc e mv p e1 + photons_of M (dec Photon) af asc e mv q e2).
Proof.
  intros M dec af asc c p q e mv e1 e2 Hc Hf Hm Ha Hs.
  cbn in Hc. destruct Hc as [<-|[<-|[<-|[<-|[]]]]]; cbn in Hf; injection Hf as <- <-; decay_case Hm Hs Ha.
  - destruct (shared_equal _ _ _ _ Hm Hs) as [-> ->]. lra.
  - destruct (shared_energies _ _ _ _ _ Hm Hs) as [-> _].
    replace (mv ^ 2 + m_pi0 M ^ 2 - 0 ^ 2) with (mv ^ 2 + m_pi0 M ^ 2) by ring. lra.
  - destruct (shared_energies _ _ _ _ _ Hm Hs) as [-> _].
    replace (mv ^ 2 + m_eta M ^ 2 - 0 ^ 2) with (mv ^ 2 + m_eta M ^ 2) by ring. lra.
  - destruct (shared_energies _ _ _ _ _ Hm Hs) as [-> ->]. lra.
Qed.
Print Assumptions decay_spectra_count_neutral_pairs.

(** Pairs of charged particles give half the photons of their two particles *)
Theorem decay_spectra_halve_charged_pairs : forall M dec af asc c p q e mv e1 e2,
  In c [EE; MuMu; PiPi; KK] -> final KL c = [p; q] -> 0 < mv -> above M c mv ->
  shared (mass_of M p) (mass_of M q) mv e1 e2 ->
  dnde_photon_v_to M dec af asc c e mv =
  Some ((photons_of M (dec Photon) af asc e mv p e1 + photons_of M (dec Photon) af asc e mv q e2) / 2).
Proof.
  intros M dec af asc c p q e mv e1 e2 Hc Hf Hm Ha Hs.
  cbn in Hc. destruct Hc as [<-|[<-|[<-|[<-|[]]]]]; cbn in Hf; injection Hf as <- <-; decay_case Hm Hs Ha;
    destruct (shared_equal _ _ _ _ Hm Hs) as [-> ->]; lra.
Qed.
Print Assumptions decay_spectra_halve_charged_pairs.

Definition round_masses : masses := MkMasses (1 / 2) 106 140 135 494 498 548 958 783 1019.

Example neutral_pair_case :
  In EtaOmega [K0K0; Pi0A; EtaA; EtaOmega] /\ final KL EtaOmega = [Dec Eta; Dec Omega] /\ 0 < 2000 /\
  above round_masses EtaOmega 2000 /\
  shared (mass_of round_masses (Dec Eta)) (mass_of round_masses (Dec Omega)) 2000
    ((2000 ^ 2 + 548 ^ 2 - 783 ^ 2) / 4000) ((2000 ^ 2 - 548 ^ 2 + 783 ^ 2) / 4000).
Proof. unfold above, shared. cbn. repeat split; try tauto; lra. Qed.

Example charged_pair_case :
  In MuMu [EE; MuMu; PiPi; KK] /\ final KL MuMu = [Dec Muon; Dec Muon] /\ 0 < 2000 /\
  above round_masses MuMu 2000 /\
  shared (mass_of round_masses (Dec Muon)) (mass_of round_masses (Dec Muon)) 2000 1000 1000.
Proof. unfold above, shared. cbn. repeat split; try tauto; lra. Qed.

(** A final state heavier than the mediator gives no photons *)
Theorem decay_spectra_vanish_when_closed : forall M dec af asc c e mv,
  In c [EE; MuMu; PiPi; K0K0; KK; Pi0A; EtaA; EtaOmega] -> ~ above M c mv ->
  dnde_photon_v_to M dec af asc c e mv = Some 0.
Proof.
  intros M dec af asc c e mv Hc Ha. unfold above in Ha. cbn in Hc.
  repeat (destruct Hc as [<-|Hc]; [cbn in Ha; unfold dnde_photon_v_to, opened;
    match goal with |- context [Rlt_dec ?a ?b] => destruct (Rlt_dec a b) end; [reflexivity|exfalso; lra]|]).
  destruct Hc.
Qed.
Print Assumptions decay_spectra_vanish_when_closed.

Example closed_case : In KK [EE; MuMu; PiPi; K0K0; KK; Pi0A; EtaA; EtaOmega] /\ ~ above round_masses KK 900.
Proof. unfold above. cbn. split; [tauto|lra]. Qed.

(** The decay of the mediator at rest has the spectrum of the annihilation at the energy [mv], where the two
    files agree *)
Theorem decay_spectra_match_annihilation : forall M dec af asc bd bd2 eds ids c e mv,
  In c [K0K0; Pi0A; EtaA; EtaOmega] ->
  dnde_photon_v_to M dec af asc c e mv = Some (photon_spectrum M dec af asc bd bd2 eds ids c e mv).
Proof.
  intros M dec af asc bd bd2 eds ids c e mv Hc. cbn in Hc.
  destruct Hc as [<-|[<-|[<-|[<-|[]]]]];
    unfold dnde_photon_v_to, opened, photon_spectrum, guarded, m_gamma, two_body; cbn [open_at run_slot];
    match goal with |- context [Rlt_dec ?a ?b] => destruct (Rlt_dec a b) end; reflexivity.
Qed.
Print Assumptions decay_spectra_match_annihilation.

Example match_case : In K0K0 [K0K0; Pi0A; EtaA; EtaOmega] /\
  dnde_photon_v_to round_masses (fun _ _ _ ep => ep) rad0 rad0 K0K0 1 2000 = Some 2000.
Proof. split; [cbn; tauto|]. cbn. rewrite opened_above by lra. f_equal. lra. Qed.

(** The mediator's decays have the spectra of the annihilations into the same final state: false, with a factor of
    two for two muons *)
Theorem decay_spectra_match_annihilation_everywhere_refuted :
  exists M dec af asc c e mv, In c vv_channels /\ above M c mv /\
    forall bd bd2 eds ids, exists x,
    dnde_photon_v_to M dec af asc c e mv = Some x /\ 0 < x /\
    photon_spectrum M dec af asc bd bd2 eds ids c e mv = 2 * x.
Proof.
  exists round_masses, (fun _ _ _ _ => 1), rad0, rad0, MuMu, 1, 2000.
  split; [cbn; tauto|]. split; [unfold above; cbn; lra|]. intros bd bd2 eds ids. exists 1.
  unfold dnde_photon_v_to, photon_spectrum, guarded, rad0. cbn [open_at round_masses m_mu].
  rewrite opened_above by lra. destruct (Rlt_dec 2000 (2 * 106)); [lra|].
  split; [f_equal; lra|split; lra].
Qed.
Print Assumptions decay_spectra_match_annihilation_everywhere_refuted.

(** Every final state the mediator decays to has a spectrum: false, the function for three pions has no body *)
Theorem decay_spectra_exist_refuted :
  exists c, In c vv_channels /\ above round_masses c 2000 /\
    (forall M dec af asc e mv, dnde_photon_v_to M dec af asc c e mv = None) /\
    exists dec eds,
      proper eds c 2000 /\
      0 < photon_spectrum round_masses dec rad0 rad0 rad0 rad1 eds (fun _ _ _ => []) c 1 2000.
Proof.
  exists PiPiPi0. split; [cbn; tauto|]. split; [unfold above; cbn; lra|]. split; [reflexivity|].
  exists (fun _ _ _ _ => 1), (fun _ _ => [[(0, 1); (1, 1)]; [(0, 1); (1, 1)]; [(0, 1); (1, 1)]]).
  split.
  - split; [reflexivity|]. repeat (apply Forall_cons; [unfold normalised; cbn; lra|]). apply Forall_nil.
  - unfold photon_spectrum, n_body_photon, guarded, pair_radiation, n_body. cbn.
    destruct (Rlt_dec 2000 (2 * 140 + 135)); lra.
Qed.
Print Assumptions decay_spectra_exist_refuted.
