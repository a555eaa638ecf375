(** Model of hazma/vector_mediator/_gev_spectra.py, the photon spectra of the decays of the GeV vector mediator at
    rest, at one photon energy, with the parameters of [GevSpecModel]. *)
From Coq Require Import Reals.
From Verif Require Import PyBase GevModel GevSpecModel.
Local Open Scope R_scope.

Section Decays.
Variable M : masses.
Variable dec : messenger -> parent -> R -> R -> R.
Variable ap_fermion ap_scalar : R -> R -> R -> R.

(** [if cme < threshold: return np.zeros_like(photon_energies)] *)
Definition opened (threshold cme v : R) : option R := Some (if Rlt_dec cme threshold then 0 else v).
(** _gev_spectra.py 17-144 with cme = self.mv; a function whose body is [pass] returns None.  The channels without a
    function (neutrinos, dark matter, two neutral pions) are given as None too. *)
Definition dnde_photon_v_to (c : chan) (e mv : R) : option R :=
  match c with
  | EE => opened (2 * m_e M) mv (ap_fermion e (mv ^ 2) (m_e M))
  | MuMu => opened (2 * m_mu M) mv (ap_fermion e (mv ^ 2) (m_mu M) + dec Photon Muon e (mv / 2))
  | PiPi => opened (2 * m_pi M) mv (ap_scalar e (mv ^ 2) (m_pi M) + dec Photon PiC e (mv / 2))
  | K0K0 => opened (2 * m_k0 M) mv (dec Photon KL e (mv / 2) + dec Photon KS e (mv / 2))
  | KK => opened (2 * m_k M) mv (ap_scalar e (mv ^ 2) (m_k M) + dec Photon KC e (mv / 2))
  | Pi0A => opened (m_pi0 M) mv (dec Photon Pi0 e ((mv ^ 2 + m_pi0 M ^ 2) / (2 * mv)))
  | EtaA => opened (m_eta M) mv (dec Photon Eta e ((mv ^ 2 + m_eta M ^ 2) / (2 * mv)))
  | EtaOmega =>
      opened (m_eta M + m_omega M) mv
        (dec Photon Eta e ((mv ^ 2 + m_eta M ^ 2 - m_omega M ^ 2) / (2 * mv))
         + dec Photon Omega e ((mv ^ 2 - m_eta M ^ 2 + m_omega M ^ 2) / (2 * mv)))
  | _ => None
  end.
End Decays.
