(** Specification vocabulary and lemmas about the spectra of the GeV vector mediator. *)
From Coq Require Import String Reals Bool NArith Lia Lra Permutation List.
From Verif Require Import PyBase PyBaseFacts GevModel GevSpecModel GevProofs.
Import ListNotations.
Local Open Scope R_scope.

(** * Specification *)

(** What a final state is made of *)
Inductive particle : Type := Dec (p : parent) | Electron | Light.

(** The final states by their names; [k0] is the state, long or short, a single neutral kaon is found in.
    [Light] stands for photons, neutrinos and dark matter. *)
Definition final (k0 : parent) (c : chan) : list particle :=
  match c with
  | EE => [Electron; Electron]
  | MuMu => [Dec Muon; Dec Muon]
  | VeVe | VmVm | VtVt | XX => [Light; Light]
  | PiPi => [Dec PiC; Dec PiC]
  | Pi0Pi0 => [Dec Pi0; Dec Pi0]
  | K0K0 => [Dec KL; Dec KS]
  | KK => [Dec KC; Dec KC]
  | Pi0A => [Dec Pi0; Light]
  | EtaA => [Dec Eta; Light]
  | Pi0Phi => [Dec Pi0; Dec Phi]
  | EtaPhi => [Dec Eta; Dec Phi]
  | EtaOmega => [Dec Eta; Dec Omega]
  | Pi0Pi0A => [Dec Pi0; Dec Pi0; Light]
  | PiPiPi0 => [Dec PiC; Dec PiC; Dec Pi0]
  | PiPiEta => [Dec PiC; Dec PiC; Dec Eta]
  | PiPiEtap => [Dec PiC; Dec PiC; Dec EtaP]
  | PiPiOmega => [Dec PiC; Dec PiC; Dec Omega]
  | Pi0Pi0Omega => [Dec Pi0; Dec Pi0; Dec Omega]
  | Pi0K0K0 => [Dec Pi0; Dec KL; Dec KS]
  | Pi0KK => [Dec Pi0; Dec KC; Dec KC]
  | PiKK0 => [Dec PiC; Dec KC; Dec k0]
  | PiPiPiPi => [Dec PiC; Dec PiC; Dec PiC; Dec PiC]
  | PiPiPi0Pi0 => [Dec PiC; Dec PiC; Dec Pi0; Dec Pi0]
  end.

Definition mass_of (M : masses) (p : particle) : R :=
  match p with
  | Dec Muon => m_mu M | Dec PiC => m_pi M | Dec Pi0 => m_pi0 M | Dec KC => m_k M
  | Dec KL => m_k0 M | Dec KS => m_k0 M | Dec Eta => m_eta M | Dec EtaP => m_etap M
  | Dec Omega => m_omega M | Dec Phi => m_phi M | Electron => m_e M | Light => 0
  end.

Definition charged (p : particle) : bool :=
  match p with Dec Muon | Dec PiC | Dec KC | Electron => true | _ => false end.

Definition is_lepton (p : particle) : bool :=
  match p with Dec Muon | Electron => true | _ => false end.

Definition sumR (l : list R) : R := fold_right Rplus 0 l.

(** The masses of the final state add up to no more than the energy *)
Definition above (M : masses) (c : chan) (cme : R) : Prop :=
  sumR (map (mass_of M) (final KL c)) <= cme.

(** Charged particles come in pairs of opposite charge, and only one of the two gives positrons; both give
    photons and (anti)neutrinos *)
Definition mult (m : messenger) (p : particle) : R :=
  match m with Positron => if charged p then 1 / 2 else 1 | _ => 1 end.

(** A distribution whose trapezoid area is one *)
Definition normalised (d : dist1) : Prop := trapz d = 1.

Definition proper (edists : chan -> R -> list dist1) (c : chan) (cme : R) : Prop :=
  length (edists c cme) = length (final KL c) /\ Forall normalised (edists c cme).

(** What a particle of the final state contributes if its spectrum is [w] at every energy *)
Definition yield (w : parent -> R) (m : messenger) (p : particle) : R :=
  match p with Dec q => mult m p * w q | _ => 0 end.

Definition rad0 : R -> R -> R -> R := fun _ _ _ => 0.
Definition rad1 : R -> R -> R -> R -> R := fun _ _ _ _ => 0.

(** The decaying particles are counted: for decay spectra that do not depend on the energy of the parent, the
    spectrum is the sum over the particles of the final state.  Neutral pions give photons only. *)
Definition decays_counted (M : masses) (m : messenger) (c : chan) : Prop :=
  forall k0 (w : parent -> R) edists idist cme e,
    k0 = KL \/ k0 = KS -> (m <> Photon -> w Pi0 = 0) -> proper edists c cme -> above M c cme ->
    spectrum_of M (fun _ p _ _ => w p) rad0 rad0 rad0 rad1 edists idist m c e cme =
    sumR (map (yield w m) (final k0 c)).

(** The channels for which that will hold *)
Definition counted_list (m : messenger) : list chan :=
  match m with
  | Photon => [EE; MuMu; VeVe; VmVm; VtVt; PiPi; K0K0; KK; Pi0A; EtaA; Pi0Phi; EtaPhi; EtaOmega; PiPiPi0;
               PiPiEta; PiPiEtap; PiPiOmega; Pi0Pi0Omega; Pi0K0K0; Pi0KK; PiPiPi0Pi0]
  | Positron => [EE; VeVe; VmVm; VtVt; K0K0; KK; Pi0A; EtaA; Pi0Phi; EtaPhi; EtaOmega; Pi0Pi0A;
                 Pi0Pi0Omega; Pi0K0K0]
  | Neutrino _ => [EE; MuMu; VeVe; VmVm; VtVt; PiPi; K0K0; Pi0A; EtaA; Pi0Phi; EtaPhi; EtaOmega; Pi0Pi0A;
                   PiPiPi0; PiPiEta; PiPiEtap; PiPiOmega; Pi0Pi0Omega; Pi0K0K0; Pi0KK]
  end.

(** Radiation counted: if the radiation of a particle depends on its mass only, the radiated photons are the
    sum over the charged particles *)
Definition radiation_of (M : masses) (af asc : R -> R) (p : particle) : R :=
  if charged p then (if is_lepton p then af else asc) (mass_of M p) else 0.
Definition radiation_counted (M : masses) (c : chan) : Prop :=
  forall (af asc : R -> R) edists idist cme e,
    length (edists c cme) = length (final KL c) -> (forall pr, normalised (idist c cme pr)) -> above M c cme ->
    photon_spectrum M (fun _ _ _ _ => 0) (fun _ _ mm => af mm) (fun _ _ mm => asc mm) rad0 rad1 edists idist c e cme =
    sumR (map (radiation_of M af asc) (final KL c)).
Definition radiation_list : list chan :=
  [EE; MuMu; VeVe; VmVm; VtVt; PiPi; K0K0; KK; Pi0A; EtaA; Pi0Phi; EtaPhi; EtaOmega; Pi0Pi0A; PiPiPi0;
   Pi0Pi0Omega; Pi0K0K0; PiPiPi0Pi0].

(** The channels in the dictionaries *)
Definition listed (c : chan) : Prop := c <> XX /\ c <> Pi0Pi0.

(** The order of the particles in the form factors (fsp_masses of the classes of hazma/form_factors/vector:
    _pi_pi_pi0.py 97, _pi_pi_eta.py 65, _pi_pi_etap.py 72, _pi_pi_omega.py 65-68, _pi_k_k.py 592, 632, 672,
    _pi_pi_pi_pi.py 161-166), with the two choices for the neutral kaons *)
Definition fsp_choices (c : chan) : list (list parent) :=
  match c with
  | PiPiPi0 => [[Pi0; PiC; PiC]]
  | PiPiEta => [[Eta; PiC; PiC]]
  | PiPiEtap => [[EtaP; PiC; PiC]]
  | PiPiOmega => [[Omega; PiC; PiC]]
  | Pi0Pi0Omega => [[Omega; Pi0; Pi0]]
  | Pi0K0K0 => [[KL; KS; Pi0]; [KS; KL; Pi0]]
  | Pi0KK => [[KC; KC; Pi0]]
  | PiKK0 => [[KL; KC; PiC]; [KS; KC; PiC]]
  | PiPiPiPi => [[PiC; PiC; PiC; PiC]]
  | PiPiPi0Pi0 => [[PiC; PiC; Pi0; Pi0]]
  | _ => []
  end.
Definition multi : list chan :=
  [PiPiPi0; PiPiEta; PiPiEtap; PiPiOmega; Pi0Pi0Omega; Pi0K0K0; Pi0KK; PiKK0; PiPiPiPi; PiPiPi0Pi0].

(** The decays of particles [ps] whose energies have the distributions [ds] *)
Fixpoint assigned (g : parent -> R -> R) (ds : list dist1) (ps : list parent) : R :=
  match ds, ps with
  | d :: ds', p :: ps' =>
      trapz (map (fun xp => (fst xp, snd xp * g p (fst xp))) d) + assigned g ds' ps'
  | _, _ => 0
  end.

(** Every particle decays with its own energy distribution *)
Definition matched (M : masses) (m : messenger) (c : chan) : Prop :=
  exists ps, In ps (fsp_choices c) /\
  forall dec edists idist e cme,
    (m <> Photon -> forall e ep, dec m Pi0 e ep = 0) -> length (edists c cme) = length ps -> above M c cme ->
    spectrum_of M dec rad0 rad0 rad0 rad1 edists idist m c e cme =
    assigned (fun p ep => dec m p e ep) (edists c cme) ps.

(** * Lemmas *)

Lemma guarded_open M c cme v : open_at M c <= cme -> guarded M c cme v = v.
Proof. intro H. unfold guarded. destruct (Rlt_dec cme (open_at M c)); [lra|reflexivity]. Qed.

Lemma guarded_closed M c cme v : cme < open_at M c -> guarded M c cme v = 0.
Proof. intro H. unfold guarded. destruct (Rlt_dec cme (open_at M c)); [reflexivity|lra]. Qed.

Lemma trapz_cons x0 y0 x1 y1 r :
  trapz ((x0, y0) :: (x1, y1) :: r) = (x1 - x0) * (y0 + y1) / 2 + trapz ((x1, y1) :: r).
Proof. reflexivity. Qed.

Lemma trapz_scale (d : dist1) k : trapz (map (fun xp => (fst xp, snd xp * k)) d) = k * trapz d.
Proof.
  induction d as [|[x0 y0] d IH]; [cbn; ring|].
  destruct d as [|[x1 y1] r]; [cbn; ring|].
  cbn [map fst snd]. rewrite !trapz_cons. cbn [map fst snd] in IH. rewrite IH. field.
Qed.

Lemma trapz_zero (d : dist1) (g : R * R -> R) : (forall xp, In xp d -> g xp = 0) ->
  trapz (map (fun xp => (fst xp, g xp)) d) = 0.
Proof.
  induction d as [|a d IH]; intro H; [reflexivity|].
  destruct d as [|b r]; [reflexivity|].
  cbn [map]. rewrite trapz_cons. cbn [map] in IH. rewrite IH by (intros; apply H; right; assumption).
  rewrite (H a) by (left; reflexivity). rewrite (H b) by (right; left; reflexivity). field.
Qed.

Lemma trapz_ext (d : dist1) (g h : R * R -> R) : (forall xp, In xp d -> g xp = h xp) ->
  trapz (map (fun xp => (fst xp, g xp)) d) = trapz (map (fun xp => (fst xp, h xp)) d).
Proof. intro H. f_equal. apply map_ext_in. intros a Ha. rewrite (H a Ha). reflexivity. Qed.

Lemma three {A} (l : list A) : length l = 3%nat -> exists a b c, l = [a; b; c].
Proof. destruct l as [|a [|b [|c [|? ?]]]]; cbn; intro H; try lia. exists a, b, c. reflexivity. Qed.
Lemma four {A} (l : list A) : length l = 4%nat -> exists a b c d, l = [a; b; c; d].
Proof. destruct l as [|a [|b [|c [|d [|? ?]]]]]; cbn; intro H; try lia. exists a, b, c, d. reflexivity. Qed.

Definition slot_value (w : parent -> R) (s : slot) : R := match s with Some p => w p | None => 0 end.

(** The n-body sum for decay spectra that do not depend on the energy of the parent *)
Lemma n_body_const (w : parent -> R) m e : forall ds ss, Forall normalised ds -> length ds = length ss ->
  n_body (fun _ p _ _ => w p) m e ds ss = sumR (map (slot_value w) ss).
Proof.
  intros ds ss Hn Hl. unfold n_body.
  assert (H : forall acc, fold_left (fun acc ds0 =>
      acc + trapz (map (fun xp => (fst xp, snd xp * run_slot (fun _ p _ _ => w p) m (snd ds0) e (fst xp))) (fst ds0)))
      (combine ds ss) acc = acc + sumR (map (slot_value w) ss)).
  { revert ss Hl. induction Hn as [|d ds Hd Hn IH]; intros [|s ss] Hl acc; try discriminate Hl.
    - cbn. ring.
    - cbn [combine fold_left fst snd map sumR fold_right]. rewrite IH by (injection Hl; trivial).
      assert (E : trapz (map (fun xp : R * R => (fst xp, snd xp * run_slot (fun _ p _ _ => w p) m s e (fst xp))) d)
                  = slot_value w s).
      { rewrite (trapz_ext d _ (fun xp => snd xp * slot_value w s)).
        - rewrite trapz_scale, Hd. ring.
        - intros xp _. destruct s; reflexivity. }
      rewrite E. unfold sumR. ring. }
  rewrite H. ring.
Qed.

(** The n-body sum without decays *)
Lemma n_body_none m e : forall ds ss, n_body (fun _ _ _ _ => 0) m e ds ss = 0.
Proof.
  intros ds ss. unfold n_body.
  assert (H : forall l acc, fold_left (fun acc (ds0 : dist1 * slot) =>
      acc + trapz (map (fun xp => (fst xp, snd xp * run_slot (fun _ _ _ _ => 0) m (snd ds0) e (fst xp))) (fst ds0)))
      l acc = acc).
  { induction l as [|[d s] l IH]; intro acc; [reflexivity|]. cbn [fold_left fst snd]. rewrite IH.
    rewrite trapz_zero; [ring|]. intros xp _. destruct s; cbn [run_slot]; ring. }
  apply H.
Qed.

Lemma pair_radiation_none M idist c e cme pr : pair_radiation M rad0 idist c e cme pr = 0.
Proof. unfold pair_radiation. apply trapz_zero. intros xp _. unfold rad0. ring. Qed.

Lemma pair_radiation_const M (asc : R -> R) idist c e cme pr : normalised (idist c cme pr) ->
  pair_radiation M (fun _ _ mm => asc mm) idist c e cme pr = 2 * asc (m_pi M).
Proof. intro H. unfold pair_radiation. rewrite trapz_scale. rewrite H. ring. Qed.

(** The threshold of the channels with a guard is the sum of the masses, except for the state that is reached
    through an omega *)
Lemma open_above M c cme : above M c cme -> c <> Pi0Pi0A ->
  In c [EE; MuMu; PiPi; K0K0; KK; EtaOmega; PiPiPi0; PiPiEta; PiPiEtap; PiPiOmega; Pi0Pi0Omega; Pi0K0K0; Pi0KK;
        PiKK0; PiPiPiPi; PiPiPi0Pi0] -> open_at M c <= cme.
Proof.
  intros H Hn Hc. unfold above in H. destruct c; cbn in Hc; try (exfalso; intuition discriminate);
    cbn [final map sumR fold_right mass_of] in H; unfold sumR in H; cbn [fold_right] in H; cbn [open_at]; lra.
Qed.
