(** Theorems about the spectra of the GeV vector mediator (C89, C91, C92, C93). *)
From Coq Require Import String Reals Bool NArith Lia Lra Permutation List.
From Verif Require Import PyBase PyBaseFacts RamboModel RamboProofs KinProofs GevModel GevSpecModel GevProofs GevSpecProofs.
Import ListNotations.
Local Open Scope R_scope.

(** * C92: every particle counts once *)

Ltac each_of H := cbn in H; repeat (destruct H as [<-|H]); try contradiction.
Ltac open_guard := match goal with |- context [guarded ?M ?c ?cme _] =>
  rewrite (guarded_open M c cme) by (apply open_above; [assumption|discriminate|cbn; tauto]) end.
Ltac const_sum Hp := rewrite n_body_const; [|exact (proj2 Hp)|exact (proj1 Hp)].

(** A witness distribution and the spectrum of one parent *)
Definition flat : dist1 := [(0, 1); (1, 1)].
Definition nothing : dist1 := [(0, 0); (1, 0)].
Definition parent_eqb (p q : parent) : bool :=
  match p, q with
  | Muon, Muon | PiC, PiC | Pi0, Pi0 | KC, KC | KL, KL | KS, KS | Eta, Eta | EtaP, EtaP | Omega, Omega
  | Phi, Phi => true
  | _, _ => false
  end.
Definition only (p q : parent) : R := if parent_eqb p q then 1 else 0.
Definition flats (c : chan) : list dist1 := map (fun _ => flat) (final KL c).

Lemma flat_normalised : normalised flat.
Proof. unfold normalised, flat. cbn. lra. Qed.
Lemma flats_proper c cme : proper (fun c' _ => flats c') c cme.
Proof.
  unfold proper, flats. rewrite map_length. split; [reflexivity|].
  apply Forall_forall. intros d H. apply in_map_iff in H. destruct H as (? & <- & _). apply flat_normalised.
Qed.

Definition culprit (c : chan) : parent :=
  match c with MuMu => Muon | KK | Pi0KK | PiPiPiPi => KC | _ => PiC end.

(** Which channels count their decaying particles right, exactly *)
Theorem decays_counted_iff : forall M m c, listed c -> (m, c) <> (Photon, Pi0Pi0A) ->
  (decays_counted M m c <-> In c (counted_list m)).
Proof.
  intros M m c [Hx Hpp] Hmc. split.
  - intro H.
    (* a wrong channel: look at particles of one kind *)
    assert (W : spectrum_of M (fun _ q _ _ => only (culprit c) q) rad0 rad0 rad0 rad1 (fun c' _ => flats c')
                  (fun _ _ _ => []) m c 0 (sumR (map (mass_of M) (final KL c))) =
                sumR (map (yield (only (culprit c)) m) (final KL c))).
    { apply (H KL (only (culprit c)) (fun c' _ => flats c'));
        [left; reflexivity| |apply flats_proper|apply Rle_refl].
      intros _. destruct c; reflexivity. }
    assert (A : above M c (sumR (map (mass_of M) (final KL c)))) by (unfold above; apply Rle_refl).
    set (cme := sumR (map (mass_of M) (final KL c))) in *. clearbody cme. clear H.
    pose proof (flats_proper c cme) as Hp.
    destruct m; destruct c; try contradiction; try (cbn; tauto); exfalso;
      cbn [spectrum_of photon_spectrum positron_spectrum neutrino_spectrum culprit] in W;
      unfold n_body_photon in W;
      rewrite guarded_open in W by (apply open_above; [assumption|discriminate|cbn; tauto]);
      try (rewrite n_body_const in W; [|exact (proj2 Hp)|exact (proj1 Hp)]);
      cbn in W; rewrite ?pair_radiation_none in W; lra.
  - intros Hc k0 w edists idist cme e Hk Hw Hp A.
    assert (Hw' : m = Photon \/ w Pi0 = 0) by (destruct m; [left; reflexivity|right; apply Hw; discriminate..]).
    destruct m; each_of Hc; destruct Hw' as [Hm|Hw0]; try discriminate Hm;
      cbn [spectrum_of photon_spectrum positron_spectrum neutrino_spectrum];
      unfold n_body_photon, m_gamma, m_phi_state, two_body;
      try open_guard;
      try (rewrite n_body_const; [|exact (proj2 Hp)|exact (proj1 Hp)]);
      unfold above in A; cbn in A;
      repeat match goal with |- context [Rlt_dec ?a ?b] => destruct (Rlt_dec a b); [exfalso; lra|] end;
      cbn; rewrite ?pair_radiation_none; unfold rad0; rewrite ?Hw0; try lra.
Qed.
Print Assumptions decays_counted_iff.

(** An energy-independent spectrum, normalised distributions and an energy above threshold for all states *)
Definition masses1 : masses := MkMasses 1 100 140 135 490 500 550 960 780 1020.
Example decays_counted_ex :
  above masses1 PiPiPi0 500 /\ proper (fun c _ => flats c) PiPiPi0 500 /\
  decays_counted masses1 (Neutrino NuMu) PiPiPi0 /\ ~ decays_counted masses1 Positron PiPiPi0 /\
  ~ decays_counted masses1 (Neutrino NuE) KK.
Proof.
  split; [unfold above; cbn; lra|]. split; [apply flats_proper|].
  split; [apply decays_counted_iff; [split; discriminate|discriminate|cbn; tauto]|].
  split; intro H; apply decays_counted_iff in H; try (split; discriminate); try discriminate; cbn in H;
    intuition discriminate.
Qed.

(** So the claim that all channels count right is false, for each messenger *)
Theorem decays_counted_refuted : forall M m, exists c, listed c /\ c <> Pi0Pi0A /\ ~ decays_counted M m c.
Proof.
  intros M m. exists PiPiPiPi. split; [split; discriminate|]. split; [discriminate|].
  intro H. apply decays_counted_iff in H; [|split; discriminate|discriminate].
  destruct m; cbn in H; intuition discriminate.
Qed.
Print Assumptions decays_counted_refuted.

(** Which channels let every charged particle radiate once, exactly *)
Theorem radiation_counted_iff : forall M c, listed c -> (radiation_counted M c <-> In c radiation_list).
Proof.
  intros M c [Hx Hpp]. split.
  - intro H.
    assert (A : above M c (sumR (map (mass_of M) (final KL c)))) by (unfold above; apply Rle_refl).
    pose proof (H (fun _ => 1) (fun _ => 1) (fun c' _ => flats c') (fun _ _ _ => flat)
                  (sumR (map (mass_of M) (final KL c))) 0 (proj1 (flats_proper c 0)) (fun _ => flat_normalised) A) as W.
    set (cme := sumR (map (mass_of M) (final KL c))) in *. clearbody cme. clear H.
    destruct c; try contradiction; try (cbn; tauto); exfalso;
      cbn [photon_spectrum] in W; unfold n_body_photon in W;
      rewrite guarded_open in W by (apply open_above; [assumption|discriminate|cbn; tauto]);
      rewrite n_body_none in W; cbn [radiating_pairs fold_left fst snd] in W;
      rewrite ?(pair_radiation_const M (fun _ => 1)) in W by (apply flat_normalised);
      unfold radiation_of in W; cbn in W; lra.
  - intros Hc af asc edists idist cme e Hl Hn A.
    each_of Hc; cbn [photon_spectrum];
      unfold n_body_photon, m_gamma, m_phi_state, two_body, photon_pi0_pi0_gamma;
      try open_guard; rewrite ?n_body_none; cbn [radiating_pairs fold_left fst snd];
      rewrite ?(pair_radiation_const M asc) by apply Hn;
      unfold radiation_of; cbn -[Rlt_dec guarded pow];
      repeat match goal with |- context [Rlt_dec ?a ?b] => destruct (Rlt_dec a b) end;
      unfold guarded, rad0, rad1; try destruct (Rlt_dec _ _); try lra.
Qed.
Print Assumptions radiation_counted_iff.

Theorem radiation_counted_refuted : forall M, exists c, listed c /\ ~ radiation_counted M c.
Proof.
  intro M. exists PiPiPiPi. split; [split; discriminate|]. intro H.
  apply radiation_counted_iff in H; [|split; discriminate]. cbn in H. intuition discriminate.
Qed.
Print Assumptions radiation_counted_refuted.

(** Four charged pions radiate like three *)
Theorem four_pions_radiate_like_three : forall M asc edists idist cme e,
  (forall pr, normalised (idist PiPiPiPi cme pr)) -> above M PiPiPiPi cme ->
  photon_spectrum M (fun _ _ _ _ => 0) rad0 (fun _ _ mm => asc mm) rad0 rad1 edists idist PiPiPiPi e cme =
  3 * asc (m_pi M).
Proof.
  intros M asc edists idist cme e Hn A. cbn [photon_spectrum]. unfold n_body_photon. open_guard.
  rewrite n_body_none. cbn [radiating_pairs fold_left fst snd]. rewrite !(pair_radiation_const M asc) by apply Hn.
  lra.
Qed.
Print Assumptions four_pions_radiate_like_three.
Example radiation_counted_ex : above masses1 PiPiPiPi 600 /\ (forall pr : nat * nat, normalised flat) /\
  radiation_counted masses1 PiPiPi0 /\ ~ radiation_counted masses1 Pi0KK.
Proof.
  split; [unfold above; cbn; lra|]. split; [intro; apply flat_normalised|].
  split; [apply radiation_counted_iff; [split; discriminate|cbn; tauto]|].
  intro H. apply radiation_counted_iff in H; [|split; discriminate]. cbn in H. intuition discriminate.
Qed.

(** A photon comes from a decay or from radiation: the photon spectrum is the sum of the two parts counted
    above, in general *)
Theorem photons_split : forall M dec apf aps bd bd2 edists idist c e cme,
  photon_spectrum M dec apf aps bd bd2 edists idist c e cme =
  photon_spectrum M dec rad0 rad0 bd bd2 edists idist c e cme +
  photon_spectrum M (fun _ _ _ _ => 0) apf aps rad0 rad1 edists idist c e cme.
Proof.
  intros M dec apf aps bd bd2 edists idist c e cme.
  destruct c; cbn [photon_spectrum];
    unfold n_body_photon, m_gamma, m_phi_state, two_body, photon_pi0_pi0_gamma, guarded;
    rewrite ?n_body_none; cbn [radiating_pairs fold_left fst snd]; rewrite ?pair_radiation_none;
    unfold rad0, rad1; cbn [run_slot];
    repeat match goal with |- context [Rlt_dec ?a ?b] => destruct (Rlt_dec a b) end; cbv zeta; ring.
Qed.
Print Assumptions photons_split.

(** Two particles: each has the energy that energy and momentum conservation give it, each decays once, and
    charged ones radiate at the whole energy *)
Definition contribution (dec : messenger -> parent -> R -> R -> R) (m : messenger) (e : R) (p : particle) (E : R) : R :=
  match p with Dec q => mult m p * dec m q e E | _ => 0 end.
Definition radiates (M : masses) (apf aps : R -> R -> R -> R) (m : messenger) (e s : R) (p : particle) : R :=
  match m with
  | Photon => if charged p then (if is_lepton p then apf else aps) e s (mass_of M p) else 0
  | _ => 0
  end.
Theorem two_body_spectra : forall M dec apf aps bd bd2 edists idist m c e cme p1 p2,
  In c (counted_list m) -> final KL c = [p1; p2] -> (m <> Photon -> forall e E, dec m Pi0 e E = 0) ->
  0 < cme -> above M c cme ->
  exists E1 E2, E1 + E2 = cme /\ E1 ^ 2 - mass_of M p1 ^ 2 = E2 ^ 2 - mass_of M p2 ^ 2 /\
  spectrum_of M dec apf aps bd bd2 edists idist m c e cme =
  contribution dec m e p1 E1 + contribution dec m e p2 E2 +
  (radiates M apf aps m e (cme ^ 2) p1 + radiates M apf aps m e (cme ^ 2) p2).
Proof.
  intros M dec apf aps bd bd2 edists idist m c e cme p1 p2 Hc Hf H0 Hcme A.
  exists ((cme ^ 2 + mass_of M p1 ^ 2 - mass_of M p2 ^ 2) / (2 * cme)).
  exists ((cme ^ 2 - mass_of M p1 ^ 2 + mass_of M p2 ^ 2) / (2 * cme)).
  split; [field; lra|]. split; [field; lra|].
  assert (Hh : forall mm, (cme ^ 2 + mm ^ 2 - mm ^ 2) / (2 * cme) = cme / 2) by (intro; field; lra).
  assert (Hh' : forall mm, (cme ^ 2 - mm ^ 2 + mm ^ 2) / (2 * cme) = cme / 2) by (intro; field; lra).
  assert (Hg : forall mm, (cme ^ 2 + mm ^ 2 - 0 ^ 2) / (2 * cme) = (cme ^ 2 + mm ^ 2) / (2 * cme))
    by (intro; field; lra).
  assert (H0' : m = Photon \/ forall e E, dec m Pi0 e E = 0)
    by (destruct m; [left; reflexivity|right; apply H0; discriminate..]).
  destruct m; each_of Hc; cbn [final] in Hf; try discriminate Hf; injection Hf as <- <-;
    destruct H0' as [Hm|Hz]; try discriminate Hm;
    cbn [spectrum_of photon_spectrum positron_spectrum neutrino_spectrum];
    unfold m_gamma, m_phi_state, two_body;
    try open_guard;
    unfold above in A; cbn in A;
    repeat match goal with |- context [Rlt_dec ?a ?b] => destruct (Rlt_dec a b); [exfalso; lra|] end;
    cbn [contribution mult charged radiates is_lepton mass_of run_slot];
    rewrite ?Hh, ?Hh', ?Hg, ?Hz; lra.
Qed.
Print Assumptions two_body_spectra.
Example two_body_spectra_ex : In EtaOmega (counted_list Positron) /\ final KL EtaOmega = [Dec Eta; Dec Omega] /\
  above masses1 EtaOmega 1400.
Proof. split; [cbn; tauto|]. split; [reflexivity|]. unfold above. cbn. lra. Qed.

(** Nothing comes out of a closed channel *)
Theorem closed_spectra_zero : forall M dec apf aps bd bd2 edists idist m c e cme,
  m_pi0 M <= m_omega M -> cme < sumR (map (mass_of M) (final KL c)) ->
  spectrum_of M dec apf aps bd bd2 edists idist m c e cme = 0.
Proof.
  intros M dec apf aps bd bd2 edists idist m c e cme Ho H.
  destruct m; destruct c; cbn [spectrum_of photon_spectrum positron_spectrum neutrino_spectrum];
    try reflexivity; cbn in H;
    unfold n_body_photon, m_gamma, m_phi_state, photon_pi0_pi0_gamma;
    try (apply guarded_closed; cbn [open_at]; lra);
    match goal with |- context [Rlt_dec ?a ?b] => destruct (Rlt_dec a b); [reflexivity|exfalso; lra] end.
Qed.
Print Assumptions closed_spectra_zero.
Example closed_spectra_zero_ex : m_pi0 masses1 <= m_omega masses1 /\
  400 < sumR (map (mass_of masses1) (final KL PiPiPi0)).
Proof. cbn. lra. Qed.

(** The photons of pi0 pi0 gamma: if every line is one photon and a neutral pion gives twice 98.823 % photons,
    the final state has 2 n + 1 photons.  The second pion and the photon are weighted once more with the
    branching ratio of the omega that is in the width already. *)
Theorem pi0_pi0_gamma_photons : forall M apf aps edists idist e cme,
  m_pi0 M + m_omega M <= cme ->
  let n := 2 * (98823 / 100000) in
  photon_spectrum M (fun _ _ _ _ => n) apf aps (fun _ _ _ => 1) (fun _ _ _ _ => 1) edists idist Pi0Pi0A e cme =
  n + 834 / 10000 * (n + 1).
Proof.
  intros M apf aps edists idist e cme H n. cbn [photon_spectrum]. unfold photon_pi0_pi0_gamma.
  rewrite guarded_open by exact H. cbv zeta. unfold n. lra.
Qed.
Print Assumptions pi0_pi0_gamma_photons.
Theorem pi0_pi0_gamma_photons_refuted : forall M apf aps edists idist, exists e cme,
  let n := 2 * (98823 / 100000) in
  m_pi0 M + m_omega M <= cme /\
  photon_spectrum M (fun _ _ _ _ => n) apf aps (fun _ _ _ => 1) (fun _ _ _ _ => 1) edists idist Pi0Pi0A e cme <>
  2 * n + 1.
Proof.
  intros M apf aps edists idist. exists 1, (m_pi0 M + m_omega M). split; [lra|].
  rewrite pi0_pi0_gamma_photons by lra. lra.
Qed.
Print Assumptions pi0_pi0_gamma_photons_refuted.
(** Their energies and boosts are those of the decay chain V -> pi0 omega, omega -> pi0 gamma, pi0 -> gamma gamma, in the rest
    frames of the V, the omega and the second pion. *)
Definition speed (p : vec) : R := sqrt (px p ^ 2 + py p ^ 2 + pz p ^ 2) / en p.
Lemma pair_kinematics q m1 m2 p1 p2 : 0 < q -> event q [m1; m2] [p1; p2] ->
  en p1 = (q ^ 2 + m1 ^ 2 - m2 ^ 2) / (2 * q) /\ en p2 = (q ^ 2 - m1 ^ 2 + m2 ^ 2) / (2 * q)
  /\ (0 < m1 -> speed p1 = sqrt (1 - / (en p1 / m1) ^ 2)) /\ (0 < m2 -> speed p2 = sqrt (1 - / (en p2 / m2) ^ 2)).
Proof.
  intros Hq [F E]. inversion F as [|? ? ? ? [S1 L1] F1]; subst. inversion F1 as [|? ? ? ? [S2 L2] F2]; subst.
  pose proof (f_equal en E) as Ee. pose proof (f_equal px E) as Ex. pose proof (f_equal py E) as Ey. pose proof (f_equal pz E) as Ez.
  cbn [vsum fold_right vplus en px py pz] in Ee, Ex, Ey, Ez.
  assert (X : px p2 = - px p1) by lra. assert (Y : py p2 = - py p1) by lra. assert (Z : pz p2 = - pz p1) by lra.
  rewrite X, Y, Z in S2. clear Ex Ey Ez.
  assert (E1 : en p1 = (q ^ 2 + m1 ^ 2 - m2 ^ 2) / (2 * q)) by (apply Rmult_eq_reg_r with (2 * q); [field_simplify; [|lra]; nra|lra]).
  assert (E2 : en p2 = (q ^ 2 - m1 ^ 2 + m2 ^ 2) / (2 * q)) by (apply Rmult_eq_reg_r with (2 * q); [field_simplify; [|lra]; nra|lra]).
  split; [exact E1|]. split; [exact E2|].
  assert (W : forall m p, 0 < m -> m <= en p -> en p ^ 2 = px p ^ 2 + py p ^ 2 + pz p ^ 2 + m ^ 2 -> speed p = sqrt (1 - / (en p / m) ^ 2)).
  { intros m p Hm L S. unfold speed. replace (px p ^ 2 + py p ^ 2 + pz p ^ 2) with (en p ^ 2 - m ^ 2) by lra.
    replace (1 - / (en p / m) ^ 2) with ((en p ^ 2 - m ^ 2) / en p ^ 2) by (field; split; lra).
    rewrite sqrt_div_alt by (apply pow_lt; lra). rewrite sqrt_pow2 by lra. reflexivity. }
  split; intro H; apply W; try assumption. rewrite X, Y, Z. lra.
Qed.
Theorem pi0_pi0_gamma_kinematics : forall M dec apf aps bd bd2 edists idist e cme p1 po p2 k,
  0 < m_pi0 M -> 0 < m_omega M -> m_pi0 M + m_omega M <= cme ->
  event cme [m_pi0 M; m_omega M] [p1; po] -> event (m_omega M) [m_pi0 M; 0] [p2; k] ->
  photon_spectrum M dec apf aps bd bd2 edists idist Pi0Pi0A e cme
  = dec Photon Pi0 e (en p1) + 834 / 10000 * bd e (en k) (speed po) + 2 * (834 / 10000) * (98823 / 100000) * bd2 e (m_pi0 M / 2) (speed p2) (speed po).
Proof.
  intros M dec apf aps bd bd2 edists idist e cme p1 po p2 k Hp Ho Hc E1 E2.
  assert (Hq : 0 < cme) by lra. destruct (pair_kinematics _ _ _ _ _ Hq E1) as (A1 & A2 & _ & A4). destruct (pair_kinematics _ _ _ _ _ Ho E2) as (B1 & B2 & B3 & _).
  cbn [photon_spectrum]. unfold photon_pi0_pi0_gamma. rewrite guarded_open by exact Hc. cbv zeta.
  rewrite (A4 Ho), (B3 Hp), B2, B1, A1, A2.
  replace ((m_omega M ^ 2 + m_pi0 M ^ 2 - 0 ^ 2) / (2 * m_omega M) / m_pi0 M) with ((m_omega M ^ 2 + m_pi0 M ^ 2) / (2 * m_omega M * m_pi0 M)) by (field; lra).
  replace ((m_omega M ^ 2 - m_pi0 M ^ 2 + 0 ^ 2) / (2 * m_omega M)) with ((m_omega M ^ 2 - m_pi0 M ^ 2) / (2 * m_omega M)) by (field; lra).
  reflexivity.
Qed.
Print Assumptions pi0_pi0_gamma_kinematics.
(** A pion of mass 3 and an omega of mass 7.5 with opposite momenta 4 *)
Example pi0_pi0_gamma_kinematics_ex : event 13.5 [3; 7.5] [V4 5 4 0 0; V4 8.5 (-4) 0 0] /\ event 7.5 [3; 0] [V4 4.35 0 0 3.15; V4 3.15 0 0 (-3.15)].
Proof.
  split; (split; [repeat (apply Forall2_cons; [split; cbn [en px py pz]; lra|]); apply Forall2_nil|]);
    apply vec_eq; cbn [vsum fold_right vplus en px py pz]; lra.
Qed.

(** * C91: every particle decays with its own energy *)

(** All the weight on the first distribution *)
Definition first_only (c : chan) : list dist1 :=
  match final KL c with [] => [] | _ :: r => flat :: map (fun _ => nothing) r end.

(** The parent that tells the first slot from the first particle of the form factor *)
Definition teller (m : messenger) (c : chan) (ps : list parent) : parent :=
  match m, c with
  | _, PiPiPi0 => PiC
  | _, (PiPiPiPi | PiPiPi0Pi0) => KC
  | _, _ => match ps with p :: _ => p | [] => PiC end
  end.

(** Only the photons of pi pi pi0 pi0 use the energy distribution of each particle for that particle *)
Theorem matched_iff : forall M m c, In c multi -> (matched M m c <-> m = Photon /\ c = PiPiPi0Pi0).
Proof.
  intros M m c Hc. split.
  - intros (ps & Hps & H).
    assert (A : above M c (sumR (map (mass_of M) (final KL c)))) by (unfold above; apply Rle_refl).
    assert (Hl : length (first_only c) = length ps).
    { each_of Hc; each_of Hps; reflexivity. }
    assert (W : m <> Photon -> forall e ep : R, (fun (_ : messenger) q (_ _ : R) => only (teller m c ps) q) m Pi0 e ep = 0).
    { intros _ e ep. each_of Hc; each_of Hps; destruct m; reflexivity. }
    specialize (H (fun _ q _ _ => only (teller m c ps) q) (fun c' _ => first_only c') (fun _ _ _ => []) 0 _ W Hl A).
    set (cme := sumR (map (mass_of M) (final KL c))) in *. clearbody cme.
    destruct m; each_of Hc; try (split; reflexivity); exfalso; each_of Hps;
      cbn [spectrum_of photon_spectrum positron_spectrum neutrino_spectrum] in H; unfold n_body_photon in H;
      rewrite guarded_open in H by (apply open_above; [assumption|discriminate|cbn; tauto]);
      cbn in H; unfold pair_radiation in H; cbn in H; unfold only in H; cbn in H; lra.
  - intros [-> ->]. exists [PiC; PiC; Pi0; Pi0]. split; [left; reflexivity|].
    intros dec edists idist e cme _ Hl A. cbn [spectrum_of photon_spectrum]. unfold n_body_photon. open_guard.
    cbn [radiating_pairs fold_left fst snd]. rewrite pair_radiation_none.
    destruct (four _ Hl) as (d1 & d2 & d3 & d4 & ->). unfold n_body. cbn. ring.
Qed.
Print Assumptions matched_iff.
Example matched_ex : matched masses1 Photon PiPiPi0Pi0 /\ ~ matched masses1 Photon PiPiPi0.
Proof.
  split; [apply matched_iff; [cbn; tauto|split; reflexivity]|].
  intro H. apply matched_iff in H; [|cbn; tauto]. destruct H. discriminate.
Qed.
Theorem matched_refuted : forall M m, exists c, In c multi /\ ~ matched M m c.
Proof.
  intros M m. exists PiPiPi0. split; [cbn; tauto|]. intro H. apply matched_iff in H; [|cbn; tauto].
  destruct H. discriminate.
Qed.
Print Assumptions matched_refuted.

(** The consequence for the states with one heavy and two light mesons: the heavy one is given the energies of
    a light one.  Up to an energy of twice its mass these are all below its mass, where it has no decay
    products, and nothing of its decay is left. *)
Definition heavy_of (c : chan) : option (parent * parent) :=
  match c with
  | PiPiEta => Some (Eta, PiC)
  | PiPiEtap => Some (EtaP, PiC)
  | PiPiOmega => Some (Omega, PiC)
  | Pi0Pi0Omega => Some (Omega, Pi0)
  | _ => None
  end.
(** Greatest energy of a light meson that recoils from the heavy one and the other light one *)
Definition greatest_energy (cme ml mh : R) : R := (cme ^ 2 + ml ^ 2 - (mh + ml) ^ 2) / (2 * cme).

Theorem heavy_decay_lost : forall M dec dec' apf aps bd bd2 edists idist m c h l e cme,
  heavy_of c = Some (h, l) ->
  (forall p, p <> h -> forall e ep, dec m p e ep = dec' m p e ep) ->
  (forall e ep, ep < mass_of M (Dec h) -> dec m h e ep = 0 /\ dec' m h e ep = 0) ->
  0 < mass_of M (Dec h) -> 0 <= mass_of M (Dec l) -> 0 < cme <= 2 * mass_of M (Dec h) ->
  length (edists c cme) = 3%nat ->
  (forall x p, In (x, p) (nth 2 (edists c cme) []) ->
     x <= greatest_energy cme (mass_of M (Dec l)) (mass_of M (Dec h))) ->
  spectrum_of M dec apf aps bd bd2 edists idist m c e cme =
  spectrum_of M dec' apf aps bd bd2 edists idist m c e cme.
Proof.
  intros M dec dec' apf aps bd bd2 edists idist m c h l e cme Hc Ho Hh Pm Pl [P1 P2] Hl Hx.
  set (mh := mass_of M (Dec h)) in *. set (ml := mass_of M (Dec l)) in *.
  assert (G : greatest_energy cme ml mh < mh).
  { unfold greatest_energy. apply (Rmult_lt_reg_r (2 * cme)); [lra|]. unfold Rdiv. rewrite Rmult_assoc.
    rewrite Rinv_l by lra. nra. }
  destruct (three _ Hl) as (d1 & d2 & d3 & E). rewrite E in Hx. cbn [nth] in Hx.
  assert (Z1 : trapz (map (fun xp : R * R => (fst xp, snd xp * dec m h e (fst xp))) d3) = 0).
  { apply trapz_zero. intros [x p] Hin. cbn [fst snd]. rewrite (proj1 (Hh e x (Rle_lt_trans _ _ _ (Hx x p Hin) G))).
    ring. }
  assert (Z2 : trapz (map (fun xp : R * R => (fst xp, snd xp * dec' m h e (fst xp))) d3) = 0).
  { apply trapz_zero. intros [x p] Hin. cbn [fst snd]. rewrite (proj2 (Hh e x (Rle_lt_trans _ _ _ (Hx x p Hin) G))).
    ring. }
  assert (S : forall p d, p <> h -> trapz (map (fun xp : R * R => (fst xp, snd xp * dec m p e (fst xp))) d) =
                                    trapz (map (fun xp : R * R => (fst xp, snd xp * dec' m p e (fst xp))) d)).
  { intros p d Hp. apply trapz_ext. intros xp _. rewrite (Ho p Hp). reflexivity. }
  clearbody mh ml.
  destruct c; try discriminate Hc; injection Hc as <- <-;
    destruct m; cbn [spectrum_of photon_spectrum positron_spectrum neutrino_spectrum];
    unfold n_body_photon; cbn [radiating_pairs fold_left]; rewrite E; unfold n_body;
    cbn [photon_slots positron_slots neutrino_slots combine fold_left fst snd run_slot];
    rewrite Z1, Z2, ?(S PiC), ?(S Pi0) by discriminate; reflexivity.
Qed.
Print Assumptions heavy_decay_lost.
Example heavy_decay_lost_ex :
  let low := 149 in
  low <= greatest_energy 1200 (mass_of masses1 (Dec PiC)) (mass_of masses1 (Dec Omega)) /\
  1200 <= 2 * mass_of masses1 (Dec Omega) /\ above masses1 PiPiOmega 1200 /\
  (fun e ep : R => if Rlt_dec ep (m_omega masses1) then 0 else 1) 10 900 = 1.
Proof.
  unfold greatest_energy, above. cbn. repeat split; try lra. destruct (Rlt_dec 900 780); lra.
Qed.

(** Radiation off pairs of pions: it should depend on the pairs of charged ones only.  So it does for the four
    pions, *)
Definition charged_in (ps : list parent) (pr : nat * nat) : Prop :=
  nth (fst pr) ps Pi0 = PiC /\ nth (snd pr) ps Pi0 = PiC.
Definition pairs_charged (M : masses) (c : chan) : Prop :=
  forall dec apf aps bd bd2 edists idist idist' e cme,
    (forall ps pr, In ps (fsp_choices c) -> charged_in ps pr -> idist c cme pr = idist' c cme pr) ->
    photon_spectrum M dec apf aps bd bd2 edists idist c e cme =
    photon_spectrum M dec apf aps bd bd2 edists idist' c e cme.
Theorem radiating_pairs_iff : forall M c, In c multi -> (pairs_charged M c <-> c <> PiPiPi0).
Proof.
  intros M c Hc. split.
  - intros H ->.
    specialize (H (fun _ _ _ _ => 0) rad0 (fun _ _ _ => 1) rad0 rad1 (fun _ _ => []) (fun _ _ _ => flat)
                  (fun _ _ pr => match pr with (0%nat, 1%nat) => nothing | _ => flat end) 0
                  (open_at M PiPiPi0)).
    cbn [photon_spectrum] in H. unfold n_body_photon in H. rewrite !guarded_open in H by apply Rle_refl.
    rewrite n_body_none in H. cbn [radiating_pairs fold_left fst snd] in H. unfold pair_radiation in H. cbn in H.
    assert (B : forall ps pr, In ps [[Pi0; PiC; PiC]] -> charged_in ps pr ->
                flat = match pr with (0%nat, 1%nat) => nothing | _ => flat end).
    { intros ps [i j] [<-|[]] [Hi Hj]. destruct i; [cbn in Hi; discriminate|reflexivity]. }
    specialize (H B). lra.
  - intros Hn dec apf aps bd bd2 edists idist idist' e cme H.
    each_of Hc; try contradiction; cbn [photon_spectrum]; unfold n_body_photon; f_equal;
      cbn [radiating_pairs fold_left fst snd]; try reflexivity; unfold pair_radiation;
      rewrite ?(H _ (0%nat, 1%nat) (or_introl eq_refl)) by (split; reflexivity);
      rewrite ?(H _ (1%nat, 2%nat) (or_introl eq_refl)) by (split; reflexivity);
      rewrite ?(H _ (2%nat, 3%nat) (or_introl eq_refl)) by (split; reflexivity); reflexivity.
Qed.
Print Assumptions radiating_pairs_iff.
(** ... but in pi pi pi0 the radiating pair is a neutral and a charged pion *)
Theorem radiating_pair_refuted : forall M, exists c, In c multi /\ ~ pairs_charged M c.
Proof.
  intro M. exists PiPiPi0. split; [left; reflexivity|]. intro H.
  apply radiating_pairs_iff in H; [|left; reflexivity]. apply H. reflexivity.
Qed.
Print Assumptions radiating_pair_refuted.

(** * C93: two mediators *)

Lemma sum_left (l : list R) : forall a, fold_left Rplus l a = a + sumR l.
Proof. induction l as [|x l IH]; intro a; cbn [fold_left]; [unfold sumR; cbn; ring|]. rewrite IH. unfold sumR. cbn. ring. Qed.

Lemma sumR_perm l l' : Permutation l l' -> sumR l = sumR l'.
Proof. induction 1; unfold sumR in *; cbn [fold_right]; lra. Qed.

(** A sum over a dictionary is a sum over its keys *)
Lemma dict_sum (pw : dict R) (g : string -> R -> R) : NoDup (dkeys pw) ->
  sumR (map (fun kw : string * R => g (fst kw) (snd kw)) pw) =
  sumR (map (fun k => match dget pw k with Some w => g k w | None => 0 end) (dkeys pw)).
Proof.
  induction pw as [|[k w] pw IH]; intro H; [reflexivity|].
  unfold dkeys in *. cbn [map fst snd] in *. inversion_clear H as [|? ? Hk Hn].
  cbn [dget]. rewrite String.eqb_refl. unfold sumR in *. cbn [fold_right]. f_equal. rewrite (IH Hn).
  f_equal. apply map_ext_in. intros k' Hk'. destruct (String.eqb_spec k k') as [->|_]; [contradiction|reflexivity].
Qed.

(** The photons of a mediator at rest: the sum over all its decay channels, weighted with the branching
    fractions, for two mediators.  [f] gives the photon spectrum of the channel of a given name. *)
Theorem rest_frame_complete : forall M dec apf aps bd bd2 edists idist mv pw e (f : string -> R),
  Permutation (dkeys pw) (map (fun ct : chan * bool => cname (fst ct)) partial_width_calls) -> 2 * m_e M <= mv ->
  (forall c, f (cname c) = photon_spectrum M dec apf aps bd bd2 edists idist c e mv) ->
  vv_rest_frame M dec apf aps bd bd2 edists idist mv pw e =
  2 * sumR (map (fun kw : string * R => snd kw / sumR (dvals pw) * f (fst kw)) pw).
Proof.
  intros M dec apf aps bd bd2 edists idist mv pw e f Hp Hm Hf. unfold vv_rest_frame.
  destruct (Rlt_dec mv (2 * m_e M)); [lra|]. cbv zeta. rewrite !sum_left, !Rplus_0_l. f_equal.
  set (tot := sumR (dvals pw)). clearbody tot.
  assert (Hn : NoDup (dkeys pw)).
  { apply (Permutation_NoDup (Permutation_sym Hp)). cbn.
    repeat (constructor; [cbn; intuition discriminate|]). constructor. }
  rewrite (dict_sum pw (fun k w => w / tot * f k) Hn).
  set (g := fun k => match dget pw k with Some w => w / tot * f k | None => 0 end).
  rewrite (sumR_perm _ _ (Permutation_map g Hp)). rewrite map_map.
  assert (E : forall c, match dget pw (cname c) with Some w => w / tot | None => 0 end *
                        photon_spectrum M dec apf aps bd bd2 edists idist c e mv = g (cname c)).
  { intro c. unfold g. rewrite Hf. destruct (dget pw (cname c)); ring. }
  rewrite (map_ext _ _ E).
  assert (Z : forall c, In c [VeVe; VmVm; VtVt; XX] -> g (cname c) = 0).
  { intros c Hc. rewrite <- E. each_of Hc; cbn [photon_spectrum]; ring. }
  clearbody g. unfold sumR, vv_channels. cbn [map partial_width_calls fst fold_right].
  rewrite (Z VeVe), (Z VmVm), (Z VtVt), (Z XX) by (cbn; tauto). ring.
Qed.
Print Assumptions rest_frame_complete.
Example rest_frame_complete_ex :
  let pw := map (fun ct : chan * bool => (cname (fst ct), 1)) partial_width_calls in
  Permutation (dkeys pw) (map (fun ct : chan * bool => cname (fst ct)) partial_width_calls) /\ 2 * m_e masses1 <= 10 /\
  forall F : chan -> R, exists f : string -> R, forall c, f (cname c) = F c.
Proof.
  cbv zeta. split; [unfold dkeys; rewrite map_map; apply Permutation_refl|]. split; [cbn; lra|].
  intro F.
  set (L := [EE; MuMu; VeVe; VmVm; VtVt; XX; PiPi; Pi0Pi0; K0K0; KK; Pi0A; EtaA; Pi0Phi; EtaPhi; EtaOmega; Pi0Pi0A;
    PiPiPi0; PiPiEta; PiPiEtap; PiPiOmega; Pi0Pi0Omega; Pi0K0K0; Pi0KK; PiKK0; PiPiPiPi; PiPiPi0Pi0]).
  exists (fun s => match find (fun c => String.eqb (cname c) s) L with Some c => F c | None => 0 end).
  intro c. destruct c; reflexivity.
Qed.

(** Two mediators need an energy of twice their mass *)
Theorem photon_vv_closed : forall M dec apf aps bd bd2 edists idist bst mv pw e cme,
  0 < mv -> cme < 2 * mv -> photon_vv M dec apf aps bd bd2 edists idist bst mv pw e cme = 0.
Proof.
  intros M dec apf aps bd bd2 edists idist bst mv pw e cme Hm H. unfold photon_vv.
  destruct (Rlt_dec (1 / 2 * cme / mv) 1) as [_|Hn]; [reflexivity|]. exfalso. apply Hn.
  apply (Rmult_lt_reg_r mv); [exact Hm|]. unfold Rdiv. rewrite Rmult_assoc, Rinv_l by lra. lra.
Qed.
Print Assumptions photon_vv_closed.

(** The boost is that of the mediators in the frame of the pair: energy cme/2 each *)
Theorem photon_vv_boost : forall M dec apf aps bd bd2 edists idist mv pw e cme,
  0 < mv -> 2 * mv <= cme ->
  exists beta, 0 <= beta < 1 /\ mv / sqrt (1 - beta ^ 2) = cme / 2 /\
  forall bst, exists lines,
    photon_vv M dec apf aps bd bd2 edists idist bst mv pw e cme =
    bst (vv_rest_frame M dec apf aps bd bd2 edists idist mv pw) beta e + lines /\
    ((forall e0, bd e e0 beta = 0) -> lines = 0).
Proof.
  intros M dec apf aps bd bd2 edists idist mv pw e cme Hm Hc.
  set (g := 1 / 2 * cme / mv).
  assert (Hg : 1 <= g).
  { unfold g. apply (Rmult_le_reg_r mv); [exact Hm|]. unfold Rdiv. rewrite (Rmult_assoc (1 * / 2 * cme)), Rinv_l by lra. lra. }
  assert (Hi : 0 < / g ^ 2 <= 1).
  { split; [apply Rinv_0_lt_compat; nra|]. rewrite <- Rinv_1. apply Rinv_le_contravar; nra. }
  exists (sqrt (1 - / g ^ 2)).
  assert (B2 : sqrt (1 - / g ^ 2) ^ 2 = 1 - / g ^ 2) by (apply pow2_sqrt; lra).
  split; [split; [apply sqrt_pos|]|split].
  - assert (Hs : sqrt (1 - / g ^ 2) < sqrt 1) by (apply sqrt_lt_1; lra). rewrite sqrt_1 in Hs. exact Hs.
  - rewrite B2. replace (1 - (1 - / g ^ 2)) with ((/ g) ^ 2) by (field; lra).
    rewrite sqrt_pow2 by (left; apply Rinv_0_lt_compat; lra). unfold g. field. split; lra.
  - intro bst. unfold photon_vv. fold g. destruct (Rlt_dec g 1); [lra|]. cbv zeta.
    eexists. split; [rewrite Rplus_assoc; reflexivity|]. intro Z. rewrite !Z. ring.
Qed.
Print Assumptions photon_vv_boost.
Example photon_vv_boost_ex : 0 < 500 /\ 2 * 500 <= 1300.
Proof. lra. Qed.

(** A mediator that decays into neither pi0 gamma nor eta gamma has no photon lines; the code adds them all
    the same *)
Theorem photon_vv_lines_refuted : exists M bd mv pw e cme,
  dget pw "pi0 gamma"%string = Some 0 /\ dget pw "eta gamma"%string = Some 0 /\ 2 * mv <= cme /\
  forall dec apf aps bd2 edists idist,
  photon_vv M dec apf aps bd bd2 edists idist (fun _ _ _ => 0) mv pw e cme <> 0.
Proof.
  exists masses1, (fun _ _ _ => 1), 600, [("pi0 gamma"%string, 0); ("eta gamma"%string, 0); ("e e"%string, 1)], 100, 1300.
  split; [reflexivity|]. split; [reflexivity|]. split; [lra|].
  intros. unfold photon_vv. destruct (Rlt_dec _ 1); [exfalso; lra|]. cbv zeta. lra.
Qed.
Print Assumptions photon_vv_lines_refuted.

(** The line of pi0 gamma is not at the energy of a photon that recoils from a neutral pion *)
Theorem photon_vv_line_energy_refuted : exists M mv cme, m_pi M <> m_pi0 M /\ 2 * mv <= cme /\
  forall dec apf aps bd2 edists idist pw e,
  photon_vv M dec apf aps (fun _ e0 _ => e0) bd2 edists idist (fun _ _ _ => 0) mv pw e cme <>
  2 * ((mv ^ 2 - m_pi0 M ^ 2) / (2 * mv)) + 2 * ((mv ^ 2 - m_eta M ^ 2) / (2 * mv)).
Proof.
  exists masses1, 600, 1300. split; [cbn; lra|]. split; [lra|].
  intros. unfold photon_vv. destruct (Rlt_dec _ 1); [exfalso; lra|]. cbv zeta. cbn -[pow]. lra.
Qed.
Print Assumptions photon_vv_line_energy_refuted.

(** Positrons and neutrinos: the boost factor is upside down, and at every energy at which two mediators can
    be produced and move there are none *)
Theorem lepton_vv_lost : forall M dec apf aps bd bd2 edists idist bst m mv e cme,
  0 < mv -> 2 * mv < cme -> lepton_vv M dec apf aps bd bd2 edists idist bst m mv e cme = 0.
Proof.
  intros M dec apf aps bd bd2 edists idist bst m mv e cme Hm H. unfold lepton_vv.
  destruct (Rlt_dec (2 * mv / cme) 1) as [_|Hn]; [reflexivity|]. exfalso. apply Hn.
  apply (Rmult_lt_reg_r cme); [lra|]. unfold Rdiv. rewrite Rmult_assoc, Rinv_l by lra. lra.
Qed.
Print Assumptions lepton_vv_lost.
Definition muons_only : messenger -> parent -> R -> R -> R := fun _ p _ _ => only Muon p.
Theorem lepton_vv_refuted : forall m, m <> Photon -> exists M mv cme bst,
  2 * mv < cme /\ (forall g beta e, bst g beta e = g e) /\
  (forall edists idist bd bd2 e, spectrum_of M muons_only rad0 rad0 bd bd2 edists idist m MuMu e mv = 2) /\
  (forall edists idist bd bd2 e, lepton_vv M muons_only rad0 rad0 bd bd2 edists idist bst m mv e cme = 0).
Proof.
  intros m Hm. exists masses1, 300, 700, (fun g _ e => g e). split; [lra|]. split; [reflexivity|]. split.
  - intros. destruct m; [contradiction| |]; cbn [spectrum_of positron_spectrum neutrino_spectrum]; rewrite guarded_open;
      unfold muons_only, only; cbn; lra.
  - intros. apply lepton_vv_lost; lra.
Qed.
Print Assumptions lepton_vv_refuted.
(** At an energy that is too low for two mediators, on the other hand, there are positrons *)
Theorem lepton_vv_forbidden_refuted : exists M mv cme bst,
  0 < cme < 2 * mv /\ (forall g beta e, bst g beta e = g e) /\
  forall edists idist bd bd2 e, lepton_vv M muons_only rad0 rad0 bd bd2 edists idist bst Positron mv e cme <> 0.
Proof.
  exists masses1, 150, 250, (fun g _ e => g e). split; [lra|]. split; [reflexivity|].
  intros edists idist bd bd2 e. unfold lepton_vv. destruct (Rlt_dec _ 1); [exfalso; lra|]. cbv zeta.
  cbn [vv_channels fold_left spectrum_of].
  assert (Z : forall c, In c vv_channels -> c <> MuMu ->
              positron_spectrum masses1 muons_only edists c e 250 = 0).
  { intros c Hc Hn. destruct (Rlt_dec 250 (sumR (map (mass_of masses1) (final KL c)))) as [Hl|Hl].
    - change (spectrum_of masses1 muons_only rad0 rad0 bd bd2 edists idist Positron c e 250 = 0).
      apply closed_spectra_zero; [cbn; lra|exact Hl].
    - destruct c; try contradiction; cbn [positron_spectrum]; try reflexivity; exfalso; apply Hl; cbn; lra. }
  rewrite (Z EE), (Z PiPi), (Z K0K0), (Z KK), (Z Pi0A), (Z EtaA), (Z Pi0Phi), (Z EtaPhi), (Z EtaOmega), (Z Pi0Pi0A),
    (Z PiPiPi0), (Z PiPiEta), (Z PiPiEtap), (Z PiPiOmega), (Z Pi0Pi0Omega), (Z Pi0K0K0), (Z Pi0KK), (Z PiKK0), (Z PiPiPiPi), (Z PiPiPi0Pi0)
    by (discriminate || (cbn; tauto)).
  cbn [positron_spectrum]. rewrite guarded_open by (cbn; lra). unfold muons_only, only. cbn. lra.
Qed.
Print Assumptions lepton_vv_forbidden_refuted.

(** * C89: the dictionaries, the neutrino spectra and the lines of the model class *)

Ltac distinct := repeat (constructor; [cbn; intuition discriminate|]); constructor.

(** The cross sections and the three kinds of spectra have the same final states, those with a channel and two
    mediators *)
Theorem keys_agree :
  photon_keys = cross_section_keys /\ positron_keys = cross_section_keys /\ neutrino_keys = cross_section_keys /\
  NoDup cross_section_keys /\
  (forall k, In k cross_section_keys <-> k = "v v"%string \/ exists c, listed c /\ k = cname c) /\
  (forall k, In k list_annihilation_final_states <-> exists c, listed c /\ k = cname c).
Proof.
  split; [reflexivity|]. split; [reflexivity|]. split; [reflexivity|]. split; [distinct|].
  assert (H : forall k, In k list_annihilation_final_states <-> exists c, listed c /\ k = cname c).
  { intro k. split.
    - intro H. 
      assert (E : list_annihilation_final_states =
        map cname [EE; MuMu; VeVe; VtVt; VmVm; PiPi; K0K0; KK; Pi0A; EtaA; Pi0Phi; EtaPhi; EtaOmega; Pi0Pi0A; PiPiPi0;
          PiPiEta; PiPiEtap; PiPiOmega; Pi0Pi0Omega; Pi0K0K0; Pi0KK; PiKK0; PiPiPiPi; PiPiPi0Pi0]) by reflexivity.
      rewrite E in H. apply in_map_iff in H. destruct H as (c & <- & Hc). exists c. split; [|reflexivity].
      split; intros ->; cbn in Hc; intuition discriminate.
    - intros (c & [H1 H2] & ->). destruct c; try contradiction; cbn; tauto. }
  split; [|exact H]. intro k. rewrite <- H.
  assert (E : cross_section_keys = list_annihilation_final_states ++ ["v v"%string]) by reflexivity.
  rewrite E, in_app_iff. cbn [In]. intuition.
Qed.
Print Assumptions keys_agree.

(** The list of final states lacks two mediators, for which there are a cross section and spectra *)
Theorem final_states_refuted : exists k, In k cross_section_keys /\ ~ In k list_annihilation_final_states.
Proof. exists "v v"%string. split; cbn; [tauto|intuition discriminate]. Qed.
Print Assumptions final_states_refuted.

(** The neutrino spectra of the class: one entry per final state, the spectrum times the branching fraction, zero
    without a cross section, and their sum *)
Definition weighted (bfs : dict R) (sig fns : string -> R) (k : string) : R :=
  match dget bfs k with Some b => b * (if Rlt_dec 0 (sig k) then fns k else 0) | None => 0 end.

Lemma spectra_list bfs sig fns : forall keys, (forall k, In k keys -> exists b, dget bfs k = Some b) ->
  dmapM (fun fs (_ : unit) => let* b := dindex bfs fs in Ret (b * wrapped_spectrum sig fns fs))
    (map (fun k => (k, tt)) keys) = Ret (map (fun k => (k, weighted bfs sig fns k)) keys).
Proof.
  induction keys as [|k keys IH]; intro H; [reflexivity|].
  cbn [map dmapM]. destruct (H k (or_introl eq_refl)) as [b Hb]. unfold dindex at 1. rewrite Hb. cbn [bind].
  rewrite IH by (intros; apply H; right; assumption). cbn [bind].
  unfold weighted at 2. rewrite Hb. reflexivity.
Qed.
Lemma dget_weighted bfs sig fns k : forall keys, In k keys ->
  dget (map (fun k => (k, weighted bfs sig fns k)) keys) k = Some (weighted bfs sig fns k).
Proof.
  induction keys as [|k' keys IH]; intros []; cbn [map dget].
  - subst. rewrite String.eqb_refl. reflexivity.
  - destruct (String.eqb_spec k' k) as [->|_]; [reflexivity|apply IH; assumption].
Qed.

Theorem neutrino_spectra_value : forall keys bfs sig fns,
  ~ In "total"%string keys -> (forall k, In k keys -> exists b, dget bfs k = Some b) ->
  exists d, neutrino_spectra keys bfs sig fns = Ret d /\
    (forall k, In k keys -> dget d k = Some (weighted bfs sig fns k)) /\
    dget d "total"%string = Some (sumR (map (weighted bfs sig fns) keys)) /\
    dkeys d = keys ++ ["total"%string].
Proof.
  intros keys bfs sig fns Ht Hb. unfold neutrino_spectra. rewrite spectra_list by exact Hb. cbn [bind].
  eexists. split; [reflexivity|].
  assert (E : dvals (map (fun k => (k, weighted bfs sig fns k)) keys) = map (weighted bfs sig fns) keys)
    by (unfold dvals; rewrite map_map; apply map_ext; reflexivity).
  assert (K : dkeys (map (fun k => (k, weighted bfs sig fns k)) keys) = keys)
    by (unfold dkeys; rewrite map_map; cbn [fst]; apply map_id).
  split; [|split].
  - intros k Hk. rewrite dget_dset_other; [apply dget_weighted; exact Hk|]. intro; subst; contradiction.
  - rewrite dget_dset_same, sum_left, E. f_equal. ring.
  - rewrite dset_fresh by (rewrite K; exact Ht). unfold dkeys in *. rewrite map_app, K. reflexivity.
Qed.
Print Assumptions neutrino_spectra_value.
Example neutrino_spectra_value_ex : ~ In "total"%string cross_section_keys /\
  forall k, In k cross_section_keys -> exists b, dget (map (fun k => (k, 1 / 25)) cross_section_keys) k = Some b.
Proof.
  split; [cbn; intuition discriminate|]. intros k Hk. exists (1 / 25). cbn in Hk.
  repeat (destruct Hk as [<-|Hk]; [reflexivity|]). destruct Hk.
Qed.

(** Documented to return the total spectrum, the method never does: it returns the dictionary *)
Theorem total_neutrino_refuted : forall keys bfs sig fns x,
  total_neutrino_spectrum keys bfs sig fns <> Ret (PNum x).
Proof.
  intros keys bfs sig fns x. unfold total_neutrino_spectrum. destruct (neutrino_spectra keys bfs sig fns); discriminate.
Qed.
Print Assumptions total_neutrino_refuted.

(** The neutrino line of a flavour: half the energy, with the branching fraction of the pair of that flavour *)
Definition flavour_name (f : flavour) : string := match f with NuE => "e" | NuMu => "mu" | NuTau => "tau" end%string.
Definition pair_of (f : flavour) : chan := match f with NuE => VeVe | NuMu => VmVm | NuTau => VtVt end.
Theorem neutrino_lines_value : forall bfs e_cm f b, dget bfs (cname (pair_of f)) = Some b ->
  neutrino_lines bfs e_cm (flavour_name f) = Ret [(cname (pair_of f), (e_cm / 2, b))].
Proof.
  intros bfs e_cm f b Hb. unfold neutrino_lines, dindex. destruct f; cbn in Hb |- *; rewrite Hb; reflexivity.
Qed.
Print Assumptions neutrino_lines_value.
Theorem neutrino_lines_flavour : forall bfs e_cm s, (forall f, s <> flavour_name f) ->
  neutrino_lines bfs e_cm s = Raise ValueError.
Proof.
  intros bfs e_cm s H. unfold neutrino_lines, neutrino_line_energies.
  destruct (String.eqb_spec s "e") as [->|_]; [destruct (H NuE); reflexivity|].
  destruct (String.eqb_spec s "mu") as [->|_]; [destruct (H NuMu); reflexivity|].
  destruct (String.eqb_spec s "tau") as [->|_]; [destruct (H NuTau); reflexivity|]. reflexivity.
Qed.
Print Assumptions neutrino_lines_flavour.
Example neutrino_lines_flavour_ex : forall f, "numu"%string <> flavour_name f.
Proof. intros []; discriminate. Qed.

(** A photon line and the meson of the continuum spectrum share the energy, with opposite momenta *)
Theorem photon_lines_kinematics : forall M cme k E, 0 < cme -> In (k, E) (gamma_ray_line_energies M cme) ->
  exists c p, final KL c = [Dec p; Light] /\ k = cname c /\
  forall dec apf aps bd bd2 edists idist e, above M c cme ->
    exists Em, Em + E = cme /\ Em ^ 2 - mass_of M (Dec p) ^ 2 = E ^ 2 /\
    photon_spectrum M dec apf aps bd bd2 edists idist c e cme = dec Photon p e Em.
Proof.
  intros M cme k E Hc H. unfold gamma_ray_line_energies in H.
  destruct H as [H|[H|[]]]; injection H as <- <-.
  - exists Pi0A, Pi0. split; [reflexivity|]. split; [reflexivity|]. intros dec apf aps bd bd2 edists idist e A.
    exists ((cme ^ 2 + m_pi0 M ^ 2) / (2 * cme)). split; [field; lra|]. split; [cbn [mass_of]; field; lra|].
    cbn [photon_spectrum]. unfold m_gamma. unfold above in A. cbn in A. destruct (Rlt_dec _ _); [exfalso; lra|reflexivity].
  - exists EtaA, Eta. split; [reflexivity|]. split; [reflexivity|]. intros dec apf aps bd bd2 edists idist e A.
    exists ((cme ^ 2 + m_eta M ^ 2) / (2 * cme)). split; [field; lra|]. split; [cbn [mass_of]; field; lra|].
    cbn [photon_spectrum]. unfold m_gamma. unfold above in A. cbn in A. destruct (Rlt_dec _ _); [exfalso; lra|reflexivity].
Qed.
Print Assumptions photon_lines_kinematics.
(** Every final state of a meson and a photon has its line *)
Theorem photon_lines_complete : forall M cme c p, final KL c = [Dec p; Light] ->
  exists E, In (cname c, E) (gamma_ray_line_energies M cme).
Proof. intros M cme c p H. destruct c; try discriminate H; eexists; cbn; eauto. Qed.
Print Assumptions photon_lines_complete.

(** The positron line: the two leptons of "e e" share the energy equally; no other final state has a line *)
Theorem positron_lines_kinematics : forall cme,
  (exists E, dget (positron_line_energies cme) "e e" = Some E) /\
  forall k E, In (k, E) (positron_line_energies cme) -> k = "e e"%string /\ E + E = cme.
Proof.
  intro cme. split; [eexists; reflexivity|]. intros k E [H|[]]. injection H as <- <-. split; [reflexivity|lra].
Qed.
Print Assumptions positron_lines_kinematics.
