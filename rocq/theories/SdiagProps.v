(** C181: decays of the scalar mediator and annihilation through it into photons and pions, against the diagrams. *)
From Coq Require Import Reals Lra Psatz List.
From Verif Require Import PyBase Area MedModel MedProofs SpecProofs DiracProofs ChanProofs ChanProps SdiagProofs.
Import ListNotations.
Local Open Scope R_scope.

Lemma threshold_root M m : 0 <= m -> 2 * m < M -> momentum M m ^ 2 = M ^ 2 / 4 - m ^ 2 /\ 0 < momentum M m /\
  sqrt (M ^ 2 - 4 * m ^ 2) = 2 * momentum M m.
Proof.
  intros H0 H1. pose proof (half_square m M H0 H1) as A. split; [now apply beam_sq|]. split; [now apply beam_pos|].
  rewrite <- (beam_root M m A). f_equal. ring.
Qed.

(** The coefficient of the vertex S F F *)
Definition photon_coupling (C : consts) (S : sparams) : R := c_alpha C * s_gsFF S / (4 * PI * s_lam S).

(** ** Decays
    Every width of the scalar mediator is the golden rule with the squared diagram, halved for identical particles:
    fermions and dark matter by traces, photons by the fields of two waves, pions by the low-energy theorem.  The vacuum
    expectation value of the mediator is zero, as compute_vs always returns. *)
Theorem scalar_widths_from_diagrams : forall C S u, 0 < s_ms S -> s_vs S = 0 -> s_lam S <> 0 -> c_vh C <> 0 ->
  0 <= s_mx S -> 0 <= u -> 0 <= c_mpi C -> 0 <= c_mpi0 C ->
  let M := s_ms S in
  (2 * u < M -> width_s_to_ff_mass C S u = decay_rule M (momentum M u) ((s_gsff S * u / c_vh C) ^ 2 * pair_sum u M 0)) /\
  (2 * s_mx S < M -> width_s_to_xx S = decay_rule M (momentum M (s_mx S)) (s_gsxx S ^ 2 * pair_sum (s_mx S) M 0)) /\
  width_s_to_gg C S = decay_rule M (M / 2) (photon_sum (photon_coupling C S) M 0) / 2 /\
  (2 * c_mpi C < M -> width_s_to_pipi C S = decay_rule M (momentum M (c_mpi C))
     (pion_coupling C S (out_1 M (c_mpi C) 0) (out_2 M (c_mpi C) 0) ^ 2)) /\
  (2 * c_mpi0 C < M -> width_s_to_pi0pi0 C S = decay_rule M (momentum M (c_mpi0 C))
     (pion_coupling C S (out_1 M (c_mpi0 C) 0) (out_2 M (c_mpi0 C) 0) ^ 2) / 2).
Proof.
  intros C S u HM Hvs Hl Hv Hx Hu Hp Hp0 M. pose proof PI_RGT_0 as Hpi. assert (M0 : M <> 0) by (unfold M; lra).
  assert (Z : -1 <= 0 <= 1) by lra. unfold decay_rule. split; [|split; [|split; [|split]]].
  - intro H. rewrite pair_closed by (try assumption; now apply half_square). unfold width_s_to_ff_mass. fold M.
    destruct (Rlt_dec _ _) as [_|]; [|lra]. destruct (threshold_root M u Hu H) as (Q & K0 & E).
    replace (- 4 * u ^ 2 + M ^ 2) with (M ^ 2 - 4 * u ^ 2) by ring. rewrite pow15_val by (pose proof (pow_lt _ 2 K0); lra). rewrite E.
    set (K := momentum M u) in *. clearbody K. replace (M ^ 2 - 4 * u ^ 2) with (4 * K ^ 2) by lra. field. repeat split; try assumption; lra.
  - intro H. rewrite pair_closed by (try assumption; now apply half_square). unfold width_s_to_xx. fold M.
    destruct (Rlt_dec _ _) as [_|]; [|lra]. destruct (threshold_root M (s_mx S) Hx H) as (Q & K0 & E).
    rewrite pow15_val by (pose proof (pow_lt _ 2 K0); lra). rewrite E.
    set (K := momentum M (s_mx S)) in *. clearbody K. replace (M ^ 2 - 4 * s_mx S ^ 2) with (4 * K ^ 2) by lra. field. repeat split; try assumption; lra.
  - rewrite photon_closed by assumption. unfold width_s_to_gg, photon_coupling. fold M. field. repeat split; try assumption; lra.
  - intro H. rewrite pion_coupling_closed by (try assumption; now apply half_square). unfold width_s_to_pipi, width_pion_amplitude. fold M.
    cbv zeta. destruct (Rlt_dec _ _) as [_|]; [|lra]. destruct (threshold_root M _ Hp H) as (Q & K0 & E). rewrite Hvs.
    replace (- 4 * c_mpi C ^ 2 + M ^ 2) with (M ^ 2 - 4 * c_mpi C ^ 2) by ring. rewrite E. field. repeat split; try assumption; lra.
  - intro H. rewrite pion_coupling_closed by (try assumption; now apply half_square). unfold width_s_to_pi0pi0, width_pion_amplitude. fold M.
    cbv zeta. destruct (Rlt_dec _ _) as [_|]; [|lra]. destruct (threshold_root M _ Hp0 H) as (Q & K0 & E). rewrite Hvs.
    replace (- 4 * c_mpi0 C ^ 2 + M ^ 2) with (M ^ 2 - 4 * c_mpi0 C ^ 2) by ring. rewrite E. field. repeat split; try assumption; lra.
Qed.
Print Assumptions scalar_widths_from_diagrams.

Definition some_scalar : sparams := MkS 100 1000 1 1 3 (-5 / 6) 246000 0.
Example scalar_widths_from_diagrams_example :
  0 < s_ms some_scalar /\ s_vs some_scalar = 0 /\ s_lam some_scalar <> 0 /\ c_vh py_consts <> 0 /\ 0 <= s_mx some_scalar /\
  0 <= c_mpi py_consts /\ 0 <= c_mpi0 py_consts /\ 2 * s_mx some_scalar < s_ms some_scalar /\ 2 * c_mpi py_consts < s_ms some_scalar /\
  2 * c_mpi0 py_consts < s_ms some_scalar.
Proof. cbn. repeat split; lra. Qed.

(** ** Annihilation
    The cross sections into photons and pions are the golden rule with the beam of dark matter, the propagator of the
    mediator and the same couplings at the energy of the annihilation. *)
Theorem annihilation_through_scalar_golden_rule : forall C S e w, 0 < e -> 0 < w -> 0 < s_ms S -> s_vs S = 0 -> s_lam S <> 0 ->
  c_vh C <> 0 -> 0 <= s_mx S -> 2 * s_mx S < e -> 0 <= c_mpi C -> 0 <= c_mpi0 C ->
  let beam A := s_gsxx S ^ 2 * beam_sum (s_mx S) e * A / breit (s_ms S) w e / 4 in
  channel_rule (s_mx S) (e / 2) e (fun z => beam (photon_sum (photon_coupling C S) e z / 2)) (sigma_xx_to_s_to_gg C S e w) /\
  (2 * c_mpi C < e -> channel_rule (s_mx S) (momentum e (c_mpi C)) e
     (fun z => beam (pion_coupling C S (out_1 e (c_mpi C) z) (out_2 e (c_mpi C) z) ^ 2)) (sigma_xx_to_s_to_pipi C S e w)) /\
  (2 * c_mpi0 C < e -> channel_rule (s_mx S) (momentum e (c_mpi0 C)) e
     (fun z => beam (pion_coupling C S (out_1 e (c_mpi0 C) z) (out_2 e (c_mpi0 C) z) ^ 2 / 2)) (sigma_xx_to_s_to_pi0pi0 C S e w)).
Proof.
  intros C S e w He Hw HM Hvs Hl Hv Hx H1 Hp Hp0 beam. pose proof PI_RGT_0 as Hpi.
  assert (B : 0 < breit (s_ms S) w e).
  { unfold breit. pose proof (pow2_ge_0 (e ^ 2 - s_ms S ^ 2)).
    assert (0 < s_ms S ^ 2 * w ^ 2) by (apply Rmult_lt_0_compat; apply pow_lt; assumption). lra. }
  destruct (threshold_root e _ Hx H1) as (Q & P0 & E). pose proof (half_square _ _ Hx H1) as A1.
  assert (D : s_propagator S e w = breit (s_ms S) w e) by (unfold s_propagator, breit; ring).
  assert (Flat : forall F a v k, (forall z, -1 < z < 1 -> F z = a) -> v = 2 * a * (k / momentum e (s_mx S)) / (32 * PI * e ^ 2) ->
    channel_rule (s_mx S) k e (fun z => beam (F z)) (s_gsxx S ^ 2 * beam_sum (s_mx S) e * v / breit (s_ms S) w e / 4)).
  { intros F a v k HF ->. exists (2 * beam a + 2 * 0 / 3). split.
    - apply (area_ext (fun z => beam a + 0 * z ^ 2) _ _ _ _ []); [|apply quadratic_area]. intros z Hz _. rewrite HF by lra. ring.
    - unfold beam. field. repeat split; try assumption; lra. }
  assert (R2 : forall m, 0 <= m -> 2 * m < e ->
    sqrt ((- 4 * m ^ 2 + e ^ 2) * (- 4 * s_mx S ^ 2 + e ^ 2)) = 4 * momentum e m * momentum e (s_mx S)).
  { intros m H0 H2. destruct (threshold_root e m H0 H2) as (Qm & Pm & Em).
    replace (- 4 * m ^ 2 + e ^ 2) with (e ^ 2 - 4 * m ^ 2) by ring. replace (- 4 * s_mx S ^ 2 + e ^ 2) with (e ^ 2 - 4 * s_mx S ^ 2) by ring.
    rewrite sqrt_mult by (pose proof (half_square _ _ H0 H2); lra). rewrite E, Em. ring. }
  assert (Val : forall F a v x k, (forall z, -1 < z < 1 -> F z = a) -> v = 2 * a * (k / momentum e (s_mx S)) / (32 * PI * e ^ 2) ->
    x = s_gsxx S ^ 2 * beam_sum (s_mx S) e * v / breit (s_ms S) w e / 4 -> channel_rule (s_mx S) k e (fun z => beam (F z)) x).
  { intros F a v x k HF Hv' ->. now apply (Flat F a v k). }
  clear Flat. rewrite (beam_closed _ _ A1) in Val. split; [|split].
  - eapply (Val (fun z => photon_sum (photon_coupling C S) e z / 2)).
    + intros z Hz. rewrite photon_closed by lra. reflexivity.
    + reflexivity.
    + unfold sigma_xx_to_s_to_gg. destruct (Rlt_dec _ _); [lra|]. rewrite D.
      replace (- 4 * s_mx S ^ 2 + e ^ 2) with (e ^ 2 - 4 * s_mx S ^ 2) by ring. rewrite E. unfold photon_coupling.
      field. repeat split; try assumption; lra.
  - intro H2. pose proof (half_square _ _ Hp H2) as A2. eapply (Val (fun z => pion_coupling C S (out_1 e (c_mpi C) z) (out_2 e (c_mpi C) z) ^ 2)).
    + intros z Hz. rewrite pion_coupling_closed by (try assumption; lra). reflexivity.
    + reflexivity.
    + unfold sigma_xx_to_s_to_pipi, xs_pion_amplitude. cbv zeta. destruct (Rlt_dec _ _); [lra|]. destruct (Rlt_dec _ _); [lra|].
      rewrite D, (R2 _ Hp H2), Hvs. field. repeat split; try assumption; lra.
  - intro H2. pose proof (half_square _ _ Hp0 H2) as A2.
    eapply (Val (fun z => pion_coupling C S (out_1 e (c_mpi0 C) z) (out_2 e (c_mpi0 C) z) ^ 2 / 2)).
    + intros z Hz. rewrite pion_coupling_closed by (try assumption; lra). reflexivity.
    + reflexivity.
    + unfold sigma_xx_to_s_to_pi0pi0, xs_pion_amplitude. cbv zeta. destruct (Rlt_dec _ _); [lra|]. destruct (Rlt_dec _ _); [lra|].
      rewrite D, (R2 _ Hp0 H2), Hvs. field. repeat split; try assumption; lra.
Qed.
Print Assumptions annihilation_through_scalar_golden_rule.

Example annihilation_through_scalar_example : 2 * s_mx some_scalar < 700 /\ 2 * c_mpi py_consts < 700 /\ 2 * c_mpi0 py_consts < 700.
Proof. cbn. repeat split; lra. Qed.

(** ** The documentation
    The mass term of the pions in the documented Lagrangian has 2 gSG / (3 Lambda) where the code has 2 gSG / Lambda:
    for every model with gluon coupling the two amplitudes differ by the same amount at all energies, so the documented width
    is not the one of the code.  With 2 gSG / Lambda they agree. *)
Theorem documented_pions_differ : forall C S k k', s_lam S <> 0 -> c_vh C <> 0 ->
  documented_pion_coupling C S k k' - pion_coupling C S k k' = 4 * s_gsGG S * (c_b0 C * (c_muq C + c_mdq C)) / (9 * s_lam S).
Proof.
  intros C S k k' Hl Hv. unfold documented_pion_coupling, pion_coupling, trace_tensor, quark_mass_term, gradients. field. now split.
Qed.
Print Assumptions documented_pions_differ.

Theorem documented_width_refuted : exists C S, 0 < s_ms S /\ s_vs S = 0 /\ s_lam S <> 0 /\ c_vh C <> 0 /\ 0 <= c_mpi C /\
  2 * c_mpi C < s_ms S /\ let M := s_ms S in
  decay_rule M (momentum M (c_mpi C)) (documented_pion_coupling C S (out_1 M (c_mpi C) 0) (out_2 M (c_mpi C) 0) ^ 2)
  < width_s_to_pipi C S.
Proof.
  exists py_consts, some_scalar.
  destruct scalar_widths_from_diagrams_example as (H1 & H2 & H3 & H4 & H5 & H6 & H7 & _ & H9 & _).
  repeat split; try assumption. cbv zeta.
  destruct (scalar_widths_from_diagrams py_consts some_scalar 0 H1 H2 H3 H4 H5 (Rle_refl 0) H6 H7) as (_ & _ & _ & W & _).
  rewrite (W H9). unfold decay_rule. destruct (threshold_root _ _ H6 H9) as (_ & P0 & _). pose proof PI_RGT_0.
  apply Rmult_lt_compat_l.
  { apply Rdiv_lt_0_compat; [exact P0|]. apply Rmult_lt_0_compat; [lra|apply pow_lt; exact H1]. }
  pose proof (documented_pions_differ py_consts some_scalar (out_1 (s_ms some_scalar) (c_mpi py_consts) 0) (out_2 (s_ms some_scalar) (c_mpi py_consts) 0) H3 H4) as D.
  rewrite pion_coupling_closed in * by (try lra; now apply half_square).
  set (d := documented_pion_coupling _ _ _ _) in *. clearbody d.
  cbn [s_gsGG s_lam s_ms s_gsff some_scalar c_b0 c_muq c_mdq c_vh c_mpi py_consts] in *. nra.
Qed.
Print Assumptions documented_width_refuted.

(** ** The documented anomaly of the vector
    docs/source/vector_mediator.rst 28-30 read as an amplitude.  [epsilon4] contracts four vectors; all momenta are outgoing,
    so that the pion has - k - k', and each of the two derivatives gives i times a momentum, together minus one.  For two
    mediators either field may be either of the two. *)
Definition epsilon4 (a b c d : vec) : R := mdot a (dual b c d).
Definition vneg (a : vec) : vec := V4 (- v0 a) (- v1 a) (- v2 a) (- v3 a).
Definition documented_photon (C : consts) (V : vparams) (k a k' v : vec) : R :=
  let p := vsub (vneg k) k' in
  - 1 / (8 * PI ^ 2 * c_fpi C) * (photon_charge C * (2 * v_gvuu V + v_gvdd V) * (epsilon4 p k a v + epsilon4 p k' v a)).
Definition documented_mediators (C : consts) (V : vparams) (k a k' v : vec) : R :=
  let p := vsub (vneg k) k' in
  - 1 / (8 * PI ^ 2 * c_fpi C) * (3 * (v_gvuu V ^ 2 - v_gvdd V ^ 2) * (epsilon4 p k a v + epsilon4 p k' v a)).

(** The couplings of the golden rule are those of the documentation: for a mediator at rest of energy [e] and
    polarisation [v] the amplitude is the coupling times the product of [v] with the current. *)
Theorem documented_anomaly : forall C V e k a v, c_fpi C <> 0 ->
  documented_photon C V k a (vneg (rest e)) v = anomaly_vg C V * mdot v (anomaly_current e a k) /\
  documented_mediators C V k a (vneg (rest e)) v = anomaly_vv C V * mdot v (anomaly_current e a k).
Proof.
  intros C V e k a v Hf. pose proof PI_RGT_0.
  unfold documented_photon, documented_mediators, anomaly_vg, anomaly_vv, anomaly_current, epsilon4, dual, det3, lower, rest, vneg, vsub, mdot.
  cbn [v0 v1 v2 v3]. split; field; split; try assumption; lra.
Qed.
Print Assumptions documented_anomaly.

Example documented_anomaly_example : c_fpi py_consts <> 0 /\
  mdot (V4 0 1 0 0) (anomaly_current 1 (V4 0 0 1 0) (V4 1 0 0 1)) <> 0.
Proof. split; [cbn; lra|]. unfold anomaly_current, dual, det3, lower, rest, mdot. cbn [v0 v1 v2 v3]. lra. Qed.
