(** C178: decays of the vector mediator and annihilation through the mediators, against the diagrams. *)
From Coq Require Import Reals Lra Psatz List.
From Verif Require Import PyBase Area MedModel MedProofs SpecProofs DiracProofs ChanProofs.
Import ListNotations.
Local Open Scope R_scope.

(** the coupling of the anomaly: of a pion to a photon and the mediator, and to two mediators.  The three
    colours of the quarks, of charges 2/3 and -1/3 for the photon, divided by 4 pi^2 fpi *)
Definition photon_charge (C : consts) : R := sqrt (4 * PI * c_alpha C).
Definition anomaly_vg (C : consts) (V : vparams) : R :=
  3 * (2 / 3 * photon_charge C * v_gvuu V - (- (1 / 3)) * photon_charge C * v_gvdd V) / (4 * PI ^ 2 * c_fpi C).
Definition anomaly_vv (C : consts) (V : vparams) : R :=
  3 * (v_gvuu V ^ 2 - v_gvdd V ^ 2) / (4 * PI ^ 2 * c_fpi C).
(** with the couplings of the photon both are the decay of the pion into two photons *)
Lemma anomaly_of_photons : forall C V, v_gvuu V = 2 / 3 * photon_charge C -> v_gvdd V = - (1 / 3) * photon_charge C ->
  anomaly_vg C V = photon_charge C ^ 2 / (4 * PI ^ 2 * c_fpi C) /\ anomaly_vv C V = photon_charge C ^ 2 / (4 * PI ^ 2 * c_fpi C).
Proof. intros C V Hu Hd. unfold anomaly_vg, anomaly_vv. rewrite Hu, Hd. split; unfold Rdiv; f_equal; field. Qed.
Lemma charge_sq : forall C, 0 <= c_alpha C -> photon_charge C ^ 2 = 4 * PI * c_alpha C.
Proof. intros C H. apply pow2_sqrt. pose proof PI_RGT_0. nra. Qed.

Lemma recoil_photon : forall e a, 0 < e -> 0 <= a <= e -> recoil e a 0 = (e ^ 2 - a ^ 2) / (2 * e).
Proof.
  intros e a He Ha. unfold recoil. replace ((e ^ 2 - (a + 0) ^ 2) * (e ^ 2 - (a - 0) ^ 2)) with ((e ^ 2 - a ^ 2) ^ 2) by ring.
  rewrite sqrt_pow2; [reflexivity|nra].
Qed.
Ltac nonzero :=
  match goal with
  | |- _ * _ <> 0 => apply Rmult_integral_contrapositive_currified; nonzero
  | |- _ ^ _ <> 0 => apply pow_nonzero; nonzero
  | _ => first [assumption | apply PI_neq0 | lra]
  end.
Ltac positive :=
  match goal with
  | |- 0 < _ * _ => apply Rmult_lt_0_compat; positive
  | |- 0 < _ ^ _ => apply pow_lt; positive
  | _ => first [assumption | apply PI_RGT_0 | lra | cbn; lra]
  end.
Lemma half_square : forall a e, 0 <= a -> 2 * a < e -> a ^ 2 < e ^ 2 / 4.
Proof. intros. nra. Qed.

(** ** Decays of the vector mediator
    Each width is the golden rule with the spin sum averaged over three polarisations; the sum over them is
    - g for a conserved current. *)
Theorem vector_widths_from_diagrams : forall C V u g, 0 < v_mv V -> 0 <= v_mx V -> 0 <= u -> 0 <= c_mpi C -> 0 <= c_mpi0 C ->
  0 <= c_alpha C -> c_fpi C <> 0 ->
  let M := v_mv V in
  let fermions m := - tr [Spin (out_1 M m 0) m; Vertex 0; Spin (out_2 M m 0) (- m); Vertex 0] / 3 in
  let length2 J := - mdot J J in
  (2 * u < M -> width_v_to_ff_mass V g u = decay_rule M (momentum M u) (g ^ 2 * fermions u)) /\
  (2 * v_mx V < M -> width_v_to_xx V = decay_rule M (momentum M (v_mx V)) (v_gvxx V ^ 2 * fermions (v_mx V))) /\
  (2 * c_mpi C < M -> width_v_to_pipi C V = decay_rule M (momentum M (c_mpi C))
     ((v_gvuu V - v_gvdd V) ^ 2 * length2 (vsub (out_1 M (c_mpi C) 0) (out_2 M (c_mpi C) 0)) / 3)) /\
  (c_mpi0 C < M -> let k := recoil M (c_mpi0 C) 0 in
     width_v_to_pi0g C V = decay_rule M k (anomaly_vg C V ^ 2 *
       (length2 (anomaly_current M across_1 (leaving k 0 0)) + length2 (anomaly_current M (across_2 0) (leaving k 0 0))) / 3)).
Proof.
  intros C V u g HM Hx Hu Hp Hp0 Ha Hf M fermions length2. pose proof PI_RGT_0 as Hpi.
  assert (S1 : sqrt (1 - 0 ^ 2) = 1) by (replace (1 - 0 ^ 2) with 1 by ring; apply sqrt_1).
  assert (Sq : forall m, 0 <= m -> 2 * m < M -> momentum M m ^ 2 = M ^ 2 / 4 - m ^ 2 /\ 0 < momentum M m /\
    sqrt (M ^ 2 - 4 * m ^ 2) = 2 * momentum M m).
  { intros m H0 H1. pose proof (half_square m M H0 H1) as A. split; [now apply beam_sq|]. split; [now apply beam_pos|].
    rewrite <- (beam_root M m A). f_equal. ring. }
  assert (Fe : forall m, 0 <= m -> 2 * m < M -> fermions m = (4 * M ^ 2 + 8 * m ^ 2) / 3).
  { intros m H0 H1. unfold fermions.
    assert (T : forall k1 k2, tr [Spin k1 m; Vertex 0; Spin k2 (- m); Vertex 0] = - 8 * mdot k1 k2 - 16 * m ^ 2)
      by (intros; traces; rewrite ?(mdot_sym k2 k1); ring).
    rewrite T. unfold mdot, out_1, out_2. cbn [v0 v1 v2 v3]. rewrite S1. destruct (Sq m H0 H1) as (Q & _).
    set (K := momentum M m) in *. clearbody K. replace (m ^ 2) with (M ^ 2 / 4 - K ^ 2) by lra. field. }
  unfold decay_rule. split; [|split; [|split]].
  - intro H. unfold width_v_to_ff_mass. fold M. destruct (Rlt_dec _ _) as [_|]; [|lra]. rewrite (Fe u Hu H).
    destruct (Sq u Hu H) as (_ & _ & E). replace (- 4 * u ^ 2 + M ^ 2) with (M ^ 2 - 4 * u ^ 2) by ring. rewrite E. field. unfold M. lra.
  - intro H. unfold width_v_to_xx. fold M. destruct (Rlt_dec _ _) as [_|]; [|lra]. rewrite (Fe _ Hx H).
    destruct (Sq _ Hx H) as (_ & _ & E). rewrite E. field. unfold M. lra.
  - intro H. unfold width_v_to_pipi. fold M. destruct (Rlt_dec _ _) as [_|]; [|lra].
    destruct (Sq _ Hp H) as (Q & K0 & E). set (m := c_mpi C) in *. set (K := momentum M m) in *.
    assert (A : 1 - 4 * (m / M) ^ 2 = (2 * K / M) ^ 2).
    { unfold Rdiv. rewrite !Rpow_mult_distr, Q. field. unfold M; lra. }
    cbv zeta. rewrite A, pow15_val by apply pow2_ge_0.
    rewrite sqrt_pow2 by (apply Rmult_le_pos; [lra|apply Rlt_le, Rinv_0_lt_compat; assumption]).
    unfold length2, mdot, vsub, out_1, out_2. cbn [v0 v1 v2 v3]. rewrite S1. fold K. clearbody K. field. unfold M; lra.
  - intros H. cbv zeta. unfold width_v_to_pi0g. fold M. destruct (Rlt_dec _ _) as [_|]; [|lra].
    rewrite recoil_photon by (try assumption; lra). set (m := c_mpi0 C) in *. set (k0 := (M ^ 2 - m ^ 2) / (2 * M)).
    replace (length2 (anomaly_current M across_1 (leaving k0 0 0)) + length2 (anomaly_current M (across_2 0) (leaving k0 0 0)))
      with (2 * M ^ 2 * k0 ^ 2).
    + replace (anomaly_vg C V ^ 2) with (photon_charge C ^ 2 * (2 * v_gvuu V + v_gvdd V) ^ 2 / (16 * PI ^ 4 * c_fpi C ^ 2))
        by (unfold anomaly_vg; field; split; [assumption|lra]).
      rewrite charge_sq by assumption. unfold k0. field. repeat split; try assumption; unfold M; lra.
    + unfold length2, anomaly_current, dual, lower, det3, across_1, across_2, leaving, rest, mdot. cbn [v0 v1 v2 v3]. rewrite S1. ring.
Qed.
Print Assumptions vector_widths_from_diagrams.

Example vector_widths_from_diagrams_example :
  let V := MkV 100 1000 1 (2 / 10) (- 1 / 10) (- 1 / 10) (- 3 / 10) (- 3 / 10) in
  0 < v_mv V /\ 0 <= v_mx V /\ 0 <= c_mpi py_consts /\ 0 <= c_mpi0 py_consts /\ 0 <= c_alpha py_consts /\ c_fpi py_consts <> 0 /\
  2 * v_mx V < v_mv V /\ 2 * c_mpi py_consts < v_mv V /\ c_mpi0 py_consts < v_mv V.
Proof. cbn. repeat split; lra. Qed.

(** ** Annihilation through the mediators
    Cross sections into fermions, through the scalar and the vector, and into charged pions are the golden
    rule with the spin sums of the diagram, averaged over four states. *)
Theorem annihilation_through_mediators_golden_rule : forall C S V e w u g, 0 < e -> 0 <= u ->
  (0 <= s_mx S -> 0 < s_ms S -> 0 < w -> 2 * s_mx S < e -> 2 * u < e -> c_vh C <> 0 ->
   exists v, sigma_xx_to_s_to_ff C S e w u = Ret v /\
   channel_rule (s_mx S) (momentum e u) e (fun z => s_gsxx S ^ 2 * (s_gsff S * u / c_vh C) ^ 2 *
     scalar_fermion_sum (s_mx S) u e z / breit (s_ms S) w e / 4) v) /\
  (0 <= v_mx V -> 0 < v_mv V -> 0 < w -> 2 * v_mx V < e -> 2 * u < e ->
   channel_rule (v_mx V) (momentum e u) e (fun z => v_gvxx V ^ 2 * g ^ 2 *
     fermion_sum (v_mx V) u e z / breit (v_mv V) w e / 4) (sigma_xx_to_v_to_ff V e w g u)) /\
  (0 <= v_mx V -> 0 < v_mv V -> 0 < w -> 2 * v_mx V < e -> 0 <= c_mpi C -> 2 * c_mpi C < e ->
   exists v, sigma_xx_to_v_to_pipi C V e w = Ret v /\
   channel_rule (v_mx V) (momentum e (c_mpi C)) e (fun z => v_gvxx V ^ 2 * (v_gvuu V - v_gvdd V) ^ 2 *
     current_sum (v_mx V) e (vsub (out_1 e (c_mpi C) z) (out_2 e (c_mpi C) z)) / breit (v_mv V) w e / 4) v).
Proof.
  intros C S V e w u g He Hu. pose proof PI_RGT_0 as Hpi.
  assert (B : forall M, 0 < M -> 0 < w -> 0 < breit M w e).
  { intros M H0 Hw. unfold breit. pose proof (pow2_ge_0 (e ^ 2 - M ^ 2)). assert (0 < M ^ 2 * w ^ 2) by (apply Rmult_lt_0_compat; apply pow_lt; assumption). lra. }
  split; [|split].
  - intros Hx HM Hw H1 H2 Hv. pose proof (half_square _ _ Hx H1) as A1. pose proof (half_square _ _ Hu H2) as A2.
    unfold sigma_xx_to_s_to_ff. destruct (Rlt_dec e (2 * u)); [lra|]. destruct (Rlt_dec e (2 * s_mx S)); [lra|].
    replace (s_propagator S e w) with (breit (s_ms S) w e) by (unfold s_propagator, breit; ring).
    specialize (B (s_ms S) HM Hw). set (D := breit _ _ _) in *. clearbody D.
    unfold complex_quotient. destruct (Req_EM_T _ 0) as [E|_].
    { exfalso. revert E. match goal with |- ?a = 0 -> False => change (a <> 0) end. nonzero. }
    eexists. split; [reflexivity|]. eexists. split.
    + apply (area_ext (fun z => s_gsxx S ^ 2 * (s_gsff S * u / c_vh C) ^ 2 * (4 * (e ^ 2 - 4 * s_mx S ^ 2) * (e ^ 2 - 4 * u ^ 2)) / D / 4 + 0 * z ^ 2) _ _ _ _ []).
      { intros z Hz _. rewrite scalar_fermion_closed by (try assumption; lra). ring. }
      apply quadratic_area.
    + replace (- 4 * s_mx S ^ 2 + e ^ 2) with (s_mx S ^ 2 * - 4 + e ^ 2) by ring.
      replace (- 4 * u ^ 2 + e ^ 2) with (u ^ 2 * - 4 + e ^ 2) by ring.
      rewrite pow15_val by lra. rewrite !beam_root by assumption.
      pose proof (beam_sq e (s_mx S) A1) as Q1. pose proof (beam_sq e u A2) as Q2. pose proof (beam_pos e (s_mx S) A1) as P1.
      set (P := momentum e (s_mx S)) in *. set (K := momentum e u) in *. clearbody P K.
      replace (e ^ 2 - 4 * s_mx S ^ 2) with (4 * P ^ 2) by lra. replace (e ^ 2 - 4 * u ^ 2) with (4 * K ^ 2) by lra.
      replace (u ^ 2 * - 4 + e ^ 2) with (4 * K ^ 2) by lra. field. repeat split; try assumption; lra.
  - intros Hx HM Hw H1 H2. pose proof (half_square _ _ Hx H1) as A1. pose proof (half_square _ _ Hu H2) as A2.
    unfold sigma_xx_to_v_to_ff. destruct (Rlt_dec e (2 * u)); [lra|]. destruct (Rlt_dec e (2 * v_mx V)); [lra|].
    replace (v_propagator V e w) with (breit (v_mv V) w e) by (unfold v_propagator, breit; ring).
    specialize (B (v_mv V) HM Hw). set (D := breit _ _ _) in *. clearbody D.
    eexists. split.
    + apply (area_ext (fun z => v_gvxx V ^ 2 * g ^ 2 * (4 * (e ^ 4 + 4 * e ^ 2 * (v_mx V ^ 2 + u ^ 2))) / D / 4
        + v_gvxx V ^ 2 * g ^ 2 * (64 * (momentum e (v_mx V) * momentum e u) ^ 2) / D / 4 * z ^ 2) _ _ _ _ []).
      { intros z Hz _. rewrite fermion_closed by (try assumption; lra). field. lra. }
      apply quadratic_area.
    + assert (R : sqrt ((u ^ 2 * - 4 + e ^ 2) / (v_mx V ^ 2 * - 4 + e ^ 2)) = momentum e u / momentum e (v_mx V)).
      { rewrite sqrt_div_alt by lra. rewrite !beam_root by assumption. pose proof (beam_pos e (v_mx V) A1). field. lra. }
      rewrite R. pose proof (beam_sq e (v_mx V) A1) as Q1. pose proof (beam_sq e u A2) as Q2. pose proof (beam_pos e (v_mx V) A1) as P1.
      rewrite (Rpow_mult_distr (momentum e (v_mx V))). set (P := momentum e (v_mx V)) in *. set (K := momentum e u) in *. set (r := K / P).
      assert (Hr : r * P = K) by (unfold r; field; lra). clearbody r. rewrite Q1, Q2. field. repeat split; lra.
  - intros Hx HM Hw H1 Hp H2. pose proof (half_square _ _ Hx H1) as A1. pose proof (half_square _ _ Hp H2) as A2.
    unfold sigma_xx_to_v_to_pipi. destruct (Rlt_dec e (2 * v_mx V)); [lra|]. destruct (Rlt_dec e (2 * c_mpi C)); [lra|].
    replace (v_propagator V e w) with (breit (v_mv V) w e) by (unfold v_propagator, breit; ring).
    specialize (B (v_mv V) HM Hw). set (D := breit _ _ _) in *. clearbody D.
    rewrite pow15_val by lra. rewrite !beam_root by assumption.
    pose proof (beam_sq e (v_mx V) A1) as Q1. pose proof (beam_sq e (c_mpi C) A2) as Q2. pose proof (beam_pos e (v_mx V) A1) as P1.
    unfold complex_quotient. destruct (Req_EM_T _ 0) as [E|_].
    { exfalso. revert E. match goal with |- ?a = 0 -> False => change (a <> 0) end. nonzero. }
    eexists. split; [reflexivity|]. eexists. split.
    + apply (area_ext (fun z => v_gvxx V ^ 2 * (v_gvuu V - v_gvdd V) ^ 2 * (8 * momentum e (c_mpi C) ^ 2 * e ^ 2) / D / 4
        + v_gvxx V ^ 2 * (v_gvuu V - v_gvdd V) ^ 2 * (- 32 * momentum e (v_mx V) ^ 2 * momentum e (c_mpi C) ^ 2) / D / 4 * z ^ 2) _ _ _ _ []).
      { intros z Hz _. rewrite pion_closed by (try assumption; lra). field. lra. }
      apply quadratic_area.
    + set (P := momentum e (v_mx V)) in *. set (K := momentum e (c_mpi C)) in *. clearbody P K.
      replace (c_mpi C ^ 2 * - 4 + e ^ 2) with (4 * K ^ 2) by lra. replace (v_mx V ^ 2) with (e ^ 2 / 4 - P ^ 2) by lra.
      field. repeat split; lra.
Qed.
Print Assumptions annihilation_through_mediators_golden_rule.

Example annihilation_through_mediators_golden_rule_example :
  let S := MkS 200 100 1 1 1 1 1000 (-1) in let V := MkV 200 300 1 1 0 0 0 0 in
  0 < s_ms S /\ 2 * s_mx S < 700 /\ 0 < v_mv V /\ 2 * v_mx V < 700 /\ 2 * c_mpi py_consts < 700 /\ c_vh py_consts <> 0 /\
  2 * c_mmu py_consts < 700.
Proof. cbn. repeat split; lra. Qed.

(** ** Annihilation through the anomaly
    Into a neutral pion and a photon or a mediator the cross sections are one ninth of the golden rule: they
    leave out the square of the three colours, which the width into a pion and a photon has. *)
Theorem annihilation_through_anomaly_ninth : forall C V e w, 0 < e -> 0 <= v_mx V -> 2 * v_mx V < e -> 0 < v_mv V -> 0 < w ->
  0 <= c_mpi0 C -> 0 <= c_alpha C -> c_fpi C <> 0 ->
  (c_mpi0 C < e ->
   channel_rule (v_mx V) (recoil e (c_mpi0 C) 0) e (fun z => let k := leaving (recoil e (c_mpi0 C) 0) 0 z in
     v_gvxx V ^ 2 * anomaly_vg C V ^ 2 * (current_sum (v_mx V) e (anomaly_current e across_1 k)
       + current_sum (v_mx V) e (anomaly_current e (across_2 z) k)) / breit (v_mv V) w e / 4)
     (9 * sigma_xx_to_v_to_pi0g C V e w)) /\
  (c_mpi0 C + v_mv V < e ->
   exists v, sigma_xx_to_v_to_pi0v C V e w = Ret v /\
   let r := recoil e (c_mpi0 C) (v_mv V) in
   channel_rule (v_mx V) r e (fun z => let k := leaving r (v_mv V) z in
     v_gvxx V ^ 2 * anomaly_vv C V ^ 2 * (current_sum (v_mx V) e (anomaly_current e across_1 k)
       + current_sum (v_mx V) e (anomaly_current e (across_2 z) k)
       + current_sum (v_mx V) e (anomaly_current e (along r (v_mv V) z) k)) / breit (v_mv V) w e / 4)
     (9 * v)).
Proof.
  intros C V e w He Hx H1 HM Hw Hp Ha Hf. pose proof PI_RGT_0 as Hpi. pose proof (half_square _ _ Hx H1) as A1.
  assert (B : 0 < breit (v_mv V) w e).
  { unfold breit. pose proof (pow2_ge_0 (e ^ 2 - v_mv V ^ 2)). assert (0 < v_mv V ^ 2 * w ^ 2) by (apply Rmult_lt_0_compat; apply pow_lt; assumption). lra. }
  pose proof (beam_sq e (v_mx V) A1) as Q1. pose proof (beam_pos e (v_mx V) A1) as P1.
  assert (ED : v_propagator V e w = breit (v_mv V) w e) by (unfold v_propagator, breit; ring).
  split.
  - intro H2. unfold sigma_xx_to_v_to_pi0g. destruct (Rlt_dec e (c_mpi0 C)); [lra|]. destruct (Rlt_dec e (2 * v_mx V)); [lra|].
    rewrite ED, beam_root by assumption. rewrite recoil_photon by (try assumption; lra). cbv zeta.
    set (k := (e ^ 2 - c_mpi0 C ^ 2) / (2 * e)). set (D := breit _ _ _) in *. clearbody D. set (P := momentum e (v_mx V)) in *.
    set (a := v_gvxx V ^ 2 * anomaly_vg C V ^ 2 / D / 4). eexists. split.
    + apply (area_ext (fun z => a * (4 * e ^ 4 * k ^ 2 - 8 * P ^ 2 * e ^ 2 * k ^ 2) + a * (8 * P ^ 2 * e ^ 2 * k ^ 2) * z ^ 2) _ _ _ _ []).
      { intros z Hz _. destruct (anomaly_closed e (v_mx V) A1 k 0 z ltac:(lra)) as (E1 & E2 & _). rewrite E1, E2. fold P. unfold a. field. lra. }
      apply quadratic_area.
    + unfold a. replace (anomaly_vg C V ^ 2) with (photon_charge C ^ 2 * (2 * v_gvuu V + v_gvdd V) ^ 2 / (16 * PI ^ 4 * c_fpi C ^ 2))
        by (unfold anomaly_vg; field; split; [assumption|lra]).
      rewrite charge_sq by assumption. unfold k, channel_rule. fold P. clearbody P. replace (v_mx V ^ 2) with (e ^ 2 / 4 - P ^ 2) by lra.
      field. repeat split; try assumption; lra.
  - intro H2. unfold sigma_xx_to_v_to_pi0v. destruct (Rlt_dec e (c_mpi0 C + v_mv V)); [lra|]. destruct (Rlt_dec e (2 * v_mx V)); [lra|].
    rewrite ED, beam_root by assumption. cbv zeta. set (m := c_mpi0 C) in *. set (M := v_mv V) in *.
    replace ((m - M - e) * (M + m - e) * (e + (m - M)) * (e + (M + m))) with ((e ^ 2 - (m + M) ^ 2) * (e ^ 2 - (m - M) ^ 2)) by ring.
    set (L := (e ^ 2 - (m + M) ^ 2) * (e ^ 2 - (m - M) ^ 2)).
    assert (L0 : 0 < L) by (unfold L; apply Rmult_lt_0_compat; nra).
    rewrite pow15_val by lra. set (k := recoil e m M).
    assert (Ek : sqrt L = 2 * e * k) by (unfold k, recoil; fold L; field; lra).
    assert (EL : L = (2 * e * k) ^ 2) by (rewrite <- Ek; symmetry; apply pow2_sqrt; lra).
    rewrite Ek, EL. clearbody k. clear EL Ek L0 L. set (D := breit _ _ _) in *. clearbody D. set (P := momentum e (v_mx V)) in *.
    unfold complex_quotient. destruct (Req_EM_T _ 0) as [E|_].
    { exfalso. revert E. match goal with |- ?a = 0 -> False => change (a <> 0) end. nonzero. }
    eexists. split; [reflexivity|]. set (a := v_gvxx V ^ 2 * anomaly_vv C V ^ 2 / D / 4). eexists. split.
    + apply (area_ext (fun z => a * (4 * e ^ 4 * k ^ 2 - 8 * P ^ 2 * e ^ 2 * k ^ 2) + a * (8 * P ^ 2 * e ^ 2 * k ^ 2) * z ^ 2) _ _ _ _ []).
      { intros z Hz _. destruct (anomaly_closed e (v_mx V) A1 k M z ltac:(lra)) as (E1 & E2 & E3). rewrite E1, E2, E3. fold P. unfold a. field. lra. }
      apply quadratic_area.
    + unfold a, anomaly_vv. fold P. clearbody P. replace (v_mx V ^ 2) with (e ^ 2 / 4 - P ^ 2) by lra.
      field. repeat split; try assumption; lra.
Qed.
Print Assumptions annihilation_through_anomaly_ninth.

Example annihilation_through_anomaly_ninth_example :
  let V := MkV 200 300 1 1 0 0 0 0 in
  0 <= v_mx V /\ 2 * v_mx V < 700 /\ 0 < v_mv V /\ 0 <= c_mpi0 py_consts /\ 0 <= c_alpha py_consts /\ c_fpi py_consts <> 0 /\
  c_mpi0 py_consts < 700 /\ c_mpi0 py_consts + v_mv V < 700.
Proof. cbn. repeat split; lra. Qed.

Lemma channel_rule_unique : forall m k e F v w, channel_rule m k e F v -> channel_rule m k e F w -> v = w.
Proof.
  intros m k e F v w (I & A & E) (J & B & E'). rewrite E, E'. rewrite (area_unique F (-1) 1 I J ltac:(lra) A B). reflexivity.
Qed.

(** so neither is the golden rule with the coupling of the anomaly *)
Theorem annihilation_through_anomaly_refuted : exists C V e w v,
  0 < e /\ 2 * v_mx V < e /\ c_mpi0 C + v_mv V < e /\ 0 < w /\
  ~ channel_rule (v_mx V) (recoil e (c_mpi0 C) 0) e (fun z => let k := leaving (recoil e (c_mpi0 C) 0) 0 z in
     v_gvxx V ^ 2 * anomaly_vg C V ^ 2 * (current_sum (v_mx V) e (anomaly_current e across_1 k)
       + current_sum (v_mx V) e (anomaly_current e (across_2 z) k)) / breit (v_mv V) w e / 4)
     (sigma_xx_to_v_to_pi0g C V e w) /\
  sigma_xx_to_v_to_pi0v C V e w = Ret v /\
  let r := recoil e (c_mpi0 C) (v_mv V) in
  ~ channel_rule (v_mx V) r e (fun z => let k := leaving r (v_mv V) z in
     v_gvxx V ^ 2 * anomaly_vv C V ^ 2 * (current_sum (v_mx V) e (anomaly_current e across_1 k)
       + current_sum (v_mx V) e (anomaly_current e (across_2 z) k)
       + current_sum (v_mx V) e (anomaly_current e (along r (v_mv V) z) k)) / breit (v_mv V) w e / 4) v.
Proof.
  set (V := MkV 200 300 1 1 0 0 0 0). set (C := py_consts).
  destruct (annihilation_through_anomaly_ninth C V 700 1) as (G & W); try (cbn; lra).
  specialize (G ltac:(cbn; lra)). destruct (W ltac:(cbn; lra)) as (v & Ev & W').
  exists C, V, 700, 1, v. split; [lra|]. split; [cbn; lra|]. split; [cbn; lra|]. split; [lra|]. pose proof PI_RGT_0 as Hpi.
  assert (P0 : 0 < v_propagator V 700 1) by (unfold v_propagator; cbn; lra).
  split; [|split; [exact Ev|]].
  - intro N. pose proof (channel_rule_unique _ _ _ _ _ _ N G) as E.
    assert (0 < sigma_xx_to_v_to_pi0g C V 700 1); [|lra].
    unfold sigma_xx_to_v_to_pi0g. destruct (Rlt_dec _ _) as [A|_]; [cbn in A; lra|]. destruct (Rlt_dec _ _) as [A|_]; [cbn in A; lra|].
    assert (0 < sqrt (v_mx V ^ 2 * - 4 + 700 ^ 2)) by (apply sqrt_lt_R0; cbn; lra).
    apply Rdiv_lt_0_compat; positive.
  - cbv zeta in W' |- *. intro N. pose proof (channel_rule_unique _ _ _ _ _ _ N W') as E.
    assert (0 < v); [|lra]. revert Ev.
    unfold sigma_xx_to_v_to_pi0v. destruct (Rlt_dec _ _) as [A|_]; [cbn in A; lra|]. destruct (Rlt_dec _ _) as [A|_]; [cbn in A; lra|].
    cbv zeta. assert (0 < sqrt (v_mx V ^ 2 * - 4 + 700 ^ 2)) by (apply sqrt_lt_R0; cbn; lra).
    unfold complex_quotient. destruct (Req_EM_T _ 0) as [|_]; [discriminate|]. intro Q. injection Q as <-.
    match goal with |- context [pow15 ?x] => assert (L : 0 < x) by (cbn; lra); rewrite (pow15_val x) by lra; pose proof (sqrt_lt_R0 x L) end.
    apply Rdiv_lt_0_compat; positive.
Qed.
Print Assumptions annihilation_through_anomaly_refuted.
