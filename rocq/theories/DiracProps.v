(** C176: annihilation of dark matter into two mediators and its scattering off itself, against the spin
    sums of the Feynman diagrams. *)
From Coq Require Import Reals Lra Psatz List.
From Verif Require Import Area Primitive MedModel SpecProofs PionProofs DiracProofs.
Import ListNotations.
Local Open Scope R_scope.

Lemma frame_facts : forall e m M, 0 < m -> 0 < M -> 2 * m < e -> 2 * M < e ->
  let P := momentum e m in let K := momentum e M in let h := e ^ 2 / 2 - M ^ 2 in let c := 2 * P * K in
  0 < P /\ 0 < K /\ P ^ 2 = e ^ 2 / 4 - m ^ 2 /\ K ^ 2 = e ^ 2 / 4 - M ^ 2 /\ 0 < c < h /\
  m ^ 2 <= e ^ 2 / 4 /\ M ^ 2 <= e ^ 2 / 4 /\ h ^ 2 - c ^ 2 = m ^ 2 * e ^ 2 - 4 * M ^ 2 * m ^ 2 + M ^ 4.
Proof.
  intros e m M Hm HM H1 H2 P K h c.
  assert (A1 : m ^ 2 < e ^ 2 / 4) by nra. assert (A2 : M ^ 2 < e ^ 2 / 4) by nra.
  assert (P1 : 0 < P) by (apply sqrt_lt_R0; lra). assert (K1 : 0 < K) by (apply sqrt_lt_R0; lra).
  assert (P2 : P ^ 2 = e ^ 2 / 4 - m ^ 2) by (apply pow2_sqrt; lra).
  assert (K2 : K ^ 2 = e ^ 2 / 4 - M ^ 2) by (apply pow2_sqrt; lra).
  assert (D : h ^ 2 - c ^ 2 = m ^ 2 * e ^ 2 - 4 * M ^ 2 * m ^ 2 + M ^ 4).
  { unfold h, c. replace ((2 * P * K) ^ 2) with (4 * P ^ 2 * K ^ 2) by ring. rewrite P2, K2. field. }
  assert (M2 : 0 < M ^ 2) by (apply pow_lt; lra). assert (m2 : 0 < m ^ 2) by (apply pow_lt; lra).
  assert (D0 : 0 < h ^ 2 - c ^ 2).
  { rewrite D. replace (m ^ 2 * e ^ 2 - 4 * M ^ 2 * m ^ 2 + M ^ 4) with (m ^ 2 * (e ^ 2 - 4 * M ^ 2) + (M ^ 2) ^ 2) by ring.
    apply Rplus_lt_0_compat; [apply Rmult_lt_0_compat; lra|apply pow_lt; lra]. }
  assert (C0 : 0 < c) by (unfold c; apply Rmult_lt_0_compat; lra).
  assert (Hh : 0 < h) by (unfold h; lra).
  assert (c < h) by (clearbody c h; nra).
  repeat split; try assumption; lra.
Qed.

(** ** C176: annihilation into two mediators

    The cross sections of dark matter into two scalar, and into two vector, mediators are the golden rule
    with the spin sum of the two diagrams, averaged over the four spin states and halved for identical
    particles, at every energy above both thresholds. *)
Theorem annihilation_into_mediators_golden_rule : forall S V e,
  (0 < s_mx S -> 0 < s_ms S -> 2 * s_mx S < e -> 2 * s_ms S < e ->
   angular_rule (s_mx S) (s_ms S) e (fun z => s_gsxx S ^ 4 * pair_to_scalars (s_mx S) (s_ms S) e z / 4 / 2)
     (sigma_xx_to_ss S e)) /\
  (0 < v_mx V -> 0 < v_mv V -> 2 * v_mx V < e -> 2 * v_mv V < e ->
   angular_rule (v_mx V) (v_mv V) e (fun z => v_gvxx V ^ 4 * pair_to_vectors (v_mx V) (v_mv V) e z / 4 / 2)
     (sigma_xx_to_vv V e)).
Proof.
  intros S V e. split.
  - intros Hm HM H1 H2.
    destruct (frame_facts e (s_mx S) (s_ms S) Hm HM H1 H2) as (P1 & K1 & P2 & K2 & C0 & A1 & A2 & D).
    set (m := s_mx S) in *. set (M := s_ms S) in *. set (P := momentum e m) in *. set (K := momentum e M) in *.
    set (h := e ^ 2 / 2 - M ^ 2) in *. set (c := 2 * P * K) in *.
    assert (He : 0 < e) by lra. pose proof PI_RGT_0 as Hpi.
    eexists. split.
    + apply (area_ext (fun z => s_gsxx S ^ 4 / 8 * poles (- 8) (- 2 * (4 * m ^ 2 - M ^ 2) ^ 2)
        ((- 4 * M ^ 2 * (4 * m ^ 2 + e ^ 2) + 16 * m ^ 2 * e ^ 2 + 6 * M ^ 4 - 32 * m ^ 4 + e ^ 4) / h) h c z)
        _ _ _ _ []); [|apply area_scale; apply poles_area; exact C0].
      intros z Hz _. assert (Z : - c < c * z < c) by (split; nra).
      rewrite (pair_to_scalars_poles e m M z); try assumption; try lra;
        try (fold P K; fold c; fold h; lra).
    + unfold sigma_xx_to_ss. fold m M. destruct (Rlt_dec e (2 * M)); [lra|]. destruct (Rlt_dec e (2 * m)); [lra|].
      assert (ER : sqrt ((- 4 * M ^ 2 + e ^ 2) * (- 4 * m ^ 2 + e ^ 2)) = 2 * c).
      { replace ((- 4 * M ^ 2 + e ^ 2) * (- 4 * m ^ 2 + e ^ 2)) with ((2 * c) ^ 2).
        - apply sqrt_pow2. lra.
        - unfold c. replace ((2 * (2 * P * K)) ^ 2) with (16 * P ^ 2 * K ^ 2) by ring. rewrite P2, K2. field. }
      rewrite ER.
      replace ((- 2 * M ^ 2 + e ^ 2 + 2 * c) / (- 2 * M ^ 2 + e ^ 2 - 2 * c)) with ((h + c) / (h - c))
        by (unfold h; field; unfold h in C0; lra).
      replace (m ^ 2 * e ^ 2 + (- (4 * M ^ 2) * m ^ 2 + M ^ 4)) with (h ^ 2 - c ^ 2) by (rewrite D; ring).
      change (momentum e M / momentum e m) with (K / P).
      replace (K / P) with (c / (2 * P ^ 2)) by (unfold c; field; lra).
      assert (D0 : 0 < h ^ 2 - c ^ 2) by (replace (h ^ 2 - c ^ 2) with ((h - c) * (h + c)) by ring; apply Rmult_lt_0_compat; lra).
      replace (- 2 * M ^ 2 + e ^ 2) with (2 * h) by (unfold h; field).
      assert (EP : - 4 * m ^ 2 + e ^ 2 = 4 * P ^ 2) by lra. rewrite EP.
      assert (E8 : 2 * m ^ 2 * (8 * m ^ 2 + e ^ 2) + (3 * M ^ 4 + - (16 * M ^ 2 * m ^ 2))
                   = 2 * (h ^ 2 - c ^ 2) + (4 * m ^ 2 - M ^ 2) ^ 2) by (rewrite D; ring).
      rewrite E8.
      set (L := ln _). clearbody L. set (Q := h ^ 2 - c ^ 2) in *.
      set (N := - 4 * M ^ 2 * (4 * m ^ 2 + e ^ 2) + 16 * m ^ 2 * e ^ 2 + 6 * M ^ 4 - 32 * m ^ 4 + e ^ 4).
      replace (- (4 * M ^ 2) * (4 * m ^ 2 + e ^ 2) + (16 * m ^ 2 * e ^ 2 + (6 * M ^ 4 + - (32 * m ^ 4)) + e ^ 4))
        with N by (unfold N; ring).
      clearbody N Q. clear ER EP E8 D P2 K2. clearbody c h P K.
      field. repeat split; lra.
  - intros Hm HM H1 H2.
    destruct (frame_facts e (v_mx V) (v_mv V) Hm HM H1 H2) as (P1 & K1 & P2 & K2 & C0 & A1 & A2 & D).
    set (m := v_mx V) in *. set (M := v_mv V) in *. set (P := momentum e m) in *. set (K := momentum e M) in *.
    set (h := e ^ 2 / 2 - M ^ 2) in *. set (c := 2 * P * K) in *.
    assert (He : 0 < e) by lra. pose proof PI_RGT_0 as Hpi.
    eexists. split.
    + apply (area_ext (fun z => v_gvxx V ^ 4 / 8 * poles (- 16) (- 8 * (2 * m ^ 2 + M ^ 2) ^ 2)
        (4 * (4 * m ^ 2 * e ^ 2 - 8 * m ^ 4 + 4 * M ^ 4 - 8 * M ^ 2 * m ^ 2 + e ^ 4) / h) h c z)
        _ _ _ _ []); [|apply area_scale; apply poles_area; exact C0].
      intros z Hz _. assert (Z : - c < c * z < c) by (split; nra).
      rewrite (pair_to_vectors_poles e m M z); try assumption; try lra;
        try (fold P K; fold c; fold h; lra).
    + unfold sigma_xx_to_vv. fold m M. destruct (Rlt_dec e (2 * M)); [lra|]. destruct (Rlt_dec e (2 * m)); [lra|].
      assert (EV : sqrt (M ^ 2 * - 4 + e ^ 2) = 2 * K).
      { replace (M ^ 2 * - 4 + e ^ 2) with ((2 * K) ^ 2); [apply sqrt_pow2; lra|].
        rewrite Rpow_mult_distr, K2. field. }
      assert (EX : sqrt (m ^ 2 * - 4 + e ^ 2) = 2 * P).
      { replace (m ^ 2 * - 4 + e ^ 2) with ((2 * P) ^ 2); [apply sqrt_pow2; lra|].
        rewrite Rpow_mult_distr, P2. field. }
      cbv zeta. rewrite EV, EX.
      replace (2 * K * (2 * P) + (M ^ 2 * - 2 + e ^ 2)) with (2 * (h + c)) by (unfold h, c; field).
      replace (- (2 * K) * (2 * P) + (M ^ 2 * - 2 + e ^ 2)) with (2 * (h - c)) by (unfold h, c; field).
      replace (2 * (h + c) / (2 * (h - c))) with ((h + c) / (h - c)) by (field; lra).
      replace (m ^ 2 * e ^ 2 + (M ^ 2 * - 4 * m ^ 2 + M ^ 4)) with (h ^ 2 - c ^ 2) by (rewrite D; ring).
      change (momentum e M / momentum e m) with (K / P).
      replace (K / P) with (c / (2 * P ^ 2)) by (unfold c; field; lra).
      replace (2 * P * (2 * K + 2 * K)) with (4 * c) by (unfold c; ring).
      assert (D0 : 0 < h ^ 2 - c ^ 2) by (replace (h ^ 2 - c ^ 2) with ((h - c) * (h + c)) by ring; apply Rmult_lt_0_compat; lra).
      replace (M ^ 2 * - 2 + e ^ 2) with (2 * h) by (unfold h; field).
      assert (EP : m ^ 2 * - 4 + e ^ 2 = 4 * P ^ 2) by lra. rewrite EP.
      assert (E8 : m ^ 2 * e ^ 2 + (M ^ 4 * 2 + m ^ 4 * 4)
                   = h ^ 2 - c ^ 2 + (2 * m ^ 2 + M ^ 2) ^ 2) by (rewrite D; ring).
      rewrite E8.
      set (L := ln _). clearbody L. set (Q := h ^ 2 - c ^ 2) in *.
      set (N := 4 * m ^ 2 * e ^ 2 - 8 * m ^ 4 + 4 * M ^ 4 - 8 * M ^ 2 * m ^ 2 + e ^ 4).
      replace (m ^ 2 * 4 * e ^ 2 + (m ^ 4 * - 8 + (M ^ 4 * 4 + M ^ 2 * - 8 * m ^ 2)) + e ^ 4)
        with N by (unfold N; ring).
      clearbody N Q. clear EV EX EP E8 D P2 K2. clearbody c h P K.
      field. repeat split; lra.
Qed.
Print Assumptions annihilation_into_mediators_golden_rule.

Example annihilation_into_mediators_golden_rule_example :
  let S := MkS 200 100 1 1 1 1 1000 (-1) in let V := MkV 200 300 1 1 0 0 0 0 in
  0 < s_mx S /\ 0 < s_ms S /\ 2 * s_mx S < 700 /\ 2 * s_ms S < 700 /\
  0 < v_mx V /\ 0 < v_mv V /\ 2 * v_mx V < 700 /\ 2 * v_mv V < 700.
Proof. cbn. lra. Qed.

(** ** Scattering of dark matter off its antiparticle

    The squared amplitudes integrated for the self-interaction are the spin averages of the s and t channel
    diagrams, with their interference and the width in both propagators, for the scalar and for the vector
    mediator at every angle. *)
Theorem self_interaction_amplitudes : forall S V e w z, -1 <= z <= 1 ->
  (0 < s_mx S -> 0 < s_ms S -> 0 < w -> 2 * s_mx S < e ->
   s_xx_msqrd S e w z = s_gsxx S ^ 4 * self_scalar (s_mx S) (s_ms S) w e z / 4) /\
  (0 < v_mx V -> 0 < v_mv V -> 0 < w -> 2 * v_mx V < e ->
   v_xx_msqrd V e w z = v_gvxx V ^ 4 * self_vector (v_mx V) (v_mv V) w e z / 4).
Proof.
  intros S V e w z Hz. split.
  - intros Hm HM Hw He. assert (A : s_mx S ^ 2 <= e ^ 2 / 4) by nra.
    unfold s_xx_msqrd, self_scalar, self_sum.
    set (m := s_mx S) in *. set (M := s_ms S) in *. set (g := s_gsxx S). clearbody m M g.
    destruct (self_dots e m z A Hz) as (D1 & D2 & D3 & D4 & D5 & D6 & D7 & D8 & D9 & D10 & D11).
    assert (P2 : momentum e m ^ 2 = e ^ 2 / 4 - m ^ 2) by (apply pow2_sqrt; lra). rewrite P2 in *. clear P2.
    set (p1 := in_1 e m) in *. set (p2 := in_2 e m) in *. set (k1 := out_1 e m z) in *. set (k2 := out_2 e m z) in *.
    rewrite D11. clear D11. clearbody p1 p2 k1 k2.
    traces. rewrite ?(mdot_sym p2 p1), ?(mdot_sym k2 k1), ?(mdot_sym k1 p1), ?(mdot_sym k2 p1), ?(mdot_sym k1 p2),
      ?(mdot_sym k2 p2), ?D1, ?D2, ?D3, ?D4, ?D5, ?D6, ?D7, ?D8, ?D9, ?D10.
    assert (Q : 0 < M ^ 2 * w ^ 2) by (apply Rmult_lt_0_compat; apply pow_lt; assumption).
    assert (Q1 : 0 < (e ^ 2 - M ^ 2) ^ 2 + M ^ 2 * w ^ 2) by (pose proof (pow2_ge_0 (e ^ 2 - M ^ 2)); lra).
    set (t := 2 * m ^ 2 - e ^ 2 / 2 + 2 * ((e ^ 2 / 4 - m ^ 2) * z)).
    assert (Q2 : 0 < (t - M ^ 2) ^ 2 + M ^ 2 * w ^ 2) by (pose proof (pow2_ge_0 (t - M ^ 2)); lra).
    assert (E1 : 1 + (M / e) ^ 4 + (M / e) ^ 2 * (-2 + (w / e) ^ 2) = ((e ^ 2 - M ^ 2) ^ 2 + M ^ 2 * w ^ 2) / e ^ 4)
      by (field; lra).
    assert (E2 : 4 * (M / e) ^ 4 + 4 * (M / e) ^ 2 * ((w / e) ^ 2 + (-1 + 4 * (m / e) ^ 2) * (-1 + z))
                 + (1 - 4 * (m / e) ^ 2) ^ 2 * (-1 + z) ^ 2 = 4 * ((t - M ^ 2) ^ 2 + M ^ 2 * w ^ 2) / e ^ 4)
      by (unfold t; field; lra).
    cbv zeta. rewrite E1, E2.
    assert (Q1' := Rgt_not_eq _ _ Q1). assert (Q2' := Rgt_not_eq _ _ Q2). unfold t in *.
    field. repeat split; try assumption; lra.
  - intros Hm HM Hw He. assert (A : v_mx V ^ 2 <= e ^ 2 / 4) by nra.
    unfold v_xx_msqrd, self_vector, self_sum.
    set (m := v_mx V) in *. set (M := v_mv V) in *. set (g := v_gvxx V). clearbody m M g.
    destruct (self_dots e m z A Hz) as (D1 & D2 & D3 & D4 & D5 & D6 & D7 & D8 & D9 & D10 & D11).
    assert (P2 : momentum e m ^ 2 = e ^ 2 / 4 - m ^ 2) by (apply pow2_sqrt; lra). rewrite P2 in *. clear P2.
    set (p1 := in_1 e m) in *. set (p2 := in_2 e m) in *. set (k1 := out_1 e m z) in *. set (k2 := out_2 e m z) in *.
    rewrite D11. clear D11. clearbody p1 p2 k1 k2.
    rewrite tr2_s, tr2_t, tr_exchange, ?D5, ?D6, ?D7, ?D8, ?D9, ?D10.
    assert (Q : 0 < M ^ 2 * w ^ 2) by (apply Rmult_lt_0_compat; apply pow_lt; assumption).
    assert (Q1 : 0 < (e ^ 2 - M ^ 2) ^ 2 + M ^ 2 * w ^ 2) by (pose proof (pow2_ge_0 (e ^ 2 - M ^ 2)); lra).
    set (t := 2 * m ^ 2 - e ^ 2 / 2 + 2 * ((e ^ 2 / 4 - m ^ 2) * z)).
    assert (Q2 : 0 < (t - M ^ 2) ^ 2 + M ^ 2 * w ^ 2) by (pose proof (pow2_ge_0 (t - M ^ 2)); lra).
    assert (E1 : 1 + (M / e) ^ 4 + (M / e) ^ 2 * (-2 + (w / e) ^ 2) = ((e ^ 2 - M ^ 2) ^ 2 + M ^ 2 * w ^ 2) / e ^ 4)
      by (field; lra).
    assert (E2 : 4 * (M / e) ^ 4 + 4 * (M / e) ^ 2 * ((w / e) ^ 2 + (-1 + 4 * (m / e) ^ 2) * (-1 + z))
                 + (1 - 4 * (m / e) ^ 2) ^ 2 * (-1 + z) ^ 2 = 4 * ((t - M ^ 2) ^ 2 + M ^ 2 * w ^ 2) / e ^ 4)
      by (unfold t; field; lra).
    cbv zeta. rewrite E1, E2.
    assert (Q1' := Rgt_not_eq _ _ Q1). assert (Q2' := Rgt_not_eq _ _ Q2). unfold t in *.
    field. repeat split; try assumption; lra.
Qed.
Print Assumptions self_interaction_amplitudes.

Example self_interaction_amplitudes_example :
  let S := MkS 200 100 1 1 1 1 1000 (-1) in let V := MkV 200 300 1 1 0 0 0 0 in
  -1 <= 1 / 2 <= 1 /\ 0 < s_mx S /\ 0 < s_ms S /\ 2 * s_mx S < 700 /\ 0 < v_mx V /\ 0 < v_mv V /\ 2 * v_mx V < 700.
Proof. cbn. lra. Qed.

(** The cross sections of the self-interaction divide by the energy where the golden rule divides by its
    square: with nodes and weights that are exact for the amplitude they are the energy times the golden
    rule (the wrong dimension of C39). *)
Theorem self_interaction_energy_times_golden_rule : forall S V e w I J rule,
  0 < w -> (forall nw, In nw rule -> -1 <= fst nw <= 1) ->
  let sum F := fold_right Rplus 0 (map (fun nw => snd nw * F (fst nw)) rule) in
  (0 < s_mx S -> 0 < s_ms S -> 2 * s_mx S < e ->
   let F z := s_gsxx S ^ 4 * self_scalar (s_mx S) (s_ms S) w e z / 4 in
   area F (-1) 1 I -> sum F = I ->
   exists v, angular_rule (s_mx S) (s_mx S) e F v /\ sigma_xx_to_s_to_xx S e w rule = e * v) /\
  (0 < v_mx V -> 0 < v_mv V -> 2 * v_mx V < e ->
   let F z := v_gvxx V ^ 4 * self_vector (v_mx V) (v_mv V) w e z / 4 in
   area F (-1) 1 J -> sum F = J ->
   exists v, angular_rule (v_mx V) (v_mx V) e F v /\ sigma_xx_to_v_to_xx V e w rule = e * v).
Proof.
  intros S V e w I J rule Hw Hr sum. pose proof PI_RGT_0 as Hpi.
  assert (Sum : forall F G, (forall z, -1 <= z <= 1 -> F z = G z) -> sum F = sum G).
  { intros F G H. unfold sum. f_equal. apply map_ext_in. intros nw Hi. rewrite H; [reflexivity|now apply Hr]. }
  split.
  - intros Hm HM He F HA HS. exists (I / (32 * PI * e ^ 2)).
    assert (P1 : 0 < momentum e (s_mx S)) by (apply sqrt_lt_R0; nra). split.
    + exists I. split; [exact HA|]. field. repeat split; lra.
    + unfold sigma_xx_to_s_to_xx. destruct (Rlt_dec _ _) as [_|H]; [|lra].
      change (sum (s_xx_msqrd S e w) / (32 * PI * e) = e * (I / (32 * PI * e ^ 2))).
      rewrite (Sum _ F), HS; [field; lra|]. intros z Hz. unfold F.
      now apply (self_interaction_amplitudes S V e w z Hz).
  - intros Hm HM He F HA HS. exists (J / (32 * PI * e ^ 2)).
    assert (P1 : 0 < momentum e (v_mx V)) by (apply sqrt_lt_R0; nra). split.
    + exists J. split; [exact HA|]. field. repeat split; lra.
    + unfold sigma_xx_to_v_to_xx. destruct (Rlt_dec _ _) as [_|H]; [|lra].
      change (sum (v_xx_msqrd V e w) / (32 * PI * e) = e * (J / (32 * PI * e ^ 2))).
      rewrite (Sum _ F), HS; [field; lra|]. intros z Hz. unfold F.
      now apply (self_interaction_amplitudes S V e w z Hz).
Qed.
Print Assumptions self_interaction_energy_times_golden_rule.

(** exact nodes exist whatever the integrand: one node with the mean as its weight *)
Lemma one_node : forall F, (forall z, -1 <= z <= 1 -> continuity_pt F z /\ 0 < F z) ->
  exists I r, 0 < I /\ area F (-1) 1 I /\ r * F 0 = I.
Proof.
  intros F H. destruct (area_exists F (-1) 1 ltac:(lra) (fun x Hx => proj1 (H x Hx))) as [I HI].
  exists I, (I / F 0). assert (F0 : 0 < F 0) by (apply H; lra). split; [|split; [exact HI|field; lra]].
  apply (area_pos F (-1) 1 I); [lra| |exact HI]. intros x Hx. apply H. lra.
Qed.

Lemma sample_continuous : forall z, -1 <= z <= 1 ->
  (continuity_pt (s_xx_msqrd (MkS 1 4 1 1 0 0 1 0) 4 4) z /\ 0 < s_xx_msqrd (MkS 1 4 1 1 0 0 1 0) 4 4 z) /\
  (continuity_pt (v_xx_msqrd (MkV 1 4 1 1 0 0 0 0) 4 4) z /\ 0 < v_xx_msqrd (MkV 1 4 1 1 0 0 0 0) 4 4 z).
Proof.
  intros z Hz. assert (0 <= z ^ 2 <= 1) by (split; [apply pow2_ge_0|nra]).
  assert (-1 <= z ^ 3 <= 1) by (replace (z ^ 3) with (z * z ^ 2) by ring; split; nra).
  assert (0 <= z ^ 4) by (replace (z ^ 4) with ((z ^ 2) ^ 2) by ring; apply pow2_ge_0).
  split.
  - unfold s_xx_msqrd. cbn [s_mx s_ms s_gsxx]. cbv zeta. replace (4 / 4) with 1 by lra. split.
    + match goal with |- continuity_pt (fun z => @?n z / @?d z) _ => apply (continuity_pt_div n d) end.
      * reg.
      * reg.
      * cbv beta. nra.
    + apply Rmult_lt_0_compat; [|apply Rinv_0_lt_compat]; nra.
  - unfold v_xx_msqrd. cbn [v_mx v_mv v_gvxx]. cbv zeta. replace (4 / 4) with 1 by lra. split.
    + match goal with |- continuity_pt (fun z => @?n z / @?d z) _ => apply (continuity_pt_div n d) end.
      * reg.
      * reg.
      * cbv beta. nra.
    + apply Rmult_lt_0_compat; [|apply Rinv_0_lt_compat]; nra.
Qed.

Lemma area_ext_left : forall F G I, (forall z, -1 <= z <= 1 -> F z = G z) -> area F (-1) 1 I -> area G (-1) 1 I.
Proof. intros F G I H. apply (area_ext F G _ _ _ []). intros x Hx _. apply H. lra. Qed.

(** So at an energy other than one the cross sections of the self-interaction are not those of the golden
    rule, even when the nodes integrate the amplitude exactly. *)
Theorem self_interaction_golden_rule_refuted : exists S V e w rule_s rule_v,
  0 < w /\ 0 < s_mx S /\ 0 < s_ms S /\ 2 * s_mx S < e /\ 0 < v_mx V /\ 0 < v_mv V /\ 2 * v_mx V < e /\
  let F z := s_gsxx S ^ 4 * self_scalar (s_mx S) (s_ms S) w e z / 4 in
  let G z := v_gvxx V ^ 4 * self_vector (v_mx V) (v_mv V) w e z / 4 in
  let sum rule F := fold_right Rplus 0 (map (fun nw => snd nw * F (fst nw)) rule) in
  area F (-1) 1 (sum rule_s F) /\ area G (-1) 1 (sum rule_v G) /\
  (forall v, angular_rule (s_mx S) (s_mx S) e F v -> sigma_xx_to_s_to_xx S e w rule_s <> v) /\
  (forall v, angular_rule (v_mx V) (v_mx V) e G v -> sigma_xx_to_v_to_xx V e w rule_v <> v).
Proof.
  set (S := MkS 1 4 1 1 0 0 1 0). set (V := MkV 1 4 1 1 0 0 0 0).
  assert (Am : forall z, -1 <= z <= 1 ->
    s_xx_msqrd S 4 4 z = s_gsxx S ^ 4 * self_scalar (s_mx S) (s_ms S) 4 4 z / 4 /\
    v_xx_msqrd V 4 4 z = v_gvxx V ^ 4 * self_vector (v_mx V) (v_mv V) 4 4 z / 4).
  { intros z Hz. destruct (self_interaction_amplitudes S V 4 4 z Hz) as [A B].
    split; [apply A|apply B]; cbn; lra. }
  destruct (one_node (s_xx_msqrd S 4 4) (fun z Hz => proj1 (sample_continuous z Hz))) as (I & r & HI & AI & EI).
  destruct (one_node (v_xx_msqrd V 4 4) (fun z Hz => proj2 (sample_continuous z Hz))) as (J & q & HJ & AJ & EJ).
  apply (area_ext_left _ _ _ (fun z Hz => proj1 (Am z Hz))) in AI.
  apply (area_ext_left _ _ _ (fun z Hz => proj2 (Am z Hz))) in AJ.
  rewrite (proj1 (Am 0 ltac:(lra))) in EI. rewrite (proj2 (Am 0 ltac:(lra))) in EJ.
  exists S, V, 4, 4, [(0, r)], [(0, q)]. do 7 (split; [cbn; lra|]). cbv zeta. cbn [map fold_right fst snd].
  rewrite !Rplus_0_r, EI, EJ. split; [exact AI|]. split; [exact AJ|].
  destruct (self_interaction_energy_times_golden_rule S V 4 4 I I [(0, r)] ltac:(lra)) as [HS _].
  { intros nw [<-|[]]. cbn. lra. }
  destruct (self_interaction_energy_times_golden_rule S V 4 4 J J [(0, q)] ltac:(lra)) as [_ HV].
  { intros nw [<-|[]]. cbn. lra. }
  destruct HS as (v & Rv & Ev); [cbn; lra|cbn; lra|cbn; lra|exact AI|cbn [map fold_right fst snd]; lra|].
  destruct HV as (u & Ru & Eu); [cbn; lra|cbn; lra|cbn; lra|exact AJ|cbn [map fold_right fst snd]; lra|].
  pose proof PI_RGT_0 as Hpi. assert (K : 0 < momentum 4 1) by (apply sqrt_lt_R0; lra).
  assert (Val : forall F I v, 0 < I -> area F (-1) 1 I -> angular_rule 1 1 4 F v -> v = I / (512 * PI)).
  { intros F0 I0 v0 H0 A0 (I1 & A1 & ->). rewrite (area_unique F0 (-1) 1 I0 I1 ltac:(lra) A0 A1). field. split; lra. }
  assert (Pos : forall I, 0 < I -> 0 < I / (512 * PI)) by (intros; apply Rdiv_lt_0_compat; lra).
  split; intros v' Hv'.
  - rewrite Ev, (Val _ I v HI AI Rv), (Val _ I v' HI AI Hv'). specialize (Pos I HI). lra.
  - rewrite Eu, (Val _ J u HJ AJ Ru), (Val _ J v' HJ AJ Hv'). specialize (Pos J HJ). lra.
Qed.
Print Assumptions self_interaction_golden_rule_refuted.

(** The rules of the refutation meet the hypotheses of the theorem before it; another case, of the vector
    mediator. *)
Example self_interaction_energy_times_golden_rule_example : exists J r,
  let V := MkV 1 4 1 1 0 0 0 0 in
  let F z := v_gvxx V ^ 4 * self_vector (v_mx V) (v_mv V) 4 4 z / 4 in
  area F (-1) 1 J /\ fold_right Rplus 0 (map (fun nw => snd nw * F (fst nw)) [(0, r)]) = J /\ 0 < J.
Proof.
  set (V := MkV 1 4 1 1 0 0 0 0).
  assert (Am : forall z, -1 <= z <= 1 -> v_xx_msqrd V 4 4 z = v_gvxx V ^ 4 * self_vector (v_mx V) (v_mv V) 4 4 z / 4).
  { intros z Hz. apply (self_interaction_amplitudes (MkS 1 4 1 1 0 0 1 0) V 4 4 z Hz); cbn; lra. }
  destruct (one_node (v_xx_msqrd V 4 4) (fun z Hz => proj2 (sample_continuous z Hz))) as (J & q & HJ & AJ & EJ).
  exists J, q. cbv zeta. cbn [map fold_right fst snd].
  split; [exact (area_ext_left _ _ _ Am AJ)|]. rewrite <- Am by lra. lra.
Qed.
