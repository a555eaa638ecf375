(** Elastic scattering of dark matter by the exchange of the scalar mediator: a specification in terms of
    squared amplitudes and momentum transfer, and lemmas about it.

    For x + f -> x + f at total energy [e] the golden rule is
      sigma = 1 / (16 pi lambda) * (area of the spin-averaged |M|^2 over t from - lambda / e^2 to 0),
      lambda = (e^2 - (mx + m)^2) (e^2 - (mx - m)^2),
    where [t] is the squared momentum transfer and [m] the mass of f. *)
From Coq Require Import Reals Lra Psatz List.
From Verif Require Import Area MedModel SpecProofs PionProofs.
Import ListNotations.
Local Open Scope R_scope.

(** * Specification *)

(** Kallen's triangle function of the two masses *)
Definition kallen (s m1 m2 : R) : R := (s - (m1 + m2) ^ 2) * (s - (m1 - m2) ^ 2).

(** [v] is the cross section the golden rule makes of the squared amplitude [F], for masses [m1] and [m2] *)
Definition golden_rule (m1 m2 e : R) (F : R -> R) (v : R) : Prop :=
  exists I, area F (- (kallen (e ^ 2) m1 m2 / e ^ 2)) 0 I /\ v = I / (16 * PI * kallen (e ^ 2) m1 m2).

(** The vertices of the mediator, squared and averaged over the spins of the incoming particle, as
    functions of the momentum transfer: a lepton (Yukawa coupling gsff ml / vh, trace 2 (4 ml^2 - t)), a
    photon (coupling alpha gsFF / (4 pi Lambda) S F F, sum of polarisations 8 t^2) and a pion (gluon term
    and mass term of the chiral Lagrangian) *)
Definition lepton_vertex (C : consts) (P : sparams) (ml t : R) : R :=
  (s_gsff P * ml / c_vh C) ^ 2 * (4 * ml ^ 2 - t).
Definition photon_vertex (C : consts) (P : sparams) (t : R) : R :=
  4 * (c_alpha C * s_gsFF P / (4 * PI * s_lam P)) ^ 2 * t ^ 2.
Definition pion_coupling (C : consts) (P : sparams) (m t : R) : R :=
  2 * s_gsGG P * (2 * m ^ 2 - t) / (9 * s_lam P + 4 * s_gsGG P * s_vs P)
  + c_b0 C * (c_mdq C + c_muq C)
    * ((3 * s_gsff P * s_lam P * s_vs P + 2 * s_gsGG P * c_vh C * s_vs P - 3 * s_lam P * c_vh C)
       / (3 * s_lam P * c_vh C))
    * ((2 * s_gsGG P * c_vh C * (9 * s_lam P - 4 * s_gsGG P * s_vs P)
        + 9 * s_gsff P * s_lam P * (3 * s_lam P + 4 * s_gsGG P * s_vs P))
       / (27 * s_lam P ^ 2 * c_vh C)).
Definition pion_vertex (C : consts) (P : sparams) (m t : R) : R := pion_coupling C P m t ^ 2.

(** The squared amplitude of an exchange: the dark matter line gives gsxx^2 (4 mx^2 - t), the propagator
    1 / ((t - ms^2)^2 + ms^2 w^2) *)
Definition exchange (P : sparams) (w : R) (V : R -> R) (t : R) : R :=
  s_gsxx P ^ 2 * (4 * s_mx P ^ 2 - t) * V t / ((t - s_ms P ^ 2) ^ 2 + s_ms P ^ 2 * w ^ 2).

(** The squared amplitude of x S -> x S by the exchange of x in the s and u channels,
    ubar' [(2 m + k) / (s - m^2) + (2 m - k) / (u - m^2)] u, by its traces: [p12], [k1], [k2] are the
    products of momenta p1.p2, k.p1, k.p2 *)
Definition compton (P : sparams) (e t : R) : R :=
  let m := s_mx P in
  let s := e ^ 2 in
  let u := 2 * m ^ 2 + 2 * s_ms P ^ 2 - s - t in
  let A := 2 * m * (1 / (s - m ^ 2) + 1 / (u - m ^ 2)) in
  let B := 1 / (s - m ^ 2) - 1 / (u - m ^ 2) in
  let p12 := m ^ 2 - t / 2 in
  let k1 := (s - m ^ 2 - s_ms P ^ 2) / 2 in
  let k2 := (m ^ 2 + s_ms P ^ 2 - u) / 2 in
  s_gsxx P ^ 4 / 2
  * (A ^ 2 * (4 * (p12 + m ^ 2)) + 2 * A * B * (4 * m * (k1 + k2))
     + B ^ 2 * (4 * (2 * k1 * k2 - s_ms P ^ 2 * p12 + m ^ 2 * s_ms P ^ 2))).

(** * Lemmas *)

(** the primitive of a cubic over y^2 + b^2 *)
Definition cubic_primitive (b d3 d2 d1 d0 y : R) : R :=
  d3 * y ^ 2 / 2 + d2 * y + (d1 - d3 * b ^ 2) / 2 * ln (y ^ 2 + b ^ 2)
  + (d0 - d2 * b ^ 2) / b * atan (y / b).

Lemma dl_atan f x a : derivable_pt_lim f x a -> derivable_pt_lim (fun y => atan (f y)) x (a / (1 + f x ^ 2)).
Proof.
  intro H. apply (dl_val _ _ (/ (1 + f x ^ 2) * a)).
  - apply (dl_comp f atan); [exact H|]. apply derivable_pt_lim_atan.
  - field. nra.
Qed.

Lemma cubic_primitive_derivative : forall a b d3 d2 d1 d0 t, 0 < b ->
  derivable_pt_lim (fun t => cubic_primitive b d3 d2 d1 d0 (t - a)) t
    ((d3 * (t - a) ^ 3 + d2 * (t - a) ^ 2 + d1 * (t - a) + d0) / ((t - a) ^ 2 + b ^ 2)).
Proof.
  intros a b d3 d2 d1 d0 t Hb. unfold cubic_primitive.
  assert (Hy : derivable_pt_lim (fun t => t - a) t 1).
  { eapply dl_val; [apply dl_minus; [apply dl_id|apply dl_const]|ring]. }
  assert (Hb2 : 0 < b ^ 2) by (apply pow_lt; exact Hb).
  assert (Hq : 0 < (t - a) ^ 2 + b ^ 2) by (pose proof (pow2_ge_0 (t - a)); lra).
  assert (H2 : derivable_pt_lim (fun t => (t - a) ^ 2) t (2 * (t - a))).
  { eapply dl_val; [apply (dl_pow _ _ _ 2 Hy)|]. cbn. ring. }
  eapply dl_val.
  - apply dl_plus; [apply dl_plus; [apply dl_plus|]|].
    + apply dl_div; [apply dl_mult; [apply dl_const|exact H2]|apply dl_const|lra].
    + apply dl_mult; [apply dl_const|exact Hy].
    + apply dl_mult; [apply dl_const|]. apply dl_ln; [|exact Hq].
      apply dl_plus; [exact H2|apply dl_const].
    + apply dl_mult; [apply dl_const|]. apply dl_atan. apply dl_div; [exact Hy|apply dl_const|lra].
  - cbv beta. set (y := t - a) in *. clearbody y. clear Hy H2. unfold Rsqr. field. repeat split; lra.
Qed.

Lemma cubic_area : forall a b d3 d2 d1 d0 lo hi, 0 < b ->
  area (fun t => (d3 * (t - a) ^ 3 + d2 * (t - a) ^ 2 + d1 * (t - a) + d0) / ((t - a) ^ 2 + b ^ 2)) lo hi
    (cubic_primitive b d3 d2 d1 d0 (hi - a) - cubic_primitive b d3 d2 d1 d0 (lo - a)).
Proof.
  intros a b d3 d2 d1 d0 lo hi Hb.
  apply (area_of_antiderivative (fun t => cubic_primitive b d3 d2 d1 d0 (t - a))).
  intros t _. now apply cubic_primitive_derivative.
Qed.

(** the same for a cubic in [t] itself, given by four coefficients *)
Lemma cubic_area_t : forall F ms w c3 c2 c1 c0 lo hi, 0 < ms -> 0 < w ->
  (forall t, F t = (c3 * t ^ 3 + c2 * t ^ 2 + c1 * t + c0) / ((t - ms ^ 2) ^ 2 + ms ^ 2 * w ^ 2)) ->
  let d2 := c2 + 3 * c3 * ms ^ 2 in
  let d1 := c1 + 2 * c2 * ms ^ 2 + 3 * c3 * ms ^ 4 in
  let d0 := c0 + c1 * ms ^ 2 + c2 * ms ^ 4 + c3 * ms ^ 6 in
  area F lo hi (cubic_primitive (ms * w) c3 d2 d1 d0 (hi - ms ^ 2)
                - cubic_primitive (ms * w) c3 d2 d1 d0 (lo - ms ^ 2)).
Proof.
  intros F ms w c3 c2 c1 c0 lo hi Hm Hw HF d2 d1 d0.
  assert (Hb : 0 < ms * w) by (apply Rmult_lt_0_compat; assumption).
  eapply (area_ext _ F lo hi _ []); [|exact (cubic_area (ms ^ 2) (ms * w) c3 d2 d1 d0 lo hi Hb)].
  intros t _ _. rewrite HF. unfold d2, d1, d0.
  f_equal; [ring|]. f_equal. ring.
Qed.

(** the two ends of the interval used by the code, with the logarithm and the arctangent it writes *)
Lemma primitive_ends : forall mx ms w e d3 d2 d1 d0, 0 < ms -> 0 < w ->
  let y := 4 * mx ^ 2 - e ^ 2 - ms ^ 2 in
  cubic_primitive (ms * w) d3 d2 d1 d0 (0 - ms ^ 2)
  - cubic_primitive (ms * w) d3 d2 d1 d0 (4 * mx ^ 2 - e ^ 2 - ms ^ 2)
  = d3 * (ms ^ 4 - y ^ 2) / 2 + d2 * (- ms ^ 2 - y)
    + (d1 - d3 * (ms * w) ^ 2) / 2
      * (ln (ms ^ 2 * (ms ^ 2 + w ^ 2))
         - ln (ms ^ 2 * (- 8 * mx ^ 2 + 2 * e ^ 2 + w ^ 2) + (ms ^ 4 + (- 4 * mx ^ 2 + e ^ 2) ^ 2)))
    + (d0 - d2 * (ms * w) ^ 2) / (ms * w)
      * (atan ((- 4 * mx ^ 2 + ms ^ 2 + e ^ 2) / (ms * w)) - atan (ms / w)).
Proof.
  intros mx ms w e d3 d2 d1 d0 Hm Hw y. unfold cubic_primitive. fold y.
  replace ((0 - ms ^ 2) / (ms * w)) with (- (ms / w)) by (field; lra).
  replace (y / (ms * w)) with (- ((- 4 * mx ^ 2 + ms ^ 2 + e ^ 2) / (ms * w))) by (unfold y; field; lra).
  rewrite !atan_opp.
  replace ((0 - ms ^ 2) ^ 2 + (ms * w) ^ 2) with (ms ^ 2 * (ms ^ 2 + w ^ 2)) by ring.
  replace (y ^ 2 + (ms * w) ^ 2)
    with (ms ^ 2 * (- 8 * mx ^ 2 + 2 * e ^ 2 + w ^ 2) + (ms ^ 4 + (- 4 * mx ^ 2 + e ^ 2) ^ 2))
    by (unfold y; ring).
  set (L1 := ln _). set (L2 := ln _). set (A1 := atan _). set (A2 := atan _).
  field. lra.
Qed.

(** an increasing integrand has the larger mean over the longer interval *)
Lemma mean_increases : forall F a b I J, a < b < 0 -> (forall t u, a <= t < u -> u <= 0 -> F u < F t) ->
  area F a 0 I -> area F b 0 J -> J / (- b) < I / (- a).
Proof.
  intros F a b I J Hab HF HI HJ.
  set (k := a / b).
  assert (Hk : 1 < k).
  { unfold k. replace (a / b) with (- a / - b) by (field; lra).
    apply (Rmult_lt_reg_r (- b)); [lra|]. field_simplify; lra. }
  assert (Ea : a = k * b) by (unfold k; field; lra).
  assert (HS : area (fun t => F (k * t) * k) b 0 I).
  { destruct HI as (G & Gc & (l & Gd) & Gv). exists (fun t => G (k * t)). split; [|split].
    - intros x Hx. apply (continuity_pt_comp (fun t => k * t) G).
      + apply derivable_continuous_pt. exists (0 * x + k * 1). apply dl_mult; [apply dl_const|apply dl_id].
      + apply Gc. rewrite Ea. nra.
    - exists (map (fun x => x / k) l). intros x Hx Hn.
      apply (dl_val _ _ (F (k * x) * (0 * x + k * 1))); [|ring].
      apply (dl_comp (fun t => k * t) G); [apply dl_mult; [apply dl_const|apply dl_id]|].
      apply Gd; [rewrite Ea; nra|]. intro Hi. apply Hn. apply in_map_iff. exists (k * x). split; [field; lra|exact Hi].
    - rewrite Rmult_0_r, <- Ea. exact Gv. }
  assert (HD : area (fun t => F (k * t) * k + (- k) * F t) b 0 (I + (- k) * J)).
  { apply area_plus; [exact HS|]. now apply area_scale. }
  assert (Pos : 0 < I + (- k) * J).
  { apply (area_pos _ b 0 _ ltac:(lra)) with (2 := HD). intros x Hx.
    assert (F x < F (k * x)) by (apply HF; rewrite ?Ea; nra). nra. }
  rewrite Ea. replace (I / (- (k * b))) with ((I / k) / (- b)) by (field; lra).
  apply Rmult_lt_compat_r; [apply Rinv_0_lt_compat; lra|].
  apply (Rmult_lt_reg_r k); [lra|]. replace (I / k * k) with I by (field; lra). lra.
Qed.
