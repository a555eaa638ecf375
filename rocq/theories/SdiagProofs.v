(** Vocabulary for the decays of the scalar mediator and annihilation through it: the coupling to two photons from
    the electric and magnetic fields of plane waves, and the coupling to pions from the trace of their energy-momentum
    tensor. *)
From Coq Require Import Reals Lra Psatz List.
From Verif Require Import Area SpecProofs MedModel MedProofs DiracProofs ChanProofs ChanProps.
Import ListNotations.
Local Open Scope R_scope.

(** * Specification *)

(** ** Photons
    The fields of a wave of momentum [k] and polarisation [p] without time component, up to the common phase:
    E = k0 p and B = k x p; the invariant of two waves is 2 (B.B' - E.E'). *)
Definition dot3 (a b : vec) : R := v1 a * v1 b + v2 a * v2 b + v3 a * v3 b.
Definition cross3 (a b : vec) : vec := V4 0 (v2 a * v3 b - v3 a * v2 b) (v3 a * v1 b - v1 a * v3 b) (v1 a * v2 b - v2 a * v1 b).
Definition electric (k p : vec) : vec := V4 0 (v0 k * v1 p) (v0 k * v2 p) (v0 k * v3 p).
Definition magnetic (k p : vec) : vec := cross3 k p.
Definition invariant (k p k' p' : vec) : R :=
  2 * (dot3 (magnetic k p) (magnetic k' p') - dot3 (electric k p) (electric k' p')).
(** two photons back to back along an axis of cosine [z], with total energy [e] *)
Definition photon_1 (e z : R) : vec := V4 (e / 2) (e / 2 * sqrt (1 - z ^ 2)) 0 (e / 2 * z).
Definition photon_2 (e z : R) : vec := V4 (e / 2) (- (e / 2 * sqrt (1 - z ^ 2))) 0 (- (e / 2 * z)).
(** the vertex [g S F F] couples either photon to either factor; the sum over both polarisations of both *)
Definition photon_sum (g e z : R) : R :=
  let a p p' := (2 * g * invariant (photon_1 e z) p (photon_2 e z) p') ^ 2 in
  a across_1 across_1 + a across_1 (across_2 z) + a (across_2 z) across_1 + a (across_2 z) (across_2 z).

(** ** Pions
    For the Lagrangian D - M2 Q of a charged pion, with D the product of the gradients and Q of the fields, the trace of
    the energy-momentum tensor is - 2 D + 4 M2 Q.  Between the vacuum and two pions of momenta k and k', D gives - k.k' and
    Q gives 1. *)
Definition gradients (k k' : vec) : R := - mdot k k'.
Definition trace_tensor (M2 : R) (k k' : vec) : R := - 2 * gradients k k' + 4 * M2.
Definition quark_mass_term (M2 : R) : R := M2.
(** The low-energy theorem: gluons couple to the part of the trace that is not from the quark masses, with 2/9 for
    three light flavours; the quark masses couple like the fermions. *)
Definition pion_coupling (C : consts) (S : sparams) (k k' : vec) : R :=
  let M2 := c_b0 C * (c_muq C + c_mdq C) in
  - (2 * s_gsGG S / (9 * s_lam S) * (trace_tensor M2 k k' - quark_mass_term M2) + s_gsff S / c_vh C * quark_mass_term M2).
(** The Lagrangian of docs/source/scalar_mediator.rst 27-29, read as an amplitude: the gradient term, and the mass
    term that is there with 2 gSG / (3 Lambda) *)
Definition documented_pion_coupling (C : consts) (S : sparams) (k k' : vec) : R :=
  2 * (2 * s_gsGG S / (9 * s_lam S)) * gradients k k'
  - 2 * (c_b0 C * (c_muq C + c_mdq C) / 6) * (3 * s_gsff S / c_vh C + 2 * s_gsGG S / (3 * s_lam S)).

(** two fermions of mass [u] made by a scalar, and the beam of two of mass [m] *)
Definition pair_sum (u e z : R) : R := tr [Spin (out_1 e u z) u; Spin (out_2 e u z) (- u)].
Definition beam_sum (m e : R) : R := tr [Spin (in_2 e m) (- m); Spin (in_1 e m) m].

(** * Lemmas *)
Lemma photon_closed g e z : -1 <= z <= 1 -> photon_sum g e z = 8 * g ^ 2 * e ^ 4.
Proof.
  intro Hz. assert (HS : sqrt (1 - z ^ 2) ^ 2 = 1 - z ^ 2) by (apply pow2_sqrt; nra).
  unfold photon_sum, invariant, electric, magnetic, dot3, cross3, photon_1, photon_2, across_1, across_2. cbn [v0 v1 v2 v3].
  set (s := sqrt (1 - z ^ 2)) in *. clearbody s. assert (E : z ^ 2 = 1 - s ^ 2) by lra.
  match goal with |- ?l = _ => ring_simplify l end.
  replace (z ^ 8) with ((z ^ 2) ^ 4) by ring. replace (z ^ 6) with ((z ^ 2) ^ 3) by ring. replace (z ^ 4) with ((z ^ 2) ^ 2) by ring.
  rewrite !E. field.
Qed.
Lemma pair_closed u e z : -1 <= z <= 1 -> u ^ 2 < e ^ 2 / 4 -> pair_sum u e z = 8 * momentum e u ^ 2.
Proof.
  intros Hz Hu. unfold pair_sum. assert (T : forall k k', tr [Spin k u; Spin k' (- u)] = 4 * (mdot k k' - u ^ 2)) by (intros; traces; ring).
  rewrite T. unfold mdot, out_1, out_2. cbn [v0 v1 v2 v3].
  assert (HK : momentum e u ^ 2 = e ^ 2 / 4 - u ^ 2) by (apply pow2_sqrt; lra).
  assert (HS : sqrt (1 - z ^ 2) ^ 2 = 1 - z ^ 2) by (apply pow2_sqrt; nra).
  set (s := sqrt (1 - z ^ 2)) in *. set (K := momentum e u) in *. clearbody K s.
  replace (u ^ 2) with (e ^ 2 / 4 - K ^ 2) by lra.
  replace (K * s * - (K * s)) with (- (K ^ 2 * (1 - z ^ 2))) by (rewrite <- HS; ring). field.
Qed.
Lemma beam_closed m e : m ^ 2 < e ^ 2 / 4 -> beam_sum m e = 8 * momentum e m ^ 2.
Proof.
  intro Hm. unfold beam_sum. assert (T : forall k k', tr [Spin k (- m); Spin k' m] = 4 * (mdot k k' - m ^ 2)) by (intros; traces; ring).
  rewrite T. unfold mdot, in_1, in_2. cbn [v0 v1 v2 v3].
  assert (HK : momentum e m ^ 2 = e ^ 2 / 4 - m ^ 2) by (apply pow2_sqrt; lra).
  set (K := momentum e m) in *. clearbody K. replace (m ^ 2) with (e ^ 2 / 4 - K ^ 2) by lra. field.
Qed.
Lemma pion_dot u e z : -1 <= z <= 1 -> u ^ 2 < e ^ 2 / 4 -> mdot (out_1 e u z) (out_2 e u z) = (e ^ 2 - 2 * u ^ 2) / 2.
Proof.
  intros Hz Hu. unfold mdot, out_1, out_2. cbn [v0 v1 v2 v3].
  assert (HK : momentum e u ^ 2 = e ^ 2 / 4 - u ^ 2) by (apply pow2_sqrt; lra).
  assert (HS : sqrt (1 - z ^ 2) ^ 2 = 1 - z ^ 2) by (apply pow2_sqrt; nra).
  set (s := sqrt (1 - z ^ 2)) in *. set (K := momentum e u) in *. clearbody K s.
  replace (u ^ 2) with (e ^ 2 / 4 - K ^ 2) by lra.
  replace (K * s * - (K * s)) with (- (K ^ 2 * (1 - z ^ 2))) by (rewrite <- HS; ring). field.
Qed.
Lemma pion_coupling_closed C S u e z : -1 <= z <= 1 -> u ^ 2 < e ^ 2 / 4 ->
  pion_coupling C S (out_1 e u z) (out_2 e u z) =
    - (2 * s_gsGG S / (9 * s_lam S) * (e ^ 2 - 2 * u ^ 2 + 3 * (c_b0 C * (c_muq C + c_mdq C)))
       + s_gsff S / c_vh C * (c_b0 C * (c_muq C + c_mdq C))).
Proof. intros. unfold pion_coupling, trace_tensor, quark_mass_term, gradients. rewrite pion_dot by assumption. f_equal. f_equal. f_equal. field. Qed.
