(** Squared amplitudes of the decays of the mediators and of annihilation through them, from traces of Dirac
    matrices, scalar currents and the coupling of the triangle anomaly. *)
From Coq Require Import Reals Lra Psatz List.
From Verif Require Import Area SpecProofs MedModel MedProofs DiracProofs.
Import ListNotations.
Local Open Scope R_scope.

(** * Specification *)

(** the momentum of two particles of masses [a] and [b] at total energy [e] *)
Definition recoil (e a b : R) : R := sqrt ((e ^ 2 - (a + b) ^ 2) * (e ^ 2 - (a - b) ^ 2)) / (2 * e).
(** a particle of mass [b] leaving at an angle of cosine [z], and its polarisations: two across its
    direction and, with a mass, one along it *)
Definition leaving (k b z : R) : vec := V4 (sqrt (k ^ 2 + b ^ 2)) (k * sqrt (1 - z ^ 2)) 0 (k * z).
Definition across_1 : vec := V4 0 0 1 0.
Definition across_2 (z : R) : vec := V4 0 z 0 (- sqrt (1 - z ^ 2)).
Definition along (k b z : R) : vec :=
  V4 (k / b) (sqrt (k ^ 2 + b ^ 2) / b * sqrt (1 - z ^ 2)) 0 (sqrt (k ^ 2 + b ^ 2) / b * z).

(** epsilon^(mu alpha beta gamma) a_alpha b_beta c_gamma *)
Definition det3 (a1 a2 a3 b1 b2 b3 c1 c2 c3 : R) : R :=
  a1 * (b2 * c3 - b3 * c2) - a2 * (b1 * c3 - b3 * c1) + a3 * (b1 * c2 - b2 * c1).
Definition lower (a : vec) : vec := V4 (v0 a) (- v1 a) (- v2 a) (- v3 a).
Definition dual (a' b' c' : vec) : vec :=
  let a := lower a' in let b := lower b' in let c := lower c' in
  V4 (det3 (v1 a) (v2 a) (v3 a) (v1 b) (v2 b) (v3 b) (v1 c) (v2 c) (v3 c))
     (- det3 (v0 a) (v2 a) (v3 a) (v0 b) (v2 b) (v3 b) (v0 c) (v2 c) (v3 c))
     (det3 (v0 a) (v1 a) (v3 a) (v0 b) (v1 b) (v3 b) (v0 c) (v1 c) (v3 c))
     (- det3 (v0 a) (v1 a) (v2 a) (v0 b) (v1 b) (v2 b) (v0 c) (v1 c) (v2 c)).
(** it is orthogonal to its arguments and its square is minus their Gram determinant *)
Lemma dual_spec : forall a b c,
  mdot (dual a b c) a = 0 /\ mdot (dual a b c) b = 0 /\ mdot (dual a b c) c = 0 /\
  mdot (dual a b c) (dual a b c)
  = - det3 (mdot a a) (mdot a b) (mdot a c) (mdot b a) (mdot b b) (mdot b c) (mdot c a) (mdot c b) (mdot c c).
Proof. intros. unfold dual, lower, mdot, det3. cbn [v0 v1 v2 v3]. repeat split; ring. Qed.

(** the golden rule for the decay of a particle of mass [M] into two of momentum [k], and for annihilation
    of two particles of mass [m] into two of momentum [k] *)
Definition decay_rule (M k F : R) : R := k / (8 * PI * M ^ 2) * F.
Definition channel_rule (m k e : R) (F : R -> R) (v : R) : Prop :=
  exists I, area F (-1) 1 I /\ v = I * (k / momentum e m) / (32 * PI * e ^ 2).
Definition breit (M w e : R) : R := (e ^ 2 - M ^ 2) ^ 2 + M ^ 2 * w ^ 2.

(** The spin sum of vbar(p2) Jslash u(p1) for two particles of mass [m] and a current [J] *)
Definition current_sum (m e : R) (J : vec) : R :=
  tr [Spin (in_2 e m) (- m); Spin J 0; Spin (in_1 e m) m; Spin J 0].
(** two fermions of mass [u] made by a vector: the spin sum, with the lower index free of the beam *)
Definition fermion_sum (m u e z : R) : R :=
  tr2 [Spin (in_2 e m) (- m); Vertex 0; Spin (in_1 e m) m; Vertex 1]
      [Spin (out_1 e u z) u; Vertex 0; Spin (out_2 e u z) (- u); Vertex 1].
Definition scalar_fermion_sum (m u e z : R) : R :=
  tr2 [Spin (in_2 e m) (- m); Spin (in_1 e m) m] [Spin (out_1 e u z) u; Spin (out_2 e u z) (- u)].
(** the current of a neutral pion and a vector of polarisation [pol] and momentum [k] in the frame of the
    mediator, of energy [e] *)
Definition rest (e : R) : vec := V4 e 0 0 0.
Definition anomaly_current (e : R) (pol k : vec) : vec := dual pol (rest e) k.

(** * Lemmas *)
Section Frame.
Variables (e m : R).
Hypothesis He : 0 < e.
Hypothesis Hm : m ^ 2 < e ^ 2 / 4.
Let P := momentum e m.

Lemma beam_sq : P ^ 2 = e ^ 2 / 4 - m ^ 2.
Proof. apply pow2_sqrt. lra. Qed.
Lemma beam_pos : 0 < P.
Proof. apply sqrt_lt_R0. lra. Qed.
Lemma beam_root : sqrt (m ^ 2 * - 4 + e ^ 2) = 2 * P.
Proof.
  replace (m ^ 2 * - 4 + e ^ 2) with ((2 * P) ^ 2) by (rewrite Rpow_mult_distr, beam_sq; field).
  apply sqrt_pow2. pose proof beam_pos. lra.
Qed.
Lemma sine2 : forall z, -1 <= z <= 1 -> sqrt (1 - z ^ 2) ^ 2 = 1 - z ^ 2.
Proof. intros z Hz. apply pow2_sqrt. nra. Qed.

Lemma current_closed : forall J, v0 J = 0 ->
  current_sum m e J = 2 * e ^ 2 * (v1 J ^ 2 + v2 J ^ 2 + v3 J ^ 2) - 8 * P ^ 2 * v3 J ^ 2.
Proof.
  intros J HJ. unfold current_sum.
  assert (T : forall p1 p2, tr [Spin p2 (- m); Spin J 0; Spin p1 m; Spin J 0]
    = 8 * mdot p1 J * mdot p2 J - 4 * mdot J J * (mdot p1 p2 + m ^ 2)).
  { intros. traces. rewrite ?(mdot_sym p2 p1), ?(mdot_sym J p1), ?(mdot_sym J p2). ring. }
  rewrite T. unfold mdot, in_1, in_2. cbn [v0 v1 v2 v3]. rewrite HJ. fold P.
  pose proof beam_sq as HP. clearbody P. replace (m ^ 2) with (e ^ 2 / 4 - P ^ 2) by lra. field.
Qed.

Lemma fermion_closed : forall u z, -1 <= z <= 1 -> u ^ 2 < e ^ 2 / 4 ->
  fermion_sum m u e z = 4 * (e ^ 4 + 4 * e ^ 2 * (m ^ 2 + u ^ 2)) + 64 * (P * momentum e u * z) ^ 2.
Proof.
  intros u z Hz Hu. unfold fermion_sum.
  assert (T : forall p1 p2 k1 k2, tr2 [Spin p2 (- m); Vertex 0; Spin p1 m; Vertex 1] [Spin k1 u; Vertex 0; Spin k2 (- u); Vertex 1]
    = 32 * (mdot p2 k1 * mdot p1 k2 + mdot p1 k1 * mdot p2 k2 + m ^ 2 * mdot k1 k2 + u ^ 2 * mdot p1 p2) + 64 * m ^ 2 * u ^ 2).
  { intros. traces. rewrite ?(mdot_sym p2 p1), ?(mdot_sym k2 k1), ?(mdot_sym k1 p1), ?(mdot_sym k2 p1),
      ?(mdot_sym k1 p2), ?(mdot_sym k2 p2). ring. }
  rewrite T. unfold mdot, in_1, in_2, out_1, out_2. cbn [v0 v1 v2 v3]. fold P.
  pose proof beam_sq as HP. assert (HK : momentum e u ^ 2 = e ^ 2 / 4 - u ^ 2) by (apply pow2_sqrt; lra).
  set (K := momentum e u) in *. pose proof (sine2 z Hz) as HS. set (s := sqrt (1 - z ^ 2)) in *. clearbody K P s.
  replace (m ^ 2) with (e ^ 2 / 4 - P ^ 2) by lra. replace (u ^ 2) with (e ^ 2 / 4 - K ^ 2) by lra.
  assert (E1 : K * s * - (K * s) = - (K ^ 2 * (1 - z ^ 2))) by (rewrite <- HS; ring). rewrite E1. field.
Qed.

Lemma scalar_fermion_closed : forall u z, -1 <= z <= 1 -> u ^ 2 < e ^ 2 / 4 ->
  scalar_fermion_sum m u e z = 4 * (e ^ 2 - 4 * m ^ 2) * (e ^ 2 - 4 * u ^ 2).
Proof.
  intros u z Hz Hu. unfold scalar_fermion_sum.
  assert (T : forall p1 p2 k1 k2, tr2 [Spin p2 (- m); Spin p1 m] [Spin k1 u; Spin k2 (- u)]
    = 16 * (mdot p1 p2 - m ^ 2) * (mdot k1 k2 - u ^ 2)).
  { intros. traces. rewrite ?(mdot_sym p2 p1). ring. }
  rewrite T. unfold mdot, in_1, in_2, out_1, out_2. cbn [v0 v1 v2 v3]. fold P.
  pose proof beam_sq as HP. assert (HK : momentum e u ^ 2 = e ^ 2 / 4 - u ^ 2) by (apply pow2_sqrt; lra).
  set (K := momentum e u) in *. pose proof (sine2 z Hz) as HS. set (s := sqrt (1 - z ^ 2)) in *. clearbody K P s.
  replace (m ^ 2) with (e ^ 2 / 4 - P ^ 2) by lra. replace (u ^ 2) with (e ^ 2 / 4 - K ^ 2) by lra.
  assert (E1 : K * s * - (K * s) = - (K ^ 2 * (1 - z ^ 2))) by (rewrite <- HS; ring). rewrite E1. field.
Qed.

(** the current of two scalars *)
Lemma pion_closed : forall u z, -1 <= z <= 1 ->
  current_sum m e (vsub (out_1 e u z) (out_2 e u z)) = 8 * momentum e u ^ 2 * e ^ 2 - 32 * P ^ 2 * momentum e u ^ 2 * z ^ 2.
Proof.
  intros u z Hz. rewrite current_closed by (cbn; ring). unfold vsub, out_1, out_2. cbn [v0 v1 v2 v3].
  set (K := momentum e u). pose proof (sine2 z Hz) as HS. set (s := sqrt (1 - z ^ 2)) in *. clearbody K P s.
  replace (K * s - - (K * s)) with (2 * K * s) by ring. rewrite !Rpow_mult_distr, HS. ring.
Qed.

(** the anomaly: each polarisation *)
Lemma anomaly_closed : forall k b z, -1 <= z <= 1 ->
  current_sum m e (anomaly_current e across_1 (leaving k b z)) = 2 * e ^ 4 * k ^ 2 - 8 * P ^ 2 * e ^ 2 * k ^ 2 * (1 - z ^ 2) /\
  current_sum m e (anomaly_current e (across_2 z) (leaving k b z)) = 2 * e ^ 4 * k ^ 2 /\
  current_sum m e (anomaly_current e (along k b z) (leaving k b z)) = 0.
Proof.
  intros k b z Hz. pose proof (sine2 z Hz) as HS.
  repeat split; rewrite current_closed by (unfold anomaly_current, dual, lower, det3; cbn; ring);
    unfold anomaly_current, dual, lower, det3, across_1, across_2, along, leaving, rest; cbn [v0 v1 v2 v3];
    set (s := sqrt (1 - z ^ 2)) in *; clearbody s P.
  - replace (1 - z ^ 2) with (s ^ 2) by assumption. replace (e ^ 4) with (e ^ 4 * (s ^ 2 + z ^ 2)) by (rewrite HS; ring).
    ring.
  - transitivity (2 * e ^ 4 * k ^ 2 * (z ^ 2 + s ^ 2) ^ 2); [ring|rewrite HS; ring].
  - ring.
Qed.
End Frame.

(** the angle *)
Lemma quadratic_area : forall a b, area (fun z => a + b * z ^ 2) (-1) 1 (2 * a + 2 * b / 3).
Proof.
  intros a b. apply (area_val _ _ _ ((a * 1 + b * 1 ^ 3 / 3) - (a * -1 + b * (-1) ^ 3 / 3))); [field|].
  apply (area_of_antiderivative (fun z => a * z + b * z ^ 3 / 3)). intros z _. eapply dl_val; [dl; lra|]. cbn [INR pred]. field.
Qed.
