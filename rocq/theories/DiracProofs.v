(** Traces of Dirac matrices with contracted indices, as a specification of spin sums, and the momenta of
    two-body scattering in the centre-of-mass frame. *)
From Coq Require Import Reals Lra Psatz List Arith.
From Verif Require Import Area SpecProofs.
Import ListNotations.
Local Open Scope R_scope.

(** * Specification *)

(** four-vectors and their product *)
Record vec : Type := V4 { v0 : R; v1 : R; v2 : R; v3 : R }.
Definition mdot (a b : vec) : R := v0 a * v0 b - v1 a * v1 b - v2 a * v2 b - v3 a * v3 b.
Definition vsub (a b : vec) : vec := V4 (v0 a - v0 b) (v1 a - v1 b) (v2 a - v2 b) (v3 a - v3 b).

(** a Dirac matrix in a product: pslash, or gamma with an index that occurs twice and is summed *)
Inductive gamma : Type := Slash (v : vec) | Index (i : nat).
Definition put (i : nat) (x : gamma) (l : list gamma) : list gamma :=
  map (fun y => match y with Index j => if Nat.eqb i j then x else y | _ => y end) l.

(** The trace of the product [l] times the traces of the products [more], the unit matrix having trace 4.
    The first matrix is paired with each of the others in its trace, with alternating signs.  A pair of
    slashed vectors gives their product, a pair with an index puts the partner in the other place of that
    index, an index paired with itself gives 4.  [n] bounds the number of steps. *)
Fixpoint trace (n : nat) (l : list gamma) (more : list (list gamma)) : R :=
  match n with
  | O => 0
  | S n' =>
      match l with
      | [] => match more with [] => 4 | l' :: more' => 4 * trace n' l' more' end
      | a :: r =>
          (fix alternate (sign : R) (before after : list gamma) : R :=
             match after with
             | [] => 0
             | b :: rest =>
                 sign * match a, b with
                        | Slash u, Slash v => mdot u v * trace n' (before ++ rest) more
                        | x, Index i | Index i, x =>
                            match x with
                            | Index j => if Nat.eqb i j then 4 * trace n' (before ++ rest) more
                                         else trace n' (put i x (before ++ rest)) (map (put i x) more)
                            | Slash _ => trace n' (put i x (before ++ rest)) (map (put i x) more)
                            end
                        end
                 + alternate (- sign) (before ++ [b]) rest
             end) 1 [] r
      end
  end.

(** a factor of a spin sum: [Spin p m] is pslash + m, [Vertex i] a gamma matrix *)
Inductive factor : Type := Spin (p : vec) (m : R) | Vertex (i : nat).
Fixpoint expand (acc : list gamma) (k : list gamma -> R) (l : list factor) : R :=
  match l with
  | [] => k acc
  | Spin p m :: r => expand (acc ++ [Slash p]) k r + m * expand acc k r
  | Vertex i :: r => expand (acc ++ [Index i]) k r
  end.
Definition steps (l : list (list gamma)) : nat := fold_right (fun x n => (S (length x) + n)%nat) O l.
(** one trace, and the product of two *)
Definition tr (l : list factor) : R := expand [] (fun a => trace (steps [a]) a []) l.
Definition tr2 (l l' : list factor) : R :=
  expand [] (fun a => expand [] (fun b => trace (steps [a; b]) a [b]) l') l.

(** Two particles of mass [m1] colliding at total energy [e], two of mass [m2] leaving at an angle of
    cosine [z] *)
Definition momentum (e m : R) : R := sqrt (e ^ 2 / 4 - m ^ 2).
Definition in_1 (e m1 : R) : vec := V4 (e / 2) 0 0 (momentum e m1).
Definition in_2 (e m1 : R) : vec := V4 (e / 2) 0 0 (- momentum e m1).
Definition out_1 (e m2 z : R) : vec := V4 (e / 2) (momentum e m2 * sqrt (1 - z ^ 2)) 0 (momentum e m2 * z).
Definition out_2 (e m2 z : R) : vec :=
  V4 (e / 2) (- (momentum e m2 * sqrt (1 - z ^ 2))) 0 (- (momentum e m2 * z)).

(** The golden rule in the centre-of-mass frame: [v] is the cross section made of the squared amplitude
    [F] (already averaged) as a function of the cosine of the angle *)
Definition angular_rule (m1 m2 e : R) (F : R -> R) (v : R) : Prop :=
  exists I, area F (-1) 1 I /\ v = I * (momentum e m2 / momentum e m1) / (32 * PI * e ^ 2).

(** Dark matter of mass [m] and its antiparticle into two scalars of mass [M]: the amplitude is
    vbar(p2) [(qslash + m) / (q^2 - m^2) + (rslash + m) / (r^2 - m^2)] u(p1), q = p1 - k1, r = p1 - k2.
    The sum over spins. *)
Definition pair_to_scalars (m M e z : R) : R :=
  let p1 := in_1 e m in let p2 := in_2 e m in
  let q := vsub p1 (out_1 e M z) in let r := vsub p1 (out_2 e M z) in
  let T := mdot q q - m ^ 2 in let U := mdot r r - m ^ 2 in
  let term a b := tr [Spin p2 (- m); Spin a m; Spin p1 m; Spin b m] in
  term q q / T ^ 2 + (term q r + term r q) / (T * U) + term r r / U ^ 2.

(** The same into two vectors, whose polarisation sums are - g by conservation of the current: the
    amplitude is vbar(p2) [gamma_1 (qslash + m) gamma_0 / (q^2 - m^2) + gamma_0 (rslash + m) gamma_1 /
    (r^2 - m^2)] u(p1) *)
Definition pair_to_vectors (m M e z : R) : R :=
  let p1 := in_1 e m in let p2 := in_2 e m in
  let q := vsub p1 (out_1 e M z) in let r := vsub p1 (out_2 e M z) in
  let T := mdot q q - m ^ 2 in let U := mdot r r - m ^ 2 in
  let qq := tr [Spin p2 (- m); Vertex 1; Spin q m; Vertex 0; Spin p1 m; Vertex 0; Spin q m; Vertex 1] in
  let qr := tr [Spin p2 (- m); Vertex 1; Spin q m; Vertex 0; Spin p1 m; Vertex 1; Spin r m; Vertex 0] in
  let rq := tr [Spin p2 (- m); Vertex 0; Spin r m; Vertex 1; Spin p1 m; Vertex 0; Spin q m; Vertex 1] in
  let rr := tr [Spin p2 (- m); Vertex 0; Spin r m; Vertex 1; Spin p1 m; Vertex 1; Spin r m; Vertex 0] in
  qq / T ^ 2 + (qr + rq) / (T * U) + rr / U ^ 2.

(** Dark matter and its antiparticle into themselves through a mediator of mass [M] and width [w] in the s
    and t channels, which enter with opposite signs; the propagators are 1 / (s - M^2 + i M w) and
    1 / (t - M^2 + i M w).  The sum over spins, for a scalar and for a vector mediator. *)
Definition self_sum (ss tt st : R) (M w s t : R) : R :=
  let Ds := (s - M ^ 2) ^ 2 + M ^ 2 * w ^ 2 in
  let Dt := (t - M ^ 2) ^ 2 + M ^ 2 * w ^ 2 in
  ss / Ds + tt / Dt - 2 * st * (((s - M ^ 2) * (t - M ^ 2) + M ^ 2 * w ^ 2) / (Ds * Dt)).
Definition self_scalar (m M w e z : R) : R :=
  let p1 := in_1 e m in let p2 := in_2 e m in let k1 := out_1 e m z in let k2 := out_2 e m z in
  self_sum (tr2 [Spin p2 (- m); Spin p1 m] [Spin k1 m; Spin k2 (- m)])
           (tr2 [Spin k1 m; Spin p1 m] [Spin p2 (- m); Spin k2 (- m)])
           (tr [Spin p1 m; Spin k1 m; Spin k2 (- m); Spin p2 (- m)])
           M w (e ^ 2) (mdot (vsub p1 k1) (vsub p1 k1)).
Definition self_vector (m M w e z : R) : R :=
  let p1 := in_1 e m in let p2 := in_2 e m in let k1 := out_1 e m z in let k2 := out_2 e m z in
  self_sum (tr2 [Spin p2 (- m); Vertex 0; Spin p1 m; Vertex 1] [Spin k1 m; Vertex 0; Spin k2 (- m); Vertex 1])
           (tr2 [Spin k1 m; Vertex 0; Spin p1 m; Vertex 1] [Spin p2 (- m); Vertex 0; Spin k2 (- m); Vertex 1])
           (tr [Spin p1 m; Vertex 1; Spin k1 m; Vertex 0; Spin k2 (- m); Vertex 1; Spin p2 (- m); Vertex 0])
           M w (e ^ 2) (mdot (vsub p1 k1) (vsub p1 k1)).

(** * Lemmas *)

Ltac traces := cbv [tr tr2 expand steps fold_right put Nat.eqb Nat.add trace app length map].

Lemma mdot_sym : forall a b, mdot a b = mdot b a.
Proof. intros. unfold mdot. ring. Qed.

(** the contraction of an index is the sum over the four directions *)
Lemma contraction_identities : forall a b c d,
  trace 9 [Index 0; Slash a; Index 0; Slash b] [] = - 2 * (4 * mdot a b) /\
  trace 9 [Index 0; Slash a; Slash b; Index 0; Slash c; Slash d] []
  = 4 * mdot a b * (4 * mdot c d) /\
  trace 9 [Index 0; Index 0] [] = 16.
Proof. intros. cbv [put Nat.eqb trace app length map]. unfold mdot. repeat split; ring. Qed.

(** the traces in terms of products of momenta *)
Lemma tr_scalar4 : forall p2 a p1 b m,
  tr [Spin p2 (- m); Spin a m; Spin p1 m; Spin b m]
  = 4 * (mdot p2 a * mdot p1 b - mdot p2 p1 * mdot a b + mdot p2 b * mdot a p1)
    + 4 * m ^ 2 * (mdot p2 a + mdot p2 p1 + mdot p2 b - mdot a p1 - mdot a b - mdot p1 b) - 4 * m ^ 4.
Proof. intros. traces. ring. Qed.

Section Frame.
Variables (e m M z : R).
Hypothesis He : 0 < e.
Hypothesis Hm : m ^ 2 <= e ^ 2 / 4.
Hypothesis HM : M ^ 2 <= e ^ 2 / 4.
Hypothesis Hz : -1 <= z <= 1.
Let P := momentum e m.
Let K := momentum e M.
Let x := P * K * z.

Lemma momentum_sq : forall a, a ^ 2 <= e ^ 2 / 4 -> momentum e a ^ 2 = e ^ 2 / 4 - a ^ 2.
Proof. intros a Ha. unfold momentum. apply pow2_sqrt. lra. Qed.
Lemma sine_sq : sqrt (1 - z ^ 2) ^ 2 = 1 - z ^ 2.
Proof. apply pow2_sqrt. nra. Qed.

(** the ten products *)
Lemma frame_dots :
  let p1 := in_1 e m in let p2 := in_2 e m in
  let q := vsub p1 (out_1 e M z) in let r := vsub p1 (out_2 e M z) in
  mdot p1 p1 = m ^ 2 /\ mdot p2 p2 = m ^ 2 /\ mdot p1 p2 = e ^ 2 / 2 - m ^ 2 /\
  mdot q q = m ^ 2 + M ^ 2 - e ^ 2 / 2 + 2 * x /\ mdot r r = m ^ 2 + M ^ 2 - e ^ 2 / 2 - 2 * x /\
  mdot q r = m ^ 2 - M ^ 2 /\
  mdot p1 q = m ^ 2 - e ^ 2 / 4 + x /\ mdot p1 r = m ^ 2 - e ^ 2 / 4 - x /\
  mdot p2 q = e ^ 2 / 4 - m ^ 2 - x /\ mdot p2 r = e ^ 2 / 4 - m ^ 2 + x.
Proof.
  cbv zeta. unfold mdot, vsub, in_1, in_2, out_1, out_2, x. cbn [v0 v1 v2 v3]. fold P K.
  pose proof (momentum_sq m Hm) as HP. pose proof (momentum_sq M HM) as HK. fold P in HP. fold K in HK.
  pose proof sine_sq as HS. set (S1 := sqrt (1 - z ^ 2)) in *. clearbody S1.
  revert HP HK. clearbody P K. intros HP HK.
  assert (HKs : (K * S1) ^ 2 + (K * z) ^ 2 = K ^ 2) by (rewrite !Rpow_mult_distr, HS; ring).
  repeat split; ring_simplify; ring_simplify in HKs; lra.
Qed.

(** the same for two particles scattering into themselves *)
Lemma self_dots :
  let p1 := in_1 e m in let p2 := in_2 e m in let k1 := out_1 e m z in let k2 := out_2 e m z in
  let y := P ^ 2 * z in
  mdot p1 p1 = m ^ 2 /\ mdot p2 p2 = m ^ 2 /\ mdot k1 k1 = m ^ 2 /\ mdot k2 k2 = m ^ 2 /\
  mdot p1 p2 = e ^ 2 / 2 - m ^ 2 /\ mdot k1 k2 = e ^ 2 / 2 - m ^ 2 /\
  mdot p1 k1 = e ^ 2 / 4 - y /\ mdot p1 k2 = e ^ 2 / 4 + y /\
  mdot p2 k1 = e ^ 2 / 4 + y /\ mdot p2 k2 = e ^ 2 / 4 - y /\
  mdot (vsub p1 k1) (vsub p1 k1) = 2 * m ^ 2 - e ^ 2 / 2 + 2 * y.
Proof.
  cbv zeta. unfold mdot, vsub, in_1, in_2, out_1, out_2. cbn [v0 v1 v2 v3]. fold P.
  pose proof (momentum_sq m Hm) as HP. fold P in HP.
  pose proof sine_sq as HS. set (S1 := sqrt (1 - z ^ 2)) in *. clearbody S1.
  revert HP. clearbody P. intros HP.
  assert (HKs : (P * S1) ^ 2 + (P * z) ^ 2 = P ^ 2) by (rewrite !Rpow_mult_distr, HS; ring).
  repeat split; ring_simplify; ring_simplify in HKs; lra.
Qed.
End Frame.

(** the pole decomposition of both annihilations; [g] is h - c z, [f] is h + c z *)
Definition poles (a0 a1 a2 h c z : R) : R :=
  a0 + a1 / (h - c * z) ^ 2 + a1 / (h + c * z) ^ 2 + a2 / (h - c * z) + a2 / (h + c * z).

Lemma pair_to_scalars_poles : forall e m M z, 0 < e -> m ^ 2 <= e ^ 2 / 4 -> M ^ 2 <= e ^ 2 / 4 -> -1 <= z <= 1 ->
  let h := e ^ 2 / 2 - M ^ 2 in let c := 2 * momentum e m * momentum e M in
  h <> 0 -> h - c * z <> 0 -> h + c * z <> 0 ->
  pair_to_scalars m M e z
  = poles (- 8) (- 2 * (4 * m ^ 2 - M ^ 2) ^ 2)
      ((- 4 * M ^ 2 * (4 * m ^ 2 + e ^ 2) + 16 * m ^ 2 * e ^ 2 + 6 * M ^ 4 - 32 * m ^ 4 + e ^ 4) / h) h c z.
Proof.
  intros e m M z He Hm HM Hz h c Hh H1 H2. unfold pair_to_scalars. rewrite !tr_scalar4.
  destruct (frame_dots e m M z Hm HM Hz) as (D1 & D2 & D3 & D4 & D5 & D6 & D7 & D8 & D9 & D10).
  set (p1 := in_1 e m) in *. set (p2 := in_2 e m) in *.
  set (q := vsub p1 (out_1 e M z)) in *. set (r := vsub p1 (out_2 e M z)) in *. clearbody p1 p2 q r.
  rewrite ?(mdot_sym p2 p1), ?(mdot_sym r q), ?(mdot_sym q p1), ?(mdot_sym r p1), ?D1.
  rewrite ?D2, ?D3, ?D4, ?D5, ?D6, ?D7, ?D8, ?D9, ?D10.
  unfold poles, c in *. unfold h in *. clear c h.
  set (P := momentum e m) in *. set (K := momentum e M) in *. clearbody P K.
  replace (2 * P * K * z) with (2 * (P * K * z)) in * by ring.
  set (x := P * K * z) in *. clearbody x.
  field. repeat split; try assumption; lra.
Qed.


(** the traces of the vector case *)
Lemma tr_qq : forall p1 p2 q m,
  tr [Spin p2 (- m); Vertex 1; Spin q m; Vertex 0; Spin p1 m; Vertex 0; Spin q m; Vertex 1]
  = 32 * mdot p1 q * mdot p2 q - 16 * mdot q q * mdot p1 p2
    + 16 * m ^ 2 * (4 * mdot p1 q - 4 * mdot p2 q + mdot p1 p2 - 4 * mdot q q) - 64 * m ^ 4.
Proof. intros. traces. rewrite ?(mdot_sym p2 p1), ?(mdot_sym q p1), ?(mdot_sym q p2). ring. Qed.
Lemma tr_rr : forall p1 p2 q m,
  tr [Spin p2 (- m); Vertex 0; Spin q m; Vertex 1; Spin p1 m; Vertex 1; Spin q m; Vertex 0]
  = 32 * mdot p1 q * mdot p2 q - 16 * mdot q q * mdot p1 p2
    + 16 * m ^ 2 * (4 * mdot p1 q - 4 * mdot p2 q + mdot p1 p2 - 4 * mdot q q) - 64 * m ^ 4.
Proof. intros. traces. rewrite ?(mdot_sym p2 p1), ?(mdot_sym q p1), ?(mdot_sym q p2). ring. Qed.
Lemma tr_qr : forall p1 p2 q r m,
  tr [Spin p2 (- m); Vertex 1; Spin q m; Vertex 0; Spin p1 m; Vertex 1; Spin r m; Vertex 0]
  = - 32 * mdot p1 p2 * mdot q r
    + 16 * m ^ 2 * (mdot p1 p2 - mdot q r - mdot p1 q - mdot p1 r + mdot p2 q + mdot p2 r) + 32 * m ^ 4.
Proof.
  intros. traces. rewrite ?(mdot_sym p2 p1), ?(mdot_sym q p1), ?(mdot_sym q p2), ?(mdot_sym r q), ?(mdot_sym r p1),
    ?(mdot_sym r p2). ring.
Qed.
Lemma tr_rq : forall p1 p2 q r m,
  tr [Spin p2 (- m); Vertex 0; Spin r m; Vertex 1; Spin p1 m; Vertex 0; Spin q m; Vertex 1]
  = - 32 * mdot p1 p2 * mdot q r
    + 16 * m ^ 2 * (mdot p1 p2 - mdot q r - mdot p1 q - mdot p1 r + mdot p2 q + mdot p2 r) + 32 * m ^ 4.
Proof.
  intros. traces. rewrite ?(mdot_sym p2 p1), ?(mdot_sym q p1), ?(mdot_sym q p2), ?(mdot_sym r q), ?(mdot_sym r p1),
    ?(mdot_sym r p2). ring.
Qed.
Lemma tr_exchange : forall p1 p2 k1 k2 m,
  tr [Spin p1 m; Vertex 1; Spin k1 m; Vertex 0; Spin k2 (- m); Vertex 1; Spin p2 (- m); Vertex 0]
  = - 32 * mdot p1 k2 * mdot p2 k1
    + 16 * m ^ 2 * (mdot p1 k1 + mdot p2 k2 - mdot p1 k2 - mdot p2 k1 - mdot p1 p2 - mdot k1 k2) - 32 * m ^ 4.
Proof.
  intros. traces. rewrite ?(mdot_sym p2 p1), ?(mdot_sym k2 k1), ?(mdot_sym k1 p1), ?(mdot_sym k2 p1),
    ?(mdot_sym k1 p2), ?(mdot_sym k2 p2). ring.
Qed.
Lemma tr2_s : forall p1 p2 k1 k2 m,
  tr2 [Spin p2 (- m); Vertex 0; Spin p1 m; Vertex 1] [Spin k1 m; Vertex 0; Spin k2 (- m); Vertex 1]
  = 32 * (mdot p2 k1 * mdot p1 k2 + mdot p1 k1 * mdot p2 k2 + m ^ 2 * (mdot k1 k2 + mdot p1 p2)) + 64 * m ^ 4.
Proof.
  intros. traces. rewrite ?(mdot_sym p2 p1), ?(mdot_sym k2 k1), ?(mdot_sym k1 p1), ?(mdot_sym k2 p1),
    ?(mdot_sym k1 p2), ?(mdot_sym k2 p2). ring.
Qed.
Lemma tr2_t : forall p1 p2 k1 k2 m,
  tr2 [Spin k1 m; Vertex 0; Spin p1 m; Vertex 1] [Spin p2 (- m); Vertex 0; Spin k2 (- m); Vertex 1]
  = 32 * (mdot p2 k1 * mdot p1 k2 + mdot p1 p2 * mdot k1 k2 - m ^ 2 * (mdot p1 k1 + mdot p2 k2)) + 64 * m ^ 4.
Proof.
  intros. traces. rewrite ?(mdot_sym p2 p1), ?(mdot_sym k2 k1), ?(mdot_sym k1 p1), ?(mdot_sym k2 p1),
    ?(mdot_sym k1 p2), ?(mdot_sym k2 p2). ring.
Qed.

Lemma pair_to_vectors_poles : forall e m M z, 0 < e -> m ^ 2 <= e ^ 2 / 4 -> M ^ 2 <= e ^ 2 / 4 -> -1 <= z <= 1 ->
  let h := e ^ 2 / 2 - M ^ 2 in let c := 2 * momentum e m * momentum e M in
  h <> 0 -> h - c * z <> 0 -> h + c * z <> 0 ->
  pair_to_vectors m M e z
  = poles (- 16) (- 8 * (2 * m ^ 2 + M ^ 2) ^ 2)
      (4 * (4 * m ^ 2 * e ^ 2 - 8 * m ^ 4 + 4 * M ^ 4 - 8 * M ^ 2 * m ^ 2 + e ^ 4) / h) h c z.
Proof.
  intros e m M z He Hm HM Hz h c Hh H1 H2. unfold pair_to_vectors. rewrite tr_qq, tr_rr, tr_qr, tr_rq.
  destruct (frame_dots e m M z Hm HM Hz) as (D1 & D2 & D3 & D4 & D5 & D6 & D7 & D8 & D9 & D10).
  set (p1 := in_1 e m) in *. set (p2 := in_2 e m) in *.
  set (q := vsub p1 (out_1 e M z)) in *. set (r := vsub p1 (out_2 e M z)) in *. clearbody p1 p2 q r.
  rewrite ?D1, ?D2, ?D3, ?D4, ?D5, ?D6, ?D7, ?D8, ?D9, ?D10.
  unfold poles, c in *. unfold h in *. clear c h.
  set (P := momentum e m) in *. set (K := momentum e M) in *. clearbody P K.
  replace (2 * P * K * z) with (2 * (P * K * z)) in * by ring.
  set (x := P * K * z) in *. clearbody x.
  field. repeat split; try assumption; lra.
Qed.

(** the integral of the poles over the angle *)
Lemma poles_area : forall a0 a1 a2 h c, 0 < c < h ->
  area (poles a0 a1 a2 h c) (-1) 1 (2 * a0 + 4 * a1 / (h ^ 2 - c ^ 2) + 2 * a2 * ln ((h + c) / (h - c)) / c).
Proof.
  intros a0 a1 a2 h c Hc.
  set (G := fun z => a0 * z + a1 / c * (/ (h - c * z)) - a1 / c * (/ (h + c * z))
                     + a2 / c * (ln (h + c * z) - ln (h - c * z))).
  refine (area_val _ _ _ _ _ _ (area_of_antiderivative G _ (-1) 1 _)).
  - unfold G.
    replace (ln ((h + c) / (h - c))) with (ln (h + c) - ln (h - c))
      by (unfold Rdiv; rewrite ln_mult, ln_Rinv by (try apply Rinv_0_lt_compat; lra); ring).
    replace (h + c * 1) with (h + c) by ring. replace (h - c * 1) with (h - c) by ring.
    replace (h + c * -1) with (h - c) by ring. replace (h - c * -1) with (h + c) by ring.
    set (L1 := ln _). set (L2 := ln _). clearbody L1 L2. field.
    repeat split; try lra. apply Rgt_not_eq. replace (h ^ 2 - c ^ 2) with ((h - c) * (h + c)) by ring.
    apply Rmult_gt_0_compat; lra.
  - intros z Hz. unfold G.
    assert (Z : - c <= c * z <= c) by (split; nra).
    assert (HL : derivable_pt_lim (fun z => h - c * z) z (- c)).
    { eapply dl_val; [apply (dl_minus (fun _ => h) (fun z => c * z)); [apply dl_const|apply (dl_mult (fun _ => c) (fun z => z)); [apply dl_const|apply dl_id]]|ring]. }
    assert (HR : derivable_pt_lim (fun z => h + c * z) z c).
    { eapply dl_val; [apply (dl_plus (fun _ => h) (fun z => c * z)); [apply dl_const|apply (dl_mult (fun _ => c) (fun z => z)); [apply dl_const|apply dl_id]]|ring]. }
    eapply dl_val.
    + apply dl_plus; [apply dl_minus; [apply dl_plus|]|].
      * apply dl_mult; [apply dl_const|apply dl_id].
      * apply dl_mult; [apply dl_const|]. apply dl_inv; [exact HL|lra].
      * apply dl_mult; [apply dl_const|]. apply dl_inv; [exact HR|lra].
      * apply dl_mult; [apply dl_const|]. apply dl_minus; apply dl_ln; try eassumption; lra.
    + unfold poles. cbv beta. field. repeat split; lra.
Qed.
