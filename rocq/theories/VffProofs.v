(** Specification vocabulary and lemmas for the vector form factors: four-vectors with the Minkowski
    metric, the Levi-Civita symbol and polarisation sums; the Dalitz region; the derivative of the
    Gounaris-Sakurai function. *)
From Coq Require Import ZArith Reals Bool Lra Lia Psatz List.
From Verif Require Import PyBase RamboModel RamboProofs KinModel KinProofs KinProps DalitzProofs Area Primitive SpecProofs MedSpecProofs RhnProofs VffModel.
Import ListNotations.
Local Open Scope R_scope.

(** * Currents *)
(** Contravariant components, metric, sums over an index *)
Definition comp (p : vec) (i : Z) : R :=
  match i with 0%Z => en p | 1%Z => px p | 2%Z => py p | _ => pz p end.
Definition metric (i j : Z) : R := if Z.eqb i j then (if Z.eqb i 0 then 1 else -1) else 0.
Definition sum4 (f : Z -> R) : R := f 0%Z + f 1%Z + f 2%Z + f 3%Z.
Definition mdot (p q : vec) : R := sum4 (fun i => sum4 (fun j => metric i j * comp p i * comp q j)).
(** The sign of the permutation (i, j, k, l) of (0, 1, 2, 3), zero if an index is repeated *)
Definition levi_civita (i j k l : Z) : R :=
  IZR (Z.sgn ((j - i) * (k - i) * (l - i) * (k - j) * (l - j) * (l - k))).
Definition lower (p : vec) (i : Z) : R := sum4 (fun j => metric i j * comp p j).

(** The contraction -g^{mu nu} J_mu J_nu / (3 q^2) of a real current with lower index *)
Definition contracted (q2 : R) (J : Z -> R) : R :=
  - sum4 (fun i => sum4 (fun j => metric i j * J i * J j)) / (3 * q2).
(** The same for a current [sum over a of T_{mu a} e^a] summed over the polarisations [e] of a vector of
    momentum [k]: the polarisation sum is -g^{a b} + [w] k^a k^b, with [w] = 1/m^2 for a massive vector
    and 0 for a photon *)
Definition contracted_pol (q2 : R) (k : vec) (w : R) (T : Z -> Z -> R) : R :=
  - sum4 (fun i => sum4 (fun j => metric i j *
      sum4 (fun a => sum4 (fun b => (- metric a b + w * comp k a * comp k b) * T i a * T j b)))) / (3 * q2).

Definition current_pp (p1 p2 : vec) (mu : Z) : R := - (lower p1 mu - lower p2 mu).
Definition current_pv (q p : vec) (mu a : Z) : R :=
  sum4 (fun nu => sum4 (fun b => levi_civita mu nu a b * comp q nu * comp p b)).
Definition current_ppp (p1 p2 p3 : vec) (mu : Z) : R :=
  sum4 (fun nu => sum4 (fun a => sum4 (fun b => levi_civita mu nu a b * comp p1 nu * comp p2 a * comp p3 b))).
Definition current_ppv (q : vec) (mu a : Z) : R := metric mu a - lower q mu * lower q a / mdot q q.

(** Momenta of particles with these masses *)
Definition mass_shell (p : vec) (m : R) : Prop := mdot p p = m ^ 2.

Lemma mdot_eq p q : mdot p q = en p * en q - px p * px q - py p * py q - pz p * pz q.
Proof. unfold mdot, sum4, metric, comp. cbn [Z.eqb Pos.eqb]. ring. Qed.
Lemma lower_0 p : lower p 0 = en p. Proof. unfold lower, sum4, metric, comp. cbn [Z.eqb Pos.eqb]. ring. Qed.
Lemma lower_1 p : lower p 1 = - px p. Proof. unfold lower, sum4, metric, comp. cbn [Z.eqb Pos.eqb]. ring. Qed.
Lemma lower_2 p : lower p 2 = - py p. Proof. unfold lower, sum4, metric, comp. cbn [Z.eqb Pos.eqb]. ring. Qed.
Lemma lower_3 p : lower p 3 = - pz p. Proof. unfold lower, sum4, metric, comp. cbn [Z.eqb Pos.eqb]. ring. Qed.
Lemma contracted_eq q2 J :
  contracted q2 J = - (J 0%Z ^ 2 - J 1%Z ^ 2 - J 2%Z ^ 2 - J 3%Z ^ 2) / (3 * q2).
Proof. unfold contracted, sum4, metric. cbn [Z.eqb Pos.eqb]. f_equal. ring. Qed.

(** ** Two pseudoscalars *)
Lemma pp_contracted p1 p2 m1 m2 q : 0 < q -> mass_shell p1 m1 -> mass_shell p2 m2 -> mass_shell (vplus p1 p2) q ->
  lorentz_pp m1 m2 q = contracted (q ^ 2) (current_pp p1 p2).
Proof.
  unfold mass_shell. rewrite !mdot_eq. intros Hq H1 H2 H. rewrite contracted_eq.
  unfold current_pp. rewrite !lower_0, !lower_1, !lower_2, !lower_3.
  unfold lorentz_pp. f_equal. cbn [vplus en px py pz] in H. rewrite <- H1, <- H2, <- H. ring.
Qed.

(** ** A pseudoscalar and a vector *)
Lemma sum4_ext f g : (forall i, f i = g i) -> sum4 f = sum4 g.
Proof. intros H. unfold sum4. rewrite !H. reflexivity. Qed.
Lemma metric_sum (F : Z -> Z -> R) :
  sum4 (fun i => sum4 (fun j => metric i j * F i j)) = F 0%Z 0%Z - F 1%Z 1%Z - F 2%Z 2%Z - F 3%Z 3%Z.
Proof. unfold sum4, metric. cbn [Z.eqb Pos.eqb]. ring. Qed.
Definition msq (T : Z -> Z -> R) (i : Z) : R := T i 0%Z ^ 2 - T i 1%Z ^ 2 - T i 2%Z ^ 2 - T i 3%Z ^ 2.
Lemma contracted_pol_eq q2 k w T :
  contracted_pol q2 k w T =
  - ((- msq T 0 + w * sum4 (fun a => comp k a * T 0%Z a) ^ 2)
     - (- msq T 1 + w * sum4 (fun a => comp k a * T 1%Z a) ^ 2)
     - (- msq T 2 + w * sum4 (fun a => comp k a * T 2%Z a) ^ 2)
     - (- msq T 3 + w * sum4 (fun a => comp k a * T 3%Z a) ^ 2)) / (3 * q2).
Proof.
  assert (E : forall i, sum4 (fun a => sum4 (fun b => (- metric a b + w * comp k a * comp k b) * T i a * T i b))
    = - msq T i + w * sum4 (fun a => comp k a * T i a) ^ 2).
  { intros i. unfold sum4, metric, msq. cbn [Z.eqb Pos.eqb]. ring. }
  unfold contracted_pol. f_equal. f_equal.
  rewrite (metric_sum (fun i j => sum4 (fun a => sum4 (fun b => (- metric a b + w * comp k a * comp k b) * T i a * T j b)))).
  rewrite !E. reflexivity.
Qed.

Ltac levi := unfold levi_civita;
  repeat match goal with |- context [Z.sgn ?x] => let y := eval vm_compute in (Z.sgn x) in change (Z.sgn x) with y end.
Lemma pv_sum q p :
  - ((- msq (current_pv q p) 0) - (- msq (current_pv q p) 1) - (- msq (current_pv q p) 2)
     - (- msq (current_pv q p) 3)) = 2 * (mdot q p ^ 2 - mdot q q * mdot p p).
Proof.
  rewrite !mdot_eq. unfold msq, current_pv, sum4, comp. levi. ring.
Qed.
Lemma pv_transverse p k mu : (mu = 0 \/ mu = 1 \/ mu = 2 \/ mu = 3)%Z ->
  sum4 (fun a => comp k a * current_pv (vplus p k) p mu a) = 0.
Proof.
  intros [-> | [-> | [-> | ->]]]; unfold current_pv, sum4, comp, vplus; cbn [en px py pz]; levi; ring.
Qed.
Lemma pv_contracted_w p k w s : 0 < s ->
  contracted_pol s k w (current_pv (vplus p k) p)
  = 2 * (mdot (vplus p k) p ^ 2 - mdot (vplus p k) (vplus p k) * mdot p p) / (3 * s).
Proof.
  intros Hs. rewrite contracted_pol_eq, !pv_transverse by tauto. rewrite <- pv_sum. f_equal. ring.
Qed.
Lemma pv_contracted p k mp mv q : 0 < q -> 0 < mv -> mass_shell p mp -> mass_shell k mv -> mass_shell (vplus p k) q ->
  lorentz_pv mp mv q = contracted_pol (q ^ 2) k (1 / mv ^ 2) (current_pv (vplus p k) p).
Proof.
  unfold mass_shell. intros Hq Hm H1 H2 H.
  assert (0 < q ^ 2) by (apply pow_lt; exact Hq).
  rewrite pv_contracted_w by assumption.
  assert (E : mdot (vplus p k) p = (q ^ 2 + mp ^ 2 - mv ^ 2) / 2).
  { rewrite <- H, <- H1, <- H2, !mdot_eq. cbn [vplus en px py pz]. field. }
  rewrite E, H, H1. unfold lorentz_pv. field. lra.
Qed.
(** For a photon the tensor is built with its own momentum *)
Lemma pa_transverse p k mu : (mu = 0 \/ mu = 1 \/ mu = 2 \/ mu = 3)%Z ->
  sum4 (fun a => comp k a * current_pv (vplus p k) k mu a) = 0.
Proof.
  intros [-> | [-> | [-> | ->]]]; unfold current_pv, sum4, comp, vplus; cbn [en px py pz]; levi; ring.
Qed.
Lemma pa_contracted p k mp q w : 0 < q -> mass_shell p mp -> mass_shell k 0 -> mass_shell (vplus p k) q ->
  lorentz_pa mp q = contracted_pol (q ^ 2) k w (current_pv (vplus p k) k).
Proof.
  unfold mass_shell. intros Hq H1 H2 H.
  assert (0 < q ^ 2) by (apply pow_lt; exact Hq).
  rewrite contracted_pol_eq, !pa_transverse by tauto.
  transitivity (2 * (mdot (vplus p k) k ^ 2 - mdot (vplus p k) (vplus p k) * mdot k k) / (3 * q ^ 2)).
  2:{ rewrite <- pv_sum. f_equal. ring. }
  assert (E : mdot (vplus p k) k = (q ^ 2 - mp ^ 2 + 0 ^ 2) / 2).
  { rewrite <- H, <- H1, <- H2, !mdot_eq. cbn [vplus en px py pz]. field. }
  rewrite E, H, H2. unfold lorentz_pa. field. lra.
Qed.

(** ** Three pseudoscalars *)
Lemma ppp_sum p1 p2 p3 :
  - (current_ppp p1 p2 p3 0 ^ 2 - current_ppp p1 p2 p3 1 ^ 2 - current_ppp p1 p2 p3 2 ^ 2
     - current_ppp p1 p2 p3 3 ^ 2)
  = mdot p1 p1 * mdot p2 p2 * mdot p3 p3 + 2 * mdot p1 p2 * mdot p2 p3 * mdot p1 p3
    - mdot p1 p1 * mdot p2 p3 ^ 2 - mdot p2 p2 * mdot p1 p3 ^ 2 - mdot p3 p3 * mdot p1 p2 ^ 2.
Proof. rewrite !mdot_eq. unfold current_ppp, sum4, comp. levi. ring. Qed.
Lemma mdot_plus_l a b c : mdot (vplus a b) c = mdot a c + mdot b c.
Proof. rewrite !mdot_eq. cbn [vplus en px py pz]. ring. Qed.
Lemma mdot_sym a b : mdot a b = mdot b a.
Proof. rewrite !mdot_eq. ring. Qed.
Lemma mdot_plus_r a b c : mdot c (vplus a b) = mdot c a + mdot c b.
Proof. rewrite !(mdot_sym c). apply mdot_plus_l. Qed.
Lemma ppp_contracted p1 p2 p3 m1 m2 m3 q s t : 0 < q -> mass_shell p1 m1 -> mass_shell p2 m2 -> mass_shell p3 m3 ->
  mass_shell (vplus p1 (vplus p2 p3)) q ->
  s = mdot (vplus p2 p3) (vplus p2 p3) -> t = mdot (vplus p1 p3) (vplus p1 p3) ->
  lorentz_ppp m1 m2 m3 q s t = contracted (q ^ 2) (current_ppp p1 p2 p3).
Proof.
  unfold mass_shell. rewrite !mdot_plus_l, !mdot_plus_r. rewrite (mdot_sym p3 p2), (mdot_sym p3 p1), (mdot_sym p2 p1).
  intros Hq H1 H2 H3 H Hs Ht.
  assert (0 < q ^ 2) by (apply pow_lt; exact Hq).
  rewrite contracted_eq, ppp_sum, H1, H2, H3. rewrite H1, H2, H3 in *.
  unfold lorentz_ppp. rewrite Hs, Ht, <- H. field. rewrite H. lra.
Qed.

(** ** Two pseudoscalars and a vector *)
Lemma ppv_contracted q k mv w : 0 < mdot q q -> w * mv ^ 2 = 1 -> mass_shell k mv ->
  contracted_pol (mdot q q) k w (current_ppv q)
  = (2 * mv ^ 2 * mdot q q + mdot q k ^ 2) / (3 * mv ^ 2 * mdot q q ^ 2).
Proof.
  unfold mass_shell. intros Hq Hw Hk.
  assert (Hm : mv ^ 2 <> 0) by (intros E; rewrite E in Hw; lra).
  set (D := mdot q q) in *.
  assert (ED : D = en q ^ 2 - px q ^ 2 - py q ^ 2 - pz q ^ 2) by (unfold D; rewrite mdot_eq; ring).
  assert (EK : mv ^ 2 = en k ^ 2 - px k ^ 2 - py k ^ 2 - pz k ^ 2) by (rewrite <- Hk, mdot_eq; ring).
  assert (Dn : D <> 0) by lra.
  set (P := mdot q k).
  assert (KT : forall mu, (mu = 0 \/ mu = 1 \/ mu = 2 \/ mu = 3)%Z ->
    sum4 (fun a => comp k a * current_ppv q mu a) = lower k mu - lower q mu * P / D).
  { intros mu Hmu. unfold P. unfold current_ppv. fold D. rewrite mdot_eq.
    destruct Hmu as [-> | [-> | [-> | ->]]]; unfold sum4; rewrite !lower_0, !lower_1, !lower_2, !lower_3;
      unfold metric, comp; cbn [Z.eqb Pos.eqb]; field; exact Dn. }
  rewrite contracted_pol_eq, !KT by tauto.
  assert (M : forall mu, (mu = 0 \/ mu = 1 \/ mu = 2 \/ mu = 3)%Z ->
    msq (current_ppv q) mu = metric mu mu - lower q mu ^ 2 / D).
  { intros mu Hmu. unfold msq, current_ppv. fold D. 
    destruct Hmu as [-> | [-> | [-> | ->]]]; rewrite ?lower_0, ?lower_1, ?lower_2, ?lower_3;
      unfold metric; cbn [Z.eqb Pos.eqb];
      (apply Rmult_eq_reg_r with (D ^ 2); [|apply pow_nonzero; exact Dn]);
      field_simplify; try exact Dn; rewrite ED; ring. }
  rewrite !M by tauto. rewrite !lower_0, !lower_1, !lower_2, !lower_3. unfold metric. cbn [Z.eqb Pos.eqb].
  assert (Ew : w = / mv ^ 2) by (apply Rmult_eq_reg_r with (mv ^ 2); [rewrite Hw; field; nra|exact Hm]).
  assert (EP : P = en q * en k - px q * px k - py q * py k - pz q * pz k) by (unfold P; apply mdot_eq).
  clearbody D P.
  assert (A : - (1 - en q ^ 2 / D) - - (-1 - (- px q) ^ 2 / D) - - (-1 - (- py q) ^ 2 / D)
              - - (-1 - (- pz q) ^ 2 / D) = -3).
  { apply Rmult_eq_reg_r with D; [|exact Dn].
    replace (-3 * D) with (- 4 * D + (en q ^ 2 - px q ^ 2 - py q ^ 2 - pz q ^ 2)) by (rewrite <- ED; ring).
    field. exact Dn. }
  assert (B : (en k - en q * P / D) ^ 2 - (- px k - - px q * P / D) ^ 2 - (- py k - - py q * P / D) ^ 2
              - (- pz k - - pz q * P / D) ^ 2 = mv ^ 2 - P ^ 2 / D).
  { transitivity ((en k ^ 2 - px k ^ 2 - py k ^ 2 - pz k ^ 2)
      - 2 * (en q * en k - px q * px k - py q * py k - pz q * pz k) * P / D
      + (en q ^ 2 - px q ^ 2 - py q ^ 2 - pz q ^ 2) * P ^ 2 / D ^ 2); [field; exact Dn|].
    rewrite <- EK, <- EP, <- ED. field. exact Dn. }
  transitivity (- (-3 + w * (mv ^ 2 - P ^ 2 / D)) / (3 * D)).
  - f_equal. f_equal. rewrite <- A, <- B. ring.
  - rewrite Ew. field. split; [exact Dn|]. intros E. apply Hm. rewrite E. ring.
Qed.

(** * The Dalitz region *)
(** The limits of t = (p1 + p3)^2 at a given s = (p2 + p3)^2, with q^2, m1^2, m2^2, m3^2 as arguments *)
Definition dz_mid (Q a b c s : R) : R := (Q + a + b + c - s - (Q - a) * (b - c) / s) / 2.
Definition dz_half (Q a b c s : R) : R := sqrt (kallen_lambda s Q a * kallen_lambda s b c) / (2 * s).
Lemma kallen_pos_below s q m1 : 0 < q -> 0 <= m1 -> 0 <= s -> s < (q - m1) ^ 2 -> m1 < q ->
  0 < kallen_lambda s (q ^ 2) (m1 ^ 2).
Proof.
  intros Hq Hm Hs H Hmq. replace (kallen_lambda s (q ^ 2) (m1 ^ 2)) with ((s - (q - m1) ^ 2) * (s - (q + m1) ^ 2))
    by (unfold kallen_lambda; ring).
  assert ((q - m1) ^ 2 <= (q + m1) ^ 2) by nra. nra.
Qed.
Lemma kallen_pos_above s m2 m3 : 0 <= m2 -> 0 <= m3 -> (m2 + m3) ^ 2 < s -> 0 < kallen_lambda s (m2 ^ 2) (m3 ^ 2).
Proof.
  intros H2 H3 H. replace (kallen_lambda s (m2 ^ 2) (m3 ^ 2)) with ((s - (m2 - m3) ^ 2) * (s - (m2 + m3) ^ 2))
    by (unfold kallen_lambda; ring).
  assert ((m2 - m3) ^ 2 <= (m2 + m3) ^ 2) by nra. nra.
Qed.
Lemma ppp_factor m1 m2 m3 q s t : 0 < q -> 0 < s -> 0 <= kallen_lambda s (q ^ 2) (m1 ^ 2) * kallen_lambda s (m2 ^ 2) (m3 ^ 2) ->
  lorentz_ppp m1 m2 m3 q s t
  = s * (dz_half (q ^ 2) (m1 ^ 2) (m2 ^ 2) (m3 ^ 2) s ^ 2 - (t - dz_mid (q ^ 2) (m1 ^ 2) (m2 ^ 2) (m3 ^ 2) s) ^ 2)
    / (12 * q ^ 2).
Proof.
  intros Hq Hs HL. unfold lorentz_ppp. f_equal. unfold dz_half, dz_mid.
  replace ((sqrt (kallen_lambda s (q ^ 2) (m1 ^ 2) * kallen_lambda s (m2 ^ 2) (m3 ^ 2)) / (2 * s)) ^ 2)
    with ((kallen_lambda s (q ^ 2) (m1 ^ 2) * kallen_lambda s (m2 ^ 2) (m3 ^ 2)) / (4 * s ^ 2)).
  2:{ rewrite <- (pow2_sqrt _ HL) at 1. field. lra. }
  unfold kallen_lambda. field. lra.
Qed.
(** The integral of a parabola between its zeros *)
Lemma parabola_area c m h : 0 <= h -> area (fun t => c * (h ^ 2 - (t - m) ^ 2)) (m - h) (m + h) (c * (4 / 3 * h ^ 3)).
Proof.
  intros Hh. eapply area_val; [|apply area_of_antiderivative with (G := fun t => c * (h ^ 2 * (t - m) - (t - m) ^ 3 / 3))].
  - cbn beta. field.
  - intros x _.
    replace (c * (h ^ 2 - (x - m) ^ 2)) with (c * (h ^ 2 * (1 - 0) - (INR 3 * (x - m) ^ pred 3 * (1 - 0)) * / 3))
      by (cbn [INR pred]; field).
    apply derivable_pt_lim_scal. apply derivable_pt_lim_minus.
    + apply derivable_pt_lim_scal. apply derivable_pt_lim_minus; [apply derivable_pt_lim_id|apply derivable_pt_lim_const].
    + unfold Rdiv.
      eapply derivable_pt_lim_ext with (f := fun t => / 3 * (t - m) ^ 3); [intros; ring|].
      rewrite Rmult_comm. apply derivable_pt_lim_scal.
      apply (derivable_pt_lim_comp (fun t => t - m) (fun y => y ^ 3)).
      * apply derivable_pt_lim_minus; [apply derivable_pt_lim_id|apply derivable_pt_lim_const].
      * apply derivable_pt_lim_pow.
Qed.

(** The values of t that momenta allow at a given s *)
Lemma dalitz_strip M m1 m2 m3 s t : 0 < M -> 0 <= m1 -> 0 <= m2 -> 0 <= m3 -> m1 < M -> 0 < s -> (m2 + m3) ^ 2 <= s ->
  s < (M - m1) ^ 2 -> 0 <= kallen_lambda s (M ^ 2) (m1 ^ 2) * kallen_lambda s (m2 ^ 2) (m3 ^ 2) ->
  let mid := dz_mid (M ^ 2) (m1 ^ 2) (m2 ^ 2) (m3 ^ 2) s in
  let half := dz_half (M ^ 2) (m1 ^ 2) (m2 ^ 2) (m3 ^ 2) s in
  (dalitz M m1 m2 m3 s t <-> mid - half <= t <= mid + half).
Proof.
  intros HM H1 H2 H3 H1M Hs Hl Hu HK mid half. rewrite dalitz_physical by exact HM.
  assert (M2 : 0 < M ^ 2) by (apply pow_lt; exact HM).
  set (x := 1 + (m1 / M) ^ 2 - s / M ^ 2). set (y := 1 + (m2 / M) ^ 2 - t / M ^ 2).
  assert (E : half ^ 2 - (t - mid) ^ 2 = 4 * M ^ 6 / s * gram ((m1 / M) ^ 2) ((m2 / M) ^ 2) ((m3 / M) ^ 2) x y).
  { pose proof (gram_identity ((m1 / M) ^ 2) ((m2 / M) ^ 2) ((m3 / M) ^ 2) x y) as I. cbn zeta in I.
    set (gr := gram _ _ _ x y) in *. clearbody gr.
    replace gr with (16 * (1 - x + (m1 / M) ^ 2) * gr / (16 * (s / M ^ 2))).
    2:{ unfold x. field. split; lra. }
    rewrite <- I. unfold half, dz_half.
    replace ((sqrt (kallen_lambda s (M ^ 2) (m1 ^ 2) * kallen_lambda s (m2 ^ 2) (m3 ^ 2)) / (2 * s)) ^ 2)
      with ((kallen_lambda s (M ^ 2) (m1 ^ 2) * kallen_lambda s (m2 ^ 2) (m3 ^ 2)) / (4 * s ^ 2)).
    2:{ rewrite <- (pow2_sqrt _ HK) at 1. field. lra. }
    unfold mid, dz_mid, x, y, kallen_lambda. field. split; lra. }
  assert (Pos : 0 < 4 * M ^ 6 / s) by (apply Rdiv_lt_0_compat; [pose proof (pow_lt M 6 HM); lra|exact Hs]).
  assert (Hh : 0 <= half).
  { unfold half, dz_half. apply Rmult_le_pos; [apply sqrt_pos|]. left. apply Rinv_0_lt_compat. lra. }
  assert (G : 0 <= gram ((m1 / M) ^ 2) ((m2 / M) ^ 2) ((m3 / M) ^ 2) x y <-> mid - half <= t <= mid + half).
  { set (gr := gram _ _ _ x y) in *. set (K := 4 * M ^ 6 / s) in *. clearbody gr K half mid. split; intro H.
    - assert (0 <= K * gr) by (apply Rmult_le_pos; lra). nra.
    - assert (0 <= K * gr) by nra. apply Rmult_le_reg_l with K; [exact Pos|]. lra. }
  rewrite <- G.
  split; [apply physical_gram; exact HM|]. intro Hg. apply gram_physical; try assumption.
  - unfold x. apply Rmult_lt_reg_r with (M ^ 2); [exact M2|].
    replace (2 * (m1 / M) * M ^ 2) with (2 * m1 * M) by (field; lra).
    replace ((1 + (m1 / M) ^ 2 - s / M ^ 2) * M ^ 2) with (M ^ 2 + m1 ^ 2 - s) by (field; lra). nra.
  - unfold x. assert (0 < s / M ^ 2) by (apply Rdiv_lt_0_compat; assumption). lra.
  - unfold x. apply Rmult_le_reg_r with (M ^ 2); [exact M2|].
    replace ((1 + (m1 / M) ^ 2 - s / M ^ 2) * M ^ 2) with (M ^ 2 + m1 ^ 2 - s) by (field; lra). nra.
  - unfold x. apply Rmult_le_reg_r with (M ^ 2); [exact M2|].
    replace ((m2 / M + m3 / M) ^ 2 * M ^ 2) with ((m2 + m3) ^ 2) by (field; lra).
    replace ((1 - (1 + (m1 / M) ^ 2 - s / M ^ 2) + (m1 / M) ^ 2) * M ^ 2) with s by (field; lra). exact Hl.
Qed.

(** Affine change of variables, increasing direction of the image reversed *)
Lemma area_flip f a b v q mu : 0 < q -> a <= b -> area (fun x => f (q ^ 2 * (1 - x + mu ^ 2))) a b v ->
  area f (q ^ 2 * (1 - b + mu ^ 2)) (q ^ 2 * (1 - a + mu ^ 2)) (q ^ 2 * v).
Proof.
  intros Hq Hab A. assert (Q : 0 < q ^ 2) by (apply pow_lt; exact Hq).
  apply (MedSpecProofs.area_affine _ _ _ _ (1 + mu ^ 2) (- / q ^ 2) (q ^ 2 * (1 - b + mu ^ 2)) (q ^ 2 * (1 - a + mu ^ 2))) in A.
  - apply (area_scale (q ^ 2)) in A. refine (area_ext _ _ _ _ _ [] _ A). intros s _ _.
    replace (q ^ 2 * (1 - (1 + mu ^ 2 + - / q ^ 2 * s) + mu ^ 2)) with s by (field; lra). field. lra.
  - apply Ropp_lt_gt_0_contravar. apply Rinv_0_lt_compat. exact Q.
  - field. lra.
  - field. lra.
  - exact Hab.
Qed.

Lemma lnorm_mdot p : lnorm_sqr p = mdot p p.
Proof. rewrite mdot_eq. unfold lnorm_sqr. ring. Qed.
Lemma shell_mass m p : on_shell m p -> mass_shell p m.
Proof. intros [E _]. unfold mass_shell. rewrite mdot_eq. lra. Qed.
Lemma half_nonneg Q a b c s : 0 < s -> 0 <= dz_half Q a b c s.
Proof. intros Hs. unfold dz_half. apply Rmult_le_pos; [apply sqrt_pos|]. left. apply Rinv_0_lt_compat. lra. Qed.

(** The width made from [ppp2_integrated] is the phase-space integral of the squared matrix element *)
Lemma ppp2_width quad m1 m2 m3 ff2 msqrd q :
  0 <= m1 -> 0 <= m2 -> 0 <= m3 -> 0 < q -> m1 + m2 + m3 < q ->
  area (ppp2_integrand m1 m2 m3 ff2 q) (fst (ppp2_limits m1 m2 m3 q)) (snd (ppp2_limits m1 m2 m3 q))
    (quad (ppp2_integrand m1 m2 m3 ff2 q) (fst (ppp2_limits m1 m2 m3 q)) (snd (ppp2_limits m1 m2 m3 q))) ->
  (forall p1 p2 p3, event q [m1; m2; m3] [p1; p2; p3] ->
     let s := lnorm_sqr (vplus p2 p3) in
     msqrd s (lnorm_sqr (vplus p1 p3)) = q ^ 2 * (ff2 q s * contracted (q ^ 2) (current_ppp p1 p2 p3))) ->
  phase_space_width q m1 m2 m3 msqrd (0.5 * q * ppp2_integrated quad m1 m2 m3 ff2 q).
Proof.
  intros H1 H2 H3 Hq Ht A HM.
  assert (Q2 : 0 < q ^ 2) by (apply pow_lt; exact Hq).
  exists (fun s => dz_mid (q ^ 2) (m1 ^ 2) (m2 ^ 2) (m3 ^ 2) s - dz_half (q ^ 2) (m1 ^ 2) (m2 ^ 2) (m3 ^ 2) s),
    (fun s => dz_mid (q ^ 2) (m1 ^ 2) (m2 ^ 2) (m3 ^ 2) s + dz_half (q ^ 2) (m1 ^ 2) (m2 ^ 2) (m3 ^ 2) s),
    (fun s => q ^ 2 * ff2 q s * (s / (12 * q ^ 2)) * (4 / 3 * dz_half (q ^ 2) (m1 ^ 2) (m2 ^ 2) (m3 ^ 2) s ^ 3)).
  split.
  - intros s [Sl Su].
    assert (Hs : 0 < s) by (pose proof (pow2_ge_0 (m2 + m3)); lra).
    assert (HK : 0 < kallen_lambda s (q ^ 2) (m1 ^ 2) * kallen_lambda s (m2 ^ 2) (m3 ^ 2)).
    { apply Rmult_lt_0_compat; [apply kallen_pos_below; lra|apply kallen_pos_above; lra]. }
    pose proof (half_nonneg (q ^ 2) (m1 ^ 2) (m2 ^ 2) (m3 ^ 2) s Hs) as Hh.
    assert (D : forall t, dalitz q m1 m2 m3 s t <->
      dz_mid (q ^ 2) (m1 ^ 2) (m2 ^ 2) (m3 ^ 2) s - dz_half (q ^ 2) (m1 ^ 2) (m2 ^ 2) (m3 ^ 2) s <= t
      <= dz_mid (q ^ 2) (m1 ^ 2) (m2 ^ 2) (m3 ^ 2) s + dz_half (q ^ 2) (m1 ^ 2) (m2 ^ 2) (m3 ^ 2) s)
      by (intro t; apply dalitz_strip; lra).
    split; [lra|]. split; [exact D|].
    eapply area_ext with (l := []); [|apply parabola_area; exact Hh].
    intros t Hti _. assert (Dt : dalitz q m1 m2 m3 s t) by (apply D; lra).
    destruct Dt as (p1 & p2 & p3 & Ev & Es & Et).
    pose proof (HM p1 p2 p3 Ev) as E. cbv zeta in E. rewrite <- Es, <- Et in E.
    pose proof (event3 _ _ _ _ _ _ _ Ev) as (S1 & S2 & S3 & St).
    rewrite E, <- (ppp_contracted p1 p2 p3 m1 m2 m3 q s t); try assumption; try (now apply shell_mass).
    + rewrite ppp_factor by lra. field. lra.
    + unfold mass_shell. rewrite St, mdot_eq. cbn [en px py pz]. ring.
    + rewrite <- lnorm_mdot. exact Es.
    + rewrite <- lnorm_mdot. exact Et.
  - unfold ppp2_integrated. destruct (Rlt_dec (m1 + m2 + m3) q) as [_|C]; [|lra].
    unfold ppp2_integrand in A at 1. apply (area_flip (ppp2_partial m1 m2 m3 ff2 q)) in A; [|exact Hq|].
    2:{ unfold ppp2_limits. cbn [fst snd].
        replace (2 * (m1 / q)) with (2 * m1 * q / q ^ 2) by (field; lra).
        replace ((m1 / q) ^ 2 + (1 - (m2 / q + m3 / q) ^ 2)) with ((m1 ^ 2 + q ^ 2 - (m2 + m3) ^ 2) / q ^ 2) by (field; lra).
        unfold Rdiv. apply Rmult_le_compat_r; [left; now apply Rinv_0_lt_compat|]. nra. }
    set (v := quad _ _ _) in *. clearbody v. unfold ppp2_limits in A. cbn [fst snd] in A.
    replace (q ^ 2 * (1 - ((m1 / q) ^ 2 + (1 - (m2 / q + m3 / q) ^ 2)) + (m1 / q) ^ 2)) with ((m2 + m3) ^ 2) in A by (field; lra).
    replace (q ^ 2 * (1 - 2 * (m1 / q) + (m1 / q) ^ 2)) with ((q - m1) ^ 2) in A by (field; lra).
    pose proof PI_RGT_0 as Pp.
    apply (area_scale (128 * PI ^ 3 * q ^ 4)) in A.
    eapply area_val; [|refine (area_ext _ _ _ _ _ [] _ A)].
    + replace 0.5 with (1 / 2) by lra. field.
    + intros s [Sl Su] _. assert (Hs : 0 < s) by (pose proof (pow2_ge_0 (m2 + m3)); lra).
      unfold ppp2_partial, dz_half. set (r := sqrt _). clearbody r. field. repeat split; lra.
Qed.

(** * Two pseudoscalars and a vector *)
Lemma event3_intro q m1 m2 m3 p1 p2 p3 : on_shell m1 p1 -> on_shell m2 p2 -> on_shell m3 p3 ->
  vplus p1 (vplus p2 p3) = V4 q 0 0 0 -> event q [m1; m2; m3] [p1; p2; p3].
Proof.
  intros S1 S2 S3 E. split; [repeat (apply Forall2_cons; [assumption|]); apply Forall2_nil|]. rewrite <- E, !vsum_cons.
  apply vec_eq; cbn [vplus vsum fold_right en px py pz]; ring.
Qed.
Lemma event3_swap q m1 m2 m3 p1 p2 p3 : event q [m1; m2; m3] [p1; p2; p3] -> event q [m2; m1; m3] [p2; p1; p3].
Proof.
  intros Ev. apply event3 in Ev. destruct Ev as (S1 & S2 & S3 & E). apply event3_intro; try assumption.
  rewrite <- E. apply vplus_rot.
Qed.
Lemma event3_rev q m1 m2 m3 p1 p2 p3 : event q [m1; m2; m3] [p1; p2; p3] -> event q [m3; m1; m2] [p3; p1; p2].
Proof.
  intros Ev. apply event3 in Ev. destruct Ev as (S1 & S2 & S3 & E). apply event3_intro; try assumption.
  rewrite <- E. apply vec_eq; cbn [vplus en px py pz]; ring.
Qed.

(** The squared matrix element of V* -> P P V divided by q^2 and by the squared form factor: the current is
    the transverse projector applied to the polarisation of the vector, of momentum [k] and mass [mv] *)
Definition ppv_msq (q mv : R) (k : vec) : R := contracted_pol (q ^ 2) k (1 / mv ^ 2) (current_ppv (V4 q 0 0 0)).
Definition ppv_of_s (q mv s : R) : R := (2 * mv ^ 2 * q ^ 2 + ((q ^ 2 + mv ^ 2 - s) / 2) ^ 2) / (3 * mv ^ 2 * q ^ 4).
Lemma ppv_msq_of_s q mv m1 m2 k p1 p2 : 0 < q -> 0 < mv -> event q [mv; m1; m2] [k; p1; p2] ->
  ppv_msq q mv k = ppv_of_s q mv (lnorm_sqr (vplus p1 p2)).
Proof.
  intros Hq Hm Ev. apply event3 in Ev. destruct Ev as (Sk & S1 & S2 & E).
  assert (QQ : mdot (V4 q 0 0 0) (V4 q 0 0 0) = q ^ 2) by (rewrite mdot_eq; cbn [en px py pz]; ring).
  unfold ppv_msq. rewrite <- QQ at 1. rewrite (ppv_contracted _ _ mv).
  - rewrite QQ. unfold ppv_of_s.
    assert (D : mdot (V4 q 0 0 0) k = (q ^ 2 + mv ^ 2 - lnorm_sqr (vplus p1 p2)) / 2).
    { pose proof (f_equal en E) as Ee. pose proof (f_equal px E) as Ex. pose proof (f_equal py E) as Ey. pose proof (f_equal pz E) as Ez.
      destruct Sk as [Sk _]. unfold lnorm_sqr. rewrite mdot_eq. set (w := vplus p1 p2) in *. clearbody w.
      destruct k as [e x y z], w as [e' x' y' z']. cbn [vplus en px py pz] in *.
      assert (e' = q - e) by lra. assert (x' = - x) by lra. assert (y' = - y) by lra. assert (z' = - z) by lra. subst. nra. }
    rewrite D. f_equal. ring.
  - rewrite QQ. apply pow_lt. exact Hq.
  - field. lra.
  - now apply shell_mass.
Qed.

(** The integral of a function of s over the strip of t, when the function does not depend on t *)
Lemma pair_energy q m1 m2 m3 p1 p2 p3 : event q [m1; m2; m3] [p1; p2; p3] ->
  lnorm_sqr (vplus p2 p3) = q ^ 2 + m1 ^ 2 - 2 * q * en p1.
Proof.
  intros Ev. apply event3 in Ev. destruct Ev as ([S1 _] & S2 & S3 & E).
  pose proof (f_equal en E) as Ee. pose proof (f_equal px E) as Ex. pose proof (f_equal py E) as Ey. pose proof (f_equal pz E) as Ez.
  unfold lnorm_sqr. set (w := vplus p2 p3) in *. clearbody w.
  destruct p1 as [e x y z], w as [e' x' y' z']. cbn [vplus en px py pz] in *.
  assert (e' = q - e) by lra. assert (x' = - x) by lra. assert (y' = - y) by lra. assert (z' = - z) by lra. subst. nra.
Qed.

(** [energy_density q mv m1 m2 i msq e v]: [v] is the integral of [msq] over the final states in which
    particle [i] of (V, P1, P2) has energy [e], in the squared mass of the pair P1 P2, or of V P2 when
    particle 0 is fixed *)
Definition energy_density (q mv m1 m2 : R) (i : nat) (msq : vec -> R) (e v : R) : Prop :=
  let energy := fun k p1 p2 => en (nth i [k; p1; p2] p2) in
  let pair := fun k p1 p2 => lnorm_sqr (match i with O => vplus k p2 | _ => vplus p1 p2 end) in
  exists lo hi F,
    lo <= hi
    /\ (forall t, lo <= t <= hi <->
          exists k p1 p2, event q [mv; m1; m2] [k; p1; p2] /\ energy k p1 p2 = e /\ pair k p1 p2 = t)
    /\ (forall k p1 p2, event q [mv; m1; m2] [k; p1; p2] -> energy k p1 p2 = e -> F (pair k p1 p2) = msq k)
    /\ area F lo hi v.

Lemma energy_density_unique q mv m1 m2 i msq e v w : energy_density q mv m1 m2 i msq e v ->
  energy_density q mv m1 m2 i msq e w -> v = w.
Proof.
  intros (lo & hi & F & L & D & HF & A) (lo' & hi' & F' & L' & D' & HF' & A').
  assert (lo = lo').
  { apply Rle_antisym.
    - assert (lo <= lo' <= hi) as Q by (apply D, D'; lra). lra.
    - assert (lo' <= lo <= hi') as Q by (apply D', D; lra). lra. }
  assert (hi = hi').
  { apply Rle_antisym.
    - assert (lo' <= hi <= hi') as Q by (apply D', D; lra). lra.
    - assert (lo <= hi' <= hi) as Q by (apply D, D'; lra). lra. }
  subst lo' hi'. apply (area_unique F lo hi); [exact L|exact A|].
  refine (area_ext _ _ _ _ _ [] _ A'). intros t Ht _.
  assert (lo <= t <= hi) as Q by lra. apply D in Q. destruct Q as (k & p1 & p2 & Ev & Ee & <-).
  now rewrite HF, HF'.
Qed.

(** Allowed pairs of energy and squared mass *)
Lemma strip_at_energy q m1 m2 m3 e t : 0 < q -> 0 <= m1 -> 0 <= m2 -> 0 <= m3 -> m1 < e ->
  (m2 + m3) ^ 2 < q ^ 2 + m1 ^ 2 - 2 * q * e -> e < q ->
  let s := q ^ 2 + m1 ^ 2 - 2 * q * e in
  let mid := dz_mid (q ^ 2) (m1 ^ 2) (m2 ^ 2) (m3 ^ 2) s in
  let half := dz_half (q ^ 2) (m1 ^ 2) (m2 ^ 2) (m3 ^ 2) s in
  (mid - half <= t <= mid + half <->
   exists p1 p2 p3, event q [m1; m2; m3] [p1; p2; p3] /\ en p1 = e /\ lnorm_sqr (vplus p1 p3) = t).
Proof.
  intros Hq H1 H2 H3 He Hs Heq s mid half.
  assert (S0 : 0 < s) by (pose proof (pow2_ge_0 (m2 + m3)); unfold s; lra).
  assert (Su : s < (q - m1) ^ 2) by (unfold s; nra).
  assert (HK : 0 < kallen_lambda s (q ^ 2) (m1 ^ 2) * kallen_lambda s (m2 ^ 2) (m3 ^ 2)).
  { apply Rmult_lt_0_compat; [apply kallen_pos_below; lra|apply kallen_pos_above; unfold s in *; lra]. }
  pose proof (dalitz_strip q m1 m2 m3 s t) as D. cbv zeta in D. fold mid half in D. rewrite <- D; try (unfold s in *; lra).
  clear D. unfold dalitz. split.
  - intros (p1 & p2 & p3 & Ev & Es & Et). exists p1, p2, p3. split; [exact Ev|]. split; [|auto].
    rewrite (pair_energy _ _ _ _ _ _ _ Ev) in Es. unfold s in Es. nra.
  - intros (p1 & p2 & p3 & Ev & Ee & Et). exists p1, p2, p3. split; [exact Ev|]. split; [|auto].
    rewrite (pair_energy _ _ _ _ _ _ _ Ev). unfold s. rewrite Ee. reflexivity.
Qed.

Lemma half_scaled q m1 m2 m3 e : 0 < q -> 0 < 1 - 2 * e / q + (m1 / q) ^ 2 ->
  let xx := 1 - 2 * e / q + (m1 / q) ^ 2 in
  dz_half (q ^ 2) (m1 ^ 2) (m2 ^ 2) (m3 ^ 2) (q ^ 2 + m1 ^ 2 - 2 * q * e)
  = q ^ 2 * sqrt (kallen_lambda 1 ((m1 / q) ^ 2) xx * kallen_lambda ((m2 / q) ^ 2) ((m3 / q) ^ 2) xx) / (2 * xx).
Proof.
  intros Hq Hx xx. fold xx in Hx. unfold dz_half.
  assert (Es : q ^ 2 + m1 ^ 2 - 2 * q * e = q ^ 2 * xx) by (unfold xx; field; lra). rewrite Es.
  replace (kallen_lambda (q ^ 2 * xx) (q ^ 2) (m1 ^ 2) * kallen_lambda (q ^ 2 * xx) (m2 ^ 2) (m3 ^ 2))
    with ((q ^ 4) ^ 2 * (kallen_lambda 1 ((m1 / q) ^ 2) xx * kallen_lambda ((m2 / q) ^ 2) ((m3 / q) ^ 2) xx))
    by (unfold kallen_lambda; field; lra).
  rewrite sqrt_mult_alt by apply pow2_ge_0. rewrite sqrt_pow2 by (apply pow_le; lra).
  set (r := sqrt _). clearbody r. field. lra.
Qed.
Lemma area_ppv_of_s q mv mid half : 0 < q -> 0 < mv -> area (ppv_of_s q mv) (mid - half) (mid + half)
  (2 * half / (3 * mv ^ 2 * q ^ 4) * (2 * mv ^ 2 * q ^ 2 + ((q ^ 2 + mv ^ 2 - mid) / 2) ^ 2 + half ^ 2 / 12)).
Proof.
  intros Hq Hm.
  eapply area_val; [|apply area_of_antiderivative with
    (G := fun t => (2 * mv ^ 2 * q ^ 2 * t - (q ^ 2 + mv ^ 2 - t) ^ 3 / 12) / (3 * mv ^ 2 * q ^ 4))].
  - cbn beta. field. lra.
  - intros t _. unfold ppv_of_s. assert (3 * mv ^ 2 * q ^ 4 <> 0).
    { pose proof (pow_lt mv 2 Hm). pose proof (pow_lt q 4 Hq). apply Rgt_not_eq. apply Rmult_lt_0_compat; lra. }
    eapply dl_val.
    + apply dl_div; [|apply (dl_const (3 * mv ^ 2 * q ^ 4))|assumption].
      apply dl_minus; [apply dl_mult; [apply (dl_const (2 * mv ^ 2 * q ^ 2))|apply dl_id]|].
      apply dl_div; [|apply (dl_const 12)|lra]. apply dl_pow. apply dl_minus; [apply (dl_const (q ^ 2 + mv ^ 2))|apply dl_id].
    + unfold Rsqr. simpl. field. lra.
Qed.

Section Marginals.
Variables q mv m1 m2 e : R.
Hypothesis Hq : 0 < q.
Hypothesis Hv : 0 < mv.
Hypothesis H1 : 0 <= m1.
Hypothesis H2 : 0 <= m2.

Lemma xx_pos m M : 0 <= M -> M ^ 2 < q ^ 2 + m ^ 2 - 2 * q * e -> 0 < 1 - 2 * e / q + (m / q) ^ 2.
Proof.
  intros HM H. replace (1 - 2 * e / q + (m / q) ^ 2) with ((q ^ 2 + m ^ 2 - 2 * q * e) / q ^ 2) by (field; lra).
  apply Rdiv_lt_0_compat; [|apply pow_lt; exact Hq]. pose proof (pow2_ge_0 M). lra.
Qed.

(** Energy of the vector *)
Lemma density_0 : mv < e < q -> (m1 + m2) ^ 2 < q ^ 2 + mv ^ 2 - 2 * q * e ->
  energy_density q mv m1 m2 0 (ppv_msq q mv) e (128 * PI ^ 3 * djde1 (mv, m1, m2) 1 q e).
Proof.
  intros He Hs. pose proof (xx_pos mv (m1 + m2) ltac:(lra) Hs) as Hx.
  set (s := q ^ 2 + mv ^ 2 - 2 * q * e).
  set (mid := dz_mid (q ^ 2) (mv ^ 2) (m1 ^ 2) (m2 ^ 2) s).
  set (half := dz_half (q ^ 2) (mv ^ 2) (m1 ^ 2) (m2 ^ 2) s).
  exists (mid - half), (mid + half), (fun _ => ppv_of_s q mv s).
  assert (Hh : 0 <= half) by (apply half_nonneg; unfold s; pose proof (pow2_ge_0 (m1 + m2)); lra).
  split; [lra|]. split; [|split].
  - intro t. cbn [nth]. apply (strip_at_energy q mv m1 m2 e t); lra.
  - cbn [nth]. intros k p1 p2 Ev Ee. rewrite (ppv_msq_of_s q mv m1 m2 k p1 p2) by assumption.
    rewrite (pair_energy _ _ _ _ _ _ _ Ev), Ee. reflexivity.
  - eapply area_val; [|apply area_const].
    replace (mid + half - (mid - half)) with (2 * half) by ring. unfold half, s. rewrite half_scaled by assumption.
    unfold djde1, ppv_of_s. set (xx := 1 - 2 * e / q + (mv / q) ^ 2) in *.
    set (r := sqrt _). clearbody r. pose proof PI_RGT_0.
    assert (Ee : e = q * (1 + (mv / q) ^ 2 - xx) / 2) by (unfold xx; field; lra). clearbody xx. rewrite Ee.
    field. repeat split; lra.
Qed.

Lemma density_1 : m1 < e < q -> (mv + m2) ^ 2 < q ^ 2 + m1 ^ 2 - 2 * q * e ->
  energy_density q mv m1 m2 1 (ppv_msq q mv) e (128 * PI ^ 3 * djde2 (mv, m1, m2) q e).
Proof.
  intros He Hs. pose proof (xx_pos m1 (mv + m2) ltac:(lra) Hs) as Hx.
  set (s := q ^ 2 + m1 ^ 2 - 2 * q * e).
  set (mid := dz_mid (q ^ 2) (m1 ^ 2) (mv ^ 2) (m2 ^ 2) s).
  set (half := dz_half (q ^ 2) (m1 ^ 2) (mv ^ 2) (m2 ^ 2) s).
  exists (mid - half), (mid + half), (ppv_of_s q mv).
  assert (Hh : 0 <= half) by (apply half_nonneg; unfold s; pose proof (pow2_ge_0 (mv + m2)); lra).
  split; [lra|]. split; [|split].
  - intro t. cbn [nth]. pose proof (strip_at_energy q m1 mv m2 e t) as D. cbv zeta in D. fold s in D. fold mid half in D.
    rewrite D by (unfold s in *; lra). split.
    + intros (p1 & k & p2 & Ev & Ee & Et). exists k, p1, p2. split; [|auto]. now apply event3_swap.
    + intros (k & p1 & p2 & Ev & Ee & Et). exists p1, k, p2. split; [|auto]. now apply event3_swap.
  - cbn [nth]. intros k p1 p2 Ev Ee. rewrite (ppv_msq_of_s q mv m1 m2 k p1 p2) by assumption. reflexivity.
  - eapply area_val; [|apply area_ppv_of_s; assumption].
    pose proof (half_scaled q m1 mv m2 e Hq Hx) as Eh. cbv zeta in Eh.
    unfold djde2. set (xx := 1 - 2 * e / q + (m1 / q) ^ 2) in *. fold s in Eh. fold half in Eh.
    replace (kallen_lambda ((m2 / q) ^ 2) ((mv / q) ^ 2) xx) with (kallen_lambda ((mv / q) ^ 2) ((m2 / q) ^ 2) xx)
      by (unfold kallen_lambda; ring).
    set (p12 := kallen_lambda 1 _ _ * _) in *.
    assert (Hp : 0 <= p12).
    { assert (HK : 0 < kallen_lambda s (q ^ 2) (m1 ^ 2) * kallen_lambda s (mv ^ 2) (m2 ^ 2)).
      { apply Rmult_lt_0_compat; [apply kallen_pos_below; unfold s; nra|apply kallen_pos_above; unfold s in *; lra]. }
      apply Rmult_le_reg_l with (q ^ 8); [apply pow_lt; exact Hq|]. rewrite Rmult_0_r.
      replace (q ^ 8 * p12) with (kallen_lambda s (q ^ 2) (m1 ^ 2) * kallen_lambda s (mv ^ 2) (m2 ^ 2)); [lra|].
      unfold p12, s, xx, kallen_lambda. field. lra. }
    pose proof (pow2_sqrt p12 Hp) as Sq. set (r := sqrt p12) in *. rewrite <- Sq. clearbody r. rewrite Eh.
    assert (Em : mid = (q ^ 2 + m1 ^ 2 + mv ^ 2 + m2 ^ 2 - s - (q ^ 2 - m1 ^ 2) * (mv ^ 2 - m2 ^ 2) / s) / 2) by reflexivity.
    assert (Es : s = q ^ 2 * xx) by (unfold s, xx; field; lra). rewrite Em, Es.
    clear Eh Em Es. clear Sq Hp. clearbody p12. clear p12. clearbody half mid.
    assert (Ee : e = q * (1 + (m1 / q) ^ 2 - xx) / 2) by (unfold xx; field; lra). clearbody xx. rewrite Ee.
    pose proof PI_RGT_0. field. repeat split; lra.
Qed.
End Marginals.
Lemma density_swap q mv m1 m2 msq e v : energy_density q mv m2 m1 1 msq e v -> energy_density q mv m1 m2 2 msq e v.
Proof.
  intros (lo & hi & F & L & D & HF & A). exists lo, hi, F. cbn [nth] in *. split; [exact L|]. split; [|split; [|exact A]].
  - intro t. rewrite D. split.
    + intros (k & p1 & p2 & Ev & Ee & Et). exists k, p2, p1. split; [|split; [exact Ee|]].
      * apply event3_swap, event3_rev, event3_swap. now apply event3_swap.
      * rewrite (vplus_comm p2 p1). exact Et.
    + intros (k & p1 & p2 & Ev & Ee & Et). exists k, p2, p1. split; [|split; [exact Ee|]].
      * apply event3_swap, event3_rev, event3_swap. now apply event3_swap.
      * rewrite (vplus_comm p2 p1). exact Et.
  - intros k p1 p2 Ev Ee. rewrite (vplus_comm p1 p2). apply HF; [|exact Ee].
    apply event3_swap, event3_rev, event3_swap. now apply event3_swap.
Qed.
Lemma djde3_swap q mv m1 m2 e : 0 < q -> 0 < mv -> 1 - 2 * e / q + (m2 / q) ^ 2 <> 0 ->
  djde2 (mv, m2, m1) q e = djde3 (mv, m1, m2) q e / (18432 * PI ^ 3 * (mv / q) ^ 2).
Proof.
  intros Hq Hm Hx. unfold djde2, djde3.
  replace (1 - 2 * e / q - (m1 / q) ^ 2 + (m2 / q) ^ 2 + (mv / q) ^ 2)
    with (1 - 2 * e / q + (m2 / q) ^ 2 - (m1 / q) ^ 2 + (mv / q) ^ 2) by ring.
  set (xx := 1 - 2 * e / q + (m2 / q) ^ 2) in *. set (r := sqrt _). clearbody r xx. pose proof PI_RGT_0.
  field. repeat split; lra.
Qed.
Lemma density_2 q mv m1 m2 e : 0 < q -> 0 < mv -> 0 <= m1 -> 0 <= m2 -> m2 < e < q ->
  (mv + m1) ^ 2 < q ^ 2 + m2 ^ 2 - 2 * q * e ->
  energy_density q mv m1 m2 2 (ppv_msq q mv) e (djde3 (mv, m1, m2) q e / (144 * (mv / q) ^ 2)).
Proof.
  intros Hq Hm H1 H2 He Hs. apply density_swap.
  pose proof (density_1 q mv m2 m1 e Hq Hm H2 H1 He Hs) as D.
  pose proof (xx_pos q e Hq m2 (mv + m1) ltac:(lra) Hs) as Hx.
  rewrite djde3_swap in D by lra.
  replace (djde3 (mv, m1, m2) q e / (144 * (mv / q) ^ 2))
    with (128 * PI ^ 3 * (djde3 (mv, m1, m2) q e / (18432 * PI ^ 3 * (mv / q) ^ 2))); [exact D|].
  pose proof PI_RGT_0. field. repeat split; lra.
Qed.

(** The densities are positive inside *)
Lemma kallens_pos q m1 m2 m3 e : 0 < q -> 0 <= m1 -> 0 <= m2 -> 0 <= m3 -> m1 < e < q ->
  (m2 + m3) ^ 2 < q ^ 2 + m1 ^ 2 - 2 * q * e ->
  let xx := 1 - 2 * e / q + (m1 / q) ^ 2 in
  0 < kallen_lambda 1 ((m1 / q) ^ 2) xx * kallen_lambda ((m2 / q) ^ 2) ((m3 / q) ^ 2) xx.
Proof.
  intros Hq H1 H2 H3 He Hs xx. set (s := q ^ 2 + m1 ^ 2 - 2 * q * e) in *.
  assert (HK : 0 < kallen_lambda s (q ^ 2) (m1 ^ 2) * kallen_lambda s (m2 ^ 2) (m3 ^ 2)).
  { apply Rmult_lt_0_compat; [apply kallen_pos_below|apply kallen_pos_above; unfold s in *; lra]; try lra; unfold s; [|nra].
    pose proof (pow2_ge_0 (m2 + m3)). unfold s in Hs. lra. }
  apply Rmult_lt_reg_l with (q ^ 8); [apply pow_lt; exact Hq|]. rewrite Rmult_0_r.
  replace (q ^ 8 * _) with (kallen_lambda s (q ^ 2) (m1 ^ 2) * kallen_lambda s (m2 ^ 2) (m3 ^ 2)); [exact HK|].
  unfold s, xx, kallen_lambda. field. lra.
Qed.
Lemma djde1_pos q mv m1 m2 e ff2 : 0 < ff2 -> 0 < q -> 0 < mv -> 0 <= m1 -> 0 <= m2 -> mv < e < q ->
  (m1 + m2) ^ 2 < q ^ 2 + mv ^ 2 - 2 * q * e -> 0 < djde1 (mv, m1, m2) ff2 q e.
Proof.
  intros Hf Hq Hm H1 H2 He Hs. pose proof (kallens_pos q mv m1 m2 e Hq ltac:(lra) H1 H2 He Hs) as K.
  pose proof (xx_pos q e Hq mv (m1 + m2) ltac:(lra) Hs) as Hx. unfold djde1. cbv zeta in K.
  apply sqrt_lt_R0 in K. set (r := sqrt _) in *. pose proof PI_RGT_0 as Pp.
  assert (0 < (mv / q) ^ 2) by (apply pow_lt, Rdiv_lt_0_compat; lra).
  apply Rdiv_lt_0_compat; [|exact Hx]. apply Rmult_lt_0_compat; [|exact K]. apply Rmult_lt_0_compat.
  - apply Rdiv_lt_0_compat; [exact Hf|]. apply Rmult_lt_0_compat; [|assumption]. apply Rmult_lt_0_compat; [lra|now apply pow_lt].
  - pose proof (pow2_ge_0 (2 * e / q)). lra.
Qed.
Lemma djde2_pos q mv m1 m2 e : 0 < q -> 0 < mv -> 0 <= m1 -> 0 <= m2 -> m1 < e < q ->
  (mv + m2) ^ 2 < q ^ 2 + m1 ^ 2 - 2 * q * e -> 0 < djde2 (mv, m1, m2) q e.
Proof.
  intros Hq Hm H1 H2 He Hs. assert (Hs' : (m2 + mv) ^ 2 < q ^ 2 + m1 ^ 2 - 2 * q * e) by (rewrite (Rplus_comm m2); exact Hs).
  pose proof (kallens_pos q m1 m2 mv e Hq H1 H2 ltac:(lra) He Hs') as K.
  pose proof (xx_pos q e Hq m1 (mv + m2) ltac:(lra) Hs) as Hx. unfold djde2. cbv zeta in K.
  pose proof (sqrt_lt_R0 _ K) as Kr. set (xx := 1 - 2 * e / q + (m1 / q) ^ 2) in *. set (p12 := kallen_lambda 1 _ _ * _) in *. set (r := sqrt p12) in *.
  pose proof PI_RGT_0 as Pp. assert (0 < (mv / q) ^ 2) by (apply pow_lt, Rdiv_lt_0_compat; lra).
  apply Rdiv_lt_0_compat.
  - apply Rmult_lt_0_compat; [exact Kr|].
    assert (0 <= 96 * xx ^ 2 * (mv / q) ^ 2) by (apply Rmult_le_pos; [pose proof (pow2_ge_0 xx); lra|lra]).
    assert (0 <= 3 * (-2 + 2 * e / q) ^ 2 * (xx - (m2 / q) ^ 2 + (mv / q) ^ 2) ^ 2)
      by (apply Rmult_le_pos; [pose proof (pow2_ge_0 (-2 + 2 * e / q)); lra|apply pow2_ge_0]).
    lra.
  - apply Rmult_lt_0_compat; [|assumption]. apply Rmult_lt_0_compat; [|now apply pow_lt].
    apply Rmult_lt_0_compat; [lra|now apply pow_lt].
Qed.
Lemma djde3_pos q mv m1 m2 e : 0 < q -> 0 < mv -> 0 <= m1 -> 0 <= m2 -> m2 < e < q ->
  (mv + m1) ^ 2 < q ^ 2 + m2 ^ 2 - 2 * q * e -> 0 < djde3 (mv, m1, m2) q e.
Proof.
  intros Hq Hm H1 H2 He Hs. pose proof (djde2_pos q mv m2 m1 e Hq Hm H2 H1 He Hs) as D.
  pose proof (xx_pos q e Hq m2 (mv + m1) ltac:(lra) Hs) as Hx. rewrite djde3_swap in D by lra.
  pose proof PI_RGT_0 as Pp. assert (0 < (mv / q) ^ 2) by (apply pow_lt, Rdiv_lt_0_compat; lra).
  assert (K : 0 < 18432 * PI ^ 3 * (mv / q) ^ 2)
    by (apply Rmult_lt_0_compat; [apply Rmult_lt_0_compat; [lra|now apply pow_lt]|assumption]).
  replace (djde3 (mv, m1, m2) q e)
    with (djde3 (mv, m1, m2) q e / (18432 * PI ^ 3 * (mv / q) ^ 2) * (18432 * PI ^ 3 * (mv / q) ^ 2)) by (field; lra).
  now apply Rmult_lt_0_compat.
Qed.

(** * Bins *)
Lemma nth_error_centers : forall l i, nth_error (bin_centers l) i =
  match nth_error l i, nth_error l (S i) with Some a, Some b => Some (0.5 * (b + a)) | _, _ => None end.
Proof.
  induction l as [|a l IH]; intros i; [destruct i; reflexivity|]. destruct l as [|b l].
  - destruct i as [|i]; [reflexivity|]. cbn. destruct i; reflexivity.
  - change (bin_centers (a :: b :: l)) with (0.5 * (b + a) :: bin_centers (b :: l)). destruct i as [|i]; [reflexivity|].
    cbn [nth_error]. rewrite IH. reflexivity.
Qed.
Lemma nth_error_linspace lo hi n i : (i <= n)%nat -> nth_error (linspace lo hi n) i = Some (lo + INR i * ((hi - lo) / INR n)).
Proof.
  intros H. unfold linspace. rewrite nth_error_map, nth_error_nth' with (d := 0%nat) by (rewrite seq_length; lia).
  rewrite seq_nth by lia. reflexivity.
Qed.
Lemma linspace_length lo hi n : length (linspace lo hi n) = S n.
Proof. unfold linspace. rewrite map_length, seq_length. reflexivity. Qed.
Lemma linspace_increasing lo hi n : lo < hi -> (0 < n)%nat -> increasing (linspace lo hi n).
Proof.
  intros H Hn i a b Ha Hb. assert (Hi : (S i <= n)%nat).
  { assert (nth_error (linspace lo hi n) (S i) <> None) by congruence. apply nth_error_Some in H0. rewrite linspace_length in H0. lia. }
  rewrite nth_error_linspace in Ha, Hb by lia. rewrite S_INR in Hb.
  assert (Ea : a = lo + INR i * ((hi - lo) / INR n)) by congruence.
  assert (Eb : b = lo + (INR i + 1) * ((hi - lo) / INR n)) by congruence.
  assert (0 < (hi - lo) / INR n) by (apply Rdiv_lt_0_compat; [lra|now apply lt_0_INR]). nra.
Qed.
Lemma linspace_centers lo hi n i e : lo < hi -> (0 < n)%nat -> nth_error (bin_centers (linspace lo hi n)) i = Some e -> lo < e < hi.
Proof.
  intros H Hn He. rewrite nth_error_centers in He.
  destruct (nth_error (linspace lo hi n) i) as [a|] eqn:Ea; [|discriminate].
  destruct (nth_error (linspace lo hi n) (S i)) as [b|] eqn:Eb; [|discriminate]. injection He as <-.
  assert (Hi : (S i <= n)%nat).
  { assert (N : nth_error (linspace lo hi n) (S i) <> None) by congruence. apply nth_error_Some in N. rewrite linspace_length in N. lia. }
  rewrite nth_error_linspace in Ea, Eb by lia. rewrite S_INR in Eb.
  assert (Ea' : a = lo + INR i * ((hi - lo) / INR n)) by congruence.
  assert (Eb' : b = lo + (INR i + 1) * ((hi - lo) / INR n)) by congruence. subst a b.
  assert (Nn : 0 < INR n) by now apply lt_0_INR.
  assert (W : 0 < (hi - lo) / INR n) by (apply Rdiv_lt_0_compat; lra).
  pose proof (pos_INR i). pose proof (le_INR _ _ Hi) as Hle. rewrite S_INR in Hle.
  set (w := (hi - lo) / INR n) in *. assert (E : hi = lo + INR n * w) by (unfold w; field; lra). clearbody w. split; nra.
Qed.
(** A distribution made from values of a positive function at the bin centres: the probabilities are
    proportional to the function and normalised *)
Definition samples_density (d : dist) (lo hi : R) (n : nat) (rho : R -> R -> Prop) : Prop :=
  bins d = linspace lo hi n
  /\ exists ps c, probabilities d = Some ps /\ length ps = n /\ 0 < c /\ binned_integral ps (bins d) = 1
     /\ forall i p, nth_error ps i = Some p -> exists e, nth_error (centers d) i = Some e /\ lo < e < hi /\ 0 < p /\ rho e (c * p).
Lemma dist_of_density lo hi n f K (rho : R -> R -> Prop) : lo < hi -> (0 < n)%nat -> 0 < K ->
  (forall e, lo < e < hi -> 0 < f e /\ rho e (K * f e)) ->
  exists d, dist_new (linspace lo hi n) (map f (bin_centers (linspace lo hi n))) = Ret d /\ samples_density d lo hi n rho.
Proof.
  intros H Hn HK Hf. set (edges := linspace lo hi n). set (ys := map f (bin_centers edges)).
  assert (Le : length edges = S n) by apply linspace_length.
  assert (Ly : length ys = n) by (unfold ys; rewrite map_length, centers_length; lia).
  assert (Py : forall y, In y ys -> 0 < y).
  { intros y Hy. apply in_map_iff in Hy. destruct Hy as (e & <- & Hy). apply In_nth_error in Hy. destruct Hy as [i Hy].
    apply Hf. exact (linspace_centers lo hi n i e H Hn Hy). }
  assert (Ny : ys <> []) by (intro E; rewrite E in Ly; cbn in Ly; lia).
  destruct (normalize_distribution_exact ys edges Ny ltac:(lia)) as [N _].
  assert (B : 0 < binned_integral ys edges).
  { apply binned_sign; [now apply linspace_increasing|intros y Hy; apply Py in Hy; lra|lia|].
    destruct ys as [|y r]; [congruence|]. exists y. split; [now left|]. specialize (Py y (or_introl eq_refl)). lra. }
  destruct (N B) as (qs & En & Eq & Lq & Hq). unfold dist_new.
  replace (Nat.eqb (length edges) (length ys + 1)) with true by (symmetry; apply Nat.eqb_eq; lia).
  rewrite En. cbn [bind]. eexists. split; [reflexivity|]. split; [reflexivity|]. cbn [bins centers probabilities].
  exists qs, (K * binned_integral ys edges). split; [reflexivity|]. split; [lia|]. split; [now apply Rmult_lt_0_compat|].
  split; [exact Eq|]. intros i p Hp.
  destruct (nth_error ys i) as [y|] eqn:Ey.
  2:{ apply nth_error_None in Ey. assert (X : nth_error qs i <> None) by congruence. apply nth_error_Some in X. lia. }
  pose proof (Hq i y Ey) as Ep. rewrite Hp in Ep. injection Ep as ->. unfold ys in Ey. rewrite nth_error_map in Ey.
  destruct (nth_error (bin_centers edges) i) as [e|] eqn:Ee; [|discriminate]. injection Ey as <-.
  exists e. split; [reflexivity|]. pose proof (linspace_centers lo hi n i e H Hn Ee) as He. split; [exact He|].
  destruct (Hf e He) as [F1 F2]. split; [now apply Rdiv_lt_0_compat|].
  replace (K * binned_integral ys edges * (f e / binned_integral ys edges)) with (K * f e) by (field; lra). exact F2.
Qed.

(** The three energy distributions *)
Lemma ppv_distributions mv m1 m2 ff2 q n : 0 < mv -> 0 <= m1 -> 0 <= m2 -> mv + m1 + m2 < q -> 0 < ff2 -> (0 < n)%nat ->
  exists d0 d1 d2, ppv_energy_distributions (mv, m1, m2) ff2 q n = Ret [d0; d1; d2]
    /\ samples_density d0 mv ((q ^ 2 + mv ^ 2 - (m1 + m2) ^ 2) / (2 * q)) n (energy_density q mv m1 m2 0 (ppv_msq q mv))
    /\ samples_density d1 m1 ((q ^ 2 + m1 ^ 2 - (mv + m2) ^ 2) / (2 * q)) n (energy_density q mv m1 m2 1 (ppv_msq q mv))
    /\ samples_density d2 m2 ((q ^ 2 + m2 ^ 2 - (mv + m1) ^ 2) / (2 * q)) n (energy_density q mv m1 m2 2 (ppv_msq q mv)).
Proof.
  intros Hv H1 H2 Ht Hf Hn. assert (Hq : 0 < q) by lra. pose proof PI_RGT_0 as Pp.
  assert (L : forall m r, 0 <= m -> 0 <= r -> m + r < q -> m < (q ^ 2 + m ^ 2 - r ^ 2) / (2 * q)).
  { intros m r Hm Hr H. apply Rmult_lt_reg_r with (2 * q); [lra|].
    replace ((q ^ 2 + m ^ 2 - r ^ 2) / (2 * q) * (2 * q)) with (q ^ 2 + m ^ 2 - r ^ 2) by (field; lra). nra. }
  assert (U : forall m r e, 0 <= m -> m < q -> e < (q ^ 2 + m ^ 2 - r ^ 2) / (2 * q) -> e < q /\ r ^ 2 < q ^ 2 + m ^ 2 - 2 * q * e).
  { intros m r e Hm Hmq H. apply (Rmult_lt_compat_r (2 * q)) in H; [|lra].
    replace ((q ^ 2 + m ^ 2 - r ^ 2) / (2 * q) * (2 * q)) with (q ^ 2 + m ^ 2 - r ^ 2) in H by (field; lra).
    pose proof (pow2_ge_0 r). split; nra. }
  assert (Kp : 0 < 128 * PI ^ 3 / ff2) by (apply Rdiv_lt_0_compat; [pose proof (pow_lt PI 3 Pp); lra|exact Hf]).
  assert (Mu : 0 < (mv / q) ^ 2) by (apply pow_lt, Rdiv_lt_0_compat; lra).
  destruct (dist_of_density mv ((q ^ 2 + mv ^ 2 - (m1 + m2) ^ 2) / (2 * q)) n (djde1 (mv, m1, m2) ff2 q) (128 * PI ^ 3 / ff2)
              (energy_density q mv m1 m2 0 (ppv_msq q mv)) (L mv (m1 + m2) ltac:(lra) ltac:(lra) ltac:(lra)) Hn Kp) as (d0 & E0 & S0).
  { intros e [He1 He2]. destruct (U mv (m1 + m2) e ltac:(lra) ltac:(lra) He2) as [U1 U2]. split; [apply djde1_pos; lra|].
    replace (128 * PI ^ 3 / ff2 * djde1 (mv, m1, m2) ff2 q e) with (128 * PI ^ 3 * djde1 (mv, m1, m2) 1 q e).
    - apply density_0; lra.
    - unfold djde1. set (r := sqrt _). clearbody r. pose proof (xx_pos q e Hq mv (m1 + m2) ltac:(lra) U2) as Hx.
      set (xx := 1 - 2 * e / q + (mv / q) ^ 2) in *. clearbody xx. set (mu := mv / q) in *.
      assert (mu <> 0) by (intro Z; rewrite Z in Mu; lra). clearbody mu. field. repeat split; lra. }
  destruct (dist_of_density m1 ((q ^ 2 + m1 ^ 2 - (mv + m2) ^ 2) / (2 * q)) n (djde2 (mv, m1, m2) q) (128 * PI ^ 3)
              (energy_density q mv m1 m2 1 (ppv_msq q mv)) (L m1 (mv + m2) ltac:(lra) ltac:(lra) ltac:(lra)) Hn
              ltac:(pose proof (pow_lt PI 3 Pp); lra)) as (d1 & E1 & S1).
  { intros e [He1 He2]. destruct (U m1 (mv + m2) e ltac:(lra) ltac:(lra) He2) as [U1 U2]. split; [apply djde2_pos; lra|].
    apply density_1; lra. }
  destruct (dist_of_density m2 ((q ^ 2 + m2 ^ 2 - (mv + m1) ^ 2) / (2 * q)) n (djde3 (mv, m1, m2) q) (/ (144 * (mv / q) ^ 2))
              (energy_density q mv m1 m2 2 (ppv_msq q mv)) (L m2 (mv + m1) ltac:(lra) ltac:(lra) ltac:(lra)) Hn
              ltac:(apply Rinv_0_lt_compat; lra)) as (d2 & E2 & S2).
  { intros e [He1 He2]. destruct (U m2 (mv + m1) e ltac:(lra) ltac:(lra) He2) as [U1 U2]. split; [apply djde3_pos; lra|].
    rewrite Rmult_comm. apply density_2; lra. }
  exists d0, d1, d2. split; [|auto].
  unfold ppv_energy_distributions, energy_limits. cbn [map fst snd].
  assert (T : total [mv; m1; m2] = mv + m1 + m2) by (unfold total; cbn [fold_left fold_right]; ring). rewrite T.
  replace (mv + m1 + m2 - mv) with (m1 + m2) by ring. replace (mv + m1 + m2 - m1) with (mv + m2) by ring.
  replace (mv + m1 + m2 - m2) with (mv + m1) by ring. rewrite E0, E1, E2. reflexivity.
Qed.

(** The width *)
Lemma ppv_width quad mv m1 m2 ff2 msqrd q :
  0 < mv -> 0 <= m1 -> 0 <= m2 -> mv + m1 + m2 < q ->
  (let lo := 2 * (mv / q) in let hi := (mv / q) ^ 2 + (1 - (m1 / q + m2 / q) ^ 2) in
   area (ppv_integrand (mv, m1, m2) q) lo hi (quad (ppv_integrand (mv, m1, m2) q) lo hi)) ->
  (forall k p1 p2, event q [mv; m1; m2] [k; p1; p2] ->
     msqrd (lnorm_sqr (vplus p1 p2)) (lnorm_sqr (vplus k p2)) = q ^ 2 * (ff2 * ppv_msq q mv k)) ->
  phase_space_width q mv m1 m2 msqrd (0.5 * q * ppv_integrated quad (mv, m1, m2) ff2 q).
Proof.
  intros Hv H1 H2 Ht A HM. cbv zeta in A. assert (Hq : 0 < q) by lra.
  assert (Q2 : 0 < q ^ 2) by (apply pow_lt; exact Hq).
  exists (fun s => dz_mid (q ^ 2) (mv ^ 2) (m1 ^ 2) (m2 ^ 2) s - dz_half (q ^ 2) (mv ^ 2) (m1 ^ 2) (m2 ^ 2) s),
    (fun s => dz_mid (q ^ 2) (mv ^ 2) (m1 ^ 2) (m2 ^ 2) s + dz_half (q ^ 2) (mv ^ 2) (m1 ^ 2) (m2 ^ 2) s),
    (fun s => q ^ 2 * ff2 * ppv_of_s q mv s * (2 * dz_half (q ^ 2) (mv ^ 2) (m1 ^ 2) (m2 ^ 2) s)).
  split.
  - intros s [Sl Su].
    assert (Hs : 0 < s) by (pose proof (pow2_ge_0 (m1 + m2)); lra).
    assert (HK : 0 < kallen_lambda s (q ^ 2) (mv ^ 2) * kallen_lambda s (m1 ^ 2) (m2 ^ 2)).
    { apply Rmult_lt_0_compat; [apply kallen_pos_below; lra|apply kallen_pos_above; lra]. }
    pose proof (half_nonneg (q ^ 2) (mv ^ 2) (m1 ^ 2) (m2 ^ 2) s Hs) as Hh.
    assert (D : forall t, dalitz q mv m1 m2 s t <->
      dz_mid (q ^ 2) (mv ^ 2) (m1 ^ 2) (m2 ^ 2) s - dz_half (q ^ 2) (mv ^ 2) (m1 ^ 2) (m2 ^ 2) s <= t
      <= dz_mid (q ^ 2) (mv ^ 2) (m1 ^ 2) (m2 ^ 2) s + dz_half (q ^ 2) (mv ^ 2) (m1 ^ 2) (m2 ^ 2) s)
      by (intro t; apply dalitz_strip; lra).
    split; [lra|]. split; [exact D|].
    eapply area_val; [|refine (area_ext (fun _ => q ^ 2 * ff2 * ppv_of_s q mv s) _ _ _ _ [] _ (area_const _ _ _))].
    + ring.
    + intros t Hti _. assert (Dt : dalitz q mv m1 m2 s t) by (apply D; lra).
      destruct Dt as (k & p1 & p2 & Ev & Es & Et).
      pose proof (HM k p1 p2 Ev) as E. rewrite <- Es, <- Et in E. rewrite E.
      rewrite (ppv_msq_of_s q mv m1 m2 k p1 p2 Hq Hv Ev), <- Es. ring.
  - unfold ppv_integrated. destruct (Rlt_dec (mv + m1 + m2) q) as [_|C]; [|lra].
    set (v := quad _ _ _) in *. clearbody v.
    pose proof PI_RGT_0 as Pp.
    assert (A' : area (fun x => (fun s => ppv_integrand (mv, m1, m2) q (1 - s / q ^ 2 + (mv / q) ^ 2)) (q ^ 2 * (1 - x + (mv / q) ^ 2)))
                   (2 * (mv / q)) ((mv / q) ^ 2 + (1 - (m1 / q + m2 / q) ^ 2)) v).
    { refine (area_ext _ _ _ _ _ [] _ A). intros x _ _. f_equal. field. lra. }
    apply area_flip in A'; [|exact Hq|].
    2:{ replace (2 * (mv / q)) with (2 * mv * q / q ^ 2) by (field; lra).
        replace ((mv / q) ^ 2 + (1 - (m1 / q + m2 / q) ^ 2)) with ((mv ^ 2 + q ^ 2 - (m1 + m2) ^ 2) / q ^ 2) by (field; lra).
        unfold Rdiv. apply Rmult_le_compat_r; [left; now apply Rinv_0_lt_compat|]. nra. }
    replace (q ^ 2 * (1 - ((mv / q) ^ 2 + (1 - (m1 / q + m2 / q) ^ 2)) + (mv / q) ^ 2)) with ((m1 + m2) ^ 2) in A' by (field; lra).
    replace (q ^ 2 * (1 - 2 * (mv / q) + (mv / q) ^ 2)) with ((q - mv) ^ 2) in A' by (field; lra).
    apply (area_scale (ff2 * q ^ 4 / (12 * mv ^ 2))) in A'.
    eapply area_val; [|refine (area_ext _ _ _ _ _ [] _ A')].
    + replace 0.5 with (1 / 2) by lra. field. repeat split; lra.
    + intros s [Sl Su] _. assert (Hs : 0 < s) by (pose proof (pow2_ge_0 (m1 + m2)); lra).
      set (e := (q ^ 2 + mv ^ 2 - s) / (2 * q)).
      assert (Es : s = q ^ 2 + mv ^ 2 - 2 * q * e) by (unfold e; field; lra).
      assert (Hx : 0 < 1 - 2 * e / q + (mv / q) ^ 2).
      { replace (1 - 2 * e / q + (mv / q) ^ 2) with (s / q ^ 2) by (rewrite Es; field; lra). now apply Rdiv_lt_0_compat. }
      pose proof (half_scaled q mv m1 m2 e Hq Hx) as Eh. cbv zeta in Eh. rewrite <- Es in Eh. rewrite Eh.
      unfold ppv_integrand, ppv_of_s.
      replace (1 - (1 - s / q ^ 2 + (mv / q) ^ 2) + (mv / q) ^ 2) with (1 - 2 * e / q + (mv / q) ^ 2) by (rewrite Es; field; lra).
      set (xx := 1 - 2 * e / q + (mv / q) ^ 2) in *. set (r := sqrt _). clearbody r.
      assert (Ex : s = q ^ 2 * xx) by (unfold xx; rewrite Es; field; lra). clearbody xx. rewrite Ex. field. repeat split; lra.
Qed.
Lemma ppv_partial_width mv m1 m2 ff2 q s : 0 < mv -> 0 <= m1 -> 0 <= m2 -> mv + m1 + m2 < q ->
  (m1 + m2) ^ 2 < s < (q - mv) ^ 2 ->
  q ^ 2 * ppv_partial (mv, m1, m2) ff2 q s
  = ff2 / (1536 * PI ^ 3 * (mv / q) ^ 2) * ppv_integrand (mv, m1, m2) q (1 - s / q ^ 2 + (mv / q) ^ 2).
Proof.
  intros Hv H1 H2 Ht [Sl Su]. assert (Hq : 0 < q) by lra. assert (Hs : 0 < s) by (pose proof (pow2_ge_0 (m1 + m2)); lra).
  assert (Q2 : 0 < q ^ 2) by (apply pow_lt; exact Hq). pose proof PI_RGT_0 as Pp.
  unfold ppv_partial, ppv_integrand.
  set (e := (q ^ 2 + mv ^ 2 - s) / (2 * q)).
  assert (Es : s = q ^ 2 + mv ^ 2 - 2 * q * e) by (unfold e; field; lra).
  assert (He : mv < e < q).
  { unfold e. split; [apply Rmult_lt_reg_r with (2 * q)|apply Rmult_lt_reg_r with (2 * q)]; try lra.
    - replace ((q ^ 2 + mv ^ 2 - s) / (2 * q) * (2 * q)) with (q ^ 2 + mv ^ 2 - s) by (field; lra). nra.
    - replace ((q ^ 2 + mv ^ 2 - s) / (2 * q) * (2 * q)) with (q ^ 2 + mv ^ 2 - s) by (field; lra). nra. }
  pose proof (kallens_pos q mv m1 m2 e Hq ltac:(lra) H1 H2 He ltac:(lra)) as K. cbv zeta in K.
  replace (1 - (1 - s / q ^ 2 + (mv / q) ^ 2) + (mv / q) ^ 2) with (1 - 2 * e / q + (mv / q) ^ 2) by (rewrite Es; field; lra).
  rewrite Rmax_left by lra. set (r := sqrt _). clearbody r.
  replace (1 - 2 * e / q + (mv / q) ^ 2) with (s / q ^ 2) by (rewrite Es; field; lra). field. repeat split; lra.
Qed.

(** Invariant masses from energies *)
Lemma etosqrts_sq q m e : 0 < q -> 2 * q * e <= q ^ 2 + m ^ 2 -> etosqrts q m e ^ 2 = q ^ 2 + m ^ 2 - 2 * q * e.
Proof.
  intros Hq H. unfold etosqrts. rewrite Rpow_mult_distr, pow2_sqrt.
  - field. lra.
  - replace (1 - 2 * e / q + (m / q) ^ 2) with ((q ^ 2 + m ^ 2 - 2 * q * e) / q ^ 2) by (field; lra).
    apply Rmult_le_pos; [lra|]. left. apply Rinv_0_lt_compat. now apply pow_lt.
Qed.
Definition inv_weight (q : R) (cp : R * R) : R := 0.5 * fst cp / q * snd cp.
Lemma inv_binned q m : 0 < q -> forall es ps, (forall e, In e es -> 2 * q * e <= q ^ 2 + m ^ 2) ->
  binned_integral (map (inv_weight q) (combine (bin_centers (map (etosqrts q m) es)) ps)) (map (etosqrts q m) es)
  = - (1 / 2) * binned_integral ps es.
Proof.
  intros Hq. unfold binned_integral, widths. induction es as [|a es IH]; intros ps H.
  - destruct ps; cbn; ring.
  - destruct es as [|b es].
    + destruct ps; cbn; ring.
    + destruct ps as [|p ps].
      * cbn [combine map bin_centers]. cbn. ring.
      * specialize (IH ps ltac:(intros e He; apply H; now right)).
        cbn [map] in *.
        change (bin_centers (etosqrts q m a :: etosqrts q m b :: map (etosqrts q m) es))
          with (0.5 * (etosqrts q m b + etosqrts q m a) :: bin_centers (etosqrts q m b :: map (etosqrts q m) es)).
        cbn [tl combine map fst snd] in *. rewrite !total_cons. cbn [tl] in IH. rewrite IH. cbn [fst snd].
        unfold inv_weight. cbn [fst snd].
        pose proof (etosqrts_sq q m a Hq (H a (or_introl eq_refl))) as Sa.
        pose proof (etosqrts_sq q m b Hq (H b (or_intror (or_introl eq_refl)))) as Sb.
        set (ga := etosqrts q m a) in *. set (gb := etosqrts q m b) in *. clearbody ga gb.
        assert (E : 0.5 * (0.5 * (gb + ga)) / q * p * (gb - ga) = - (1 / 2) * (p * (b - a))); [|lra].
        replace 0.5 with (1 / 2) by lra.
        replace (1 / 2 * (1 / 2 * (gb + ga)) / q * p * (gb - ga)) with (p * (gb ^ 2 - ga ^ 2) / (4 * q)) by (field; lra).
        rewrite Sa, Sb. field. lra.
Qed.
Lemma etosqrts_nonneg q m e : 0 < q -> 0 <= etosqrts q m e.
Proof. intros Hq. unfold etosqrts. apply Rmult_le_pos; [lra|apply sqrt_pos]. Qed.
Lemma inv_mass_half q m d ps : 0 < q -> probabilities d = Some ps -> ps <> [] -> (forall p, In p ps -> 0 <= p) ->
  length (bins d) = S (length ps) -> (forall e, In e (bins d) -> 2 * q * e <= q ^ 2 + m ^ 2) ->
  binned_integral ps (bins d) = 1 ->
  exists d' ps', ppv_invariant_mass q m d = Ret d' /\ bins d' = map (etosqrts q m) (bins d) /\ probabilities d' = Some ps'
    /\ binned_integral ps' (bins d') = - (1 / 2).
Proof.
  intros Hq Ep Hne Hp Hl Hb B. unfold ppv_invariant_mass. rewrite Ep.
  set (es := bins d) in *. set (ys := map _ (combine _ ps)).
  assert (Ly : length ys = length ps).
  { unfold ys. rewrite map_length, combine_length, centers_length, map_length. lia. }
  assert (Ny : ys <> []) by (intro E; rewrite E in Ly; destruct ps; [congruence|discriminate Ly]).
  assert (By : binned_integral ys (map (etosqrts q m) es) = - (1 / 2)).
  { change ys with (map (inv_weight q) (combine (bin_centers (map (etosqrts q m) es)) ps)). rewrite inv_binned by assumption. lra. }
  unfold dist_new. rewrite map_length.
  replace (Nat.eqb (length es) (length ys + 1)) with true by (symmetry; apply Nat.eqb_eq; lia).
  unfold normalize_distribution.
  assert (N : norm_terms (map (etosqrts q m) es) 0 ys
              = Ret (map (fun pw => fst pw * snd pw) (combine ys (widths (map (etosqrts q m) es))))).
  { apply (norm_terms_spec ys [] (map (etosqrts q m) es)). rewrite map_length. lia. }
  rewrite N. cbn [bind]. fold (binned_integral ys (map (etosqrts q m) es)). rewrite By.
  destruct (Rle_dec (- (1 / 2)) 0); [|lra].
  destruct (np_min_spec ys Ny) as (mm & Em & Hm & _). rewrite Em. cbn [bind].
  destruct (Rlt_dec mm 0) as [C|_].
  - exfalso. apply in_map_iff in Hm. destruct Hm as ([c p] & E & Hm). cbn [fst snd] in E.
    pose proof (in_combine_r _ _ _ _ Hm) as Ip. apply in_combine_l in Hm. apply In_nth_error in Hm. destruct Hm as [i Hm].
    rewrite nth_error_centers in Hm. destruct (nth_error (map (etosqrts q m) es) i) as [a|] eqn:Ea; [|discriminate].
    destruct (nth_error (map (etosqrts q m) es) (S i)) as [b|] eqn:Eb; [|discriminate].
    apply nth_error_In, in_map_iff in Ea. apply nth_error_In, in_map_iff in Eb. destruct Ea as (ea & <- & _), Eb as (eb & <- & _).
    pose proof (etosqrts_nonneg q m ea Hq). pose proof (etosqrts_nonneg q m eb Hq). injection Hm as Ec. specialize (Hp p Ip).
    assert (0 <= c) by (rewrite <- Ec; lra).
    assert (0 <= 0.5 * c / q * p); [|lra].
    apply Rmult_le_pos; [|assumption]. apply Rmult_le_pos; [lra|]. left. now apply Rinv_0_lt_compat.
  - eexists; exists ys. split; [reflexivity|]. cbn [bins probabilities]. split; [reflexivity|]. split; [reflexivity|]. exact By.
Qed.

(** * Gounaris-Sakurai *)
Section GS.
Variables m1 m2 : R.
Hypothesis H1 : 0 <= m1.
Hypothesis H2 : 0 <= m2.
Hypothesis H12 : 0 < m1 + m2.
Definition vel2 (s : R) : R := (1 - (m1 + m2) ^ 2 / s) * (1 - (m1 - m2) ^ 2 / s).
Lemma vel2_range s : (m1 + m2) ^ 2 < s -> 0 < vel2 s < 1.
Proof.
  intros H. assert (A0 : 0 < (m1 + m2) ^ 2) by (apply pow_lt; exact H12). assert (Hs : 0 < s) by lra.
  assert (B0 : 0 <= (m1 - m2) ^ 2) by apply pow2_ge_0. assert (BA : (m1 - m2) ^ 2 <= (m1 + m2) ^ 2) by nra.
  unfold vel2. set (a := (m1 + m2) ^ 2) in *. set (b := (m1 - m2) ^ 2) in *. clearbody a b.
  assert (0 < a / s) by now apply Rdiv_lt_0_compat.
  assert (a / s < 1) by (apply Rmult_lt_reg_r with s; [exact Hs|]; replace (a / s * s) with a by (field; lra); lra).
  assert (0 <= b / s) by (apply Rmult_le_pos; [lra|left; now apply Rinv_0_lt_compat]).
  assert (b / s < 1) by (apply Rmult_lt_reg_r with s; [exact Hs|]; replace (b / s * s) with b by (field; lra); lra).
  set (x := a / s) in *. set (y := b / s) in *. clearbody x y. split; nra.
Qed.
Lemma beta_vel s : (m1 + m2) ^ 2 < s -> beta s m1 m2 = sqrt (vel2 s).
Proof. intros H. unfold beta, beta2. fold (vel2 s). rewrite Rmax_left; [reflexivity|]. pose proof (vel2_range s H). lra. Qed.
Lemma beta2_vel s : (m1 + m2) ^ 2 < s -> beta2 s m1 m2 = vel2 s.
Proof. intros H. unfold beta2. fold (vel2 s). rewrite Rmax_left; [reflexivity|]. pose proof (vel2_range s H). lra. Qed.
Lemma beta_range s : (m1 + m2) ^ 2 < s -> 0 < beta s m1 m2 < 1 /\ beta s m1 m2 ^ 2 = vel2 s.
Proof.
  intros H. rewrite beta_vel by exact H. pose proof (vel2_range s H) as V. split.
  - split; [apply sqrt_lt_R0; lra|]. assert (X : sqrt (vel2 s) < sqrt 1) by (apply sqrt_lt_1_alt; lra). rewrite sqrt_1 in X. exact X.
  - apply pow2_sqrt. lra.
Qed.
Lemma dl_vel2 s : 0 < s -> derivable_pt_lim vel2 s (2 * (1 - vel2 s - (m1 ^ 2 + m2 ^ 2) / s) / s).
Proof.
  intros Hs. unfold vel2. eapply dl_val.
  - apply dl_mult.
    + apply dl_minus; [apply (dl_const 1)|]. apply dl_div; [apply (dl_const ((m1 + m2) ^ 2))|apply dl_id|lra].
    + apply dl_minus; [apply (dl_const 1)|]. apply dl_div; [apply (dl_const ((m1 - m2) ^ 2))|apply dl_id|lra].
  - unfold Rsqr. field. lra.
Qed.
Lemma dl_beta s : (m1 + m2) ^ 2 < s ->
  let v := beta s m1 m2 in
  derivable_pt_lim (fun s => beta s m1 m2) s ((1 - v ^ 2 - (m1 ^ 2 + m2 ^ 2) / s) / (s * v)).
Proof.
  intros H v. assert (A0 : 0 < (m1 + m2) ^ 2) by (apply pow_lt; exact H12).
  destruct (beta_range s H) as [V1 V2]. fold v in V1, V2.
  apply (derivable_pt_lim_locally_ext (fun s => sqrt (vel2 s)) _ s ((m1 + m2) ^ 2) (s + 1)); [lra| |].
  - intros z Hz. symmetry. apply beta_vel. lra.
  - eapply dl_val; [apply dl_sqrt; [apply dl_vel2; lra|pose proof (vel2_range s H); lra]|].
    rewrite <- (beta_vel s H). fold v. rewrite <- V2. field. lra.
Qed.

Variables mres gamma : R.
Hypothesis Hm : 0 < mres.
Hypothesis Hthr : (m1 + m2) ^ 2 < mres ^ 2.
Lemma dl_hhat : derivable_pt_lim (fun s => hhat s mres gamma m1 m2) (mres ^ 2) (dhhatds mres gamma m1 m2).
Proof.
  pose proof PI_RGT_0 as Pp.
  assert (S0 : 0 < mres ^ 2) by (apply pow_lt; exact Hm).
  destruct (beta_range (mres ^ 2) Hthr) as [V1 V2]. pose proof (dl_beta (mres ^ 2) Hthr) as D. cbv zeta in D.
  unfold hhat, dhhatds. rewrite beta2_vel by exact Hthr. rewrite <- (beta_vel (mres ^ 2) Hthr), <- V2.
  set (v := beta (mres ^ 2) m1 m2) in *. set (S := mres ^ 2) in *.
  eapply dl_val.
  { apply dl_mult.
    - apply dl_mult; [apply dl_mult; [apply (dl_const (gamma / mres / PI))|apply dl_id]|].
      apply dl_pow. apply dl_div; [exact D|apply (dl_const v)|lra].
    - apply dl_ln.
      + apply dl_div; [apply dl_plus; [apply (dl_const 1)|exact D]|apply dl_minus; [apply (dl_const 1)|exact D]|fold v; lra].
      + fold v. apply Rdiv_lt_0_compat; lra. }
  cbv beta. change (beta S m1 m2) with v.
  set (L := ln _). clearbody L. set (r := (m1 ^ 2 + m2 ^ 2) / S) in *.
  clear D. clearbody r v S. unfold Rsqr. cbn [INR pred].
  assert (1 - v ^ 2 <> 0) by nra. field. repeat split; try lra; nra.
Qed.

(** Mass and width read off the denominator *)
Lemma gs_den_value : gs_den (mres ^ 2) mres gamma m1 m2 = (0, - (mres * gamma)).
Proof.
  assert (S0 : 0 < mres ^ 2) by (apply pow_lt; exact Hm).
  unfold gs_den, hfun, gs_hres. destruct (Req_EM_T (mres ^ 2) 0); [lra|]. f_equal; [ring|].
  unfold gamma_p. rewrite beta2_vel by exact Hthr. pose proof (vel2_range (mres ^ 2) Hthr) as V.
  replace (vel2 (mres ^ 2) / vel2 (mres ^ 2)) with 1 by (field; lra). rewrite Rmax_left by lra.
  rewrite sqrt_1, sqrt_pow2 by lra. field. lra.
Qed.
Lemma gs_den_slope : derivable_pt_lim (fun s => fst (gs_den s mres gamma m1 m2)) (mres ^ 2) (-1).
Proof.
  assert (S0 : 0 < mres ^ 2) by (apply pow_lt; exact Hm). pose proof dl_hhat as D.
  apply (derivable_pt_lim_locally_ext
    (fun s => mres ^ 2 - s + (hhat s mres gamma m1 m2 - gs_hres mres gamma m1 m2 - (s - mres ^ 2) * gs_dh mres gamma m1 m2))
    _ (mres ^ 2) 0 (mres ^ 2 + 1)); [lra| |].
  - intros z Hz. unfold gs_den, hfun. cbn [fst]. destruct (Req_EM_T z 0); [lra|reflexivity].
  - eapply dl_val.
    + apply dl_plus; [apply dl_minus; [apply (dl_const (mres ^ 2))|apply dl_id]|].
      apply dl_minus; [apply dl_minus; [exact D|apply (dl_const (gs_hres mres gamma m1 m2))]|].
      apply dl_mult; [apply dl_minus; [apply dl_id|apply (dl_const (mres ^ 2))]|apply (dl_const (gs_dh mres gamma m1 m2))].
    + unfold gs_dh. ring.
Qed.
End GS.
Lemma gs_den_zero mres gamma m1 m2 : gs_den 0 mres gamma m1 m2 = (gs_num mres gamma m1 m2, 0).
Proof.
  unfold gs_den, gs_num, gs_h0. f_equal; [ring|]. rewrite sqrt_0. ring.
Qed.
(** For equal masses the function is not continuous at zero *)
Lemma gs_den_jump mres gamma m s : 0 < s <= (m + m) ^ 2 ->
  fst (gs_den s mres gamma m m) - gs_num mres gamma m m
  = 2 * (m + m) ^ 2 * gamma / (PI * mres * beta (mres ^ 2) m m ^ 3) - s * (1 + dhhatds mres gamma m m).
Proof.
  intros [Hs Hl]. unfold gs_den, gs_num, gs_h0. cbn [fst]. unfold hfun at 1. destruct (Req_EM_T s 0); [lra|].
  unfold hfun. destruct (Req_EM_T 0 0) as [_|C]; [|lra].
  assert (Hh : hhat s mres gamma m m = 0).
  { unfold hhat. assert (B : beta s m m = 0).
    { unfold beta, beta2. rewrite Rmax_right; [apply sqrt_0|].
      replace (m - m) with 0 by ring. replace (1 - 0 ^ 2 / s) with 1 by (field; lra). rewrite Rmult_1_r.
      assert (1 <= (m + m) ^ 2 / s); [|lra]. apply Rmult_le_reg_r with s; [exact Hs|].
      replace ((m + m) ^ 2 / s * s) with ((m + m) ^ 2) by (field; lra). lra. }
    rewrite B. unfold Rdiv. ring. }
  rewrite Hh. unfold gs_dh. set (dh := dhhatds _ _ _ _). set (b := beta _ _ _ ^ 3). unfold Rdiv.
  rewrite !Rinv_mult. ring.
Qed.

(** * The running coupling *)
Lemma atan_le y : 0 < y -> atan y <= y.
Proof.
  intros Hy. destruct (MVT_cor2 atan (fun c => / (1 + c ^ 2)) 0 y Hy) as (c & E & Hc).
  - intros c _. apply derivable_pt_lim_atan.
  - rewrite atan_0 in E. assert (/ (1 + c ^ 2) <= 1).
    { rewrite <- Rinv_1. apply Rinv_le_contravar; [lra|]. pose proof (pow2_ge_0 c). lra. }
    nra.
Qed.
Lemma real_pi_heavy r : 10 ^ 6 < r -> exists f, real_pi r = Some f /\ - 0.7 <= f <= 1.4.
Proof.
  intros Hr. assert (Hr' : 1000000 < r) by (replace (10 ^ 6) with 1000000 in Hr by ring; exact Hr).
  assert (Hi : 0 < / r < / 1000000) by (split; [apply Rinv_0_lt_compat; lra|apply Rinv_lt_contravar; lra]).
  set (x := 1 - 1 / (2 * r)). assert (Ex : x = 1 - / r / 2) by (unfold x; field; lra).
  assert (Hx : 0.999 < x < 1) by (rewrite Ex; lra).
  unfold real_pi. destruct (Rlt_dec r (1 / 1000)); [lra|]. destruct (Rlt_dec (10 ^ 6) r); [|contradiction].
  unfold osqrt. destruct (Rlt_dec (4 * r - 1) 0); [lra|]. cbn [obind].
  unfold oacos. fold x. destruct (Rle_dec (Rabs x) 1) as [_|C].
  2:{ exfalso. apply C. rewrite Rabs_right; lra. }
  cbn [obind]. eexists. split; [reflexivity|].
  assert (B2 : 0 <= 4 * r - 1) by lra. pose proof (pow2_sqrt _ B2) as Sb. pose proof (sqrt_pos (4 * r - 1)) as Pb.
  set (b := sqrt (4 * r - 1)) in *.
  assert (Bp : 0 < b) by (destruct (Req_dec b 0) as [Z|]; [rewrite Z in Sb|]; lra).
  set (w := sqrt (1 - x ^ 2)).
  assert (Ew : w = b / (2 * r)).
  { unfold w. replace (1 - x ^ 2) with ((b / (2 * r)) ^ 2).
    - apply sqrt_pow2. apply Rmult_le_pos; [lra|left; apply Rinv_0_lt_compat; lra].
    - unfold Rdiv. rewrite Rpow_mult_distr, Sb, Ex. field. lra. }
  assert (Wp : 0 < w) by (rewrite Ew; apply Rdiv_lt_0_compat; lra).
  assert (Ea : acos x = atan (w / x)).
  { rewrite acos_atan by lra. f_equal. f_equal. unfold w. f_equal. unfold Rsqr. ring. }
  assert (U : acos x <= w / x) by (rewrite Ea; apply atan_le; apply Rdiv_lt_0_compat; lra).
  assert (L : w <= acos x).
  { assert (Es : sin (acos x) = w) by (rewrite sin_acos by lra; unfold w; f_equal; unfold Rsqr; ring).
    rewrite <- Es. left. apply sin_lt_x. rewrite Ea. apply Rle_lt_trans with (atan 0); [rewrite atan_0; lra|].
    apply atan_increasing. apply Rdiv_lt_0_compat; lra. }
  set (a := acos x) in *.
  assert (Lo : 2 - / r / 2 <= b * a).
  { apply Rle_trans with (b * w); [|apply Rmult_le_compat_l; lra]. rewrite Ew.
    replace (b * (b / (2 * r))) with (b ^ 2 / (2 * r)) by (field; lra). rewrite Sb. right. field. lra. }
  assert (Hi' : b * a <= 2 + 1 / (2 * r - 1)).
  { apply Rle_trans with (b * (w / x)); [apply Rmult_le_compat_l; lra|]. rewrite Ew, Ex.
    replace (b * (b / (2 * r) / (1 - / r / 2))) with (b ^ 2 / (2 * r - 1)) by (field; lra). rewrite Sb. right. field. lra. }
  clearbody a b w x. set (d := b * a) in *. clearbody d. split.
  - assert ((1 + 2 * r) * (2 - d) <= (1 + 2 * r) * (/ r / 2)) by (apply Rmult_le_compat_l; lra).
    replace ((1 + 2 * r) * (/ r / 2)) with (1 + / r / 2) in H by (field; lra). lra.
  - assert ((1 + 2 * r) * (- (1 / (2 * r - 1))) <= (1 + 2 * r) * (2 - d)) by (apply Rmult_le_compat_l; lra).
    replace ((1 + 2 * r) * (- (1 / (2 * r - 1)))) with (- (1 + 2 * (1 / (2 * r - 1)))) in H by (field; lra).
    assert (1 / (2 * r - 1) < 1 / 1000000).
    { unfold Rdiv. rewrite !Rmult_1_l. apply Rinv_lt_contravar; [apply Rmult_lt_0_compat; lra|lra]. }
    lra.
Qed.
Lemma real_pi_light r : 1 / 1000 <= r <= 10 ^ 6 -> 1 < 4 * r -> real_pi r = Some 0.
Proof.
  intros [H1 H2] H3. unfold real_pi. destruct (Rlt_dec r (1 / 1000)); [lra|].
  destruct (Rlt_dec (10 ^ 6) r); [lra|]. destruct (Rlt_dec 1 (4 * r)); [reflexivity|lra].
Qed.
(** Above the threshold nothing runs *)
Lemma alpha_em_const s : 1 / 10 ^ 6 <= s -> alpha_em s = Some alem.
Proof.
  intros H. unfold alpha_em. destruct (Rlt_dec s (1 / 10 ^ 6)); [lra|]. cbn [obind]. unfold odiv.
  destruct (Req_EM_T (1 - 0) 0); [lra|]. f_equal. field.
Qed.
Lemma alpha_em_small : exists a, alpha_em (1 / 2000000) = Some a /\ alem * 1.0003 < a.
Proof.
  unfold alpha_em. set (s := 1 / 2000000). assert (Hs : 0 < s) by (unfold s; lra).
  destruct (Rlt_dec s (1 / 10 ^ 6)) as [_|C]; [|exfalso; apply C; unfold s; lra].
  unfold odiv at 1. destruct (Req_EM_T s 0); [lra|]. cbn [obind].
  rewrite real_pi_light by (unfold alpha_m_e, s; try split; lra). cbn [obind].
  unfold odiv at 1. destruct (Req_EM_T s 0); [lra|]. cbn [obind].
  rewrite real_pi_light by (unfold alpha_m_mu, s; try split; lra). cbn [obind].
  unfold odiv at 1. destruct (Req_EM_T s 0); [lra|]. cbn [obind].
  destruct (real_pi_heavy (alpha_m_tau ^ 2 / s)) as (ft & -> & Ft); [unfold alpha_m_tau, s; lra|]. cbn [obind].
  assert (Hh : exists h, piecewise s
          [(9 / 100, hadronic 0 (835 / 10 ^ 5) 1); (9, hadronic 0 (238 / 10 ^ 5) (3927 / 1000));
           (10 ^ 4, hadronic (165 / 10 ^ 5) (299 / 10 ^ 5) 1)]
          (hadronic (221 / 10 ^ 5) (293 / 10 ^ 5) 1) = Some h /\ 165 / 10 ^ 5 <= h <= 1 / 100).
  { unfold piecewise. cbn [fold_left fst snd].
    destruct (Rlt_dec s (10 ^ 4)) as [_|C]; [|exfalso; apply C; unfold s; lra]. unfold hadronic, oln.
    destruct (Rlt_dec 0 (1 + 1 * s)); [|lra]. cbn [obind]. eexists. split; [reflexivity|].
    assert (0 < ln (1 + 1 * s)) by (rewrite <- ln_1; apply ln_increasing; lra).
    assert (ln (1 + 1 * s) < 1 + 1 * s) by (pose proof (exp_ineq1 (ln (1 + 1 * s))); rewrite exp_ln in H0 by lra; lra).
    assert (s < 1) by (unfold s; lra). split; lra. }
  destruct Hh as (h & -> & Hh). cbn [obind].
  unfold odiv at 1. destruct (Req_EM_T s 0); [lra|]. cbn [obind].
  destruct (real_pi_heavy (alpha_m_top ^ 2 / s)) as (fq & -> & Fq); [unfold alpha_m_top, s; lra|]. cbn [obind].
  set (ap := alem / (3 * PI)). 
  assert (Ap : 0 < ap < 0.0009).
  { pose proof PI2_3_2 as P3. pose proof PI_RGT_0. unfold ap, alem. split; [apply Rdiv_lt_0_compat; lra|].
    apply Rmult_lt_reg_r with (3 * PI); [lra|]. unfold Rdiv. rewrite Rmult_assoc, Rinv_l by lra. lra. }
  set (rep := ap * (0 + 0 + ft) + h + ap * fq).
  assert (-0.7 * ap <= ap * ft <= 1.4 * ap) by (split; nra). assert (-0.7 * ap <= ap * fq <= 1.4 * ap) by (split; nra).
  assert (Rp : 0.00035 <= rep <= 0.02) by (unfold rep; lra). clearbody rep.
  unfold odiv. destruct (Req_EM_T (1 - rep) 0); [lra|]. eexists. split; [reflexivity|].
  assert (0 < alem) by (unfold alem; lra).
  apply Rmult_lt_reg_r with (1 - rep); [lra|]. replace (alem / (1 - rep) * (1 - rep)) with alem by (field; lra). nra.
Qed.
Lemma alpha_em_zero : alpha_em 0 = None.
Proof.
  unfold alpha_em. destruct (Rlt_dec 0 (1 / 10 ^ 6)) as [_|C]; [|exfalso; apply C; lra].
  unfold odiv at 1. destruct (Req_EM_T 0 0) as [_|C]; [|congruence]. reflexivity.
Qed.

(** * Calling the two-body form factors *)
Lemma scatter_filter {A} (zero : A) keep (g : R -> A) xs :
  scatter zero keep xs (map g (filter keep xs)) = Ret (map (fun x => if keep x then g x else zero) xs).
Proof.
  induction xs as [|x xs IH]; [reflexivity|]. cbn [scatter filter map]. destruct (keep x); cbn [map]; rewrite IH; reflexivity.
Qed.
Lemma filter_map {A B} (f : A -> B) p l : filter p (map f l) = map f (filter (fun x => p (f x)) l).
Proof. induction l as [|a l IH]; [reflexivity|]. cbn [map filter]. destruct (p (f a)); cbn [map]; now rewrite IH. Qed.
Lemma above_true thr q : above thr q = true <-> thr < q.
Proof. unfold above. destruct (Rlt_dec thr q); split; intros; try assumption; try reflexivity; try discriminate; lra. Qed.
Lemma above_gev thr q : above (1 / 1000 * thr) (q * (1 / 1000)) = above thr q.
Proof. unfold above. destruct (Rlt_dec (1 / 1000 * thr) (q * (1 / 1000))), (Rlt_dec thr q); try reflexivity; lra. Qed.
Section Calls.
Variable M : vff_masses.
Variable core : two_body_state -> R -> cplx.
Variables kk_rest kk_phi : R -> cplx.
(** The form factor at [q] MeV as an array call returns it *)
Definition ff_at (st : two_body_state) (q : R) : cplx :=
  if above (tb_threshold M st) q then cscale (scale_array st) (cscale (scale_inside st) (core st (q * (1 / 1000)))) else (0, 0).
Lemma cscale_zero a : cscale a (0, 0) = (0, 0).
Proof. unfold cscale. cbn [fst snd]. f_equal; ring. Qed.
Lemma ff_masked_map st qs : st <> S_K0K0 ->
  ff_masked M core kk_rest kk_phi st qs
  = Ret (map (fun q => if above (tb_threshold M st) q then cscale (scale_inside st) (core st (q * (1 / 1000))) else (0, 0)) qs).
Proof.
  intros H. unfold ff_masked.
  assert (E : forall l, core_array core kk_rest kk_phi st l = map (core st) l) by (intro l; destruct st; try reflexivity; congruence).
  rewrite E, map_map, (scatter_filter _ _ (fun x => cscale (scale_inside st) (core st x))), map_map.
  f_equal. apply map_ext. intro q. rewrite above_gev. reflexivity.
Qed.
Lemma form_factor_array st l : st <> S_K0K0 ->
  form_factor M core kk_rest kk_phi st (Array l) = Ret (CArray (map (ff_at st) l)).
Proof.
  intros H. unfold form_factor. rewrite ff_masked_map by exact H. cbn [bind]. rewrite map_map. do 2 f_equal. apply map_ext.
  intro q. unfold ff_at. destruct (above _ q); [reflexivity|]. apply cscale_zero.
Qed.
Lemma form_factor_scalar st x : st <> S_K0K0 ->
  form_factor M core kk_rest kk_phi st (Scalar x) = Ret (CScalar (cscale (/ scale_array st) (ff_at st x))).
Proof.
  intros H. unfold form_factor. rewrite ff_masked_map by exact H. cbn [bind map]. do 2 f_equal.
  unfold ff_at. destruct (above _ x); [|symmetry; apply cscale_zero].
  set (z := cscale (scale_inside st) _). clearbody z. destruct z as [a b]. unfold cscale. cbn [fst snd].
  destruct st; cbn [scale_array]; f_equal; field.
Qed.
Definition iff_at (st : two_body_state) (q : R) : R :=
  two_body_phase_space_prefactor q (fst (tb_masses M st)) (snd (tb_masses M st)) * tb_lorentz M st q * cabs2 (ff_at st q).
Lemma iff_array_map st l : st <> S_K0K0 -> iff_array M core kk_rest kk_phi st l = Ret (map (iff_at st) l).
Proof.
  intros H. unfold iff_array, integrated_form_factor. rewrite form_factor_array by exact H.
  destruct (tb_masses M st) as [m1 m2] eqn:Em. cbn [bind]. f_equal.
  unfold iff_at. rewrite Em. cbn [fst snd]. induction l as [|x l IH]; [reflexivity|]. cbn [map combine fst snd]. now rewrite IH.
Qed.
Lemma cabs2_scale a z : cabs2 (cscale a z) = a ^ 2 * cabs2 z.
Proof. unfold cabs2, cscale. cbn [fst snd]. ring. Qed.
Lemma iff_scalar st x : st <> S_K0K0 ->
  integrated_form_factor M core kk_rest kk_phi st (Scalar x) = Ret (Scalar ((/ scale_array st) ^ 2 * iff_at st x)).
Proof.
  intros H. unfold integrated_form_factor. rewrite form_factor_scalar by exact H.
  destruct (tb_masses M st) as [m1 m2] eqn:Em. cbn [bind]. unfold iff_at. rewrite Em, cabs2_scale. cbn [fst snd]. do 2 f_equal. ring.
Qed.
Definition width_at (st : two_body_state) (q : R) : R :=
  if above (tb_threshold M st) q then 0.5 * q * iff_at st q else 0.
Lemma width_array st l : st <> S_K0K0 -> tb_width M core kk_rest kk_phi st (Array l) = Ret (Array (map (width_at st) l)).
Proof.
  intros H. unfold tb_width, base_width, base_width_array.
  assert (E : forall kept, map (fun qj : R * R => 0.5 * fst qj * snd qj) (combine kept (map (iff_at st) kept))
              = map (fun q => 0.5 * q * iff_at st q) kept).
  { induction kept as [|q kept IH]; [reflexivity|]. cbn [map combine fst snd]. now rewrite IH. }
  destruct (filter (above (tb_threshold M st)) l) as [|k r] eqn:Ef.
  - cbn [bind]. do 2 f_equal. apply map_ext_in. intros q Hq. unfold width_at.
    destruct (above (tb_threshold M st) q) eqn:Ea; [|reflexivity].
    assert (X : In q (filter (above (tb_threshold M st)) l)) by (apply filter_In; split; assumption). rewrite Ef in X. destruct X.
  - rewrite iff_array_map by exact H. cbn [bind]. rewrite E, <- Ef, scatter_filter. reflexivity.
Qed.
Lemma width_scalar st x : st <> S_K0K0 -> tb_width M core kk_rest kk_phi st (Scalar x) = Ret (Scalar (width_at st x)).
Proof.
  intros H. pose proof (width_array st [x] H) as A. unfold tb_width, base_width in *.
  destruct (base_width_array _ _ [x]) as [w|e]; cbn [bind] in *; [|discriminate]. injection A as ->. reflexivity.
Qed.
(** The squared matrix element over q^2 |F|^2, from the momenta *)
Definition tb_contracted (st : two_body_state) (q : R) (p1 p2 : vec) : R :=
  match st with
  | S_PiPi | S_Pi0Pi0 | S_KK | S_K0K0 => contracted (q ^ 2) (current_pp p1 p2)
  | S_PiGamma | S_EtaGamma => contracted_pol (q ^ 2) p2 0 (current_pv (vplus p1 p2) p2)
  | S_PiPhi | S_EtaPhi | S_EtaOmega | S_PiOmega =>
      contracted_pol (q ^ 2) p2 (1 / snd (tb_masses M st) ^ 2) (current_pv (vplus p1 p2) p1)
  end.
Lemma event2 q m1 m2 p1 p2 : event q [m1; m2] [p1; p2] -> on_shell m1 p1 /\ on_shell m2 p2 /\ vplus p1 p2 = V4 q 0 0 0.
Proof.
  intros [F E]. inversion F as [|? ? ? ? S1 F1]; subst. inversion F1 as [|? ? ? ? S2 F2]; subst.
  split; [exact S1|]. split; [exact S2|]. rewrite <- E, !vsum_cons. apply vec_eq; cbn [vplus vsum fold_right en px py pz]; ring.
Qed.
Definition masses_positive : Prop :=
  0 < v_mpi M /\ 0 < v_mpi0 M /\ 0 < v_mk M /\ 0 < v_mk0 M /\ 0 < v_meta M /\ 0 < v_momega M /\ 0 < v_mphi M.
Lemma tb_lorentz_contracted st q p1 p2 : masses_positive -> 0 < q ->
  event q [fst (tb_masses M st); snd (tb_masses M st)] [p1; p2] -> tb_lorentz M st q = tb_contracted st q p1 p2.
Proof.
  intros (P1 & P2 & P3 & P4 & P5 & P6 & P7) Hq Ev. apply event2 in Ev. destruct Ev as (S1 & S2 & E).
  apply shell_mass in S1. apply shell_mass in S2.
  assert (Sq : mass_shell (vplus p1 p2) q) by (unfold mass_shell; rewrite E, mdot_eq; cbn [en px py pz]; ring).
  destruct st; cbn [tb_masses fst snd tb_lorentz tb_contracted] in *;
    first [now apply pp_contracted|now apply pa_contracted|now apply pv_contracted].
Qed.
Lemma prefactor_momentum q m1 m2 p1 p2 : 0 < q -> 0 <= m1 -> 0 <= m2 -> event q [m1; m2] [p1; p2] ->
  0.5 * q * two_body_phase_space_prefactor q m1 m2 = sqrt (px p1 ^ 2 + py p1 ^ 2 + pz p1 ^ 2) / (8 * PI).
Proof.
  intros Hq H1 H2 Ev. apply event2 in Ev. destruct Ev as ([S1 _] & [S2 _] & E).
  pose proof (f_equal en E) as Ee. pose proof (f_equal px E) as Ex. pose proof (f_equal py E) as Ey. pose proof (f_equal pz E) as Ez.
  cbn [vplus en px py pz] in Ee, Ex, Ey, Ez.
  set (n := px p1 ^ 2 + py p1 ^ 2 + pz p1 ^ 2) in *.
  assert (Hn : 0 <= n) by (unfold n; pose proof (pow2_ge_0 (px p1)); pose proof (pow2_ge_0 (py p1)); pose proof (pow2_ge_0 (pz p1)); lra).
  assert (N2 : px p2 ^ 2 + py p2 ^ 2 + pz p2 ^ 2 = n).
  { replace (px p2) with (- px p1) by lra. replace (py p2) with (- py p1) by lra. replace (pz p2) with (- pz p1) by lra. unfold n. ring. }
  assert (K : kallen_lambda (q ^ 2) (m1 ^ 2) (m2 ^ 2) = (2 * q) ^ 2 * n).
  { assert (E1 : en p1 ^ 2 = n + m1 ^ 2) by lra. assert (E2 : en p2 ^ 2 = n + m2 ^ 2) by lra.
    replace (m1 ^ 2) with (en p1 ^ 2 - n) by lra. replace (m2 ^ 2) with (en p2 ^ 2 - n) by lra.
    rewrite <- Ee. unfold kallen_lambda. ring. }
  unfold two_body_phase_space_prefactor. rewrite K.
  rewrite Rmax_left by (apply Rmult_le_pos; [apply pow2_ge_0|exact Hn]).
  rewrite sqrt_mult_alt by apply pow2_ge_0. rewrite sqrt_pow2 by lra. pose proof PI_RGT_0.
  replace 0.5 with (1 / 2) by lra. field. lra.
Qed.
Lemma width_at_events st q p1 p2 : masses_positive -> tb_threshold M st < q ->
  event q [fst (tb_masses M st); snd (tb_masses M st)] [p1; p2] ->
  width_at st q = sqrt (px p1 ^ 2 + py p1 ^ 2 + pz p1 ^ 2) / (8 * PI) * (cabs2 (ff_at st q) * tb_contracted st q p1 p2).
Proof.
  intros Hm Ht Ev. pose proof Hm as (P1 & P2 & P3 & P4 & P5 & P6 & P7).
  assert (N1 : 0 <= fst (tb_masses M st)) by (destruct st; cbn; lra).
  assert (N2 : 0 <= snd (tb_masses M st)) by (destruct st; cbn; lra).
  assert (Hq : 0 < q) by (unfold tb_threshold in Ht; lra).
  unfold width_at. replace (above (tb_threshold M st) q) with true by (symmetry; now apply above_true).
  unfold iff_at. rewrite <- (prefactor_momentum q _ _ p1 p2 Hq N1 N2 Ev), <- (tb_lorentz_contracted st q p1 p2 Hm Hq Ev). ring.
Qed.
End Calls.
