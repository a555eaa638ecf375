(** Lemmas about the RAMBO model. *)
From Coq Require Import Reals Lra Psatz Lia Arith ZArith Bool List.
From Verif Require Import PyBase RamboModel.
Import ListNotations.
Local Open Scope R_scope.

(** ** Specification vocabulary *)
Definition massless (p : vec) : Prop := en p ^ 2 = px p ^ 2 + py p ^ 2 + pz p ^ 2.
Definition on_shell (m : R) (p : vec) : Prop := en p ^ 2 = px p ^ 2 + py p ^ 2 + pz p ^ 2 + m ^ 2 /\ m <= en p.
Definition timelike (p : vec) : Prop := 0 < en p /\ px p ^ 2 + py p ^ 2 + pz p ^ 2 < en p ^ 2.
Definition at_rest (p : vec) : Prop := px p = 0 /\ py p = 0 /\ pz p = 0.

(** ** Initial momenta *)
Lemma initial_massless rho1 rho2 rho3 rho4 : 0 <= rho1 <= 1 -> 0 < rho3 < 1 -> 0 < rho4 < 1 ->
  massless (initial_momentum (rho1, rho2, rho3, rho4)) /\ 0 < en (initial_momentum (rho1, rho2, rho3, rho4)).
Proof.
  intros H1 H3 H4. unfold massless, initial_momentum. cbn [en px py pz]. split.
  - set (e := - ln (rho3 * rho4)). set (c := 2 * rho1 - 1). set (phi := 2 * PI * rho2).
    assert (Hs : sqrt (1 - c ^ 2) ^ 2 = 1 - c ^ 2) by (apply pow2_sqrt; unfold c; nra).
    assert (Ht : cos phi ^ 2 + sin phi ^ 2 = 1) by (pose proof (sin2_cos2 phi) as T; unfold Rsqr in T; nra).
    replace ((e * sqrt (1 - c ^ 2) * cos phi) ^ 2 + (e * sqrt (1 - c ^ 2) * sin phi) ^ 2 + (e * c) ^ 2)
      with (e ^ 2 * (sqrt (1 - c ^ 2) ^ 2 * (cos phi ^ 2 + sin phi ^ 2) + c ^ 2)) by ring.
    rewrite Hs, Ht. ring.
  - enough (ln (rho3 * rho4) < 0) by lra. rewrite <- ln_1. apply ln_increasing; nra.
Qed.

(** ** The boost *)
(** A linear map commutes with the sum. *)
Definition linear (f : vec -> vec) : Prop := f (V4 0 0 0 0) = V4 0 0 0 0 /\ forall a b, f (vplus a b) = vplus (f a) (f b).
Lemma vsum_linear f ps : linear f -> vsum (map f ps) = f (vsum ps).
Proof.
  intros [H0 H1]. induction ps as [|p ps IH]; cbn [map vsum fold_right]; [now rewrite H0|].
  change (fold_right vplus (V4 0 0 0 0) (map f ps)) with (vsum (map f ps)). rewrite IH, <- H1. reflexivity.
Qed.

(** The map applied to every momentum, in terms of the total momentum [s] and its mass [M]. *)
Definition bmap (q : R) (s : vec) (M : R) (p : vec) : vec :=
  let inv_mass := 1 / M in
  let bx := - inv_mass * px s in
  let by' := - inv_mass * py s in
  let bz := - inv_mass * pz s in
  let x := q * inv_mass in
  let g := en s * inv_mass in
  let a := 1 / (1 + g) in
  let bdotp := bx * px p + by' * py p + bz * pz p in
  let fact := a * bdotp + en p in
  V4 (x * (g * en p + bdotp)) (x * (fact * bx + px p)) (x * (fact * by' + py p)) (x * (fact * bz + pz p)).
Lemma boost_map q ps :
  boost q ps = map (bmap q (vsum ps)
    (sqrt (en (vsum ps) ^ 2 - px (vsum ps) ^ 2 - py (vsum ps) ^ 2 - pz (vsum ps) ^ 2))) ps.
Proof. reflexivity. Qed.
Lemma bmap_linear q s M : linear (bmap q s M).
Proof. split; [|intros a b]; unfold bmap, vplus; cbn [en px py pz]; f_equal; ring. Qed.

Section Boost.
Variables (q : R) (s : vec) (M : R).
Hypothesis HM : 0 < M.
Hypothesis HM2 : M ^ 2 = en s ^ 2 - px s ^ 2 - py s ^ 2 - pz s ^ 2.
Hypothesis Hs : 0 < en s.
Hypothesis Hq : 0 < q.

(** Unit four-velocity. *)
Let g := en s / M.
Let bx := - (px s / M).
Let by' := - (py s / M).
Let bz := - (pz s / M).
Lemma four_velocity : g ^ 2 = 1 + bx ^ 2 + by' ^ 2 + bz ^ 2 /\ 0 < g.
Proof.
  split.
  - unfold g, bx, by', bz. apply (Rmult_eq_reg_r (M ^ 2)); [|nra]. 
    replace ((en s / M) ^ 2 * M ^ 2) with (en s ^ 2) by (field; lra).
    replace ((1 + (- (px s / M)) ^ 2 + (- (py s / M)) ^ 2 + (- (pz s / M)) ^ 2) * M ^ 2)
      with (M ^ 2 + px s ^ 2 + py s ^ 2 + pz s ^ 2) by (field; lra). lra.
  - unfold g. apply Rdiv_lt_0_compat; lra.
Qed.
Lemma bmap_unit p : bmap q s M p =
  let b := bx * px p + by' * py p + bz * pz p in
  let f := b / (1 + g) + en p in
  let x := q / M in
  V4 (x * (g * en p + b)) (x * (f * bx + px p)) (x * (f * by' + py p)) (x * (f * bz + pz p)).
Proof.
  destruct four_velocity as [_ Hg]. unfold bmap. cbn zeta.
  replace (- (1 / M) * px s) with bx by (unfold bx; field; lra).
  replace (- (1 / M) * py s) with by' by (unfold by'; field; lra).
  replace (- (1 / M) * pz s) with bz by (unfold bz; field; lra).
  replace (en s * (1 / M)) with g by (unfold g; field; lra).
  replace (q * (1 / M)) with (q / M) by (field; lra).
  replace (1 / (1 + g) * (bx * px p + by' * py p + bz * pz p))
    with ((bx * px p + by' * py p + bz * pz p) / (1 + g)) by (field; lra). reflexivity.
Qed.

(** The invariant square is scaled. *)
Lemma bmap_norm p :
  en (bmap q s M p) ^ 2 - px (bmap q s M p) ^ 2 - py (bmap q s M p) ^ 2 - pz (bmap q s M p) ^ 2
  = (q / M) ^ 2 * (en p ^ 2 - px p ^ 2 - py p ^ 2 - pz p ^ 2).
Proof.
  rewrite bmap_unit. cbn zeta. destruct four_velocity as [Hg Hg0]. clearbody g bx by' bz.
  set (x := q / M). clearbody x. cbn [en px py pz].
  set (b := bx * px p + by' * py p + bz * pz p).
  set (k := b / (1 + g)).
  assert (Hk : b = k * (1 + g)) by (unfold k; field; lra).
  replace ((x * (g * en p + b)) ^ 2 - (x * ((k + en p) * bx + px p)) ^ 2 - (x * ((k + en p) * by' + py p)) ^ 2
           - (x * ((k + en p) * bz + pz p)) ^ 2)
    with (x ^ 2 * ((g * en p + b) ^ 2 - (k + en p) ^ 2 * (bx ^ 2 + by' ^ 2 + bz ^ 2)
                   - 2 * (k + en p) * (bx * px p + by' * py p + bz * pz p)
                   - (px p ^ 2 + py p ^ 2 + pz p ^ 2))) by ring.
  fold b. replace (bx ^ 2 + by' ^ 2 + bz ^ 2) with (g ^ 2 - 1) by lra.
  replace (en p ^ 2 - px p ^ 2 - py p ^ 2 - pz p ^ 2) with (en p ^ 2 - (px p ^ 2 + py p ^ 2 + pz p ^ 2)) by ring.
  f_equal. rewrite Hk. ring.
Qed.

(** Energies stay non-negative. *)
Lemma bmap_energy p : massless p -> 0 <= en p -> 0 <= en (bmap q s M p).
Proof.
  intros Hp He. rewrite bmap_unit. cbn zeta. cbn [en]. destruct four_velocity as [Hg Hg0]. clearbody g bx by' bz.
  apply Rmult_le_pos; [apply Rlt_le, Rdiv_lt_0_compat; assumption|].
  set (b := bx * px p + by' * py p + bz * pz p).
  assert (Hb : b ^ 2 <= (g * en p) ^ 2).
  { unfold massless in Hp. replace ((g * en p) ^ 2) with (g ^ 2 * en p ^ 2) by ring. rewrite Hg, Hp.
    unfold b.
    pose proof (pow2_ge_0 (bx * py p - by' * px p)). pose proof (pow2_ge_0 (bx * pz p - bz * px p)).
    pose proof (pow2_ge_0 (by' * pz p - bz * py p)).
    pose proof (pow2_ge_0 (px p)). pose proof (pow2_ge_0 (py p)). pose proof (pow2_ge_0 (pz p)). nra. }
  assert (0 <= g * en p) by (apply Rmult_le_pos; lra).
  destruct (Rle_dec 0 (g * en p + b)); [assumption|]. exfalso. nra.
Qed.
Lemma bmap_energy_pos p : massless p -> 0 < en p -> 0 < en (bmap q s M p).
Proof.
  intros Hp He. rewrite bmap_unit. cbn zeta. cbn [en]. destruct four_velocity as [Hg Hg0]. clearbody g bx by' bz.
  apply Rmult_lt_0_compat; [apply Rdiv_lt_0_compat; assumption|].
  set (b := bx * px p + by' * py p + bz * pz p).
  assert (Hb : b ^ 2 < (g * en p) ^ 2).
  { unfold massless in Hp. assert (0 < en p ^ 2) by nra.
    replace ((g * en p) ^ 2) with (g ^ 2 * en p ^ 2) by ring. rewrite Hg, Hp. rewrite Hp in H. unfold b.
    pose proof (pow2_ge_0 (bx * py p - by' * px p)). pose proof (pow2_ge_0 (bx * pz p - bz * px p)).
    pose proof (pow2_ge_0 (by' * pz p - bz * py p)). nra. }
  assert (0 <= g * en p) by (apply Rmult_le_pos; lra).
  destruct (Rlt_dec 0 (g * en p + b)); [assumption|]. exfalso. nra.
Qed.

(** The total momentum goes to rest with energy q. *)
Lemma bmap_total : bmap q s M s = V4 q 0 0 0.
Proof.
  rewrite bmap_unit. cbn zeta. destruct four_velocity as [Hg Hg0].
  assert (Ep : px s = - bx * M) by (unfold bx; field; lra).
  assert (Eq : py s = - by' * M) by (unfold by'; field; lra).
  assert (Er : pz s = - bz * M) by (unfold bz; field; lra).
  assert (Ee : en s = g * M) by (unfold g; field; lra).
  rewrite Ep, Eq, Er, Ee. clearbody g bx by' bz.
  assert (B : bx * (- bx * M) + by' * (- by' * M) + bz * (- bz * M) = (1 - g ^ 2) * M).
  { replace (bx * (- bx * M) + by' * (- by' * M) + bz * (- bz * M)) with (- (bx ^ 2 + by' ^ 2 + bz ^ 2) * M) by ring.
    replace (bx ^ 2 + by' ^ 2 + bz ^ 2) with (g ^ 2 - 1) by lra. ring. }
  rewrite B. replace ((1 - g ^ 2) * M / (1 + g) + g * M) with M by (field; lra).
  f_equal; [|ring|ring|ring]. field. lra.
Qed.
End Boost.

Lemma boost_spec q ps : 0 < q -> (forall p, In p ps -> massless p /\ 0 <= en p) -> timelike (vsum ps) ->
  vsum (boost q ps) = V4 q 0 0 0 /\ length (boost q ps) = length ps
  /\ forall p, In p (boost q ps) -> massless p /\ 0 <= en p.
Proof.
  intros Hq Hps [Hs Ht]. rewrite boost_map. set (s := vsum ps) in *.
  set (M := sqrt (en s ^ 2 - px s ^ 2 - py s ^ 2 - pz s ^ 2)).
  assert (HM : 0 < M) by (apply sqrt_lt_R0; lra).
  assert (HM2 : M ^ 2 = en s ^ 2 - px s ^ 2 - py s ^ 2 - pz s ^ 2) by (apply pow2_sqrt; lra).
  split; [|split].
  - rewrite (vsum_linear _ _ (bmap_linear q s M)). fold s. now apply bmap_total.
  - apply map_length.
  - intros p Hp. apply in_map_iff in Hp. destruct Hp as (p0 & <- & Hp0). destruct (Hps p0 Hp0) as [Hm He]. split.
    + pose proof (bmap_norm q s M HM HM2 Hs p0) as N. unfold massless in *.
      replace (en p0 ^ 2 - px p0 ^ 2 - py p0 ^ 2 - pz p0 ^ 2) with 0 in N by lra. rewrite Rmult_0_r in N. lra.
    + now apply bmap_energy.
Qed.
Lemma boost_positive q ps : 0 < q -> (forall p, In p ps -> massless p /\ 0 < en p) -> timelike (vsum ps) ->
  forall p, In p (boost q ps) -> 0 < en p.
Proof.
  intros Hq Hps [Hs Ht]. rewrite boost_map. set (s := vsum ps) in *.
  set (M := sqrt (en s ^ 2 - px s ^ 2 - py s ^ 2 - pz s ^ 2)).
  assert (HM : 0 < M) by (apply sqrt_lt_R0; lra).
  assert (HM2 : M ^ 2 = en s ^ 2 - px s ^ 2 - py s ^ 2 - pz s ^ 2) by (apply pow2_sqrt; lra).
  intros p Hp. apply in_map_iff in Hp. destruct Hp as (p0 & <- & Hp0). destruct (Hps p0 Hp0) as [Hm He].
  now apply bmap_energy_pos.
Qed.

(** ** Putting the particles on their mass shells *)
Lemma rescale_length ms ps xi : length ms = length ps -> length (rescale ms ps xi) = length ps.
Proof. intro H. unfold rescale. rewrite map_length, combine_length. lia. Qed.
Lemma rescale_rest ps : forall ms xi, length ms = length ps ->
  px (vsum (rescale ms ps xi)) = xi * px (vsum ps) /\ py (vsum (rescale ms ps xi)) = xi * py (vsum ps)
  /\ pz (vsum (rescale ms ps xi)) = xi * pz (vsum ps).
Proof.
  induction ps as [|p ps IH]; intros [|m ms] xi H; try discriminate H.
  - cbn. repeat split; ring.
  - destruct (IH ms xi ltac:(cbn in H; lia)) as (A & B & C).
    change (rescale (m :: ms) (p :: ps) xi)
      with (V4 (hypot (xi * en p) m) (xi * px p) (xi * py p) (xi * pz p) :: rescale ms ps xi).
    change (vsum (?a :: ?l)) with (vplus a (vsum l)). unfold vplus. cbn [px py pz].
    change (vsum (p :: ps)) with (vplus p (vsum ps)). unfold vplus. cbn [px py pz]. rewrite A, B, C.
    repeat split; ring.
Qed.
Lemma hypot_sq a b : hypot a b ^ 2 = a ^ 2 + b ^ 2.
Proof. unfold hypot. rewrite pow2_sqrt by nra. ring. Qed.
Lemma hypot_pos a b : 0 <= hypot a b.
Proof. apply sqrt_pos. Qed.
Lemma hypot_ge a b : 0 <= b -> b <= hypot a b.
Proof.
  intro H. destruct (Rle_dec b (hypot a b)); [assumption|]. exfalso.
  pose proof (hypot_pos a b). pose proof (hypot_sq a b). nra.
Qed.
Lemma rescale_shell ps ms xi : length ms = length ps -> (forall p, In p ps -> massless p) ->
  (forall m, In m ms -> 0 <= m) -> forall i p m, nth_error (rescale ms ps xi) i = Some p -> nth_error ms i = Some m ->
  on_shell m p.
Proof.
  intros Hl Hm Hpos i p m Hp Hmi. unfold rescale in Hp.
  assert (Hc : exists p0, nth_error (combine ps ms) i = Some (p0, m) /\ In p0 ps).
  { revert ms ps Hl Hm Hpos Hp Hmi. induction i as [|i IH]; intros [|m0 ms] [|p0 ps] Hl Hm Hpos Hp Hmi; try discriminate.
    - cbn in *. injection Hmi as ->. exists p0. auto.
    - cbn [combine nth_error map] in *. destruct (IH ms ps) as (p1 & H1 & H2); auto.
      + intros; apply Hm; now right.
      + intros; apply Hpos; now right.
      + exists p1. split; [exact H1|now right]. }
  destruct Hc as (p0 & Hc & Hin). rewrite nth_error_map, Hc in Hp. cbn [option_map fst snd] in Hp. injection Hp as <-.
  specialize (Hm p0 Hin). unfold on_shell, massless in *. cbn [en px py pz]. rewrite hypot_sq. split.
  - replace ((xi * en p0) ^ 2) with (xi ^ 2 * en p0 ^ 2) by ring. rewrite Hm. ring.
  - apply hypot_ge. apply Hpos. eapply nth_error_In. eassumption.
Qed.

(** ** Newton's method for the scale factor *)

(** Energy of one particle of massless energy [e] and mass [m] at scale [xi]. *)
Definition energies (l : list (R * R)) (xi : R) : R := total (map (fun em => hypot (fst em * xi) (snd em)) l).
Definition slope (l : list (R * R)) (xi : R) : R :=
  total (map (fun em => xi * fst em ^ 2 / hypot (fst em * xi) (snd em)) l).
Definition mass_sum (l : list (R * R)) : R := total (map snd l).
Definition energy_sum (l : list (R * R)) : R := total (map fst l).
Definition particles (l : list (R * R)) : Prop := forall e m, In (e, m) l -> 0 < e /\ 0 <= m.
Lemma particles_tail a l : particles (a :: l) -> particles l.
Proof. intros H e m Hin. apply H. now right. Qed.
Lemma total_cons x l : total (x :: l) = x + total l.
Proof. reflexivity. Qed.

Lemma hypot_gt e m xi : 0 < e -> 0 < xi -> 0 < hypot (e * xi) m.
Proof. intros He Hx. apply sqrt_lt_R0. assert (0 < e * xi) by now apply Rmult_lt_0_compat. nra. Qed.

(** Every energy lies above its tangent ... *)
Lemma tangent_one e m xi eta : 0 < e -> 0 <= m -> 0 < xi ->
  hypot (e * xi) m + xi * e ^ 2 / hypot (e * xi) m * (eta - xi) <= hypot (e * eta) m.
Proof.
  intros He Hm Hx. pose proof (hypot_gt e m xi He Hx) as Hh. pose proof (hypot_sq (e * xi) m) as S1.
  pose proof (hypot_sq (e * eta) m) as S2. pose proof (hypot_pos (e * eta) m) as P2.
  set (h := hypot (e * xi) m) in *. set (k := hypot (e * eta) m) in *.
  apply (Rmult_le_reg_l h); [assumption|].
  replace (h * (h + xi * e ^ 2 / h * (eta - xi))) with (h ^ 2 + xi * e ^ 2 * (eta - xi)) by (field; lra).
  rewrite S1. replace ((e * xi) ^ 2 + m ^ 2 + xi * e ^ 2 * (eta - xi)) with ((e * xi) * (e * eta) + m * m) by ring.
  set (a := e * xi) in *. set (b := e * eta) in *.
  assert (C : (a * b + m * m) ^ 2 <= (h * k) ^ 2).
  { replace ((h * k) ^ 2) with (h ^ 2 * k ^ 2) by ring. rewrite S1, S2. pose proof (pow2_ge_0 (a * m - b * m)). nra. }
  assert (0 <= h * k) by (apply Rmult_le_pos; lra).
  destruct (Rle_dec (a * b + m * m) (h * k)); [assumption|]. exfalso. nra.
Qed.
(** ... and below its tangent as a function of the square of the scale. *)
Lemma secant_one e m xi eta : 0 < e -> 0 <= m -> 0 < xi ->
  hypot (e * eta) m <= hypot (e * xi) m + xi * e ^ 2 / hypot (e * xi) m * ((eta ^ 2 - xi ^ 2) / (2 * xi)).
Proof.
  intros He Hm Hx. pose proof (hypot_gt e m xi He Hx) as Hh. pose proof (hypot_sq (e * xi) m) as S1.
  pose proof (hypot_sq (e * eta) m) as S2. pose proof (hypot_pos (e * eta) m) as P2.
  set (h := hypot (e * xi) m) in *. set (k := hypot (e * eta) m) in *.
  replace (h + xi * e ^ 2 / h * ((eta ^ 2 - xi ^ 2) / (2 * xi))) with (h + ((e * eta) ^ 2 - (e * xi) ^ 2) / (2 * h))
    by (field; lra).
  replace ((e * eta) ^ 2 - (e * xi) ^ 2) with (k ^ 2 - h ^ 2) by lra.
  apply (Rmult_le_reg_l (2 * h)); [lra|].
  replace (2 * h * (h + (k ^ 2 - h ^ 2) / (2 * h))) with (h ^ 2 + k ^ 2) by (field; lra).
  pose proof (pow2_ge_0 (h - k)). lra.
Qed.
Lemma tangent l xi eta : particles l -> 0 < xi -> energies l xi + slope l xi * (eta - xi) <= energies l eta.
Proof.
  intros Hl Hx. induction l as [|[e m] l IH]; unfold energies, slope in *; cbn [map fst snd].
  - cbn. lra.
  - rewrite !total_cons. destruct (Hl e m ltac:(now left)) as [He Hm].
    pose proof (tangent_one e m xi eta He Hm Hx). specialize (IH (particles_tail _ _ Hl)). lra.
Qed.
Lemma secant l xi eta : particles l -> 0 < xi ->
  energies l eta <= energies l xi + slope l xi * ((eta ^ 2 - xi ^ 2) / (2 * xi)).
Proof.
  intros Hl Hx. induction l as [|[e m] l IH]; unfold energies, slope in *; cbn [map fst snd].
  - cbn. lra.
  - rewrite !total_cons. destruct (Hl e m ltac:(now left)) as [He Hm].
    pose proof (secant_one e m xi eta He Hm Hx). specialize (IH (particles_tail _ _ Hl)). lra.
Qed.
Lemma energies_0 l : particles l -> energies l 0 = mass_sum l.
Proof.
  intro Hl. induction l as [|[e m] l IH]; unfold energies, mass_sum in *; cbn [map fst snd]; [reflexivity|].
  rewrite !total_cons. rewrite (IH (particles_tail _ _ Hl)). f_equal. destruct (Hl e m ltac:(now left)) as [He Hm].
  unfold hypot. replace (e * 0 * (e * 0) + m * m) with (m * m) by ring. now apply sqrt_square.
Qed.
Lemma slope_pos l xi : particles l -> l <> [] -> 0 < xi -> 0 < slope l xi.
Proof.
  intros Hl Hne Hx.
  assert (K : forall l, particles l -> 0 <= slope l xi).
  { clear l Hl Hne. intros l Hl. induction l as [|[e m] l IH]; unfold slope in *; cbn [map fst snd]; [cbn; lra|].
    rewrite total_cons. destruct (Hl e m ltac:(now left)) as [He Hm].
    pose proof (hypot_gt e m xi He Hx). specialize (IH (particles_tail _ _ Hl)).
    enough (0 < xi * e ^ 2 / hypot (e * xi) m) by lra. apply Rdiv_lt_0_compat; [|assumption].
    apply Rmult_lt_0_compat; nra. }
  destruct l as [|[e m] l]; [now destruct Hne|]. unfold slope in *. cbn [map fst snd]. rewrite total_cons.
  specialize (K l (particles_tail _ _ Hl)). destruct (Hl e m ltac:(now left)) as [He Hm].
  pose proof (hypot_gt e m xi He Hx).
  enough (0 < xi * e ^ 2 / hypot (e * xi) m) by lra. apply Rdiv_lt_0_compat; [|assumption].
  apply Rmult_lt_0_compat; nra.
Qed.

(** One Newton step started where the energy is at least [q]. *)
Lemma newton_step l q xi : particles l -> l <> [] -> mass_sum l < q -> 0 < xi -> q <= energies l xi ->
  let f := energies l xi - q in
  let eta := xi - f / slope l xi in
  0 < eta <= xi /\ 0 <= energies l eta - q <= f / 2 /\ energies l eta - q <= f ^ 2 / (2 * (q - mass_sum l)).
Proof.
  intros Hl Hne Hq Hx Hf f eta. pose proof (slope_pos l xi Hl Hne Hx) as HD. set (D := slope l xi) in *.
  assert (HxD : f + (q - mass_sum l) <= xi * D).
  { pose proof (tangent l xi 0 Hl Hx) as T. rewrite (energies_0 l Hl) in T. fold D in T. unfold f. lra. }
  assert (Hf0 : 0 <= f) by (unfold f; lra).
  assert (Hfd : f / D * D = f) by (field; lra).
  assert (Hr : 0 <= f / D) by (apply Rmult_le_pos; [assumption|]; left; now apply Rinv_0_lt_compat).
  assert (He : 0 < eta).
  { unfold eta. apply (Rmult_lt_reg_r D); [assumption|]. rewrite Rmult_minus_distr_r, Hfd. lra. }
  split; [split; [assumption|unfold eta; lra]|].
  assert (Lo : 0 <= energies l eta - q).
  { pose proof (tangent l xi eta Hl Hx) as T. fold D in T.
    replace (D * (eta - xi)) with (- f) in T by (unfold eta; field; lra). unfold f in *. lra. }
  assert (Hi : energies l eta - q <= f ^ 2 / (2 * (xi * D))).
  { pose proof (secant l xi eta Hl Hx) as T. fold D in T.
    replace (D * ((eta ^ 2 - xi ^ 2) / (2 * xi))) with (- f + f ^ 2 / (2 * (xi * D))) in T.
    - unfold f in *. lra.
    - unfold eta. field. split; lra. }
  assert (Hp : 0 < xi * D) by now apply Rmult_lt_0_compat.
  split; [split; [assumption|]|]; eapply Rle_trans; try exact Hi.
  - apply (Rmult_le_reg_r (2 * (xi * D))); [lra|]. unfold Rdiv at 1. rewrite Rmult_assoc, Rinv_l, Rmult_1_r by lra. nra.
  - unfold Rdiv. apply Rmult_le_compat_l; [apply pow2_ge_0|]. apply Rinv_le_contravar; lra.
Qed.

(** The starting point of a fresh integrator. *)
Lemma minkowski a b c d : hypot (a + c) (b + d) <= hypot a b + hypot c d.
Proof.
  pose proof (hypot_pos a b). pose proof (hypot_pos c d). pose proof (hypot_sq a b). pose proof (hypot_sq c d).
  pose proof (hypot_pos (a + c) (b + d)). pose proof (hypot_sq (a + c) (b + d)).
  set (x := hypot a b) in *. set (y := hypot c d) in *. set (z := hypot (a + c) (b + d)) in *.
  assert (C : (a * c + b * d) <= x * y).
  { assert ((a * c + b * d) ^ 2 <= (x * y) ^ 2).
    { replace ((x * y) ^ 2) with (x ^ 2 * y ^ 2) by ring. rewrite H1, H2. pose proof (pow2_ge_0 (a * d - b * c)). nra. }
    assert (0 <= x * y) by now apply Rmult_le_pos.
    destruct (Rle_dec (a * c + b * d) (x * y)); [assumption|]. exfalso. nra. }
  destruct (Rle_dec z (x + y)); [assumption|]. exfalso. nra.
Qed.
Lemma hypot_00 : hypot 0 0 = 0.
Proof. unfold hypot. replace (0 * 0 + 0 * 0) with 0 by ring. apply sqrt_0. Qed.
Lemma energies_minkowski l xi : hypot (energy_sum l * xi) (mass_sum l) <= energies l xi.
Proof.
  induction l as [|[e m] l IH]; unfold energies, energy_sum, mass_sum in *; cbn [map fst snd].
  - cbn [total fold_right]. rewrite Rmult_0_l, hypot_00. lra.
  - rewrite !total_cons. rewrite Rmult_plus_distr_r.
    pose proof (minkowski (e * xi) m (total (map fst l) * xi) (total (map snd l))). lra.
Qed.
Lemma energies_upper l xi : particles l -> 0 <= xi -> energies l xi <= energy_sum l * xi + mass_sum l.
Proof.
  intros Hl Hx. induction l as [|[e m] l IH]; unfold energies, energy_sum, mass_sum in *; cbn [map fst snd].
  - cbn. lra.
  - rewrite !total_cons. specialize (IH (particles_tail _ _ Hl)). destruct (Hl e m ltac:(now left)) as [He Hm].
    enough (hypot (e * xi) m <= e * xi + m) by nra.
    pose proof (hypot_sq (e * xi) m). pose proof (hypot_pos (e * xi) m). assert (0 <= e * xi) by nra.
    destruct (Rle_dec (hypot (e * xi) m) (e * xi + m)); [assumption|]. exfalso. nra.
Qed.
Lemma start_above l q : particles l -> energy_sum l = q -> 0 <= mass_sum l < q ->
  q <= energies l (sqrt (1 - (mass_sum l / q) ^ 2)) /\ 0 < sqrt (1 - (mass_sum l / q) ^ 2) <= 1.
Proof.
  intros Hl He Hm. set (mu := mass_sum l / q).
  assert (Hmu : 0 <= mu < 1).
  { unfold mu. split.
    - apply Rmult_le_pos; [lra|]. left. apply Rinv_0_lt_compat. lra.
    - apply (Rmult_lt_reg_r q); [lra|]. unfold Rdiv. rewrite Rmult_assoc, Rinv_l; lra. }
  assert (Hx : 0 < sqrt (1 - mu ^ 2)) by (apply sqrt_lt_R0; nra).
  assert (Hx1 : sqrt (1 - mu ^ 2) <= 1).
  { rewrite <- sqrt_1 at 2. apply sqrt_le_1_alt. nra. }
  split; [|lra]. eapply Rle_trans; [|apply energies_minkowski]. rewrite He.
  pose proof (hypot_sq (q * sqrt (1 - mu ^ 2)) (mass_sum l)) as S. pose proof (hypot_pos (q * sqrt (1 - mu ^ 2)) (mass_sum l)).
  set (h := hypot (q * sqrt (1 - mu ^ 2)) (mass_sum l)) in *.
  replace ((q * sqrt (1 - mu ^ 2)) ^ 2) with (q ^ 2 * sqrt (1 - mu ^ 2) ^ 2) in S by ring.
  rewrite pow2_sqrt in S by nra.
  assert (E : q ^ 2 * (1 - mu ^ 2) + mass_sum l ^ 2 = q ^ 2) by (unfold mu; field; lra). rewrite E in S.
  destruct (Rle_dec q h); [assumption|]. exfalso. nra.
Qed.

(** ** The loop *)
Definition pairs (ms : list R) (ps : list vec) : list (R * R) := map (fun em => (en (fst em), snd em)) (combine ps ms).
Lemma newton_f_pairs q ms ps xi : newton_f q ms ps xi = energies (pairs ms ps) xi - q.
Proof. unfold newton_f, energies, pairs. now rewrite map_map. Qed.
Lemma newton_df_pairs ms ps xi : newton_df ms ps xi = slope (pairs ms ps) xi.
Proof. unfold newton_df, slope, pairs. now rewrite map_map. Qed.
Lemma pairs_mass ms ps : length ms = length ps -> mass_sum (pairs ms ps) = total ms.
Proof.
  revert ps. induction ms as [|m ms IH]; intros [|p ps] H; try discriminate H; [reflexivity|].
  unfold mass_sum, pairs in *. cbn [combine map fst snd]. rewrite !total_cons. now rewrite IH by (cbn in H; lia).
Qed.
Lemma vsum_en ps : en (vsum ps) = total (map en ps).
Proof. induction ps as [|p ps IH]; [reflexivity|]. cbn [map]. rewrite total_cons, <- IH. reflexivity. Qed.
Lemma pairs_energy ms ps : length ms = length ps -> energy_sum (pairs ms ps) = en (vsum ps).
Proof.
  rewrite vsum_en. revert ps. induction ms as [|m ms IH]; intros [|p ps] H; try discriminate H; [reflexivity|].
  unfold energy_sum, pairs in *. cbn [combine map fst snd]. rewrite !total_cons. now rewrite IH by (cbn in H; lia).
Qed.
Lemma pairs_particles ms ps : (forall p, In p ps -> 0 < en p) -> (forall m, In m ms -> 0 <= m) -> particles (pairs ms ps).
Proof.
  intros H1 H2 e m Hin. unfold pairs in Hin. apply in_map_iff in Hin. destruct Hin as ([p m0] & [= <- <-] & Hin).
  split; [apply H1; eapply in_combine_l; eassumption | apply H2; eapply in_combine_r; eassumption].
Qed.
Lemma pairs_nonempty ms ps : length ms = length ps -> ps <> [] -> pairs ms ps <> [].
Proof. intros H Hn. destruct ms, ps; try discriminate H; [now destruct Hn|discriminate]. Qed.
Lemma rescale_energy ms ps xi : en (vsum (rescale ms ps xi)) = energies (pairs ms ps) xi.
Proof.
  rewrite vsum_en. unfold rescale, energies, pairs. rewrite !map_map. cbn [en fst snd]. f_equal.
  apply map_ext. intros [p m]. cbn [fst snd]. f_equal. ring.
Qed.

Lemma np_max_some l : l <> [] -> exists m, np_max l = Ret m /\ forall x, In x l -> x <= m.
Proof.
  destruct l as [|x l]; [intros H; now destruct H|]. intros _. exists (fold_left Rmax l x). split; [reflexivity|].
  assert (K : forall l a, a <= fold_left Rmax l a /\ forall y, In y l -> y <= fold_left Rmax l a).
  { clear. induction l as [|b l IH]; intro a; cbn [fold_left].
    - split; [lra|]. intros y [].
    - destruct (IH (Rmax a b)) as [A B]. pose proof (Rmax_l a b). pose proof (Rmax_r a b).
      split; [lra|]. intros y [<-|Hy]; [lra|]. now apply B. }
  destruct (K l x) as [A B]. intros y [<-|Hy]; [assumption|]. now apply B.
Qed.

(** The bound that [k] Newton steps give on the defect. *)
Definition step_bound (T B : R) (k : nat) (f : R) : Prop := f <= B / 2 ^ k /\ f <= 2 * T * (B / (2 * T)) ^ (2 ^ k).
(** An event whose scale factor is on the convergent side. *)
Definition above (q : R) (ms : list R) (ex : list vec * R) : Prop :=
  0 < snd ex /\ 0 <= newton_f q ms (fst ex) (snd ex).
Definition event_ok (ms : list R) (ps : list vec) : Prop :=
  length ms = length ps /\ ps <> [] /\ forall p, In p ps -> 0 < en p.

Lemma one_step q ms ps xi : event_ok ms ps -> (forall m, In m ms -> 0 <= m) -> total ms < q ->
  0 < xi -> 0 <= newton_f q ms ps xi ->
  let eta := xi - newton_f q ms ps xi / newton_df ms ps xi in
  0 < eta /\ 0 <= newton_f q ms ps eta <= newton_f q ms ps xi / 2
  /\ newton_f q ms ps eta <= newton_f q ms ps xi ^ 2 / (2 * (q - total ms)).
Proof.
  intros (Hl & Hne & He) Hm Hq Hx Hf. cbn zeta. rewrite !newton_f_pairs, newton_df_pairs in *.
  rewrite <- (pairs_mass ms ps Hl) in *.
  pose proof (newton_step (pairs ms ps) q xi (pairs_particles ms ps He Hm) (pairs_nonempty ms ps Hl Hne) Hq Hx ltac:(lra)) as N.
  cbn zeta in N. tauto.
Qed.
Lemma step_bound_next T B k f f' : 0 < T -> 0 <= B -> 0 <= f -> step_bound T B k f -> f' <= f / 2 -> f' <= f ^ 2 / (2 * T) ->
  step_bound T B (S k) f'.
Proof.
  intros HT HB Hf [A1 A2] H1 H2. split.
  - cbn [pow]. replace (B / (2 * 2 ^ k)) with (B / 2 ^ k / 2) by (field; apply pow_nonzero; lra). lra.
  - replace (2 ^ S k)%nat with (2 ^ k * 2)%nat by (cbn [Nat.pow]; lia). rewrite pow_mult.
    set (r := (B / (2 * T)) ^ (2 ^ k)) in *.
    eapply Rle_trans; [exact H2|].
    replace (2 * T * r ^ 2) with ((2 * T * r) ^ 2 / (2 * T)) by (field; lra).
    unfold Rdiv. apply Rmult_le_compat_r; [left; apply Rinv_0_lt_compat; lra|].
    apply pow_incr. lra.
Qed.

Lemma scale_loop_S k tol q ms evs : scale_loop (S k) tol q ms evs =
  let next := map (fun ex => (fst ex, snd ex - newton_f q ms (fst ex) (snd ex) / newton_df ms (fst ex) (snd ex))) evs in
  let* m := np_max (map (fun ex => newton_f q ms (fst ex) (snd ex)) evs) in
  if Rlt_dec m tol then Ret next else match k with O => Ret next | _ => scale_loop k tol q ms next end.
Proof. reflexivity. Qed.

Section Loop.
Variables (q tol : R) (ms : list R).
Hypothesis Hm : forall m, In m ms -> 0 <= m.
Hypothesis Hq : total ms < q.
Let T := q - total ms.
Definition converged (f : R) : Prop := f <= tol / 2 /\ f <= tol ^ 2 / (2 * T).

Lemma scale_loop_spec B : 0 <= B -> forall k j evs, evs <> [] ->
  Forall (fun ex => event_ok ms (fst ex) /\ above q ms ex /\ step_bound T B j (newton_f q ms (fst ex) (snd ex))) evs ->
  exists out, scale_loop (S k) tol q ms evs = Ret out /\ map fst out = map fst evs /\
    Forall (fun ex => above q ms ex /\ (converged (newton_f q ms (fst ex) (snd ex))
                                        \/ step_bound T B (S k + j) (newton_f q ms (fst ex) (snd ex)))) out.
Proof.
  intros HB. assert (HT : 0 < T) by (unfold T; lra).
  induction k as [|k IH]; intros j evs Hne Hall; rewrite scale_loop_S; cbv zeta;
    set (next := map (fun ex => (fst ex, snd ex - newton_f q ms (fst ex) (snd ex) / newton_df ms (fst ex) (snd ex))) evs);
    (assert (Hf : map fst next = map fst evs) by (unfold next; rewrite map_map; reflexivity));
    (assert (Hmne : map (fun ex => newton_f q ms (fst ex) (snd ex)) evs <> []) by (destruct evs; [now destruct Hne|discriminate]));
    destruct (np_max_some _ Hmne) as (m & -> & Hmax); cbn [bind].
  - exists next. split; [now destruct (Rlt_dec m tol)|]. split; [assumption|].
    apply Forall_forall. intros ex Hin. unfold next in Hin. apply in_map_iff in Hin. destruct Hin as (ex0 & <- & Hin).
    rewrite Forall_forall in Hall. destruct (Hall ex0 Hin) as (Hok & (Hx & Hf0) & Hb). cbn [fst snd].
    destruct (one_step q ms (fst ex0) (snd ex0) Hok Hm Hq Hx Hf0) as (A & B1 & C). split; [split; [exact A|apply B1]|].
    right. eapply step_bound_next; [exact HT|exact HB|exact Hf0|exact Hb|apply B1|exact C].
  - assert (Hnext : Forall (fun ex => event_ok ms (fst ex) /\ above q ms ex
                                     /\ step_bound T B (S j) (newton_f q ms (fst ex) (snd ex))) next).
    { apply Forall_forall. intros ex Hin. unfold next in Hin. apply in_map_iff in Hin. destruct Hin as (ex0 & <- & Hin).
      rewrite Forall_forall in Hall. destruct (Hall ex0 Hin) as (Hok & (Hx & Hf0) & Hb). cbn [fst snd].
      destruct (one_step q ms (fst ex0) (snd ex0) Hok Hm Hq Hx Hf0) as (A & B1 & C). split; [assumption|].
      split; [split; [exact A|apply B1]|].
      eapply step_bound_next; [exact HT|exact HB|exact Hf0|exact Hb|apply B1|exact C]. }
    destruct (Rlt_dec m tol) as [Hlt|_].
    + exists next. split; [reflexivity|]. split; [assumption|].
      apply Forall_forall. intros ex Hin. unfold next in Hin. apply in_map_iff in Hin. destruct Hin as (ex0 & <- & Hin).
      rewrite Forall_forall in Hall. destruct (Hall ex0 Hin) as (Hok & (Hx & Hf0) & Hb). cbn [fst snd].
      destruct (one_step q ms (fst ex0) (snd ex0) Hok Hm Hq Hx Hf0) as (A & B1 & C). split; [split; [exact A|apply B1]|].
      left. assert (Hsmall : newton_f q ms (fst ex0) (snd ex0) < tol).
      { eapply Rle_lt_trans; [|exact Hlt]. apply Hmax. apply in_map_iff. exists ex0. auto. }
      split; [lra|]. eapply Rle_trans; [exact C|]. fold T. unfold Rdiv.
      apply Rmult_le_compat_r; [left; apply Rinv_0_lt_compat; lra|]. apply pow_incr. lra.
    + assert (Hnn : next <> []) by (unfold next; destruct evs; [now destruct Hne|discriminate]).
      destruct (IH (S j) next Hnn Hnext) as (out & Eo & Ef & Ho). exists out. rewrite Eo. split; [reflexivity|].
      split; [congruence|]. replace (S (S k) + j)%nat with (S k + S j)%nat by lia. exact Ho.
Qed.
End Loop.

(** The stopping test bounds the defect of a fresh integrator. *)
Lemma total_nonneg l : (forall m, In m l -> 0 <= m) -> 0 <= total l.
Proof.
  induction l as [|x l IH]; intro H; [cbn; lra|]. rewrite total_cons. specialize (H x (or_introl eq_refl)) as Hx.
  enough (0 <= total l) by lra. apply IH. intros m Hm. apply H. now right.
Qed.
Lemma fresh_scale q ms o eps batch : rambo_new q ms = Ret o -> (forall m, In m ms -> 0 <= m) -> total ms < q -> 0 <= eps ->
  batch <> [] -> Forall (fun ps => event_ok ms ps /\ en (vsum ps) = q) batch ->
  exists out, compute_scale_factor o eps batch = Ret out /\ map fst out = batch /\
    Forall (fun ex => 0 < snd ex /\ 0 <= newton_f q ms (fst ex) (snd ex) /\
      (newton_f q ms (fst ex) (snd ex) <= sqrt eps / 2 /\ newton_f q ms (fst ex) (snd ex) <= eps / (2 * (q - total ms))
       \/ step_bound (q - total ms) (total ms) 5 (newton_f q ms (fst ex) (snd ex)))) out.
Proof.
  intros Ho Hm Hq He Hne Hall. unfold rambo_new in Ho. destruct (compute_base_weight q (length ms)) as [w|] eqn:Ew; [|discriminate].
  cbn [bind] in Ho. injection Ho as <-. unfold compute_scale_factor. cbn [cme masses xi0].
  pose proof (total_nonneg ms Hm) as Hp. set (x0 := sqrt (1 - (total ms / q) ^ 2)).
  destruct (scale_loop_spec q (sqrt eps) ms Hm Hq (total ms) Hp 4 0 (map (fun ps => (ps, x0)) batch)) as (out & E1 & E2 & E3).
  - destruct batch; [now destruct Hne|discriminate].
  - apply Forall_forall. intros ex Hin. apply in_map_iff in Hin. destruct Hin as (ps & <- & Hin). cbn [fst snd].
    rewrite Forall_forall in Hall. destruct (Hall ps Hin) as [Hok Hen]. split; [assumption|]. destruct Hok as (Hl & Hn & Hpos).
    pose proof (pairs_particles ms ps Hpos Hm) as Hpp.
    destruct (start_above (pairs ms ps) q Hpp) as [S1 S2].
    + now rewrite pairs_energy.
    + rewrite pairs_mass by assumption. lra.
    + rewrite (pairs_mass ms ps Hl) in S1, S2. fold x0 in S1, S2. unfold above. cbn [fst snd].
      rewrite newton_f_pairs. split; [split; lra|].
      pose proof (energies_upper (pairs ms ps) x0 Hpp ltac:(lra)) as U.
      rewrite (pairs_mass ms ps Hl), (pairs_energy ms ps Hl), Hen in U.
      assert (energies (pairs ms ps) x0 - q <= total ms) by nra.
      split; cbn [pow Nat.pow]; [lra|]. rewrite Rmult_1_r. replace (2 * (q - total ms) * (total ms / (2 * (q - total ms)))) with (total ms) by (field; lra). lra.
  - exists out. split; [exact E1|]. split.
    + rewrite E2, map_map. cbn [fst]. apply map_id.
    + eapply Forall_impl; [|exact E3]. intros ex [[A B] C]. split; [assumption|]. split; [assumption|].
      destruct C as [[C1 C2]|C]; [left|right; exact C]. split; [assumption|]. now rewrite pow2_sqrt in C2 by assumption.
Qed.

(** ** Whole events *)
Definition rho_ok (rho : R * R * R * R) : Prop :=
  let '(rho1, rho2, rho3, rho4) := rho in 0 <= rho1 <= 1 /\ 0 < rho3 < 1 /\ 0 < rho4 < 1.
(** A draw for one event: one quadruple per particle, not all directions parallel. *)
Definition draw_ok (ms : list R) (r : list (R * R * R * R)) : Prop :=
  length r = length ms /\ Forall rho_ok r /\ timelike (vsum (map initial_momentum r)).
Lemma boosted_event q ms r : 0 < q -> draw_ok ms r ->
  let ps := boost q (map initial_momentum r) in
  vsum ps = V4 q 0 0 0 /\ length ps = length ms /\ forall p, In p ps -> massless p /\ 0 < en p.
Proof.
  intros Hq (Hl & Hr & Ht). cbn zeta.
  assert (Hi : forall p, In p (map initial_momentum r) -> massless p /\ 0 < en p).
  { intros p Hp. apply in_map_iff in Hp. destruct Hp as ([[[r1 r2] r3] r4] & <- & Hin). rewrite Forall_forall in Hr.
    destruct (Hr _ Hin) as (H1 & H3 & H4). now apply initial_massless. }
  destruct (boost_spec q (map initial_momentum r) Hq) as (A & B & C); [|assumption|].
  - intros p Hp. destruct (Hi p Hp). split; [assumption|lra].
  - split; [assumption|]. split; [rewrite B, map_length; assumption|]. intros p Hp. split; [now apply C|].
    eapply boost_positive; [exact Hq| |exact Ht|exact Hp]. exact Hi.
Qed.

(** The iteration never fails on a non-empty batch, whatever the scale factors are. *)
Lemma scale_loop_ret tol q ms : forall k evs, evs <> [] ->
  exists out, scale_loop k tol q ms evs = Ret out /\ map fst out = map fst evs.
Proof.
  induction k as [|k IH]; intros evs Hne; [exists evs; split; reflexivity|]. rewrite scale_loop_S. cbv zeta.
  set (next := map (fun ex => (fst ex, snd ex - newton_f q ms (fst ex) (snd ex) / newton_df ms (fst ex) (snd ex))) evs).
  assert (Hf : map fst next = map fst evs) by (unfold next; rewrite map_map; reflexivity).
  destruct (np_max_some (map (fun ex => newton_f q ms (fst ex) (snd ex)) evs)) as (m & -> & _).
  { destruct evs; [now destruct Hne|discriminate]. }
  cbn [bind].
  assert (Hnn : next <> []) by (unfold next; destruct evs; [now destruct Hne|discriminate]).
  destruct (IH next Hnn) as (out & E1 & E2).
  destruct (Rlt_dec m tol); [exists next; auto|]. destruct k; [exists next; auto|].
  exists out. split; [exact E1|congruence].
Qed.

(** Every event of every batch conserves three-momentum and is on shell, for any integrator state. *)
Lemma generated_shell o eps msqrd rhos : 0 < cme o -> (forall m, In m (masses o) -> 0 <= m) -> rhos <> [] ->
  Forall (draw_ok (masses o)) rhos ->
  exists out, generate o eps msqrd rhos = Ret out /\ length out = length rhos /\
    Forall (fun ew => length (fst ew) = length (masses o) /\ at_rest (vsum (fst ew)) /\
      (forall i p m, nth_error (fst ew) i = Some p -> nth_error (masses o) i = Some m -> on_shell m p)) out.
Proof.
  intros Hq Hm Hne Hr. unfold generate, correct_masses, compute_scale_factor.
  set (batch := map (fun r => boost (cme o) (map initial_momentum r)) rhos).
  destruct (scale_loop_ret (sqrt eps) (cme o) (masses o) 5 (map (fun ps => (ps, xi0 o)) batch)) as (out & -> & E).
  { unfold batch. destruct rhos; [now destruct Hne|discriminate]. }
  cbn [bind]. eexists. split; [reflexivity|]. rewrite map_map in E. cbn [fst] in E. rewrite map_id in E.
  split. { rewrite !map_length. rewrite <- (map_length fst out), E. unfold batch. apply map_length. }
  apply Forall_forall. intros ew Hin. apply in_map_iff in Hin. destruct Hin as (ps & <- & Hin). cbn [fst].
  apply in_map_iff in Hin. destruct Hin as (ex & <- & Hin).
  assert (Hb : In (fst ex) batch) by (rewrite <- E; now apply in_map).
  unfold batch in Hb. apply in_map_iff in Hb. destruct Hb as (r & Er & Hrin). rewrite Forall_forall in Hr.
  destruct (boosted_event (cme o) (masses o) r Hq (Hr r Hrin)) as (A & B & C). rewrite Er in A, B, C.
  split; [rewrite rescale_length; lia|]. split.
  - destruct (rescale_rest (fst ex) (masses o) (snd ex) ltac:(lia)) as (X & Y & Z). unfold at_rest.
    rewrite X, Y, Z, A. cbn [px py pz]. repeat split; ring.
  - apply rescale_shell; [lia| |assumption]. intros p Hp. now apply C.
Qed.

Lemma generated_energy q ms o eps msqrd rhos : rambo_new q ms = Ret o -> (forall m, In m ms -> 0 <= m) -> total ms < q ->
  0 <= eps -> rhos <> [] -> Forall (draw_ok ms) rhos ->
  exists out, generate o eps msqrd rhos = Ret out /\ length out = length rhos /\
    Forall (fun ew => let defect := total (map en (fst ew)) - q in
      0 <= defect /\ (defect <= sqrt eps / 2 /\ defect <= eps / (2 * (q - total ms))
                      \/ defect <= total ms / 32 /\ defect <= 2 * (q - total ms) * (total ms / (2 * (q - total ms))) ^ 32)) out.
Proof.
  intros Ho Hm Hq He Hne Hr. pose proof (total_nonneg ms Hm) as Hp.
  assert (Eo : cme o = q /\ masses o = ms).
  { unfold rambo_new in Ho. destruct (compute_base_weight q (length ms)) as [w|]; [|discriminate].
    cbn [bind] in Ho. injection Ho as <-. auto. }
  destruct Eo as [Eq Em]. 
  assert (Hlen : (2 <= length ms)%nat).
  { unfold rambo_new, compute_base_weight in Ho. destruct (Nat.ltb (length ms) 2) eqn:E; [discriminate|].
    apply Nat.ltb_ge in E. exact E. }
  unfold generate, correct_masses. rewrite Eq, Em.
  set (batch := map (fun r => boost q (map initial_momentum r)) rhos).
  destruct (fresh_scale q ms o eps batch Ho Hm Hq He) as (out & -> & E1 & E2).
  - unfold batch. destruct rhos; [now destruct Hne|discriminate].
  - apply Forall_forall. intros ps Hin. unfold batch in Hin. apply in_map_iff in Hin. destruct Hin as (r & <- & Hin).
    rewrite Forall_forall in Hr. destruct (boosted_event q ms r ltac:(lra) (Hr r Hin)) as (A & B & C). split.
    + split; [now rewrite B|]. split; [|intros p Hpp; now apply C].
      intro K. rewrite K in B. cbn in B. lia.
    + now rewrite A.
  - cbn [bind]. eexists. split; [reflexivity|]. split.
    { rewrite !map_length. rewrite <- (map_length fst out), E1. unfold batch. apply map_length. }
    apply Forall_forall. intros ew Hin. apply in_map_iff in Hin. destruct Hin as (ps & <- & Hin). cbn [fst].
    apply in_map_iff in Hin. destruct Hin as (ex & <- & Hin). cbn zeta.
    rewrite Forall_forall in E2. specialize (E2 ex Hin).
    rewrite <- vsum_en, rescale_energy. rewrite newton_f_pairs in E2. destruct E2 as (_ & A & B). split; [assumption|].
    destruct B as [B|[B1 B2]]; [left; exact B|right]. change (2 ^ 5)%nat with 32%nat in B2. replace (2 ^ 5) with 32 in B1 by ring. auto.
Qed.
