(** Properties of the RAMBO phase-space generator (C14-C17, C71). *)
From Coq Require Import Reals Lra Psatz Lia Arith ZArith Bool List.
From Verif Require Import PyBase RamboModel RamboProofs.
Import ListNotations.
Local Open Scope R_scope.

(** Two particles thrown back to back along the z axis; used by the examples. *)
Definition back_to_back : list (R * R * R * R) := [(1, 0, 1/2, 1/2); (0, 0, 1/2, 1/2)].
Lemma bb_momenta : map initial_momentum back_to_back = [V4 (ln 4) 0 0 (ln 4); V4 (ln 4) 0 0 (- ln 4)] /\ 0 < ln 4.
Proof.
  split; [|rewrite <- ln_1; apply ln_increasing; lra].
  unfold back_to_back, initial_momentum. cbn [map].
  replace (1 - (2 * 1 - 1) ^ 2) with 0 by ring. replace (1 - (2 * 0 - 1) ^ 2) with 0 by ring. rewrite sqrt_0.
  assert (E : - ln (1 / 2 * (1 / 2)) = ln 4).
  { replace (1 / 2 * (1 / 2)) with (/ 4) by lra. rewrite ln_Rinv by lra. ring. }
  rewrite E. repeat f_equal; ring.
Qed.
Lemma bb_draw m1 m2 : draw_ok [m1; m2] back_to_back.
Proof.
  destruct bb_momenta as [E L]. split; [reflexivity|]. split.
  - unfold back_to_back. repeat constructor; lra.
  - rewrite E. unfold timelike, vsum, vplus. cbn [fold_right en px py pz]. split; nra.
Qed.
Lemma bb_boost q : 0 < q -> boost q (map initial_momentum back_to_back) = [V4 (q / 2) 0 0 (q / 2); V4 (q / 2) 0 0 (- (q / 2))].
Proof.
  intro Hq. destruct bb_momenta as [-> L]. unfold boost, vsum, vplus. cbn [fold_right en px py pz map].
  replace ((ln 4 + (ln 4 + 0)) ^ 2 - (0 + (0 + 0)) ^ 2 - (0 + (0 + 0)) ^ 2 - (ln 4 + (- ln 4 + 0)) ^ 2)
    with ((2 * ln 4) * (2 * ln 4)) by ring.
  rewrite sqrt_square by lra. cbn zeta.
  replace ((ln 4 + (ln 4 + 0)) * (1 / (2 * ln 4))) with 1 by (field; lra).
  replace (ln 4 + (- ln 4 + 0)) with 0 by ring. replace (0 + (0 + 0)) with 0 by ring. rewrite Rmult_0_r.
  f_equal; [|f_equal]; f_equal; field; lra.
Qed.

(** C14.  Every event of every batch is at rest in total and on its mass shells, for every state of
    the integrator, including one whose stored starting scale is stale. *)
Theorem rambo_shell : forall o eps msqrd rhos,
  0 < cme o -> (forall m, In m (masses o) -> 0 <= m) -> rhos <> [] -> Forall (draw_ok (masses o)) rhos ->
  exists out, generate o eps msqrd rhos = Ret out /\ length out = length rhos /\
    Forall (fun ew => length (fst ew) = length (masses o) /\ at_rest (vsum (fst ew)) /\
      (forall i p m, nth_error (fst ew) i = Some p -> nth_error (masses o) i = Some m -> on_shell m p)) out.
Proof. exact generated_shell. Qed.
Example rambo_shell_case : exists o, rambo_new 10 [4; 4] = Ret o /\ 0 < cme o /\ (forall m, In m (masses o) -> 0 <= m)
  /\ Forall (draw_ok (masses o)) [back_to_back; back_to_back].
Proof.
  eexists. split; [reflexivity|]. cbn [cme masses]. split; [lra|]. split.
  - intros m [<-|[<-|[]]]; lra.
  - repeat (apply Forall_cons; [apply bb_draw|]); apply Forall_nil.
Qed.
Print Assumptions rambo_shell.

(** C15.  The boost sends any massless momenta with a timelike total to massless momenta whose
    total is (cme, 0, 0, 0). *)
Theorem rambo_boost : forall q ps, 0 < q -> (forall p, In p ps -> massless p /\ 0 <= en p) -> timelike (vsum ps) ->
  vsum (boost q ps) = V4 q 0 0 0 /\ length (boost q ps) = length ps
  /\ forall p, In p (boost q ps) -> massless p /\ 0 <= en p.
Proof. exact boost_spec. Qed.
Example rambo_boost_case : let ps := [V4 3 3 0 0; V4 5 0 3 4; V4 13 5 0 (-12)] in
  (forall p, In p ps -> massless p /\ 0 <= en p) /\ timelike (vsum ps).
Proof.
  cbn zeta. split.
  - intros p [<-|[<-|[<-|[]]]]; unfold massless; cbn [en px py pz]; split; lra.
  - unfold timelike, vsum, vplus. cbn [fold_right en px py pz]. split; lra.
Qed.
Print Assumptions rambo_boost.
(** The momenta it is given are massless with positive energies for every draw. *)
Theorem rambo_initial : forall rho1 rho2 rho3 rho4, 0 <= rho1 <= 1 -> 0 < rho3 < 1 -> 0 < rho4 < 1 ->
  massless (initial_momentum (rho1, rho2, rho3, rho4)) /\ 0 < en (initial_momentum (rho1, rho2, rho3, rho4)).
Proof. exact initial_massless. Qed.
Example rambo_initial_case : 0 <= 3 / 4 <= 1 /\ 0 < 1 / 3 < 1 /\ 0 < 1 / 5 < 1.
Proof. repeat split; lra. Qed.
Print Assumptions rambo_initial.

(** C16.  Full claim: the energies of every event add up to cme within the tolerance sqrt(eps), for a
    fresh integrator and after setter calls.  Proved here for a fresh integrator: the energies are
    never below cme, and the excess is either below the tolerance (and below eps over twice the
    available kinetic energy) or the fifth iterate has been returned, whose excess obeys the last two
    bounds.  Missing: the excess need not be below the tolerance (see the two refutations). *)
Theorem rambo_energy_partial : forall q ms o eps msqrd rhos,
  rambo_new q ms = Ret o -> (forall m, In m ms -> 0 <= m) -> total ms < q -> 0 <= eps -> rhos <> [] -> Forall (draw_ok ms) rhos ->
  exists out, generate o eps msqrd rhos = Ret out /\ length out = length rhos /\
    Forall (fun ew => let defect := total (map en (fst ew)) - q in
      0 <= defect /\ (defect <= sqrt eps / 2 /\ defect <= eps / (2 * (q - total ms))
                      \/ defect <= total ms / 32 /\ defect <= 2 * (q - total ms) * (total ms / (2 * (q - total ms))) ^ 32)) out.
Proof. exact generated_energy. Qed.
Example rambo_energy_case : exists o, rambo_new 10 [4; 4] = Ret o /\ total [4; 4] < 10 /\ Forall (draw_ok [4; 4]) [back_to_back].
Proof. eexists. split; [reflexivity|]. split; [cbn; lra|]. repeat (apply Forall_cons; [apply bb_draw|]); apply Forall_nil. Qed.
Print Assumptions rambo_energy_partial.

(** When the masses are at most half of cme the excess is below the tolerance or below one part in
    four billion of the kinetic energy. *)
Theorem rambo_energy_far : forall q ms o eps msqrd rhos,
  rambo_new q ms = Ret o -> (forall m, In m ms -> 0 <= m) -> 2 * total ms <= q -> 0 < q -> 0 <= eps -> rhos <> [] ->
  Forall (draw_ok ms) rhos ->
  exists out, generate o eps msqrd rhos = Ret out /\
    Forall (fun ew => 0 <= total (map en (fst ew)) - q
       /\ (total (map en (fst ew)) - q <= sqrt eps / 2 \/ total (map en (fst ew)) - q <= q / 2 ^ 31)) out.
Proof.
  intros q ms o eps msqrd rhos Ho Hm Hq Hq0 He Hne Hr. pose proof (total_nonneg ms Hm) as Hp.
  destruct (generated_energy q ms o eps msqrd rhos Ho Hm ltac:(lra) He Hne Hr) as (out & E & _ & F).
  exists out. split; [exact E|]. eapply Forall_impl; [|exact F]. intros ew. cbn zeta.
  intros (A & B). split; [exact A|]. destruct B as [[B _]|[_ B]]; [left; exact B|right].
  eapply Rle_trans; [exact B|]. set (T := q - total ms) in *.
  assert (HT : 0 < T <= q) by (unfold T; lra).
  assert (Hr2 : 0 <= total ms / (2 * T) <= 1 / 2).
  { split; [apply Rmult_le_pos; [lra|left; apply Rinv_0_lt_compat; lra]|].
    apply (Rmult_le_reg_r (2 * T)); [lra|]. unfold Rdiv at 1. rewrite Rmult_assoc, Rinv_l by lra. unfold T. lra. }
  assert (P : (total ms / (2 * T)) ^ 32 <= (1 / 2) ^ 32) by (apply pow_incr; lra).
  assert (P0 : 0 <= (total ms / (2 * T)) ^ 32) by (apply pow_le; lra).
  replace (q / 2 ^ 31) with (2 * q * (1 / 2) ^ 32) by field.
  apply Rmult_le_compat; lra.
Qed.
Example rambo_energy_far_case : exists o, rambo_new 10 [1; 2] = Ret o /\ 2 * total [1; 2] <= 10
  /\ Forall (draw_ok [1; 2]) [back_to_back].
Proof. eexists. split; [reflexivity|]. split; [cbn; lra|]. repeat (apply Forall_cons; [apply bb_draw|]); apply Forall_nil. Qed.
Print Assumptions rambo_energy_far.

(** What one back-to-back event becomes. *)
Lemma bb_generate o eps m1 m2 : 0 < cme o -> masses o = [m1; m2] ->
  generate o eps (fun _ => 1) [back_to_back] =
  let* evs := scale_loop 5 (sqrt eps) (cme o) [m1; m2]
                [([V4 (cme o / 2) 0 0 (cme o / 2); V4 (cme o / 2) 0 0 (- (cme o / 2))], xi0 o)] in
  Ret (map (fun ps => (ps, weight o ps * 1)) (map (fun ex => rescale [m1; m2] (fst ex) (snd ex)) evs)).
Proof.
  intros Hq Hm. unfold generate, correct_masses, compute_scale_factor. cbn [map]. rewrite bb_boost by assumption.
  rewrite Hm. destruct (scale_loop _ _ _ _ _); reflexivity.
Qed.

(** C16 fails after a setter call: Rambo(10, [4, 4]) with cme set to 25 produces an event whose
    energies add up to more than 25.3, although the tolerance is below 2^-25. *)
Theorem rambo_energy_setter_refuted : exists o o' eps ew,
  rambo_new 10 [4; 4] = Ret o /\ set_cme o 25 = Ret o' /\ eps = / 2 ^ 52 /\
  generate o' eps (fun _ => 1) [back_to_back] = Ret [ew] /\ 25.3 < total (map en (fst ew)).
Proof.
  do 2 eexists. exists (/ 2 ^ 52). eexists. split; [reflexivity|]. split; [reflexivity|]. split; [reflexivity|]. split.
  - rewrite (bb_generate _ _ 4 4); cbn [cme masses xi0]; [|lra|reflexivity].
    rewrite scale_loop_S. cbn zeta. cbn [map np_max fold_left bind fst snd].
    replace (sqrt (1 - (total [4; 4] / 10) ^ 2)) with (3 / 5).
    2:{ cbn [total fold_right]. replace (1 - ((4 + (4 + 0)) / 10) ^ 2) with (3 / 5 * (3 / 5)) by field. symmetry. apply sqrt_square. lra. }
    assert (Ef : newton_f 25 [4; 4] [V4 (25 / 2) 0 0 (25 / 2); V4 (25 / 2) 0 0 (- (25 / 2))] (3 / 5) = -8).
    { unfold newton_f, hypot. cbn [combine map fst snd en total fold_right].
      replace (25 / 2 * (3 / 5) * (25 / 2 * (3 / 5)) + 4 * 4) with (17 / 2 * (17 / 2)) by field.
      rewrite sqrt_square by lra. lra. }
    assert (Ed : newton_df [4; 4] [V4 (25 / 2) 0 0 (25 / 2); V4 (25 / 2) 0 0 (- (25 / 2))] (3 / 5) = 375 / 17).
    { unfold newton_df, hypot. cbn [combine map fst snd en total fold_right].
      replace (25 / 2 * (3 / 5) * (25 / 2 * (3 / 5)) + 4 * 4) with (17 / 2 * (17 / 2)) by field.
      rewrite sqrt_square by lra. lra. }
    rewrite Ef, Ed. destruct (Rlt_dec (-8) (sqrt (/ 2 ^ 52))) as [_|K].
    + cbn [bind map fst snd]. reflexivity.
    + exfalso. apply K. pose proof (sqrt_pos (/ 2 ^ 52)). lra.
  - cbn [fst]. rewrite <- vsum_en, rescale_energy. unfold energies, pairs. cbn [combine map fst snd en total fold_right].
    replace (25 / 2 * (3 / 5 - -8 / (375 / 17))) with (361 / 30) by field.
    enough (12.66 < hypot (361 / 30) 4) by lra.
    pose proof (hypot_sq (361 / 30) 4). pose proof (hypot_pos (361 / 30) 4).
    destruct (Rlt_dec 12.66 (hypot (361 / 30) 4)); [assumption|]. exfalso. nra.
Qed.
Print Assumptions rambo_energy_setter_refuted.

(** C16 also fails for a fresh integrator: five iterations do not reach the tolerance close to
    threshold when one particle is much lighter than the other.  Each step at best halves the scale
    factor while the momenta stay below the lighter mass. *)
Definition cme_w : R := 10 ^ 10 + 1.
Definition m1_w : R := 4 * 10 ^ 5.
Definition m2_w : R := 10 ^ 10 - 1 - m1_w.
Lemma slow_one e m xi : 0 < e -> 0 < m -> 0 < xi -> e * xi <= m / 4 ->
  hypot (e * xi) m - m <= 0.51 * (xi * (xi * e ^ 2 / hypot (e * xi) m)).
Proof.
  intros He Hm Hx Hs. pose proof (hypot_gt e m xi He Hx) as Hh. pose proof (hypot_sq (e * xi) m) as S.
  set (h := hypot (e * xi) m) in *. replace (xi * (xi * e ^ 2 / h)) with ((h ^ 2 - m ^ 2) / h) by (rewrite S; field; lra).
  assert (U : h <= 1.04 * m).
  { destruct (Rle_dec h (1.04 * m)); [assumption|]. exfalso. assert ((e * xi) ^ 2 <= (m / 4) ^ 2) by (apply pow_incr; nra). nra. }
  assert (m <= h) by (apply hypot_ge; lra).
  apply (Rmult_le_reg_r h); [assumption|]. replace (0.51 * ((h ^ 2 - m ^ 2) / h) * h) with (0.51 * (h ^ 2 - m ^ 2)) by (field; lra).
  nra.
Qed.
Definition pair_w : list vec := [V4 (cme_w / 2) 0 0 (cme_w / 2); V4 (cme_w / 2) 0 0 (- (cme_w / 2))].
Lemma slow_step xi : 0 < xi <= 2 * 10 ^ 5 / cme_w ->
  0.49 * xi <= xi - newton_f cme_w [m1_w; m2_w] pair_w xi / newton_df [m1_w; m2_w] pair_w xi.
Proof.
  intros [Hx Hs]. rewrite newton_f_pairs, newton_df_pairs.
  assert (Hc : 0 < cme_w / 2) by (unfold cme_w; lra).
  assert (Hxc : cme_w / 2 * xi <= 10 ^ 5).
  { apply (Rmult_le_compat_l (cme_w / 2)) in Hs; [|lra]. replace (cme_w / 2 * (2 * 10 ^ 5 / cme_w)) with (10 ^ 5) in Hs by (field; unfold cme_w; lra). exact Hs. }
  assert (H1 : 0 < m1_w) by (unfold m1_w; lra). assert (H2 : 0 < m2_w) by (unfold m2_w, m1_w; lra).
  pose proof (slow_one (cme_w / 2) m1_w xi Hc H1 Hx ltac:(unfold m1_w; lra)) as A1.
  pose proof (slow_one (cme_w / 2) m2_w xi Hc H2 Hx ltac:(unfold m2_w, m1_w; lra)) as A2.
  assert (D : 0 < slope (pairs [m1_w; m2_w] pair_w) xi).
  { apply slope_pos; [|discriminate|assumption]. apply pairs_particles.
    - intros p [<-|[<-|[]]]; cbn [en]; lra.
    - intros m [<-|[<-|[]]]; lra. }
  set (d := slope (pairs [m1_w; m2_w] pair_w) xi) in *.
  assert (Ed : d = xi * (cme_w / 2) ^ 2 / hypot (cme_w / 2 * xi) m1_w + xi * (cme_w / 2) ^ 2 / hypot (cme_w / 2 * xi) m2_w).
  { unfold d, slope, pairs, pair_w. cbn [combine map fst snd en total fold_right]. ring. }
  assert (Ef : energies (pairs [m1_w; m2_w] pair_w) xi - cme_w <= 0.51 * (xi * d)).
  { unfold energies, pairs, pair_w. cbn [combine map fst snd en total fold_right]. rewrite Ed.
    set (h1 := hypot (cme_w / 2 * xi) m1_w) in *. set (h2 := hypot (cme_w / 2 * xi) m2_w) in *.
    assert (m1_w + m2_w <= cme_w) by (unfold m2_w, cme_w; lra). lra. }
  enough ((energies (pairs [m1_w; m2_w] pair_w) xi - cme_w) / d <= 0.51 * xi) by lra.
  apply (Rmult_le_reg_r d); [assumption|]. unfold Rdiv at 1. rewrite Rmult_assoc, Rinv_l by lra. lra.
Qed.
Lemma slow_defect xi : 2824 <= cme_w / 2 * xi -> 7 < newton_f cme_w [m1_w; m2_w] pair_w xi.
Proof.
  intro H. rewrite newton_f_pairs. unfold energies, pairs, pair_w. cbn [combine map fst snd en total fold_right].
  set (a := cme_w / 2 * xi) in *.
  assert (A2 : m2_w <= hypot a m2_w) by (apply hypot_ge; unfold m2_w, m1_w; lra).
  enough (m1_w + 9.5 < hypot a m1_w) by (unfold m2_w, m1_w, cme_w in *; lra).
  pose proof (hypot_sq a m1_w) as S. pose proof (hypot_pos a m1_w) as P.
  assert (2824 ^ 2 <= a ^ 2) by (apply pow_incr; lra).
  destruct (Rlt_dec (m1_w + 9.5) (hypot a m1_w)); [assumption|]. exfalso.
  assert (hypot a m1_w ^ 2 <= (m1_w + 9.5) ^ 2) by (apply pow_incr; lra).
  unfold m1_w in *. lra.
Qed.
Lemma slow_loop : forall k xi, 0 < xi <= 2 * 10 ^ 5 / cme_w -> 2824 <= 0.49 ^ k * (cme_w / 2 * xi) ->
  exists xi', scale_loop k (sqrt (/ 2 ^ 52)) cme_w [m1_w; m2_w] [(pair_w, xi)] = Ret [(pair_w, xi')] /\ 2824 <= cme_w / 2 * xi'.
Proof.
  assert (St : sqrt (/ 2 ^ 52) <= 1).
  { rewrite <- sqrt_1. apply sqrt_le_1_alt. rewrite <- Rinv_1. apply Rinv_le_contravar; [lra|]. apply pow_R1_Rle. lra. }
  assert (Hc : 0 < cme_w / 2) by (unfold cme_w; lra).
  induction k as [|k IH]; intros xi Hx Hk.
  - exists xi. split; [reflexivity|]. cbn [pow] in Hk. lra.
  - assert (Pk : 0 < 0.49 ^ k) by (apply pow_lt; lra).
    assert (Pk1 : 0.49 ^ S k <= 1).
    { rewrite <- (pow1 (S k)). apply pow_incr. lra. }
    assert (Pa : 0 < cme_w / 2 * xi) by (apply Rmult_lt_0_compat; lra).
    assert (Hd : 2824 <= cme_w / 2 * xi) by nra.
    pose proof (slow_defect xi Hd) as Hf. pose proof (slow_step xi Hx) as Hs.
    rewrite scale_loop_S. cbn zeta. cbn [map np_max fold_left bind fst snd].
    set (f := newton_f cme_w [m1_w; m2_w] pair_w xi) in *. set (d := newton_df [m1_w; m2_w] pair_w xi) in *.
    assert (Dp : 0 < d).
    { unfold d. rewrite newton_df_pairs. apply slope_pos; [|discriminate|lra]. apply pairs_particles.
      - intros p [<-|[<-|[]]]; cbn [en]; lra.
      - intros m [<-|[<-|[]]]; unfold m2_w, m1_w; lra. }
    assert (Fd : 0 < f / d) by (apply Rdiv_lt_0_compat; lra).
    destruct (Rlt_dec f (sqrt (/ 2 ^ 52))) as [K|_]; [exfalso; lra|].
    assert (Hx' : 0 < xi - f / d <= 2 * 10 ^ 5 / cme_w) by lra.
    assert (Hk' : 2824 <= 0.49 ^ k * (cme_w / 2 * (xi - f / d))).
    { eapply Rle_trans; [exact Hk|]. cbn [pow]. rewrite (Rmult_comm 0.49), Rmult_assoc. apply Rmult_le_compat_l; [lra|].
      replace (0.49 * (cme_w / 2 * xi)) with (cme_w / 2 * (0.49 * xi)) by ring. apply Rmult_le_compat_l; lra. }
    destruct (IH (xi - f / d) Hx' Hk') as (xi' & E1 & E2). exists xi'. split; [|assumption].
    destruct k; [|exact E1]. cbn [scale_loop] in E1. injection E1 as E1. now rewrite E1.
Qed.
Theorem rambo_energy_fresh_refuted : exists o eps ew,
  rambo_new cme_w [m1_w; m2_w] = Ret o /\ 0 < m1_w /\ 0 < m2_w /\ cme_w - (m1_w + m2_w) = 2 /\ eps = / 2 ^ 52 /\
  generate o eps (fun _ => 1) [back_to_back] = Ret [ew] /\ cme_w + 7 < total (map en (fst ew)).
Proof.
  assert (Ht : total [m1_w; m2_w] = 10 ^ 10 - 1) by (cbn [total fold_right]; unfold m2_w; lra).
  assert (Hxi : sqrt (1 - (total [m1_w; m2_w] / cme_w) ^ 2) = 2 * 10 ^ 5 / cme_w).
  { rewrite Ht. replace (1 - ((10 ^ 10 - 1) / cme_w) ^ 2) with (2 * 10 ^ 5 / cme_w * (2 * 10 ^ 5 / cme_w)).
    - apply sqrt_square. apply Rmult_le_pos; [lra|]. left. apply Rinv_0_lt_compat. unfold cme_w. lra.
    - unfold cme_w. field. }
  assert (Hc : 0 < cme_w) by (unfold cme_w; lra).
  destruct (slow_loop 5 (2 * 10 ^ 5 / cme_w)) as (xi' & E & H).
  - split; [|lra]. apply Rdiv_lt_0_compat; lra.
  - replace (cme_w / 2 * (2 * 10 ^ 5 / cme_w)) with (10 ^ 5) by (field; lra). lra.
  - eexists. exists (/ 2 ^ 52). eexists. split; [reflexivity|].
    split; [unfold m1_w; lra|]. split; [unfold m2_w, m1_w; lra|]. split; [unfold m2_w, m1_w, cme_w; lra|]. split; [reflexivity|]. split.
    + rewrite (bb_generate _ _ m1_w m2_w); cbn [cme masses xi0]; [|lra|reflexivity].
      rewrite Hxi. fold pair_w. rewrite E. cbn [bind map fst snd]. reflexivity.
    + cbn [fst]. rewrite <- vsum_en, rescale_energy. pose proof (slow_defect xi' H) as D. rewrite newton_f_pairs in D. lra.
Qed.
Print Assumptions rambo_energy_fresh_refuted.

(** C17.  The batches cover n events and no batch is superfluous; all batches have the requested size
    by [rambo_shell]. *)
Theorem rambo_batches : forall n b, (0 <= n)%Z -> (0 < b)%Z ->
  exists k, niters n b = Ret k /\ (n <= k * b)%Z /\ ((k - 1) * b < n \/ k = 0)%Z /\ (0 <= k)%Z.
Proof.
  intros n b Hn Hb. unfold niters. destruct (Z.eqb_spec b 0); [lia|]. eexists. split; [reflexivity|].
  pose proof (Z.div_mod n b ltac:(lia)) as D. pose proof (Z.mod_pos_bound n b Hb) as M.
  assert (P : (0 <= n / b)%Z) by (apply Z.div_pos; lia).
  destruct (Z.eqb_spec (b * (n / b)) n) as [E|E].
  - rewrite Z.add_0_r, Z.max_r by lia. split; [lia|]. split; [|lia].
    destruct (Z.eq_dec (n / b) 0); [right; assumption|left; nia].
  - rewrite Z.max_r by lia. split; [nia|]. split; [left; nia|lia].
Qed.
Example rambo_batches_case : niters 25 10 = Ret 3%Z /\ niters 30 10 = Ret 3%Z /\ niters 0 10 = Ret 0%Z /\ niters 5 0 = Raise ZeroDivisionError.
Proof. repeat split. Qed.
Print Assumptions rambo_batches.

(** C71.  The weight of a two-body event is the two-body phase space p / (4 pi E), and massless
    events all carry the massless n-body volume. *)
Theorem rambo_two_body_weight : forall q m1 m2 o p E1 E2,
  rambo_new q [m1; m2] = Ret o -> 0 < q -> 0 < E1 -> 0 < E2 -> 0 < modsqr p ->
  weight o [V4 E1 (px p) (py p) (pz p); V4 E2 (- px p) (- py p) (- pz p)] = sqrt (modsqr p) / (4 * PI * (E1 + E2)).
Proof.
  intros q m1 m2 o p E1 E2 Ho Hq H1 H2 Hp. cbn in Ho. injection Ho as <-. unfold weight.
  cbn [masses cme base_wgt length map total fold_right modsqr en px py pz]. unfold modsqr. cbn [px py pz en].
  replace ((- px p) ^ 2 + (- py p) ^ 2 + (- pz p) ^ 2) with (px p ^ 2 + py p ^ 2 + pz p ^ 2) by ring.
  fold (modsqr p). set (k := sqrt (modsqr p)).
  assert (Hk : 0 < k) by now apply sqrt_lt_R0.
  assert (Ek : modsqr p = k ^ 2) by (unfold k; rewrite pow2_sqrt; lra). rewrite Ek.
  pose proof PI_RGT_0. change (2 * 2 - 3)%nat with 1%nat. unfold factorial. cbn.
  clear Ek Hp. clearbody k. replace 0.5 with (1 / 2) by lra. field. repeat split; try lra. apply Rgt_not_eq. assert (0 < k * k) by now apply Rmult_lt_0_compat. nra. 
Qed.
Example rambo_two_body_weight_case : exists o, rambo_new 10 [4; 4] = Ret o /\ 0 < modsqr (V4 5 0 0 3).
Proof. eexists. split; [reflexivity|]. unfold modsqr. cbn. lra. Qed.
Print Assumptions rambo_two_body_weight.

(** Massless phase space of n = k + 2 particles by the textbook recursion. *)
Fixpoint volume_from_two (q : R) (k : nat) : R :=
  match k with
  | O => 1 / (8 * PI)
  | S k => volume_from_two q k * q ^ 2 / (16 * PI ^ 2 * INR (S (S k)) * INR (S k))
  end.
Definition massless_volume (q : R) (n : nat) : R := volume_from_two q (n - 2).
Theorem rambo_massless_weight : forall q ms o ps, rambo_new q ms = Ret o -> 0 < q -> length ps = length ms ->
  (forall p, In p ps -> massless p /\ 0 < en p) -> total (map en ps) = q ->
  weight o ps = massless_volume q (length ms).
Proof.
  intros q ms o ps Ho Hq Hl Hp Ht. unfold rambo_new in Ho.
  destruct (compute_base_weight q (length ms)) as [w|] eqn:Ew; [|discriminate]. cbn [bind] in Ho. injection Ho as <-.
  assert (Hw : w = massless_volume q (length ms)).
  { unfold compute_base_weight in Ew. destruct (Nat.ltb_spec (length ms) 2) as [H|H]; [discriminate|].
    apply (f_equal (fun r => match r with Ret x => x | _ => 0 end)) in Ew. cbv beta iota zeta in Ew. rewrite <- Ew. clear Ew.
    generalize dependent (length ms). clear - Hq. intros n _ H.
    pose proof PI_RGT_0. destruct n as [|[|n]]; [lia|lia|]. clear H. induction n as [|n IH].
    - cbn. unfold factorial. cbn. replace 0.5 with (1 / 2) by lra. field. lra.
    - unfold massless_volume in *. replace (S (S (S n)) - 2)%nat with (S n) by lia.
      replace (S (S n) - 2)%nat with n in * by lia. cbn [volume_from_two]. rewrite <- IH.
      replace (S (S (S n)) - 1)%nat with (S (S n)) by lia. replace (S (S n) - 1)%nat with (S n) by lia.
      replace (2 * S (S (S n)) - 4)%nat with (2 + (2 * S (S n) - 4))%nat by lia.
      replace (3 * S (S (S n)) - 4)%nat with (3 + (3 * S (S n) - 4))%nat by lia.
      unfold factorial. rewrite fact_simpl, mult_INR.
      replace ((0.5 * PI) ^ S (S n)) with (0.5 * PI * (0.5 * PI) ^ (S n)) by reflexivity. rewrite !pow_add.
      assert (INR (S n) <> 0) by (apply not_0_INR; lia). assert (INR (S (S n)) <> 0) by (apply not_0_INR; lia).
      assert (INR (fact n) <> 0) by (apply not_0_INR, fact_neq_0).
      set (a := (0.5 * PI) ^ (S n)). set (b := q ^ (2 * S (S n) - 4)). set (c := (0.5 / PI) ^ (3 * S (S n) - 4)).
      replace 0.5 with (1 / 2) by lra. field. repeat split; try assumption; lra. }
  rewrite <- Hw. unfold weight. cbn [masses cme base_wgt].
  assert (Hm : forall p, In p ps -> modsqr p = en p ^ 2 /\ sqrt (modsqr p) = en p /\ 0 < en p).
  { intros p Hin. destruct (Hp p Hin) as [A B]. unfold massless, modsqr in *. rewrite <- A. split; [reflexivity|].
    split; [|assumption]. apply sqrt_pow2. lra. }
  assert (T1 : total (map (fun p => sqrt (modsqr p) / q) ps) = total (map en ps) / q).
  { clear - Hm Hq. induction ps as [|p ps IH]; cbn [map]; [cbn; field; lra|]. rewrite !total_cons, IH by (intros; apply Hm; now right).
    destruct (Hm p ltac:(now left)) as (_ & -> & _). field. lra. }
  assert (T2 : total (map (fun p => modsqr p / en p) ps) = total (map en ps)).
  { clear - Hm. induction ps as [|p ps IH]; cbn [map]; [reflexivity|]. rewrite !total_cons, IH by (intros; apply Hm; now right).
    destruct (Hm p ltac:(now left)) as (-> & _ & ?). f_equal. field. lra. }
  assert (T3 : fold_right Rmult 1 (map (fun p => sqrt (modsqr p) / en p) ps) = 1).
  { clear - Hm. induction ps as [|p ps IH]; cbn [map fold_right]; [reflexivity|]. rewrite IH by (intros; apply Hm; now right).
    destruct (Hm p ltac:(now left)) as (_ & -> & ?). field. lra. }
  rewrite T1, T2, T3, Ht. replace (q / q) with 1 by (field; lra). rewrite pow1. field. lra.
Qed.
Example rambo_massless_weight_case : let ps := [V4 3 0 0 3; V4 4 4 0 0; V4 5 (-4) 0 (-3)] in
  (exists o, rambo_new 12 [0; 0; 0] = Ret o) /\ (forall p, In p ps -> massless p /\ 0 < en p) /\ total (map en ps) = 12.
Proof.
  cbn zeta. split; [eexists; reflexivity|]. split.
  - intros p [<-|[<-|[<-|[]]]]; unfold massless; cbn [en px py pz]; split; lra.
  - cbn. lra.
Qed.
Print Assumptions rambo_massless_weight.
