(** C102-C107: the constraints of the scalar mediator. *)
From Coq Require Import String Reals Lra Psatz Bool List.
From Verif Require Import PyBase KinModel MedModel MedProofs MedStateModel MedStateProps VffModel SpenceProofs RareModel RareProofs.
Import ListNotations.
Local Open Scope R_scope.

(** * C102: rare meson decays *)

(** The six decays *)
Inductive rare : Type := B_K_invis | B_K_mumu | B_K_ee | K_pi_invis | KL_pi0_mumu | KL_pi0_ee.

Definition constraint_of (C : consts) (r : rare) : sobj -> res onum :=
  match r with
  | B_K_invis => constraint_B_k_invis C
  | B_K_mumu => constraint_B_k_mu_mu C
  | B_K_ee => constraint_B_k_e_e C
  | K_pi_invis => constraint_k_pi_invis C
  | KL_pi0_mumu => constraint_kl_pi0_mu_mu C
  | KL_pi0_ee => constraint_kl_pi0_e_e C
  end.

(** Masses of the decaying meson and of the meson it leaves behind, in MeV *)
Definition parent (r : rare) : R :=
  match r with B_K_invis | B_K_mumu | B_K_ee => 5279.29 | K_pi_invis => 493.677 | _ => 497.611 end.
Definition daughter (r : rare) : R :=
  match r with B_K_invis | B_K_mumu | B_K_ee => 493.677 | K_pi_invis => 139.57039 | _ => 134.9768 end.

(** The width into the final state that measurement and standard model leave room for: the difference of the
    branching fractions times the width of the meson *)
Definition allowed (r : rare) : R :=
  match r with
  | B_K_invis => (16 - 3.8) / 10 ^ 6 * (4.35 / 10 ^ 10)
  | B_K_mumu => (5.4 - 2.3) / 10 ^ 7 * (4.35 / 10 ^ 10)
  | B_K_ee => (5.4 / 1.03 - 2.3) / 10 ^ 7 * (4.35 / 10 ^ 10)
  | K_pi_invis => (1.73 + 1.15 - 0.78) / 10 ^ 10 * (5.32 / 10 ^ 14)
  | KL_pi0_mumu => (38 - 1.2) / 10 ^ 11 * (1.29 / 10 ^ 14)
  | KL_pi0_ee => (28 - 2.4) / 10 ^ 11 * (1.29 / 10 ^ 14)
  end.

(** The path, in cm, after which the decay of the mediator is not seen (invisible modes) or not taken as coming
    from the vertex (the others) *)
Definition radius (r : rare) : R :=
  match r with B_K_invis => 320 | K_pi_invis => 145 | B_K_mumu | B_K_ee => 0.5 | _ => 0.1 end.

(** Where the experiment looks: in the invariant mass of what the meson left behind recoils against, or in the
    momentum of the pion *)
Definition observed (r : rare) (ms p : R) : Prop :=
  match r with
  | B_K_invis => ms ^ 2 <= 0.3 * parent r ^ 2
  | B_K_mumu => 4 * 105.6583745 ^ 2 <= ms ^ 2 <= 8.68 * 10 ^ 6 \/ 10.09 * 10 ^ 6 <= ms ^ 2 <= 12.86 * 10 ^ 6 \/
                14.18 * 10 ^ 6 <= ms ^ 2 <= (parent r - daughter r) ^ 2
  | B_K_ee => 8.11 * 10 ^ 6 <= ms ^ 2 <= 10.03 * 10 ^ 6 \/ 12.15 * 10 ^ 6 <= ms ^ 2 <= 14.11 * 10 ^ 6
  | K_pi_invis => 211 <= p <= 229 \/ 140 <= p <= 195
  | KL_pi0_mumu => ms <= 350
  | KL_pi0_ee => 140 <= ms <= 362.7
  end.

(** The width of the meson into a mediator *)
Definition production (C : consts) (r : rare) (o : sobj) : R :=
  match r with
  | B_K_invis | B_K_mumu | B_K_ee => width_B_k_s o
  | K_pi_invis => width_k_pi_s o
  | _ => width_kl_pi0_s o
  end.

(** The fraction of the mediators that counts, if [F x] of them reach the path [x]: all that go to dark matter and
    the others once out of reach; or those that go to the leptons in time *)
Definition counted (C : consts) (r : rare) (P : sparams) (F : R -> R) : R :=
  let total := s_width_sum C P in
  let late := F (radius r * cm_to_inv_MeV) in
  match r with
  | B_K_invis | K_pi_invis => width_s_to_xx P / total + (1 - width_s_to_xx P / total) * late
  | B_K_mumu | KL_pi0_mumu => width_s_to_ff_mass C P (c_mmu C) / total * (1 - late)
  | B_K_ee | KL_pi0_ee => width_s_to_ff_mass C P (c_me C) / total * (1 - late)
  end.

Lemma window_spec obs ms : in_window obs ms = true <-> exists lo hi, In (lo, hi) (s_bounds obs) /\ lo <= ms ^ 2 <= hi.
Proof.
  unfold in_window. rewrite existsb_exists. split.
  - intros [[lo hi] [Hin H]]. cbn [fst snd] in H. exists lo, hi. split; [assumption|].
    destruct (Rle_dec lo (ms ^ 2)); [|discriminate]. destruct (Rle_dec (ms ^ 2) hi); [|discriminate]. lra.
  - intros (lo & hi & Hin & H1 & H2). exists (lo, hi). split; [assumption|]. cbn [fst snd].
    destruct (Rle_dec lo (ms ^ 2)); [|contradiction]. destruct (Rle_dec (ms ^ 2) hi); [reflexivity|contradiction].
Qed.

(** A pion of momentum [p] is slower than one of momentum [q] when the recoiling mass is larger *)
Lemma pion_order ms p q : recoil m_k m_pi ms p -> 0 <= q ->
  (p <= q <-> m_k ^ 2 + m_pi ^ 2 - 2 * m_k * sqrt (m_pi ^ 2 + q ^ 2) <= ms ^ 2).
Proof.
  intros H Hq. destruct (recoil_energy m_k m_pi ms p ltac:(unfold m_k; lra) H) as [_ He]. destruct H as [Hp _].
  assert (Hk : 0 < m_k) by (unfold m_k; lra).
  split; intro Hle.
  - assert (sqrt (m_pi ^ 2 + p ^ 2) <= sqrt (m_pi ^ 2 + q ^ 2)) by (apply sqrt_le_1_alt; nra). nra.
  - assert (Hs : sqrt (m_pi ^ 2 + p ^ 2) <= sqrt (m_pi ^ 2 + q ^ 2)) by nra.
    apply sqrt_le_0 in Hs; nra.
Qed.

Lemma s_of_pion_pos q : 0 <= q <= 211 -> 0 < m_k ^ 2 + m_pi ^ 2 - 2 * m_k * sqrt (m_pi ^ 2 + q ^ 2).
Proof.
  intro Hq. assert (sqrt (m_pi ^ 2 + q ^ 2) <= 253).
  { rewrite <- (sqrt_Rsqr 253) by lra. apply sqrt_le_1_alt. unfold m_pi, Rsqr. nra. }
  unfold m_k, m_pi in *. nra.
Qed.

Lemma observed_in r ms p : 0 <= ms -> recoil (parent r) (daughter r) ms p ->
  (observed r ms p <->
   in_window (match r with B_K_invis => B_k_invis_obs | B_K_mumu => B_k_mu_mu_obs | B_K_ee => B_k_e_e_obs
              | K_pi_invis => k_pi_invis_obs | KL_pi0_mumu => kl_pi0_mu_mu_obs | KL_pi0_ee => kl_pi0_e_e_obs end) ms = true).
Proof.
  intros Hms Hr. rewrite window_spec. destruct r; cbn [observed parent daughter] in *;
    unfold B_k_invis_obs, B_k_mu_mu_obs, B_k_e_e_obs, k_pi_invis_obs, kl_pi0_mu_mu_obs, kl_pi0_e_e_obs;
    cbn [s_bounds map fst snd].
  - split; [intro H|intros (lo & hi & [E|[]] & H)].
    + exists 0, (3 / 10 * m_B ^ 2). split; [now left|]. unfold m_B. split; nra.
    + injection E as <- <-. unfold m_B in H. nra.
  - unfold m_mu, m_B, m_k. split; [intros [H|[H|H]]|intros (lo & hi & [E|[E|[E|[]]]] & H); injection E as <- <-].
    + eexists _, _. split; [now left|]. split; lra.
    + eexists _, _. split; [right; now left|]. split; lra.
    + eexists _, _. split; [right; right; now left|]. split; lra.
    + left; split; lra.
    + right; left; split; lra.
    + right; right; split; lra.
  - split; [intros [H|H]|intros (lo & hi & [E|[E|[]]] & H); injection E as <- <-].
    + eexists _, _. split; [now left|]. split; lra.
    + eexists _, _. split; [right; now left|]. split; lra.
    + left; split; lra.
    + right; split; lra.
  - assert (Hr' : recoil m_k m_pi ms p) by (unfold m_k, m_pi; replace (493677 / 1000) with 493.677 by lra; replace (13957039 / 100000) with 139.57039 by lra; exact Hr).
    pose proof (fun q Hq => pion_order ms p q Hr' Hq) as Ho.
    destruct (recoil_energy m_k m_pi ms p ltac:(unfold m_k; lra) Hr') as [_ He].
    assert (Hge : forall q, 0 <= q <= 211 -> (q <= p <-> ms ^ 2 <= s_of_pion q)).
    { intros q Hq. pose proof (s_of_pion_pos q Hq) as Hpos. unfold s_of_pion. rewrite Rmax_left by lra.
      assert (Hk : 0 < m_k) by (unfold m_k; lra). destruct Hr' as [Hp _]. split; intro Hle.
      - assert (sqrt (m_pi ^ 2 + q ^ 2) <= sqrt (m_pi ^ 2 + p ^ 2)) by (apply sqrt_le_1_alt; nra). nra.
      - assert (Hs : sqrt (m_pi ^ 2 + q ^ 2) <= sqrt (m_pi ^ 2 + p ^ 2)) by nra. apply sqrt_le_0 in Hs; nra. }
    assert (Hle : forall q, 0 <= q -> (p <= q <-> s_of_pion q <= ms ^ 2)).
    { intros q Hq. rewrite (Ho q Hq). unfold s_of_pion. split; intro H.
      - apply Rmax_lub; [assumption|nra].
      - eapply Rle_trans; [apply Rmax_l|exact H]. }
    split; [intros [[H1 H2]|[H1 H2]]|intros (lo & hi & [E|[E|[]]] & H1 & H2); injection E as <- <-].
    + eexists _, _. split; [now left|]. split; [apply Hle; lra|apply Hge; lra].
    + eexists _, _. split; [right; now left|]. split; [apply Hle; lra|apply Hge; lra].
    + left. split; [apply Hge; lra|apply Hle; lra].
    + right. split; [apply Hge; lra|apply Hle; lra].
  - split; [intro H|intros (lo & hi & [E|[]] & H)].
    + exists 0, (350 ^ 2). split; [now left|]. split; nra.
    + injection E as <- <-. nra.
  - split; [intro H|intros (lo & hi & [E|[]] & H)].
    + exists (140 ^ 2), ((3627 / 10) ^ 2). split; [now left|]. split; nra.
    + injection E as <- <-. split; nra.
Qed.

Lemma exp_quot_survival w ms p F r : 0 < p -> survival w ms p F ->
  oexp_quot (- r * cm_to_inv_MeV * w * ms) p = Some (F (r * cm_to_inv_MeV)).
Proof.
  intros Hp HF. unfold oexp_quot. destruct (Req_EM_T p 0); [lra|].
  rewrite (survival_value w ms p F Hp HF). do 2 f_equal. field. lra.
Qed.

(** The constraint is the room left by the measurement, minus the width of the meson into mediators times the
    fraction of the mediators that counts: by energy and momentum conservation and by the decay law *)
Theorem rare_decay_constraint : forall C r o p F,
  let P := so_par o in
  s_has_width P -> s_width_sum C P <> 0 -> 0 <= s_ms P ->
  recoil (parent r) (daughter r) (s_ms P) p -> 0 < p -> survival (s_width_sum C P) (s_ms P) p F ->
  observed r (s_ms P) p ->
  constraint_of C r o = Ret (Some (allowed r - production C r o * counted C r P F)).
Proof.
  intros C r o p F P HP Hw Hms Hr Hp HF Ho.
  apply (observed_in r (s_ms P) p Hms Hr) in Ho.
  assert (Hmom : s_momentum (parent r) (daughter r) (s_ms P) = Some p)
    by (apply recoil_momentum; [destruct r; cbn; lra|exact Hr]).
  destruct r; cbn [constraint_of production counted radius parent daughter] in *;
    unfold constraint_B_k_invis, constraint_B_k_mu_mu, constraint_B_k_e_e, constraint_k_pi_invis,
      constraint_kl_pi0_mu_mu, constraint_kl_pi0_e_e; fold P; rewrite Ho, (widths_ok C o HP); fold P;
    cbn [bind dindex dget String.eqb Ascii.eqb Bool.eqb]; do 2 f_equal;
    unfold m_B, m_k, m_kl, m_pi, m_pi0 in *;
    first [replace (527929 / 100) with 5279.29 by lra; replace (493677 / 1000) with 493.677 by lra; rewrite Hmom
          |replace (493677 / 1000) with 493.677 by lra; replace (13957039 / 100000) with 139.57039 by lra; rewrite Hmom
          |replace (497611 / 1000) with 497.611 by lra; replace (1349768 / 10000) with 134.9768 by lra; rewrite Hmom];
    cbn [obind]; rewrite (exp_quot_survival _ _ _ F _ Hp HF); cbn [obind];
    unfold odiv; destruct (Req_EM_T (s_width_sum C P) 0); try contradiction; cbn [obind];
    do 1 f_equal; cbn [r_max width_bound B_k_invis_obs B_k_mu_mu_obs B_k_e_e_obs k_pi_invis_obs kl_pi0_mu_mu_obs kl_pi0_e_e_obs].
  all: unfold allowed, B_width, k_width, kl_width, br_B_k_mu_mu_SM.
  all: try replace (5 / 10) with 0.5 by lra; try replace (1 / 10 * cm_to_inv_MeV) with (0.1 * cm_to_inv_MeV) by lra.
  all: apply (f_equal2 Rminus); [lra|].
  all: try replace (5 / 10) with 0.5 by lra.
  all: match goal with HF : survival _ _ _ ?G |- context [?G ?x] => generalize (G x); intro late end.
  all: field; assumption.
Qed.

(** A mediator of 200 MeV that decays *)
Definition some_mediator : sobj := MkSobj ScalarMediator (MkS 250 200 1 1 0 1 1000 0) 0 0 0 0 0.
Lemma some_has_width : s_has_width (so_par some_mediator).
Proof. split; cbn; [lra|left; lra]. Qed.
Lemma sum_pos C P : 0 < s_ms P -> s_lam P <> 0 -> s_gsFF P <> 0 -> c_alpha C <> 0 -> 0 < s_width_sum C P.
Proof.
  intros Hm Hl Hf Ha. destruct (widths_nonneg C P) as (H1 & H2 & H3 & H4).
  pose proof (H4 (c_me C)). pose proof (H4 (c_mmu C)).
  assert (0 < width_s_to_gg C P); [|unfold s_width_sum; lra].
  unfold width_s_to_gg. positive.
Qed.
Lemma some_sum_pos : 0 < s_width_sum py_consts (so_par some_mediator).
Proof. apply sum_pos; cbn; lra. Qed.

Example rare_decay_constraint_ex : exists p F,
  s_has_width (so_par some_mediator) /\ s_width_sum py_consts (so_par some_mediator) <> 0 /\
  recoil (parent K_pi_invis) (daughter K_pi_invis) 200 p /\ 0 < p /\
  survival (s_width_sum py_consts (so_par some_mediator)) 200 p F /\ observed K_pi_invis 200 p.
Proof.
  destruct (recoil_exists 493.677 139.57039 200) as (p & Hr & Hp); try lra. specialize (Hp ltac:(lra)).
  exists p, (fun x => exp (- (s_width_sum py_consts (so_par some_mediator) * 200 * x) / p)).
  split; [exact some_has_width|]. split; [pose proof some_sum_pos; lra|]. split; [exact Hr|]. split; [exact Hp|].
  split; [now apply survival_exists|]. cbn [observed]. right.
  pose proof (recoil_product 493.677 139.57039 200 p ltac:(lra) Hr). split; nra.
Qed.
Print Assumptions rare_decay_constraint.

(** Outside the window, nothing is subtracted *)
Theorem rare_decay_unobserved : forall C r o p,
  0 <= s_ms (so_par o) -> recoil (parent r) (daughter r) (s_ms (so_par o)) p -> ~ observed r (s_ms (so_par o)) p ->
  constraint_of C r o = Ret (Some (allowed r)).
Proof.
  intros C r o p Hms Hr Ho. rewrite (observed_in r _ p Hms Hr) in Ho. apply Bool.not_true_is_false in Ho.
  destruct r; cbn [constraint_of] in *;
    unfold constraint_B_k_invis, constraint_B_k_mu_mu, constraint_B_k_e_e, constraint_k_pi_invis,
      constraint_kl_pi0_mu_mu, constraint_kl_pi0_e_e; rewrite Ho; do 2 f_equal;
    cbn [width_bound B_k_invis_obs B_k_mu_mu_obs B_k_e_e_obs k_pi_invis_obs kl_pi0_mu_mu_obs kl_pi0_e_e_obs];
    unfold allowed, B_width, k_width, kl_width, br_B_k_mu_mu_SM; lra.
Qed.
Example rare_decay_unobserved_ex : exists p, recoil (parent B_K_ee) (daughter B_K_ee) 200 p /\ ~ observed B_K_ee 200 p.
Proof.
  destruct (recoil_exists 5279.29 493.677 200) as (p & Hr & _); try lra. exists p. split; [exact Hr|].
  cbn [observed]. lra.
Qed.
Print Assumptions rare_decay_unobserved.

(** What is counted is a probability, so the constraint lies between the room left and that minus the whole width
    into mediators *)
Lemma counted_prob C r P p F : 0 <= s_ms P -> 0 < s_width_sum C P -> 0 < p -> survival (s_width_sum C P) (s_ms P) p F ->
  0 <= counted C r P F <= 1.
Proof.
  intros Hm Hw Hp HF.
  assert (Hcm : 0 <= cm_to_inv_MeV).
  { unfold cm_to_inv_MeV, m_to_inv_MeV, s_to_inv_MeV, speed_of_light, hbar_joule_sec, joule_to_mev. nonneg. }
  assert (HFr : 0 < F (radius r * cm_to_inv_MeV) <= 1).
  { apply (survival_prob (s_width_sum C P) (s_ms P) p F); try assumption; try lra.
    apply Rmult_le_pos; [destruct r; cbn; lra|assumption]. }
  destruct (widths_nonneg C P) as (H1 & H2 & H3 & H4). pose proof (H4 (c_me C)) as H5. pose proof (H4 (c_mmu C)) as H6.
  pose proof (gg_nonneg C P Hm) as H7.
  assert (Hfrac : forall w, 0 <= w -> w <= s_width_sum C P -> 0 <= w / s_width_sum C P <= 1).
  { intros w Ha Hb. split; [nonneg|]. apply (Rmult_le_reg_r (s_width_sum C P)); [assumption|].
    unfold Rdiv. rewrite Rmult_assoc, Rinv_l by lra. lra. }
  pose proof (Hfrac (width_s_to_xx P) H3 ltac:(unfold s_width_sum; lra)) as Hx.
  pose proof (Hfrac (width_s_to_ff_mass C P (c_me C)) H5 ltac:(unfold s_width_sum; lra)) as He.
  pose proof (Hfrac (width_s_to_ff_mass C P (c_mmu C)) H6 ltac:(unfold s_width_sum; lra)) as Hmu.
  destruct r; cbn [counted radius] in *;
    repeat match goal with H : context [F ?x] |- context [F ?x] => set (late := F x) in *; clearbody late end;
    repeat match goal with H : context [?a / s_width_sum C P] |- context [?a / s_width_sum C P] =>
      set (fr := a / s_width_sum C P) in *; clearbody fr end; nra.
Qed.

Lemma production_nonneg C r o : 0 <= production C r o.
Proof.
  assert (HB : 0 < m_B /\ 0 < m_k /\ 0 < m_kl) by (unfold m_B, m_k, m_kl; lra).
  destruct r; cbn [production]; unfold width_B_k_s, width_k_pi_s, width_kl_pi0_s;
    match goal with |- 0 <= (if ?b then _ else _) => destruct b end; try lra; nonneg;
    try (apply pow_le; lra); unfold cabs2; nra.
Qed.

Theorem rare_decay_range : forall C r o p,
  let P := so_par o in
  s_has_width P -> 0 < s_width_sum C P -> 0 <= s_ms P ->
  recoil (parent r) (daughter r) (s_ms P) p -> 0 < p ->
  exists c, constraint_of C r o = Ret (Some c) /\ allowed r - production C r o <= c <= allowed r /\
    (s_gsff P = 0 -> c = allowed r /\ 0 < c).
Proof.
  intros C r o p P HP Hw Hm Hr Hp. pose proof (production_nonneg C r o) as Hpr.
  pose proof (survival_exists (s_width_sum C P) (s_ms P) p Hp) as HF.
  set (F := fun x => exp (- (s_width_sum C P * s_ms P * x) / p)) in *.
  assert (Hz : s_gsff P = 0 -> production C r o = 0).
  { intro E. destruct r; cbn [production]; unfold width_B_k_s, width_k_pi_s, width_kl_pi0_s; fold P; rewrite E;
      match goal with |- (if ?b then _ else _) = _ => destruct b end; ring. }
  assert (Ha : 0 < allowed r) by (destruct r; unfold allowed; lra).
  destruct (Classical_Prop.classic (observed r (s_ms P) p)) as [Ho|Ho].
  - rewrite (rare_decay_constraint C r o p F HP ltac:(fold P; lra) Hm Hr Hp HF Ho). eexists. split; [reflexivity|].
    pose proof (counted_prob C r P p F Hm Hw Hp HF) as Hc. fold P. split.
    + set (q := counted C r P F) in *. clearbody q. nra.
    + intro E. rewrite (Hz E). lra.
  - rewrite (rare_decay_unobserved C r o p Hm Hr Ho). eexists. split; [reflexivity|]. split; [lra|].
    intros _. lra.
Qed.
Example rare_decay_range_ex : exists p, s_has_width (so_par some_mediator) /\ 0 < s_width_sum py_consts (so_par some_mediator) /\
  recoil (parent B_K_invis) (daughter B_K_invis) (s_ms (so_par some_mediator)) p /\ 0 < p.
Proof.
  destruct (recoil_exists 5279.29 493.677 200) as (p & Hr & Hp); try lra. exists p.
  split; [exact some_has_width|]. split; [exact some_sum_pos|]. split; [exact Hr|]. apply Hp. lra.
Qed.
Print Assumptions rare_decay_range.

(** Lengths: hbar c is 197.327 MeV fm, so a centimetre is 10^13 / 197.327 MeV^-1 *)
Theorem centimetre : 197.3269 < 10 ^ 13 / cm_to_inv_MeV < 197.3270.
Proof.
  pose proof PI_digits as [H1 H2].
  unfold cm_to_inv_MeV, m_to_inv_MeV, s_to_inv_MeV, speed_of_light, hbar_joule_sec, joule_to_mev.
  assert (Hp : 0 < PI) by apply PI_RGT_0.
  set (k := 10 ^ 15 * 299792458 * (662607015 / 10 ^ 42) / 2 * (10 ^ 28 / 1602176634) / 10 ^ 6).
  match goal with |- _ < ?x < _ => replace x with (k / PI) by (unfold k; field; lra) end.
  assert (E : k / PI * PI = k) by (field; lra).
  split; apply (Rmult_lt_reg_r PI); try assumption; rewrite E; unfold k; lra.
Qed.
Print Assumptions centimetre.

(** * C103: meson decays into the mediator *)

(** The coupling of the mediator to two down-type quarks of masses [m1], [m2], from the top-quark loop, without the
    mixing matrix and gsff *)
Definition loop (m1 m2 : R) : R := 3 * sqrt 2 * (m1 + m2) * (1.1663787 / 10 ^ 11) * 172900 ^ 2 / (32 * PI ^ 2 * 246227.95).
(** The matrix element of the scalar quark current between the mesons, up to the form factor *)
Definition current (mM m mq1 mq2 : R) : R := (mM ^ 2 - m ^ 2) / (mq1 - mq2).

(** The squared amplitude of meson -> meson + mediator *)
Definition squared_amplitude (r : rare) (P : sparams) : R :=
  match r with
  | B_K_invis | B_K_mumu | B_K_ee =>
      current 5279.29 493.677 4180 95 ^ 2 * (0.33 / (1 - s_ms P ^ 2 / 38000 ^ 2)) ^ 2
      * (loop 95 4180 ^ 2 * cabs2 Vts * cabs2 Vtb) * s_gsff P ^ 2
  | K_pi_invis => current 493.677 139.57039 95 4.67 ^ 2 * (loop 95 4.67 ^ 2 * cabs2 Vts * cabs2 Vtd) * s_gsff P ^ 2
  | _ => current 497.611 134.9768 95 4.67 ^ 2 * (loop 95 4.67 * snd (cmul (cconj Vts) Vtd)) ^ 2 * s_gsff P ^ 2
  end.

Lemma cabs2_mul a b : cabs2 (cmul a b) = cabs2 a * cabs2 b.
Proof. unfold cabs2, cmul. cbn. ring. Qed.
Lemma cabs2_conj a : cabs2 (cconj a) = cabs2 a.
Proof. unfold cabs2, cconj. cbn. ring. Qed.
Lemma cabs2_scale k a : cabs2 (cscale k a) = k ^ 2 * cabs2 a.
Proof. unfold cabs2, cscale. cbn. ring. Qed.
Lemma loop_eq m1 m2 : loop m1 m2 = 3 * sqrt 2 * (m1 + m2) * G_F * m_tq ^ 2 / (32 * PI ^ 2 * v_h).
Proof.
  unfold loop. replace 246227.95 with v_h by (unfold v_h; lra). replace (1.1663787 / 10 ^ 11) with G_F by (unfold G_F; lra).
  reflexivity.
Qed.
Lemma h_sb_abs : cabs2 h_sb = loop m_sq m_bq ^ 2 * cabs2 Vts * cabs2 Vtb.
Proof.
  unfold h_sb. rewrite loop_eq, cabs2_scale, cabs2_mul, cabs2_scale, cabs2_conj.
  unfold Rdiv. ring.
Qed.
Lemma h_sd_abs : cabs2 h_sd = loop m_sq m_dq ^ 2 * cabs2 Vts * cabs2 Vtd.
Proof.
  unfold h_sd. rewrite loop_eq, cabs2_scale, cabs2_mul, cabs2_scale, cabs2_conj.
  unfold Rdiv. ring.
Qed.
Lemma h_sd_im : snd h_sd = loop m_sq m_dq * snd (cmul (cconj Vts) Vtd).
Proof. rewrite loop_eq. unfold h_sd, cscale, cmul. cbn [fst snd]. unfold Rdiv. ring. Qed.

Lemma masses_eq : 5279.29 = m_B /\ 493.677 = m_k /\ 497.611 = m_kl /\ 139.57039 = m_pi /\ 134.9768 = m_pi0 /\ 4180 = m_bq /\ 95 = m_sq /\ 4.67 = m_dq.
Proof. unfold m_B, m_k, m_kl, m_pi, m_pi0, m_bq, m_sq, m_dq. repeat split; lra. Qed.

(** The width of a meson into the mediator and another meson is the two-body width with this amplitude; it is zero
    when the mediator is too heavy, and never negative *)
Theorem production_width : forall C r o p,
  let P := so_par o in
  0 <= s_ms P -> recoil (parent r) (daughter r) (s_ms P) p ->
  production C r o = two_body_width (parent r) p (squared_amplitude r P).
Proof.
  intros C r o p P Hm Hr.
  destruct (recoil_threshold (parent r) (daughter r) (s_ms P) p ltac:(destruct r; cbn; lra) Hm Hr) as [Hle _].
  pose proof (recoil_kallen (parent r) (daughter r) (s_ms P) p ltac:(destruct r; cbn; lra) Hr) as Hk.
  assert (Hp0 : s_ms P = parent r - daughter r -> p = 0).
  { intro E. pose proof (recoil_product (parent r) (daughter r) (s_ms P) p ltac:(destruct r; cbn; lra) Hr) as Hq. rewrite E in Hq.
    replace (parent r - daughter r - (parent r - daughter r)) with 0 in Hq by ring. rewrite !Rmult_0_l in Hq.
    destruct Hr as [Hp _]. assert (0 < parent r) by (destruct r; cbn; lra).
    destruct (Rle_lt_or_eq_dec 0 p Hp) as [Hlt| <-]; [|reflexivity]. exfalso.
    assert (Hc : 0 < (2 * parent r * p) ^ 2) by (apply pow_lt; positive). rewrite <- Hq in Hc. lra. }
  pose proof PI_RGT_0. destruct masses_eq as (EB & EK & EL & EP & E0 & Eb & Es & Ed).
  assert (HB : 0 < m_B /\ 0 < m_k /\ 0 < m_kl) by (unfold m_B, m_k, m_kl; lra).
  assert (Hf : f0_B (s_ms P) = 0.33 / (1 - s_ms P ^ 2 / 38000 ^ 2)) by (unfold f0_B; lra).
  destruct r; cbn [parent daughter production squared_amplitude] in *;
    rewrite ?EB, ?EK, ?EL, ?EP, ?E0 in *; rewrite ?Eb, ?Es, ?Ed; unfold two_body_width;
    unfold width_B_k_s, width_k_pi_s, width_kl_pi0_s; fold P; fold (current m_B m_k m_bq m_sq);
    fold (current m_k m_pi m_sq m_dq); fold (current m_kl m_pi0 m_sq m_dq);
    rewrite ?h_sb_abs, ?h_sd_abs, ?h_sd_im, <- ?Hf;
    match goal with |- (if ?b then _ else _) = _ => destruct b as [G|G] end; try lra;
    rewrite ?Hk; try (rewrite Hp0 by lra); field; lra.
Qed.
Example production_width_ex : exists p, recoil (parent KL_pi0_ee) (daughter KL_pi0_ee) (s_ms (so_par some_mediator)) p /\ 0 < p.
Proof. destruct (recoil_exists 497.611 134.9768 200) as (p & Hr & Hp); try lra. exists p. split; [exact Hr|]. apply Hp. lra. Qed.
Print Assumptions production_width.

Theorem production_closed : forall C r o, 0 <= s_ms (so_par o) ->
  parent r - daughter r < s_ms (so_par o) -> production C r o = 0.
Proof.
  intros C r o Hm Hlt. destruct masses_eq as (EB & EK & EL & EP & E0 & Eb & Es & Ed).
  destruct r; cbn [parent daughter production] in *; rewrite ?EB, ?EK, ?EL, ?EP, ?E0 in *;
    unfold width_B_k_s, width_k_pi_s, width_kl_pi0_s;
    match goal with |- (if ?b then _ else _) = _ => destruct b as [G|G] end; lra.
Qed.
Example production_closed_ex : parent K_pi_invis - daughter K_pi_invis < 360.
Proof. cbn. lra. Qed.
Print Assumptions production_closed.

(** * C107: the quark mixing matrix *)

(** The scalar product of rows [i] and [j], and of columns *)
Definition row_product (V : cmat) (i j : nat) : cplx :=
  cadd (cadd (cmul (V i 0%nat) (cconj (V j 0%nat))) (cmul (V i 1%nat) (cconj (V j 1%nat)))) (cmul (V i 2%nat) (cconj (V j 2%nat))).
Definition col_product (V : cmat) (i j : nat) : cplx :=
  cadd (cadd (cmul (V 0%nat i) (cconj (V 0%nat j))) (cmul (V 1%nat i) (cconj (V 1%nat j)))) (cmul (V 2%nat i) (cconj (V 2%nat j))).
Definition delta (i j : nat) : cplx := if Nat.eqb i j then (1, 0) else (0, 0).

(** The matrix for any three angles: unitary *)
Definition ckm_angles (s12 c12 s23 c23 c13 : R) (s13 : cplx) : cmat :=
  let r := creal in
  cmatmul (cmatmul
    (rows [[r 1; r 0; r 0]; [r 0; r c23; r s23]; [r 0; r (- s23); r c23]])
    (rows [[r c13; r 0; cconj s13]; [r 0; r 1; r 0]; [copp s13; r 0; r c13]]))
    (rows [[r c12; r s12; r 0]; [r (- s12); r c12; r 0]; [r 0; r 0; r 1]]).

Lemma angles_entries s12 c12 s23 c23 c13 x y : let V := ckm_angles s12 c12 s23 c23 c13 (x, y) in
  V 0%nat 0%nat = (c12 * c13, 0) /\ V 0%nat 1%nat = (s12 * c13, 0) /\ V 0%nat 2%nat = (x, - y) /\
  V 1%nat 0%nat = (- s23 * c12 * x - c23 * s12, - s23 * c12 * y) /\
  V 1%nat 1%nat = (- s23 * s12 * x + c23 * c12, - s23 * s12 * y) /\ V 1%nat 2%nat = (s23 * c13, 0) /\
  V 2%nat 0%nat = (- c23 * c12 * x + s23 * s12, - c23 * c12 * y) /\
  V 2%nat 1%nat = (- c23 * s12 * x - s23 * c12, - c23 * s12 * y) /\ V 2%nat 2%nat = (c23 * c13, 0).
Proof.
  cbv zeta. repeat split; unfold ckm_angles; cbv beta iota delta [cmatmul rows nth cadd cmul cconj copp creal fst snd];
    apply (f_equal2 pair); ring.
Qed.

Lemma angles_unitary s12 c12 s23 c23 c13 s13 :
  s12 ^ 2 + c12 ^ 2 = 1 -> s23 ^ 2 + c23 ^ 2 = 1 -> cabs2 s13 + c13 ^ 2 = 1 ->
  forall i j, (i < 3)%nat -> (j < 3)%nat ->
  row_product (ckm_angles s12 c12 s23 c23 c13 s13) i j = delta i j /\
  col_product (ckm_angles s12 c12 s23 c23 c13 s13) i j = delta i j.
Proof.
  intros H1 H2 H3 i j Hi Hj. destruct s13 as [x y]. unfold cabs2 in H3. cbn [fst snd] in H3.
  assert (E1 : c12 ^ 2 = 1 - s12 ^ 2) by lra. assert (E2 : c23 ^ 2 = 1 - s23 ^ 2) by lra.
  assert (E3 : c13 ^ 2 = 1 - x ^ 2 - y ^ 2) by lra. clear H1 H2 H3.
  unfold row_product, col_product, delta.
  destruct (angles_entries s12 c12 s23 c23 c13 x y) as (V00 & V01 & V02 & V10 & V11 & V12 & V20 & V21 & V22).
  set (V := ckm_angles s12 c12 s23 c23 c13 (x, y)) in *. clearbody V.
  destruct i as [|[|[|i]]]; try (exfalso; lia); destruct j as [|[|[|j]]]; try (exfalso; lia); cbn [Nat.eqb];
    rewrite ?V00, ?V01, ?V02, ?V10, ?V11, ?V12, ?V20, ?V21, ?V22;
    split; cbv beta iota delta [cadd cmul cconj fst snd]; apply (f_equal2 pair); ring [E1 E2 E3].
Qed.

(** The matrix is unitary for all parameters for which its sines are sines *)
Theorem ckm_unitary : forall lam a rhob etab,
  lam ^ 2 <= 1 -> (a * lam ^ 2) ^ 2 <= 1 -> cabs2 (ckm_s13d lam a (rhob, etab)) <= 1 ->
  forall i j, (i < 3)%nat -> (j < 3)%nat ->
  row_product (ckm_wolfenstein lam a rhob etab) i j = delta i j /\
  col_product (ckm_wolfenstein lam a rhob etab) i j = delta i j.
Proof.
  intros lam a rhob etab H1 H2 H3.
  assert (Hs : forall x, x <= 1 -> sqrt (1 - x) ^ 2 = 1 - x) by (intros x Hx; apply pow2_sqrt; lra).
  exact (angles_unitary lam (sqrt (1 - lam ^ 2)) (a * lam ^ 2) (sqrt (1 - (a * lam ^ 2) ^ 2))
           (sqrt (1 - cabs2 (ckm_s13d lam a (rhob, etab)))) (ckm_s13d lam a (rhob, etab))
           ltac:(rewrite Hs by assumption; ring) ltac:(rewrite Hs by assumption; ring) ltac:(rewrite Hs by assumption; ring)).
Qed.

Example ckm_unitary_ex : cabs2 (ckm_s13d 0.5 1 (0, 0)) <= 1 /\ 0.5 ^ 2 <= 1 /\ (1 * 0.5 ^ 2) ^ 2 <= 1.
Proof.
  split; [|lra]. unfold ckm_s13d, cdiv, cabs2. cbv beta iota delta [cscale cmul cconj fst snd].
  rewrite !Rmult_0_r, !Rmult_0_l. lra.
Qed.
Print Assumptions ckm_unitary.

(** The absolute value of [s13d] without square roots *)
Lemma s13d_form lam a rhob etab : lam ^ 2 < 1 ->
  let z := (rhob, etab) in
  let n := cadd (creal 1) (copp (cscale ((a * lam ^ 2) ^ 2) z)) in
  cabs2 n <> 0 ->
  exists x y : R, ckm_s13d lam a z = cscale (a * lam ^ 3 * sqrt (1 - (a * lam ^ 2) ^ 2) / sqrt (1 - lam ^ 2)) (x, y) /\
    cmul (x, y) n = z /\ x = fst (cmul z (cconj n)) / cabs2 n /\ y = snd (cmul z (cconj n)) / cabs2 n.
Proof.
  intros Hl z n Hn.
  exists (fst (cmul z (cconj n)) / cabs2 n), (snd (cmul z (cconj n)) / cabs2 n).
  assert (Hc : sqrt (1 - lam ^ 2) <> 0) by (intro E; apply sqrt_eq_0 in E; lra).
  split; [|split; [|split; reflexivity]].
  - unfold ckm_s13d. fold n. unfold cdiv. rewrite cabs2_scale.
    generalize (sqrt (1 - lam ^ 2)) (sqrt (1 - (a * lam ^ 2) ^ 2)) Hc. intros c12 c23 Hc'. clear Hc.
    generalize dependent n. intros [u v] Hn. subst z. unfold cabs2 in *.
    cbv beta iota delta [cscale cmul cconj fst snd] in *. apply (f_equal2 pair); field; auto.
  - generalize dependent n. intros [u v] Hn. subst z. unfold cabs2 in *.
    cbv beta iota delta [cscale cmul cconj fst snd] in *. apply (f_equal2 pair); field; auto.
Qed.

(** What the four parameters are: [lam] is the sine of the mixing of d and s, [a * lam] the ratio of Vcb to Vus, and
    rhob + i etab is the apex - Vud Vub* / (Vcd Vcb* ) of the unitarity triangle *)
Theorem ckm_parameters : forall lam a rhob etab,
  let V := ckm_wolfenstein lam a rhob etab in
  lam ^ 2 < 1 -> (a * lam ^ 2) ^ 2 <= 1 -> (1 - (a * lam ^ 2) ^ 2 * rhob <> 0 \/ (a * lam ^ 2) ^ 2 * etab <> 0) ->
  cabs2 (V 0 1)%nat = lam ^ 2 * (cabs2 (V 0 0)%nat + cabs2 (V 0 1)%nat) /\
  V 1%nat 2%nat = cscale (a * lam) (V 0 1)%nat /\
  cadd (cmul (V 0 0)%nat (cconj (V 0 2)%nat)) (cmul (rhob, etab) (cmul (V 1 0)%nat (cconj (V 1 2)%nat))) = (0, 0).
Proof.
  intros lam a rhob etab V Hl Ha Hn.
  assert (Hn' : cabs2 (cadd (creal 1) (copp (cscale ((a * lam ^ 2) ^ 2) (rhob, etab)))) <> 0).
  { unfold cabs2. cbv beta iota delta [cadd copp creal cscale fst snd]. rewrite Rplus_0_l.
    set (u := 1 + - ((a * lam ^ 2) ^ 2 * rhob)). set (v := - ((a * lam ^ 2) ^ 2 * etab)).
    intro E. assert (u = 0 /\ v = 0) as [Eu Ev] by (split; nra). subst u v. destruct Hn; lra. }
  destruct (s13d_form lam a rhob etab Hl Hn') as (x & y & Es & Em & _).
  assert (Hc : sqrt (1 - lam ^ 2) <> 0) by (intro E; apply sqrt_eq_0 in E; lra).
  assert (H12 : sqrt (1 - lam ^ 2) ^ 2 = 1 - lam ^ 2) by (apply pow2_sqrt; lra).
  assert (H23 : sqrt (1 - (a * lam ^ 2) ^ 2) ^ 2 = 1 - (a * lam ^ 2) ^ 2) by (apply pow2_sqrt; lra).
  pose proof (angles_entries lam (sqrt (1 - lam ^ 2)) (a * lam ^ 2) (sqrt (1 - (a * lam ^ 2) ^ 2))
    (sqrt (1 - cabs2 (ckm_s13d lam a (rhob, etab)))) (fst (ckm_s13d lam a (rhob, etab))) (snd (ckm_s13d lam a (rhob, etab)))) as HV.
  rewrite <- surjective_pairing in HV. cbv zeta in HV.
  change (ckm_angles _ _ _ _ _ _) with V in HV.
  generalize dependent (sqrt (1 - cabs2 (ckm_s13d lam a (rhob, etab)))). intros c13 HV.
  rewrite Es in HV. clearbody V.
  generalize dependent (sqrt (1 - lam ^ 2)). intros c12 Es Hc H12 HV.
  generalize dependent (sqrt (1 - (a * lam ^ 2) ^ 2)). intros c23 Es H23 HV.
  destruct HV as (V00 & V01 & V02 & V10 & V11 & V12 & V20 & V21 & V22).
  rewrite V00, V01, V02, V10, V12. clear - Hc H12 H23 Em.
  cbv beta iota delta [cabs2 cadd copp creal cscale cmul cconj fst snd] in *. injection Em as E1 E2.
  rewrite Rplus_0_l in *.
  assert (G1 : x = rhob + (a * lam ^ 2) ^ 2 * (x * rhob - y * etab)) by lra.
  assert (G2 : y = etab + (a * lam ^ 2) ^ 2 * (x * etab + y * rhob)) by lra.
  split; [|split].
  - ring [H12].
  - apply (f_equal2 pair); ring.
  - apply (f_equal2 pair).
    + transitivity (a * lam ^ 3 * c23 * c13 * (x - rhob - (a * lam ^ 2) ^ 2 * (x * rhob - y * etab))); [field; exact Hc|].
      rewrite G1 at 1. ring.
    + transitivity (a * lam ^ 3 * c23 * c13 * (y - etab - (a * lam ^ 2) ^ 2 * (x * etab + y * rhob))); [field; exact Hc|].
      rewrite G2 at 1. ring.
Qed.
Example ckm_parameters_ex : 0.225 ^ 2 < 1 /\ (0.826 * 0.225 ^ 2) ^ 2 <= 1 /\ 1 - (0.826 * 0.225 ^ 2) ^ 2 * 0.159 <> 0.
Proof. repeat split; lra. Qed.
Print Assumptions ckm_parameters.

Lemma CKM_s13 : exists x y : R, ckm_s13d (225 / 1000) (826 / 1000) (159 / 1000, 348 / 1000)
    = cscale (826 / 1000 * (225 / 1000) ^ 3 * sqrt (1 - (826 / 1000 * (225 / 1000) ^ 2) ^ 2) / sqrt (1 - (225 / 1000) ^ 2)) (x, y) /\
  0.158832 < x < 0.158833 /\ 0.348193 < y < 0.348194.
Proof.
  destruct (s13d_form (225 / 1000) (826 / 1000) (159 / 1000) (348 / 1000)) as (x & y & E & _ & Ex & Ey); [lra| |].
  - cbv beta iota delta [cabs2 cadd copp creal cscale fst snd]. apply Rgt_not_eq. lra.
  - exists x, y. split; [exact E|]. rewrite Ex, Ey. clear.
    cbv beta iota delta [cabs2 cmul cconj cadd copp creal cscale fst snd].
    match goal with |- (_ < ?a / ?b < _) /\ (_ < ?c / _ < _) => set (d := b); set (p := a); set (q := c) end.
    assert (Hd : 0 < d) by (unfold d; lra).
    repeat split; (apply (Rmult_lt_reg_r d); [exact Hd|]; unfold Rdiv; rewrite ?Rmult_assoc, ?Rinv_l by lra; unfold d, p, q; lra).
Qed.

(** The couplings of the top quark to d, s and b, which the loops use: those of the measurements *)
Theorem ckm_top :
  (forall i j, (i < 3)%nat -> (j < 3)%nat -> row_product CKM i j = delta i j /\ col_product CKM i j = delta i j) /\
  0.008565 < sqrt (cabs2 Vtd) < 0.008566 /\ 0.041095 < sqrt (cabs2 Vts) < 0.041096 /\
  0.999118 < sqrt (cabs2 Vtb) < 0.999119 /\ 1.4035 / 10 ^ 4 < snd (cmul (cconj Vts) Vtd) < 1.4036 / 10 ^ 4.
Proof.
  destruct CKM_s13 as (x & y & Es & Hx & Hy).
  set (lam := 225 / 1000) in *. set (a := 826 / 1000) in *.
  assert (H12 : sqrt (1 - lam ^ 2) ^ 2 = 1 - lam ^ 2) by (apply pow2_sqrt; unfold lam; lra).
  assert (H23 : sqrt (1 - (a * lam ^ 2) ^ 2) ^ 2 = 1 - (a * lam ^ 2) ^ 2) by (apply pow2_sqrt; unfold lam, a; lra).
  assert (Hc : 0 < sqrt (1 - lam ^ 2)) by (apply sqrt_lt_R0; unfold lam; lra).
  assert (Hxx : 0.158832 ^ 2 < x ^ 2 < 0.158833 ^ 2) by (split; nra).
  assert (Hyy : 0.348193 ^ 2 < y ^ 2 < 0.348194 ^ 2) by (split; nra).
  assert (Hs : cabs2 (ckm_s13d lam a (159 / 1000, 348 / 1000))
               = (a * lam ^ 3) ^ 2 * (1 - (a * lam ^ 2) ^ 2) / (1 - lam ^ 2) * (x ^ 2 + y ^ 2)).
  { rewrite Es, cabs2_scale. transitivity ((a * lam ^ 3) ^ 2 * sqrt (1 - (a * lam ^ 2) ^ 2) ^ 2 / sqrt (1 - lam ^ 2) ^ 2 * (x ^ 2 + y ^ 2));
    [unfold cabs2; cbn [fst snd]; field; lra|]. rewrite H12, H23. reflexivity. }
  assert (Hs1 : cabs2 (ckm_s13d lam a (159 / 1000, 348 / 1000)) <= 1).
  { rewrite Hs. unfold lam, a. lra. }
  split. { apply ckm_unitary; [unfold lam; lra|unfold lam, a; lra|exact Hs1]. }
  pose proof (angles_entries lam (sqrt (1 - lam ^ 2)) (a * lam ^ 2) (sqrt (1 - (a * lam ^ 2) ^ 2))
    (sqrt (1 - cabs2 (ckm_s13d lam a (159 / 1000, 348 / 1000)))) (fst (ckm_s13d lam a (159 / 1000, 348 / 1000)))
    (snd (ckm_s13d lam a (159 / 1000, 348 / 1000)))) as HV.
  rewrite <- surjective_pairing in HV. cbv zeta in HV. change (ckm_angles _ _ _ _ _ _) with CKM in HV.
  destruct HV as (_ & _ & _ & _ & _ & _ & V20 & V21 & V22).
  fold Vtd in V20. fold Vts in V21. fold Vtb in V22.
  assert (Hb : cabs2 Vtb = (1 - (a * lam ^ 2) ^ 2) * (1 - (a * lam ^ 3) ^ 2 * (1 - (a * lam ^ 2) ^ 2) / (1 - lam ^ 2) * (x ^ 2 + y ^ 2))).
  { rewrite V22. unfold cabs2 at 1. cbn [fst snd].
    transitivity (sqrt (1 - (a * lam ^ 2) ^ 2) ^ 2 * sqrt (1 - cabs2 (ckm_s13d lam a (159 / 1000, 348 / 1000))) ^ 2); [ring|].
    rewrite H23. rewrite pow2_sqrt by lra. rewrite Hs. reflexivity. }
  rewrite Es in V20, V21. cbn [cscale fst snd] in V20, V21. clear V22 Hs1 Hs Es.
  generalize dependent (sqrt (1 - lam ^ 2)). intros c12 H12 Hc V20 V21.
  generalize dependent (sqrt (1 - (a * lam ^ 2) ^ 2)). intros c23 H23 V20 V21.
  set (K := a * lam ^ 3) in *. set (s23 := a * lam ^ 2) in *.
  assert (Hd : cabs2 Vtd = (- (1 - s23 ^ 2) * K * x + s23 * lam) ^ 2 + ((1 - s23 ^ 2) * K * y) ^ 2).
  { rewrite V20. unfold cabs2. cbn [fst snd]. rewrite <- H23. field. lra. }
  assert (Ht : cabs2 Vts = ((lam * K * (1 - s23 ^ 2) * x + s23 * (1 - lam ^ 2)) ^ 2 + (lam * K * (1 - s23 ^ 2) * y) ^ 2) / (1 - lam ^ 2)).
  { rewrite V21. unfold cabs2. cbn [fst snd]. rewrite <- H23, <- H12. field. lra. }
  assert (Hi : snd (cmul (cconj Vts) Vtd) = (1 - s23 ^ 2) * s23 * K * y * (1 / c12)).
  { rewrite V20, V21. cbv beta iota delta [cmul cconj fst snd]. rewrite <- H23.
    transitivity (c23 ^ 2 * s23 * K * y / c12 * (c12 ^ 2 + lam ^ 2)); [field; lra|]. rewrite H12. field. lra. }
  assert (Hroot : forall A l u, 0 <= l -> 0 <= u -> l ^ 2 < A < u ^ 2 -> l < sqrt A < u).
  { intros A l u Hl Hu [H1 H2]. rewrite <- (sqrt_pow2 l Hl), <- (sqrt_pow2 u Hu). split; apply sqrt_lt_1_alt; split; nra. }
  rewrite Hd, Ht, Hb, Hi. clear Hd Ht Hb Hi V20 V21.
  assert (Hc' : 0.974358 < c12 < 0.974359) by (unfold lam in H12; split; nra).
  assert (Hci : 1 / 0.974359 < 1 / c12 < 1 / 0.974358).
  { unfold Rdiv. rewrite !Rmult_1_l. split; apply Rinv_lt_contravar; nra. }
  split; [|split; [|split]].
  1-3: apply Hroot; [lra|lra|]; unfold s23, K, a, lam; lra.
  unfold s23, K, a, lam. nra.
Qed.
Print Assumptions ckm_top.

(** A B meson decays into a kaon and the mediator more often than into anything strange and the mediator: the width
    into anything strange is that of free quarks, zero for a mediator as heavy as the quark, and the mediator may be
    heavier *)
Theorem inclusive_width_refuted : exists o, s_gsff (so_par o) <> 0 /\ 0 <= s_ms (so_par o) /\
  width_B_xs_s o = 0 /\ width_B_xs_s o < width_B_k_s o.
Proof.
  set (o := MkSobj ScalarMediator (MkS 250 4180 1 1 0 1 1000 0) 0 0 0 0 0).
  assert (Hx : width_B_xs_s o = 0).
  { unfold width_B_xs_s. destruct (Rle_dec _ _); [|reflexivity]. cbn [o so_par s_ms]. unfold m_bq.
    replace (4180 ^ 2 - 4180 ^ 2) with 0 by ring. rewrite pow_ne_zero by discriminate. unfold Rdiv. ring. }
  exists o. split; [cbn; lra|]. split; [cbn; lra|]. split; [exact Hx|]. rewrite Hx.
  destruct (recoil_exists 5279.29 493.677 4180) as (p & Hr & Hp); try lra. specialize (Hp ltac:(lra)).
  change (width_B_k_s o) with (production py_consts B_K_invis o).
  rewrite (production_width py_consts B_K_invis o p ltac:(cbn; lra) Hr).
  destruct ckm_top as (_ & _ & [Hs _] & [Hb _] & _).
  assert (Hpos : forall x, 0 < sqrt x -> 0 < x).
  { intros x H. destruct (Rlt_le_dec 0 x); [assumption|]. rewrite sqrt_neg_0 in H by assumption. lra. }
  assert (0 < cabs2 Vts) by (apply Hpos; lra). assert (0 < cabs2 Vtb) by (apply Hpos; lra).
  assert (0 < sqrt 2) by (apply sqrt_lt_R0; lra). pose proof PI_RGT_0.
  unfold two_body_width. cbn [parent squared_amplitude o so_par s_ms s_gsff]. unfold current, loop.
  positive.
Qed.
Print Assumptions inclusive_width_refuted.

(** * C104: the constraints can be evaluated *)

Lemma window_mass r ms : r <> KL_pi0_ee -> 0 <= ms ->
  in_window (match r with B_K_invis => B_k_invis_obs | B_K_mumu => B_k_mu_mu_obs | B_K_ee => B_k_e_e_obs
             | K_pi_invis => k_pi_invis_obs | KL_pi0_mumu => kl_pi0_mu_mu_obs | KL_pi0_ee => kl_pi0_e_e_obs end) ms = true ->
  daughter r + ms <= parent r.
Proof.
  intros Hr Hm H. apply window_spec in H. destruct H as (lo & hi & Hin & Hlo & Hhi).
  assert (Hup : hi <= (parent r - daughter r) ^ 2).
  { destruct r; try congruence; cbn in Hin; repeat (destruct Hin as [Hin|Hin]; [injection Hin as <- <-|]); try contradiction;
      cbn [parent daughter]; unfold m_B, m_k in *; try lra;
      unfold s_of_pion; apply Rmax_lub; try lra;
      match goal with |- context [sqrt (m_pi ^ 2 + ?q ^ 2)] =>
        assert (m_pi <= sqrt (m_pi ^ 2 + q ^ 2))
          by (rewrite <- (sqrt_pow2 m_pi) at 1 by (unfold m_pi; lra); apply sqrt_le_1_alt; nra) end;
      unfold m_k, m_pi in *; nra. }
  assert (0 <= parent r - daughter r) by (destruct r; cbn [parent daughter]; lra).
  nra.
Qed.

Definition evaluable (x : res onum) : Prop := exists c, x = Ret (Some c).

(** For a mediator that decays, every rare decay gives a number, except K_L -> pi0 e e for mediators between the
    threshold of the decay, 362.6342 MeV, and the end 362.7 MeV of its window *)
Theorem rare_decay_evaluable : forall C r o,
  let P := so_par o in
  s_has_width P -> 0 < s_width_sum C P -> 0 < s_ms P ->
  (r = KL_pi0_ee -> s_ms P <= 362.6342 \/ 362.7 < s_ms P) ->
  evaluable (constraint_of C r o).
Proof.
  intros C r o P HP Hw Hm Hgap.
  destruct (Rle_dec (daughter r + s_ms P) (parent r)) as [Hle|Hgt].
  - destruct (recoil_exists (parent r) (daughter r) (s_ms P)) as (p & Hr & Hp); try (destruct r; cbn; lra); [lra|].
    destruct (Req_dec p 0) as [E|Hne].
    + pose proof (recoil_momentum (parent r) (daughter r) (s_ms P) p ltac:(destruct r; cbn; lra) Hr) as Hmom. rewrite E in Hmom.
      assert (Hcm : 0 < cm_to_inv_MeV).
      { unfold cm_to_inv_MeV, m_to_inv_MeV, s_to_inv_MeV, hbar_joule_sec, joule_to_mev, speed_of_light. pose proof PI_RGT_0.
        positive. }
      assert (Hexp : forall rr, 0 < rr -> oexp_quot (- rr * cm_to_inv_MeV * s_width_sum C P * s_ms P) 0 = Some 0).
      { intros rr Hrr. unfold oexp_quot. destruct (Req_EM_T 0 0); [|congruence]. destruct (Rlt_dec _ 0) as [|n]; [reflexivity|].
        exfalso. apply n. replace (- rr * cm_to_inv_MeV * s_width_sum C P * s_ms P) with (- (rr * cm_to_inv_MeV * s_width_sum C P * s_ms P)) by ring.
        assert (0 < rr * cm_to_inv_MeV * s_width_sum C P * s_ms P) by positive. lra. }
      destruct masses_eq as (EB & EK & EL & EP & E0 & _).
      destruct r; cbn [parent daughter constraint_of] in *; rewrite ?EB, ?EK, ?EL, ?EP, ?E0 in Hmom;
        unfold constraint_B_k_invis, constraint_B_k_mu_mu, constraint_B_k_e_e, constraint_k_pi_invis, constraint_kl_pi0_mu_mu, constraint_kl_pi0_e_e;
        fold P; (match goal with |- evaluable (if ?b then _ else _) => destruct b; [|eexists; reflexivity] end);
        rewrite (widths_ok C o HP); fold P; cbn [bind dindex dget String.eqb Ascii.eqb Bool.eqb]; rewrite Hmom; cbn [obind];
        rewrite Hexp by (cbn [r_max B_k_invis_obs B_k_mu_mu_obs B_k_e_e_obs k_pi_invis_obs kl_pi0_mu_mu_obs kl_pi0_e_e_obs]; lra);
        cbn [obind]; unfold odiv; (destruct (Req_EM_T _ 0); [lra|]); eexists; reflexivity.
    + assert (Hp' : 0 < p) by (destruct Hr as [H0 _]; lra).
      destruct (rare_decay_range C r o p HP Hw ltac:(fold P; lra) Hr Hp') as (c & Hc & _). exists c. exact Hc.
  - assert (Hw' : in_window (match r with B_K_invis => B_k_invis_obs | B_K_mumu => B_k_mu_mu_obs | B_K_ee => B_k_e_e_obs
             | K_pi_invis => k_pi_invis_obs | KL_pi0_mumu => kl_pi0_mu_mu_obs | KL_pi0_ee => kl_pi0_e_e_obs end) (s_ms P) = false).
    { destruct (in_window _ (s_ms P)) eqn:E; [|reflexivity]. exfalso.
      assert (Hd : r = KL_pi0_ee \/ r <> KL_pi0_ee) by (destruct r; auto; right; discriminate).
      destruct Hd as [->|Hd]; [|exact (Hgt (window_mass r (s_ms P) Hd (Rlt_le _ _ Hm) E))].
      apply window_spec in E. destruct E as (lo & hi & Hin & Hlo & Hhi). cbn in Hin. destruct Hin as [Hin|[]].
      injection Hin as <- <-. cbn [parent daughter] in *. specialize (Hgap eq_refl). nra. }
    destruct r; cbn [constraint_of];
      unfold constraint_B_k_invis, constraint_B_k_mu_mu, constraint_B_k_e_e, constraint_k_pi_invis, constraint_kl_pi0_mu_mu, constraint_kl_pi0_e_e;
      fold P; rewrite Hw'; eexists; reflexivity.
Qed.
Example rare_decay_evaluable_ex : s_has_width (so_par some_mediator) /\ 0 < s_width_sum py_consts (so_par some_mediator) /\
  0 < s_ms (so_par some_mediator) <= 362.6342.
Proof. split; [exact some_has_width|]. split; [exact some_sum_pos|]. cbn. lra. Qed.
Print Assumptions rare_decay_evaluable.

(** In the gap the momentum of the mediator is the square root of a negative number *)
Theorem rare_decay_gap_refuted : exists o, new_higgs py_consts 250 362.65 1 0.001 = Ret o /\
  s_has_width (so_par o) /\ 0 < s_width_sum py_consts (so_par o) /\
  constraint_of py_consts KL_pi0_ee o = Ret None.
Proof.
  destruct (new_higgs_works py_consts 250 362.65 1 0.001) as [w Hw]; [cbn; lra|lra|]. eexists. split; [exact Hw|].
  cbn [so_par]. set (P := MkS _ _ _ _ _ _ _ _).
  assert (HP : s_has_width P) by (split; cbn; [lra|left; lra]).
  split; [exact HP|]. split; [apply sum_pos; cbn; lra|].
  cbn [constraint_of]. unfold constraint_kl_pi0_e_e. cbn [so_par].
  assert (Hin : in_window kl_pi0_e_e_obs (s_ms P) = true).
  { apply window_spec. eexists _, _. split; [left; reflexivity|]. cbn [P s_ms]. lra. }
  rewrite Hin. match goal with |- context [py_partial_widths py_consts ?o] => rewrite (widths_ok py_consts o HP) end. cbn [bind dindex dget String.eqb Ascii.eqb Bool.eqb].
  unfold s_momentum, osqrt. destruct (Rlt_dec _ 0) as [|n]; [reflexivity|]. exfalso. apply n.
  cbn [P s_ms]. unfold m_kl, m_pi0. lra.
Qed.
Print Assumptions rare_decay_gap_refuted.

(** A mediator that cannot decay counts as invisible in no decay: zero divided by zero instead *)
Theorem stable_mediator_refuted : exists o, new_higgs py_consts 250 100 1 0 = Ret o /\ s_has_width (so_par o) /\
  s_width_sum py_consts (so_par o) = 0 /\ constraint_of py_consts B_K_invis o = Ret None.
Proof.
  destruct (new_higgs_works py_consts 250 100 1 0) as [w Hw]; [cbn; lra|lra|]. eexists. split; [exact Hw|].
  cbn [so_par]. set (P := MkS _ _ _ _ _ _ _ _).
  assert (HP : s_has_width P) by (split; cbn; [lra|left; lra]).
  assert (H0 : s_width_sum py_consts P = 0).
  { unfold s_width_sum, width_s_to_gg, width_s_to_pi0pi0, width_s_to_pipi, width_s_to_xx, width_s_to_ff_mass.
    cbn [P s_ms s_mx s_gsxx s_gsff s_gsGG s_gsFF s_lam s_vs py_consts c_mpi c_mpi0].
    repeat match goal with |- context [if ?b then _ else _] => destruct b as [r|r]; try lra; clear r end; unfold Rdiv; ring. }
  split; [exact HP|]. split; [exact H0|].
  cbn [constraint_of]. unfold constraint_B_k_invis. cbn [so_par].
  assert (Hin : in_window B_k_invis_obs (s_ms P) = true).
  { apply window_spec. eexists _, _. split; [left; reflexivity|]. cbn [P s_ms]. unfold m_B. lra. }
  rewrite Hin. match goal with |- context [py_partial_widths py_consts ?o] => rewrite (widths_ok py_consts o HP) end. cbn [bind dindex dget String.eqb Ascii.eqb Bool.eqb so_par]. rewrite H0.
  destruct (s_momentum _ _ _); cbn [obind]; [|reflexivity]. destruct (oexp_quot _ _); cbn [obind]; [|reflexivity].
  unfold odiv. destruct (Req_EM_T 0 0); [reflexivity|congruence].
Qed.
Print Assumptions stable_mediator_refuted.

(** * C106: invisible decays of the Higgs boson *)

(** A dark scalar couples to the dark matter with strength [g] and mixes with the Higgs boson by the angle [theta]:
    the mediator gets the coupling g cos theta, the Higgs boson g sin theta.  The squared amplitude of the decay of a
    scalar into a fermion and an antifermion of momentum p is 8 g^2 p^2. *)
Theorem higgs_invisible : forall C o g theta p,
  let P := so_par o in
  so_class o = HiggsPortal -> - (PI / 2) < theta < PI / 2 -> so_stheta o = sin theta -> s_gsxx P = g * cos theta ->
  0 <= s_mx P ->
  (recoil 125100 (s_mx P) (s_mx P) p -> 0 < p ->
   constraint_higgs_invis o = Ret (Some (0.19 * 3.2 - two_body_width 125100 p (8 * (g * sin theta) ^ 2 * p ^ 2)))) /\
  (125100 < 2 * s_mx P -> constraint_higgs_invis o = Ret (Some (0.19 * 3.2))) /\
  dindex (constraints C) "higgs -> invis" = Ret constraint_higgs_invis.
Proof.
  intros C o g theta p P Hc Ht Hs Hg Hx.
  pose proof PI_RGT_0 as Hpi. pose proof (cos_gt_0 theta ltac:(lra) ltac:(lra)) as Hcos.
  pose proof (sin2_cos2 theta) as Hsc. unfold Rsqr in Hsc.
  unfold constraint_higgs_invis, width_h_invis. fold P.
  split; [|split; [|reflexivity]].
  - intros Hr Hp. destruct (recoil_threshold _ _ _ _ Hx Hx Hr) as [H1 H2].
    assert (Hne : 2 * s_mx P < 125100) by (destruct Hx as [Hx|<-]; [specialize (H2 Hp ltac:(lra)); lra|lra]).
    destruct (Rlt_dec (2 * s_mx P) m_higgs) as [_|n]; [|exfalso; apply n; exact Hne].
    rewrite Hc, Hs.
    destruct (Rlt_dec 1 (sin theta ^ 2)) as [b|_]; [exfalso; nra|].
    destruct (Req_EM_T (sin theta ^ 2) 1) as [b|_]; [exfalso; nra|].
    replace (1 - sin theta ^ 2) with (cos theta ^ 2) by (simpl; lra). rewrite sqrt_pow2 by lra.
    pose proof (recoil_product 125100 (s_mx P) (s_mx P) p ltac:(lra) Hr) as Hq.
    assert (Hm : m_higgs ^ 2 - 4 * s_mx P ^ 2 = (2 * p) ^ 2) by (unfold m_higgs; nra).
    assert (H15 : pow15 (m_higgs ^ 2 - 4 * s_mx P ^ 2) = (2 * p) ^ 3).
    { rewrite Hm. rewrite pow15_val by nra. rewrite sqrt_pow2 by lra. ring. }
    rewrite H15, Hg.
    assert (Hv : (g * cos theta * sin theta / cos theta) ^ 2 * (2 * p) ^ 3 / (8 * m_higgs ^ 2 * PI)
                 = two_body_width 125100 p (8 * (g * sin theta) ^ 2 * p ^ 2)).
    { unfold two_body_width, m_higgs. field. lra. }
    rewrite Hv. unfold assert_ge0. destruct (Rle_dec 0 _) as [_|n].
    + cbn [bind obind]. do 2 f_equal. unfold higgs_width, br_higgs_invis. lra.
    + exfalso. apply n. unfold two_body_width. nonneg.
  - intro Hgt. destruct (Rlt_dec (2 * s_mx P) m_higgs) as [b|_]; [unfold m_higgs in b; lra|].
    cbn [bind obind]. do 2 f_equal. unfold higgs_width, br_higgs_invis. lra.
Qed.
Example higgs_invisible_ex : exists p, recoil 125100 250 250 p /\ 0 < p /\ - (PI / 2) < 0.1 < PI / 2.
Proof.
  destruct (recoil_exists 125100 250 250) as (p & Hr & Hp); try lra. exists p. split; [exact Hr|]. split; [apply Hp; lra|].
  pose proof PI_RGT_0. pose proof PI2_1. lra.
Qed.
Print Assumptions higgs_invisible.

(** The other scalar models have the same constraints but no angle: only Higgs-portal objects can be constrained *)
Theorem generic_mediator_refuted : exists o, so_class o = ScalarMediator /\ s_has_width (so_par o) /\
  0 < s_width_sum py_consts (so_par o) /\ s_coherent py_consts o /\
  constraint_higgs_invis o = Raise (AttributeError "stheta").
Proof.
  exists (MkSobj ScalarMediator (MkS 250 200 1 1 0 1 1000 0) (s_width_sum py_consts (MkS 250 200 1 1 0 1 1000 0)) 0 0 0 0).
  split; [reflexivity|]. split; [exact some_has_width|]. split; [exact some_sum_pos|].
  split; [intro; reflexivity|]. unfold constraint_higgs_invis, width_h_invis. cbn [so_par s_mx].
  destruct (Rlt_dec _ _) as [_|n]; [reflexivity|]. exfalso. apply n. unfold m_higgs. lra.
Qed.
Print Assumptions generic_mediator_refuted.

(** * C105: beam dumps *)

(** The partial width into a final state, by its name; other names stand for no final state *)
Definition channel (C : consts) (P : sparams) (name : string) : R :=
  if String.eqb name "g g" then width_s_to_gg C P
  else if String.eqb name "pi0 pi0" then width_s_to_pi0pi0 C P
  else if String.eqb name "pi pi" then width_s_to_pipi C P
  else if String.eqb name "x x" then width_s_to_xx P
  else if String.eqb name "e e" then width_s_to_ff_mass C P (c_me C)
  else if String.eqb name "mu mu" then width_s_to_ff_mass C P (c_mmu C)
  else 0.

(** A sensible experiment *)
Definition experiment (bd : beam_dump) : Prop :=
  0 <= br_pN_k bd /\ 0 <= br_pN_B bd /\ 0 <= dist bd /\ 0 <= length_ bd /\ 0 <= n_pot bd /\
  NoDup (visible_fss bd) /\ ~ In "total"%string (visible_fss bd).

(** Mediators made by each proton: half of the kaons are charged and a quarter are long-lived *)
Definition made (C : consts) (o : sobj) (bd : beam_dump) : R :=
  br_pN_k bd * (production C K_pi_invis o / (5.32 / 10 ^ 14) / 2 + production C KL_pi0_ee o / (1.29 / 10 ^ 14) / 4)
  + br_pN_B bd * (width_B_xs_s o / (4.35 / 10 ^ 10)).

Fixpoint sum (l : list R) : R := match l with [] => 0 | x :: l' => x + sum l' end.

Lemma sum_select k v g l : NoDup l -> g k = 0 ->
  sum (map (fun x => if String.eqb x k then v else g x) l) = (if existsb (String.eqb k) l then v else 0) + sum (map g l).
Proof.
  intros Hl Hg. induction Hl as [|x l Hx Hl IH]; cbn [map sum existsb]; [ring|]. rewrite IH. clear IH.
  rewrite (String.eqb_sym k x). destruct (String.eqb x k) eqn:E; cbn [orb].
  - apply String.eqb_eq in E. subst x. rewrite Hg.
    assert (Hn : existsb (String.eqb k) l = false).
    { apply Bool.not_true_is_false. intro H. apply existsb_exists in H. destruct H as (y & Hy & Ey).
      apply String.eqb_eq in Ey. subst y. contradiction. }
    rewrite Hn. ring.
  - ring.
Qed.

Lemma visible_value C P bd : experiment bd ->
  visible_width bd [("g g", width_s_to_gg C P); ("pi0 pi0", width_s_to_pi0pi0 C P);
       ("pi pi", width_s_to_pipi C P); ("x x", width_s_to_xx P);
       ("e e", width_s_to_ff_mass C P (c_me C)); ("mu mu", width_s_to_ff_mass C P (c_mmu C));
       ("total", s_width_sum C P)]%string = sum (map (channel C P) (visible_fss bd)).
Proof.
  intros (_ & _ & _ & _ & _ & Hd & Ht). unfold visible_width, channel.
  set (l := visible_fss bd) in *. clearbody l.
  rewrite !sum_select by (assumption || reflexivity).
  assert (Htot : existsb (String.eqb "total") l = false).
  { apply Bool.not_true_is_false. intro H. apply existsb_exists in H. destruct H as (y & Hy & Ey).
    apply String.eqb_eq in Ey. subst y. contradiction. }
  assert (H0 : sum (map (fun _ : string => 0) l) = 0).
  { clear. induction l as [|x l IH]; cbn [map sum]; [reflexivity|]. rewrite IH. ring. }
  rewrite H0. cbn [filter fst]. rewrite Htot.
  destruct (existsb (String.eqb "g g") l), (existsb (String.eqb "pi0 pi0") l), (existsb (String.eqb "pi pi") l),
    (existsb (String.eqb "x x") l), (existsb (String.eqb "e e") l), (existsb (String.eqb "mu mu") l);
    cbn [map snd fold_right]; ring.
Qed.

Lemma channel_nonneg C P name : 0 <= s_ms P -> 0 <= channel C P name.
Proof.
  intro Hm. destruct (widths_nonneg C P) as (H1 & H2 & H3 & H4). pose proof (gg_nonneg C P Hm).
  unfold channel. repeat match goal with |- 0 <= (if ?b then _ else _) => destruct b end; auto; lra.
Qed.
Lemma sum_nonneg l : (forall x, In x l -> 0 <= x) -> 0 <= sum l.
Proof.
  induction l as [|x l IH]; intro H; cbn [sum]; [lra|].
  pose proof (H x (or_introl eq_refl)). specialize (IH (fun y Hy => H y (or_intror Hy))). lra.
Qed.

Lemma xs_nonneg o : 0 <= width_B_xs_s o.
Proof.
  unfold width_B_xs_s. destruct (Rle_dec _ _); [|lra]. pose proof PI_RGT_0. nonneg.
  - apply pow_le. unfold m_bq. lra.
  - unfold cabs2. nra.
Qed.
Lemma made_value C o bd : made C o bd =
  br_pN_k bd * (5 / 10 * (width_k_pi_s o / k_width) + 25 / 100 * (width_kl_pi0_s o / kl_width)) + br_pN_B bd * (width_B_xs_s o / B_width).
Proof.
  unfold made. cbn [production]. replace (5.32 / 10 ^ 14) with k_width by (unfold k_width; lra).
  replace (1.29 / 10 ^ 14) with kl_width by (unfold kl_width; lra). replace (4.35 / 10 ^ 10) with B_width by (unfold B_width; lra).
  field. unfold k_width, kl_width, B_width. repeat split; apply Rgt_not_eq; lra.
Qed.
Lemma exp_le_mono x y : x <= y -> exp x <= exp y.
Proof. intros [H|<-]; [left; apply exp_increasing; exact H|lra]. Qed.
Lemma metre : 0 < 100 * cm_to_inv_MeV.
Proof.
  unfold cm_to_inv_MeV, m_to_inv_MeV, s_to_inv_MeV, hbar_joule_sec, joule_to_mev, speed_of_light. pose proof PI_RGT_0. positive.
Qed.

(** The number of mediators that decay visibly in the detector, which begins at a distance [dist] and ends at
    [dist] + [length], in metres: those made, times the fraction still there at the beginning and no longer at the
    end, times the fraction of visible decays.  The mediators have the energy of the experiment. *)
Theorem beam_dump_events : forall C o bd p F,
  let P := so_par o in
  let m := 100 * cm_to_inv_MeV in
  experiment bd -> s_has_width P -> s_coherent C o -> 0 < s_width_sum C P -> 0 < s_ms P ->
  0 < mediator_energy bd -> 0 < p -> s_ms P ^ 2 + p ^ 2 = mediator_energy bd ^ 2 -> survival (s_width_sum C P) (s_ms P) p F ->
  constrain_beam_dump C o bd = Ret (n_dec bd -
    n_pot bd * made C o bd * (F (m * dist bd) - F (m * (dist bd + length_ bd)))
    * (sum (map (channel C P) (visible_fss bd)) / s_width_sum C P)).
Proof.
  intros C o bd p F P m He HP Hco Hw Hm HE Hp Hmom HF.
  pose proof He as (Hk & HB & Hdist & Hlen & Hpot & _ & _). pose proof metre as Hmt. fold m in Hmt.
  unfold constrain_beam_dump. fold P. fold m.
  pose proof (production_nonneg C K_pi_invis o) as N1. pose proof (production_nonneg C KL_pi0_ee o) as N2. pose proof (xs_nonneg o) as N3.
  cbn [production] in N1, N2.
  assert (W1 : 0 <= width_k_pi_s o / k_width) by (apply Rmult_le_pos; [assumption|]; unfold k_width; lra).
  assert (W2 : 0 <= width_kl_pi0_s o / kl_width) by (apply Rmult_le_pos; [assumption|]; unfold kl_width; lra).
  assert (W3 : 0 <= width_B_xs_s o / B_width) by (apply Rmult_le_pos; [assumption|]; unfold B_width; lra).
  unfold assert_ge0 at 1. destruct (Rle_dec 0 (width_k_pi_s o / k_width)); [|contradiction]. cbn [bind].
  unfold assert_ge0 at 1. destruct (Rle_dec 0 (width_kl_pi0_s o / kl_width)); [|contradiction]. cbn [bind].
  unfold assert_ge0 at 1. destruct (Rle_dec 0 (width_B_xs_s o / B_width)); [|contradiction]. cbn [bind].
  rewrite <- (made_value C). rewrite (Hco HP). fold P.
  destruct (Req_EM_T (s_ms P) 0) as [b|_]; [lra|].
  assert (Hgb : osqrt ((mediator_energy bd / s_ms P) ^ 2 - 1) = Some (p / s_ms P)).
  { replace ((mediator_energy bd / s_ms P) ^ 2 - 1) with ((p / s_ms P) ^ 2).
    - unfold osqrt. destruct (Rlt_dec _ 0) as [b|_]; [exfalso; pose proof (pow2_ge_0 (p / s_ms P)); lra|].
      f_equal. apply sqrt_pow2. apply Rlt_le. positive.
    - replace ((mediator_energy bd / s_ms P) ^ 2) with (mediator_energy bd ^ 2 / s_ms P ^ 2) by (field; lra).
      rewrite <- Hmom. field. lra. }
  assert (Hexp : forall x, oexp_quot (- x * s_width_sum C P) (p / s_ms P) = Some (F x)).
  { intro x. unfold oexp_quot. assert (0 < p / s_ms P) by positive.
    destruct (Req_EM_T _ 0) as [b|_]; [lra|]. rewrite (survival_value _ _ _ _ Hp HF). do 2 f_equal. field. lra. }
  rewrite Hgb. cbn [obind]. rewrite !Hexp. cbn [obind].
  rewrite (widths_ok C o HP). cbn [bind]. fold P. rewrite (visible_value C P bd He).
  unfold odiv. destruct (Req_EM_T (s_width_sum C P) 0) as [b|_]; [lra|]. cbn [obind].
  assert (Hmul : F (m * dist bd) * F (m * length_ bd) = F (m * (dist bd + length_ bd))).
  { rewrite !(survival_value _ _ _ _ Hp HF). rewrite <- exp_plus. f_equal. field. lra. }
  assert (Hdec : F (m * (dist bd + length_ bd)) <= F (m * dist bd)).
  { assert (Hl : F (m * length_ bd) <= 1).
    { rewrite (survival_value _ _ _ _ Hp HF). rewrite <- exp_0. apply exp_le_mono.
      assert (0 <= s_width_sum C P * s_ms P * (m * length_ bd)) by nonneg.
      unfold Rdiv. rewrite Ropp_mult_distr_l_reverse. assert (0 < / p) by positive. nra. }
    assert (0 < F (m * dist bd)) by (rewrite (survival_value _ _ _ _ Hp HF); apply exp_pos).
    rewrite <- Hmul. nra. }
  assert (Hvis : 0 <= sum (map (channel C P) (visible_fss bd)) / s_width_sum C P).
  { apply Rmult_le_pos; [|apply Rlt_le; positive]. apply sum_nonneg. intros x Hx. apply in_map_iff in Hx.
    destruct Hx as (y & <- & _). apply channel_nonneg. lra. }
  assert (Hmade : 0 <= made C o bd) by (rewrite made_value; nra).
  replace (F (m * dist bd) * (1 - F (m * length_ bd))) with (F (m * dist bd) - F (m * (dist bd + length_ bd))) by (rewrite <- Hmul; ring).
  unfold assert_ge0. destruct (Rle_dec 0 _) as [_|n]; [reflexivity|]. exfalso. apply n.
  apply Rmult_le_pos; [apply Rmult_le_pos; [apply Rmult_le_pos; assumption|lra]|exact Hvis].
Qed.

Lemma charm_experiment : experiment bd_charm /\ experiment bd_ship.
Proof.
  split; unfold experiment; cbn [br_pN_k br_pN_B dist length_ n_pot visible_fss bd_charm bd_ship]; repeat split; try lra;
    try (repeat constructor; cbn; intuition discriminate); cbn; intuition discriminate.
Qed.
Example beam_dump_events_ex : experiment bd_ship /\ exists o F p,
  s_has_width (so_par o) /\ s_coherent py_consts o /\ 0 < s_width_sum py_consts (so_par o) /\ 0 < s_ms (so_par o) /\
  0 < p /\ s_ms (so_par o) ^ 2 + p ^ 2 = mediator_energy bd_ship ^ 2 /\ survival (s_width_sum py_consts (so_par o)) (s_ms (so_par o)) p F.
Proof.
  split; [apply charm_experiment|].
  set (P := MkS 250 7000 1 1 0 1 1000 0).
  assert (Hs : 0 < s_width_sum py_consts P) by (apply sum_pos; cbn; lra).
  exists (MkSobj ScalarMediator P (s_width_sum py_consts P) 0 0 0 0), (fun x => exp (- (s_width_sum py_consts P * 7000 * x) / 24000)), 24000.
  cbn [so_par]. split; [split; cbn; [lra|left; lra]|]. split; [intro; reflexivity|]. split; [exact Hs|]. cbn [P s_ms].
  split; [lra|]. split; [lra|]. split; [cbn; lra|]. apply survival_exists. lra.
Qed.
Print Assumptions beam_dump_events.

(** The constraint "CHARM" in numbers: 2.9 10^17 protons, mediators of 10 GeV, a detector of 35 m behind 480 m, at most
    2.3 decays into photons, electrons and muons *)
Theorem charm_events : forall C o p F,
  let P := so_par o in
  let m := 100 * cm_to_inv_MeV in
  s_has_width P -> s_coherent C o -> 0 < s_width_sum C P -> 0 < s_ms P ->
  0 < p -> s_ms P ^ 2 + p ^ 2 = 10000 ^ 2 -> survival (s_width_sum C P) (s_ms P) p F ->
  exists f k, dindex (constraints C) "CHARM" = Ret f /\ f o = Ret (Some (2.3 - k)) /\
    k = 2.9 * 10 ^ 17
        * (0.25 * (production C K_pi_invis o / (5.32 / 10 ^ 14) / 2 + production C KL_pi0_ee o / (1.29 / 10 ^ 14) / 4)
           + 0.00000009 * (width_B_xs_s o / (4.35 / 10 ^ 10)))
        * (F (480 * m) - F (515 * m))
        * ((width_s_to_gg C P + width_s_to_ff_mass C P (c_me C) + width_s_to_ff_mass C P (c_mmu C)) / s_width_sum C P).
Proof.
  intros C o p F P m HP Hco Hw Hm Hp Hmom HF.
  eexists _, _. split; [reflexivity|]. split; [|reflexivity]. cbv beta.
  rewrite (beam_dump_events C o bd_charm p F (proj1 charm_experiment) HP Hco Hw Hm ltac:(cbn; lra) Hp Hmom HF).
  cbn [bind]. do 2 f_equal. unfold made.
  cbn [n_dec n_pot br_pN_k br_pN_B dist length_ visible_fss bd_charm map sum]. unfold channel. cbn [String.eqb Ascii.eqb Bool.eqb].
  fold P m. replace (m * 480) with (480 * m) by ring. replace (m * (480 + 35)) with (515 * m) by ring.
  lra.
Qed.
Example charm_events_ex : s_has_width (so_par some_mediator) /\ 0 < s_width_sum py_consts (so_par some_mediator) /\
  exists p F, 0 < p /\ 200 ^ 2 + p ^ 2 = 10000 ^ 2 /\ survival (s_width_sum py_consts (so_par some_mediator)) 200 p F.
Proof.
  split; [exact some_has_width|]. split; [exact some_sum_pos|]. exists (sqrt (10000 ^ 2 - 200 ^ 2)).
  assert (0 < sqrt (10000 ^ 2 - 200 ^ 2)) by (apply sqrt_lt_R0; lra). eexists. split; [assumption|].
  split; [rewrite pow2_sqrt by lra; lra|]. apply survival_exists. assumption.
Qed.
Print Assumptions charm_events.

(** Mediators heavier than the energy of the experiment, and mediators that cannot decay, end in a failed assertion
    instead of no events *)
Theorem heavy_beam_dump_refuted : exists o, new_higgs py_consts 250 12000 1 0.001 = Ret o /\
  constrain_beam_dump py_consts o bd_charm = Raise AssertionError.
Proof.
  destruct (new_higgs_works py_consts 250 12000 1 0.001) as [w Hw]; [cbn; lra|lra|]. eexists. split; [exact Hw|].
  match type of Hw with _ = Ret ?x => set (o := x) end.
  assert (HP : s_has_width (so_par o)) by (split; cbn; [lra|left; lra]).
  unfold constrain_beam_dump.
  destruct (assert_ge0 _) as [u|e] eqn:E1; cbn [bind];
    [|unfold assert_ge0 in E1; destruct (Rle_dec _ _); [discriminate|injection E1 as <-; reflexivity]].
  destruct (assert_ge0 (width_kl_pi0_s o / kl_width)) as [u2|e] eqn:E2; cbn [bind];
    [|unfold assert_ge0 in E2; destruct (Rle_dec _ _); [discriminate|injection E2 as <-; reflexivity]].
  destruct (assert_ge0 (width_B_xs_s o / B_width)) as [u3|e] eqn:E3; cbn [bind];
    [|unfold assert_ge0 in E3; destruct (Rle_dec _ _); [discriminate|injection E3 as <-; reflexivity]].
  destruct (Req_EM_T (s_ms (so_par o)) 0) as [b|_]; [cbn in b; lra|].
  rewrite (widths_ok py_consts o HP). cbn [bind].
  assert (Hs : osqrt ((mediator_energy bd_charm / s_ms (so_par o)) ^ 2 - 1) = None).
  { unfold osqrt. destruct (Rlt_dec _ 0) as [|n]; [reflexivity|]. exfalso. apply n.
    cbn [mediator_energy bd_charm o so_par s_ms]. lra. }
  rewrite Hs. reflexivity.
Qed.
Print Assumptions heavy_beam_dump_refuted.

Theorem stable_beam_dump_refuted : exists o, new_higgs py_consts 250 100 1 0 = Ret o /\
  constrain_beam_dump py_consts o bd_charm = Raise AssertionError.
Proof.
  destruct stable_mediator_refuted as (o & Ho & HP & H0 & _). exists o. split; [exact Ho|].
  assert (Hco : so_width o = 0).
  { rewrite <- H0. apply (s_init_coherent py_consts _ o Ho). exact HP. }
  assert (Hms : s_ms (so_par o) = 100).
  { destruct (new_higgs_works py_consts 250 100 1 0) as [w Hw]; [cbn; lra|lra|]. rewrite Ho in Hw. injection Hw as ->. reflexivity. }
  unfold constrain_beam_dump.
  destruct (assert_ge0 _) as [u|e] eqn:E1; cbn [bind];
    [|unfold assert_ge0 in E1; destruct (Rle_dec _ _); [discriminate|injection E1 as <-; reflexivity]].
  destruct (assert_ge0 (width_kl_pi0_s o / kl_width)) as [u2|e] eqn:E2; cbn [bind];
    [|unfold assert_ge0 in E2; destruct (Rle_dec _ _); [discriminate|injection E2 as <-; reflexivity]].
  destruct (assert_ge0 (width_B_xs_s o / B_width)) as [u3|e] eqn:E3; cbn [bind];
    [|unfold assert_ge0 in E3; destruct (Rle_dec _ _); [discriminate|injection E3 as <-; reflexivity]].
  destruct (Req_EM_T (s_ms (so_par o)) 0) as [b|_]; [rewrite Hms in b; lra|].
  rewrite (widths_ok py_consts o HP). cbn [bind]. rewrite Hco.
  unfold odiv. destruct (Req_EM_T 0 0) as [_|n]; [|congruence].
  match goal with |- context [obind (obind ?a ?b) _] => destruct (obind a b) end; reflexivity.
Qed.
Print Assumptions stable_beam_dump_refuted.

(** The same for SHiP: its visible final states "k k" and "k0 k0" are none of the mediator *)
Theorem ship_events : forall C o p F,
  let P := so_par o in
  let m := 100 * cm_to_inv_MeV in
  s_has_width P -> s_coherent C o -> 0 < s_width_sum C P -> 0 < s_ms P ->
  0 < p -> s_ms P ^ 2 + p ^ 2 = 25000 ^ 2 -> survival (s_width_sum C P) (s_ms P) p F ->
  exists k, constrain_beam_dump C o bd_ship = Ret (3 - k) /\
    k = 2 * 10 ^ 20
        * (0.25 * (production C K_pi_invis o / (5.32 / 10 ^ 14) / 2 + production C KL_pi0_ee o / (1.29 / 10 ^ 14) / 4)
           + 0.00009 * (width_B_xs_s o / (4.35 / 10 ^ 10)))
        * (F (70 * m) - F (125 * m)) * ((s_width_sum C P - width_s_to_xx P) / s_width_sum C P).
Proof.
  intros C o p F P m HP Hco Hw Hm Hp Hmom HF.
  eexists. split; [|reflexivity].
  rewrite (beam_dump_events C o bd_ship p F (proj2 charm_experiment) HP Hco Hw Hm ltac:(cbn; lra) Hp Hmom HF).
  f_equal. unfold made.
  cbn [n_dec n_pot br_pN_k br_pN_B dist length_ visible_fss bd_ship map sum]. unfold channel. cbn [String.eqb Ascii.eqb Bool.eqb].
  fold P m. replace (m * 70) with (70 * m) by ring. replace (m * (70 + 55)) with (125 * m) by ring.
  match goal with |- context [?a / s_width_sum C P] => replace a with (s_width_sum C P - width_s_to_xx P) by (unfold s_width_sum; ring) end.
  apply (f_equal2 Rminus); [lra|]. apply (f_equal2 Rmult); [|reflexivity]. apply (f_equal2 Rmult); [|reflexivity]. lra.
Qed.
Example ship_events_ex : exists p, 0 < p /\ 7000 ^ 2 + p ^ 2 = 25000 ^ 2.
Proof. exists 24000. lra. Qed.
Print Assumptions ship_events.

(** Below the quark mass the width into anything strange is the two-body width of a b quark into a massless quark and
    the mediator *)
Theorem inclusive_width : forall o p,
  let P := so_par o in
  0 <= s_ms P <= 4180 -> recoil 4180 0 (s_ms P) p ->
  width_B_xs_s o = two_body_width 4180 p (2 * (4180 ^ 2 - s_ms P ^ 2) * (loop 95 4180 ^ 2 * cabs2 Vts * cabs2 Vtb) * s_gsff P ^ 2).
Proof.
  intros o p P Hm Hr. destruct (recoil_energy 4180 0 (s_ms P) p ltac:(lra) Hr) as [_ He]. destruct Hr as [Hp _].
  replace (0 ^ 2 + p ^ 2) with (p ^ 2) in He by ring. rewrite sqrt_pow2 in He by assumption.
  unfold width_B_xs_s. fold P. destruct (Rle_dec (s_ms P) (m_B - m_k)) as [_|n]; [|exfalso; apply n; unfold m_B, m_k; lra].
  rewrite h_sb_abs. change m_sq with 95. change m_bq with 4180. unfold two_body_width.
  replace (4180 ^ 2 - s_ms P ^ 2) with (2 * 4180 * p) by lra. pose proof PI_RGT_0. field. lra.
Qed.
Example inclusive_width_ex : exists p, recoil 4180 0 1000 p /\ 0 < p.
Proof. destruct (recoil_exists 4180 0 1000) as (p & Hr & Hp); try lra. exists p. split; [exact Hr|]. apply Hp. lra. Qed.
Print Assumptions inclusive_width.

(** The listed constraints have the names of their decays; B -> K e e is not listed *)
Definition rare_name (r : rare) : string :=
  match r with
  | B_K_invis => "B -> k invis" | B_K_mumu => "B -> k mu mu" | B_K_ee => "B -> k e e" | K_pi_invis => "k -> pi invis"
  | KL_pi0_mumu => "kl -> pi0 mu mu" | KL_pi0_ee => "kl -> pi0 e e" end%string.
Theorem constraint_names : forall C r,
  (r <> B_K_ee -> dindex (constraints C) (rare_name r) = Ret (constraint_of C r)) /\
  (r = B_K_ee -> dindex (constraints C) (rare_name r) = Raise (KeyError (rare_name r))).
Proof. intros C r. split; intro H; destruct r; try congruence; reflexivity. Qed.
Example constraint_names_ex : K_pi_invis <> B_K_ee.
Proof. discriminate. Qed.
Print Assumptions constraint_names.
