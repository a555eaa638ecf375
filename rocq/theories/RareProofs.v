(** Specification vocabulary and lemmas for the constraints of the scalar mediator. *)
From Coq Require Import String Reals Lra Psatz Bool List.
From Verif Require Import PyBase KinModel MedModel MedProofs MedStateModel MedStateProps VffModel SpenceProofs RareModel.
Import ListNotations.
Local Open Scope R_scope.

(** * Specification *)

(** A particle of mass [mM] at rest decays into particles of masses [m] and [ms], each of momentum [p] *)
Definition recoil (mM m ms p : R) : Prop := 0 <= p /\ sqrt (m ^ 2 + p ^ 2) + sqrt (ms ^ 2 + p ^ 2) = mM.

(** The width of a two-body decay with squared amplitude [a] *)
Definition two_body_width (mM p a : R) : R := a * p / (8 * PI * mM ^ 2).

(** The probability [F x] that a particle of mass [m], momentum [p] and width [w] is still there after a path of
    length [x]: its rate of decay is [w] slowed down by the time dilation, its velocity p / E *)
Definition survival (w m p : R) (F : R -> R) : Prop :=
  let E := sqrt (m ^ 2 + p ^ 2) in
  F 0 = 1 /\ forall x, derivable_pt_lim F x (- (w * (m / E)) / (p / E) * F x).

(** * Lemmas *)

Lemma recoil_energy mM m ms p : 0 < mM -> recoil mM m ms p ->
  (mM ^ 2 + m ^ 2 - ms ^ 2) ^ 2 = 4 * mM ^ 2 * (m ^ 2 + p ^ 2) /\
  mM ^ 2 + m ^ 2 - ms ^ 2 = 2 * mM * sqrt (m ^ 2 + p ^ 2).
Proof.
  intros HM [Hp He].
  assert (H1 : sqrt (m ^ 2 + p ^ 2) * sqrt (m ^ 2 + p ^ 2) = m ^ 2 + p ^ 2) by (apply sqrt_sqrt; nra).
  assert (H2 : sqrt (ms ^ 2 + p ^ 2) * sqrt (ms ^ 2 + p ^ 2) = ms ^ 2 + p ^ 2) by (apply sqrt_sqrt; nra).
  set (e1 := sqrt (m ^ 2 + p ^ 2)) in *. set (e2 := sqrt (ms ^ 2 + p ^ 2)) in *. clearbody e1 e2.
  assert (e2 = mM - e1) by lra. subst e2.
  assert (mM ^ 2 + m ^ 2 - ms ^ 2 = 2 * mM * e1) by nra.
  split; [|assumption]. rewrite H. nra.
Qed.

Lemma recoil_product mM m ms p : 0 < mM -> recoil mM m ms p ->
  (mM - m - ms) * (mM + m - ms) * (mM - m + ms) * (mM + m + ms) = (2 * mM * p) ^ 2.
Proof. intros HM H. destruct (recoil_energy mM m ms p HM H) as [H1 _]. nra. Qed.

Lemma recoil_momentum mM m ms p : 0 < mM -> recoil mM m ms p -> s_momentum mM m ms = Some p.
Proof.
  intros HM H. unfold s_momentum, osqrt. rewrite (recoil_product mM m ms p HM H). destruct H as [Hp _].
  destruct (Rlt_dec ((2 * mM * p) ^ 2) 0) as [r|r]; [nra|].
  cbn [obind]. f_equal. replace ((2 * mM * p) ^ 2) with (Rsqr (2 * mM * p)) by (unfold Rsqr; ring).
  rewrite sqrt_Rsqr by nra. field. lra.
Qed.

Lemma recoil_kallen mM m ms p : 0 < mM -> recoil mM m ms p ->
  sqrt (kallen_lambda (mM ^ 2) (m ^ 2) (ms ^ 2)) = 2 * mM * p.
Proof.
  intros HM H. replace (kallen_lambda (mM ^ 2) (m ^ 2) (ms ^ 2)) with (Rsqr (2 * mM * p)).
  - destruct H. rewrite sqrt_Rsqr; nra.
  - unfold kallen_lambda, Rsqr. pose proof (recoil_product mM m ms p HM H). nra.
Qed.

Lemma recoil_threshold mM m ms p : 0 <= m -> 0 <= ms -> recoil mM m ms p -> m + ms <= mM /\ (0 < p -> 0 < m + ms -> m + ms < mM).
Proof.
  intros Hm Hs [Hp He].
  assert (m <= sqrt (m ^ 2 + p ^ 2)).
  { apply Rsqr_incr_0; [|assumption|apply sqrt_pos]. rewrite Rsqr_sqrt by nra. unfold Rsqr. nra. }
  assert (ms <= sqrt (ms ^ 2 + p ^ 2)).
  { apply Rsqr_incr_0; [|assumption|apply sqrt_pos]. rewrite Rsqr_sqrt by nra. unfold Rsqr. nra. }
  split; [lra|]. intros Hp0 _.
  assert (m < sqrt (m ^ 2 + p ^ 2)).
  { apply Rsqr_incrst_0; [|assumption|apply sqrt_pos]. rewrite Rsqr_sqrt by nra. unfold Rsqr. nra. }
  lra.
Qed.

Lemma recoil_exists mM m ms : 0 <= m -> 0 <= ms -> 0 < mM -> m + ms <= mM -> exists p, recoil mM m ms p /\ (m + ms < mM -> 0 < p).
Proof.
  intros Hm Hs HM Ht.
  set (q := (mM - m - ms) * (mM + m - ms) * (mM - m + ms) * (mM + m + ms)).
  assert (Hq : 0 <= q) by (unfold q; repeat apply Rmult_le_pos; lra).
  exists (sqrt q / (2 * mM)). set (p := sqrt q / (2 * mM)).
  assert (Hp2 : p ^ 2 = q / (4 * mM ^ 2)).
  { unfold p. assert (sqrt q * sqrt q = q) by (apply sqrt_sqrt; assumption).
    set (r := sqrt q) in *. clearbody r. rewrite <- H. field. lra. }
  assert (Hp : 0 <= p) by (unfold p; apply Rmult_le_pos; [apply sqrt_pos|left; apply Rinv_0_lt_compat; lra]).
  split.
  - split; [assumption|].
    assert (H1 : sqrt (m ^ 2 + p ^ 2) = (mM ^ 2 + m ^ 2 - ms ^ 2) / (2 * mM)).
    { replace (m ^ 2 + p ^ 2) with (Rsqr ((mM ^ 2 + m ^ 2 - ms ^ 2) / (2 * mM))).
      - apply sqrt_Rsqr. apply Rmult_le_pos; [nra|left; apply Rinv_0_lt_compat; lra].
      - rewrite Hp2. unfold Rsqr, q. field. lra. }
    assert (H2 : sqrt (ms ^ 2 + p ^ 2) = (mM ^ 2 - m ^ 2 + ms ^ 2) / (2 * mM)).
    { replace (ms ^ 2 + p ^ 2) with (Rsqr ((mM ^ 2 - m ^ 2 + ms ^ 2) / (2 * mM))).
      - apply sqrt_Rsqr. apply Rmult_le_pos; [nra|left; apply Rinv_0_lt_compat; lra].
      - rewrite Hp2. unfold Rsqr, q. field. lra. }
    rewrite H1, H2. field. lra.
  - intro Hlt. unfold p. apply Rdiv_lt_0_compat; [|lra]. apply sqrt_lt_R0. unfold q.
    repeat apply Rmult_lt_0_compat; lra.
Qed.

Lemma linear_lim k t : derivable_pt_lim (fun y => k * y) t k.
Proof.
  pose proof (derivable_pt_lim_scal id k t 1 (derivable_pt_lim_id t)) as D. rewrite Rmult_1_r in D. exact D.
Qed.

(** The decay law has one solution *)
Lemma decay_unique k F : F 0 = 1 -> (forall x, derivable_pt_lim F x (- k * F x)) -> forall x, F x = exp (- k * x).
Proof.
  intros H0 Hd x.
  set (G := fun t => F t * exp (k * t)).
  assert (HG : forall t, derivable_pt_lim G t 0).
  { intro t. unfold G.
    replace 0 with ((- k * F t) * exp (k * t) + F t * (exp (k * t) * k)) by ring.
    apply (derivable_pt_lim_mult F (fun t => exp (k * t))); [apply Hd|].
    apply (derivable_pt_lim_comp (fun t => k * t) exp); [|apply derivable_pt_lim_exp].
    apply linear_lim. }
  assert (HD : derivable G) by (intro t; exists 0; apply HG).
  assert (Hc : constant_D_eq G (fun _ => True) (G 0)).
  { intros t _. destruct (Req_dec t 0) as [->|Ht]; [reflexivity|].
    pose proof (null_derivative_1 G HD) as Hn.
    assert (Hz : forall s, derive_pt G s (HD s) = 0) by (intro s; apply derive_pt_eq_0; apply HG).
    specialize (Hn Hz). unfold constant in Hn. apply Hn. }
  specialize (Hc x I). unfold G in Hc. rewrite H0, Rmult_0_r, exp_0, Rmult_1_r in Hc.
  apply (Rmult_eq_reg_r (exp (k * x))); [|apply Rgt_not_eq, exp_pos].
  rewrite Hc, <- exp_plus. replace (- k * x + k * x) with 0 by ring. now rewrite exp_0.
Qed.

Lemma survival_value w m p F : 0 < p -> survival w m p F -> forall x, F x = exp (- (w * m * x) / p).
Proof.
  intros Hp [H0 Hd] x.
  assert (HE : 0 < sqrt (m ^ 2 + p ^ 2)) by (apply sqrt_lt_R0; nra).
  set (E := sqrt (m ^ 2 + p ^ 2)) in *. clearbody E.
  rewrite (decay_unique (w * (m / E) / (p / E)) F H0).
  - f_equal. field. lra.
  - intro t. replace (- (w * (m / E) / (p / E)) * F t) with (- (w * (m / E)) / (p / E) * F t); [apply Hd|].
    field. lra.
Qed.

Lemma survival_exists w m p : 0 < p -> survival w m p (fun x => exp (- (w * m * x) / p)).
Proof.
  intro Hp. split.
  - rewrite Rmult_0_r. replace (- 0 / p) with 0 by (field; lra). apply exp_0.
  - intro x. assert (HE : 0 < sqrt (m ^ 2 + p ^ 2)) by (apply sqrt_lt_R0; nra).
    set (E := sqrt (m ^ 2 + p ^ 2)) in *. clearbody E.
    replace (- (w * (m / E)) / (p / E) * exp (- (w * m * x) / p))
      with (exp (- (w * m * x) / p) * (- (w * m) / p)) by (field; lra).
    apply (derivable_pt_lim_comp (fun x => - (w * m * x) / p) exp); [|apply derivable_pt_lim_exp].
    apply (derivable_pt_lim_ext (fun y => - (w * m) / p * y)); [intro; field; lra|]. apply linear_lim.
Qed.

Lemma survival_prob w m p F x : 0 <= w -> 0 <= m -> 0 < p -> 0 <= x -> survival w m p F -> 0 < F x <= 1.
Proof.
  intros Hw Hm Hp Hx HF. rewrite (survival_value w m p F Hp HF). split; [apply exp_pos|].
  rewrite <- exp_0. destruct (Rle_lt_or_eq_dec (- (w * m * x) / p) 0) as [H|H].
  - assert (0 <= w * m * x / p); [|lra]. apply Rmult_le_pos; [|left; now apply Rinv_0_lt_compat].
    repeat apply Rmult_le_pos; assumption.
  - left. now apply exp_increasing.
  - rewrite H. apply Rle_refl.
Qed.

(** * The width dictionary *)

Lemma widths_ok C o : s_has_width (so_par o) ->
  py_partial_widths C o =
  Ret [("g g", width_s_to_gg C (so_par o)); ("pi0 pi0", width_s_to_pi0pi0 C (so_par o));
       ("pi pi", width_s_to_pipi C (so_par o)); ("x x", width_s_to_xx (so_par o));
       ("e e", width_s_to_ff_mass C (so_par o) (c_me C)); ("mu mu", width_s_to_ff_mass C (so_par o) (c_mmu C));
       ("total", s_width_sum C (so_par o))]%string.
Proof. intro H. unfold py_partial_widths. rewrite (s_total_has_width C _ H). reflexivity. Qed.

Lemma inv_nonneg x : 0 <= x -> 0 <= / x.
Proof. intros [H| <-]; [left; now apply Rinv_0_lt_compat|]. rewrite Rinv_0. apply Rle_refl. Qed.

Lemma pow4_ge_0 x : 0 <= x ^ 4.
Proof. replace (x ^ 4) with ((x ^ 2) ^ 2) by ring. apply pow2_ge_0. Qed.
Lemma pow6_ge_0 x : 0 <= x ^ 6.
Proof. replace (x ^ 6) with ((x ^ 3) ^ 2) by ring. apply pow2_ge_0. Qed.
Ltac nonneg :=
  lazymatch goal with
  | |- 0 <= _ * _ => apply Rmult_le_pos; nonneg
  | |- 0 <= _ / _ => unfold Rdiv; apply Rmult_le_pos; nonneg
  | |- 0 <= / _ => apply inv_nonneg; nonneg
  | |- 0 <= _ ^ 2 => apply pow2_ge_0
  | |- 0 <= _ ^ 4 => apply pow4_ge_0
  | |- 0 <= _ ^ 6 => apply pow6_ge_0
  | |- 0 <= sqrt _ => apply sqrt_pos
  | |- 0 <= pow15 _ => apply pow15_nonneg
  | |- 0 <= PI => left; apply PI_RGT_0
  | |- _ => try lra
  end.

Lemma pow2_gt_0 x : x <> 0 -> 0 < x ^ 2.
Proof. intro H. rewrite <- Rsqr_pow2. now apply Rsqr_pos_lt. Qed.
Ltac positive :=
  lazymatch goal with
  | |- 0 < _ * _ => apply Rmult_lt_0_compat; positive
  | |- 0 < _ / _ => apply Rdiv_lt_0_compat; positive
  | |- 0 < / _ => apply Rinv_0_lt_compat; positive
  | |- 0 < PI => apply PI_RGT_0
  | |- 0 < _ ^ _ => first [apply pow2_gt_0; assumption | apply pow_lt; positive]
  | |- _ => try assumption; try lra
  end.

Lemma widths_nonneg C P :
  0 <= width_s_to_pi0pi0 C P /\ 0 <= width_s_to_pipi C P /\ 0 <= width_s_to_xx P /\
  forall m, 0 <= width_s_to_ff_mass C P m.
Proof.
  unfold width_s_to_pi0pi0, width_s_to_pipi, width_s_to_xx, width_s_to_ff_mass.
  repeat split; [..|intro m];
    match goal with |- context [if ?b then _ else _] => destruct b; [|lra] end; nonneg.
Qed.
Lemma gg_nonneg C P : 0 <= s_ms P -> 0 <= width_s_to_gg C P.
Proof.
  intro H. unfold width_s_to_gg. nonneg.
  - now apply pow_le.
  - apply pow_le. left. apply PI_RGT_0.
Qed.
