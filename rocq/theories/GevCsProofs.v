(** Vocabulary and lemmas for the cross sections of the GeV vector mediator. *)
From Coq Require Import String ZArith NArith Reals Bool Lra Lia Psatz List.
From Verif Require Import PyBase PyBaseFacts GevModel GevProofs VffModel MedModel GevCsModel.
Import ListNotations.
Local Open Scope R_scope.

(** * Specification *)
(** The width of a vector of mass [q] to a pair of Dirac fermions of mass [m], coupling [g] *)
Definition pair_width (g m q : R) : R := g ^ 2 * (q ^ 2 + 2 * m ^ 2) * sqrt (q ^ 2 - 4 * m ^ 2) / (12 * PI * q ^ 2).
(** Production of a spin-one resonance of mass [mv] and width [w] by two spin-one-half particles of mass
    [mx]: (2 J + 1) / ((2 s1 + 1) (2 s2 + 1)) times 4 pi / k^2 times the Breit-Wigner factor with the
    entrance and exit widths taken at the energy [q] *)
Definition resonance_cross_section (q mx mv w gin gout : R) : R :=
  (2 * 1 + 1) / ((2 * (1 / 2) + 1) * (2 * (1 / 2) + 1)) * (4 * PI / (q ^ 2 / 4 - mx ^ 2))
  * (q ^ 2 * gin * gout / ((q ^ 2 - mv ^ 2) ^ 2 + mv ^ 2 * w ^ 2)).

(** The constants of the width methods *)
Definition width_consts (M : cmass) (qe : R) : gconsts := MkGconsts (m_e M) (m_mu M) (m_pi M) (m_pi0 M) qe.
(** The parameters with another mediator mass *)
Definition at_mass (P : gpar) (q : R) : gpar :=
  MkGpar (g_mx P) q (g_xx P) (g_uu P) (g_dd P) (g_ss P) (g_ee P) (g_mm P) (g_ve P) (g_vm P) (g_vt P).

Definition masses_ok (M : cmass) : Prop :=
  0 < m_e M /\ 0 < m_mu M /\ 0 < m_pi M /\ 0 < m_pi0 M /\ 0 < m_k M /\ 0 < m_k0 M /\ 0 < m_eta M /\ 0 < m_etap M
  /\ 0 < m_phi M /\ 0 < m_omega M /\ m_pi0 M <= m_omega M.

(** * Numbers *)
Lemma odiv_some x y : y <> 0 -> odiv x y = Some (x / y).
Proof. intro H. unfold odiv. now destruct (Req_EM_T y 0). Qed.
Lemma osqrt_some x : 0 <= x -> osqrt x = Some (sqrt x).
Proof. intro H. unfold osqrt. destruct (Rlt_dec x 0); [lra|reflexivity]. Qed.
Lemma osqrt_none x : x < 0 -> osqrt x = None.
Proof. intro H. unfold osqrt. destruct (Rlt_dec x 0); [reflexivity|lra]. Qed.

Lemma sqrt_over s a : 0 < s -> 0 <= s - a -> sqrt (1 - a / s) = sqrt (s - a) / sqrt s.
Proof.
  intros Hs Ha. rewrite <- sqrt_div_alt by exact Hs. f_equal. field. lra.
Qed.

(** The shape all formulas are brought to *)
Definition short_form (q mx mv w gxx gout : R) : R :=
  gxx ^ 2 * (q ^ 2 + 2 * mx ^ 2) * gout / (sqrt (q ^ 2 - 4 * mx ^ 2) * ((q ^ 2 - mv ^ 2) ^ 2 + mv ^ 2 * w ^ 2)).

Section Resonance.
Variables q mx mv w : R.
Hypothesis Hx : 0 <= mx.
Hypothesis Hq : 2 * mx < q.
Hypothesis Hv : 0 < mv.
Hypothesis Hw : 0 < w.

Lemma q_pos : 0 < q. Proof. lra. Qed.
Lemma gap_pos : 0 < q ^ 2 - 4 * mx ^ 2. Proof. nra. Qed.
Lemma den_pos : 0 < (q ^ 2 - mv ^ 2) ^ 2 + mv ^ 2 * w ^ 2.
Proof.
  assert (0 < mv ^ 2 * w ^ 2) by (apply Rmult_lt_0_compat; apply pow_lt; assumption).
  pose proof (pow2_ge_0 (q ^ 2 - mv ^ 2)). lra.
Qed.
Lemma root_pos : 0 < sqrt (q ^ 2 - 4 * mx ^ 2). Proof. apply sqrt_lt_R0, gap_pos. Qed.

Lemma resonance_short gxx gout : resonance_cross_section q mx mv w (pair_width gxx mx q) gout = short_form q mx mv w gxx gout.
Proof.
  pose proof q_pos. pose proof den_pos as D. pose proof root_pos as R. pose proof PI_RGT_0.
  pose proof (sqrt_sqrt (q ^ 2 - 4 * mx ^ 2) (Rlt_le _ _ gap_pos)) as S2. pose proof gap_pos as G.
  unfold resonance_cross_section, pair_width, short_form.
  replace (q ^ 2 / 4 - mx ^ 2) with (sqrt (q ^ 2 - 4 * mx ^ 2) * sqrt (q ^ 2 - 4 * mx ^ 2) / 4) by (rewrite S2; field).
  set (r := sqrt _) in *. set (d := _ + mv ^ 2 * w ^ 2) in *. clearbody r d. field. repeat split; lra.
Qed.

Lemma base_short thr j gxx : thr < q -> base_cross_section thr j q mx mv gxx w = Some (short_form q mx mv w gxx (0.5 * q * j q)).
Proof.
  intro Ht. unfold base_cross_section. destruct (Rlt_dec thr q); [|lra]. unfold cs_factor.
  rewrite osqrt_some by (left; apply gap_pos). cbn [obind]. pose proof root_pos as R. pose proof den_pos as D.
  replace ((mv * w) ^ 2) with (mv ^ 2 * w ^ 2) by ring.
  rewrite odiv_some; [|apply Rgt_not_eq, Rmult_lt_0_compat; assumption]. cbn [obind]. f_equal. unfold short_form.
  set (rr := sqrt _) in *. set (d := _ + mv ^ 2 * w ^ 2) in *. clearbody rr d. field. lra.
Qed.
Lemma four_short j gxx : four_body_cross_section j q mx mv gxx w = Some (short_form q mx mv w gxx (0.5 * q * j q)).
Proof.
  pose proof (base_short (q - 1) j gxx ltac:(lra)) as B. unfold base_cross_section in B.
  destruct (Rlt_dec (q - 1) q); [exact B|lra].
Qed.
End Resonance.

Section Channels.
Variable M : cmass.
Variable iff : chan -> R -> R * R * R -> N -> R.
Variable P : gpar.
Variable cp : R * R * R.
Variable w : R.
Hypothesis HM : masses_ok M.
Hypothesis Hx : 0 <= g_mx P.
Hypothesis Hv : 0 < g_mv P.
Hypothesis Hw : 0 < w.

Lemma short_zero q gxx : short_form q (g_mx P) (g_mv P) w gxx 0 = 0.
Proof. unfold short_form, Rdiv. ring. Qed.

Lemma ff_short gff mf q : 0 <= mf -> 2 * g_mx P < q ->
  sigma_xx_to_f_f P w gff mf q = Some (short_form q (g_mx P) (g_mv P) w (g_xx P) (width_v_to_f_f q mf gff)).
Proof.
  intros Hf Hq. assert (Q : 0 < q) by lra. unfold sigma_xx_to_f_f, width_v_to_f_f. destruct (Rlt_dec (2 * g_mx P) q); [|lra].
  destruct (Rlt_dec (2 * mf) q) as [H|H].
  - assert (Q2 : 0 < q ^ 2) by now apply pow_lt. assert (Gf : 0 < q ^ 2 - 4 * mf ^ 2) by nra.
    pose proof (gap_pos q (g_mx P) Hx Hq) as Gx. pose proof (root_pos q (g_mx P) Hx Hq) as Rx.
    rewrite odiv_some by lra. cbn [obind].
    assert (Ef : 0 < 1 - 4 * mf ^ 2 / q ^ 2).
    { replace (1 - 4 * mf ^ 2 / q ^ 2) with ((q ^ 2 - 4 * mf ^ 2) / q ^ 2) by (field; lra). now apply Rdiv_lt_0_compat. }
    assert (Ex : 0 < 1 - 4 * g_mx P ^ 2 / q ^ 2).
    { replace (1 - 4 * g_mx P ^ 2 / q ^ 2) with ((q ^ 2 - 4 * g_mx P ^ 2) / q ^ 2) by (field; lra). now apply Rdiv_lt_0_compat. }
    rewrite osqrt_some by lra. cbn [obind]. rewrite odiv_some by lra. cbn [obind]. rewrite osqrt_some by lra. cbn [obind].
    rewrite !sqrt_over by lra. rewrite sqrt_pow2 by lra. rewrite Rmax_left by lra.
    replace (- 4 * mf ^ 2 + q ^ 2) with (q ^ 2 - 4 * mf ^ 2) by ring.
    pose proof (den_pos q (g_mv P) w Hv Hw) as D.
    replace (g_mv P ^ 4 + (q ^ 2) ^ 2 + g_mv P ^ 2 * (- 2 * q ^ 2 + w ^ 2)) with ((q ^ 2 - g_mv P ^ 2) ^ 2 + g_mv P ^ 2 * w ^ 2) by ring.
    unfold short_form. pose proof PI_RGT_0 as Pp.
    set (rx := sqrt (q ^ 2 - 4 * g_mx P ^ 2)) in *. set (rf := sqrt _) in *. set (d := _ + g_mv P ^ 2 * w ^ 2) in *. clearbody rx rf d.
    rewrite odiv_some.
    + f_equal. field. repeat split; lra.
    + apply Rgt_not_eq. assert (0 < rx / q) by (apply Rdiv_lt_0_compat; lra). apply Rmult_lt_0_compat; [|exact D].
      apply Rmult_lt_0_compat; [|exact Q2]. apply Rmult_lt_0_compat; [lra|assumption].
  - rewrite Rmax_right by nra. rewrite sqrt_0. f_equal. symmetry. unfold short_form, Rdiv. ring.
Qed.

Lemma width_to_cs_short q : 2 * g_mx P < q ->
  width_to_cs P w q = Some (short_form q (g_mx P) (g_mv P) w (g_xx P) 1).
Proof.
  intro Hq. assert (Q : 0 < q) by lra. unfold width_to_cs. rewrite !odiv_some by lra. cbn [obind].
  pose proof (gap_pos q (g_mx P) Hx Hq) as Gx. pose proof (root_pos q (g_mx P) Hx Hq) as Rx.
  assert (Q2 : 0 < q ^ 2) by now apply pow_lt.
  assert (E : 1 - 4 * (g_mx P / q) ^ 2 = 1 - 4 * g_mx P ^ 2 / q ^ 2) by (field; lra).
  assert (Ex : 0 < 1 - 4 * g_mx P ^ 2 / q ^ 2).
  { replace (1 - 4 * g_mx P ^ 2 / q ^ 2) with ((q ^ 2 - 4 * g_mx P ^ 2) / q ^ 2) by (field; lra). now apply Rdiv_lt_0_compat. }
  rewrite E, osqrt_some by lra. cbn [obind]. rewrite sqrt_over by lra. rewrite sqrt_pow2 by lra.
  pose proof (den_pos q (g_mv P) w Hv Hw) as D.
  replace (1 + ((w / q) ^ 2 - 2) * (g_mv P / q) ^ 2 + ((g_mv P / q) ^ 2) ^ 2)
    with (((q ^ 2 - g_mv P ^ 2) ^ 2 + g_mv P ^ 2 * w ^ 2) / q ^ 4) by (field; lra).
  unfold short_form. set (rx := sqrt _) in *. set (d := _ + g_mv P ^ 2 * w ^ 2) in *. clearbody rx d.
  assert (Q4 : 0 < q ^ 4) by now apply pow_lt. rewrite odiv_some.
  - f_equal. field. repeat split; lra.
  - apply Rgt_not_eq. apply Rmult_lt_0_compat; [|now apply pow_lt]. apply Rmult_lt_0_compat; now apply Rdiv_lt_0_compat.
Qed.

Lemma from_width_short wd fsp q : 2 * g_mx P < q -> (q <= fsp -> wd q = 0) ->
  sigma_from_width_fn P w wd fsp q = Some (short_form q (g_mx P) (g_mv P) w (g_xx P) (wd q)).
Proof.
  intros Hq Hz. unfold sigma_from_width_fn. destruct (Rlt_dec fsp q) as [H|H].
  - destruct (Rlt_dec (2 * g_mx P) q); [|lra]. rewrite width_to_cs_short by exact Hq. cbn [obind]. f_equal.
    unfold short_form, Rdiv. ring.
  - rewrite Hz by lra. now rewrite short_zero.
Qed.

Lemma short_half q gxx g : (let? x := Some (short_form q (g_mx P) (g_mv P) w gxx g) in Some (x / 2)) = Some (short_form q (g_mx P) (g_mv P) w gxx (g / 2)).
Proof. cbn [obind]. f_equal. unfold short_form, Rdiv. ring. Qed.

Lemma base_short_masked c n q : four_pions c = false -> 2 * g_mx P < q ->
  base_cross_section (ff_threshold M c) (fun q => iff c q cp n) q (g_mx P) (g_mv P) (g_xx P) w
  = Some (short_form q (g_mx P) (g_mv P) w (g_xx P) (ff_width M iff c q cp n)).
Proof.
  intros Hc Hq. unfold ff_width. rewrite Hc. destruct (Rlt_dec (ff_threshold M c) q) as [H|H].
  - now rewrite base_short by assumption.
  - rewrite short_zero. unfold base_cross_section. destruct (Rlt_dec (ff_threshold M c) q); [lra|reflexivity].
Qed.

(** Every state of the dictionary but v v *)
Definition has_cross_section (c : chan) : Prop := c <> XX /\ c <> Pi0Pi0.

Lemma sigma_short qe c n q : has_cross_section c -> 2 * g_mx P < q ->
  sigma_of M iff P cp w c n q
  = Some (short_form q (g_mx P) (g_mv P) w (g_xx P) (width_body (width_consts M qe) (ff_width M iff) (at_mass P q) cp c n)).
Proof.
  intros [Hc1 Hc2] Hq. destruct HM as (Me & Mm & Mpi & Mpi0 & _ & _ & _ & _ & _ & Mo & Mle).
  destruct c; try congruence; cbn [sigma_of width_body width_consts at_mass k_me k_mmu k_mpi k_mpi0 g_mv g_ee g_mm g_ve g_vm g_vt];
    try (rewrite ff_short by lra; rewrite ?short_half; reflexivity); try (apply base_short_masked; [reflexivity|exact Hq]).
  - rewrite from_width_short; [reflexivity|exact Hq|]. intro H. unfold ff_width. cbn [four_pions ff_threshold].
    destruct (Rlt_dec (m_pi0 M + m_omega M) q); [lra|ring].
  - rewrite four_short by assumption. destruct (Rlt_dec q (4 * m_pi M)) as [H|H].
    + f_equal. f_equal. unfold four_iff. cbn [ff_threshold]. destruct (Rlt_dec q (m_pi M + m_pi M + m_pi M + m_pi M)); [ring|lra].
    + reflexivity.
  - rewrite four_short by assumption. destruct (Rlt_dec q (2 * m_pi M + 2 * m_pi0 M)) as [H|H].
    + f_equal. f_equal. unfold four_iff. cbn [ff_threshold]. destruct (Rlt_dec q (m_pi M + m_pi M + m_pi0 M + m_pi0 M)); [ring|lra].
    + reflexivity.
Qed.

(** Below the dark-matter threshold *)
Lemma cs_factor_none q gxx : 0 <= q -> q < 2 * g_mx P -> cs_factor q (g_mx P) (g_mv P) gxx w = None.
Proof. intros H0 H. unfold cs_factor. rewrite osqrt_none by nra. reflexivity. Qed.
Lemma osum_none l : In None l -> osum l = None.
Proof.
  unfold osum. assert (N : forall l, fold_left (fun a b => let? x := a in let? y := b in Some (x + y)) l None = None).
  { induction l0 as [|x l0 IH]; [reflexivity|]. cbn [fold_left obind]. exact IH. }
  generalize (Some 0). induction l as [|x l IH]; intros a H; [destruct H|]. cbn [fold_left]. destruct H as [->|H].
  - destruct a; cbn [obind]; apply N.
  - apply IH, H.
Qed.
End Channels.

(** * v v *)
Section VV.
Variable P : gpar.
Variable q : R.
Hypothesis Hx : 0 < g_mx P.
Hypothesis Hv : 0 < g_mv P.
Hypothesis Qx : 2 * g_mx P < q.
Hypothesis Qv : 2 * g_mv P < q.

(** The parameters of the MeV class with the same masses and dark-matter coupling *)
Definition mev_params (gu gd gs ge gm : R) : vparams := MkV (g_mx P) (g_mv P) (g_xx P) gu gd gs ge gm.

Lemma vv_twice gu gd gs ge gm : sigma_xx_to_v_v P q = Some (2 * sigma_xx_to_vv (mev_params gu gd gs ge gm) q).
Proof.
  unfold sigma_xx_to_v_v, sigma_xx_to_vv, mev_params. cbn [v_mx v_mv v_gvxx].
  set (x := g_mx P) in *. set (v := g_mv P) in *. set (g := g_xx P).
  destruct (Rlt_dec (2 * v) q); [|lra]. destruct (Rlt_dec (2 * x) q); [|lra].
  destruct (Rlt_dec q (2 * v)); [lra|]. destruct (Rlt_dec q (2 * x)); [lra|].
  assert (Q : 0 < q) by lra. assert (Q2 : 0 < q ^ 2) by now apply pow_lt.
  rewrite !odiv_some by lra. cbn [obind].
  assert (Gx : 0 < q ^ 2 - 4 * x ^ 2) by nra. assert (Gv : 0 < q ^ 2 - 4 * v ^ 2) by nra.
  assert (Ex : 1 - 4 * (x / q) ^ 2 = 1 - (4 * x ^ 2) / q ^ 2) by (field; lra).
  assert (Ev : 1 - 4 * (v / q) ^ 2 = 1 - (4 * v ^ 2) / q ^ 2) by (field; lra).
  assert (Px : 0 < 1 - 4 * x ^ 2 / q ^ 2).
  { replace (1 - 4 * x ^ 2 / q ^ 2) with ((q ^ 2 - 4 * x ^ 2) / q ^ 2) by (field; lra). now apply Rdiv_lt_0_compat. }
  assert (Pv : 0 < 1 - 4 * v ^ 2 / q ^ 2).
  { replace (1 - 4 * v ^ 2 / q ^ 2) with ((q ^ 2 - 4 * v ^ 2) / q ^ 2) by (field; lra). now apply Rdiv_lt_0_compat. }
  rewrite Ex, Ev, !osqrt_some by lra. cbn [obind]. rewrite !sqrt_over by lra. rewrite sqrt_pow2 by lra.
  replace (v ^ 2 * - 4 + q ^ 2) with (q ^ 2 - 4 * v ^ 2) by ring. replace (x ^ 2 * - 4 + q ^ 2) with (q ^ 2 - 4 * x ^ 2) by ring.
  pose proof (sqrt_lt_R0 _ Gx) as Rx. pose proof (sqrt_lt_R0 _ Gv) as Rv.
  pose proof (sqrt_sqrt _ (Rlt_le _ _ Gx)) as Sx. pose proof (sqrt_sqrt _ (Rlt_le _ _ Gv)) as Sv.
  set (rx := sqrt (q ^ 2 - 4 * x ^ 2)) in *. set (rv := sqrt (q ^ 2 - 4 * v ^ 2)) in *. clearbody rx rv. pose proof PI_RGT_0 as Pp.
  assert (Dx : 0 < rx / q) by now apply Rdiv_lt_0_compat. assert (Dv : 0 < rv / q) by now apply Rdiv_lt_0_compat.
  rewrite (odiv_some (g ^ 4 * (rv / q))).
  2:{ apply Rgt_not_eq. apply Rmult_lt_0_compat; [apply Rmult_lt_0_compat; [lra|exact Dx]|exact Q2]. }
  cbn [obind].
  (* the t-channel denominator *)
  assert (T : 0 < v ^ 4 + x ^ 2 * (q ^ 2 - 4 * v ^ 2)).
  { assert (0 < v ^ 4) by now apply pow_lt. assert (0 < x ^ 2) by now apply pow_lt. nra. }
  assert (ET : ((v / q) ^ 2) ^ 2 + (x / q) ^ 2 - 4 * (v / q) ^ 2 * (x / q) ^ 2 = (v ^ 4 + x ^ 2 * (q ^ 2 - 4 * v ^ 2)) / q ^ 4) by (field; lra).
  assert (Q4 : 0 < q ^ 4) by now apply pow_lt.
  rewrite (odiv_some _ (((v / q) ^ 2) ^ 2 + (x / q) ^ 2 - 4 * (v / q) ^ 2 * (x / q) ^ 2)).
  2:{ rewrite ET. apply Rgt_not_eq. now apply Rdiv_lt_0_compat. }
  cbn [obind].
  assert (Sh : 0 < q ^ 2 - 2 * v ^ 2) by nra.
  assert (ES : 1 - 2 * (v / q) ^ 2 = (q ^ 2 - 2 * v ^ 2) / q ^ 2) by (field; lra).
  assert (PS : 0 < 1 - 2 * (v / q) ^ 2) by (rewrite ES; now apply Rdiv_lt_0_compat).
  rewrite (odiv_some (rx / q * (rv / q))) by lra. cbn [obind].
  assert (ER : rx / q * (rv / q) / (1 - 2 * (v / q) ^ 2) = rx * rv / (q ^ 2 - 2 * v ^ 2)) by (rewrite ES; field; lra).
  rewrite ER. set (ra := rx * rv / (q ^ 2 - 2 * v ^ 2)).
  assert (R0 : 0 < ra) by (apply Rdiv_lt_0_compat; [now apply Rmult_lt_0_compat|exact Sh]).
  assert (RL : rx * rv < q ^ 2 - 2 * v ^ 2).
  { assert (SqE : (rx * rv) ^ 2 = (q ^ 2 - 4 * x ^ 2) * (q ^ 2 - 4 * v ^ 2)) by (rewrite <- Sx, <- Sv; ring).
    assert (SqL : (rx * rv) ^ 2 < (q ^ 2 - 2 * v ^ 2) ^ 2).
    { rewrite SqE. assert (0 < x ^ 2) by now apply pow_lt. assert (0 < v ^ 4) by now apply pow_lt. nra. }
    assert (0 < rx * rv) by now apply Rmult_lt_0_compat. nra. }
  assert (R1 : ra < 1).
  { unfold ra. apply Rmult_lt_reg_r with (q ^ 2 - 2 * v ^ 2); [exact Sh|]. unfold Rdiv. rewrite Rmult_assoc, Rinv_l by lra. lra. }
  unfold oatanh. destruct (Rlt_dec (-1) ra); [|lra]. destruct (Rlt_dec ra 1); [|lra]. cbn [obind].
  assert (EL : (1 + ra) / (1 - ra) = (rv * rx + (v ^ 2 * - 2 + q ^ 2)) / (- rv * rx + (v ^ 2 * - 2 + q ^ 2))).
  { unfold ra. field. repeat split; lra. }
  rewrite EL. set (L := ln _). clearbody L.
  rewrite odiv_some.
  2:{ apply Rlt_not_eq. assert (0 < (1 - 2 * (v / q) ^ 2) * (rx / q * (rv / q))) by (apply Rmult_lt_0_compat; [exact PS|now apply Rmult_lt_0_compat]). lra. }
  cbn [obind]. f_equal. rewrite ET.
  replace (-1 + 2 * (v / q) ^ 2) with (- ((q ^ 2 - 2 * v ^ 2) / q ^ 2)) by (field; lra).
  replace (q ^ 2 - 4 * x ^ 2) with (rx * rx) by exact Sx. 
  replace (x ^ 2 * q ^ 2 + (v ^ 2 * - 4 * x ^ 2 + v ^ 4)) with (v ^ 4 + x ^ 2 * (q ^ 2 - 4 * v ^ 2)) by ring.
  replace (v ^ 2 * - 2 + q ^ 2) with (q ^ 2 - 2 * v ^ 2) by ring.
  set (tt := v ^ 4 + x ^ 2 * (q ^ 2 - 4 * v ^ 2)) in *. set (sh := q ^ 2 - 2 * v ^ 2) in *. clearbody tt sh.
  field. repeat split; lra.
Qed.
End VV.
