(** The earlier functions of the right-handed neutrino: widths against the golden rule, and radiated photons. *)
From Coq Require Import ZArith Reals Bool Lra Lia Psatz List.
From Verif Require Import PyBase KinModel RamboModel RamboProofs KinProofs Area SpecProofs NbodyModel NbodyProps RhnModel RhnProofs VffProofs OldProofs RhlModel RhlProofs.
Import ListNotations.
Local Open Scope R_scope.

Ltac ev2 := split; [constructor; [|constructor; [|constructor]]; split; cbn [en px py pz]; try lra; try field; try lra
                   |unfold vsum; cbn; unfold vplus; cbn [en px py pz]; f_equal; try lra; try field].
(** A decay of a particle of mass 2 m into a massless one and one of mass m *)
Lemma half_event m : 0 < m -> event (2 * m) [0; m] [V4 (3 / 4 * m) 0 0 (3 / 4 * m); V4 (5 / 4 * m) 0 0 (- (3 / 4 * m))].
Proof. intro H. ev2. Qed.
Lemma GF_nz : GF <> 0.
Proof. pose proof GF_pos. lra. Qed.
Lemma f_pi_pos : 0 < f_pi.
Proof. unfold f_pi. lra. Qed.

(** * C154: mesons and photons *)

(** Above threshold sin θ times the width into a charged meson and a lepton is the golden rule for the current
    2 GF f_pi V sin θ; missing: the factor sin θ itself. *)
Theorem legacy_charged_meson_partial : forall o mm ckm l k, 0 < l_mx o -> l_ml o + mm < l_mx o -> event (l_mx o) [l_ml o; mm] [l; k] ->
  sin (l_theta o) * width_m_l o mm ckm
  = two_body_rate (l_mx o) l (current_sq (2 * GF * f_pi * ckm * sin (l_theta o)) l (at_rest (l_mx o)) k).
Proof. intros o mm ckm l k H1 H2 Ev. apply m_l_value; assumption. Qed.
Print Assumptions legacy_charged_meson_partial.
Example ex_legacy_charged_meson : let o := MkL (2 * m_pi) (1 / 10) 0 1 in
  0 < l_mx o /\ l_ml o + m_pi < l_mx o /\ exists l k, event (l_mx o) [l_ml o; m_pi] [l; k] /\ en l <> 0.
Proof.
  pose proof m_pi_pos. cbn [l_mx l_ml]. split; [lra|]. split; [lra|]. eexists. eexists. split; [apply half_event; lra|]. cbn [en]. lra.
Qed.
Theorem legacy_charged_meson_threshold : forall o mm ckm, l_mx o <= l_ml o + mm -> width_m_l o mm ckm = 0.
Proof. intros o mm ckm H. unfold width_m_l. destruct (Rle_dec (l_mx o) (mm + l_ml o)); [reflexivity|lra]. Qed.
Print Assumptions legacy_charged_meson_threshold.
Example ex_legacy_threshold : l_mx (MkL 100 (1 / 10) 0 1) <= l_ml (MkL 100 (1 / 10) 0 1) + m_pi.
Proof. cbn [l_mx l_ml]. unfold m_pi. lra. Qed.
(** With a negative mixing angle the width is negative. *)
Theorem legacy_charged_meson_refuted : forall vud, vud <> 0 -> exists o l k, event (l_mx o) [l_ml o; m_pi] [l; k]
  /\ width_pi_l vud o < 0
  /\ 0 < two_body_rate (l_mx o) l (current_sq (2 * GF * f_pi * vud * sin (l_theta o)) l (at_rest (l_mx o)) k).
Proof.
  intros vud Hv. set (o := MkL (2 * m_pi) (- (PI / 6)) 0 1). pose proof m_pi_pos as Hm. pose proof (half_event m_pi Hm) as Ev.
  exists o. eexists. eexists. split; [exact Ev|].
  assert (Esin : sin (l_theta o) = - (1 / 2)) by (cbn [o l_theta]; rewrite sin_neg, sin_PI6; field).
  pose proof (m_l_value o m_pi vud _ _ Ev ltac:(cbn [o l_mx]; lra) ltac:(cbn [o l_mx l_ml]; lra)) as V.
  assert (Pos : 0 < two_body_rate (l_mx o) (V4 (3 / 4 * m_pi) 0 0 (3 / 4 * m_pi)) (current_sq (2 * GF * f_pi * vud * sin (l_theta o)) (V4 (3 / 4 * m_pi) 0 0 (3 / 4 * m_pi)) (at_rest (l_mx o)) (V4 (5 / 4 * m_pi) 0 0 (- (3 / 4 * m_pi))))).
  { unfold two_body_rate. rewrite (current_two _ _ _ _ _ _ Ev). pose proof (current_closed_pos (2 * m_pi) 0 m_pi ltac:(lra) ltac:(lra) ltac:(lra)) as F.
    pose proof PI_RGT_0 as HP. rewrite Esin. apply Rmult_lt_0_compat.
    - change (l_mx o) with (2 * m_pi). apply Rdiv_lt_0_compat; [|apply Rmult_lt_0_compat; [lra|apply pow_lt; lra]]. unfold mom. cbn [px py pz]. apply sqrt_lt_R0. nra.
    - apply Rmult_lt_0_compat; [|exact F]. unfold Rdiv. apply Rmult_lt_0_compat; [|lra]. rewrite <- Rsqr_pow2. apply Rsqr_pos_lt.
      pose proof GF_nz. pose proof f_pi_pos. repeat apply Rmult_integral_contrapositive_currified; try lra; assumption. }
  split; [|exact Pos]. unfold width_pi_l. rewrite Esin in V at 1. lra.
Qed.
Print Assumptions legacy_charged_meson_refuted.

(** The widths into a neutral meson are positive exactly where the decay is closed. *)
Theorem legacy_neutral_meson_inverted : forall o m0, 0 < l_mx o -> 0 < m0 -> sin (2 * l_theta o) <> 0 ->
  (0 < width_m0_nu o m0 <-> l_mx o < m0) /\ 0 <= width_m0_nu o m0.
Proof.
  intros o m0 HM H0 Hs. pose proof PI_RGT_0 as HP. pose proof cw_pos as HC. unfold width_m0_nu. set (b := l_mx o / m0).
  assert (Hb : b < 1 <-> l_mx o < m0).
  { unfold b. split; intro H; [apply Rmult_lt_reg_r with (/ m0); [apply Rinv_0_lt_compat; lra|]; rewrite Rinv_r by lra; exact H|].
    apply Rmult_lt_reg_r with m0; [lra|]. unfold Rdiv. rewrite Rmult_assoc, Rinv_l by lra. lra. }
  destruct (Rge_dec b 1) as [L|L]; [split; [split; intro H; [lra|apply Hb in H; lra]|lra]|].
  assert (Pb : 0 < b) by (apply Rdiv_lt_0_compat; lra).
  assert (P : 0 < l_mx o ^ 3 * (f_pi * GF * sin (2 * l_theta o) * (1 - b ^ 2)) ^ 2 / (32 * PI * cw ^ 4)).
  { apply Rdiv_lt_0_compat; [|apply Rmult_lt_0_compat; [lra|apply pow_lt; lra]]. apply Rmult_lt_0_compat; [apply pow_lt; lra|].
    rewrite <- Rsqr_pow2. apply Rsqr_pos_lt. pose proof GF_nz. pose proof f_pi_pos.
    assert (1 - b ^ 2 <> 0) by nra. repeat apply Rmult_integral_contrapositive_currified; try lra; assumption. }
  split; [|lra]. split; intro H; [apply Hb; lra|exact P].
Qed.
Print Assumptions legacy_neutral_meson_inverted.
Lemma sin_fifth : sin (2 * (PI / 4)) <> 0.
Proof. replace (2 * (PI / 4)) with (PI / 2) by field. rewrite sin_PI2. lra. Qed.
Example ex_legacy_neutral : 0 < l_mx (MkL 100 (PI / 4) 0 1) /\ 0 < m_pi0 /\ sin (2 * l_theta (MkL 100 (PI / 4) 0 1)) <> 0.
Proof. cbn [l_mx l_theta]. split; [lra|]. split; [unfold m_pi0; lra|apply sin_fifth]. Qed.
(** So it vanishes although the decay is open, and does not although it is closed. *)
Theorem legacy_neutral_meson_refuted : exists o o', sin (2 * l_theta o) <> 0
  /\ (exists nu k, event (l_mx o) [0; m_pi0] [nu; k] /\ en nu <> 0) /\ width_pi0_nu o = 0
  /\ (forall nu k, ~ event (l_mx o') [0; m_pi0] [nu; k]) /\ 0 < width_pi0_nu o'.
Proof.
  pose proof m_pi0_pos as Hm. exists (MkL (2 * m_pi0) (PI / 4) 0 1), (MkL (m_pi0 / 2) (PI / 4) 0 1). cbn [l_theta l_mx].
  split; [apply sin_fifth|]. split; [eexists; eexists; split; [apply half_event; lra|cbn [en]; lra]|]. unfold width_pi0_nu. split; [|split].
  - destruct (legacy_neutral_meson_inverted (MkL (2 * m_pi0) (PI / 4) 0 1) m_pi0 ltac:(cbn [l_mx]; lra) Hm sin_fifth) as [I N]. cbn [l_mx] in I.
    destruct N as [N|N]; [apply I in N; lra|symmetry; exact N].
  - intros nu k Ev. apply event2 in Ev. destruct Ev as ([_ A] & [_ B] & E). apply (f_equal en) in E. cbn [vplus en] in E. lra.
  - destruct (legacy_neutral_meson_inverted (MkL (m_pi0 / 2) (PI / 4) 0 1) m_pi0 ltac:(cbn [l_mx]; lra) Hm sin_fifth) as [I N]. cbn [l_mx] in I.
    apply I. lra.
Qed.
Print Assumptions legacy_neutral_meson_refuted.

(** The width into a neutrino and a photon is smaller than the one of the present class by a factor of more than π⁴. *)
Theorem legacy_photon_width_refuted : forall o g, 0 < l_mx o -> 0 < l_theta o < PI / 4 ->
  let p := MkP (l_mx o) (l_theta o) g in 0 < width_nu_gamma o /\ width_nu_gamma o < width_v_a p / PI ^ 4.
Proof.
  intros o g HM Ht p. pose proof PI_RGT_0 as HP. set (th := l_theta o) in *.
  assert (Hs : 0 < sin th) by (apply sin_gt_0; lra). assert (Hc : 0 < cos th) by (apply cos_gt_0; lra).
  assert (Hc2 : 0 < cos (2 * th)) by (apply cos_gt_0; lra). pose proof (sin2_cos2 th) as SC. unfold Rsqr in SC.
  assert (Eq : qe ^ 2 = 4 * PI * alpha_em) by (unfold qe; apply pow2_sqrt; apply Rmult_le_pos; [lra|unfold alpha_em; lra]).
  assert (Ha : 0 < alpha_em) by (unfold alpha_em; lra).
  set (K := alpha_em * GF ^ 2 * l_mx o ^ 5 / (1024 * PI ^ 8)).
  assert (PK : 0 < K). { unfold K. apply Rdiv_lt_0_compat; [|apply Rmult_lt_0_compat; [lra|apply pow_lt; exact HP]]. pose proof GF_pos. apply Rmult_lt_0_compat; [apply Rmult_lt_0_compat; [exact Ha|apply pow_lt; assumption]|apply pow_lt; lra]. }
  assert (E1 : width_nu_gamma o = K * (sin th ^ 2 * (6 - 5 * sin th ^ 2) ^ 2 / cos th ^ 2)).
  { unfold width_nu_gamma. fold th. rewrite Eq. replace (-1 + sin th ^ 2) with (- cos th ^ 2) by nra. unfold K. field. split; lra. }
  assert (E2 : width_v_a p / PI ^ 4 = K * (36 * (sin th * cos th / cos (2 * th)) ^ 2)).
  { unfold width_v_a, mixing, p. cbn [p_mx p_theta]. fold th. unfold tan. rewrite sin_2a. unfold K. field. repeat split; lra. }
  rewrite E1, E2. set (s := sin th) in *. set (c := cos th) in *.
  assert (C2 : cos (2 * th) = c * c - s * s) by (unfold c, s; apply cos_2a). rewrite C2 in *.
  assert (Hc1 : c * c < 1) by nra. set (d := c * c - s * s) in *. assert (Hd : d < c * c) by (unfold d; nra).
  assert (S1 : s * s < 1 / 2) by (unfold d in Hc2; lra).
  split.
  - apply Rmult_lt_0_compat; [exact PK|]. apply Rdiv_lt_0_compat; [|nra]. assert (0 < 6 - 5 * s ^ 2) by nra. apply Rmult_lt_0_compat; [nra|]. apply pow_lt; lra.
  - apply Rmult_lt_compat_l; [exact PK|]. apply Rlt_trans with (36 * s ^ 2 / c ^ 2).
    + unfold Rdiv. apply Rmult_lt_compat_r; [apply Rinv_0_lt_compat; nra|]. assert (0 < s ^ 2) by nra. assert ((6 - 5 * s ^ 2) ^ 2 < 36) by nra. nra.
    + replace (36 * s ^ 2 / c ^ 2) with (36 * (s ^ 2 / c ^ 2)) by (field; lra). apply Rmult_lt_compat_l; [lra|].
      replace ((s * c / d) ^ 2) with (s ^ 2 / c ^ 2 * (c * c / d) ^ 2) by (field; split; lra).
      rewrite <- (Rmult_1_r (s ^ 2 / c ^ 2)) at 1. apply Rmult_lt_compat_l; [apply Rdiv_lt_0_compat; nra|].
      assert (1 < c * c / d) by (apply Rmult_lt_reg_r with d; [lra|]; unfold Rdiv; rewrite Rmult_assoc, Rinv_l by lra; lra). nra.
Qed.
Print Assumptions legacy_photon_width_refuted.
Example ex_legacy_photon : 0 < l_mx (MkL 100 (1 / 10) 0 1) /\ 0 < l_theta (MkL 100 (1 / 10) 0 1) < PI / 4.
Proof. cbn [l_mx l_theta]. pose proof PI_RGT_0. pose proof PI2_3_2. unfold PI2 in *. lra. Qed.

(** The width into a neutrino and two photons takes the angle for its sine: negative, and not zero, without mixing. *)
Theorem legacy_two_photons_refuted : exists o, 0 < l_mx o <= m_pi0 /\ sin (l_theta o) = 0 /\ width_nu_g_g o < 0.
Proof.
  pose proof m_pi0_pos as Hm. pose proof PI_RGT_0 as HP. exists (MkL m_pi0 PI 0 1). cbn [l_mx l_theta]. split; [lra|]. split; [apply sin_PI|].
  unfold width_nu_g_g. cbn [l_mx l_theta]. destruct (Rgt_dec m_pi0 m_pi0) as [L|_]; [lra|].
  assert (P3 : 2 < PI) by (pose proof PI2_3_2; unfold PI2 in *; lra).
  assert (Pq : 0 < qe ^ 4) by (apply pow_lt; unfold qe; apply sqrt_lt_R0; unfold alpha_em; apply Rmult_lt_0_compat; lra).
  assert (X : 0 < GF ^ 2 * m_pi0 ^ 5 * qe ^ 4 * PI ^ 2 * (-1 + PI ^ 2) / (245760 * PI ^ 7 * (1 - sw ^ 2))).
  { rewrite sw_sq. pose proof GF_pos. apply Rdiv_lt_0_compat.
    - apply Rmult_lt_0_compat; [|nra]. apply Rmult_lt_0_compat; [|nra]. apply Rmult_lt_0_compat; [|exact Pq]. apply Rmult_lt_0_compat; [nra|apply pow_lt; lra].
    - apply Rmult_lt_0_compat; [apply Rmult_lt_0_compat; [lra|apply pow_lt; lra]|lra]. }
  replace 0.5 with (1 / 2) by lra.
  match goal with |- ?x < 0 => replace x with (- (3 / 2) * (GF ^ 2 * m_pi0 ^ 5 * qe ^ 4 * PI ^ 2 * (-1 + PI ^ 2) / (245760 * PI ^ 7 * (1 - sw ^ 2)))) end; [lra|].
  rewrite sw_sq. generalize dependent m_pi0. intros m Hm _. field. repeat split; lra.
Qed.
Print Assumptions legacy_two_photons_refuted.

(** cos²θ_W times the width into a neutrino and two charged pions is the golden rule for a Majorana particle and the
    neutral current √2 GF sin θ cos θ (1 - 2 sin²θ_W) of the pions; missing: that factor. *)
Theorem legacy_pion_pair_partial : forall o, 2 * m_pi < l_mx o ->
  golden3 (l_mx o) 0 m_pi m_pi
    (fun nu p p' => 2 * current_sq (sqrt 2 * (GF * (sin (l_theta o) * cos (l_theta o)) * (1 - 2 * sw ^ 2))) nu (at_rest (l_mx o)) (vminus p p'))
    (cw ^ 2 * width_nu_pi_pi o).
Proof.
  intros o H. rewrite (pi_pi_value o H). pose proof cw_pos. assert (C : cw ^ 2 <> 0) by (apply pow_nonzero; lra).
  match goal with |- golden3 _ _ _ _ _ (_ * (_ * ?v)) => replace (cw ^ 2 * (/ cw ^ 2 * v)) with v by (rewrite <- (Rmult_assoc (cw ^ 2)), (Rinv_r _ C), Rmult_1_l; reflexivity) end.
  apply golden3_scale. apply current_pair_golden; [apply m_pi_pos|exact H].
Qed.
Print Assumptions legacy_pion_pair_partial.
Example ex_legacy_pion_pair : 2 * m_pi < l_mx (MkL 500 (1 / 10) 0 1).
Proof. cbn [l_mx]. unfold m_pi. lra. Qed.
(** The width itself is too large. *)
Lemma pair_closed_pos a : 0 < a -> 4 * a < 1 -> 0 < pair_closed a.
Proof.
  intros Ha H. refine (PionProofs.area_pos _ _ _ _ H _ (pair_area a Ha H)). intros z Hz. pose proof (bz_arg a Ha z ltac:(lra)) as B.
  assert (0 < 1 - 4 * a / z) by (apply Rmult_lt_reg_r with z; [lra|]; field_simplify; lra).
  assert (0 < bz a z) by (apply sqrt_lt_R0; lra). repeat apply Rmult_lt_0_compat; nra.
Qed.
Theorem legacy_pion_pair_refuted : forall o v, 2 * m_pi < l_mx o -> sin (l_theta o) * cos (l_theta o) <> 0 ->
  golden3 (l_mx o) 0 m_pi m_pi
    (fun nu p p' => 2 * current_sq (sqrt 2 * (GF * (sin (l_theta o) * cos (l_theta o)) * (1 - 2 * sw ^ 2))) nu (at_rest (l_mx o)) (vminus p p')) v ->
  v < width_nu_pi_pi o.
Proof.
  intros o v H Hn Gv. pose proof m_pi_pos as Hm.
  pose proof (golden3_unique (l_mx o) 0 m_pi m_pi _ _ _ ltac:(lra) ltac:(nra) Gv (legacy_pion_pair_partial o H)) as E.
  pose proof (ratio_half m_pi (l_mx o) Hm H) as Hr. pose proof (pair_closed_pos ((m_pi / l_mx o) ^ 2) ltac:(apply pow_lt; lra) ltac:(nra)) as PC.
  assert (P : 0 < width_nu_pi_pi o).
  { rewrite (pi_pi_value o H). pose proof cw_pos. pose proof PI_RGT_0. apply Rmult_lt_0_compat; [apply Rinv_0_lt_compat, pow_lt; lra|]. apply Rmult_lt_0_compat; [lra|].
    apply Rmult_lt_0_compat; [|exact PC]. apply Rdiv_lt_0_compat; [|apply Rmult_lt_0_compat; [lra|apply pow_lt; lra]]. apply Rmult_lt_0_compat; [|apply pow_lt; lra].
    rewrite <- Rsqr_pow2. apply Rsqr_pos_lt. rewrite sw_sq. pose proof GF_nz. assert (sqrt 2 <> 0) by (pose proof (sqrt_lt_R0 2 ltac:(lra)); lra).
    repeat apply Rmult_integral_contrapositive_currified; try assumption; try lra; intro Z; apply Hn; rewrite Z; ring. }
  rewrite E, cw_sq, sw_sq. lra.
Qed.
Print Assumptions legacy_pion_pair_refuted.
Example ex_legacy_pion_pair_refuted : let o := MkL 500 (PI / 4) 0 1 in
  2 * m_pi < l_mx o /\ sin (l_theta o) * cos (l_theta o) <> 0 /\ exists v, golden3 (l_mx o) 0 m_pi m_pi
    (fun nu p p' => 2 * current_sq (sqrt 2 * (GF * (sin (l_theta o) * cos (l_theta o)) * (1 - 2 * sw ^ 2))) nu (at_rest (l_mx o)) (vminus p p')) v.
Proof.
  cbv zeta. assert (H : 2 * m_pi < l_mx (MkL 500 (PI / 4) 0 1)) by (cbn [l_mx]; unfold m_pi; lra). split; [exact H|]. split.
  - cbn [l_theta]. pose proof sin_fifth as S. rewrite sin_2a in S. intro Z. apply S. rewrite Rmult_assoc, Z. ring.
  - eexists. apply (legacy_pion_pair_partial _ H).
Qed.

(** A charged lepton, a charged and a neutral pion: if the quadrature is exact, the width exceeds the golden rule for the
    current 2 GF Vud sin θ of the pions by the integral of the term which the code leaves out of the Kallen function of
    the two pions; missing: that term. *)
Theorem legacy_pion_current_partial : forall vud quad o, 0 <= l_ml o -> l_ml o + m_pi + m_pi0 < l_mx o ->
  area (l_pi_pi0_integrand vud o) ((m_pi + m_pi0) ^ 2) ((l_ml o - l_mx o) ^ 2)
    (quad (l_pi_pi0_integrand vud o) ((m_pi + m_pi0) ^ 2) ((l_ml o - l_mx o) ^ 2)) ->
  exists E,
    area (fun s => 8 * GF ^ 2 * sqrt (kallen_lambda s (l_mx o ^ 2) (l_ml o ^ 2) * kallen_lambda s (m_pi ^ 2) (m_pi0 ^ 2))
                   * ((l_mx o ^ 2 - s) * m_pi ^ 2 * (m_pi0 ^ 2 + s)) * sin (l_theta o) ^ 2 * vud ^ 2 / (3 * s ^ 2))
      ((m_pi + m_pi0) ^ 2) ((l_mx o - l_ml o) ^ 2) E
    /\ golden3 (l_mx o) (l_ml o) m_pi m_pi0 (fun l p p' => current_sq (2 * GF * vud * sin (l_theta o)) l (at_rest (l_mx o)) (vminus p p'))
         (width_l_pi_pi0 vud quad o - E / (256 * PI ^ 3 * l_mx o ^ 3)).
Proof. intros vud quad o Hl HM Q. apply (l_pi_pi0_golden vud quad o Hl HM Q). Qed.
Print Assumptions legacy_pion_current_partial.
Theorem legacy_pion_current_refuted : forall vud quad o v, 0 <= l_ml o -> l_ml o + m_pi + m_pi0 < l_mx o -> vud <> 0 -> sin (l_theta o) <> 0 ->
  area (l_pi_pi0_integrand vud o) ((m_pi + m_pi0) ^ 2) ((l_ml o - l_mx o) ^ 2)
    (quad (l_pi_pi0_integrand vud o) ((m_pi + m_pi0) ^ 2) ((l_ml o - l_mx o) ^ 2)) ->
  golden3 (l_mx o) (l_ml o) m_pi m_pi0 (fun l p p' => current_sq (2 * GF * vud * sin (l_theta o)) l (at_rest (l_mx o)) (vminus p p')) v ->
  v < width_l_pi_pi0 vud quad o.
Proof.
  intros vud quad o v Hl HM Hv Hs Q Gv. pose proof m_pi_pos as H1. pose proof m_pi0_pos as H2. pose proof PI_RGT_0 as HP.
  destruct (l_pi_pi0_golden vud quad o Hl HM Q) as (E & AE & GE). pose proof (excess_pos vud o E Hl HM Hv Hs AE) as PE.
  pose proof (golden3_unique (l_mx o) (l_ml o) m_pi m_pi0 _ _ _ ltac:(lra) ltac:(nra) Gv GE) as Ev. rewrite Ev.
  assert (0 < E / (256 * PI ^ 3 * l_mx o ^ 3)); [|lra]. apply Rdiv_lt_0_compat; [exact PE|]. apply Rmult_lt_0_compat; [apply Rmult_lt_0_compat; [lra|apply pow_lt; lra]|apply pow_lt; lra].
Qed.
Print Assumptions legacy_pion_current_refuted.
(** The integrand has an integral, so an exact quadrature exists. *)
Example ex_legacy_pion_current : exists quad, let o := MkL 500 (PI / 4) m_e 1 in
  0 <= l_ml o /\ l_ml o + m_pi + m_pi0 < l_mx o /\ sin (l_theta o) <> 0
  /\ area (l_pi_pi0_integrand 1 o) ((m_pi + m_pi0) ^ 2) ((l_ml o - l_mx o) ^ 2)
       (quad (l_pi_pi0_integrand 1 o) ((m_pi + m_pi0) ^ 2) ((l_ml o - l_mx o) ^ 2)).
Proof.
  set (o := MkL 500 (PI / 4) m_e 1). assert (H0 : 0 <= l_ml o) by (unfold o; cbn [l_ml]; unfold m_e; lra).
  assert (HM : l_ml o + m_pi + m_pi0 < l_mx o) by (unfold o; cbn [l_ml l_mx]; unfold m_e, m_pi, m_pi0; lra). pose proof m_pi_pos as P1. pose proof m_pi0_pos as P2.
  assert (A : exists v, area (l_pi_pi0_integrand 1 o) ((m_pi + m_pi0) ^ 2) ((l_ml o - l_mx o) ^ 2) v).
  { apply Primitive.area_exists; [replace ((l_ml o - l_mx o) ^ 2) with ((l_mx o - l_ml o) ^ 2) by ring; nra|].
    intros s Hs. replace ((l_ml o - l_mx o) ^ 2) with ((l_mx o - l_ml o) ^ 2) in Hs by ring. apply integrand_cont; [nra|apply pipi0_kallen; assumption]. }
  destruct A as [v A]. exists (fun _ _ _ => v). cbv zeta. fold o. split; [exact H0|]. split; [exact HM|]. split; [|exact A].
  cbn [o l_theta]. rewrite sin_PI4. pose proof (sqrt_lt_R0 2 ltac:(lra)). apply Rgt_not_eq. apply Rdiv_lt_0_compat; lra.
Qed.

(** * C155: leptons *)

(** A charged-current decay into leptons of two flavours is the golden rule exactly. *)
Theorem legacy_two_flavours : forall M th mi mk, 0 < mi -> 0 < mk -> mi + mk < M ->
  golden3 M mk mi 0 (fun lk li nu => four_fermion (GF * sin th) 1 0 0 (at_rest M) nu li lk) (width_nup_l_lp M th mi mk).
Proof. apply mixed_golden. Qed.
Print Assumptions legacy_two_flavours.
Example ex_legacy_two_flavours : 0 < m_e /\ 0 < m_mu /\ m_e + m_mu < 200.
Proof. unfold m_e, m_mu. lra. Qed.
(** It does not matter which of the two charged leptons comes from the mixing vertex. *)
Theorem legacy_two_flavours_symmetric : forall M th mi mk, 0 < mi -> 0 < mk -> mi + mk < M -> width_nup_l_lp M th mi mk = width_nup_l_lp M th mk mi.
Proof. apply mixed_swap. Qed.
Print Assumptions legacy_two_flavours_symmetric.

(** Leptons of one flavour: the golden rule for a Majorana particle with the neutral current enhanced by 1 / cos²θ_W;
    [d] is 1 if the charged current contributes too.  Missing: the neutral current of unit strength. *)
Theorem legacy_lepton_pair_partial : forall M th m, 0 < m -> 2 * m < M ->
  golden3 M 0 m m (fun nu l lb => majorana_pair (GF * (sin th * cos th)) (g_left 1 (/ cw ^ 2)) (g_right (/ cw ^ 2)) m (at_rest M) nu l lb)
    (width_nu_l_l_same M th m)
  /\ golden3 M 0 m m (fun nu l lb => majorana_pair (GF * (sin th * cos th)) (g_left 0 (/ cw ^ 2)) (g_right (/ cw ^ 2)) m (at_rest M) nu l lb)
    (width_nu_lp_lp M th m).
Proof.
  intros M th m Hm HM. rewrite (same_value M th m Hm HM), (other_value M th m Hm HM).
  split; apply pair_golden; try assumption; unfold g_left, g_right; rewrite cw_sq, sw_sq; lra.
Qed.
Print Assumptions legacy_lepton_pair_partial.
Example ex_legacy_lepton_pair : 0 < m_mu /\ 2 * m_mu < 1100 /\ 10 * m_mu <= 1100 /\ sin (PI / 4) * cos (PI / 4) <> 0.
Proof.
  repeat split; [unfold m_mu; lra|unfold m_mu; lra|unfold m_mu; lra|].
  pose proof sin_fifth as H. rewrite sin_2a in H. intro Z. apply H. rewrite Rmult_assoc, Z. ring.
Qed.
(** With unit strength the pairs of the flavour that mixes are more frequent and the others less frequent than the code says. *)
Theorem legacy_lepton_pair_refuted : forall M th m v w, 0 < m -> 10 * m <= M -> sin th * cos th <> 0 ->
  golden3 M 0 m m (fun nu l lb => majorana_pair (GF * (sin th * cos th)) (g_left 1 1) (g_right 1) m (at_rest M) nu l lb) v ->
  golden3 M 0 m m (fun nu l lb => majorana_pair (GF * (sin th * cos th)) (g_left 0 1) (g_right 1) m (at_rest M) nu l lb) w ->
  width_nu_l_l_same M th m < v /\ w < width_nu_lp_lp M th m.
Proof.
  intros M th m v w Hm HM Hn Gv Gw. assert (HM2 : 2 * m < M) by lra.
  assert (D1 : g_left 1 1 <> g_right 1) by (unfold g_left, g_right; rewrite sw_sq; lra).
  assert (D0 : g_left 0 1 <> g_right 1) by (unfold g_left, g_right; rewrite sw_sq; lra).
  pose proof (golden3_unique M 0 m m _ _ _ ltac:(lra) ltac:(nra) Gv (pair_golden _ _ _ M m Hm HM2 D1)) as Ev.
  pose proof (golden3_unique M 0 m m _ _ _ ltac:(lra) ltac:(nra) Gw (pair_golden _ _ _ M m Hm HM2 D0)) as Ew.
  rewrite (same_value M th m Hm HM2), (other_value M th m Hm HM2), Ev, Ew.
  destruct (light_pair (m / M) (light_ratio m M Hm HM)) as (B & T1 & T2). set (t1 := exact_t1 _) in *. set (t2 := exact_t2 _) in *. set (b := vff_sx _) in *.
  assert (PK : 0 < (GF * (sin th * cos th)) ^ 2 * M ^ 5 / (96 * PI ^ 3)).
  { pose proof PI_RGT_0. apply Rdiv_lt_0_compat; [|apply Rmult_lt_0_compat; [lra|apply pow_lt; lra]]. apply Rmult_lt_0_compat; [|apply pow_lt; lra].
    rewrite <- Rsqr_pow2. apply Rsqr_pos_lt. apply Rmult_integral_contrapositive_currified; [apply GF_nz|exact Hn]. }
  unfold g_left, g_right. rewrite cw_sq, sw_sq. split; (apply Rmult_lt_compat_l; [exact PK|]); clearbody t1 t2 b; clear - B T1 T2; field_simplify; lra.
Qed.
Print Assumptions legacy_lepton_pair_refuted.

(** Three neutrinos: with a neutral current enhanced by 1 / cos²θ_W, a pair of another flavour is the golden rule for a
    Majorana particle; missing: unit strength. *)
Theorem legacy_three_neutrinos_partial : forall o n, 0 < l_mx o -> n <> l_gen o ->
  golden3 (l_mx o) 0 0 0
    (fun nu l lb => majorana_pair (GF * (sin (l_theta o) * cos (l_theta o))) (/ cw ^ 2 * (1 / 2)) 0 0 (at_rest (l_mx o)) nu l lb)
    (width_nu_nu_nu o (l_gen o) n n).
Proof.
  intros o n HM Hn. pose proof (vvv_pair (GF * (sin (l_theta o) * cos (l_theta o))) (/ cw ^ 2 * (1 / 2)) (l_mx o) HM) as G.
  match type of G with golden3 _ _ _ _ _ ?v => replace (width_nu_nu_nu o (l_gen o) n n) with v end; [exact G|].
  unfold width_nu_nu_nu. rewrite Z.eqb_refl, Z.eqb_refl. replace (l_gen o =? n)%Z with false by (symmetry; apply Z.eqb_neq; congruence).
  cbn [andb orb]. rewrite sin_double_sq. pose proof cw_pos. field. split; [apply PI_neq0|lra].
Qed.
Print Assumptions legacy_three_neutrinos_partial.
Example ex_legacy_three_neutrinos : 0 < l_mx (MkL 100 (PI / 4) 0 1) /\ 2%Z <> l_gen (MkL 100 (PI / 4) 0 1)
  /\ sin (l_theta (MkL 100 (PI / 4) 0 1)) * cos (l_theta (MkL 100 (PI / 4) 0 1)) <> 0.
Proof. cbn [l_mx l_gen l_theta]. split; [lra|]. split; [lia|]. apply ex_legacy_lepton_pair. Qed.
Theorem legacy_three_neutrinos_refuted : forall o n v, 0 < l_mx o -> n <> l_gen o -> sin (l_theta o) * cos (l_theta o) <> 0 ->
  golden3 (l_mx o) 0 0 0
    (fun nu l lb => majorana_pair (GF * (sin (l_theta o) * cos (l_theta o))) (1 / 2) 0 0 (at_rest (l_mx o)) nu l lb) v ->
  v < width_nu_nu_nu o (l_gen o) n n.
Proof.
  intros o n v HM Hn Hs Gv.
  pose proof (golden3_unique (l_mx o) 0 0 0 _ _ _ HM ltac:(replace ((0 + 0) ^ 2) with 0 by ring; apply pow2_ge_0) Gv (vvv_pair _ _ _ HM)) as E.
  pose proof (golden3_unique (l_mx o) 0 0 0 _ _ _ HM ltac:(replace ((0 + 0) ^ 2) with 0 by ring; apply pow2_ge_0) (legacy_three_neutrinos_partial o n HM Hn) (vvv_pair _ _ _ HM)) as E'.
  rewrite E, E'. set (x := (GF * (sin (l_theta o) * cos (l_theta o))) ^ 2).
  assert (Px : 0 < x * l_mx o ^ 5 / (96 * PI ^ 3)).
  { pose proof PI_RGT_0. apply Rdiv_lt_0_compat; [|apply Rmult_lt_0_compat; [lra|apply pow_lt; lra]]. apply Rmult_lt_0_compat; [|apply pow_lt; lra].
    unfold x. rewrite <- Rsqr_pow2. apply Rsqr_pos_lt. apply Rmult_integral_contrapositive_currified; [apply GF_nz|exact Hs]. }
  rewrite cw_sq, sw_sq. replace (x * (1 / 2) ^ 2 * l_mx o ^ 5 / (96 * PI ^ 3)) with (1 / 4 * (x * l_mx o ^ 5 / (96 * PI ^ 3))) by (field; apply PI_neq0).
  replace (x * (/ (1 - 2229 / 10000) * (1 / 2)) ^ 2 * l_mx o ^ 5 / (96 * PI ^ 3)) with ((/ (1 - 2229 / 10000) * (1 / 2)) ^ 2 * (x * l_mx o ^ 5 / (96 * PI ^ 3))) by (field; apply PI_neq0).
  apply Rmult_lt_compat_r; [exact Px|]. field_simplify; lra.
Qed.
Print Assumptions legacy_three_neutrinos_refuted.
(** The order of the neutrinos does not matter; three of the flavour that mixes count 2 cos⁴θ; nothing else decays. *)
Theorem legacy_neutrino_flavours : forall o j n m,
  width_nu_nu_nu o j n m = width_nu_nu_nu o n j m /\ width_nu_nu_nu o j n m = width_nu_nu_nu o j m n
  /\ (j <> l_gen o -> n <> l_gen o -> m <> l_gen o -> width_nu_nu_nu o j n m = 0)
  /\ (j = l_gen o -> n <> m -> width_nu_nu_nu o j n m = 0)
  /\ (n <> l_gen o -> width_nu_nu_nu o (l_gen o) (l_gen o) (l_gen o) = 2 * cos (l_theta o) ^ 4 * width_nu_nu_nu o (l_gen o) n n).
Proof.
  intros o j n m. unfold width_nu_nu_nu. set (w := GF ^ 2 * _ * _ / _). set (i := l_gen o).
  assert (B : forall a b : Z, (a =? b)%Z = (b =? a)%Z) by (intros; apply Z.eqb_sym).
  repeat split; intros;
    repeat match goal with |- context [(?a =? ?b)%Z] => destruct (Z.eqb_spec a b) end; cbn [andb orb]; subst; try congruence; try reflexivity; field.
Qed.
Print Assumptions legacy_neutrino_flavours.
Example ex_legacy_neutrino_flavours : exists o, 2%Z <> l_gen o /\ 0 < width_nu_nu_nu o (l_gen o) 2 2 /\ cos (l_theta o) <> 0.
Proof.
  exists (MkL 1 (PI / 4) 0 1). cbn [l_gen l_theta]. split; [lia|]. assert (C : 0 < cos (PI / 4)) by (pose proof PI_RGT_0; apply cos_gt_0; lra). split; [|lra].
  unfold width_nu_nu_nu. cbn [l_gen l_theta l_mx Z.eqb andb orb Pos.eqb]. replace (2 * (PI / 4)) with (PI / 2) by field. rewrite sin_PI2.
  pose proof PI_RGT_0. pose proof cw_pos. pose proof GF_pos. apply Rmult_lt_0_compat; [|lra]. apply Rdiv_lt_0_compat; [nra|].
  apply Rmult_lt_0_compat; [|apply pow_lt; lra]. apply Rmult_lt_0_compat; [lra|apply pow_lt; lra].
Qed.

(** The choice of the formula by flavours: exchanging the two charged leptons changes nothing. *)
Theorem legacy_lepton_order : forall o j n m, width_nu_l_l o j n m = width_nu_l_l o j m n.
Proof.
  intros o j n m. unfold width_nu_l_l. destruct (Z.eq_dec n m) as [->|Hn]; [reflexivity|].
  assert (O : forall k, {exists r, old_lepton_mass k = Ret r} + {old_lepton_mass k = Raise IndexError}).
  { intro k. unfold old_lepton_mass. destruct ((k - 1 =? 0)%Z || (k - 1 =? -2)%Z); [left; eauto|]. destruct ((k - 1 =? 1)%Z || (k - 1 =? -1)%Z); [left; eauto|right; reflexivity]. }
  destruct (O n) as [[a Ea]|Ea], (O m) as [[b Eb]|Eb]; try (rewrite ?Ea, ?Eb; reflexivity). rewrite Ea, Eb. cbn [bind].
  repeat match goal with |- context [(?a =? ?b)%Z] => destruct (Z.eqb_spec a b) end; cbn [andb orb]; subst; try congruence; reflexivity.
Qed.
Print Assumptions legacy_lepton_order.
(** For a tau the list of lepton masses is too short; a flavour 0, which does not exist, is taken for a muon. *)
Theorem legacy_lepton_index_refuted : forall o, width_nu_l_l o (l_gen o) 3 3 = Raise IndexError
  /\ (l_gen o <> 0%Z -> l_gen o <> 2%Z -> width_nu_l_l o (l_gen o) 0 0 = width_nu_l_l o (l_gen o) 2 2).
Proof.
  intro o. split; [reflexivity|]. intros H0 H2. unfold width_nu_l_l.
  change (old_lepton_mass 0) with (Ret m_mu). change (old_lepton_mass 2) with (Ret m_mu). cbn [bind].
  repeat match goal with |- context [(?a =? ?b)%Z] => destruct (Z.eqb_spec a b) end; cbn [andb]; try congruence; reflexivity.
Qed.
Print Assumptions legacy_lepton_index_refuted.
Example ex_legacy_lepton_index : l_gen (MkL 500 (1 / 10) m_e 1) <> 0%Z /\ l_gen (MkL 500 (1 / 10) m_e 1) <> 2%Z.
Proof. cbn [l_gen]. lia. Qed.

(** * C156: radiated photons and positrons *)

(** The photons of N -> lepton meson are those of the tree amplitude with one photon, per two-body decay, for any strength of
    the coupling; for the pion and the kaon alike. *)
Theorem legacy_meson_radiation : forall o mu A l0 k0 E, 0 < l_ml o -> 0 < mu -> 0 < l_mx o -> 0 < E ->
  (mu + l_ml o) ^ 2 < l_mx o ^ 2 - 2 * l_mx o * E -> A <> 0 -> event (l_mx o) [l_ml o; mu] [l0; k0] ->
  radiated (l_mx o) mu (l_ml o) (radiative_sq A qe (l_mx o) (l_ml o))
    (two_body_rate (l_mx o) l0 (current_sq A l0 (at_rest (l_mx o)) k0)) E (dnde_pi_l_fsr_ mu o E)
  /\ dnde_k_l_fsr_ mu o E = dnde_pi_l_fsr_ mu o E.
Proof. intros o mu A l0 k0 E Hl Hmu HM HE Hs HA Ev. split; [apply fsr_value; assumption|apply fsr_same]. Qed.
Print Assumptions legacy_meson_radiation.
(** Mass 10, lepton and meson of mass 3 *)
Example ex_legacy_meson_radiation : let o := MkL 10 (1 / 10) 3 1 in
  0 < l_ml o /\ 0 < l_mx o /\ (3 + l_ml o) ^ 2 < l_mx o ^ 2 - 2 * l_mx o * 1 /\ event (l_mx o) [l_ml o; 3] [V4 5 0 0 4; V4 5 0 0 (-4)].
Proof. cbn [l_mx l_ml]. split; [lra|]. split; [lra|]. split; [lra|]. ev2. Qed.
(** No photons of energy 0 or less, nor above the end point. *)
Theorem legacy_radiation_range : forall o mu E, 0 < l_mx o -> E <= 0 \/ l_mx o ^ 2 - 2 * l_mx o * E <= (mu + l_ml o) ^ 2 -> dnde_pi_l_fsr_ mu o E = 0.
Proof.
  intros o mu E HM H. unfold dnde_pi_l_fsr_. destruct (Rlt_dec (l_mx o) (mu + l_ml o)); [reflexivity|]. destruct (Rge_dec ((mu + l_ml o) ^ 2) (l_mx o ^ 2 - 2 * l_mx o * E)); [reflexivity|].
  destruct (Rle_dec (l_mx o ^ 2) (l_mx o ^ 2 - 2 * l_mx o * E)) as [|L]; [reflexivity|]. exfalso. destruct H as [H|H]; [apply L; nra|lra].
Qed.
Print Assumptions legacy_radiation_range.

(** The photons of the three-body decays: the branching ratio times one splitting function for each charged particle. *)
Theorem legacy_splitting : forall vud quad total o e, 0 < l_mx o -> 0 < l_ml o -> 0 < total ->
  (forall j n m w, width_nu_l_l o j n m = Ret w -> 0 <= w ->
     dnde_nu_l_l_fsr total o e j n m
     = Ret (w / total * (dnde_photon_ap_fermion alpha_em e (l_mx o ^ 2) (if (n =? 1)%Z then m_e else m_mu) 1
                         + dnde_photon_ap_fermion alpha_em e (l_mx o ^ 2) (if (m =? 1)%Z then m_e else m_mu) (-1))))
  /\ (0 <= width_l_pi_pi0 vud quad o ->
      dnde_l_pi_pi0_fsr vud quad total o e
      = width_l_pi_pi0 vud quad o / total * (dnde_photon_ap_fermion alpha_em e (l_mx o ^ 2) (l_ml o) 1 + dnde_photon_ap_scalar alpha_em e (l_mx o ^ 2) m_pi (-1)))
  /\ (0 <= width_nu_pi_pi o ->
      dnde_nu_pi_pi_fsr total o e
      = width_nu_pi_pi o / total * (dnde_photon_ap_scalar alpha_em e (l_mx o ^ 2) m_pi 1 + dnde_photon_ap_scalar alpha_em e (l_mx o ^ 2) m_pi (-1))).
Proof.
  intros vud quad total o e HM Hl Ht. assert (me : 0 < m_e) by (unfold m_e; lra). assert (mm : 0 < m_mu) by (unfold m_mu; lra). pose proof m_pi_pos as mp.
  assert (F : forall m, 0 < m -> dnde_altarelli_parisi_fermion alpha_em e (l_mx o) m = 2 * dnde_photon_ap_fermion alpha_em e (l_mx o ^ 2) m 1
              /\ dnde_photon_ap_fermion alpha_em e (l_mx o ^ 2) m (-1) = dnde_photon_ap_fermion alpha_em e (l_mx o ^ 2) m 1
              /\ dnde_altarelli_parisi_scalar alpha_em e (l_mx o) m = 2 * dnde_photon_ap_scalar alpha_em e (l_mx o ^ 2) m 1
              /\ dnde_photon_ap_scalar alpha_em e (l_mx o ^ 2) m (-1) = dnde_photon_ap_scalar alpha_em e (l_mx o ^ 2) m 1).
  { intros m Hm. destruct (ap_deprecated alpha_em e (l_mx o) m 1 HM Hm ltac:(ring)) as [A B]. destruct (ap_deprecated alpha_em e (l_mx o) m (-1) HM Hm ltac:(ring)) as [A' B']. repeat split; lra. }
  assert (Z : forall w, 0 <= w -> ~ w / total > 0 -> w / total = 0).
  { intros w Hw Hn. destruct Hw as [Hw|<-]; [exfalso; apply Hn; apply Rdiv_lt_0_compat; assumption|unfold Rdiv; ring]. }
  replace 0.5 with (1 / 2) by lra. unfold dnde_nu_l_l_fsr, dnde_l_pi_pi0_fsr, dnde_nu_pi_pi_fsr. replace 0.5 with (1 / 2) by lra. split; [|split].
  - intros j n m w Ew Hw. rewrite Ew. cbn [bind]. f_equal.
    set (m1 := if (n =? 1)%Z then m_e else m_mu). set (m2 := if (m =? 1)%Z then m_e else m_mu).
    assert (H1 : 0 < m1) by (unfold m1; destruct (n =? 1)%Z; assumption). assert (H2 : 0 < m2) by (unfold m2; destruct (m =? 1)%Z; assumption).
    destruct (F m1 H1) as (A1 & B1 & _ & _). destruct (F m2 H2) as (A2 & B2 & _ & _). rewrite A1, A2, B2.
    destruct (Rgt_dec (w / total) 0) as [_|L]; [|rewrite (Z w Hw L); ring].
    destruct (Z.eqb_spec n m) as [En|_]; [|field; lra]. unfold m1, m2. rewrite En. ring.
  - intro Hw. destruct (F (l_ml o) Hl) as (A1 & B1 & _ & _). destruct (F m_pi mp) as (_ & _ & A2 & B2). rewrite A1, A2, B2.
    destruct (Rgt_dec _ 0) as [_|L]; [field; lra|rewrite (Z _ Hw L); ring].
  - intro Hw. destruct (F m_pi mp) as (_ & _ & A2 & B2). rewrite A2, B2. destruct (Rgt_dec _ 0) as [_|L]; [ring|rewrite (Z _ Hw L); ring].
Qed.
Print Assumptions legacy_splitting.
Example ex_legacy_splitting : let o := MkL 500 (1 / 10) m_e 1 in 0 < l_mx o /\ 0 < l_ml o /\ exists w, width_nu_l_l o 1 2 2 = Ret w.
Proof. cbn [l_mx l_ml]. split; [lra|]. split; [unfold m_e; lra|]. eexists. reflexivity. Qed.

(** The positrons are those of a pion of the energy it has in N -> pion lepton. *)
Theorem legacy_positrons : forall pspec o e l k, 0 < l_mx o -> event (l_mx o) [l_ml o; m_pi] [l; k] -> dnde_pos_pi_l pspec o e = pspec e (en k).
Proof.
  intros pspec o e l k HM Ev. destruct (dots2 _ _ _ _ _ Ev) as (_ & _ & _ & _ & N2). unfold dnde_pos_pi_l. f_equal.
  rewrite mdot_eq in N2. unfold at_rest in N2. cbn [en px py pz] in N2. apply Rmult_eq_reg_l with (l_mx o); [|lra].
  replace (l_mx o * en k) with ((l_mx o ^ 2 + m_pi ^ 2 - l_ml o ^ 2) / 2) by lra. field. lra.
Qed.
Print Assumptions legacy_positrons.
