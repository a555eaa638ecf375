(** Theorems about the mediator models (MedModel.v): C36-C39. *)
From Coq Require Import String Reals ZArith Lra Lia Psatz Bool List.
From Verif Require Import PyBase MedModel MedProofs.
Import ListNotations.
Local Open Scope R_scope.

(** C36. With one table of constants, every s-channel cross section of the scalar model is the
    Breit-Wigner formula of a spin-0 resonance with the model's own partial widths at mass [e]. *)
Theorem scalar_breit_wigner : forall C P e w mf,
  0 < s_mx P -> 2 * s_mx P < e -> 0 < mf -> 0 < c_mpi0 C -> 0 < c_mpi C -> c_vh C <> 0 ->
  s_lam P <> 0 -> 9 * s_lam P + 4 * s_gsGG P * s_vs P <> 0 ->
  0 < (e ^ 2 - s_ms P ^ 2) ^ 2 + (s_ms P * w) ^ 2 ->
  let Q := s_with_mass P e in
  let bw := breit_wigner 0 e (s_mx P) (s_ms P) w (width_s_to_xx Q) in
  sigma_xx_to_s_to_gg C P e w = bw (width_s_to_gg C Q) /\
  sigma_xx_to_s_to_ff C P e w mf = Ret (bw (width_s_to_ff_mass C Q mf)) /\
  sigma_xx_to_s_to_pi0pi0 C P e w = bw (width_s_to_pi0pi0 C Q) /\
  sigma_xx_to_s_to_pipi C P e w = bw (width_s_to_pipi C Q).
Proof.
  intros C P e w mf Hx He Hf Hp0 Hp Hv Hlam Hg HB Q bw.
  assert (Hpi : PI <> 0) by (pose proof PI_RGT_0; lra).
  assert (He0 : 0 < e) by lra.
  assert (Hk : 0 < e ^ 2 - 4 * s_mx P ^ 2) by nra.
  assert (HB2 : s_propagator P e w = (e ^ 2 - s_ms P ^ 2) ^ 2 + (s_ms P * w) ^ 2)
    by (unfold s_propagator; ring).
  set (B := (e ^ 2 - s_ms P ^ 2) ^ 2 + (s_ms P * w) ^ 2) in *.
  set (r := sqrt (e ^ 2 - 4 * s_mx P ^ 2)).
  assert (Hr : r * r = e ^ 2 - 4 * s_mx P ^ 2) by (unfold r; apply sqrt_sqrt; lra).
  assert (Hrp : 0 < r) by (unfold r; apply sqrt_lt_R0; lra).
  assert (Hin : width_s_to_xx Q = s_gsxx P ^ 2 * ((e ^ 2 - 4 * s_mx P ^ 2) * r) / (8 * e ^ 2 * PI)).
  { unfold width_s_to_xx, Q. cbn [s_with_mass s_mx s_ms s_gsxx].
    destruct (Rlt_dec (2 * s_mx P) e); [|lra].
    rewrite pow15_val by lra. reflexivity. }
  assert (Hbw : forall g, bw g = s_gsxx P ^ 2 * r / (2 * B) * g).
  { intro g. unfold bw, breit_wigner. fold B. rewrite Hin. cbn [INR].
    replace (e ^ 2 - (2 * s_mx P) ^ 2) with (r * r) by (rewrite Hr; ring).
    rewrite <- Hr. field. nz. }
  assert (Hroot : sqrt (- 4 * s_mx P ^ 2 + e ^ 2) = r).
  { unfold r. f_equal. ring. }
  assert (H4 : e ^ 2 - 4 * s_mx P ^ 2 = - 4 * s_mx P ^ 2 + e ^ 2) by ring.
  assert (Hpion : forall m, 0 < m -> ~ e < 2 * m ->
    sqrt ((- 4 * m ^ 2 + e ^ 2) * (- 4 * s_mx P ^ 2 + e ^ 2)) = sqrt (- 4 * m ^ 2 + e ^ 2) * r).
  { intros m Hm Hn. rewrite <- Hroot. apply sqrt_mult_alt. nra. }
  assert (Hamp : forall m, xs_pion_amplitude C P e m = width_pion_amplitude C Q m).
  { intro m. unfold xs_pion_amplitude, width_pion_amplitude, Q.
    cbn [s_with_mass s_mx s_ms s_gsxx s_gsff s_gsGG s_lam s_vs]. ring. }
  clearbody r. clear Hin.
  rewrite !Hbw.
  repeat split.
  - unfold sigma_xx_to_s_to_gg, width_s_to_gg, Q. cbn [s_with_mass s_ms s_gsFF s_lam].
    destruct (Rlt_dec e (2 * s_mx P)); [lra|]. rewrite HB2, Hroot. clearbody B. field. nz.
  - unfold sigma_xx_to_s_to_ff, width_s_to_ff_mass, Q. cbn [s_with_mass s_ms s_gsff].
    destruct (Rlt_dec e (2 * mf)) as [Hlt|Hge].
    + destruct (Rlt_dec (2 * mf) e); [lra|]. f_equal. ring.
    + destruct (Rlt_dec e (2 * s_mx P)); [lra|]. rewrite HB2, Hroot.
      unfold complex_quotient.
      destruct (Req_EM_T (16 * PI * e ^ 2 * c_vh C ^ 2 * B) 0) as [Hz|_].
      { exfalso. clearbody B. revert Hz. change (16 * PI * e ^ 2 * c_vh C ^ 2 * B <> 0). nz. }
      f_equal. destruct (Rlt_dec (2 * mf) e) as [_|Hn].
      * clearbody B. field. nz.
      * assert (e = 2 * mf) by lra.
        replace (- 4 * mf ^ 2 + e ^ 2) with 0 by (subst e; ring).
        unfold pow15. destruct (Rle_dec 0 0); [|lra]. unfold Rdiv. ring.
  - unfold sigma_xx_to_s_to_pi0pi0, width_s_to_pi0pi0.
    change (s_ms Q) with e. change (s_lam Q) with (s_lam P). change (s_gsGG Q) with (s_gsGG P).
    change (s_vs Q) with (s_vs P).
    destruct (Rlt_dec e (2 * c_mpi0 C)) as [Hlt|Hge].
    + destruct (Rlt_dec (2 * c_mpi0 C) e); [lra|]. ring.
    + destruct (Rlt_dec e (2 * s_mx P)); [lra|]. rewrite HB2, Hamp, (Hpion _ Hp0 Hge).
      clearbody B. destruct (Rlt_dec (2 * c_mpi0 C) e) as [_|Hn].
      * field. nz.
      * assert (e = 2 * c_mpi0 C) by lra.
        replace (- 4 * c_mpi0 C ^ 2 + e ^ 2) with 0 by (subst e; ring).
        rewrite sqrt_0. unfold Rdiv. ring.
  - unfold sigma_xx_to_s_to_pipi, width_s_to_pipi.
    change (s_ms Q) with e. change (s_lam Q) with (s_lam P). change (s_gsGG Q) with (s_gsGG P).
    change (s_vs Q) with (s_vs P).
    destruct (Rlt_dec e (2 * c_mpi C)) as [Hlt|Hge].
    + destruct (Rlt_dec (2 * c_mpi C) e); [lra|]. ring.
    + destruct (Rlt_dec e (2 * s_mx P)); [lra|]. rewrite HB2, Hamp, (Hpion _ Hp Hge).
      clearbody B. destruct (Rlt_dec (2 * c_mpi C) e) as [_|Hn].
      * field. nz.
      * assert (e = 2 * c_mpi C) by lra.
        replace (- 4 * c_mpi C ^ 2 + e ^ 2) with 0 by (subst e; ring).
        rewrite sqrt_0. unfold Rdiv. ring.
Qed.
Print Assumptions scalar_breit_wigner.
Example scalar_breit_wigner_example :
  let P := MkS 100 1000 1 1 3 1 246000 0 in
  0 < s_mx P /\ 2 * s_mx P < 500 /\ 0 < c_me py_consts /\ 0 < c_mpi0 py_consts /\ 0 < c_mpi py_consts /\
  c_vh py_consts <> 0 /\ s_lam P <> 0 /\ 9 * s_lam P + 4 * s_gsGG P * s_vs P <> 0 /\
  0 < (500 ^ 2 - s_ms P ^ 2) ^ 2 + (s_ms P * 1) ^ 2.
Proof. cbn [s_mx s_ms s_lam s_gsGG s_vs c_me c_mpi0 c_mpi c_vh py_consts]. repeat split; lra. Qed.

(** C36. The two tables of constants differ, so between the two charged-pion thresholds the shipped
    cross section is positive while the shipped width at that mass is zero. *)
Theorem scalar_breit_wigner_refuted : exists P e w,
  0 < s_mx P /\ 2 * s_mx P < e /\ 0 < w /\ s_lam P <> 0 /\
  0 < sigma_xx_to_s_to_pipi rs_consts P e w /\
  breit_wigner 0 e (s_mx P) (s_ms P) w (width_s_to_xx (s_with_mass P e))
    (width_s_to_pipi py_consts (s_with_mass P e)) = 0.
Proof.
  exists (MkS 100 1000 1 0 1 0 1000 0), (2791405 / 10000), 1.
  cbn [s_mx s_ms s_lam s_with_mass s_gsxx s_gsff s_gsGG s_gsFF s_vs].
  repeat split; try lra.
  - unfold sigma_xx_to_s_to_pipi, xs_pion_amplitude, s_propagator.
    cbn [s_mx s_ms s_lam s_gsxx s_gsff s_gsGG s_gsFF s_vs c_mpi c_vh c_b0 c_mdq c_muq rs_consts].
    destruct (Rlt_dec (2791405 / 10000) (2 * (13957018 / 100000))); [lra|].
    destruct (Rlt_dec (2791405 / 10000) (2 * 100)); [lra|].
    pose proof PI_RGT_0 as Hpi.
    apply Rmult_lt_0_compat.
    + apply Rmult_lt_0_compat; [apply Rmult_lt_0_compat; [lra|apply sqrt_lt_R0; lra]|].
      rewrite <- Rsqr_pow2. apply Rsqr_pos_lt. lra.
    + apply Rinv_0_lt_compat.
      repeat (apply Rmult_lt_0_compat; try lra).
  - unfold width_s_to_pipi. cbn [s_ms s_with_mass c_mpi py_consts].
    destruct (Rlt_dec (2 * (13957039 / 100000)) (2791405 / 10000)); [lra|].
    unfold breit_wigner. cbn zeta. rewrite !Rmult_0_r. unfold Rdiv. apply Rmult_0_l.
Qed.
Print Assumptions scalar_breit_wigner_refuted.

(** C36, vector model: leptons and charged pions follow the Breit-Wigner formula of a spin-1 resonance,
    the neutral-pion channel is smaller by a factor of nine. *)
Theorem vector_breit_wigner : forall C P e w gvll mf,
  0 < v_mx P -> 2 * v_mx P < e -> 0 < mf -> 0 < c_mpi0 C -> 0 < c_mpi C -> c_fpi C <> 0 ->
  0 < (e ^ 2 - v_mv P ^ 2) ^ 2 + (v_mv P * w) ^ 2 ->
  let Q := v_with_mass P e in
  let bw := breit_wigner 1 e (v_mx P) (v_mv P) w (width_v_to_xx Q) in
  sigma_xx_to_v_to_ff P e w gvll mf = bw (width_v_to_ff_mass Q gvll mf) /\
  sigma_xx_to_v_to_pipi C P e w = Ret (bw (width_v_to_pipi C Q)) /\
  sigma_xx_to_v_to_pi0g C P e w = bw (width_v_to_pi0g C Q) / 9.
Proof.
  intros C P e w gvll mf Hx He Hf Hp0 Hp Hfp HB Q bw.
  assert (Hpi : PI <> 0) by (pose proof PI_RGT_0; lra).
  assert (He0 : 0 < e) by lra.
  assert (HB2 : v_propagator P e w = (e ^ 2 - v_mv P ^ 2) ^ 2 + (v_mv P * w) ^ 2)
    by (unfold v_propagator; ring).
  set (B := (e ^ 2 - v_mv P ^ 2) ^ 2 + (v_mv P * w) ^ 2) in *.
  assert (Hroot : sqrt (e ^ 2 - 4 * v_mx P ^ 2) = sqrt (v_mx P ^ 2 * - 4 + e ^ 2)) by (f_equal; ring).
  set (r := sqrt (v_mx P ^ 2 * - 4 + e ^ 2)) in *.
  assert (Hk : 0 < v_mx P ^ 2 * - 4 + e ^ 2) by nra.
  assert (Hr : r * r = v_mx P ^ 2 * - 4 + e ^ 2) by (unfold r; apply sqrt_sqrt; lra).
  assert (Hrp : 0 < r) by (unfold r; apply sqrt_lt_R0; lra).
  assert (Hbw : forall g, bw g = v_gvxx P ^ 2 * (e ^ 2 + 2 * v_mx P ^ 2) / (r * B) * g).
  { intro g. unfold bw, breit_wigner. fold B. cbn [INR].
    unfold width_v_to_xx, Q. cbn [v_with_mass v_mx v_mv v_gvxx].
    destruct (Rlt_dec (2 * v_mx P) e); [|lra]. rewrite Hroot.
    replace (e ^ 2 - (2 * v_mx P) ^ 2) with (r * r) by (rewrite Hr; ring).
    clearbody r B. field. nz. }
  rewrite !Hbw. repeat split.
  - unfold sigma_xx_to_v_to_ff, width_v_to_ff_mass, Q. cbn [v_with_mass v_mv].
    destruct (Rlt_dec e (2 * mf)) as [Hlt|Hge].
    + destruct (Rlt_dec (2 * mf) e); [lra|]. ring.
    + destruct (Rlt_dec e (2 * v_mx P)); [lra|]. rewrite HB2.
      rewrite sqrt_div_alt by lra. fold r. clearbody r B.
      destruct (Rlt_dec (2 * mf) e) as [_|Hn].
      * replace (mf ^ 2 * -4 + e ^ 2) with (-4 * mf ^ 2 + e ^ 2) by ring. field. nz.
      * assert (e = 2 * mf) by lra.
        replace (mf ^ 2 * - 4 + e ^ 2) with 0 by (subst e; ring). rewrite sqrt_0. unfold Rdiv. ring.
  - unfold sigma_xx_to_v_to_pipi, width_v_to_pipi, Q. cbn [v_with_mass v_mv v_gvuu v_gvdd].
    destruct (Rlt_dec e (2 * v_mx P)); [lra|].
    destruct (Rlt_dec e (2 * c_mpi C)) as [Hlt|Hge].
    + destruct (Rlt_dec (2 * c_mpi C) e); [lra|]. f_equal. ring.
    + rewrite HB2. fold r. unfold complex_quotient.
      destruct (Req_EM_T (48 * PI * e ^ 2 * r * B) 0) as [Hz|_].
      { exfalso. clearbody r B. revert Hz. change (48 * PI * e ^ 2 * r * B <> 0). nz. }
      f_equal. rewrite pow15_val by nra.
      destruct (Rlt_dec (2 * c_mpi C) e) as [Hgt|Hn].
      * assert (Hs : sqrt (c_mpi C ^ 2 * -4 + e ^ 2) = e * sqrt (1 - 4 * (c_mpi C / e) ^ 2)).
        { replace (c_mpi C ^ 2 * -4 + e ^ 2) with (e ^ 2 * (1 - 4 * (c_mpi C / e) ^ 2)) by (field; lra).
          rewrite sqrt_mult_alt by nra. now rewrite sqrt_pow2 by lra. }
        rewrite pow15_val.
        2:{ replace (1 - 4 * (c_mpi C / e) ^ 2) with ((e ^ 2 - 4 * c_mpi C ^ 2) / e ^ 2) by (field; lra).
            apply Rmult_le_pos; [nra|]. left. apply Rinv_0_lt_compat. nra. }
        rewrite Hs. set (q := sqrt (1 - 4 * (c_mpi C / e) ^ 2)). clearbody q r B. field. nz.
      * assert (e = 2 * c_mpi C) by lra.
        replace (c_mpi C ^ 2 * - 4 + e ^ 2) with 0 by (subst e; ring). rewrite sqrt_0. unfold Rdiv. ring.
  - unfold sigma_xx_to_v_to_pi0g, width_v_to_pi0g, Q. cbn [v_with_mass v_mv v_gvuu v_gvdd].
    destruct (Rlt_dec e (c_mpi0 C)) as [Hlt|Hge].
    + destruct (Rlt_dec (c_mpi0 C) e); [lra|]. unfold Rdiv. ring.
    + destruct (Rlt_dec e (2 * v_mx P)); [lra|]. rewrite HB2. fold r.
      destruct (Rlt_dec (c_mpi0 C) e) as [Hgt|Hn].
      * clearbody r B. field. nz.
      * assert (e = c_mpi0 C) by lra.
        replace (e ^ 2 - c_mpi0 C ^ 2) with 0 by (subst e; ring). unfold Rdiv. ring.
Qed.
Print Assumptions vector_breit_wigner.
Example vector_breit_wigner_example :
  let P := MkV 100 1000 1 (2 / 10) (- 1 / 10) (- 1 / 10) (- 3 / 10) (- 3 / 10) in
  0 < v_mx P /\ 2 * v_mx P < 500 /\ 0 < c_me py_consts /\ 0 < c_mpi0 py_consts /\ 0 < c_mpi py_consts /\
  c_fpi py_consts <> 0 /\ 0 < (500 ^ 2 - v_mv P ^ 2) ^ 2 + (v_mv P * 1) ^ 2.
Proof. cbn [v_mx v_mv c_me c_mpi0 c_mpi c_fpi py_consts]. repeat split; lra. Qed.

Theorem vector_pi0g_refuted : exists P e w,
  0 < v_mx P /\ 2 * v_mx P < e /\ 0 < w /\
  sigma_xx_to_v_to_pi0g py_consts P e w
  <> breit_wigner 1 e (v_mx P) (v_mv P) w (width_v_to_xx (v_with_mass P e))
       (width_v_to_pi0g py_consts (v_with_mass P e)).
Proof.
  exists (MkV 100 1000 1 (2 / 10) (- 1 / 10) (- 1 / 10) (- 3 / 10) (- 3 / 10)), 500, 1.
  set (P := MkV 100 1000 1 (2 / 10) (- 1 / 10) (- 1 / 10) (- 3 / 10) (- 3 / 10)).
  assert (HB : 0 < (500 ^ 2 - v_mv P ^ 2) ^ 2 + (v_mv P * 1) ^ 2) by (unfold P; cbn [v_mv]; lra).
  assert (H1 : 0 < v_mx P) by (unfold P; cbn [v_mx]; lra).
  assert (H2 : 2 * v_mx P < 500) by (unfold P; cbn [v_mx]; lra).
  assert (H3 : 0 < c_mpi0 py_consts) by (cbn [c_mpi0 py_consts]; lra).
  assert (H4 : 0 < c_mpi py_consts) by (cbn [c_mpi py_consts]; lra).
  assert (H5 : c_fpi py_consts <> 0) by (cbn [c_fpi py_consts]; lra).
  repeat split; try assumption; try lra.
  destruct (vector_breit_wigner py_consts P 500 1 1 1 H1 H2 Rlt_0_1 H3 H4 H5 HB) as (_ & _ & E).
  cbn zeta in E. rewrite E.
  set (b := breit_wigner 1 500 (v_mx P) (v_mv P) 1 (width_v_to_xx (v_with_mass P 500))
              (width_v_to_pi0g py_consts (v_with_mass P 500))).
  enough (b <> 0) by lra.
  assert (S : 0 < sigma_xx_to_v_to_pi0g py_consts P 500 1).
  { unfold sigma_xx_to_v_to_pi0g, v_propagator, P.
    cbn [v_mx v_mv v_gvxx v_gvuu v_gvdd c_mpi0 c_alpha c_fpi py_consts].
    destruct (Rlt_dec 500 (1349768 / 10000)); [lra|].
    destruct (Rlt_dec 500 (2 * 100)); [lra|].
    pose proof PI_RGT_0 as Hpi.
    apply Rmult_lt_0_compat; [lra|]. apply Rinv_0_lt_compat.
    repeat (apply Rmult_lt_0_compat; try lra; try (apply pow_lt; lra); try (apply sqrt_lt_R0; lra)). }
  fold b in E. rewrite E in S. lra.
Qed.
Print Assumptions vector_pi0g_refuted.

(** C37. Detailed balance: two spin states for each of the two dark-matter particles, and a factor of two
    for the identical mediators. *)
Theorem detailed_balance : forall P e,
  0 < s_mx P -> 0 < s_ms P -> 2 * s_mx P < e -> 2 * s_ms P < e ->
  sigma_ss_to_xx P e * ((e / 2) ^ 2 - s_ms P ^ 2)
  = 2 * 2 * 2 * (sigma_xx_to_ss P e * ((e / 2) ^ 2 - s_mx P ^ 2)).
Proof.
  intros P e Hx Hs Hex Hes.
  unfold sigma_ss_to_xx, sigma_xx_to_ss.
  set (mx := s_mx P) in *. set (ms := s_ms P) in *. set (g := s_gsxx P). clearbody mx ms g.
  destruct (Rlt_dec e (2 * mx)); [lra|]. destruct (Rlt_dec e (2 * ms)); [lra|].
  assert (He : 0 < e) by lra. cbn zeta.
  assert (H1 : 0 < - 4 * ms ^ 2 + e ^ 2) by nra.
  assert (H2 : 0 < - 4 * mx ^ 2 + e ^ 2) by nra.
  set (A := (- 4 * ms ^ 2 + e ^ 2) * (- 4 * mx ^ 2 + e ^ 2)).
  assert (HA : 0 < A) by (apply Rmult_lt_0_compat; assumption).
  set (T := - 2 * ms ^ 2 + e ^ 2).
  assert (HT : 0 < T) by (unfold T; nra).
  set (D := mx ^ 2 * e ^ 2 + (- (4 * ms ^ 2) * mx ^ 2 + ms ^ 4)).
  assert (HD : 0 < D).
  { unfold D. replace (mx ^ 2 * e ^ 2 + (- (4 * ms ^ 2) * mx ^ 2 + ms ^ 4))
      with (mx ^ 2 * (- 4 * ms ^ 2 + e ^ 2) + ms ^ 4) by ring.
    apply Rplus_lt_0_compat; [apply Rmult_lt_0_compat; [apply pow_lt; lra|assumption]|apply pow_lt; lra]. }
  assert (HTA : T ^ 2 = A + 4 * D) by (unfold T, A, D; ring).
  set (r := sqrt A).
  assert (Hr : 0 < r) by (apply sqrt_lt_R0; exact HA).
  assert (Hrr : r * r = A) by (apply sqrt_sqrt; lra).
  assert (HrT : r < T) by nra.
  assert (Ha : sqrt ((- 4 * (ms / e) ^ 2 + 1) * (- 4 * (mx / e) ^ 2 + 1)) = r / e ^ 2).
  { replace ((- 4 * (ms / e) ^ 2 + 1) * (- 4 * (mx / e) ^ 2 + 1)) with (A / (e ^ 2) ^ 2)
      by (unfold A; field; lra).
    rewrite sqrt_div_alt by (apply pow_lt; nra). rewrite sqrt_pow2 by nra. reflexivity. }
  rewrite Ha.
  assert (Hl1 : - 2 * (ms / e) ^ 2 + 1 + r / e ^ 2 = (T + r) / e ^ 2) by (unfold T; field; lra).
  assert (Hl2 : - 2 * (ms / e) ^ 2 + 1 - r / e ^ 2 = (T - r) / e ^ 2) by (unfold T; field; lra).
  assert (Hd : - 2 * (ms / e) ^ 2 + 1 = T / e ^ 2) by (unfold T; field; lra).
  assert (HDs : - (4 * (ms / e) ^ 2) * (mx / e) ^ 2 + ((ms / e) ^ 4 + (mx / e) ^ 2) = D / e ^ 4)
    by (unfold D; field; lra).
  rewrite Hl1, Hl2, Hd, HDs.
  assert (He2 : 0 < e ^ 2) by nra.
  rewrite !ln_quot by lra.
  set (L1 := ln (T + r)). set (L2 := ln (T - r)). set (L3 := ln (e ^ 2)).
  assert (Hs1 : - 4 * (ms / e) ^ 2 + 1 = (- 4 * ms ^ 2 + e ^ 2) / e ^ 2) by (field; lra).
  rewrite Hs1.
  assert (Hpi : PI <> 0) by (pose proof PI_RGT_0; lra).
  clearbody L1 L2 L3 r D T.
  field. nz.
Qed.
Print Assumptions detailed_balance.
Example detailed_balance_example :
  let P := MkS 100 150 1 1 3 1 246000 0 in
  0 < s_mx P /\ 0 < s_ms P /\ 2 * s_mx P < 500 /\ 2 * s_ms P < 500.
Proof. cbn [s_mx s_ms]. repeat split; lra. Qed.

(** C38, thresholds: below the threshold of the initial or of the final state there is no cross section. *)
Theorem scalar_thresholds : forall C P e w mf,
  (e < 2 * s_mx P \/ e < 2 * mf -> sigma_xx_to_s_to_ff C P e w mf = Ret 0) /\
  (e < 2 * s_mx P -> sigma_xx_to_s_to_gg C P e w = 0) /\
  (e < 2 * s_mx P \/ e < 2 * c_mpi0 C -> sigma_xx_to_s_to_pi0pi0 C P e w = 0) /\
  (e < 2 * s_mx P \/ e < 2 * c_mpi C -> sigma_xx_to_s_to_pipi C P e w = 0) /\
  (e < 2 * s_mx P \/ e < 2 * s_ms P -> sigma_xx_to_ss P e = 0 /\ sigma_ss_to_xx P e = 0) /\
  (e < s_mx P + mf -> sigma_xl_to_xl P e w mf = 0) /\
  (e < s_mx P + c_mpi C -> sigma_xpi_to_xpi C P e w = 0) /\
  (e < s_mx P + c_mpi0 C -> sigma_xpi0_to_xpi0 C P e w = 0) /\
  (e < s_mx P -> sigma_xg_to_xg C P e w = 0) /\
  (e < s_mx P + s_ms P -> sigma_xs_to_xs P e = 0).
Proof.
  intros C P e w mf.
  unfold sigma_xx_to_s_to_ff, sigma_xx_to_s_to_gg, sigma_xx_to_s_to_pi0pi0, sigma_xx_to_s_to_pipi,
    sigma_xx_to_ss, sigma_ss_to_xx, sigma_xl_to_xl, sigma_xpi_to_xpi, sigma_xpi0_to_xpi0, sigma_xg_to_xg,
    sigma_xs_to_xs.
  repeat split; intros;
    repeat match goal with |- (if ?b then _ else _) = _ => destruct b; try reflexivity end; exfalso; lra.
Qed.
Print Assumptions scalar_thresholds.
Theorem vector_thresholds : forall C P e w gvll mf,
  (e < 2 * v_mx P \/ e < 2 * mf -> sigma_xx_to_v_to_ff P e w gvll mf = 0) /\
  (e < 2 * v_mx P \/ e < 2 * c_mpi C -> sigma_xx_to_v_to_pipi C P e w = Ret 0) /\
  (e < 2 * v_mx P \/ e < c_mpi0 C -> sigma_xx_to_v_to_pi0g C P e w = 0) /\
  (e < 2 * v_mx P \/ e < c_mpi0 C + v_mv P -> sigma_xx_to_v_to_pi0v C P e w = Ret 0) /\
  (e < 2 * v_mx P \/ e < 2 * v_mv P -> sigma_xx_to_vv P e = 0).
Proof.
  intros C P e w gvll mf.
  unfold sigma_xx_to_v_to_ff, sigma_xx_to_v_to_pipi, sigma_xx_to_v_to_pi0g, sigma_xx_to_v_to_pi0v,
    sigma_xx_to_vv.
  repeat split; intros;
    repeat match goal with |- (if ?b then _ else _) = _ => destruct b; try reflexivity end; exfalso; lra.
Qed.
Print Assumptions vector_thresholds.
Example thresholds_example : 150 < 2 * s_mx (MkS 100 150 1 1 3 1 246000 0) /\
  150 < 2 * v_mx (MkV 100 1000 1 1 1 1 1 1).
Proof. cbn [s_mx v_mx]. split; lra. Qed.

(** C38, sign: away from the pole in the initial-state flux and with a resonance of non-zero size, every
    annihilation cross section is a non-negative number; in particular none of them raises. *)
Theorem scalar_nonnegative : forall C P e w mf,
  0 < s_mx P -> 0 < s_ms P -> 0 < mf -> 0 < c_me C -> 0 < c_mmu C -> 0 < c_mpi0 C -> 0 < c_mpi C ->
  0 < c_vh C -> s_lam P <> 0 -> e <> 2 * s_mx P -> 0 < e ->
  0 < (e ^ 2 - s_ms P ^ 2) ^ 2 + (s_ms P * w) ^ 2 ->
  (exists x, sigma_xx_to_s_to_ff C P e w mf = Ret x /\ 0 <= x) /\
  0 <= sigma_xx_to_s_to_gg C P e w /\
  0 <= sigma_xx_to_s_to_pi0pi0 C P e w /\
  0 <= sigma_xx_to_s_to_pipi C P e w /\
  0 <= sigma_xx_to_ss P e /\
  (exists x, s_sigma_xx_to_all C P e w = Ret x /\ 0 <= x).
Proof.
  intros C P e w mf Hx Hs Hf Hme Hmmu Hp0 Hp Hv Hlam Hne He HB.
  assert (Hpi : 0 < PI) by apply PI_RGT_0.
  assert (HB2 : 0 < s_propagator P e w) by (unfold s_propagator; lra).
  assert (Hev : forall k : R, 0 <= k ^ 2) by (intro k; nra).
  assert (Hlam2 : 0 < s_lam P ^ 2) by (rewrite <- Rsqr_pow2; apply Rsqr_pos_lt; assumption).
  assert (Hg4 : 0 <= s_gsxx P ^ 4) by (replace (s_gsxx P ^ 4) with ((s_gsxx P ^ 2) ^ 2) by ring; apply Hev).
  assert (Hff : forall m, 0 < m -> exists x, sigma_xx_to_s_to_ff C P e w m = Ret x /\ 0 <= x).
  { intros m Hm. unfold sigma_xx_to_s_to_ff.
    destruct (Rlt_dec e (2 * m)); [exists 0; split; [reflexivity|lra]|].
    destruct (Rlt_dec e (2 * s_mx P)); [exists 0; split; [reflexivity|lra]|].
    assert (Hd : 0 < 16 * PI * e ^ 2 * c_vh C ^ 2 * s_propagator P e w)
      by (pos1).
    unfold complex_quotient. destruct (Req_EM_T _ 0) as [Hz|_]; [lra|].
    eexists. split; [reflexivity|].
    apply Rmult_le_pos; [|left; apply Rinv_0_lt_compat; exact Hd].
    pos0. }
  assert (Hgg : 0 <= sigma_xx_to_s_to_gg C P e w).
  { unfold sigma_xx_to_s_to_gg. destruct (Rlt_dec e (2 * s_mx P)); [lra|].
    apply Rmult_le_pos.
    - pos0. apply pow_le. lra.
    - left. apply Rinv_0_lt_compat. pos1. }
  assert (Hinv : forall k, 0 < k ->
    0 <= / (k * s_lam P ^ 6 * PI * e ^ 2 * c_vh C ^ 4 * (9 * s_lam P + 4 * s_gsGG P * s_vs P) ^ 2
            * s_propagator P e w)).
  { intros k Hk. destruct (Req_dec (9 * s_lam P + 4 * s_gsGG P * s_vs P) 0) as [->|Hn].
    - replace (k * s_lam P ^ 6 * PI * e ^ 2 * c_vh C ^ 4 * 0 ^ 2 * s_propagator P e w) with 0 by ring.
      rewrite Rinv_0. lra.
    - left. apply Rinv_0_lt_compat.
      replace (s_lam P ^ 6) with ((s_lam P ^ 2) ^ 3) by ring.
      pos1. }
  assert (Hpi0 : 0 <= sigma_xx_to_s_to_pi0pi0 C P e w).
  { unfold sigma_xx_to_s_to_pi0pi0. destruct (Rlt_dec e (2 * c_mpi0 C)); [lra|].
    destruct (Rlt_dec e (2 * s_mx P)); [lra|].
    apply Rmult_le_pos; [|apply Hinv; lra].
    pos0. }
  assert (Hpp : 0 <= sigma_xx_to_s_to_pipi C P e w).
  { unfold sigma_xx_to_s_to_pipi. destruct (Rlt_dec e (2 * c_mpi C)); [lra|].
    destruct (Rlt_dec e (2 * s_mx P)); [lra|].
    apply Rmult_le_pos; [|apply Hinv; lra].
    pos0. }
  assert (Hss : 0 <= sigma_xx_to_ss P e).
  { unfold sigma_xx_to_ss.
    set (mx := s_mx P) in *. set (ms := s_ms P) in *.
    destruct (Rlt_dec e (2 * ms)); [lra|]. destruct (Rlt_dec e (2 * mx)); [lra|].
    assert (H1 : 0 <= - 4 * ms ^ 2 + e ^ 2) by nra.
    assert (H2 : 0 < - 4 * mx ^ 2 + e ^ 2) by nra.
    apply Rmult_le_pos.
    2:{ left. apply Rinv_0_lt_compat. pos1. }
    apply Rmult_le_pos; [exact Hg4|].
    match goal with |- 0 <= - ?a + ?b => enough (a <= b) by lra end.
    assert (Hxs : 0 < mx ^ 2 /\ 0 < ms ^ 2 /\ 0 < e ^ 2) by (repeat split; apply pow_lt; lra).
    replace (ms ^ 4) with ((ms ^ 2) ^ 2) by ring. replace (mx ^ 4) with ((mx ^ 2) ^ 2) by ring.
    replace (e ^ 4) with ((e ^ 2) ^ 2) by ring.
    set (S := ms ^ 2) in *. set (X := mx ^ 2) in *. set (E := e ^ 2) in *. clearbody S X E.
    destruct Hxs as (HX & HS & HE).
    set (W := - 4 * S + E) in *.
    apply log_channel_nonneg.
    - apply Rmult_le_pos; lra.
    - unfold W in H1; lra.
    - replace (X * E + (- (4 * S) * X + S ^ 2)) with (X * W + S ^ 2) by (unfold W; ring).
      assert (0 <= X * W) by (apply Rmult_le_pos; lra). nra.
    - unfold W. ring.
    - replace (- (4 * S) * (4 * X + E) + (16 * X * E + (6 * S ^ 2 + - (32 * X ^ 2)) + E ^ 2))
        with (6 * S ^ 2 + 16 * (X * (E - S - 2 * X)) + E * W) by (unfold W; ring).
      assert (0 <= X * (E - S - 2 * X)) by (apply Rmult_le_pos; unfold W in H1; lra).
      assert (0 <= E * W) by (apply Rmult_le_pos; lra). nra.
    - match goal with |- ?a <= ?b =>
        replace b with (a + (- 4 * X + E) * (X * (3 * E ^ 2 - 4 * E * W + 2 * W ^ 2 + 32 * (X * W))))
          by (unfold W; ring) end.
      assert (0 <= X * W) by (apply Rmult_le_pos; lra).
      assert (0 <= 3 * E ^ 2 - 4 * E * W + 2 * W ^ 2) by (pose proof (pow2_ge_0 (W - E)); pose proof (pow2_ge_0 E); lra).
      match goal with |- ?a <= ?a + ?c => enough (0 <= c) by lra end.
      pos0. }
  split; [exact (Hff _ Hf)|]. repeat split; try assumption.
  unfold s_sigma_xx_to_all.
  destruct (Hff _ Hme) as (x1 & E1 & P1). destruct (Hff _ Hmmu) as (x2 & E2 & P2).
  rewrite E1, E2. cbn [bind]. eexists. split; [reflexivity|]. lra.
Qed.
Print Assumptions scalar_nonnegative.
Example scalar_nonnegative_example :
  let P := MkS 100 150 1 1 3 1 246000 0 in
  0 < s_mx P /\ 0 < s_ms P /\ 0 < c_me rs_consts /\ 0 < c_mmu rs_consts /\ 0 < c_mpi0 rs_consts /\
  0 < c_mpi rs_consts /\ 0 < c_vh rs_consts /\ s_lam P <> 0 /\ 500 <> 2 * s_mx P /\ 0 < 500 /\
  0 < (500 ^ 2 - s_ms P ^ 2) ^ 2 + (s_ms P * 1) ^ 2.
Proof.
  cbn [s_mx s_ms s_lam c_me c_mmu c_mpi0 c_mpi c_vh rs_consts]. repeat split; lra.
Qed.

Theorem vector_nonnegative : forall C P e w gvll mf,
  0 < v_mx P -> 0 < v_mv P -> 0 < mf -> 0 < c_me C -> 0 < c_mmu C -> 0 < c_mpi0 C -> 0 < c_mpi C ->
  0 < c_fpi C -> 0 <= c_alpha C -> e <> 2 * v_mx P -> 0 < e ->
  0 < (e ^ 2 - v_mv P ^ 2) ^ 2 + (v_mv P * w) ^ 2 ->
  0 <= sigma_xx_to_v_to_ff P e w gvll mf /\
  (exists x, sigma_xx_to_v_to_pipi C P e w = Ret x /\ 0 <= x) /\
  0 <= sigma_xx_to_v_to_pi0g C P e w /\
  (exists x, sigma_xx_to_v_to_pi0v C P e w = Ret x /\ 0 <= x) /\
  0 <= sigma_xx_to_vv P e /\
  (exists x, v_sigma_xx_to_all C P e w = Ret x /\ 0 <= x).
Proof.
  intros C P e w gvll mf Hx Hm Hf Hme Hmmu Hp0 Hp Hfp Ha Hne He HB.
  assert (Hpi : 0 < PI) by apply PI_RGT_0.
  assert (HB2 : 0 < v_propagator P e w) by (unfold v_propagator; lra).
  assert (Hev : forall k : R, 0 <= k ^ 2) by (intro k; nra).
  assert (Hxe : ~ e < 2 * v_mx P -> 0 < v_mx P ^ 2 * - 4 + e ^ 2) by (intro; nra).
  assert (Hpos : 0 <= v_mx P ^ 2 * 2 + e ^ 2) by (pose proof (Hev (v_mx P)); pose proof (Hev e); lra).
  assert (Hff : forall g m, 0 < m -> 0 <= sigma_xx_to_v_to_ff P e w g m).
  { intros g m H. unfold sigma_xx_to_v_to_ff.
    destruct (Rlt_dec e (2 * m)); [lra|]. destruct (Rlt_dec e (2 * v_mx P)); [lra|].
    apply Rmult_le_pos.
    - pos0.
      pose proof (Hev m); pose proof (Hev e); lra.
    - left. apply Rinv_0_lt_compat. pos1. }
  assert (Hpp : exists x, sigma_xx_to_v_to_pipi C P e w = Ret x /\ 0 <= x).
  { unfold sigma_xx_to_v_to_pipi.
    destruct (Rlt_dec e (2 * v_mx P)) as [|H]; [exists 0; split; [reflexivity|lra]|].
    destruct (Rlt_dec e (2 * c_mpi C)); [exists 0; split; [reflexivity|lra]|].
    pose proof (sqrt_lt_R0 _ (Hxe H)) as Hroot.
    assert (Hd : 0 < 48 * PI * e ^ 2 * sqrt (v_mx P ^ 2 * -4 + e ^ 2) * v_propagator P e w)
      by (pos1).
    unfold complex_quotient. destruct (Req_EM_T _ 0) as [Hz|_]; [lra|].
    eexists. split; [reflexivity|].
    apply Rmult_le_pos; [|left; apply Rinv_0_lt_compat; exact Hd].
    pos0. }
  assert (Hpg : 0 <= sigma_xx_to_v_to_pi0g C P e w).
  { unfold sigma_xx_to_v_to_pi0g.
    destruct (Rlt_dec e (c_mpi0 C)); [lra|]. destruct (Rlt_dec e (2 * v_mx P)) as [|H]; [lra|].
    pose proof (sqrt_lt_R0 _ (Hxe H)) as Hroot.
    apply Rmult_le_pos.
    - pos0. apply pow_le. nra.
    - left. apply Rinv_0_lt_compat. pos1. }
  assert (Hpv : exists x, sigma_xx_to_v_to_pi0v C P e w = Ret x /\ 0 <= x).
  { unfold sigma_xx_to_v_to_pi0v.
    destruct (Rlt_dec e (c_mpi0 C + v_mv P)); [exists 0; split; [reflexivity|lra]|].
    destruct (Rlt_dec e (2 * v_mx P)) as [|H]; [exists 0; split; [reflexivity|lra]|].
    pose proof (sqrt_lt_R0 _ (Hxe H)) as Hroot.
    assert (Hd : 0 < c_fpi C ^ 2 * 1536 * PI ^ 5 * e ^ 3 * sqrt (v_mx P ^ 2 * -4 + e ^ 2)
                     * v_propagator P e w)
      by (pos1).
    cbn zeta. unfold complex_quotient. destruct (Req_EM_T _ 0) as [Hz|_]; [lra|].
    eexists. split; [reflexivity|].
    apply Rmult_le_pos; [|left; apply Rinv_0_lt_compat; exact Hd].
    pos0. }
  assert (Hvv : 0 <= sigma_xx_to_vv P e).
  { unfold sigma_xx_to_vv. cbn zeta.
    set (mx := v_mx P) in *. set (mv := v_mv P) in *.
    destruct (Rlt_dec e (2 * mv)); [lra|]. destruct (Rlt_dec e (2 * mx)) as [|H]; [lra|].
    specialize (Hxe H).
    assert (H1 : 0 <= mv ^ 2 * - 4 + e ^ 2) by nra.
    apply Rmult_le_pos.
    2:{ left. apply Rinv_0_lt_compat. pos1. }
    apply Rmult_le_pos.
    { replace (v_gvxx P ^ 4) with ((v_gvxx P ^ 2) ^ 2) by ring. apply Hev. }
    assert (Hxs : 0 < mx ^ 2 /\ 0 < mv ^ 2 /\ 0 < e ^ 2) by (repeat split; apply pow_lt; lra).
    replace (mv ^ 4) with ((mv ^ 2) ^ 2) by ring. replace (mx ^ 4) with ((mx ^ 2) ^ 2) by ring.
    replace (e ^ 4) with ((e ^ 2) ^ 2) by ring.
    set (S := mv ^ 2) in *. set (X := mx ^ 2) in *. set (E := e ^ 2) in *. clearbody S X E.
    destruct Hxs as (HX & HS & HE).
    assert (Hsq : sqrt (S * - 4 + E) * sqrt (X * - 4 + E) = sqrt ((S * - 4 + E) * (X * - 4 + E)))
      by (symmetry; apply sqrt_mult_alt; exact H1).
    assert (Hln : (sqrt (S * - 4 + E) * sqrt (X * - 4 + E) + (S * - 2 + E))
                  / (- sqrt (S * - 4 + E) * sqrt (X * - 4 + E) + (S * - 2 + E))
                  = ((S * - 2 + E) + sqrt ((S * - 4 + E) * (X * - 4 + E)))
                    / ((S * - 2 + E) - sqrt ((S * - 4 + E) * (X * - 4 + E)))).
    { rewrite <- Hsq. f_equal; ring. }
    rewrite Hln.
    set (W := S * - 4 + E) in *.
    set (half := X * 4 * E + (X ^ 2 * -8 + (S ^ 2 * 4 + S * -8 * X)) + E ^ 2).
    assert (HD : 0 < X * E + (S * - 4 * X + S ^ 2)).
    { replace (X * E + (S * - 4 * X + S ^ 2)) with (X * W + S ^ 2) by (unfold W; ring).
      assert (0 <= X * W) by (apply Rmult_le_pos; lra). nra. }
    assert (HT : 0 < S * - 2 + E) by (unfold W in H1; lra).
    assert (Hmain : sqrt (W * (X * - 4 + E)) * (X * E + (S ^ 2 * 2 + X ^ 2 * 4))
                    / (X * E + (S * - 4 * X + S ^ 2))
                    <= half * ln ((S * - 2 + E + sqrt (W * (X * - 4 + E)))
                                  / (S * - 2 + E - sqrt (W * (X * - 4 + E)))) / (S * - 2 + E)).
    { apply log_channel_nonneg.
      - apply Rmult_le_pos; lra.
      - exact HT.
      - exact HD.
      - unfold W. ring.
      - replace half with (E ^ 2 + 4 * (X * (E - 2 * S - 2 * X)) + 4 * S ^ 2) by (unfold half; ring).
        assert (0 <= X * (E - 2 * S - 2 * X)) by (apply Rmult_le_pos; unfold W in H1; lra). nra.
      - match goal with |- ?a <= ?b =>
          replace b with (a + (6 * ((X * W + S ^ 2) * (X * W))
            + (X * - 4 + E) * (3 * S ^ 2 * E - 2 * S ^ 2 * W + 12 * (S ^ 2 * X) + 2 * (X * W * E)
                               + 8 * (X * X * W))))
            by (unfold half, W; ring) end.
        assert (HXW : 0 <= X * W) by (apply Rmult_le_pos; lra).
        assert (A1 : 0 <= (X * W + S ^ 2) * (X * W)) by (apply Rmult_le_pos; [nra|exact HXW]).
        assert (A2 : 0 <= X * W * E) by (apply Rmult_le_pos; lra).
        assert (A3 : 0 <= X * X * W) by (rewrite Rmult_assoc; apply Rmult_le_pos; lra).
        assert (A4 : 0 <= S ^ 2 * X) by (apply Rmult_le_pos; [apply Hev|lra]).
        assert (A5 : 0 <= S ^ 2 * (E - W)) by (apply Rmult_le_pos; [apply Hev|unfold W; lra]).
        assert (A6 : 0 <= S ^ 2 * E) by (apply Rmult_le_pos; [apply Hev|lra]).
        assert (A7 : 0 <= (X * - 4 + E) * (3 * S ^ 2 * E - 2 * S ^ 2 * W + 12 * (S ^ 2 * X)
                          + 2 * (X * W * E) + 8 * (X * X * W)))
          by (apply Rmult_le_pos; lra).
        lra. }
    set (L := ln _) in *. clearbody L.
    replace ((half + half) * L / (S * -2 + E)) with (2 * (half * L / (S * -2 + E))) by (field; lra).
    replace ((X * E + (S ^ 2 * 2 + X ^ 2 * 4)) * (sqrt (X * -4 + E) * (sqrt W + sqrt W))
             / (X * E + (S * -4 * X + S ^ 2)))
      with (2 * (sqrt (W * (X * -4 + E)) * (X * E + (S ^ 2 * 2 + X ^ 2 * 4))
                 / (X * E + (S * -4 * X + S ^ 2)))).
    2:{ rewrite <- Hsq. field. lra. }
    lra. }
  split; [exact (Hff _ _ Hf)|]. repeat split; try assumption.
  unfold v_sigma_xx_to_all.
  pose proof (Hff (v_gvee P) _ Hme). pose proof (Hff (v_gvmumu P) _ Hmmu).
  destruct Hpp as (x1 & E1 & P1). destruct Hpv as (x2 & E2 & P2).
  rewrite E1, E2. cbn [bind]. eexists. split; [reflexivity|]. lra.
Qed.
Print Assumptions vector_nonnegative.
Example vector_nonnegative_example :
  let P := MkV 100 150 1 (2 / 10) (- 1 / 10) (- 1 / 10) (- 3 / 10) (- 3 / 10) in
  0 < v_mx P /\ 0 < v_mv P /\ 0 < c_me rs_consts /\ 0 < c_mmu rs_consts /\ 0 < c_mpi0 rs_consts /\
  0 < c_mpi rs_consts /\ 0 < c_fpi rs_consts /\ 0 <= c_alpha rs_consts /\ 500 <> 2 * v_mx P /\ 0 < 500 /\
  0 < (500 ^ 2 - v_mv P ^ 2) ^ 2 + (v_mv P * 1) ^ 2.
Proof.
  cbn [v_mx v_mv c_me c_mmu c_mpi0 c_mpi c_fpi c_alpha rs_consts]. repeat split; lra.
Qed.

(** C38. Exactly at the threshold of the initial state the charged-pion cross section of the vector model
    raises instead of returning a number, whenever that threshold lies above the pions'. *)
Theorem vector_pipi_threshold_refuted : exists P w,
  0 < v_mx P /\ 0 < v_mv P /\ 0 < w /\ 2 * c_mpi rs_consts <= 2 * v_mx P /\
  sigma_xx_to_v_to_pipi rs_consts P (2 * v_mx P) w = Raise TypeError /\
  v_sigma_xx_to_all rs_consts P (2 * v_mx P) w = Raise TypeError.
Proof.
  exists (MkV 200 1000 1 (2 / 10) (- 1 / 10) (- 1 / 10) (- 3 / 10) (- 3 / 10)), 1.
  set (P := MkV 200 1000 1 (2 / 10) (- 1 / 10) (- 1 / 10) (- 3 / 10) (- 3 / 10)).
  assert (E : sigma_xx_to_v_to_pipi rs_consts P (2 * v_mx P) 1 = Raise TypeError).
  { unfold sigma_xx_to_v_to_pipi, P. cbn [v_mx v_mv v_gvxx v_gvuu v_gvdd c_mpi rs_consts].
    destruct (Rlt_dec (2 * 200) (2 * 200)); [lra|].
    destruct (Rlt_dec (2 * 200) (2 * (13957018 / 100000))); [lra|].
    unfold complex_quotient. destruct (Req_EM_T _ 0) as [_|Hn]; [reflexivity|].
    exfalso. apply Hn. replace (200 ^ 2 * - 4 + (2 * 200) ^ 2) with 0 by ring. rewrite sqrt_0. ring. }
  unfold v_sigma_xx_to_all. rewrite E. unfold P. cbn [v_mx v_mv bind c_mpi rs_consts].
  repeat split; lra.
Qed.
Print Assumptions vector_pipi_threshold_refuted.

(** C38. The differential cross section into three pions is negative just above the charged-pion
    threshold, so its assertion fires. *)
Theorem vector_pi0pipi_refuted : exists P e w s,
  0 < v_mx P /\ 0 < v_mv P /\ 0 < w /\ 2 * v_mx P < e /\
  2 * c_mpi py_consts + c_mpi0 py_consts < e /\ (2 * c_mpi py_consts) ^ 2 < s < (e - c_mpi0 py_consts) ^ 2 /\
  dsigma_ds_xx_to_v_to_pi0pipi py_consts P e w s = Raise AssertionError.
Proof.
  exists (MkV 200 1000 1 (2 / 10) (- 1 / 10) (- 1 / 10) (- 3 / 10) (- 3 / 10)), 420, 1, 77930.
  unfold dsigma_ds_xx_to_v_to_pi0pipi.
  cbn [v_mx v_mv c_mpi c_mpi0 py_consts].
  destruct (Rlt_dec (2 * (13957039 / 100000) + 1349768 / 10000) 420); [|lra].
  destruct (Rlt_dec (2 * 200) 420); [|lra].
  destruct (Rlt_dec (4 * (13957039 / 100000) ^ 2) 77930); [|lra].
  destruct (Rlt_dec 77930 ((420 - 1349768 / 10000) ^ 2)); [|lra].
  repeat split; try lra.
  match goal with |- (if Rle_dec 0 ?v then _ else _) = _ => assert (Hneg : v < 0) end.
  2:{ destruct (Rle_dec 0 _); [lra|reflexivity]. }
  unfold pi0pipi_value.
  set (p := pi0pipi_polynomial _ _ _).
  assert (Hp : 0 < - p).
  { unfold p, pi0pipi_polynomial. cbn [c_mpi c_mpi0 py_consts]. lra. }
  clearbody p. cbn [v_mx v_mv v_gvxx v_gvuu v_gvdd c_mpi c_mpi0 c_fpi py_consts].
  pose proof PI_RGT_0 as Hpi.
  match goal with |- ?a / ?b < 0 => enough (0 < - a * / b) by (unfold Rdiv; lra) end.
  apply Rmult_lt_0_compat.
  - match goal with |- 0 < - (3 * (?k * p)) => replace (- (3 * (k * p))) with (3 * (k * - p)) by ring end.
    pos1.
  - apply Rinv_0_lt_compat. pos1.
Qed.
Print Assumptions vector_pi0pipi_refuted.

(** * C39: dimension of area *)

(** a comparison does not depend on the unit *)
Lemma lt_units : forall (A : Type) l a b (x y : A), 0 < l ->
  (if Rlt_dec (l * a) (l * b) then x else y) = (if Rlt_dec a b then x else y).
Proof.
  intros A l a b x y Hl. destruct (Rlt_dec a b) as [H|H], (Rlt_dec (l * a) (l * b)) as [H'|H']; try reflexivity.
  - exfalso. apply H'. now apply Rmult_lt_compat_l.
  - exfalso. apply H. now apply Rmult_lt_reg_l in H'.
Qed.
Lemma eq_units : forall (A : Type) l a b (x y : A), 0 < l ->
  (if Req_EM_T (l * a) (l * b) then x else y) = (if Req_EM_T a b then x else y).
Proof.
  intros A l a b x y Hl. destruct (Req_EM_T a b) as [H|H], (Req_EM_T (l * a) (l * b)) as [H'|H']; try reflexivity.
  - exfalso. apply H'. now f_equal.
  - exfalso. apply H. apply Rmult_eq_reg_l in H'; [exact H'|lra].
Qed.
Ltac start_units :=
  cbn [s_units v_units c_units s_mx s_ms s_gsxx s_gsff s_gsGG s_gsFF s_lam s_vs
       v_mx v_mv v_gvxx v_gvuu v_gvdd v_gvss v_gvee v_gvmumu
       c_vh c_alpha c_me c_mmu c_mpi0 c_mpi c_b0 c_muq c_mdq c_fpi];
  repeat match goal with
  | |- context [Rlt_dec (?l * ?a) (2 * (?l * ?b))] =>
      replace (2 * (l * b)) with (l * (2 * b)) by ring; rewrite lt_units by assumption
  | |- context [Rlt_dec (2 * (?l * ?b)) (?l * ?a)] =>
      replace (2 * (l * b)) with (l * (2 * b)) by ring; rewrite lt_units by assumption
  | |- context [Rlt_dec (?l * ?a) (?l * ?b + ?l * ?c)] =>
      rewrite <- (Rmult_plus_distr_l l b c); rewrite lt_units by assumption
  | |- context [Rlt_dec (?l * ?a) (?l * ?b)] => rewrite lt_units by assumption
  | |- context [Req_EM_T (?l * ?a) (2 * (?l * ?b))] =>
      replace (2 * (l * b)) with (l * (2 * b)) by ring; rewrite eq_units by assumption
  end.

Theorem scalar_annihilation_units : forall l C P e w mf,
  0 < l ->
  let C' := c_units l C in
  let P' := s_units l P in
  sigma_xx_to_s_to_ff C' P' (l * e) (l * w) (l * mf)
    = res_map (fun x => x / l ^ 2) (sigma_xx_to_s_to_ff C P e w mf) /\
  sigma_xx_to_s_to_gg C' P' (l * e) (l * w) = sigma_xx_to_s_to_gg C P e w / l ^ 2 /\
  sigma_xx_to_s_to_pi0pi0 C' P' (l * e) (l * w) = sigma_xx_to_s_to_pi0pi0 C P e w / l ^ 2 /\
  sigma_xx_to_s_to_pipi C' P' (l * e) (l * w) = sigma_xx_to_s_to_pipi C P e w / l ^ 2 /\
  sigma_xx_to_ss P' (l * e) = sigma_xx_to_ss P e / l ^ 2.
Proof.
  intros l C P e w mf Hl C' P'. unfold C', P'. repeat split.
  - unfold sigma_xx_to_s_to_ff, s_propagator. start_units.
    destruct (Rlt_dec e (2 * mf)); [cbn; f_equal; unfold Rdiv; ring|].
    destruct (Rlt_dec e (2 * s_mx P)); [cbn; f_equal; unfold Rdiv; ring|].
    eapply hom_quotient; [assumption|homt|homt|reflexivity].
  - unfold sigma_xx_to_s_to_gg, s_propagator. start_units.
    destruct (Rlt_dec e (2 * s_mx P)); [unfold Rdiv; ring|].
    apply hom_area. eapply hom_deg; [homt|reflexivity].
  - unfold sigma_xx_to_s_to_pi0pi0, s_propagator, xs_pion_amplitude. start_units.
    destruct (Rlt_dec e (2 * c_mpi0 C)); [unfold Rdiv; ring|].
    destruct (Rlt_dec e (2 * s_mx P)); [unfold Rdiv; ring|].
    apply hom_area. eapply hom_deg; [homt|reflexivity].
  - unfold sigma_xx_to_s_to_pipi, s_propagator, xs_pion_amplitude. start_units.
    destruct (Rlt_dec e (2 * c_mpi C)); [unfold Rdiv; ring|].
    destruct (Rlt_dec e (2 * s_mx P)); [unfold Rdiv; ring|].
    apply hom_area. eapply hom_deg; [homt|reflexivity].
  - unfold sigma_xx_to_ss. start_units.
    destruct (Rlt_dec e (2 * s_ms P)); [unfold Rdiv; ring|].
    destruct (Rlt_dec e (2 * s_mx P)); [unfold Rdiv; ring|].
    apply hom_area. eapply hom_deg; [homt|reflexivity].
Qed.
Print Assumptions scalar_annihilation_units.

Lemma group_logs : forall c a b d : R, c * a + (d + - (c * b)) = c * (a - b) + d.
Proof. intros. ring. Qed.
Lemma group_logs_xg : forall m x w q : R,
  m ^ 2 * (- 3 * m ^ 2 + 8 * x ^ 2 + w ^ 2) * q = - (m ^ 2 * (3 * m ^ 2 + - (8 * x ^ 2) - w ^ 2) * q).
Proof. intros. ring. Qed.
Lemma group_logs_xl : forall d m x l a b : R,
  d + (2 * x ^ 2 + (2 * l ^ 2 + - m ^ 2)) * a + (- 2 * x ^ 2 + (- 2 * l ^ 2 + m ^ 2)) * b
  = d + (2 * x ^ 2 + (2 * l ^ 2 + - m ^ 2)) * (a - b).
Proof. intros. ring. Qed.
Lemma propagator_log_pos : forall m x e w, 0 < m -> 0 < w ->
  0 < m ^ 2 * (- 8 * x ^ 2 + 2 * e ^ 2 + w ^ 2) + (m ^ 4 + (- 4 * x ^ 2 + e ^ 2) ^ 2).
Proof.
  intros m x e w Hm Hw.
  replace (m ^ 2 * (- 8 * x ^ 2 + 2 * e ^ 2 + w ^ 2) + (m ^ 4 + (- 4 * x ^ 2 + e ^ 2) ^ 2))
    with ((m ^ 2 + (- 4 * x ^ 2 + e ^ 2)) ^ 2 + (m * w) ^ 2) by ring.
  pose proof (pow2_ge_0 (m ^ 2 + (- 4 * x ^ 2 + e ^ 2))).
  assert (0 < (m * w) ^ 2) by (apply pow_lt; now apply Rmult_lt_0_compat). lra.
Qed.
Lemma width_log_pos : forall m w, 0 < m -> 0 < w -> 0 < m ^ 2 * (m ^ 2 + w ^ 2).
Proof.
  intros m w Hm Hw. assert (0 < m ^ 2) by now apply pow_lt. assert (0 < w ^ 2) by now apply pow_lt. nra.
Qed.

Lemma xpi_core_units : forall l C P e w m, 0 < l -> 0 < s_ms P -> 0 < w ->
  hom l (- 2) (xpi_core (c_units l C) (s_units l P) (l * e) (l * w) (l * m)) (xpi_core C P e w m).
Proof.
  intros l C P e w m Hl Hm Hw.
  assert (HA : hom l 4 (xpi_atan_prefactor (c_units l C) (s_units l P)) (xpi_atan_prefactor C P)).
  { unfold xpi_atan_prefactor. start_units. eapply hom_deg; [homt|reflexivity]. }
  assert (H1 : hom l 14 (xpi_combination_sq (c_units l C) (s_units l P) (l * w) (l * m))
                     (xpi_combination_sq C P w m)).
  { unfold xpi_combination_sq. revert HA.
    generalize (xpi_atan_prefactor (c_units l C) (s_units l P)), (xpi_atan_prefactor C P).
    intros A' A HA. start_units.
    eapply hom_deg; [homt|reflexivity]. }
  assert (H2 : hom l 16 (xpi_combination (c_units l C) (s_units l P) (l * w) (l * m))
                     (xpi_combination C P w m)).
  { unfold xpi_combination. revert HA.
    generalize (xpi_atan_prefactor (c_units l C) (s_units l P)), (xpi_atan_prefactor C P).
    intros A' A HA. start_units.
    eapply hom_deg; [homt|reflexivity]. }
  unfold xpi_core. revert HA H1 H2.
  generalize (xpi_atan_prefactor (c_units l C) (s_units l P)), (xpi_atan_prefactor C P).
  intros A' A HA.
  generalize (xpi_combination_sq (c_units l C) (s_units l P) (l * w) (l * m)), (xpi_combination_sq C P w m).
  intros B' B HB.
  generalize (xpi_combination (c_units l C) (s_units l P) (l * w) (l * m)), (xpi_combination C P w m).
  intros D' D HD.
  start_units. rewrite !group_logs.
  eapply hom_deg; [homt|reflexivity]; [now apply propagator_log_pos | now apply width_log_pos].
Qed.

(** Elastic scattering off pions, photons and the mediator *)
Theorem scalar_scattering_units : forall l C P e w,
  0 < l -> 0 < s_ms P -> 0 < w ->
  let C' := c_units l C in
  let P' := s_units l P in
  sigma_xpi_to_xpi C' P' (l * e) (l * w) = sigma_xpi_to_xpi C P e w / l ^ 2 /\
  sigma_xpi0_to_xpi0 C' P' (l * e) (l * w) = sigma_xpi0_to_xpi0 C P e w / l ^ 2 /\
  sigma_xg_to_xg C' P' (l * e) (l * w) = sigma_xg_to_xg C P e w / l ^ 2 /\
  sigma_xs_to_xs P' (l * e) = sigma_xs_to_xs P e / l ^ 2.
Proof.
  intros l C P e w Hl Hm Hw C' P'. unfold C', P'. repeat split.
  - unfold sigma_xpi_to_xpi.
    pose proof (xpi_core_units l C P e w (c_mpi C) Hl Hm Hw) as H. apply hom_area in H.
    change (c_mpi (c_units l C)) with (l * c_mpi C). rewrite H. start_units.
    destruct (Rlt_dec e (s_mx P + c_mpi C)); unfold Rdiv; ring.
  - unfold sigma_xpi0_to_xpi0.
    pose proof (xpi_core_units l C P e w (c_mpi0 C) Hl Hm Hw) as H. apply hom_area in H.
    change (c_mpi0 (c_units l C)) with (l * c_mpi0 C). rewrite H. start_units.
    destruct (Rlt_dec e (s_mx P + c_mpi0 C)); unfold Rdiv; ring.
  - unfold sigma_xg_to_xg. start_units.
    destruct (Rlt_dec e (s_mx P)); [unfold Rdiv; ring|].
    destruct (Req_EM_T e (2 * s_mx P)); [unfold Rdiv; ring|].
    apply hom_area. rewrite !group_logs_xg, !group_logs.
    eapply hom_deg; [homt|reflexivity]; [now apply propagator_log_pos | now apply width_log_pos].
  - unfold sigma_xs_to_xs. start_units.
    destruct (Rlt_dec e (s_mx P + s_ms P)); [unfold Rdiv; ring|].
    destruct (Req_EM_T e (2 * s_mx P)); apply hom_area; (eapply hom_deg; [homt|reflexivity]).
Qed.
Print Assumptions scalar_scattering_units.

Example scalar_units_case :
  let P := MkS 200 500 1 (1 / 1000) (1 / 10) (1 / 10) 1000 0 in
  0 < 1000 /\ 0 < s_ms P /\ 0 < 3 /\
  (* the same point in keV *)
  s_mx (s_units 1000 P) = 200000 /\ c_me (c_units 1000 py_consts) = 5109989461 / 10000000 /\
  0 < sigma_xx_to_s_to_gg py_consts P 600 3.
Proof.
  cbv zeta. cbn [s_mx s_ms s_units c_units c_me py_consts].
  repeat split; try lra.
  unfold sigma_xx_to_s_to_gg, s_propagator. cbn [s_mx s_ms s_gsxx s_gsFF s_lam c_alpha py_consts].
  destruct (Rlt_dec 600 (2 * 200)); [lra|]. pose proof PI_RGT_0.
  unfold Rdiv at 1. apply Rmult_lt_0_compat; [|apply Rinv_0_lt_compat; pos1].
  pos1; try lra; apply sqrt_lt_R0; lra.
Qed.

(** The lepton scattering cross section carries no dimension: it lacks the 1/vh^2 of the Yukawa coupling *)
Theorem scalar_lepton_scattering_dimension : forall l P e w ml,
  0 < l -> 0 < s_ms P -> 0 < w ->
  sigma_xl_to_xl (s_units l P) (l * e) (l * w) (l * ml) = sigma_xl_to_xl P e w ml.
Proof.
  intros l P e w ml Hl Hm Hw. unfold sigma_xl_to_xl. start_units.
  destruct (Rlt_dec e (s_mx P + ml)); [reflexivity|].
  rewrite !group_logs_xl. apply (hom_same l).
  eapply hom_deg; [homt|reflexivity].
  - pose proof (width_log_pos _ _ Hm Hw). lra.
  - now apply propagator_log_pos.
Qed.
Print Assumptions scalar_lepton_scattering_dimension.

Theorem scalar_lepton_scattering_units_refuted : exists l P e w ml,
  0 < l /\ 0 < s_mx P /\ 0 < s_ms P /\ 0 < w /\ 0 < ml /\ s_mx P + ml < e /\
  sigma_xl_to_xl (s_units l P) (l * e) (l * w) (l * ml) <> sigma_xl_to_xl P e w ml / l ^ 2.
Proof.
  exists 2, (MkS 1 2 1 1 0 0 1 0), 3, 1, 1. cbn [s_mx s_ms].
  repeat split; try lra.
  rewrite scalar_lepton_scattering_dimension by (cbn; lra).
  assert (H : 0 < sigma_xl_to_xl (MkS 1 2 1 1 0 0 1 0) 3 1 1).
  2:{ intro E. lra. }
  unfold sigma_xl_to_xl. cbn [s_mx s_ms s_gsxx s_gsff].
  destruct (Rlt_dec 3 (1 + 1)); [lra|].
  rewrite !group_logs_xl.
  replace (ln 16) with (2 * ln 4).
  2:{ replace 16 with (4 * 4) by lra. rewrite ln_mult by lra. lra. }
  pose proof (atan_bound (2 / 1)) as B1. pose proof (atan_bound ((- 4 * 1 ^ 2 + 2 ^ 2 + 3 ^ 2) / (2 * 1))) as B2.
  assert (B3 : 0 < atan (2 / 1)).
  { rewrite <- atan_0. apply atan_increasing. lra. }
  set (t1 := atan (2 / 1)) in *. set (t2 := atan ((- 4 * 1 ^ 2 + 2 ^ 2 + 3 ^ 2) / (2 * 1))) in *.
  set (L := ln (4 * 2 ^ 2 * (2 ^ 2 + 1 ^ 2)) - _). set (L4 := ln 4). clearbody t1 t2 L L4.
  pose proof PI_4. pose proof PI_RGT_0.
  match goal with |- 0 < 2 * (?a / ?b) => enough (0 < (- a) * / (- b)) by (rewrite Rinv_opp in *; unfold Rdiv; lra) end.
  apply Rmult_lt_0_compat; [|apply Rinv_0_lt_compat]; lra.
Qed.
Print Assumptions scalar_lepton_scattering_units_refuted.

Theorem vector_units : forall l C P e w gvll mf,
  0 < l ->
  let C' := c_units l C in
  let P' := v_units l P in
  sigma_xx_to_v_to_ff P' (l * e) (l * w) gvll (l * mf) = sigma_xx_to_v_to_ff P e w gvll mf / l ^ 2 /\
  sigma_xx_to_v_to_pipi C' P' (l * e) (l * w)
    = res_map (fun x => x / l ^ 2) (sigma_xx_to_v_to_pipi C P e w) /\
  sigma_xx_to_v_to_pi0g C' P' (l * e) (l * w) = sigma_xx_to_v_to_pi0g C P e w / l ^ 2 /\
  sigma_xx_to_v_to_pi0v C' P' (l * e) (l * w)
    = res_map (fun x => x / l ^ 2) (sigma_xx_to_v_to_pi0v C P e w) /\
  sigma_xx_to_vv P' (l * e) = sigma_xx_to_vv P e / l ^ 2 /\
  v_sigma_xx_to_all C' P' (l * e) (l * w) = res_map (fun x => x / l ^ 2) (v_sigma_xx_to_all C P e w).
Proof.
  intros l C P e w gvll mf Hl C' P'. unfold C', P'.
  assert (Hff : forall g m, sigma_xx_to_v_to_ff (v_units l P) (l * e) (l * w) g (l * m)
                            = sigma_xx_to_v_to_ff P e w g m / l ^ 2).
  { intros g m. unfold sigma_xx_to_v_to_ff, v_propagator. start_units.
    destruct (Rlt_dec e (2 * m)); [unfold Rdiv; ring|].
    destruct (Rlt_dec e (2 * v_mx P)); [unfold Rdiv; ring|].
    apply hom_area. eapply hom_deg; [homt|reflexivity]. }
  assert (Hpp : sigma_xx_to_v_to_pipi (c_units l C) (v_units l P) (l * e) (l * w)
                = res_map (fun x => x / l ^ 2) (sigma_xx_to_v_to_pipi C P e w)).
  { unfold sigma_xx_to_v_to_pipi, v_propagator. start_units.
    destruct (Rlt_dec e (2 * v_mx P)); [cbn; f_equal; unfold Rdiv; ring|].
    destruct (Rlt_dec e (2 * c_mpi C)); [cbn; f_equal; unfold Rdiv; ring|].
    eapply hom_quotient; [assumption|homt|homt|reflexivity]. }
  assert (Hpg : sigma_xx_to_v_to_pi0g (c_units l C) (v_units l P) (l * e) (l * w)
                = sigma_xx_to_v_to_pi0g C P e w / l ^ 2).
  { unfold sigma_xx_to_v_to_pi0g, v_propagator. start_units.
    destruct (Rlt_dec e (c_mpi0 C)); [unfold Rdiv; ring|].
    destruct (Rlt_dec e (2 * v_mx P)); [unfold Rdiv; ring|].
    apply hom_area. eapply hom_deg; [homt|reflexivity]. }
  assert (Hpv : sigma_xx_to_v_to_pi0v (c_units l C) (v_units l P) (l * e) (l * w)
                = res_map (fun x => x / l ^ 2) (sigma_xx_to_v_to_pi0v C P e w)).
  { unfold sigma_xx_to_v_to_pi0v, v_propagator. start_units.
    destruct (Rlt_dec e (c_mpi0 C + v_mv P)); [cbn; f_equal; unfold Rdiv; ring|].
    destruct (Rlt_dec e (2 * v_mx P)); [cbn; f_equal; unfold Rdiv; ring|].
    eapply hom_quotient; [assumption|homt|homt|reflexivity]. }
  assert (Hvv : sigma_xx_to_vv (v_units l P) (l * e) = sigma_xx_to_vv P e / l ^ 2).
  { unfold sigma_xx_to_vv. start_units.
    destruct (Rlt_dec e (2 * v_mv P)); [unfold Rdiv; ring|].
    destruct (Rlt_dec e (2 * v_mx P)); [unfold Rdiv; ring|].
    apply hom_area. eapply hom_deg; [homt|reflexivity]. }
  repeat (split; [solve [auto]|]).
  unfold v_sigma_xx_to_all. rewrite Hpp, Hpg, Hpv, Hvv.
  change (c_me (c_units l C)) with (l * c_me C). change (c_mmu (c_units l C)) with (l * c_mmu C).
  rewrite !Hff. cbn [v_gvee v_gvmumu v_units].
  destruct (sigma_xx_to_v_to_pipi C P e w); cbn [res_map bind]; [|reflexivity].
  destruct (sigma_xx_to_v_to_pi0v C P e w); cbn [res_map bind]; [|reflexivity].
  f_equal. unfold Rdiv. ring.
Qed.
Print Assumptions vector_units.

(** * x x -> x x: both Python functions divide by the energy where its square belongs *)
Lemma sum_positive : forall (f : R -> R) (rule : list (R * R)),
  rule <> [] -> (forall nw, In nw rule -> 0 < snd nw /\ 0 < f (fst nw)) ->
  0 < fold_right Rplus 0 (map (fun nw => snd nw * f (fst nw)) rule).
Proof.
  intros f rule Hne H.
  assert (Hn : forall r, (forall nw, In nw r -> 0 < snd nw /\ 0 < f (fst nw)) ->
                 0 <= fold_right Rplus 0 (map (fun nw => snd nw * f (fst nw)) r)).
  { induction r as [|a r IH]; intro Hr; cbn [map fold_right]; [lra|].
    destruct (Hr a (or_introl eq_refl)). specialize (IH (fun nw Hi => Hr nw (or_intror Hi))).
    assert (0 < snd a * f (fst a)) by now apply Rmult_lt_0_compat. lra. }
  destruct rule as [|a r]; [contradiction|]. cbn [map fold_right].
  destruct (H a (or_introl eq_refl)). specialize (Hn r (fun nw Hi => H nw (or_intror Hi))).
  assert (0 < snd a * f (fst a)) by now apply Rmult_lt_0_compat. lra.
Qed.

Theorem xx_to_xx_dimension : forall l S V e w rule,
  0 < l ->
  sigma_xx_to_s_to_xx (s_units l S) (l * e) (l * w) rule = sigma_xx_to_s_to_xx S e w rule / l /\
  sigma_xx_to_v_to_xx (v_units l V) (l * e) (l * w) rule = sigma_xx_to_v_to_xx V e w rule / l.
Proof.
  intros l S V e w rule Hl.
  assert (Hr : forall a, (l * a) / (l * e) = a / e).
  { intro a. unfold Rdiv. rewrite Rinv_mult.
    replace (l * a * (/ l * / e)) with (l * / l * (a * / e)) by ring. rewrite Rinv_r by lra. ring. }
  assert (HS : forall z, s_xx_msqrd (s_units l S) (l * e) (l * w) z = s_xx_msqrd S e w z).
  { intro z. unfold s_xx_msqrd. start_units. now rewrite !Hr. }
  assert (HV : forall z, v_xx_msqrd (v_units l V) (l * e) (l * w) z = v_xx_msqrd V e w z).
  { intro z. unfold v_xx_msqrd. start_units. now rewrite !Hr. }
  split.
  - unfold sigma_xx_to_s_to_xx.
    rewrite (map_ext _ (fun nw => snd nw * s_xx_msqrd S e w (fst nw))) by (intro; now rewrite HS).
    start_units. destruct (Rlt_dec (2 * s_mx S) e); unfold Rdiv; [rewrite !Rinv_mult|]; ring.
  - unfold sigma_xx_to_v_to_xx.
    rewrite (map_ext _ (fun nw => snd nw * v_xx_msqrd V e w (fst nw))) by (intro; now rewrite HV).
    start_units. destruct (Rlt_dec (2 * v_mx V) e); unfold Rdiv; [rewrite !Rinv_mult|]; ring.
Qed.
Print Assumptions xx_to_xx_dimension.

Theorem xx_to_xx_units_refuted : exists l S V e w,
  0 < l /\ 0 < s_mx S /\ 0 < s_ms S /\ 0 < v_mx V /\ 0 < v_mv V /\ 0 < w /\ 2 * s_mx S < e /\ 2 * v_mx V < e /\
  forall rule, rule <> [] -> (forall nw, In nw rule -> 0 < snd nw /\ -1 <= fst nw <= 1) ->
    sigma_xx_to_s_to_xx (s_units l S) (l * e) (l * w) rule <> sigma_xx_to_s_to_xx S e w rule / l ^ 2 /\
    sigma_xx_to_v_to_xx (v_units l V) (l * e) (l * w) rule <> sigma_xx_to_v_to_xx V e w rule / l ^ 2.
Proof.
  exists 2, (MkS 1 4 1 1 0 0 1 0), (MkV 1 4 1 1 0 0 0 0), 4, 4. cbn [s_mx s_ms v_mx v_mv].
  repeat (split; [lra|]). intros rule Hne H.
  destruct (xx_to_xx_dimension 2 (MkS 1 4 1 1 0 0 1 0) (MkV 1 4 1 1 0 0 0 0) 4 4 rule ltac:(lra)) as [ES EV].
  rewrite ES, EV. clear ES EV.
  assert (0 < / (32 * PI * 4)) by (apply Rinv_0_lt_compat; pose proof PI_RGT_0; lra).
  split.
  - assert (0 < sigma_xx_to_s_to_xx (MkS 1 4 1 1 0 0 1 0) 4 4 rule); [|lra].
    unfold sigma_xx_to_s_to_xx. cbn [s_mx]. destruct (Rlt_dec (2 * 1) 4); [|lra].
    apply Rmult_lt_0_compat; [|assumption]. apply sum_positive; [assumption|].
    intros nw Hi. destruct (H nw Hi) as [Hw Hz]. split; [assumption|].
    set (z := fst nw) in *. clearbody z. unfold s_xx_msqrd. cbn [s_mx s_ms s_gsxx].
    replace (4 / 4) with 1 by lra.
    assert (0 <= z ^ 2 <= 1) by (split; [apply pow2_ge_0|nra]).
    apply Rmult_lt_0_compat; [|apply Rinv_0_lt_compat]; nra.
  - assert (0 < sigma_xx_to_v_to_xx (MkV 1 4 1 1 0 0 0 0) 4 4 rule); [|lra].
    unfold sigma_xx_to_v_to_xx. cbn [v_mx]. destruct (Rlt_dec (2 * 1) 4); [|lra].
    apply Rmult_lt_0_compat; [|assumption]. apply sum_positive; [assumption|].
    intros nw Hi. destruct (H nw Hi) as [Hw Hz]. split; [assumption|].
    set (z := fst nw) in *. clearbody z. unfold v_xx_msqrd. cbn [v_mx v_mv v_gvxx].
    replace (4 / 4) with 1 by lra.
    assert (0 <= z ^ 2 <= 1) by (split; [apply pow2_ge_0|nra]).
    assert (-1 <= z ^ 3 <= 1) by (replace (z ^ 3) with (z * z ^ 2) by ring; split; nra).
    assert (0 <= z ^ 4) by (replace (z ^ 4) with ((z ^ 2) ^ 2) by ring; apply pow2_ge_0).
    apply Rmult_lt_0_compat; [|apply Rinv_0_lt_compat]; nra.
Qed.
Print Assumptions xx_to_xx_units_refuted.

Example vector_units_case :
  let P := MkV 200 500 1 (2 / 10) (- 1 / 10) (- 1 / 10) (- 3 / 10) (- 3 / 10) in
  v_mv (v_units 1000 P) = 500000 /\ v_gvxx (v_units 1000 P) = 1 /\
  0 < sigma_xx_to_v_to_ff P 600 3 1 1.
Proof.
  cbv zeta. cbn [v_mv v_gvxx v_units]. split; [lra|]. split; [reflexivity|].
  unfold sigma_xx_to_v_to_ff, v_propagator. cbn [v_mx v_mv v_gvxx].
  destruct (Rlt_dec 600 (2 * 1)); [lra|]. destruct (Rlt_dec 600 (2 * 200)); [lra|]. pose proof PI_RGT_0.
  apply Rmult_lt_0_compat; [|apply Rinv_0_lt_compat; pos1; lra].
  pos1; try lra. 
Qed.

(** The assertions [val >= 0] inside the partial widths never fire. *)
Theorem width_assertions_hold : forall C S V m g,
  0 <= c_mpi C -> 0 <= c_mpi0 C -> 0 <= c_alpha C ->
  0 <= width_s_to_pi0pi0 C S /\ 0 <= width_s_to_pipi C S /\ 0 <= width_s_to_xx S /\ 0 <= width_s_to_ff_mass C S m /\
  0 <= width_v_to_pipi C V /\ 0 <= width_v_to_pi0g C V /\ 0 <= width_v_to_xx V /\ 0 <= width_v_to_ff_mass V g m.
Proof.
  intros C S V m g Hp Hp0 Ha. pose proof PI_RGT_0 as Hpi.
  assert (P4 : forall x, 0 <= x ^ 4) by (intro x; replace (x ^ 4) with ((x ^ 2) ^ 2) by ring; apply pow2_ge_0).
  assert (P6 : forall x, 0 <= x ^ 6) by (intro x; replace (x ^ 6) with ((x ^ 3) ^ 2) by ring; apply pow2_ge_0).
  assert (D : forall a b, 0 <= a -> 0 <= b -> 0 <= a / b).
  { intros a b H1 H2. apply Rmult_le_pos; [exact H1|]. destruct H2 as [H2|<-]; [left; now apply Rinv_0_lt_compat|].
    rewrite Rinv_0. lra. }
  assert (Q : forall a b, 0 <= a ^ 2 + 2 * b ^ 2) by (intros a b; pose proof (pow2_ge_0 a); pose proof (pow2_ge_0 b); lra).
  unfold width_s_to_pi0pi0, width_s_to_pipi, width_s_to_xx, width_s_to_ff_mass,
    width_v_to_pipi, width_v_to_pi0g, width_v_to_xx, width_v_to_ff_mass.
  repeat split; destruct (Rlt_dec _ _) as [Hlt|]; try lra; cbv zeta; apply D;
    try (pos0; first [apply P4 | apply P6 | apply Q | rewrite Rplus_comm; apply Q | idtac]).
  - apply pow_le. lra.
  - apply pow_le.
    assert (Hb : 0 <= c_mpi0 C / v_mv V < 1).
    { split; [apply D; lra|]. apply Rmult_lt_reg_r with (v_mv V); [lra|]. unfold Rdiv. rewrite Rmult_assoc, Rinv_l by lra. lra. }
    nra.
Qed.
Print Assumptions width_assertions_hold.

Example width_assertions_case : 0 <= c_mpi py_consts /\ 0 <= c_mpi0 py_consts /\ 0 <= c_alpha py_consts.
Proof. cbn [c_mpi c_mpi0 c_alpha py_consts]. repeat split; lra. Qed.
