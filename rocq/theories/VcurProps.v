(** C182: the cross sections of the two-body hadronic states of the vector form factors, against the documented currents. *)
From Coq Require Import Reals Lra Psatz List.
From Verif Require Import PyBase Area KinModel VffModel SpecProofs DiracProofs ChanProofs ChanProps.
Import ListNotations.
Local Open Scope R_scope.

(** ** Specification: the daughters and the currents of docs/source/form_factors.rst 76-88 *)
Inductive daughter_kind : Type := Pseudoscalars | PhotonKind | VectorKind.
Definition kind_of (st : two_body_state) : daughter_kind :=
  match st with
  | S_PiPi | S_Pi0Pi0 | S_KK | S_K0K0 => Pseudoscalars
  | S_PiGamma | S_EtaGamma => PhotonKind
  | S_PiPhi | S_EtaPhi | S_EtaOmega | S_PiOmega => VectorKind
  end.
Definition meson (V : vff_masses) (st : two_body_state) : R :=
  match st with
  | S_PiPi => v_mpi V | S_KK => v_mk V | S_K0K0 => v_mk0 V
  | S_EtaGamma | S_EtaPhi | S_EtaOmega => v_meta V
  | S_Pi0Pi0 | S_PiGamma | S_PiPhi | S_PiOmega => v_mpi0 V
  end.
Definition partner (V : vff_masses) (st : two_body_state) : R :=
  match st with
  | S_PiPi => v_mpi V | S_Pi0Pi0 => v_mpi0 V | S_KK => v_mk V | S_K0K0 => v_mk0 V
  | S_PiGamma | S_EtaGamma => 0
  | S_PiPhi | S_EtaPhi => v_mphi V
  | S_EtaOmega | S_PiOmega => v_momega V
  end.
(** the spin sum of the annihilation of two particles of mass [m] into the current of the state, over the polarisations
    of the partner, for a form factor of modulus one *)
Definition annihilation_sum (V : vff_masses) (st : two_body_state) (m q z : R) : R :=
  let a := meson V st in let b := partner V st in
  let k := recoil q a b in
  let p := leaving k b z in
  let J pol := current_sum m q (anomaly_current q pol p) in
  match kind_of st with
  | Pseudoscalars => current_sum m q (vsub (out_1 q a z) (out_2 q a z))
  | PhotonKind => J across_1 + J (across_2 z)
  | VectorKind =>
      let J' pol := current_sum m q (anomaly_current q pol (vsub (rest q) p)) in
      J' across_1 + J' (across_2 z) + J' (along k b z)
  end.

(** ** Lemmas *)
Lemma recoil_equal q u : 0 < q -> 0 <= u -> 2 * u < q -> recoil q u u = momentum q u.
Proof.
  intros Hq Hu H. unfold recoil, momentum.
  replace ((q ^ 2 - (u + u) ^ 2) * (q ^ 2 - (u - u) ^ 2)) with ((2 * q) ^ 2 * (q ^ 2 / 4 - u ^ 2)) by field.
  rewrite sqrt_mult by (try apply pow2_ge_0; nra). rewrite sqrt_pow2 by lra. field. lra.
Qed.
Lemma prefactor_recoil q a b : 0 < q -> 0 <= a -> 0 <= b -> a + b < q ->
  two_body_phase_space_prefactor q a b = recoil q a b / (4 * PI * q).
Proof.
  intros Hq Ha Hb H. unfold two_body_phase_space_prefactor, recoil. pose proof PI_RGT_0.
  replace (kallen_lambda (q ^ 2) (a ^ 2) (b ^ 2)) with ((q ^ 2 - (a + b) ^ 2) * (q ^ 2 - (a - b) ^ 2)) by (unfold kallen_lambda; ring).
  rewrite Rmax_left by (apply Rmult_le_pos; nra). field. split; [lra|apply PI_neq0].
Qed.
Lemma recoil_sq q a b : 0 < q -> 0 <= a -> 0 <= b -> a + b < q ->
  recoil q a b ^ 2 = (q ^ 2 - (a + b) ^ 2) * (q ^ 2 - (a - b) ^ 2) / (4 * q ^ 2).
Proof.
  intros Hq Ha Hb H. unfold recoil. unfold Rdiv. rewrite Rpow_mult_distr, pow2_sqrt by (apply Rmult_le_pos; nra). field. lra.
Qed.
(** the momentum of the meson in place of the momentum of its partner changes the sign of the current *)
Lemma anomaly_other q m pol p : 0 < q -> m ^ 2 < q ^ 2 / 4 ->
  current_sum m q (anomaly_current q pol (vsub (rest q) p)) = current_sum m q (anomaly_current q pol p).
Proof.
  intros Hq Hm. rewrite !(current_closed q m Hm) by (unfold anomaly_current, dual, lower, det3; cbn; ring).
  unfold anomaly_current, dual, lower, det3, vsub, rest; cbn [v0 v1 v2 v3]. ring.
Qed.
Lemma annihilation_sum_integral V st m q : 0 < q -> m ^ 2 < q ^ 2 / 4 -> 0 <= meson V st -> 0 <= partner V st ->
  meson V st + partner V st < q ->
  area (annihilation_sum V st m q) (-1) 1 (2 * (4 * (q ^ 2 + 2 * m ^ 2)) * (q ^ 2 * tb_lorentz V st q)).
Proof.
  intros Hq Hm Ha Hb Ht. pose proof (beam_sq q m Hm) as HP. set (P := momentum q m) in *.
  destruct (kind_of st) eqn:Ek.
  - assert (Eb : partner V st = meson V st) by (destruct st; cbn in *; congruence).
    assert (El : tb_lorentz V st q = (q ^ 2 - 2 * meson V st ^ 2 - 2 * meson V st ^ 2) / (3 * q ^ 2)) by (destruct st; try discriminate Ek; reflexivity).
    rewrite El. set (u := meson V st) in *. assert (Hu : u ^ 2 < q ^ 2 / 4) by nra. pose proof (beam_sq q u Hu) as HK.
    eapply area_val; [|apply (area_ext (fun z => 8 * momentum q u ^ 2 * q ^ 2 + - 32 * P ^ 2 * momentum q u ^ 2 * z ^ 2) _ _ _ _ [])].
    3: apply quadratic_area.
    + rewrite HK. replace (m ^ 2) with (q ^ 2 / 4 - P ^ 2) by lra. field. lra.
    + intros z Hz _. unfold annihilation_sum. rewrite Ek. cbv zeta. fold u. rewrite (pion_closed q m) by lra. fold P. ring.
  - set (k := recoil q (meson V st) (partner V st)).
    eapply area_val; [|apply (area_ext (fun z => (4 * q ^ 4 * k ^ 2 - 8 * P ^ 2 * q ^ 2 * k ^ 2) + (8 * P ^ 2 * q ^ 2 * k ^ 2) * z ^ 2) _ _ _ _ [])].
    3: apply quadratic_area.
    + assert (Eb : partner V st = 0) by (destruct st; try discriminate Ek; reflexivity).
      assert (El : tb_lorentz V st q = (q ^ 2 - meson V st ^ 2) ^ 2 / (6 * q ^ 2)) by (destruct st; try discriminate Ek; reflexivity).
      unfold k. rewrite recoil_sq, El, Eb by assumption. replace (m ^ 2) with (q ^ 2 / 4 - P ^ 2) by lra. field. lra.
    + intros z Hz _. unfold annihilation_sum. rewrite Ek. cbv zeta. fold k.
      destruct (anomaly_closed q m Hm k (partner V st) z ltac:(lra)) as (E1 & E2 & _). rewrite E1, E2. fold P. ring.
  - set (k := recoil q (meson V st) (partner V st)).
    eapply area_val; [|apply (area_ext (fun z => (4 * q ^ 4 * k ^ 2 - 8 * P ^ 2 * q ^ 2 * k ^ 2) + (8 * P ^ 2 * q ^ 2 * k ^ 2) * z ^ 2) _ _ _ _ [])].
    3: apply quadratic_area.
    + assert (El : tb_lorentz V st q = (q ^ 2 - (meson V st - partner V st) ^ 2) * (q ^ 2 - (meson V st + partner V st) ^ 2) / (6 * q ^ 2))
        by (destruct st; try discriminate Ek; reflexivity).
      unfold k. rewrite recoil_sq, El by assumption. replace (m ^ 2) with (q ^ 2 / 4 - P ^ 2) by lra. field. lra.
    + intros z Hz _. unfold annihilation_sum. rewrite Ek. cbv zeta. fold k.
      destruct (anomaly_closed q m Hm k (partner V st) z ltac:(lra)) as (E1 & E2 & E3). rewrite !anomaly_other by assumption. rewrite E1, E2, E3. fold P. ring.
Qed.

(** ** The cross section of every two-body state is the golden rule with its current, whatever the form factor [z] that the
    code finds at the energy.  Above both thresholds it is a number, at or below the threshold of the hadrons it is zero. *)
Theorem hadron_cross_sections_from_currents : forall V core kk_rest kk_phi st q m M g w z,
  0 <= meson V st -> 0 <= partner V st -> 0 < q -> 0 <= m -> 2 * m < q -> 0 < M -> 0 < w ->
  form_factor V core kk_rest kk_phi st (Array [q]) = Ret (CArray [z]) ->
  exists J, iff_array V core kk_rest kk_phi st [q] = Ret [J] /\
  (meson V st + partner V st < q ->
   exists v, base_cross_section (tb_threshold V st) (fun _ => J) q m M g w = Some v /\
     channel_rule m (recoil q (meson V st) (partner V st)) q
       (fun c => g ^ 2 * (fst z ^ 2 + snd z ^ 2) * annihilation_sum V st m q c / breit M w q / 4) v) /\
  (q <= meson V st + partner V st -> base_cross_section (tb_threshold V st) (fun _ => J) q m M g w = Some 0).
Proof.
  intros V core kr kp st q m M g w z Ha Hb Hq Hm H1 HM Hw HF. pose proof PI_RGT_0 as Hpi. pose proof (half_square _ _ Hm H1) as A1.
  assert (Em : tb_masses V st = (meson V st, partner V st)) by (destruct st; reflexivity).
  exists (two_body_phase_space_prefactor q (meson V st) (partner V st) * tb_lorentz V st q * (fst z ^ 2 + snd z ^ 2)).
  split; [unfold iff_array, integrated_form_factor; rewrite Em, HF; reflexivity|].
  assert (Et : tb_threshold V st = meson V st + partner V st) by (unfold tb_threshold; rewrite Em; reflexivity).
  set (F2 := fst z ^ 2 + snd z ^ 2).
  unfold base_cross_section. rewrite Et. split; intro H; [|destruct (Rlt_dec _ _); [lra|reflexivity]].
  destruct (Rlt_dec _ _) as [_|]; [|lra]. unfold cs_factor, osqrt, odiv, obind. cbv zeta.
  destruct (Rlt_dec (q ^ 2 - 4 * m ^ 2) 0) as [|_]; [lra|].
  assert (B : 0 < breit M w q).
  { unfold breit. pose proof (pow2_ge_0 (q ^ 2 - M ^ 2)). assert (0 < M ^ 2 * w ^ 2) by (apply Rmult_lt_0_compat; apply pow_lt; assumption). lra. }
  assert (Er : sqrt (q ^ 2 - 4 * m ^ 2) = 2 * momentum q m).
  { rewrite <- (beam_root q m A1). f_equal. ring. }
  pose proof (beam_pos q m A1) as P0. rewrite Er.
  replace ((q ^ 2 - M ^ 2) ^ 2 + (M * w) ^ 2) with (breit M w q) by (unfold breit; ring).
  destruct (Req_EM_T _ 0) as [E|_]; [apply Rmult_integral in E; lra|].
  eexists. split; [reflexivity|].
  pose proof (annihilation_sum_integral V st m q Hq A1 Ha Hb H) as I. set (D := breit M w q) in *.
  exists (2 * (4 * (q ^ 2 + 2 * m ^ 2)) * (q ^ 2 * tb_lorentz V st q) * (g ^ 2 * F2 / D / 4)). split.
  - apply (area_ext (fun c => (g ^ 2 * F2 / D / 4) * annihilation_sum V st m q c) _ _ _ _ []).
    + intros c _ _. field. lra.
    + rewrite (Rmult_comm (2 * (4 * (q ^ 2 + 2 * m ^ 2)) * (q ^ 2 * tb_lorentz V st q))). apply area_scale. exact I.
  - rewrite prefactor_recoil by assumption. replace 0.5 with (1 / 2) by lra. field. repeat split; try assumption; lra.
Qed.
Print Assumptions hadron_cross_sections_from_currents.

Example hadron_cross_sections_from_currents_example :
  let V := MkVffMasses 140 135 494 498 548 783 1019 in
  (0 <= meson V S_PiOmega /\ 0 <= partner V S_PiOmega /\ meson V S_PiOmega + partner V S_PiOmega < 1500 /\ 2 * 250 < 1500) /\
  form_factor V (fun _ x => (x, 1)) (fun _ => (0, 0)) (fun _ => (0, 0)) S_PiOmega (Array [1500]) = Ret (CArray [(3 / 2000, 1 / 1000)]).
Proof.
  cbn [meson partner v_mpi0 v_momega]. split; [lra|]. unfold form_factor, ff_masked, tb_threshold, above.
  cbn [tb_masses fst snd v_mpi0 v_momega map filter]. destruct (Rlt_dec _ _) as [|n]; [|exfalso; apply n; lra].
  cbn. unfold cscale. destruct (Rlt_dec _ _) as [|n]; [|exfalso; apply n; lra]. cbn. do 3 f_equal. f_equal; lra.
Qed.
