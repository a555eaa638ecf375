(** Theorems about the radiation formulas of the mediator models. *)
From Coq Require Import Reals Lra Lia Psatz Classical List.
From Verif Require Import PyBase Area MedModel MedProofs FsrModel FsrProofs.
Import ListNotations.
Local Open Scope R_scope.

Lemma in_or_out e Q m : 0 < Q -> {2 * e / Q <= 1 - 4 * (m / Q) ^ 2} + {1 - 4 * (m / Q) ^ 2 < 2 * e / Q}.
Proof. intros _. destruct (Rle_dec (2 * e / Q) (1 - 4 * (m / Q) ^ 2)) as [H|H]; [left; exact H|right; lra]. Qed.

(** * C31: annihilation and decay *)

(** The vector mediator: the two formulas agree for every photon energy, pair mass, lepton and pion
    mass and coupling, as long as both are given the same constants. *)
Theorem vector_radiation_agrees : forall (C : consts) (mx e Q m : R),
  0 <= c_alpha C -> 0 < c_mpi C -> 0 < m -> 0 < e -> 0 < Q -> 2 * mx < Q ->
  v_to_ffg C mx e Q m = Ret (fsr_l_vrf C e m Q) /\ v_to_pipig C mx e Q = Ret (fsr_cp_vrf C e Q).
Proof.
  intros C mx e Q m Ha Hp Hm He HQ Hx. split.
  - destruct (in_or_out e Q m HQ) as [I|O].
    + rewrite (v_to_ffg_form C e Q m), (fsr_l_vrf_form C e Q m); auto; lra.
    + rewrite v_to_ffg_out, fsr_l_vrf_out; auto.
  - destruct (in_or_out e Q (c_mpi C) HQ) as [I|O].
    + rewrite (v_to_pipig_form C e Q (c_mpi C)), (fsr_cp_vrf_form C e Q (c_mpi C)); auto; lra.
    + rewrite (v_to_pipig_out C mx e Q (c_mpi C)), (fsr_cp_vrf_out C e Q (c_mpi C)); auto.
Qed.
Print Assumptions vector_radiation_agrees.

(** The scalar mediator: the annihilation formulas are exactly twice the decay formulas. *)
Theorem scalar_radiation_factor_two : forall (C : consts) (mx e Q m : R),
  0 <= c_alpha C -> 0 < c_mpi C -> 0 < m -> 0 < e -> 0 < Q -> 2 * mx < Q ->
  s_to_ffg C mx e Q m = Ret (2 * fsr_l_srf C e m Q) /\ s_to_pipig C mx e Q = Ret (2 * fsr_cp_srf C e Q).
Proof.
  intros C mx e Q m Ha Hp Hm He HQ Hx. split.
  - destruct (in_or_out e Q m HQ) as [I|O].
    + rewrite (s_to_ffg_form C e Q m), (fsr_l_srf_form C e Q m); auto; try lra. f_equal. field.
    + rewrite s_to_ffg_out, fsr_l_srf_out; auto. f_equal. ring.
  - destruct (in_or_out e Q (c_mpi C) HQ) as [I|O].
    + rewrite (s_to_pipig_form C e Q (c_mpi C)), (fsr_cp_srf_form C e Q (c_mpi C)); auto; try lra. f_equal. field.
    + rewrite (s_to_pipig_out C mx e Q (c_mpi C)), (fsr_cp_srf_out C e Q (c_mpi C)); auto. f_equal. ring.
Qed.
Print Assumptions scalar_radiation_factor_two.

(** A point inside the kinematic range *)
Lemma half_way C mx : 2 * mx < 1000 -> c_alpha C = c_alpha py_consts -> c_mpi C = c_mpi py_consts ->
  0 < value (s_to_ffg C mx 100 1000 (c_mmu py_consts)) /\ 0 < value (s_to_pipig C mx 100 1000).
Proof.
  intros Hx Ea Ep.
  assert (A : 0 < c_alpha C) by (rewrite Ea; cbn [c_alpha py_consts]; lra).
  assert (I1 : 2 * 100 / 1000 <= 1 - 4 * (c_mmu py_consts / 1000) ^ 2) by (cbn [c_mmu py_consts]; lra).
  assert (I2 : 2 * 100 / 1000 <= 1 - 4 * (c_mpi C / 1000) ^ 2) by (rewrite Ep; cbn [c_mpi py_consts]; lra).
  assert (Pm : 0 < c_mmu py_consts) by (cbn [c_mmu py_consts]; lra).
  assert (Pp : 0 < c_mpi C) by (rewrite Ep; cbn [c_mpi py_consts]; lra).
  split.
  - rewrite (s_to_ffg_form C 100 1000 (c_mmu py_consts)); try lra. cbn [value].
    pose proof (kx 100 1000 (c_mmu py_consts) ltac:(lra) Pm I1) as (Hy & Hv & Hw).
    unfold sp_sf. apply Rdiv_lt_0_compat.
    + apply Rmult_lt_0_compat; [lra|].
      set (v := vx _ _) in *. set (w := 4 * (c_mmu py_consts / 1000) ^ 2) in *.
      assert (V : 0 < v).
      { destruct Hv as [[V|V] _]; [exact V|]. exfalso. rewrite <- V in Hw. unfold w in Hw.
        cbn [c_mmu py_consts] in Hw. lra. }
      assert (X : 2 * 100 / 1000 = 1 / 5) by lra. rewrite X in *.
      pose proof (log_ge v Hv) as L. unfold b_sf.
      assert (K : 0 < (1 / 5 + w) ^ 2 - 2 * (- 1 + 1 / 5 + 3 / 2 * w)).
      { unfold w. cbn [c_mmu py_consts]. lra. }
      apply Rlt_le_trans with (- 2 * (1 - 1 / 5) * (1 - w) * v + ((1 / 5 + w) ^ 2 - 2 * (- 1 + 1 / 5 + 3 / 2 * w)) * (2 * v)).
      * replace (- 2 * (1 - 1 / 5) * (1 - w) * v + ((1 / 5 + w) ^ 2 - 2 * (- 1 + 1 / 5 + 3 / 2 * w)) * (2 * v))
          with (v * (2 * ((1 / 5 + w) ^ 2 - 2 * (- 1 + 1 / 5 + 3 / 2 * w)) - 8 / 5 * (1 - w))) by field.
        apply Rmult_lt_0_compat; [exact V|]. unfold w. cbn [c_mmu py_consts]. lra.
      * apply Rplus_le_compat_l. apply Rmult_le_compat_l; lra.
    + apply Rmult_lt_0_compat; [apply den_pos; lra|apply (pb_pos 100 1000); try lra; exact I1].
  - rewrite (s_to_pipig_form C 100 1000 (c_mpi C)); try lra. cbn [value].
    pose proof (kx 100 1000 (c_mpi C) ltac:(lra) Pp I2) as (Hy & Hv & Hw).
    unfold sp_sp. apply Rdiv_lt_0_compat.
    + apply Rmult_lt_0_compat; [lra|].
      set (v := vx _ _) in *. set (w := 4 * (c_mpi C / 1000) ^ 2) in *.
      assert (V : 0 < v).
      { destruct Hv as [[V|V] _]; [exact V|]. exfalso. rewrite <- V in Hw. unfold w in Hw. rewrite Ep in Hw.
        cbn [c_mpi py_consts] in Hw. lra. }
      assert (X : 2 * 100 / 1000 = 1 / 5) by lra. rewrite X in *.
      pose proof (log_ge v Hv) as L. unfold b_sp.
      assert (W : 0 <= w <= 1 / 10) by (unfold w; rewrite Ep; cbn [c_mpi py_consts]; lra).
      nra.
    + apply Rmult_lt_0_compat; [apply den_pos; lra|apply (sb_pos 100 1000); try lra; exact I2].
Qed.

Theorem scalar_radiation_refuted : exists mx e Q,
  0 < mx /\ 0 < e /\ 0 < Q /\ 2 * mx < Q
  /\ s_to_ffg py_consts mx e Q (c_mmu py_consts) <> Ret (fsr_l_srf py_consts e (c_mmu py_consts) Q)
  /\ s_to_pipig py_consts mx e Q <> Ret (fsr_cp_srf py_consts e Q).
Proof.
  exists 200, 100, 1000. do 4 (split; [lra|]).
  destruct (half_way py_consts 200 ltac:(lra) eq_refl eq_refl) as (H1 & H2).
  destruct (scalar_radiation_factor_two py_consts 200 100 1000 (c_mmu py_consts)) as (E1 & E2);
    try (cbn [c_alpha c_mpi c_mmu py_consts]; lra).
  rewrite E1 in H1. rewrite E2 in H2. cbn [value] in H1, H2.
  split; intro E.
  - rewrite E in E1. apply (f_equal value) in E1. cbn [value] in E1. lra.
  - rewrite E in E2. apply (f_equal value) in E2. cbn [value] in E2. lra.
Qed.
Print Assumptions scalar_radiation_refuted.

(** The two sides do not even read the same constants: as compiled and imported, the vector formulas
    differ for muons (python: hazma/parameters.py, decay: _utils/legacy_parameters.pxd). *)
Theorem radiation_constants_refuted : exists mx e Q,
  0 < mx /\ 0 < e /\ 0 < Q /\ 2 * mx < Q
  /\ v_to_ffg py_consts mx e Q (c_mmu py_consts) = Ret 0
  /\ 0 < fsr_l_vrf legacy_consts e (c_mmu legacy_consts) Q.
Proof.
  pose (q := 1000). pose (mp := c_mmu py_consts). pose (ml := c_mmu legacy_consts).
  pose (e := q / 2 * (1 - 4 * (ml / q) ^ 2) - 1 / 1000000000).
  exists 200, e, q.
  assert (Ev : e = 1000 / 2 * (1 - 4 * ((1056583715 / 10000000) / 1000) ^ 2) - 1 / 1000000000) by reflexivity.
  assert (He : 0 < e) by lra.
  split; [lra|]. split; [exact He|]. split; [unfold q; lra|]. split; [unfold q; lra|]. split.
  - apply v_to_ffg_out; [unfold q; lra|]. cbn [c_mmu py_consts]. unfold q. lra.
  - assert (I : 2 * e / q <= 1 - 4 * (ml / q) ^ 2) by (unfold ml, q; cbn [c_mmu legacy_consts]; lra).
    assert (Pm : 0 < ml) by (unfold ml; cbn [c_mmu legacy_consts]; lra).
    assert (Pq : 0 < q) by (unfold q; lra). fold ml.
    rewrite (fsr_l_vrf_form legacy_consts e q ml He Pq Pm I) by (cbn [c_alpha legacy_consts]; lra).
    pose proof (kx e q ml Pq Pm I) as (Hy & Hv & Hw).
    unfold sp_vf. apply Rdiv_lt_0_compat.
    2: { apply den_vf_pos; assumption. }
    apply Rmult_lt_0_compat; [cbn [c_alpha legacy_consts]; lra|].
    set (v := vx _ _) in *. set (w := 4 * (ml / q) ^ 2) in *. set (x := 2 * e / q) in *.
    assert (W : w = 4 * ((1056583715 / 10000000) / 1000) ^ 2) by reflexivity.
    assert (X : x = 1 - w - 1 / 500000000000) by (unfold x, q; rewrite W, Ev; field).
    assert (V : 0 < v).
    { destruct Hv as [[V|V] _]; [exact V|]. exfalso. rewrite <- V in Hw. lra. }
    pose proof (log_ge v Hv) as L. unfold b_vf.
    assert (W1 : w < 9 / 200) by lra. assert (W0 : 0 < w) by lra.
    assert (K : 0 < 2 + (- 2 + x) * x - x * w - w ^ 2 / 2) by nra.
    apply Rlt_le_trans with (- (v * (2 - 2 * x + x ^ 2 + (1 - x) * w)) + (2 + (- 2 + x) * x - x * w - w ^ 2 / 2) * (2 * v)).
    + replace (- (v * (2 - 2 * x + x ^ 2 + (1 - x) * w)) + (2 + (- 2 + x) * x - x * w - w ^ 2 / 2) * (2 * v))
        with (v * (2 * (2 + (- 2 + x) * x - x * w - w ^ 2 / 2) - (2 - 2 * x + x ^ 2 + (1 - x) * w))) by field.
      apply Rmult_lt_0_compat; [exact V|]. nra.
    + apply Rplus_le_compat_l. apply Rmult_le_compat_l; lra.
Qed.
Print Assumptions radiation_constants_refuted.

Example ex_radiation : 0 <= c_alpha py_consts /\ 0 < c_mpi py_consts /\ 0 < c_mmu py_consts
  /\ 0 < 100 /\ 0 < 1000 /\ 2 * 200 < 1000
  /\ 0 < value (s_to_ffg py_consts 200 100 1000 (c_mmu py_consts))
  /\ 0 < value (s_to_pipig py_consts 200 100 1000).
Proof.
  repeat split; try (cbn [c_alpha c_mpi c_mmu py_consts]; lra);
  apply (half_way py_consts 200 ltac:(lra) eq_refl eq_refl).
Qed.

(** * C32: non-negative *)
(** For every pair mass and every non-zero photon energy, the annihilation spectra return a
    non-negative number; none of the assertions fires. *)
Theorem radiation_nonnegative : forall (C : consts) (mx e Q m : R),
  0 <= c_alpha C -> 0 < c_mpi C -> 0 < m -> e <> 0 -> 0 < Q ->
  Forall (fun r => exists t, r = Ret t /\ 0 <= t)
    [s_to_ffg C mx e Q m; s_to_pipig C mx e Q; v_to_ffg C mx e Q m; v_to_pipig C mx e Q].
Proof.
  intros C mx e Q m Ha Hp Hm He HQ.
  assert (Z : forall r : res R, r = Ret 0 -> exists t, r = Ret t /\ 0 <= t).
  { intros r ->. exists 0. split; [reflexivity|lra]. }
  destruct (Rlt_dec e 0) as [N|N].
  { assert (X : 2 * e / Q < 0).
    { assert (0 < / Q) by (apply Rinv_0_lt_compat; exact HQ). unfold Rdiv. nra. }
    assert (S : Q ^ 2 < Q ^ 2 - 2 * Q * e) by nra.
    constructor; [|constructor; [|constructor; [|constructor; [|constructor]]]]; apply Z.
    - unfold s_to_ffg. destruct (Rlt_dec (2 * m) Q); [|reflexivity].
      destruct (Rlt_dec (4 * m ^ 2) _); [|reflexivity].
      destruct (Rlt_dec _ (Q ^ 2)); [lra|reflexivity].
    - unfold s_to_pipig. destruct (Rlt_dec (2 * e / Q) 0); [reflexivity|contradiction].
    - unfold v_to_ffg. destruct (Rle_dec (4 * m ^ 2) _); [|reflexivity].
      destruct (Rle_dec _ (Q ^ 2)); [lra|reflexivity].
    - unfold v_to_pipig. destruct (Rlt_dec (2 * e / Q) 0); [reflexivity|contradiction]. }
  assert (P : 0 < e) by lra.
  constructor; [|constructor; [|constructor; [|constructor; [|constructor]]]].
  - destruct (Rlt_dec (2 * mx) Q) as [T|T].
    + destruct (in_or_out e Q m HQ) as [I|O]; [|apply Z; now apply s_to_ffg_out].
      exists (sp_sf C e Q m). split; [apply s_to_ffg_form; auto; lra|now apply sp_sf_nonneg].
    + apply Z. unfold s_to_ffg.
      repeat match goal with |- context [Rlt_dec ?a ?b] => destruct (Rlt_dec a b); try contradiction end; reflexivity.
  - destruct (Rlt_dec Q (2 * mx)) as [T|T].
    + apply Z. unfold s_to_pipig. destruct (Rlt_dec Q (2 * mx)); [|contradiction].
      repeat match goal with |- context [Rlt_dec ?a ?b] => destruct (Rlt_dec a b) end; reflexivity.
    + destruct (in_or_out e Q (c_mpi C) HQ) as [I|O]; [|apply Z; now apply (s_to_pipig_out C mx e Q (c_mpi C))].
      exists (sp_sp C e Q (c_mpi C)). split; [apply s_to_pipig_form; auto; lra|now apply sp_sp_nonneg].
  - destruct (Rlt_dec (2 * mx) Q) as [T|T].
    + destruct (in_or_out e Q m HQ) as [I|O]; [|apply Z; now apply v_to_ffg_out].
      exists (sp_vf C e Q m). split; [apply v_to_ffg_form; auto; lra|now apply sp_vf_nonneg].
    + apply Z. unfold v_to_ffg.
      repeat match goal with |- context [Rle_dec ?a ?b] => destruct (Rle_dec a b); [|reflexivity] end.
      repeat match goal with |- context [Rlt_dec ?a ?b] => destruct (Rlt_dec a b); try contradiction end; reflexivity.
  - destruct (Rlt_dec Q (2 * mx)) as [T|T].
    + apply Z. unfold v_to_pipig. destruct (Rlt_dec Q (2 * mx)); [|contradiction].
      repeat match goal with |- context [Rlt_dec ?a ?b] => destruct (Rlt_dec a b) end; reflexivity.
    + destruct (in_or_out e Q (c_mpi C) HQ) as [I|O]; [|apply Z; now apply (v_to_pipig_out C mx e Q (c_mpi C))].
      exists (sp_vp C e Q (c_mpi C)). split; [apply v_to_pipig_form; auto; lra|now apply sp_vp_nonneg].
Qed.
Print Assumptions radiation_nonnegative.

(** At zero energy the guards of three of the four functions let the division by zero through. *)
Theorem radiation_zero_energy : forall (C : consts) (mx Q m : R),
  0 < c_mpi C -> 2 * c_mpi C < Q -> 0 < m -> 2 * m < Q -> 2 * mx < Q ->
  s_to_ffg C mx 0 Q m = Ret 0 /\ s_to_pipig C mx 0 Q = Raise ZeroDivisionError
  /\ v_to_ffg C mx 0 Q m = Raise ZeroDivisionError /\ v_to_pipig C mx 0 Q = Raise ZeroDivisionError.
Proof.
  intros C mx Q m Hp Hq Hm Hmq Hx.
  assert (HQ : 0 < Q) by lra.
  assert (X : 2 * 0 / Q = 0) by (unfold Rdiv; ring).
  assert (S : Q ^ 2 - 2 * Q * 0 = Q ^ 2) by ring.
  assert (Z : forall a b c, b = 0 -> py_div a (c * b) = Raise ZeroDivisionError).
  { intros a b c ->. unfold py_div. rewrite Rmult_0_r. destruct (Req_EM_T 0 0); [reflexivity|lra]. }
  assert (M : forall t, 0 < t -> 2 * t < Q -> 0 <= 1 - 4 * (t / Q) ^ 2 /\ 4 * t ^ 2 <= Q ^ 2).
  { intros t Ht Hl. assert (E : 1 - 4 * (t / Q) ^ 2 = (Q - 2 * t) * (Q + 2 * t) * / Q ^ 2) by (field; lra).
    rewrite E. split; [|nra]. apply Rmult_le_pos; [nra|]. left. apply Rinv_0_lt_compat, pow_lt. exact HQ. }
  destruct (M _ Hp Hq) as (Mp & _). destruct (M _ Hm Hmq) as (_ & Mm).
  split; [|split; [|split]].
  - unfold s_to_ffg. rewrite S.
    repeat match goal with |- context [Rlt_dec ?a ?b] => destruct (Rlt_dec a b); try lra end; reflexivity.
  - unfold s_to_pipig. rewrite X.
    destruct (Rlt_dec 0 0); [lra|]. destruct (Rlt_dec _ 0); [lra|]. destruct (Rlt_dec Q (2 * mx)); [lra|].
    match goal with |- context [py_div ?a ?b] => replace b with (1 * 0) by ring end.
    now rewrite Z.
  - unfold v_to_ffg. rewrite S, X.
    destruct (Rle_dec (4 * m ^ 2) (Q ^ 2)); [|contradiction].
    destruct (Rle_dec (Q ^ 2) (Q ^ 2)); [|lra]. destruct (Rlt_dec (2 * m) Q); [|contradiction].
    destruct (Rlt_dec (2 * mx) Q); [|contradiction].
    match goal with |- context [py_div ?a ?b] => replace b with (1 * 0) by ring end.
    now rewrite Z.
  - unfold v_to_pipig. rewrite X.
    destruct (Rlt_dec 0 0); [lra|]. destruct (Rlt_dec _ 0); [lra|]. destruct (Rlt_dec Q (2 * c_mpi C)); [lra|].
    destruct (Rlt_dec Q (2 * mx)); [lra|].
    match goal with |- context [py_div ?a ?b] => replace b with (1 * 0) by ring end.
    now rewrite Z.
Qed.
Print Assumptions radiation_zero_energy.

(** * C73: soft photons *)
Section SoftForms.
Variable C : consts.
Variables Q m : R.
Hypothesis Hm : 0 < m.
Hypothesis Hmq : 2 * m < Q.
Let mu := m / Q.
Let b := pair_velocity m Q.

Lemma mu_facts : 0 < mu /\ 4 * mu ^ 2 < 1 /\ sqrt (1 - 4 * mu ^ 2) = b /\ 0 < b < 1 /\ 4 * mu ^ 2 = 1 - b ^ 2
  /\ pow15 (1 - 4 * mu ^ 2) = b ^ 3 /\ vx 0 mu = b.
Proof.
  assert (Hq : 0 < Q) by lra.
  assert (P : 0 < mu) by (unfold mu; apply Rdiv_lt_0_compat; lra).
  assert (P2 : 0 < mu ^ 2) by (apply pow_lt; exact P).
  assert (L : 4 * mu ^ 2 < 1).
  { assert (E : 1 - 4 * mu ^ 2 = (Q - 2 * m) * (Q + 2 * m) * / Q ^ 2) by (unfold mu; field; lra).
    assert (0 < (Q - 2 * m) * (Q + 2 * m) * / Q ^ 2); [|lra].
    apply Rmult_lt_0_compat; [nra|]. apply Rinv_0_lt_compat, pow_lt. exact Hq. }
  assert (B : sqrt (1 - 4 * mu ^ 2) = b).
  { unfold b, pair_velocity. f_equal. unfold mu. field. lra. }
  assert (B2 : b ^ 2 = 1 - 4 * mu ^ 2).
  { rewrite <- B. rewrite <- Rsqr_pow2. apply Rsqr_sqrt. lra. }
  assert (B0 : 0 < b) by (rewrite <- B; apply sqrt_lt_R0; lra).
  split; [exact P|]. split; [exact L|]. split; [exact B|]. split; [split; [exact B0|nra]|].
  split; [lra|]. split.
  - rewrite pow15_val by lra. rewrite B, <- B2. ring.
  - rewrite <- B. apply vx_0.
Qed.

Definition e_max : R := Q / 2 * (1 - 4 * mu ^ 2).
Lemma e_max_pos : 0 < e_max.
Proof. unfold e_max. destruct mu_facts as (_ & L & _). apply Rmult_lt_0_compat; lra. Qed.
Lemma below_max e : e < e_max -> 2 * e / Q <= 1 - 4 * (m / Q) ^ 2.
Proof.
  intro H. unfold e_max in H. fold mu. apply Rmult_le_reg_r with Q; [lra|].
  replace (2 * e / Q * Q) with (2 * e) by (field; lra). lra.
Qed.

Lemma soft_sf f : (forall e, 0 < e < e_max -> f e = sp_sf C e Q m) ->
  soft_limit f (soft_factor (c_alpha C) b).
Proof.
  intro H. destruct mu_facts as (P & L & S & B & W & P15 & V0).
  destruct (b_sf_der (4 * mu ^ 2) mu P L) as (l & D).
  pose proof (soft_from _ _ (c_alpha C / (PI * b ^ 3)) Q e_max f ltac:(lra) e_max_pos D) as K.
  cbv beta in K. pose proof PI_RGT_0 as Pp.
  replace (soft_factor (c_alpha C) b)
    with (c_alpha C / (PI * b ^ 3) * b_sf 0 (4 * mu ^ 2) (vx 0 mu)).
  - apply K. intros e He. rewrite H by exact He. unfold sp_sf. fold mu. rewrite P15.
    field. repeat split; lra.
  - unfold soft_factor. rewrite V0, W. unfold b_sf, lg. field. split; lra.
Qed.
Lemma soft_sp f : (forall e, 0 < e < e_max -> f e = sp_sp C e Q m) ->
  soft_limit f (soft_factor (c_alpha C) b).
Proof.
  intro H. destruct mu_facts as (P & L & S & B & W & P15 & V0).
  destruct (b_sp_der (4 * mu ^ 2) mu P L) as (l & D).
  pose proof (soft_from _ _ (2 * c_alpha C / (PI * b)) Q e_max f ltac:(lra) e_max_pos D) as K.
  cbv beta in K. pose proof PI_RGT_0 as Pp.
  replace (soft_factor (c_alpha C) b)
    with (2 * c_alpha C / (PI * b) * b_sp 0 (4 * mu ^ 2) (vx 0 mu)).
  - apply K. intros e He. rewrite H by exact He. unfold sp_sp. fold mu. rewrite S.
    field. repeat split; lra.
  - unfold soft_factor. rewrite V0, W. unfold b_sp, lg. field. split; lra.
Qed.
Lemma soft_vf f : (forall e, 0 < e < e_max -> f e = sp_vf C e Q m) ->
  soft_limit f (soft_factor (c_alpha C) b).
Proof.
  intro H. destruct mu_facts as (P & L & S & B & W & P15 & V0).
  destruct (b_vf_der (4 * mu ^ 2) mu P L) as (l & D).
  pose proof (soft_from _ _ (c_alpha C / (PI * b * (1 + (1 - b ^ 2) / 2))) Q e_max f ltac:(lra) e_max_pos D) as K.
  cbv beta in K. pose proof PI_RGT_0 as Pp.
  replace (soft_factor (c_alpha C) b)
    with (c_alpha C / (PI * b * (1 + (1 - b ^ 2) / 2)) * b_vf 0 (4 * mu ^ 2) (vx 0 mu)).
  - apply K. intros e He. rewrite H by exact He. unfold sp_vf. fold mu. rewrite S.
    replace (2 * mu ^ 2) with ((1 - b ^ 2) / 2) by lra.
    field. repeat split; try lra. nra.
  - unfold soft_factor. rewrite V0, W. unfold b_vf, lg. field. repeat split; try lra. nra.
Qed.
Lemma soft_vp f : (forall e, 0 < e < e_max -> f e = sp_vp C e Q m) ->
  soft_limit f (soft_factor (c_alpha C) b).
Proof.
  intro H. destruct mu_facts as (P & L & S & B & W & P15 & V0).
  destruct (b_vp_der (4 * mu ^ 2) mu P L) as (l & D).
  pose proof (soft_from _ _ (2 * c_alpha C / (PI * b ^ 3)) Q e_max f ltac:(lra) e_max_pos D) as K.
  cbv beta in K. pose proof PI_RGT_0 as Pp.
  replace (soft_factor (c_alpha C) b)
    with (2 * c_alpha C / (PI * b ^ 3) * b_vp 0 (4 * mu ^ 2) (vx 0 mu)).
  - apply K. intros e He. rewrite H by exact He. unfold sp_vp. fold mu. rewrite P15.
    field. repeat split; lra.
  - unfold soft_factor. rewrite V0, W. unfold b_vp, lg. field. split; lra.
Qed.
End SoftForms.

(** Every annihilation spectrum, and the vector mediator's decay spectra, have the soft-photon limit of
    Low's theorem, for every mass, coupling and pair energy above threshold. *)
Theorem soft_photons : forall (C : consts) (mx Q m : R),
  0 <= c_alpha C -> 0 < c_mpi C -> 2 * c_mpi C < Q -> 0 < m -> 2 * m < Q -> 2 * mx < Q ->
  let low m := soft_factor (c_alpha C) (pair_velocity m Q) in
  soft_limit (fun e => value (s_to_ffg C mx e Q m)) (low m)
  /\ soft_limit (fun e => value (s_to_pipig C mx e Q)) (low (c_mpi C))
  /\ soft_limit (fun e => value (v_to_ffg C mx e Q m)) (low m)
  /\ soft_limit (fun e => value (v_to_pipig C mx e Q)) (low (c_mpi C))
  /\ soft_limit (fun e => fsr_l_vrf C e m Q) (low m)
  /\ soft_limit (fun e => fsr_cp_vrf C e Q) (low (c_mpi C)).
Proof.
  intros C mx Q m Ha Hp Hpq Hm Hmq Hx low.
  assert (HQ : 0 < Q) by lra.
  repeat split.
  - apply soft_sf; auto. intros e He. rewrite (s_to_ffg_form C e Q m); auto; try lra. apply below_max; lra.
  - apply soft_sp; auto. intros e He. rewrite (s_to_pipig_form C e Q (c_mpi C)); auto; try lra. apply below_max; lra.
  - apply soft_vf; auto. intros e He. rewrite (v_to_ffg_form C e Q m); auto; try lra. apply below_max; lra.
  - apply soft_vp; auto. intros e He. rewrite (v_to_pipig_form C e Q (c_mpi C)); auto; try lra. apply below_max; lra.
  - apply soft_vf; auto. intros e He. apply fsr_l_vrf_form; auto; try lra. apply below_max; lra.
  - apply soft_vp; auto. intros e He. apply fsr_cp_vrf_form; auto; try lra. apply below_max; lra.
Qed.
Print Assumptions soft_photons.

(** The scalar mediator's decay spectra have half of it. *)
Lemma soft_half f s : soft_limit f s -> soft_limit (fun e => f e / 2) (s / 2).
Proof.
  intros H eps He. destruct (H eps He) as (d & Pd & D). exists d. split; [exact Pd|].
  intros e Hee. specialize (D e Hee).
  replace (e * (f e / 2) - s / 2) with ((e * f e - s) * / 2) by field.
  rewrite Rabs_mult, (Rabs_right (/ 2)) by lra. pose proof (Rabs_pos (e * f e - s)). lra.
Qed.
Lemma soft_unique f s t : soft_limit f s -> soft_limit f t -> s = t.
Proof.
  intros Hs Ht. apply NNPP. intro N.
  assert (P : 0 < Rabs (s - t) / 2) by (assert (0 < Rabs (s - t)) by (apply Rabs_pos_lt; lra); lra).
  destruct (Hs _ P) as (d1 & P1 & D1). destruct (Ht _ P) as (d2 & P2 & D2).
  set (e := Rmin d1 d2 / 2). assert (0 < Rmin d1 d2) by (apply Rmin_glb_lt; assumption).
  pose proof (Rmin_l d1 d2). pose proof (Rmin_r d1 d2).
  specialize (D1 e ltac:(unfold e; lra)). specialize (D2 e ltac:(unfold e; lra)).
  pose proof (Rabs_triang (e * f e - t) (- (e * f e - s))) as T. rewrite Rabs_Ropp in T.
  replace (e * f e - t + - (e * f e - s)) with (s - t) in T by ring. lra.
Qed.
Lemma soft_factor_pos alpha b : 0 < alpha -> 0 < b < 1 -> 0 < soft_factor alpha b.
Proof.
  intros Ha Hb. unfold soft_factor. pose proof PI_RGT_0. apply Rmult_lt_0_compat.
  - apply Rdiv_lt_0_compat; lra.
  - pose proof (log_ge b ltac:(lra)) as L. unfold lg in L. set (t := ln _) in *. clearbody t.
    assert (E : (1 + b ^ 2) / (2 * b) * (2 * b) = 1 + b ^ 2) by (field; lra).
    assert (0 < (1 + b ^ 2) / (2 * b)) by (apply Rdiv_lt_0_compat; nra).
    assert ((1 + b ^ 2) / (2 * b) * (2 * b) <= (1 + b ^ 2) / (2 * b) * t) by (apply Rmult_le_compat_l; lra).
    nra.
Qed.

Theorem scalar_decay_soft_refuted : exists C Q m,
  0 < c_alpha C /\ 0 < m /\ 2 * m < Q /\ 0 < c_mpi C /\ 2 * c_mpi C < Q
  /\ soft_limit (fun e => fsr_l_srf C e m Q) (soft_factor (c_alpha C) (pair_velocity m Q) / 2)
  /\ ~ soft_limit (fun e => fsr_l_srf C e m Q) (soft_factor (c_alpha C) (pair_velocity m Q))
  /\ ~ soft_limit (fun e => fsr_cp_srf C e Q) (soft_factor (c_alpha C) (pair_velocity (c_mpi C) Q)).
Proof.
  set (C := legacy_consts). set (Q := 1000). set (m := c_mmu legacy_consts).
  assert (Pm : 0 < m) by (unfold m; cbn [c_mmu legacy_consts]; lra).
  assert (Tm : 2 * m < Q) by (unfold m, Q; cbn [c_mmu legacy_consts]; lra).
  assert (Pp : 0 < c_mpi C) by (unfold C; cbn [c_mpi legacy_consts]; lra).
  assert (Tp : 2 * c_mpi C < Q) by (unfold C, Q; cbn [c_mpi legacy_consts]; lra).
  assert (Pa : 0 < c_alpha C) by (unfold C; cbn [c_alpha legacy_consts]; lra).
  assert (PQ : 0 < Q) by (unfold Q; lra).
  assert (L1 : soft_limit (fun e => fsr_l_srf C e m Q) (soft_factor (c_alpha C) (pair_velocity m Q) / 2)).
  { pose proof (soft_half (fun e => 2 * fsr_l_srf C e m Q) (soft_factor (c_alpha C) (pair_velocity m Q))) as H.
    cbv beta in H. intros eps He. destruct (H) with (eps := eps) as (d & Pd & D).
    - apply (soft_sf C Q m Pm Tm). intros e Hee. rewrite (fsr_l_srf_form C e Q m); try lra. apply below_max; lra.
    - exact He.
    - exists d. split; [exact Pd|]. intros e Hee. specialize (D e Hee).
      replace (2 * fsr_l_srf C e m Q / 2) with (fsr_l_srf C e m Q) in D by field. exact D. }
  assert (L2 : soft_limit (fun e => fsr_cp_srf C e Q) (soft_factor (c_alpha C) (pair_velocity (c_mpi C) Q) / 2)).
  { pose proof (soft_half (fun e => 2 * fsr_cp_srf C e Q) (soft_factor (c_alpha C) (pair_velocity (c_mpi C) Q))) as H.
    cbv beta in H. intros eps He. destruct (H) with (eps := eps) as (d & Pd & D).
    - apply (soft_sp C Q (c_mpi C) Pp Tp). intros e Hee.
      rewrite (fsr_cp_srf_form C e Q (c_mpi C)); try lra; try reflexivity. apply below_max; lra.
    - exact He.
    - exists d. split; [exact Pd|]. intros e Hee. specialize (D e Hee).
      replace (2 * fsr_cp_srf C e Q / 2) with (fsr_cp_srf C e Q) in D by field. exact D. }
  exists C, Q, m. do 5 (split; [assumption|]). split; [exact L1|].
  destruct (mu_facts Q m Pm Tm) as (_ & _ & _ & B & _). destruct (mu_facts Q (c_mpi C) Pp Tp) as (_ & _ & _ & B' & _).
  pose proof (soft_factor_pos _ _ Pa B). pose proof (soft_factor_pos _ _ Pa B').
  split; intro N.
  - pose proof (soft_unique _ _ _ L1 N). lra.
  - pose proof (soft_unique _ _ _ L2 N). lra.
Qed.
Print Assumptions scalar_decay_soft_refuted.

Example ex_soft : 0 <= c_alpha py_consts /\ 0 < c_mpi py_consts /\ 2 * c_mpi py_consts < 1000
  /\ 0 < c_mmu py_consts /\ 2 * c_mmu py_consts < 1000 /\ 2 * 200 < 1000
  /\ 0 < soft_factor (c_alpha py_consts) (pair_velocity (c_mmu py_consts) 1000).
Proof.
  assert (A : 0 < c_mmu py_consts) by (cbn [c_mmu py_consts]; lra).
  assert (B : 2 * c_mmu py_consts < 1000) by (cbn [c_mmu py_consts]; lra).
  repeat split; try (cbn [c_alpha c_mpi c_mmu py_consts]; lra).
  apply soft_factor_pos; [cbn [c_alpha py_consts]; lra|].
  now destruct (mu_facts 1000 _ A B) as (_ & _ & _ & V & _).
Qed.
