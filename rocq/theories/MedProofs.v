(** Vocabulary and lemmas for the mediator theorems (MedProps.v). *)
From Coq Require Import String Reals ZArith Lra Lia Psatz Bool List.
From Verif Require Import PyBase MedModel.
Import ListNotations.
Local Open Scope R_scope.

(** * Specification *)

(** The Breit-Wigner formula for two spin-1/2 particles of mass [m] annihilating through a resonance of
    spin [j] and mass [M]: statistical factor times 4 pi over the momentum squared times the widths. *)
Definition breit_wigner (j : nat) (e m M w gin gout : R) : R :=
  let ksq := (e ^ 2 - (2 * m) ^ 2) / 4 in
  (2 * INR j + 1) / (2 * 2) * (4 * PI / ksq) * (e ^ 2 * gin * gout)
  / ((e ^ 2 - M ^ 2) ^ 2 + (M * w) ^ 2).

(** The same scalar model with a mediator of another mass *)
Definition s_with_mass (P : sparams) (m : R) : sparams :=
  MkS (s_mx P) m (s_gsxx P) (s_gsff P) (s_gsGG P) (s_gsFF P) (s_lam P) (s_vs P).
Definition v_with_mass (P : vparams) (m : R) : vparams :=
  MkV (v_mx P) m (v_gvxx P) (v_gvuu P) (v_gvdd P) (v_gvss P) (v_gvee P) (v_gvmumu P).

(** Changing the unit of mass by a factor [l] *)
Definition c_units (l : R) (C : consts) : consts :=
  MkConsts (l * c_vh C) (c_alpha C) (l * c_me C) (l * c_mmu C) (l * c_mpi0 C) (l * c_mpi C)
    (l * c_b0 C) (l * c_muq C) (l * c_mdq C) (l * c_fpi C).
Definition s_units (l : R) (P : sparams) : sparams :=
  MkS (l * s_mx P) (l * s_ms P) (s_gsxx P) (s_gsff P) (s_gsGG P) (s_gsFF P) (l * s_lam P) (l * s_vs P).
Definition v_units (l : R) (P : vparams) : vparams :=
  MkV (l * v_mx P) (l * v_mv P) (v_gvxx P) (v_gvuu P) (v_gvdd P) (v_gvss P) (v_gvee P) (v_gvmumu P).
Definition res_map {A B : Type} (f : A -> B) (r : res A) : res B :=
  match r with Ret a => Ret (f a) | Raise x => Raise x end.

(** * Powers and logarithms *)
Lemma pow15_val : forall t, 0 <= t -> pow15 t = t * sqrt t.
Proof.
  intros t Ht. unfold pow15. destruct (Rle_dec t 0) as [H|H].
  - replace t with 0 by lra. lra.
  - assert (Hp : 0 < t) by lra.
    replace (3 / 2 * ln t) with (ln t + ln (sqrt t)).
    + rewrite exp_plus, !exp_ln; auto using sqrt_lt_R0.
    + assert (E : ln t = ln (sqrt t) + ln (sqrt t)).
      { rewrite <- ln_mult by auto using sqrt_lt_R0. now rewrite sqrt_sqrt by lra. }
      lra.
Qed.
Lemma pow15_nonneg : forall t, 0 <= pow15 t.
Proof. intro t. unfold pow15. destruct (Rle_dec t 0); [lra|]. left. apply exp_pos. Qed.
Lemma pow15_pos : forall t, 0 < t -> 0 < pow15 t.
Proof. intros t H. unfold pow15. destruct (Rle_dec t 0); [lra|]. apply exp_pos. Qed.

Lemma ln_quot : forall a b, 0 < a -> 0 < b -> ln (a / b) = ln a - ln b.
Proof.
  intros a b Ha Hb. unfold Rdiv.
  rewrite ln_mult by auto using Rinv_0_lt_compat. rewrite ln_Rinv by exact Hb. reflexivity.
Qed.

(** the Pade bound of the inverse hyperbolic tangent *)
Lemma log_ratio_ge : forall u, 0 <= u < 1 -> 6 * u / (3 - u ^ 2) <= ln ((1 + u) / (1 - u)).
Proof.
  intros u [H0 H1]. rewrite ln_quot by lra.
  destruct (Req_dec u 0) as [->|Hne].
  { rewrite Rplus_0_r, Rminus_0_r, ln_1. lra. }
  set (f := fun x => ln (1 + x) - ln (1 - x) - 6 * x / (3 - x ^ 2)).
  set (f' := fun x => / (1 + x) + / (1 - x) - (18 + 6 * x ^ 2) / (3 - x ^ 2) ^ 2).
  destruct (MVT_cor2 f f' 0 u) as [c [Hc [Hc0 Hc1]]]; [lra| |].
  - intros c [Hc0 Hc1].
    assert (N : 3 - c ^ 2 <> 0) by nra.
    assert (D1 : derivable_pt_lim (fun x => ln (1 + x)) c (/ (1 + c))).
    { replace (/ (1 + c)) with (/ (1 + c) * 1) by ring.
      apply (derivable_pt_lim_comp (fun x => 1 + x) ln).
      - assert (E : derivable_pt_lim (fct_cte 1 + id)%F c (0 + 1))
          by (apply derivable_pt_lim_plus; [apply derivable_pt_lim_const|apply derivable_pt_lim_id]).
        rewrite Rplus_0_l in E. exact E.
      - apply derivable_pt_lim_ln. lra. }
    assert (D2 : derivable_pt_lim (fun x => ln (1 - x)) c (- / (1 - c))).
    { replace (- / (1 - c)) with (/ (1 - c) * - 1) by ring.
      apply (derivable_pt_lim_comp (fun x => 1 - x) ln).
      - assert (E : derivable_pt_lim (fct_cte 1 - id)%F c (0 - 1))
          by (apply derivable_pt_lim_minus; [apply derivable_pt_lim_const|apply derivable_pt_lim_id]).
        rewrite Rminus_0_l in E. exact E.
      - apply derivable_pt_lim_ln. lra. }
    assert (D3 : derivable_pt_lim (fun x => 6 * x / (3 - x ^ 2)) c ((18 + 6 * c ^ 2) / (3 - c ^ 2) ^ 2)).
    { assert (E1 : derivable_pt_lim (fun x => 6 * x) c 6).
      { assert (E : derivable_pt_lim (mult_real_fct 6 id) c (6 * 1))
          by (apply derivable_pt_lim_scal; apply derivable_pt_lim_id).
        rewrite Rmult_1_r in E. exact E. }
      assert (E2 : derivable_pt_lim (fun x => 3 - x ^ 2) c (- (2 * c))).
      { replace (- (2 * c)) with (0 - 2 * c) by ring.
        apply (derivable_pt_lim_minus (fct_cte 3) (fun x => x ^ 2)); [apply derivable_pt_lim_const|].
        replace (2 * c) with (INR 2 * c ^ Init.Nat.pred 2) by (cbn; ring). apply derivable_pt_lim_pow. }
      pose proof (derivable_pt_lim_div _ _ _ _ _ E1 E2 N) as E.
      replace ((18 + 6 * c ^ 2) / (3 - c ^ 2) ^ 2)
        with ((6 * (3 - c ^ 2) - - (2 * c) * (6 * c)) / Rsqr (3 - c ^ 2)); [exact E|].
      unfold Rsqr. field. exact N. }
    unfold f, f'.
    replace (/ (1 + c) + / (1 - c)) with (/ (1 + c) - - / (1 - c)) by ring.
    apply (derivable_pt_lim_minus (fun x => ln (1 + x) - ln (1 - x))); [|exact D3].
    apply (derivable_pt_lim_minus (fun x => ln (1 + x))); assumption.
  - assert (Hp : 0 <= f' c).
    { unfold f'.
      replace (/ (1 + c) + / (1 - c) - (18 + 6 * c ^ 2) / (3 - c ^ 2) ^ 2)
        with (8 * c ^ 4 / ((1 + c) * (1 - c) * (3 - c ^ 2) ^ 2)) by (field; repeat split; nra).
      apply Rmult_le_pos.
      - assert (0 <= c ^ 4) by (apply pow_le; lra). lra.
      - left. apply Rinv_0_lt_compat. apply Rmult_lt_0_compat; [nra|]. apply pow_lt. nra. }
    unfold f in Hc. rewrite Rplus_0_r, Rminus_0_r, ln_1 in Hc.
    assert (0 <= f' c * (u - 0)) by (apply Rmult_le_pos; lra).
    lra.
Qed.

(** The combination that both pair-production cross sections take: with T^2 = A + 4 D it is
    non-negative as soon as a polynomial inequality holds. *)
Lemma log_channel_nonneg : forall A T D M N,
  0 <= A -> 0 < T -> 0 < D -> T ^ 2 = A + 4 * D -> 0 <= M -> N * (T ^ 2 + 2 * D) <= 3 * M * D ->
  sqrt A * N / D <= M * ln ((T + sqrt A) / (T - sqrt A)) / T.
Proof.
  intros A T D M N HA HT HD HE HM HI.
  set (r := sqrt A). assert (Hr : 0 <= r) by apply sqrt_pos.
  assert (Hrr : r ^ 2 = A) by (unfold r; rewrite <- Rsqr_pow2; apply Rsqr_sqrt; exact HA).
  clearbody r.
  assert (HrT : r < T) by nra.
  assert (Hu : 0 <= r / T < 1).
  { split; [apply Rmult_le_pos; [lra|left; apply Rinv_0_lt_compat; lra]|].
    apply (Rmult_lt_reg_r T); [lra|]. unfold Rdiv. rewrite Rmult_assoc, Rinv_l by lra. lra. }
  pose proof (log_ratio_ge _ Hu) as HL.
  replace ((1 + r / T) / (1 - r / T)) with ((T + r) / (T - r)) in HL by (field; lra).
  assert (Hden : 0 < 3 * T ^ 2 - r ^ 2) by nra.
  replace (6 * (r / T) / (3 - (r / T) ^ 2)) with (6 * r * T / (3 * T ^ 2 - r ^ 2)) in HL
    by (field; split; [lra|]; nra).
  set (L := ln ((T + r) / (T - r))) in *. clearbody L.
  apply Rle_trans with (M * (6 * r * T / (3 * T ^ 2 - r ^ 2)) / T).
  - replace (M * (6 * r * T / (3 * T ^ 2 - r ^ 2)) / T) with (r * (6 * M / (3 * T ^ 2 - r ^ 2)))
      by (field; lra).
    replace (r * N / D) with (r * (N / D)) by (field; lra).
    apply Rmult_le_compat_l; [exact Hr|].
    apply (Rmult_le_reg_r (D * (3 * T ^ 2 - r ^ 2))); [apply Rmult_lt_0_compat; lra|].
    replace (N / D * (D * (3 * T ^ 2 - r ^ 2))) with (N * (3 * T ^ 2 - r ^ 2)) by (field; lra).
    replace (6 * M / (3 * T ^ 2 - r ^ 2) * (D * (3 * T ^ 2 - r ^ 2))) with (6 * M * D) by (field; lra).
    rewrite Hrr. replace (3 * T ^ 2 - A) with (2 * (T ^ 2 + 2 * D)) by lra. lra.
  - apply Rmult_le_compat_r; [left; apply Rinv_0_lt_compat; lra|].
    apply Rmult_le_compat_l; assumption.
Qed.

(** non-zero products *)
Ltac nz :=
  repeat lazymatch goal with
  | |- _ /\ _ => split
  | |- _ * _ <> 0 => apply Rmult_integral_contrapositive_currified
  | |- _ ^ _ <> 0 => apply pow_nonzero
  end; first [assumption | lra].

(** non-negative and positive products *)
Ltac pos0 :=
  repeat lazymatch goal with |- 0 <= _ * _ => apply Rmult_le_pos end;
  first [apply sqrt_pos | apply pow15_nonneg | apply pow2_ge_0 | assumption | lra | idtac].
Ltac pos1 :=
  repeat lazymatch goal with |- 0 < _ * _ => apply Rmult_lt_0_compat end;
  first [assumption | lra | apply pow_lt; lra | apply sqrt_lt_R0; lra
        | rewrite <- Rsqr_pow2; apply Rsqr_pos_lt; assumption | idtac].

(** * Homogeneity: [hom l n a' a] says that [a'] is [a] in a unit smaller by [l], for a quantity of mass
    dimension [n]. *)
Definition hom (l : R) (n : Z) (a' a : R) : Prop := a' = powerRZ l n * a.

Section Hom.
Variable l : R.
Hypothesis Hl : 0 < l.
Lemma hom_deg : forall n m a' a, hom l m a' a -> m = n -> hom l n a' a.
Proof. intros n m a' a H <-. exact H. Qed.
Lemma hom_const : forall a, hom l 0 a a.
Proof. intro a. unfold hom. cbn. ring. Qed.
Lemma hom_unit : forall a, hom l 1 (l * a) a.
Proof. intro a. unfold hom. now rewrite powerRZ_1. Qed.
Lemma hom_plus : forall n m a' a b' b, hom l n a' a -> hom l m b' b -> m = n -> hom l n (a' + b') (a + b).
Proof. unfold hom. intros n m a' a b' b -> -> ->. ring. Qed.
Lemma hom_minus : forall n m a' a b' b, hom l n a' a -> hom l m b' b -> m = n -> hom l n (a' - b') (a - b).
Proof. unfold hom. intros n m a' a b' b -> -> ->. ring. Qed.
Lemma hom_opp : forall n a' a, hom l n a' a -> hom l n (- a') (- a).
Proof. unfold hom. intros n a' a ->. ring. Qed.
Lemma hom_mult : forall n m a' a b' b, hom l n a' a -> hom l m b' b -> hom l (n + m) (a' * b') (a * b).
Proof. unfold hom. intros n m a' a b' b -> ->. rewrite powerRZ_add by lra. ring. Qed.
Lemma hom_inv : forall n a' a, hom l n a' a -> hom l (- n) (/ a') (/ a).
Proof.
  unfold hom. intros n a' a ->. rewrite Rinv_mult. f_equal.
  destruct n; cbn; [apply Rinv_1|reflexivity|apply Rinv_inv].
Qed.
Lemma hom_div : forall n m a' a b' b, hom l n a' a -> hom l m b' b -> hom l (n + - m) (a' / b') (a / b).
Proof. intros. apply hom_mult; [assumption|apply hom_inv; assumption]. Qed.
Lemma hom_pow : forall k n a' a, hom l n a' a -> hom l (Z.of_nat k * n) (a' ^ k) (a ^ k).
Proof.
  intros k n a' a H. induction k as [|k IH].
  - unfold hom. cbn. ring.
  - replace (Z.of_nat (S k) * n)%Z with (n + Z.of_nat k * n)%Z by lia.
    cbn [pow]. now apply hom_mult.
Qed.
Lemma powerRZ_twice : forall k, powerRZ l (2 * k) = powerRZ l k * powerRZ l k.
Proof. intro k. rewrite <- powerRZ_add by lra. f_equal. lia. Qed.
Lemma hom_sqrt : forall n k a' a, hom l n a' a -> n = (2 * k)%Z -> hom l k (sqrt a') (sqrt a).
Proof.
  unfold hom. intros n k a' a -> ->.
  assert (Hp : 0 <= powerRZ l k) by (apply powerRZ_le; lra).
  rewrite powerRZ_twice, sqrt_mult_alt by (apply Rmult_le_pos; exact Hp).
  now rewrite sqrt_square.
Qed.
Lemma hom_pow15 : forall n k a' a, hom l n a' a -> n = (2 * k)%Z -> hom l (3 * k) (pow15 a') (pow15 a).
Proof.
  unfold hom. intros n k a' a -> ->.
  assert (Hp : 0 < powerRZ l k) by (apply powerRZ_lt; lra).
  assert (H3 : powerRZ l (3 * k) = powerRZ l k * powerRZ l k * powerRZ l k)
    by (rewrite <- !powerRZ_add by lra; f_equal; lia).
  rewrite powerRZ_twice, H3. set (p := powerRZ l k) in *. clearbody p. clear H3.
  destruct (Rle_dec a 0) as [H|H].
  - unfold pow15. destruct (Rle_dec a 0); [|lra].
    destruct (Rle_dec (p * p * a) 0); [ring|].
    exfalso. assert (0 < p * p) by (apply Rmult_lt_0_compat; lra). nra.
  - assert (0 < p * p) by (apply Rmult_lt_0_compat; lra).
    rewrite !pow15_val by (try apply Rmult_le_pos; lra).
    rewrite sqrt_mult_alt by lra. rewrite sqrt_square by lra. ring.
Qed.
Lemma hom_same : forall a' a, hom l 0 a' a -> a' = a.
Proof. unfold hom. intros a' a ->. cbn. ring. Qed.
Lemma hom_atan : forall n a' a, hom l n a' a -> n = 0%Z -> hom l 0 (atan a') (atan a).
Proof. intros n a' a H ->. apply hom_same in H. subst. apply hom_const. Qed.
Lemma hom_ln : forall n a' a, hom l n a' a -> n = 0%Z -> hom l 0 (ln a') (ln a).
Proof. intros n a' a H ->. apply hom_same in H. subst. apply hom_const. Qed.
Lemma hom_abs : forall n a' a, hom l n a' a -> hom l n (Rabs a') (Rabs a).
Proof.
  unfold hom. intros n a' a ->. rewrite Rabs_mult. f_equal.
  apply Rabs_pos_eq. apply powerRZ_le. lra.
Qed.
Lemma hom_lndiff : forall n m a' a b' b, hom l n a' a -> hom l m b' b -> m = n -> 0 < a -> 0 < b ->
  hom l 0 (ln a' - ln b') (ln a - ln b).
Proof.
  unfold hom. intros n m a' a b' b -> -> -> Ha Hb.
  assert (Hp : 0 < powerRZ l n) by (apply powerRZ_lt; lra).
  rewrite !ln_mult by assumption. cbn. ring.
Qed.
Lemma hom_area : forall a' a, hom l (- 2) a' a -> a' = a / l ^ 2.
Proof. unfold hom. intros a' a ->. change (powerRZ l (-2)) with (/ l ^ 2). unfold Rdiv. ring. Qed.
Lemma hom_quotient : forall n m a' a c' c, hom l n a' a -> hom l m c' c -> (n + - m = - 2)%Z ->
  complex_quotient a' c' = res_map (fun x => x / l ^ 2) (complex_quotient a c).
Proof.
  intros n m a' a c' c Ha Hc Hd.
  unfold complex_quotient.
  assert (Hp : 0 < powerRZ l m) by (apply powerRZ_lt; lra).
  destruct (Req_EM_T c 0) as [->|Hn].
  - destruct (Req_EM_T c' 0) as [_|H]; [reflexivity|].
    exfalso. apply H. unfold hom in Hc. rewrite Hc. ring.
  - destruct (Req_EM_T c' 0) as [H|_].
    + exfalso. unfold hom in Hc. subst c'. apply Rmult_integral in H. destruct H; lra.
    + cbn [res_map]. f_equal. apply hom_area.
      eapply hom_deg; [apply hom_div; eassumption|exact Hd].
Qed.
End Hom.

Ltac half_degree :=
  match goal with
  | |- ?n = (2 * ?k)%Z => let v := eval vm_compute in (Z.div n 2) in unify k v; reflexivity
  end.
Ltac homt :=
  lazymatch goal with
  | H : hom ?l _ ?a' ?a |- hom ?l _ ?a' ?a => exact H
  | |- hom _ _ ?a ?a => apply hom_const
  | |- hom ?l _ (?l * ?a) ?a => apply hom_unit
  | |- hom _ _ (_ + _) (_ + _) => eapply hom_plus; [homt | homt | reflexivity]
  | |- hom _ _ (ln _ - ln _) (ln _ - ln _) =>
      eapply hom_lndiff; [assumption | homt | homt | reflexivity | | ]
  | |- hom _ _ (_ - _) (_ - _) => eapply hom_minus; [homt | homt | reflexivity]
  | |- hom _ _ (- _) (- _) => eapply hom_opp; homt
  | |- hom _ _ (_ * _) (_ * _) => eapply hom_mult; [assumption | homt | homt]
  | |- hom _ _ (_ / _) (_ / _) => eapply hom_div; [assumption | homt | homt]
  | |- hom _ _ (_ ^ _) (_ ^ _) => eapply hom_pow; [assumption | homt]
  | |- hom ?l _ (sqrt _) (sqrt _) =>
      eapply (hom_sqrt l); [assumption | homt | half_degree]
  | |- hom _ _ (pow15 _) (pow15 _) => eapply hom_pow15; [assumption | homt | half_degree]
  | |- hom _ _ (atan _) (atan _) => eapply hom_atan; [homt | reflexivity]
  | |- hom _ _ (ln _) (ln _) => eapply hom_ln; [homt | reflexivity]
  | |- hom _ _ (Rabs _) (Rabs _) => eapply hom_abs; [assumption | homt]
  end.
