(** Property theorems for the spectra of boosted mediators (C33, C34, C35, C74). *)
From Coq Require Import String Reals NArith Bool Lra Lia Qreals QArith List.
From Verif Require Import PyBase RustBase RustBaseFacts RustMath Area BoostModel BoostProofs MedModel FsrModel SpecModel SpecProofs SpecProps
  PionModel MedSpecModel MedSpecProofs.
Import ListNotations.
Local Open Scope nat_scope.
Local Open Scope R_scope.

Definition sum_over (l : list string) (f : string -> R) : R := fold_right (fun m s => f m + s) 0 l.

(** ** C34: modes partition the spectrum *)

Section Partition.
Variable quad : (R -> R) -> R -> R -> R.
Hypothesis QL : linear_rule quad.

Lemma quad_sum7 f1 f2 f3 f4 f5 f6 f a b : (forall x, f x = f1 x + f2 x + f3 x + f4 x + f5 x + f6 x) ->
  quad f a b = quad f1 a b + quad f2 a b + quad f3 a b + quad f4 a b + quad f5 a b + quad f6 a b.
Proof.
  destruct QL as (E & A & _). intro H.
  rewrite (E f (fun x => (fun x => (fun x => (fun x => (fun x => f1 x + f2 x) x + f3 x) x + f4 x) x + f5 x) x + f6 x) a b)
    by (intro; rewrite H; reflexivity).
  now rewrite !A.
Qed.

Lemma quad_gated (b : bool) f g x y : (forall c, f c = if b then g c else 0) -> quad f x y = if b then quad g x y else 0.
Proof.
  intro H. destruct b; [now apply QL|]. now apply (quad_zero quad QL).
Qed.

(** The six continuous contributions, each on its own *)
Definition s_part C cp pm p0 (e E ms : R) (pws : list R) (m : string) : R -> R :=
  s_integrand C cp pm p0 e E ms pws (s_bitflag [m]).

Lemma s_integrand_gated C cp pm p0 e E ms pws modes cl :
  let G m := if in_modes m modes then s_part C cp pm p0 e E ms pws m cl else 0 in
  s_integrand C cp pm p0 e E ms pws (s_bitflag modes) cl
  = G "pi pi"%string + G "mu mu"%string + G "pi0 pi0"%string + G "e e g"%string + G "pi pi g"%string + G "mu mu g"%string.
Proof.
  destruct (flags modes) as (F1 & F2 & F3 & F4 & F5 & F6 & F7). unfold s_part.
  unfold s_integrand. rewrite F1, F2, F3, F5, F6, F7. clear.
  set (jac := 1 / _). clearbody jac.
  set (fe := fsr_l_srf C _ (c_me C) ms). set (fm := fsr_l_srf C _ (c_mmu C) ms). set (fp := fsr_cp_srf C _ ms).
  set (dc := cp ms _). set (dm := pm _ _). set (dp := p0 _ _). clearbody fe fm fp dc dm dp.
  cbn [s_bitflag in_modes existsb String.eqb Ascii.eqb Bool.eqb orb].
  destruct (in_modes "pi pi" modes), (in_modes "mu mu" modes), (in_modes "pi0 pi0" modes),
    (in_modes "e e g" modes), (in_modes "pi pi g" modes), (in_modes "mu mu g" modes); cbn; ring.
Qed.
End Partition.

(** C34, scalar photons.  Whatever list of modes is asked for (in any order, with repetitions or unknown
    names), the result is the sum of the results for the known modes in it, asked for one at a time. *)
Theorem scalar_modes_partition : forall quad C cp pm p0 (e E ms : R) (pws : list R) (modes : list string),
  linear_rule quad ->
  let spec l := scalar_mediator_decay_spectrum quad C cp pm p0 e E ms pws l in
  spec modes = sum_over ["pi pi"; "mu mu"; "pi0 pi0"; "g g"; "e e g"; "pi pi g"; "mu mu g"]%string
                 (fun m => if existsb (String.eqb m) modes then spec [m] else 0).
Proof.
  intros quad C cp pm p0 e E ms pws modes QL spec. unfold sum_over. cbn [fold_right].
  repeat match goal with |- context [existsb (String.eqb ?m) modes] => change (existsb (String.eqb m) modes) with (in_modes m modes) end.
  unfold spec, scalar_mediator_decay_spectrum, s_decay_point.
  destruct (Rlt_dec E ms); [repeat (destruct (in_modes _ modes)); ring|].
  rewrite (quad_sum7 quad QL _ _ _ _ _ _ _ _ _ (s_integrand_gated C cp pm p0 e E ms pws modes)). cbv beta.
  assert (QG : forall m, quad (fun cl => if in_modes m modes then s_part C cp pm p0 e E ms pws m cl else 0) (- 1) 1
                         = if in_modes m modes then quad (s_part C cp pm p0 e E ms pws m) (- 1) 1 else 0)
    by (intro m; now apply (quad_gated quad QL)).
  rewrite !QG. clear QG.
  destruct (flags modes) as (_ & _ & _ & F4 & _). rewrite F4. unfold s_part.
  set (lo := E * (1 - _) / 2). set (hi := E * (1 + _) / 2). set (h := pw pws 4 * 1 / _). clearbody lo hi h.
  assert (G0 : quad (s_integrand C cp pm p0 e E ms pws (s_bitflag ["g g"%string])) (- 1) 1 = 0).
  { apply (quad_zero quad QL). intro x. unfold s_integrand. cbn. ring. }
  assert (GG : forall m, flag_set (s_bitflag [m]) BITFLAG_GG = String.eqb "g g" m || false)
    by (intro m; apply (flags [m])).
  rewrite G0, !GG. cbn [String.eqb Ascii.eqb Bool.eqb orb andb].
  destruct (in_modes "pi pi" modes), (in_modes "mu mu" modes), (in_modes "pi0 pi0" modes),
    (in_modes "e e g" modes), (in_modes "pi pi g" modes), (in_modes "mu mu g" modes), (in_modes "g g" modes);
    cbn [andb]; destruct (between lo e hi); ring.
Qed.
Print Assumptions scalar_modes_partition.

(** C34, vector photons.  The spectrum of all modes together is the sum over the six modes; any other name
    gives zero. *)
Theorem vector_modes_partition : forall quad C cp mu p0 (e E mv : R) (pws : list R),
  linear_rule quad ->
  let spec m := v_decay_photon quad C cp mu p0 e E mv pws m in
  spec "total"%string = sum_over ["e e g"; "mu mu g"; "pi pi g"; "pi pi"; "pi0 g"; "mu mu"]%string spec
  /\ (forall m, ~ In m ["total"; "e e g"; "mu mu g"; "pi pi g"; "pi pi"; "pi0 g"; "mu mu"]%string -> spec m = 0).
Proof.
  intros quad C cp mu p0 e E mv pws QL spec. split.
  - unfold sum_over. cbn [fold_right]. unfold spec, v_decay_photon. destruct (Rlt_dec E mv); [ring|].
    rewrite (quad_sum7 quad QL (v_integrand C cp mu p0 e E mv pws "e e g") (v_integrand C cp mu p0 e E mv pws "mu mu g")
      (v_integrand C cp mu p0 e E mv pws "pi pi g") (v_integrand C cp mu p0 e E mv pws "pi pi")
      (v_integrand C cp mu p0 e E mv pws "pi0 g") (v_integrand C cp mu p0 e E mv pws "mu mu")
      (v_integrand C cp mu p0 e E mv pws "total")).
    + cbn [String.eqb Ascii.eqb Bool.eqb orb]. ring.
    + intro x. unfold v_integrand. cbn [String.eqb Ascii.eqb Bool.eqb]. ring.
  - intros m Hm. assert (N : forall k, In k ["total"; "e e g"; "mu mu g"; "pi pi g"; "pi pi"; "pi0 g"; "mu mu"]%string -> String.eqb m k = false).
    { intros k Hk. apply String.eqb_neq. intros ->. now apply Hm. }
    unfold spec, v_decay_photon. destruct (Rlt_dec E mv); [reflexivity|].
    rewrite !N by (cbn [In]; tauto). cbn [orb]. apply (quad_zero quad QL). intro x. unfold v_integrand.
    rewrite !N by (cbn [In]; tauto). reflexivity.
Qed.
Print Assumptions vector_modes_partition.

(** C34, positrons of both mediators.  The three modes taken one at a time overshoot the total by twice the
    electron line: asking for pions or for muons also returns the line. *)
Theorem positron_modes_overshoot : forall quad C cp mu (e E ms : R) (pws : list R),
  linear_rule quad ->
  let spec m := decay_positron quad C cp mu e E ms pws m in
  sum_over ["e e"; "mu mu"; "pi pi"]%string spec = spec "total"%string + 2 * spec "e e"%string.
Proof.
  intros quad C cp mu e E ms pws QL spec. unfold sum_over. cbn [fold_right]. unfold spec, decay_positron.
  destruct (Rlt_dec E ms); [ring|]. cbn [String.eqb Ascii.eqb Bool.eqb orb].
  rewrite (quad_sum7 quad QL (p_integrand C cp mu e E ms pws "pi pi") (p_integrand C cp mu e E ms pws "mu mu")
    (fun _ => 0) (fun _ => 0) (fun _ => 0) (fun _ => 0) (p_integrand C cp mu e E ms pws "total")).
  - rewrite !(quad_zero quad QL (fun _ => 0)) by reflexivity. ring.
  - intro x. unfold p_integrand. destruct (Rlt_dec e (c_me C)); [ring|]. cbn [String.eqb Ascii.eqb Bool.eqb]. ring.
Qed.
Print Assumptions positron_modes_overshoot.

Lemma velo_35 : sqrt (1 - (3 / 5) ^ 2) = 4 / 5.
Proof. replace (1 - (3 / 5) ^ 2) with ((4 / 5) ^ 2) by field. apply sqrt_pow2. lra. Qed.

(** A mediator of mass 3 and energy 5 that decays only to electrons, at half its energy: a linear rule sees
    nothing but the line, and the sum over modes is three times the total. *)
Theorem positron_modes_partition_refuted : forall quad cp mu, linear_rule quad ->
  exists (e E ms : R) (pws : list R),
  let spec m := decay_positron quad legacy_consts cp mu e E ms pws m in
  0 < ms < E /\ legacy_consts.(c_me) < e
  /\ sum_over ["e e"; "mu mu"; "pi pi"]%string spec <> spec "total"%string.
Proof.
  intros quad cp mu QL. exists (5 / 2), 5, 3, [1; 0; 0]. intro spec. split; [lra|]. split; [cbn; lra|].
  unfold spec. rewrite (positron_modes_overshoot quad legacy_consts cp mu _ _ _ _ QL).
  unfold decay_positron at 2. cbn [String.eqb Ascii.eqb Bool.eqb]. destruct (Rlt_dec 5 3); [lra|]. rewrite velo_35.
  set (r := sqrt _). assert (0 <= r) by apply sqrt_pos. rewrite between_true by nra. cbn [pw nth]. lra.
Qed.
Print Assumptions positron_modes_partition_refuted.

(** Linear rules exist, and one of them gives a non-zero muon contribution. *)
Example ex_modes : linear_rule simpson
  /\ decay_positron simpson legacy_consts (fun _ _ => 0) (fun _ _ => 1) 2 5 3 [0; 1; 0] "mu mu" <> 0.
Proof.
  split; [exact simpson_linear|]. unfold decay_positron. cbn [String.eqb Ascii.eqb Bool.eqb orb]. destruct (Rlt_dec 5 3); [lra|].
  replace (if between _ _ _ then pw [0; 1; 0] 0 * 1 / _ else 0) with 0 by (destruct (between _ _ _); cbn [pw nth]; [unfold Rdiv; ring|reflexivity]).
  rewrite Rplus_0_r. unfold simpson, p_integrand. destruct (Rlt_dec 2 (c_me legacy_consts)) as [K|_]; [cbn in K; lra|].
  cbn [String.eqb Ascii.eqb Bool.eqb pw nth].
  set (p := sqrt (2 * 2 - _)). assert (P : 0 < p) by (apply sqrt_lt_R0; cbn; lra).
  assert (J : forall x, 0 < x -> 0 < p / (2 * sqrt x * (5 / 3)) * (0 + 1 * 1)).
  { intros x Hx. pose proof (sqrt_lt_R0 x Hx). apply Rmult_lt_0_compat; [|lra]. apply Rdiv_lt_0_compat; lra. }
  rewrite velo_35.
  assert (P2 : p * p = 2 * 2 - c_me legacy_consts * c_me legacy_consts) by (unfold p; apply sqrt_def; cbn; lra).
  assert (PU : p < 2) by (cbn in P2; nra).
  match goal with |- ?a * (?f1 + 4 * ?f2 + ?f3) <> 0 =>
    assert (0 < f1); [apply J|assert (0 < f2); [apply J|assert (0 < f3); [apply J|lra]]] end; cbn [c_me legacy_consts] in *; nra.
Qed.

(** ** C33: lines *)

(** A rule that returns zero for the zero function sees only the line when the continuous part is absent. *)
Definition zero_rule (quad : (R -> R) -> R -> R -> R) : Prop := forall f a b, (forall x, f x = 0) -> quad f a b = 0.

(** Scalar to two photons: the photons fill the right window (each has energy ms/2 at rest), but the area
    is the branching fraction, one photon per decay instead of two. *)
Theorem scalar_gg_line : forall quad C cp pm p0 (E ms : R) (pws : list R) (a b : R),
  zero_rule quad -> 0 < ms < E ->
  let beta := sqrt (1 - (ms / E) ^ 2) in
  let lo := window_lo (ms / 2) 0 beta in let hi := window_hi (ms / 2) 0 beta in
  let f e := scalar_mediator_decay_spectrum quad C cp pm p0 e E ms pws ["g g"%string] in
  a <= lo -> hi <= b ->
  area f a b (pw pws 4) /\ (forall e, e < lo \/ hi < e -> f e = 0).
Proof.
  intros quad C cp pm p0 E ms pws a b QZ Hm beta lo hi f Ha Hb.
  destruct (velo_facts E ms Hm) as (B & B2 & L). change (velo E ms) with beta in B, B2, L.
  assert (LO : lo = E * (1 - beta) / 2).
  { unfold lo, window_lo. rewrite L, momentum_massless by lra. field. lra. }
  assert (HI : hi = E * (1 + beta) / 2).
  { unfold hi, window_hi. rewrite L, momentum_massless by lra. field. lra. }
  assert (F : forall e, f e = if between lo e hi then pw pws 4 * 1 / (E * beta) else 0).
  { intro e. unfold f, scalar_mediator_decay_spectrum, s_decay_point. destruct (Rlt_dec E ms); [lra|].
    fold beta. rewrite <- LO, <- HI. rewrite QZ.
    - change (flag_set (s_bitflag ["g g"%string]) BITFLAG_GG) with true. cbn [andb]. destruct (between lo e hi); ring.
    - intro x. unfold s_integrand. cbn. ring. }
  assert (EB : 0 < E * beta) by (apply Rmult_lt_0_compat; lra).
  split.
  - apply (area_val _ _ _ (pw pws 4 * 1 / (E * beta) * (hi - lo))); [rewrite HI, LO; field; lra|].
    refine (area_ext _ _ _ _ _ [] _ (area_between lo hi _ a b _ Hb)); [intros x _ _; symmetry; apply F|lra].
  - intros e He. rewrite F, between_false by lra. reflexivity.
Qed.
Print Assumptions scalar_gg_line.

(** Two photons per decay to photons is what the process has; the spectrum never holds them. *)
Theorem scalar_gg_two_photons_refuted : forall quad C cp pm p0 (E ms a b : R) (pws : list R),
  zero_rule quad -> 0 < ms < E -> a <= 0 -> E <= b -> 0 < pw pws 4 ->
  ~ area (fun e => scalar_mediator_decay_spectrum quad C cp pm p0 e E ms pws ["g g"%string]) a b (2 * pw pws 4).
Proof.
  intros quad C cp pm p0 E ms a b pws QZ Hm Ha Hb HP A.
  destruct (velo_facts E ms Hm) as (B & _ & L). unfold velo in *.
  destruct (scalar_gg_line quad C cp pm p0 E ms pws a b QZ Hm) as [A1 _].
  - unfold window_lo. rewrite L, momentum_massless by lra. replace (E / ms * (ms / 2 - _ * (ms / 2))) with (E * (1 - sqrt (1 - (ms / E) ^ 2)) / 2) by (field; lra). nra.
  - unfold window_hi. rewrite L, momentum_massless by lra. replace (E / ms * (ms / 2 + _ * (ms / 2))) with (E * (1 + sqrt (1 - (ms / E) ^ 2)) / 2) by (field; lra). nra.
  - pose proof (area_unique _ a b _ _ ltac:(lra) A A1). lra.
Qed.
Print Assumptions scalar_gg_two_photons_refuted.

(** Vector to a pion and a photon: one photon per decay, but spread over the window of a photon of energy
    mv/2, not of the true energy. *)
Theorem vector_pi0g_line : forall quad C cp mu (E mv : R) (pws : list R) (a b : R),
  zero_rule quad -> 0 < mv < E ->
  let beta := sqrt (1 - (mv / E) ^ 2) in
  let f e := v_decay_photon quad C cp mu (fun _ _ => 0) e E mv pws "pi0 g" in
  a <= window_lo (mv / 2) 0 beta -> window_hi (mv / 2) 0 beta <= b ->
  area f a b (pw pws 2) /\ (forall e, window_lo (mv / 2) 0 beta <= e <= window_hi (mv / 2) 0 beta -> f e = pw pws 2 / (E * beta)).
Proof.
  intros quad C cp mu E mv pws a b QZ Hm beta f Ha Hb.
  destruct (velo_facts E mv Hm) as (B & B2 & L). change (velo E mv) with beta in B, B2, L.
  set (lo := window_lo (mv / 2) 0 beta) in *. set (hi := window_hi (mv / 2) 0 beta) in *.
  assert (LO : lo = E * (1 - beta) / 2).
  { unfold lo, window_lo. rewrite L, momentum_massless by lra. field. lra. }
  assert (HI : hi = E * (1 + beta) / 2).
  { unfold hi, window_hi. rewrite L, momentum_massless by lra. field. lra. }
  assert (F : forall e, f e = if between lo e hi then pw pws 2 / (E * beta) else 0).
  { intro e. unfold f, v_decay_photon. destruct (Rlt_dec E mv); [lra|]. cbn [String.eqb Ascii.eqb Bool.eqb orb].
    fold beta. rewrite <- LO, <- HI. rewrite QZ; [ring|]. intro x. unfold v_integrand. cbn [String.eqb Ascii.eqb Bool.eqb]. ring. }
  assert (EB : 0 < E * beta) by (apply Rmult_lt_0_compat; lra).
  split.
  - apply (area_val _ _ _ (pw pws 2 / (E * beta) * (hi - lo))); [rewrite HI, LO; field; lra|].
    refine (area_ext _ _ _ _ _ [] _ (area_between lo hi _ a b _ Hb)); [intros x _ _; symmetry; apply F|lra].
  - intros e He. rewrite F, between_true by lra. reflexivity.
Qed.
Print Assumptions vector_pi0g_line.

(** Energies no decay V -> pi0 gamma can give to its photon (nor to the photons of the pion, which are
    below it) still get a positive spectrum. *)
Theorem vector_pi0g_window_refuted : forall quad C cp mu p0 (E mv : R) (pws : list R),
  (forall f a b, (forall x, 0 <= f x) -> 0 <= quad f a b) -> (forall e x, 0 <= p0 e x) ->
  0 < mv < E -> 0 < c_mpi0 C < mv -> 0 < pw pws 2 ->
  let beta := sqrt (1 - (mv / E) ^ 2) in
  let e0 := two_body_energy mv 0 (c_mpi0 C) in
  exists e, window_hi e0 0 beta < e /\ 0 < v_decay_photon quad C cp mu p0 e E mv pws "pi0 g".
Proof.
  intros quad C cp mu p0 E mv pws QP P0 Hm Hpi HP beta e0.
  destruct (velo_facts E mv Hm) as (B & B2 & L). change (velo E mv) with beta in B, B2, L.
  assert (E0 : 0 < e0 < mv / 2).
  { unfold e0, two_body_energy. replace (mv ^ 2 + 0 ^ 2 - c_mpi0 C ^ 2) with (mv ^ 2 - c_mpi0 C ^ 2) by ring. split.
    - apply Rdiv_lt_0_compat; nra.
    - apply (Rmult_lt_reg_r (2 * mv)); [lra|]. unfold Rdiv at 1. rewrite Rmult_assoc, Rinv_l by lra. nra. }
  assert (EB : 0 < E * beta) by (apply Rmult_lt_0_compat; lra).
  assert (EM : 0 < E / mv) by (apply Rdiv_lt_0_compat; lra).
  exists (E * (1 + beta) / 2). split.
  - unfold window_hi. rewrite L, momentum_massless by lra.
    replace (E * (1 + beta) / 2) with (E / mv * ((1 + beta) * (mv / 2))) by (field; lra).
    replace (e0 + beta * e0) with ((1 + beta) * e0) by ring. apply Rmult_lt_compat_l; nra.
  - unfold v_decay_photon. destruct (Rlt_dec E mv); [lra|]. cbn [String.eqb Ascii.eqb Bool.eqb orb]. fold beta.
    rewrite between_true by nra.
    assert (0 < pw pws 2 / (E * beta)) by (apply Rdiv_lt_0_compat; lra).
    assert (0 <= quad (v_integrand C cp mu p0 (E * (1 + beta) / 2) E mv pws "pi0 g") (- 1) 1); [|lra].
    apply QP. intro x. unfold v_integrand. cbn [String.eqb Ascii.eqb Bool.eqb].
    apply Rmult_le_pos; [|apply Rmult_le_pos; [lra|apply P0]].
    unfold Rdiv at 1. rewrite Rmult_1_l.
    assert (0 <= 2 * (E / mv) * Rabs (1 - sqrt (1 - (mv / E) ^ 2) * x)) by (apply Rmult_le_pos; [lra|apply Rabs_pos]).
    destruct H0 as [H0|H0]; [left; now apply Rinv_0_lt_compat|rewrite <- H0, Rinv_0; lra].
Qed.
Print Assumptions vector_pi0g_window_refuted.

(** To electrons: the window is the true one, but the area is the branching fraction times the velocity of
    the electrons at rest, not one positron per decay. *)
Theorem electron_line : forall quad C cp mu (E ms : R) (pws : list R) (a b : R),
  0 < ms < E -> 0 < c_me C -> 2 * c_me C < ms ->
  let beta := sqrt (1 - (ms / E) ^ 2) in
  let lo := window_lo (ms / 2) (c_me C) beta in let hi := window_hi (ms / 2) (c_me C) beta in
  let f e := decay_positron quad C cp mu e E ms pws "e e" in
  a <= lo -> hi <= b ->
  area f a b (pw pws 0 * sqrt (1 - (2 * c_me C / ms) ^ 2)) /\ (forall e, e < lo \/ hi < e -> f e = 0).
Proof.
  intros quad C cp mu E ms pws a b Hm He0 Hme beta lo hi f Ha Hb.
  destruct (velo_facts E ms Hm) as (B & B2 & L). change (velo E ms) with beta in B, B2, L.
  set (r := sqrt (1 - (2 * c_me C / ms) ^ 2)).
  assert (RR : r = sqrt (1 - 4 * c_me C * c_me C / (ms * ms))) by (unfold r; f_equal; field; lra).
  destruct (velo_facts ms (2 * c_me C) ltac:(lra)) as (R1 & R2 & _). change (velo ms (2 * c_me C)) with r in R1, R2.
  assert (MO : momentum (ms / 2) (c_me C) = ms / 2 * r).
  { unfold momentum. replace (ms / 2 * (ms / 2) - c_me C * c_me C) with ((ms / 2 * r) ^ 2).
    - apply sqrt_pow2. nra.
    - replace ((ms / 2 * r) ^ 2) with (ms / 2 * (ms / 2) * (r * r)) by ring. rewrite R2. field. lra. }
  assert (LO : lo = E * (1 - r * beta) / 2) by (unfold lo, window_lo; rewrite L, MO; field; lra).
  assert (HI : hi = E * (1 + r * beta) / 2) by (unfold hi, window_hi; rewrite L, MO; field; lra).
  assert (EB : 0 < E * beta) by (apply Rmult_lt_0_compat; lra).
  assert (F : forall e, f e = if between lo e hi then pw pws 0 * 1 / (E * beta) else 0).
  { intro e. unfold f, decay_positron. destruct (Rlt_dec E ms); [lra|]. cbn [String.eqb Ascii.eqb Bool.eqb].
    fold beta. now rewrite <- RR, <- LO, <- HI. }
  split.
  - apply (area_val _ _ _ (pw pws 0 * 1 / (E * beta) * (hi - lo))); [rewrite HI, LO; field; lra|].
    assert (lo <= hi) by (rewrite LO, HI; nra).
    refine (area_ext _ _ _ _ _ [] _ (area_between lo hi _ a b _ Hb)); [intros x _ _; symmetry; apply F|lra].
  - intros e He. rewrite F, between_false by lra. reflexivity.
Qed.
Print Assumptions electron_line.

Theorem electron_line_count_refuted : forall quad C cp mu (E ms : R) (pws : list R) (a b : R),
  0 < ms < E -> 0 < c_me C -> 2 * c_me C < ms -> 0 < pw pws 0 ->
  a <= window_lo (ms / 2) (c_me C) (sqrt (1 - (ms / E) ^ 2)) -> window_hi (ms / 2) (c_me C) (sqrt (1 - (ms / E) ^ 2)) <= b ->
  exists v, area (fun e => decay_positron quad C cp mu e E ms pws "e e") a b v /\ v < pw pws 0.
Proof.
  intros quad C cp mu E ms pws a b Hm He0 Hme HP Ha Hb.
  exists (pw pws 0 * sqrt (1 - (2 * c_me C / ms) ^ 2)). split; [now apply (electron_line quad C cp mu E ms pws a b Hm He0 Hme)|].
  destruct (velo_facts ms (2 * c_me C) ltac:(lra)) as (R1 & _ & _). unfold velo in R1. nra.
Qed.
Print Assumptions electron_line_count_refuted.

(** Mass 3, energy 5: the photon box is (1/2, 9/2), and legacy electrons are light enough. *)
Example ex_lines : zero_rule (fun _ _ _ => 0) /\ 0 < 3 < 5 /\ 0 < c_me legacy_consts /\ 2 * c_me legacy_consts < 3
  /\ window_lo (3 / 2) 0 (sqrt (1 - (3 / 5) ^ 2)) = 1 / 2 /\ window_hi (3 / 2) 0 (sqrt (1 - (3 / 5) ^ 2)) = 9 / 2
  /\ 0 < c_mpi0 legacy_consts < 500.
Proof.
  split; [intros f a b _; reflexivity|]. split; [lra|]. split; [cbn; lra|]. split; [cbn; lra|].
  rewrite velo_35. unfold window_lo, window_hi. rewrite momentum_massless by lra.
  assert (L : lorentz (4 / 5) = 5 / 3).
  { unfold lorentz. replace (1 - 4 / 5 * (4 / 5)) with ((3 / 5) ^ 2) by field. rewrite sqrt_pow2 by lra. field. }
  rewrite L. cbn. lra.
Qed.

(** ** C74: the integral over emission angles is the boost of the spectrum at rest *)

(** Photons per decay of a scalar at rest in the chosen modes: branching fraction times the radiation of the
    pair, or times the photons of its two members *)
Definition scalar_at_rest C cp pm p0 (ms : R) (pws : list R) (modes : list string) (e0 : R) : R :=
  sum_over modes (fun m =>
    if String.eqb m "e e g" then pw pws 0 * fsr_l_srf C e0 (c_me C) ms else
    if String.eqb m "mu mu g" then pw pws 1 * fsr_l_srf C e0 (c_mmu C) ms else
    if String.eqb m "pi pi g" then pw pws 3 * fsr_cp_srf C e0 ms else
    if String.eqb m "mu mu" then 2 * pw pws 1 * pm e0 (ms / 2) else
    if String.eqb m "pi0 pi0" then 2 * pw pws 2 * p0 e0 (ms / 2) else
    if String.eqb m "pi pi" then 2 * pw pws 3 * cp ms e0 else 0).

Theorem scalar_photon_boost : forall quad C cp pm p0 (e E ms : R) (pws : list R) (v : R),
  exact_rule quad -> 0 < ms < E -> 0 < e ->
  let gamma := E / ms in let beta := sqrt (1 - (ms / E) ^ 2) in
  let modes := ["pi pi"; "mu mu"; "pi0 pi0"; "e e g"; "pi pi g"; "mu mu g"]%string in
  area (fun e0 => scalar_at_rest C cp pm p0 ms pws modes e0 / (2 * gamma * beta * e0))
    (gamma * (1 - beta) * e) (gamma * (1 + beta) * e) v ->
  scalar_mediator_decay_spectrum quad C cp pm p0 e E ms pws modes = v.
Proof.
  intros quad C cp pm p0 e E ms pws v QE Hm He gamma beta modes A.
  destruct (velo_facts E ms Hm) as (B & _ & _). change (velo E ms) with beta in B.
  unfold scalar_mediator_decay_spectrum, s_decay_point. destruct (Rlt_dec E ms); [lra|].
  change (flag_set (s_bitflag modes) BITFLAG_GG) with false. cbn [andb]. apply QE; [lra|].
  apply photon_angles in A; auto; [|unfold gamma; apply Rdiv_lt_0_compat; lra].
  refine (area_ext _ _ _ _ _ [] _ A). intros c _ _. unfold s_integrand. fold beta gamma.
  unfold scalar_at_rest, sum_over, modes. cbn [fold_right String.eqb Ascii.eqb Bool.eqb]. cbn -[gamma beta pw fsr_l_srf fsr_cp_srf]. ring.
Qed.
Print Assumptions scalar_photon_boost.

Theorem vector_photon_boost : forall quad C cp mu p0 (e E mv : R) (pws : list R) (v : R),
  exact_rule quad -> 0 < mv < E -> 0 < e ->
  let gamma := E / mv in let beta := sqrt (1 - (mv / E) ^ 2) in
  let rest e0 := pw pws 0 * fsr_l_vrf C e0 (c_me C) mv + pw pws 1 * (fsr_l_vrf C e0 (c_mmu C) mv + 2 * mu mv e0)
    + pw pws 2 * p0 e0 (two_body_energy mv (c_mpi0 C) 0) + pw pws 3 * (fsr_cp_vrf C e0 mv + 2 * cp mv e0) in
  area (fun e0 => rest e0 / (2 * gamma * beta * e0)) (gamma * (1 - beta) * e) (gamma * (1 + beta) * e) v ->
  v_decay_photon quad C cp mu p0 e E mv pws "total"
  = v + (if Rle_dec (E * (1 - beta) / 2) e then if Rle_dec e (E * (1 + beta) / 2) then pw pws 2 / (E * beta) else 0 else 0).
Proof.
  intros quad C cp mu p0 e E mv pws v QE Hm He gamma beta rest A.
  destruct (velo_facts E mv Hm) as (B & _ & _). change (velo E mv) with beta in B.
  unfold v_decay_photon. destruct (Rlt_dec E mv); [lra|]. cbn [String.eqb Ascii.eqb Bool.eqb orb]. fold beta. f_equal.
  - apply QE; [lra|]. apply photon_angles in A; auto; [|unfold gamma; apply Rdiv_lt_0_compat; lra].
    refine (area_ext _ _ _ _ _ [] _ A). intros c _ _. unfold v_integrand. cbn [String.eqb Ascii.eqb Bool.eqb]. fold beta gamma.
    unfold rest. replace (two_body_energy mv (c_mpi0 C) 0) with (1 / 2 * (c_mpi0 C ^ 2 + mv ^ 2) / mv) by (unfold two_body_energy; field; lra).
    ring.
  - unfold between. destruct (Rle_dec _ e); [|reflexivity]. destruct (Rle_dec e _); reflexivity.
Qed.
Print Assumptions vector_photon_boost.

Theorem mediator_positron_boost : forall quad C cp mu (e E ms : R) (pws : list R) (v : R),
  exact_rule quad -> 0 < ms < E -> 0 <= c_me C < e ->
  let gamma := E / ms in let beta := sqrt (1 - (ms / E) ^ 2) in let p := sqrt (e * e - c_me C * c_me C) in
  let rest e0 := pw pws 1 * mu ms e0 + pw pws 2 * cp ms e0 in
  area (fun e0 => rest e0 / (2 * gamma * beta * sqrt (e0 * e0 - c_me C * c_me C)))
    (gamma * (e - beta * p)) (gamma * (e + beta * p)) v ->
  decay_positron quad C cp mu e E ms pws "total" = v + decay_positron quad C cp mu e E ms pws "e e".
Proof.
  intros quad C cp mu e E ms pws v QE Hm He gamma beta p rest A.
  destruct (velo_facts E ms Hm) as (B & _ & L). change (velo E ms) with beta in B, L.
  unfold decay_positron. destruct (Rlt_dec E ms); [lra|]. cbn [String.eqb Ascii.eqb Bool.eqb orb]. f_equal.
  apply QE; [lra|]. apply (massive_angles rest e (c_me C) gamma beta v He B (eq_sym L)) in A.
  refine (area_ext _ _ _ _ _ [] _ A). intros c _ _. unfold p_integrand. destruct (Rlt_dec e (c_me C)); [lra|].
  cbn [String.eqb Ascii.eqb Bool.eqb]. fold p beta gamma. unfold rest. ring.
Qed.
Print Assumptions mediator_positron_boost.

(** An exact rule exists, and a flat spectrum at rest has an area: the hypotheses can be met. *)
Example ex_boost : (exists quad, exact_rule quad) /\
  exists v, area (fun e0 => e0 / (2 * (5 / 3) * (4 / 5) * e0)) (5 / 3 * (1 - 4 / 5) * 1) (5 / 3 * (1 + 4 / 5) * 1) v /\ v = 1.
Proof.
  split; [exact exact_exists|]. exists 1. split; [|reflexivity].
  apply (area_val _ _ _ (3 / 8 * (5 / 3 * (1 + 4 / 5) * 1 - 5 / 3 * (1 - 4 / 5) * 1))); [field|].
  refine (area_ext _ _ _ _ _ [] _ (area_const (3 / 8) _ _)). intros x Hx _. field. lra.
Qed.

(** ** C35: the tables of positron spectra *)

(** The scalar model's table: each final state gets the positron spectrum of its charged particle at half
    the centre-of-mass energy, or twice that of a mediator carrying half of it. *)
Theorem scalar_positron_table : forall (pion muon photon : R -> R -> R) decay decays (e cme : R),
  map (fun kf => (fst kf, snd kf e cme)) (s_positron_spectrum_funcs (MkSpectra pion muon photon) decay decays)
  = [("mu mu", muon e (cme / 2)); ("pi pi", pion e (cme / 2));
     ("s s", if decays then decay e (cme / 2) "total" + decay e (cme / 2) "total" else 0)]%string.
Proof.
  intros. unfold s_positron_spectrum_funcs. cbn [map fst snd]. unfold s_dnde_pos_ss. destruct decays; [|reflexivity].
  replace (2 * decay e (cme / 2) "total"%string) with (decay e (cme / 2) "total"%string + decay e (cme / 2) "total"%string) by ring.
  reflexivity.
Qed.
Print Assumptions scalar_positron_table.

(** The vector model's pion and mediator entries are right; its muon entry is the photon spectrum. *)
Theorem vector_positron_table : forall (pion muon photon : R -> R -> R) decay decays (e cme : R),
  map (fun kf => (fst kf, snd kf e cme)) (v_positron_spectrum_funcs (MkSpectra pion muon photon) decay decays)
  = [("mu mu", photon e (cme / 2)); ("pi pi", pion e (cme / 2));
     ("v v", if decays then decay e (cme / 2) "total" + decay e (cme / 2) "total" else 0)]%string.
Proof.
  intros. unfold v_positron_spectrum_funcs. cbn [map fst snd]. unfold v_dnde_pos_vv. destruct decays; [|reflexivity].
  replace (2 * decay e (cme / 2) "total"%string) with (decay e (cme / 2) "total"%string + decay e (cme / 2) "total"%string) by ring.
  reflexivity.
Qed.
Print Assumptions vector_positron_table.

(** For muons at rest, for all masses, there is an energy where the muon's positron spectrum is positive and
    the function in the table returns zero. *)
Theorem vector_positron_muon_refuted : forall spence pion decay decays (me mmu alpha N : R),
  0 < me < mmu -> 0 < N ->
  exists (e cme : R) f,
    In ("mu mu"%string, f) (v_positron_spectrum_funcs (MkSpectra pion (dnde_positron_muon RMath me mmu N) (dnde_photon_muon RMath spence me mmu alpha)) decay decays)
    /\ f e cme = 0 /\ 0 < dnde_positron_muon RMath me mmu N e (cme / 2).
Proof.
  intros spence pion decay decays me mmu alpha N Hm HN.
  pose proof (ratio_unit me mmu Hm) as Hr. set (r := me / mmu) in *.
  set (x := 1 + r ^ 2 - r * (1 - r) ^ 2). exists (mmu / 2 * x), (2 * mmu).
  eexists. split; [left; reflexivity|]. unfold v_dnde_pos_mumu. cbn [spectra_photon_muon]. replace (2 * mmu / 2) with mmu by field.
  assert (R1 : 0 < (1 - r) ^ 2 * (1 - r)) by (assert (0 < (1 - r) ^ 2) by nra; nra).
  assert (X1 : 2 * r < x) by (unfold x; nra).
  assert (X2 : x < 1 + r ^ 2) by (unfold x; assert (0 < r * (1 - r) ^ 2) by (apply Rmult_lt_0_compat; nra); lra).
  assert (X3 : 1 - r <= x) by (unfold x; assert (0 <= r ^ 2 * (3 - r)) by (apply Rmult_le_pos; nra); nra).
  assert (H52 : 0 < / 2 ^ 52) by (apply Rinv_0_lt_compat; lra).
  split.
  - unfold dnde_photon_muon. rmodel. change (epmach RNum) with (/ 2 ^ 52). destruct (Rlt_dec mmu mmu); [lra|].
    replace (mmu - mmu) with 0 by ring. destruct (Rlt_dec 0 (/ 2 ^ 52)); [|lra].
    unfold dnde_photon_muon_rest_frame, pm_Y_MAX, pm_MASS_RATIO. rmodel.
    replace (2 * (mmu / 2 * x) / mmu) with x by (field; lra). fold r.
    destruct (Rle_dec x 0); [reflexivity|]. destruct (Rle_dec (1 - r) x); [reflexivity|lra].
  - rewrite positron_muon_michel by exact Hm. fold r. cbv zeta.
    assert (ME : me = mmu * r) by (unfold r; field; lra).
    destruct (Rlt_dec me (mmu / 2 * x)) as [_|K]; [|exfalso; apply K; rewrite ME; nra].
    destruct (Rlt_dec (mmu / 2 * x) (mmu * (1 + r ^ 2) / 2)) as [_|K]; [|exfalso; apply K; nra].
    replace (2 * (mmu / 2 * x) / mmu) with x by (field; lra).
    apply Rdiv_lt_0_compat; [|exact HN]. apply Rmult_lt_0_compat; [apply Rdiv_lt_0_compat; lra|].
    apply Rmult_lt_0_compat.
    + apply Rmult_lt_0_compat; [lra|]. apply sqrt_lt_R0. nra.
    + assert (D : 0 < x * (1 + r ^ 2 - 4 * r) + 4 * r * (1 + r ^ 2 - r)).
      { replace (x * (1 + r ^ 2 - 4 * r) + 4 * r * (1 + r ^ 2 - r)) with ((1 - r) ^ 2 * (1 + r + 5 * r ^ 2 - r ^ 3)) by (unfold x; ring).
        apply Rmult_lt_0_compat; nra. }
      assert (0 < (x - 2 * r) * (1 + r ^ 2 - x)) by (apply Rmult_lt_0_compat; lra). nra.
Qed.
Print Assumptions vector_positron_muon_refuted.

(** The masses and the normalisation of constants.rs meet the hypotheses. *)
Example ex_positron_muon : 0 < pdg_MASS_E RMath < pdg_MASS_MU RMath /\ 0 < pdg_R_FACTOR RMath.
Proof. rewrite literal_me, literal_mmu, literal_R. lra. Qed.
