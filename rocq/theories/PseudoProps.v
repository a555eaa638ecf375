(** Theorems about the pseudoscalar and the axial vector mediator of hazma/experimental. *)
From Coq Require Import Reals Lra Psatz List String.
From Verif Require Import PyBase RamboModel RamboProofs FourPiModel FourPiProofs FsrProofs PseudoModel PseudoProofs.
Import ListNotations.
Local Open Scope R_scope.

(** * C135: mixing *)
(** The angle and the shifted mass are those of the diagonalised mass matrix to leading order, with an explicit
    bound on what is left out: for the eigenvector (1, y) of the matrix whose eigenvalue is the one next to the
    pion, y is minus the angle up to 4 |beta|^3, and the eigenvalue is the square of the shifted mass up to
    4 beta^4 (mp^2 - mpi0^2). *)
Theorem mixing_diagonalises : forall (k : consts) (i : inputs) (b m lam y : R),
  determine_mixing k i = Ret (b, m) ->
  eigenpair (k_mpi0 k ^ 2) (pion_mixing k i) (mp i ^ 2) lam y ->
  2 * Rabs (lam - k_mpi0 k ^ 2) <= Rabs (mp i ^ 2 - k_mpi0 k ^ 2) ->
  Rabs (y + b) <= 4 * Rabs b ^ 3
  /\ (0 <= k_mpi0 k ^ 2 - pion_mixing k i * b ->
      0 <= m /\ Rabs (lam - m ^ 2) <= 4 * Rabs b ^ 4 * Rabs (mp i ^ 2 - k_mpi0 k ^ 2)).
Proof.
  intros k i b m lam y H E N. unfold determine_mixing in H. rewrite mixing_eps_form in H.
  destruct (Req_EM_T (mp i ^ 2 - k_mpi0 k ^ 2) 0) as [Z|Z]; [discriminate|].
  set (e := pion_mixing k i) in *. assert (Hb : b = e / (mp i ^ 2 - k_mpi0 k ^ 2)) by congruence.
  assert (Hm : m = sqrt (k_mpi0 k ^ 2 - e * b)) by congruence.
  destruct (eigen_bounds _ _ _ _ _ Z E N) as [B1 B2]. rewrite <- Hb in B1, B2. split; [exact B1|].
  intro P. split; [rewrite Hm; apply sqrt_pos|]. rewrite Hm, pow2_sqrt by exact P. exact B2.
Qed.
Print Assumptions mixing_diagonalises.
(** Such an eigenvector exists whenever the angle is below sqrt 3 / 2. *)
Theorem mixing_eigenvector_exists : forall (k : consts) (i : inputs) (b m : R),
  determine_mixing k i = Ret (b, m) -> 4 * b ^ 2 <= 3 ->
  exists lam y, eigenpair (k_mpi0 k ^ 2) (pion_mixing k i) (mp i ^ 2) lam y
    /\ 2 * Rabs (lam - k_mpi0 k ^ 2) <= Rabs (mp i ^ 2 - k_mpi0 k ^ 2).
Proof.
  intros k i b m H Hb. unfold determine_mixing in H. rewrite mixing_eps_form in H.
  destruct (Req_EM_T (mp i ^ 2 - k_mpi0 k ^ 2) 0) as [Z|Z]; [discriminate|]. apply eigen_exists; [exact Z|].
  assert (E : b = pion_mixing k i / (mp i ^ 2 - k_mpi0 k ^ 2)) by congruence. now rewrite <- E.
Qed.
Print Assumptions mixing_eigenvector_exists.
(** simple numbers for the examples: masses 1, all constants 1, quarks of mass 1/2 *)
Definition unit_consts : consts := Consts 1 1 (1 / 2) (1 / 2) 1 1 1 1 1 1 1.
Example mixing_case : exists b m lam y, let i := Inputs 1 2 0 2 0 0 0 0 0 0 in
  determine_mixing unit_consts i = Ret (b, m) /\ b <> 0 /\ 4 * b ^ 2 <= 3
  /\ eigenpair (k_mpi0 unit_consts ^ 2) (pion_mixing unit_consts i) (mp i ^ 2) lam y
  /\ 2 * Rabs (lam - k_mpi0 unit_consts ^ 2) <= Rabs (mp i ^ 2 - k_mpi0 unit_consts ^ 2).
Proof.
  eexists (2 / 3), _, 0, (-1 / 2). cbv zeta. repeat split; try lra.
  - unfold determine_mixing, mixing_eps. cbn [unit_consts k_mpi0 k_b0 k_fpi k_muq k_mdq k_vh mp gpuu gpdd gpGG].
    destruct (Req_EM_T (2 ^ 2 - 1 ^ 2) 0) as [Z|_]; [exfalso; lra|]. f_equal. f_equal. field.
  - unfold pion_mixing. cbn. lra.
  - unfold pion_mixing. cbn. lra.
  - cbn. rewrite (Rabs_right (2 * (2 * 1) - _)) by lra. rewrite Rabs_left by lra. lra.
Qed.
(** Couplings that treat the two quarks alike do not mix. *)
Theorem no_mixing : forall (k : consts) (i : inputs),
  gpuu i + k_muq k / k_vh k * gpGG i = gpdd i + k_mdq k / k_vh k * gpGG i ->
  mp i ^ 2 <> k_mpi0 k ^ 2 -> 0 <= k_mpi0 k -> determine_mixing k i = Ret (0, k_mpi0 k).
Proof.
  intros k i H N P. unfold determine_mixing. rewrite mixing_eps_form.
  destruct (Req_EM_T (mp i ^ 2 - k_mpi0 k ^ 2) 0) as [Z|Z]; [exfalso; lra|].
  unfold pion_mixing. rewrite H, Rminus_diag_eq, Rmult_0_r by reflexivity. unfold Rdiv. rewrite !Rmult_0_l, Rminus_0_r.
  rewrite sqrt_pow2 by exact P. reflexivity.
Qed.
Print Assumptions no_mixing.
Example no_mixing_case : exists i, gpuu i <> gpdd i /\ mp i ^ 2 <> k_mpi0 hazma_consts ^ 2 /\ 0 <= k_mpi0 hazma_consts
  /\ gpuu i + k_muq hazma_consts / k_vh hazma_consts * gpGG i = gpdd i + k_mdq hazma_consts / k_vh hazma_consts * gpGG i.
Proof. exists (Inputs 1 300 1 (2.51 / 246227.95) 0 0 0 0 1 0). cbn. repeat split; try lra. Qed.

(** * C136: two-body widths *)
Theorem fermion_widths : forall (k : consts) (m : pmodel) (mu : bool),
  0 < mp (inp m) -> beta m ^ 2 <= 1 ->
  let mf := if mu then k_mmu k else k_me k in
  let g := if mu then gpmumu (inp m) else gpee (inp m) in
  exists w, width_p_to_ff k m mu = Ret w /\ 0 <= w
    /\ (2 * mf < mp (inp m) -> w = (1 - beta m ^ 2) * fermion_width g mf (mp (inp m)))
    /\ (mp (inp m) <= 2 * mf -> w = 0).
Proof.
  intros k m mu Hp Hb mf g. rewrite (width_ff_form k m mu Hp Hb). fold mf g. eexists. split; [reflexivity|].
  destruct (Rlt_dec (2 * mf) (mp (inp m))) as [A|A]; repeat split; intros; try lra.
  apply Rmult_le_pos; [lra|]. apply fermion_width_nonneg. lra.
Qed.
Print Assumptions fermion_widths.
Example fermion_widths_case : exists m w, 0 < mp (inp m) /\ beta m ^ 2 <= 1 /\ beta m <> 0
  /\ width_p_to_ff hazma_consts m true = Ret w /\ 0 < w.
Proof.
  exists (PModel (Inputs 1 300 1 0 0 0 0 1 0 0) (1 / 10) 135 0). eexists. repeat split.
  - cbn; lra. - cbn; lra. - cbn; lra.
  - apply (width_ff_form hazma_consts _ true); cbn; lra.
  - cbn [beta inp mp gpmumu hazma_consts k_mmu]. destruct (Rlt_dec (2 * 105.6583745) 300) as [_|N]; [|exfalso; lra].
    unfold fermion_width. pose proof PI_RGT_0. apply Rmult_lt_0_compat; [lra|]. apply Rdiv_lt_0_compat; [|lra].
    apply Rmult_lt_0_compat; [lra|]. apply sqrt_lt_R0. lra.
Qed.
(** The photon width is half of what the anomaly gives for the coupling gpFF / vh - beta / fpi, less a term of the
    order of beta^2. *)
Theorem photon_width_value : forall (k : consts) (m : pmodel) (w : R), k_fpi k <> 0 -> k_vh k <> 0 ->
  width_p_to_gg k m = Ret w ->
  0 <= w /\ w = (anomaly_width (k_alpha k) (gpFF (inp m) / k_vh k - beta m / k_fpi k) (mp (inp m))
                 - anomaly_width (k_alpha k) (beta m * (gpFF (inp m) / k_vh k)) (mp (inp m))) / 2.
Proof. intros k m w Hf Hv H. destruct (width_gg_form k m w Hf Hv H). now split. Qed.
Print Assumptions photon_width_value.
Example photon_width_case : exists m w, k_fpi hazma_consts <> 0 /\ k_vh hazma_consts <> 0 /\ width_p_to_gg hazma_consts m = Ret w /\ 0 < w.
Proof.
  exists (PModel (Inputs 1 300 1 0 0 0 0 0 0 0) (1 / 10) 135 0). eexists. repeat split; try (cbn; lra).
  - unfold width_p_to_gg. cbn [beta inp mp gpFF hazma_consts k_alpha k_fpi k_vh]. apply checked_ret.
    pose proof PI_RGT_0. assert (0 < PI ^ 3) by (apply pow_lt; lra).
    apply Rmult_le_pos; [lra|]. left. apply Rinv_0_lt_compat. nra.
  - pose proof PI_RGT_0. assert (0 < PI ^ 3) by (apply pow_lt; lra). apply Rdiv_lt_0_compat; [lra|]. nra.
Qed.
Lemma half_anomaly al c M v b : 2 * ((anomaly_width al (0 / v - c) M - anomaly_width al (b * (0 / v)) M) / 2) = anomaly_width al c M.
Proof.
  replace (0 / v) with 0 by (unfold Rdiv; ring). unfold anomaly_width. pose proof PI_RGT_0. field. lra.
Qed.
(** It is a half of the anomaly: a mediator that couples to photons only by its mixing with the pion should have the
    width of the pion times beta^2. *)
Theorem photon_width_anomaly_refuted : exists (m : pmodel) (w : R),
  gpFF (inp m) = 0 /\ Rabs (beta m) <= 1 / 100 /\ width_p_to_gg hazma_consts m = Ret w
  /\ 0 < w /\ 2 * w = anomaly_width (k_alpha hazma_consts) (beta m / k_fpi hazma_consts) (mp (inp m)).
Proof.
  pose proof PI_RGT_0 as HPI. assert (HP3 : 0 < PI ^ 3) by (apply pow_lt; lra).
  set (m := PModel (Inputs 1 300 1 0 0 0 0 0 0 0) (1 / 100) 135 0).
  assert (H : exists w, width_p_to_gg hazma_consts m = Ret w).
  { eexists. unfold width_p_to_gg. cbn [m beta inp mp gpFF hazma_consts k_alpha k_fpi k_vh]. apply checked_ret.
    apply Rmult_le_pos; [lra|]. left. apply Rinv_0_lt_compat. nra. }
  destruct H as [w H]. exists m, w. destruct (width_gg_form hazma_consts m w) as [E _]; [cbn; lra|cbn; lra|exact H|].
  cbn [m beta inp mp gpFF hazma_consts k_alpha k_fpi k_vh] in *.
  assert (E2 : 2 * w = anomaly_width (1 / 137.04) (1 / 100 / 92.2138) 300) 
    by (rewrite E; apply (half_anomaly (1 / 137.04) (1 / 100 / 92.2138) 300 246227.95 (1 / 100))).
  repeat split; try assumption.
  - rewrite Rabs_right; lra.
  - assert (0 < anomaly_width (1 / 137.04) (1 / 100 / 92.2138) 300); [|lra].
    unfold anomaly_width. apply Rdiv_lt_0_compat; [|lra]. lra.
Qed.
Print Assumptions photon_width_anomaly_refuted.
(** Nor is it defined for every small mixing: where the two couplings to photons cancel the object cannot be made. *)
Theorem photon_width_defined_refuted : exists (i : inputs) (b m : R),
  determine_mixing hazma_consts i = Ret (b, m) /\ b <> 0 /\ Rabs b <= 1 / 100
  /\ forall integ, new_model integ hazma_consts i = Raise AssertionError.
Proof.
  set (d := 300 ^ 2 - 134.9768 ^ 2). assert (Hd : 0 < d) by (unfold d; lra).
  set (e := k_b0 hazma_consts * 92.2138 * (1 / 1000)).
  assert (He : 0 < e /\ e <= 1 / 100 * d) by (unfold e, d; cbn [hazma_consts k_b0]; lra).
  set (b := e / d). assert (Hb : 0 < b) by (apply Rdiv_lt_0_compat; lra).
  assert (Hb1 : b <= 1 / 100).
  { apply Rmult_le_reg_r with d; [exact Hd|]. unfold b, Rdiv. rewrite Rmult_assoc, Rinv_l by lra. lra. }
  set (i := Inputs 10 300 1 (1 / 1000) 0 0 0 0 0 (b * 246227.95 / 92.2138)).
  assert (D : determine_mixing hazma_consts i = Ret (b, sqrt (134.9768 ^ 2 - e * b))).
  { unfold determine_mixing, mixing_eps. cbn [i mp gpuu gpdd gpGG hazma_consts k_mpi0 k_fpi k_vh k_muq k_mdq].
    fold d. destruct (Req_EM_T d 0) as [Z|_]; [exfalso; lra|].
    replace (_ * _ * (1 / 1000 - 0 + (2.16 - 4.67) / 246227.95 * 0)) with e by (unfold e; cbn [hazma_consts k_b0]; ring). reflexivity. }
  exists i, b. eexists. split; [exact D|]. split; [lra|]. split; [rewrite Rabs_right; lra|].
  intro integ. unfold new_model, redetermine_mixing. cbn [inp]. rewrite D. cbn [bind fst snd width_p].
  unfold compute_width_p, total_width. replace (width_p_to_gg hazma_consts _) with (@Raise R AssertionError); [reflexivity|].
  symmetry. unfold width_p_to_gg. cbn [beta inp i mp gpFF hazma_consts k_alpha k_fpi k_vh]. apply checked_raise.
  pose proof PI_RGT_0. assert (P3 : 0 < PI ^ 3) by (apply pow_lt; lra).
  assert (E : forall a c p, c <> 0 -> - (a ^ 2 * 300 ^ 3 * ((1 + b) * c * (b * p / c) - b * p) * ((-1 + b) * c * (b * p / c) + b * p)) = - (a ^ 2 * 300 ^ 3 * (b ^ 4 * p ^ 2)))
    by (intros; field; assumption).
  rewrite E by lra. apply Ropp_lt_cancel. rewrite Ropp_0. unfold Rdiv. rewrite Ropp_mult_distr_l, Ropp_involutive.
  assert (0 < b ^ 4) by (apply pow_lt; lra).
  apply Rmult_lt_0_compat; [apply Rmult_lt_0_compat; [lra|apply Rmult_lt_0_compat; lra]|]. apply Rinv_0_lt_compat. nra.
Qed.
Print Assumptions photon_width_defined_refuted.

(** * C137: the cross sections of the resonance *)
(** Below 2 beta^2 = 1 the lepton cross section is that of Breit and Wigner for the widths of a Dirac fermion. *)
Theorem fermion_cross_section : forall (k : consts) (m : pmodel) (Q : R) (mu : bool),
  let mf := if mu then k_mmu k else k_me k in
  let g := if mu then gpmumu (inp m) else gpee (inp m) in
  0 < Q -> 0 <= mx (inp m) -> 2 * mx (inp m) < Q -> 0 <= mf -> 2 * mf < Q -> 2 * beta m ^ 2 <= 1 -> 0 < mp (inp m) -> width_p m <> 0 ->
  sigma_xx_to_p_to_ff k m Q mu
  = Ret ((1 - 2 * beta m ^ 2) * breit_wigner Q (mx (inp m)) (mp (inp m)) (width_p m)
           (fermion_width (gpxx (inp m)) (mx (inp m)) Q) (fermion_width g mf Q)).
Proof. intros. now apply sigma_ff_form. Qed.
Print Assumptions fermion_cross_section.
Theorem photon_cross_section : forall (k : consts) (m : pmodel) (Q : R), k_fpi k <> 0 -> k_vh k <> 0 ->
  0 < Q -> 0 <= mx (inp m) -> 2 * mx (inp m) < Q -> beta m = 0 -> 0 < mp (inp m) -> width_p m <> 0 ->
  sigma_xx_to_p_to_gg k m Q
  = Ret (breit_wigner Q (mx (inp m)) (mp (inp m)) (width_p m)
           (fermion_width (gpxx (inp m)) (mx (inp m)) Q) (anomaly_width (k_alpha k) (gpFF (inp m) / k_vh k) Q / 2)).
Proof. intros. now apply sigma_gg_form. Qed.
Print Assumptions photon_cross_section.
Definition lepton_model (w : R) : pmodel := PModel (Inputs 105.6583745 300 1 0 0 0 0 (1 / 2) 0 1) 0 134.9768 w.
Example cross_section_case : let m := lepton_model 1 in let Q := 400 in
  0 < Q /\ 0 <= mx (inp m) /\ 2 * mx (inp m) < Q /\ 0 <= k_mmu hazma_consts /\ 2 * k_mmu hazma_consts < Q
  /\ 2 * beta m ^ 2 <= 1 /\ 0 < mp (inp m) /\ width_p m <> 0 /\ beta m = 0 /\ gpFF (inp m) <> 0 /\ gpxx (inp m) <> 0.
Proof. cbn. repeat split; lra. Qed.
(** The width into dark matter is a quarter of the one that the cross sections use. *)
Theorem dark_matter_width_refuted : exists (m : pmodel) (w : R), beta m = 0 /\ 2 * mx (inp m) < mp (inp m)
  /\ width_p_to_xx m = Ret w /\ 0 < w /\ 4 * w = fermion_width (gpxx (inp m)) (mx (inp m)) (mp (inp m)).
Proof.
  exists (lepton_model 1). eexists. split; [reflexivity|]. split; [cbn; lra|].
  split; [apply width_xx_form; cbn; lra|]. cbn [lepton_model beta inp mp mx gpxx].
  assert (P : 0 < fermion_width 1 105.6583745 300).
  { unfold fermion_width. pose proof PI_RGT_0. apply Rdiv_lt_0_compat; [|lra]. apply Rmult_lt_0_compat; [lra|]. apply sqrt_lt_R0. lra. }
  set (w := fermion_width 1 105.6583745 300) in *. split; lra.
Qed.
Print Assumptions dark_matter_width_refuted.
(** On the pole the lepton cross section obeys unitarity as soon as the total width is at least the sum of the
    widths that the cross section is made of. *)
Theorem unitarity_if_widths_add_up : forall (k : consts) (m : pmodel) (mu : bool),
  let M := mp (inp m) in
  let mf := if mu then k_mmu k else k_me k in
  let g := if mu then gpmumu (inp m) else gpee (inp m) in
  0 <= mx (inp m) -> 2 * mx (inp m) < M -> 0 <= mf -> 2 * mf < M -> 2 * beta m ^ 2 <= 1 -> 0 < width_p m ->
  fermion_width (gpxx (inp m)) (mx (inp m)) M + fermion_width g mf M <= width_p m ->
  exists v, sigma_xx_to_p_to_ff k m M mu = Ret v /\ 0 <= v <= unitarity_bound M (mx (inp m)).
Proof.
  intros k m mu M mf g H0 Hx Hf0 Hf Hb Hw Hs. assert (HM : 0 < M) by lra.
  eexists. split; [apply sigma_ff_form; try assumption; unfold M in *; lra|]. fold M mf g.
  pose proof (fermion_width_nonneg (gpxx (inp m)) (mx (inp m)) M ltac:(lra)) as P1.
  pose proof (fermion_width_nonneg g mf M ltac:(lra)) as P2.
  pose proof (velocity_sq (mx (inp m)) M HM H0 Hx) as V.
  set (a := fermion_width (gpxx (inp m)) _ _) in *. set (c := fermion_width g mf M) in *. set (w := width_p m) in *. set (x := mx (inp m)) in *.
  unfold breit_wigner, unitarity_bound. set (v := 1 - 4 * (x / M) ^ 2) in *.
  replace (M ^ 2 - 4 * x ^ 2) with (M ^ 2 * v) by (unfold v; field; lra).
  replace ((M ^ 2 - M ^ 2) ^ 2 + M ^ 2 * w ^ 2) with (M ^ 2 * w ^ 2) by ring.
  replace (4 * PI * a * c / (v * (M ^ 2 * w ^ 2))) with (PI / (M ^ 2 * v) * (4 * a * c / w ^ 2)) by (field; repeat split; lra).
  pose proof PI_RGT_0 as HPI.
  assert (U : 0 < PI / (M ^ 2 * v)) by (apply Rdiv_lt_0_compat; [lra|]; apply Rmult_lt_0_compat; [apply pow_lt|]; lra).
  assert (W : 0 < w ^ 2) by (apply pow_lt; lra).
  assert (AC : 0 <= a * c) by now apply Rmult_le_pos.
  assert (T0 : 0 <= 4 * a * c / w ^ 2) by (apply Rmult_le_pos; [lra|left; apply Rinv_0_lt_compat; exact W]).
  assert (T1 : 4 * a * c / w ^ 2 <= 1).
  { apply Rmult_le_reg_r with (w ^ 2); [exact W|]. unfold Rdiv. rewrite Rmult_assoc, Rinv_l by lra.
    assert ((a + c) ^ 2 <= w ^ 2) by (apply pow_incr; lra). pose proof (pow2_ge_0 (a - c)). nra. }
  set (t := 4 * a * c / w ^ 2) in *. set (u := PI / (M ^ 2 * v)) in *. set (s := 1 - 2 * beta m ^ 2).
  assert (Hs1 : 0 <= s <= 1) by (unfold s; pose proof (pow2_ge_0 (beta m)); lra). clearbody s t u.
  assert (0 <= s * t <= 1) by nra. replace (s * (u * t)) with (u * (s * t)) by ring. nra.
Qed.
Print Assumptions unitarity_if_widths_add_up.
Example unitarity_case : exists m, let M := mp (inp m) in 0 <= mx (inp m) /\ 2 * mx (inp m) < M
  /\ 0 <= k_mmu hazma_consts /\ 2 * k_mmu hazma_consts < M /\ 2 * beta m ^ 2 <= 1 /\ 0 < width_p m
  /\ fermion_width (gpxx (inp m)) (mx (inp m)) M + fermion_width (gpmumu (inp m)) (k_mmu hazma_consts) M <= width_p m.
Proof.
  exists (lepton_model (fermion_width 1 105.6583745 300 + fermion_width (1 / 2) 105.6583745 300)).
  cbn [lepton_model inp mp mx gpxx gpmumu beta width_p hazma_consts k_mmu]. repeat split; try lra.
  assert (P : forall g, 0 < g -> 0 < fermion_width g 105.6583745 300); [|pose proof (P 1 ltac:(lra)); pose proof (P (1 / 2) ltac:(lra)); lra].
  intros g Hg. unfold fermion_width. pose proof PI_RGT_0. apply Rdiv_lt_0_compat; [|lra].
  apply Rmult_lt_0_compat; [|apply sqrt_lt_R0; lra]. apply Rmult_lt_0_compat; [apply pow_lt; lra|lra].
Qed.
(** With the total width of the object itself it does not: at the pole the cross section is four times the largest
    one allowed. *)
Theorem unitarity_refuted : exists (i : inputs), forall integ, (forall a b, integ (fun _ => 0) a b = 0) ->
  exists m v, new_model integ hazma_consts i = Ret m
    /\ sigma_xx_to_p_to_ff hazma_consts m (mp i) true = Ret v /\ v = 4 * unitarity_bound (mp i) (mx i).
Proof.
  set (i := Inputs 105.6583745 300 1 0 0 0 0 (1 / 2) 0 0). exists i. intros integ Hi.
  assert (P : forall g, 0 < g -> 0 < fermion_width g 105.6583745 300).
  { intros g Hg. unfold fermion_width. pose proof PI_RGT_0. apply Rdiv_lt_0_compat; [|lra].
    apply Rmult_lt_0_compat; [|apply sqrt_lt_R0; lra]. apply Rmult_lt_0_compat; [apply pow_lt; lra|lra]. }
  set (F := fermion_width 1 105.6583745 300) in *. assert (HF : 0 < F) by (apply P; lra).
  assert (HF2 : fermion_width (1 / 2) 105.6583745 300 = F / 4).
  { unfold F, fermion_width. pose proof PI_RGT_0. field. lra. }
  assert (D : determine_mixing hazma_consts i = Ret (0, 134.9768)) by (apply (no_mixing hazma_consts i); cbn; lra).
  set (m := PModel i 0 134.9768 (F / 2)). exists m.
  assert (N : new_model integ hazma_consts i = Ret m).
  { unfold new_model, redetermine_mixing. cbn [inp]. rewrite D. cbn [bind fst snd width_p]. unfold compute_width_p.
    set (m0 := PModel i 0 134.9768 0).
    assert (G : width_p_to_gg hazma_consts m0 = Ret 0).
    { unfold width_p_to_gg. cbn [m0 i beta inp gpFF]. rewrite checked_ret; [f_equal|]; unfold Rdiv; [ring|].
      match goal with |- 0 <= ?x => replace x with 0 by ring end. lra. }
    assert (X : width_p_to_xx m0 = Ret (F / 4)).
    { rewrite width_xx_form by (cbn; lra). cbn [m0 i beta inp gpxx mx mp]. fold F. f_equal. lra. }
    assert (E : width_p_to_ff hazma_consts m0 false = Ret 0).
    { rewrite width_ff_form by (cbn; lra). cbn [m0 i beta inp gpee mx mp hazma_consts k_me].
      destruct (Rlt_dec (2 * 0.5109989461) 300); [|exfalso; lra]. f_equal. unfold fermion_width, Rdiv. ring. }
    assert (U : width_p_to_ff hazma_consts m0 true = Ret (F / 4)).
    { rewrite width_ff_form by (cbn; lra). cbn [m0 i beta inp gpmumu mx mp hazma_consts k_mmu].
      destruct (Rlt_dec (2 * 105.6583745) 300); [|exfalso; lra]. f_equal. rewrite HF2. lra. }
    assert (A : width_p_to_pi0pipi integ hazma_consts m0 = Ret 0).
    { unfold width_p_to_pi0pipi, quad, unary, dwidth_ds_p_to_pi0pipi. cbn [m0 i inp mp mpi0 hazma_consts k_mpi].
      destruct (Rle_dec (2 * 139.57039 + 134.9768) 300) as [L|_]; [exfalso; lra|]. cbn [bind]. f_equal. apply Hi. }
    assert (B : width_p_to_pi0pi0pi0 integ hazma_consts m0 = Ret 0).
    { unfold width_p_to_pi0pi0pi0, quad, unary, dwidth_ds_p_to_pi0pi0pi0. cbn [m0 i inp mp mpi0].
      destruct (Rle_dec (3 * 134.9768) 300) as [L|_]; [exfalso; lra|]. cbn [bind]. f_equal. apply Hi. }
    unfold total_width. rewrite G, X, E, U, A, B. cbn [bind m0 inp beta mpi0]. unfold m. do 2 f_equal. lra. }
  pose proof PI_RGT_0 as HPI. eexists. split; [exact N|]. split.
  - apply sigma_ff_form; cbn [m i inp mx mp beta width_p hazma_consts k_mmu]; try lra.
  - cbn [m i inp mx mp gpxx gpmumu beta width_p hazma_consts k_mmu]. fold F. rewrite HF2.
    unfold breit_wigner, unitarity_bound.
    replace ((300 ^ 2 - 300 ^ 2) ^ 2 + 300 ^ 2 * (F / 2) ^ 2) with (300 ^ 2 * (F / 2) ^ 2) by ring.
    assert (Z : forall x M, 0 < M -> M ^ 2 - 4 * x ^ 2 <> 0 ->
      (1 - 2 * 0 ^ 2) * (4 * PI * F * (F / 4) / ((1 - 4 * (x / M) ^ 2) * (M ^ 2 * (F / 2) ^ 2))) = 4 * (PI / (M ^ 2 - 4 * x ^ 2))).
    { intros x M HM Hx. field. repeat split; lra. }
    apply Z; lra.
Qed.
Print Assumptions unitarity_refuted.

(** * C138: three pions *)
(** In the isospin limit and on the pole the matrix elements for the phase-space integration are the mixing angle
    times Weinberg's amplitude of pion scattering: for the charged mode that of the charged pair, for three neutral
    pions the sum over the three pairs.  What is left over is of relative order beta^2.  The first factor belongs
    to the dark matter (see [neutral_exchange_refuted]). *)
Theorem charged_pions_weinberg : forall (k : consts) (m : pmodel) (mu : R) (p1 p2 p3 : vec),
  k_fpi k <> 0 -> k_vh k <> 0 -> mp (inp m) <> 0 -> width_p m <> 0 -> isospin_limit k m mu ->
  on_shell mu p1 -> on_shell mu p2 -> on_shell mu p3 -> sq (vplus (vplus p1 p2) p3) = mp (inp m) ^ 2 ->
  4 * mx (inp m) ^ 2 <= (en p1 + px p1 + py p1 + pz p1) ^ 2 ->
  msqrd_xx_to_p_to_pm0 k m p1 p2 p3
  = (en p1 + px p1 + py p1 + pz p1) ^ 2 / 2 * (gpxx (inp m) ^ 2 / (mp (inp m) ^ 2 * width_p m ^ 2))
    * (beta m ^ 2 * (weinberg (k_fpi k) mu (sq (vplus p1 p2)) ^ 2 - 5 / 9 * (beta m * (mp (inp m) ^ 2 - mu ^ 2) / k_fpi k ^ 2) ^ 2)).
Proof.
  intros k m mu p1 p2 p3 Hf Hv Hp Hw I S1 S2 S3 T X. pose proof I as (E1 & E2 & _).
  rewrite pm0_form by (rewrite ?E1, ?E2; assumption). rewrite T, (charged_on_pole k m mu) by assumption.
  rewrite chi_factor_form by exact X. fold (row_sum p1). ring.
Qed.
Print Assumptions charged_pions_weinberg.
Theorem neutral_pions_weinberg : forall (k : consts) (m : pmodel) (mu : R) (p1 p2 p3 : vec),
  k_fpi k <> 0 -> k_vh k <> 0 -> mp (inp m) <> 0 -> width_p m <> 0 -> isospin_limit k m mu ->
  on_shell mu p1 -> on_shell mu p2 -> on_shell mu p3 -> sq (vplus (vplus p1 p2) p3) = mp (inp m) ^ 2 ->
  4 * mx (inp m) ^ 2 <= (en p1 + px p1 + py p1 + pz p1) ^ 2 ->
  let w p q := weinberg (k_fpi k) mu (sq (vplus p q)) in
  msqrd_xx_to_p_to_000 k m p1 p2 p3
  = (en p1 + px p1 + py p1 + pz p1) ^ 2 / 2 * (gpxx (inp m) ^ 2 / (mp (inp m) ^ 2 * width_p m ^ 2))
    * (beta m ^ 2 * ((w p1 p2 + w p1 p3 + w p2 p3) ^ 2 - 11 * (beta m * (mp (inp m) ^ 2 - mu ^ 2) / k_fpi k ^ 2) ^ 2)).
Proof.
  intros k m mu p1 p2 p3 Hf Hv Hp Hw I S1 S2 S3 T X w. pose proof I as (E1 & E2 & _).
  assert (W : w p1 p2 + w p1 p3 + w p2 p3 = mp (inp m) ^ 2 / k_fpi k ^ 2).
  { unfold w, weinberg. rewrite <- T, sq_sum3, !sq_sum2, (sq_shell mu p1), (sq_shell mu p2), (sq_shell mu p3) by assumption. field. exact Hf. }
  rewrite W, p000_form by (rewrite ?E1, ?E2; assumption). rewrite T, (neutral_on_pole k m mu) by assumption.
  rewrite chi_factor_form by exact X. fold (row_sum p1). ring.
Qed.
Print Assumptions neutral_pions_weinberg.
Example weinberg_case : exists m p1 p2 p3, k_fpi unit_consts <> 0 /\ k_vh unit_consts <> 0 /\ mp (inp m) <> 0 /\ width_p m <> 0
  /\ beta m <> 0 /\ isospin_limit unit_consts m 1
  /\ on_shell 1 p1 /\ on_shell 1 p2 /\ on_shell 1 p3 /\ sq (vplus (vplus p1 p2) p3) = mp (inp m) ^ 2
  /\ 4 * mx (inp m) ^ 2 <= (en p1 + px p1 + py p1 + pz p1) ^ 2 /\ weinberg 1 1 (sq (vplus p1 p2)) <> 0.
Proof.
  exists (PModel (Inputs (1 / 4) (7 / 2) 1 (45 / 400) 0 0 0 0 0 0) (1 / 100) 1 1), (V4 (5 / 4) (3 / 4) 0 0), (V4 (5 / 4) (- (3 / 4)) 0 0), (V4 1 0 0 0).
  unfold isospin_limit, on_shell, pion_mixing, sq, mdot, vplus, weinberg. cbn. repeat split; lra.
Qed.
(** The differential cross sections are those of Breit and Wigner for the three-body density at the energy [Q] of
    the same squared matrix elements as in the differential widths, but for the terms of the order of beta^2. *)
Definition neutral_msq (n : R) (k : consts) (m : pmodel) : R :=
  let g := gpGG (inp m) * (k_mdq k - k_muq k) + (gpdd (inp m) - gpuu (inp m)) * k_vh k in
  k_b0 k ^ 2 * ((k_fpi k * g - beta m * (k_mdq k + k_muq k) * k_vh k) ^ 2 - n * (beta m * k_fpi k * g) ^ 2) / (k_fpi k ^ 4 * k_vh k ^ 2).
Definition charged_msq (n : R) (k : consts) (m : pmodel) (s : R) : R :=
  let g := gpGG (inp m) * (k_mdq k - k_muq k) + (gpdd (inp m) - gpuu (inp m)) * k_vh k in
  ((beta m * k_vh k * (2 * k_mpi k ^ 2 + mpi0 m ^ 2 - 3 * s) + k_b0 k * (k_fpi k * g - beta m * (k_mdq k + k_muq k) * k_vh k)) ^ 2
   - n * (k_b0 k * beta m * k_fpi k * g) ^ 2) / (9 * k_fpi k ^ 4 * k_vh k ^ 2).
Theorem three_pion_cross_sections : forall (k : consts) (m : pmodel) (s Q : R),
  k_fpi k <> 0 -> k_vh k <> 0 -> 0 < s -> 0 <= mx (inp m) -> 2 * mx (inp m) < Q -> mp (inp m) <> 0 -> width_p m <> 0 ->
  let resonant w := breit_wigner Q (mx (inp m)) (mp (inp m)) (width_p m) (fermion_width (gpxx (inp m)) (mx (inp m)) Q) w in
  (forall v, 3 * mpi0 m <= Q -> dsigma_ds_xx_to_p_to_pi0pi0pi0 k m s Q = Ret v ->
     v = resonant (dalitz Q (mpi0 m) (mpi0 m) s (neutral_msq 11 k m)))
  /\ (forall v, 2 * k_mpi k + mpi0 m <= Q -> dsigma_ds_xx_to_p_to_pi0pipi k m s Q = Ret v ->
     v = resonant (dalitz Q (k_mpi k) (mpi0 m) s (charged_msq 5 k m s)))
  /\ (forall v, 0 < mp (inp m) -> 3 * mpi0 m <= mp (inp m) -> dwidth_ds_p_to_pi0pi0pi0 k m s = Ret v ->
     v = dalitz (mp (inp m)) (mpi0 m) (mpi0 m) s (neutral_msq 10 k m))
  /\ (forall v, 0 < mp (inp m) -> 2 * k_mpi k + mpi0 m <= mp (inp m) -> dwidth_ds_p_to_pi0pipi k m s = Ret v ->
     v = dalitz (mp (inp m)) (k_mpi k) (mpi0 m) s (charged_msq 4 k m s)).
Proof.
  intros k m s Q Hf Hv Hs H0 HQ Hp Hw resonant. pose proof PI_RGT_0 as HPI. assert (Q0 : 0 < Q) by lra.
  pose proof (velocity_sq (mx (inp m)) Q Q0 H0 HQ) as V. pose proof (resonance_den_pos (Q ^ 2) _ _ Hp Hw) as D. unfold resonance_den in D.
  set (M := mp (inp m)) in *. set (x := mx (inp m)) in *. set (w := width_p m) in *.
  set (sx := sqrt (1 - 4 * (x / Q) ^ 2)). assert (Sx : 0 < sx) by now apply sqrt_lt_R0.
  assert (Ex : sx ^ 2 = 1 - 4 * (x / Q) ^ 2) by (unfold sx; rewrite pow2_sqrt; lra).
  assert (EQ : sqrt (-4 * x ^ 2 + Q ^ 2) = Q * sx).
  { replace (-4 * x ^ 2 + Q ^ 2) with ((Q * sx) ^ 2) by (rewrite Rpow_mult_distr, Ex; field; lra). apply sqrt_pow2. nra. }
  assert (ED : M ^ 4 + Q ^ 4 + M ^ 2 * (-2 * Q ^ 2 + w ^ 2) = (Q ^ 2 - M ^ 2) ^ 2 + M ^ 2 * w ^ 2) by ring.
  set (dd := (Q ^ 2 - M ^ 2) ^ 2 + M ^ 2 * w ^ 2) in *.
  assert (R1 : forall a, s * (s - 4 * a ^ 2) = s * (-4 * a ^ 2 + s)) by (intro; ring).
  assert (R2 : forall a, Q ^ 4 + a ^ 4 + s ^ 2 - 2 * Q ^ 2 * a ^ 2 - 2 * Q ^ 2 * s - 2 * a ^ 2 * s
    = a ^ 4 + (Q ^ 2 - s) ^ 2 - 2 * a ^ 2 * (Q ^ 2 + s)) by (intro; ring).
  assert (R3 : forall a, M ^ 4 + a ^ 4 + s ^ 2 - 2 * M ^ 2 * a ^ 2 - 2 * M ^ 2 * s - 2 * a ^ 2 * s
    = M ^ 4 + (a ^ 2 - s) ^ 2 - 2 * M ^ 2 * (a ^ 2 + s)) by (intro; ring).
  unfold resonant, breit_wigner, fermion_width, dalitz, neutral_msq, charged_msq. fold sx dd. rewrite <- Ex, !R1, !R2, !R3.
  repeat split.
  - intros v T H. unfold dsigma_ds_xx_to_p_to_pi0pi0pi0 in H. fold M x w in H.
    destruct (Rlt_dec (2 * x) Q); [|contradiction]. destruct (Rle_dec (3 * mpi0 m) Q); [|contradiction].
    apply checked_inv in H. destruct H as [-> _]. rewrite EQ, ED. unfold gdiff.
    set (r1 := sqrt (s * _)). set (r2 := sqrt (mpi0 m ^ 4 + _ - _)). clearbody dd sx r1 r2.
    field. repeat split; lra || assumption.
  - intros v T H. unfold dsigma_ds_xx_to_p_to_pi0pipi in H. fold M x w in H.
    destruct (Rlt_dec (2 * x) Q); [|contradiction]. destruct (Rle_dec (2 * k_mpi k + mpi0 m) Q); [|contradiction].
    apply checked_inv in H. destruct H as [-> _]. rewrite EQ, ED. unfold gdiff.
    set (r1 := sqrt (s * _)). set (r2 := sqrt (mpi0 m ^ 4 + _ - _)). clearbody dd sx r1 r2.
    field. repeat split; lra || assumption.
  - intros v HM T H. unfold dwidth_ds_p_to_pi0pi0pi0 in H. fold M in H.
    destruct (Rle_dec (3 * mpi0 m) M); [|contradiction]. apply checked_inv in H. destruct H as [-> _]. unfold gdiff.
    set (r1 := sqrt (s * _)). set (r2 := sqrt (M ^ 4 + _ - _)). clearbody r1 r2. field. repeat split; lra || assumption.
  - intros v HM T H. unfold dwidth_ds_p_to_pi0pipi in H. fold M in H.
    destruct (Rle_dec (2 * k_mpi k + mpi0 m) M); [|contradiction]. apply checked_inv in H. destruct H as [-> _]. unfold gdiff.
    set (r1 := sqrt (s * _)). set (r2 := sqrt (M ^ 4 + _ - _)). clearbody r1 r2. field. repeat split; lra || assumption.
Qed.
Print Assumptions three_pion_cross_sections.
(** a mediator of four pion masses with a mixing of one in a thousand *)
Definition pion_model : pmodel := PModel (Inputs 1 4 1 (15 / 1000) 0 0 0 0 0 0) (1 / 1000) 1 1.
Lemma pion_model_limit : isospin_limit unit_consts pion_model 1.
Proof. unfold isospin_limit, pion_mixing. cbn. repeat split; lra. Qed.
Lemma pion_phase_space_pos : 0 < sqrt (5 * (5 - 4 * 1 ^ 2)) * sqrt (4 ^ 4 + 1 ^ 4 + 5 ^ 2 - 2 * 4 ^ 2 * 1 ^ 2 - 2 * 4 ^ 2 * 5 - 2 * 1 ^ 2 * 5).
Proof. apply Rmult_lt_0_compat; apply sqrt_lt_R0; lra. Qed.
Lemma pion_charged_ret : exists v, dwidth_ds_p_to_pi0pipi unit_consts pion_model 5 = Ret v.
Proof.
  pose proof PI_RGT_0. assert (P3 : 0 < PI ^ 3) by (apply pow_lt; lra).
  eexists. unfold dwidth_ds_p_to_pi0pipi, gdiff. cbn [pion_model unit_consts inp mp mpi0 beta k_mpi k_vh k_b0 k_fpi k_mdq k_muq gpGG gpdd gpuu].
  destruct (Rle_dec (2 * 1 + 1) 4) as [_|N]; [|exfalso; lra]. apply checked_ret.
  apply Rmult_le_pos; [|left; apply Rinv_0_lt_compat; lra].
  apply Rmult_le_pos; [apply Rmult_le_pos; apply sqrt_pos|]. lra.
Qed.
Lemma pion_neutral_ret : exists v, dwidth_ds_p_to_pi0pi0pi0 unit_consts pion_model 5 = Ret v.
Proof.
  pose proof PI_RGT_0. assert (P3 : 0 < PI ^ 3) by (apply pow_lt; lra).
  eexists. unfold dwidth_ds_p_to_pi0pi0pi0, gdiff. cbn [pion_model unit_consts inp mp mpi0 beta k_mpi k_vh k_b0 k_fpi k_mdq k_muq gpGG gpdd gpuu].
  destruct (Rle_dec (3 * 1) 4) as [_|N]; [|exfalso; lra]. apply checked_ret.
  apply Rmult_le_pos; [|left; apply Rinv_0_lt_compat; lra]. rewrite Ropp_mult_distr_r.
  apply Rmult_le_pos; [|lra]. apply Rmult_le_pos; [|apply sqrt_pos]. apply Rmult_le_pos; [lra|apply sqrt_pos].
Qed.
Example three_pion_case : exists v1 v2, 0 < mp (inp pion_model) /\ 2 * mx (inp pion_model) < 4 /\ width_p pion_model <> 0
  /\ 3 * mpi0 pion_model <= 4 /\ 2 * k_mpi unit_consts + mpi0 pion_model <= 4
  /\ dwidth_ds_p_to_pi0pipi unit_consts pion_model 5 = Ret v1 /\ dwidth_ds_p_to_pi0pi0pi0 unit_consts pion_model 5 = Ret v2.
Proof.
  destruct pion_charged_ret as [v1 H1], pion_neutral_ret as [v2 H2]. exists v1, v2. cbn [pion_model inp mp mx mpi0 width_p unit_consts k_mpi].
  repeat split; try lra; assumption.
Qed.
(** The charged differential width is not the one of Weinberg's amplitude, nor of the program's own matrix element. *)
Theorem charged_width_refuted : exists (k : consts) (m : pmodel) (s v : R),
  isospin_limit k m 1 /\ mpi0 m = 1 /\ 0 < Rabs (beta m) <= 1 / 1000 /\ dwidth_ds_p_to_pi0pipi k m s = Ret v
  /\ let w := dalitz (mp (inp m)) 1 1 s (beta m ^ 2 * weinberg (k_fpi k) 1 s ^ 2) in 0 < w /\ 5 * w < v.
Proof.
  destruct pion_charged_ret as [v H]. exists unit_consts, pion_model, 5, v. split; [exact pion_model_limit|]. split; [reflexivity|].
  split; [cbn [pion_model beta]; rewrite Rabs_right; lra|]. split; [exact H|]. cbv zeta.
  apply (dwidth_pm0_form unit_consts pion_model 1 5 v) in H; [|cbn; lra|cbn; lra|cbn; lra|lra|exact pion_model_limit|reflexivity|cbn; lra].
  rewrite H. cbn [pion_model unit_consts inp mp beta k_fpi]. unfold dalitz, weinberg. pose proof pion_phase_space_pos as Z.
  set (r := sqrt _ * sqrt _) in *. clearbody r. pose proof PI_RGT_0. assert (P3 : 0 < PI ^ 3) by (apply pow_lt; lra).
  set (c := 256 * PI ^ 3 * 4 ^ 3 * 5). assert (Hc : 0 < c) by (unfold c; lra). clearbody c.
  assert (Hi : 0 < / c) by now apply Rinv_0_lt_compat.
  assert (E : forall a, a * r / c = a * (r * / c)) by (intro; unfold Rdiv; ring). rewrite !E.
  assert (0 < r * / c) by now apply Rmult_lt_0_compat. set (j := r * / c) in *. clearbody j. split; nra.
Qed.
Print Assumptions charged_width_refuted.
(** The neutral differential width lacks the factor for three identical particles. *)
Theorem neutral_width_refuted : exists (k : consts) (m : pmodel) (s v : R),
  isospin_limit k m 1 /\ mpi0 m = 1 /\ 0 < Rabs (beta m) <= 1 / 1000 /\ dwidth_ds_p_to_pi0pi0pi0 k m s = Ret v
  /\ let w := dalitz (mp (inp m)) 1 1 s (beta m ^ 2 * (mp (inp m) ^ 2 / k_fpi k ^ 2) ^ 2) / 6 in 0 < w /\ 5 * w < v.
Proof.
  destruct pion_neutral_ret as [v H]. exists unit_consts, pion_model, 5, v. split; [exact pion_model_limit|]. split; [reflexivity|].
  split; [cbn [pion_model beta]; rewrite Rabs_right; lra|]. split; [exact H|]. cbv zeta.
  apply (dwidth_000_form unit_consts pion_model 1 5 v) in H; [|cbn; lra|cbn; lra|cbn; lra|lra|exact pion_model_limit|reflexivity|cbn; lra].
  rewrite H. cbn [pion_model unit_consts inp mp beta k_fpi]. unfold dalitz. pose proof pion_phase_space_pos as Z.
  set (r := sqrt _ * sqrt _) in *. clearbody r. pose proof PI_RGT_0. assert (P3 : 0 < PI ^ 3) by (apply pow_lt; lra).
  set (c := 256 * PI ^ 3 * 4 ^ 3 * 5). assert (Hc : 0 < c) by (unfold c; lra). clearbody c.
  assert (Hi : 0 < / c) by now apply Rinv_0_lt_compat.
  assert (E : forall a, a * r / c = a * (r * / c)) by (intro; unfold Rdiv; ring). rewrite !E.
  assert (0 < r * / c) by now apply Rmult_lt_0_compat. set (j := r * / c) in *. clearbody j. split; nra.
Qed.
Print Assumptions neutral_width_refuted.

(** * C139: the cross sections that cannot be computed *)
(** Above its threshold the cross section for two mediators raises for every model: the argument of the inverse
    hyperbolic tangent is larger than 1. *)
Theorem mediator_pairs_never : forall (m : pmodel) (Q : R), 0 < mp (inp m) -> 0 <= mx (inp m) -> 2 * mp (inp m) < Q -> 2 * mx (inp m) <= Q ->
  sigma_xx_to_pp m Q = Raise AssertionError.
Proof.
  intros m Q Hp Hx HQ HX. unfold sigma_xx_to_pp. set (M := mp (inp m)) in *. set (x := mx (inp m)) in *. assert (Q0 : 0 < Q) by lra.
  destruct (Rlt_dec (2 * M) Q) as [_|N1]; [|contradiction]. destruct (Rle_dec (2 * x) Q) as [_|N1]; [|contradiction].
  assert (P1 : 0 < M / Q) by (apply Rdiv_lt_0_compat; lra).
  assert (P2 : M / Q < 1 / 2) by (apply (Rmult_lt_reg_r Q); [lra|]; unfold Rdiv; rewrite Rmult_assoc, Rinv_l; lra).
  assert (X1 : 0 <= x / Q) by (apply Rmult_le_pos; [lra|left; now apply Rinv_0_lt_compat]).
  assert (X2 : x / Q <= 1 / 2) by (apply (Rmult_le_reg_r Q); [lra|]; unfold Rdiv; rewrite Rmult_assoc, Rinv_l; lra).
  set (p := M / Q) in *. set (y := x / Q) in *. clearbody p y.
  assert (Y : 0 <= (-1 + 4 * p ^ 2) * (-1 + 4 * y ^ 2)).
  { replace ((-1 + 4 * p ^ 2) * (-1 + 4 * y ^ 2)) with ((1 - 4 * p ^ 2) * (1 - 4 * y ^ 2)) by ring. apply Rmult_le_pos; nra. }
  pose proof (pow2_sqrt _ Y) as Z. set (r := sqrt _) in *. assert (R0 : 0 <= r) by apply sqrt_pos. clearbody r.
  destruct (Req_EM_T r 0) as [E|N]; [reflexivity|].
  assert (RP : 0 < r) by lra.
  assert (L : r < 1 - 2 * p ^ 2).
  { assert (A : 0 < 1 - 2 * p ^ 2) by nra. apply Rsqr_incrst_0; [|lra|lra]. unfold Rsqr.
    assert (0 < p ^ 2) by (apply pow_lt; lra). assert (0 < p ^ 4) by (apply pow_lt; lra).
    assert (0 <= y ^ 2 * (1 - 4 * p ^ 2)) by (apply Rmult_le_pos; [apply pow2_ge_0|nra]).
    replace (r * r) with (r ^ 2) by ring. rewrite Z. nra. }
  assert (B : 1 < (1 - 2 * p ^ 2) / r) by (apply (Rmult_lt_reg_r r); [lra|]; unfold Rdiv; rewrite Rmult_assoc, Rinv_l; lra).
  unfold np_arctanh. destruct (Rlt_dec (-1) ((1 - 2 * p ^ 2) / r)); [|reflexivity].
  destruct (Rlt_dec ((1 - 2 * p ^ 2) / r) 1); [exfalso; lra|reflexivity].
Qed.
Print Assumptions mediator_pairs_never.
Example mediator_pairs_case : 0 < mp (inp (PModel (Inputs 2 1 1 0 0 0 0 0 0 0) 0 1 1)) /\ 2 * 1 < 5 /\ 2 * 2 <= 5.
Proof. cbn. lra. Qed.
(** The cross sections for three pions raise for every model and energy, so that neither the table of the cross
    sections nor that of the branching fractions is ever returned, whatever the integration routine does. *)
Theorem three_pions_never : forall (integ : (R -> R) -> R -> R -> R) (k : consts) (m : pmodel) (Q : R),
  sigma_xx_to_p_to_pi0pi0pi0 integ k m Q = Raise TypeError /\ sigma_xx_to_p_to_pi0pipi integ k m Q = Raise TypeError
  /\ (forall d, annihilation_cross_sections integ k m Q <> Ret d) /\ (forall d, annihilation_branching_fractions integ k m Q <> Ret d).
Proof.
  intros integ k m Q.
  assert (C : forall d, annihilation_cross_sections integ k m Q <> Ret d).
  { intros d. unfold annihilation_cross_sections. destruct (sigma_xx_to_p_to_ff k m Q true); [cbn [bind]|discriminate].
    destruct (sigma_xx_to_p_to_ff k m Q false); [cbn [bind]|discriminate]. destruct (sigma_xx_to_p_to_gg k m Q); cbn; discriminate. }
  repeat split; try reflexivity; [exact C|].
  intros d. unfold annihilation_branching_fractions. destruct (annihilation_cross_sections integ k m Q) as [t|e]; [|discriminate].
  exfalso. now apply (C t).
Qed.
Print Assumptions three_pions_never.
(** ... although every differential cross section has a value. *)
Theorem annihilation_table_refuted : exists (k : consts) (m : pmodel) (Q : R),
  2 * mx (inp m) < Q /\ (exists v, sigma_xx_to_p_to_ff k m Q true = Ret v) /\ (exists v, sigma_xx_to_p_to_gg k m Q = Ret v)
  /\ (forall s, exists v, dsigma_ds_xx_to_p_to_pi0pipi k m s Q = Ret v) /\ (forall s, exists v, dsigma_ds_xx_to_p_to_pi0pi0pi0 k m s Q = Ret v)
  /\ forall integ d, annihilation_cross_sections integ k m Q <> Ret d.
Proof.
  exists unit_consts, (PModel (Inputs 1 1 0 0 0 0 0 0 0 0) 0 1 1), 5. cbn [inp mx].
  assert (Z : forall x, x = 0 -> exists v, checked x = Ret v) by (intros x ->; exists 0; apply checked_ret; lra).
  split; [lra|]. split; [|split; [|split; [|split]]].
  - unfold sigma_xx_to_p_to_ff. cbn [unit_consts inp mx mp gpxx gpmumu k_mmu beta width_p].
    destruct (Rlt_dec (2 * (1 / 5)) 1); [|eexists; reflexivity]. apply Z. unfold Rdiv. ring.
  - unfold sigma_xx_to_p_to_gg. cbn [unit_consts inp mx mp gpxx gpFF k_fpi k_vh k_alpha beta width_p].
    destruct (Rle_dec (2 * 1) 5); [|eexists; reflexivity]. apply Z. unfold Rdiv. ring.
  - intro s. unfold dsigma_ds_xx_to_p_to_pi0pipi. cbn [unit_consts inp mx mp gpxx mpi0 k_mpi].
    destruct (Rlt_dec (2 * 1) 5); [|eexists; reflexivity]. destruct (Rle_dec (2 * 1 + 1) 5); [|eexists; reflexivity].
    apply Z. unfold Rdiv. ring.
  - intro s. unfold dsigma_ds_xx_to_p_to_pi0pi0pi0. cbn [unit_consts inp mx mp gpxx mpi0 k_mpi].
    destruct (Rlt_dec (2 * 1) 5); [|eexists; reflexivity]. destruct (Rle_dec (3 * 1) 5); [|eexists; reflexivity].
    apply Z. unfold Rdiv. ring.
  - intros integ d. apply (three_pions_never integ).
Qed.
Print Assumptions annihilation_table_refuted.

(** * C140: symmetry and radiation *)
(** Exchanging two of three identical pions changes the matrix element: the energy of the dark matter is taken
    from the components of the first pion. *)
Theorem neutral_exchange_refuted : exists (k : consts) (m : pmodel) (p1 p2 p3 : vec),
  on_shell (k_mpi0 k) p1 /\ on_shell (k_mpi0 k) p2 /\ on_shell (k_mpi0 k) p3 /\ at_rest (vplus (vplus p1 p2) p3)
  /\ 0 < msqrd_xx_to_p_to_000 k m p3 p2 p1 /\ msqrd_xx_to_p_to_000 k m p1 p2 p3 = 4 * msqrd_xx_to_p_to_000 k m p3 p2 p1.
Proof.
  set (p1 := V4 (5 / 4) (3 / 4) 0 0). set (p2 := V4 (5 / 4) (- (3 / 4)) 0 0). set (p3 := V4 1 0 0 0).
  set (m := PModel (Inputs (1 / 4) 1 1 0 1 0 0 0 0 0) 0 1 1).
  assert (S1 : on_shell (k_mpi0 unit_consts) p1) by (unfold on_shell; cbn; lra).
  assert (S2 : on_shell (k_mpi0 unit_consts) p2) by (unfold on_shell; cbn; lra).
  assert (S3 : on_shell (k_mpi0 unit_consts) p3) by (unfold on_shell; cbn; lra).
  exists unit_consts, m, p1, p2, p3. split; [exact S1|]. split; [exact S2|]. split; [exact S3|].
  split; [unfold at_rest; cbn; lra|]. rewrite !p000_form by assumption.
  rewrite !chi_factor_form by (unfold row_sum; cbn; lra). unfold sq, mdot, resonance_den, gdiff, row_sum. cbn. split; [|field].
  apply Rmult_lt_0_compat; [lra|]. apply Rdiv_lt_0_compat; lra.
Qed.
Print Assumptions neutral_exchange_refuted.
(** Radiation: the matrix element with a photon is Low's eikonal factor times the one without, at the squared mass
    of the charged pair with the photon. *)
Theorem radiation_factorises : forall (k : consts) (m : pmodel) (p1 p2 p3 q r1 r2 r3 : vec),
  on_shell (k_mpi k) p1 -> on_shell (k_mpi k) p2 -> on_shell (k_mpi0 k) p3 -> sq q = 0 -> mdot q p1 <> 0 -> mdot q p2 <> 0 ->
  on_shell (k_mpi k) r1 -> on_shell (k_mpi k) r2 -> on_shell (k_mpi0 k) r3 ->
  sq (vplus r1 r2) = sq (vplus (vplus p1 p2) q) -> sq (vplus (vplus r1 r2) r3) = sq (vplus (vplus (vplus p1 p2) p3) q) ->
  en r1 + px r1 + py r1 + pz r1 = en p1 + px p1 + py p1 + pz p1 ->
  msqrd_xx_to_p_to_pm0g k m p1 p2 p3 q = 4 * PI * k_alpha k * eikonal p1 p2 q * msqrd_xx_to_p_to_pm0 k m r1 r2 r3.
Proof.
  intros k m p1 p2 p3 q r1 r2 r3 H1 H2 H3 Hq N1 N2 K1 K2 K3 E1 E2 E3. unfold sq in Hq. rewrite mdot_ldot in *.
  rewrite pm0g_form, pm0_form by assumption. rewrite E1, E2. unfold chi_factor. fold (row_sum r1) (row_sum p1) in E3. rewrite E3. reflexivity.
Qed.
Print Assumptions radiation_factorises.
Example radiation_case : exists p1 p2 p3 q r1 r2 r3,
  on_shell (k_mpi unit_consts) p1 /\ on_shell (k_mpi unit_consts) p2 /\ on_shell (k_mpi0 unit_consts) p3 /\ sq q = 0 /\ mdot q p1 <> 0 /\ mdot q p2 <> 0
  /\ on_shell (k_mpi unit_consts) r1 /\ on_shell (k_mpi unit_consts) r2 /\ on_shell (k_mpi0 unit_consts) r3
  /\ sq (vplus r1 r2) = sq (vplus (vplus p1 p2) q) /\ sq (vplus (vplus r1 r2) r3) = sq (vplus (vplus (vplus p1 p2) p3) q)
  /\ en r1 + px r1 + py r1 + pz r1 = en p1 + px p1 + py p1 + pz p1.
Proof.
  exists (V4 1 0 0 0), (V4 1 0 0 0), (V4 1 0 0 0), (V4 (9 / 16) 0 0 (9 / 16)), (V4 (5 / 4) (- (2 / 3)) (1 / 3) (1 / 12)), (V4 (5 / 4) (2 / 3) (- (1 / 3)) (- (1 / 12))), (V4 (41 / 40) 0 0 (9 / 40)).
  unfold on_shell, sq, mdot, vplus. cbn. repeat split; lra.
Qed.
(** It is not negative as long as the mixing is small, and a soft photon is emitted by Low's theorem. *)
Theorem radiation_nonneg : forall (k : consts) (m : pmodel) (p1 p2 p3 q : vec),
  on_shell (k_mpi k) p1 -> on_shell (k_mpi k) p2 -> on_shell (k_mpi0 k) p3 -> 0 < en q -> sq q = 0 -> mdot q p1 <> 0 -> mdot q p2 <> 0 ->
  k_vh k <> 0 -> k_fpi k <> 0 -> mp (inp m) <> 0 -> width_p m <> 0 -> 0 <= k_alpha k ->
  4 * mx (inp m) ^ 2 <= (en p1 + px p1 + py p1 + pz p1) ^ 2 ->
  let s := sq (vplus (vplus p1 p2) q) in
  let Q2 := sq (vplus (vplus (vplus p1 p2) p3) q) in
  5 * (beta m * pion_mixing k (inp m)) ^ 2
    <= (pion_mixing k (inp m) + beta m * (k_b0 k * (k_mdq k + k_muq k) + 3 * s - 2 * k_mpi k ^ 2 - k_mpi0 k ^ 2 - Q2)) ^ 2 ->
  0 <= msqrd_xx_to_p_to_pm0g k m p1 p2 p3 q.
Proof.
  intros k m p1 p2 p3 q H1 H2 H3 Eq Hq N1 N2 Hv Hf Hp Hw Ha X s Q2 B. unfold sq in Hq. rewrite mdot_ldot in *.
  rewrite pm0g_form by assumption. fold s Q2. rewrite chi_factor_form by exact X.
  pose proof (eikonal_nonneg p1 p2 q Eq Hq N1 N2) as K. pose proof PI_RGT_0.
  apply Rmult_le_pos; [apply Rmult_le_pos; [unfold qe2; apply Rmult_le_pos; lra|exact K]|].
  apply Rmult_le_pos; [pose proof (pow2_ge_0 (row_sum p1)); lra|].
  unfold charged_square. apply Rmult_le_pos.
  - apply Rmult_le_pos; [apply pow2_ge_0|]. unfold charged_amplitude.
    assert (G : k_b0 k * k_fpi k * gdiff k (inp m) = - (k_vh k * pion_mixing k (inp m))) by (unfold gdiff, pion_mixing; field; exact Hv).
    replace (beta m * k_b0 k * k_fpi k * gdiff k (inp m)) with (beta m * (k_b0 k * k_fpi k * gdiff k (inp m))) by ring. rewrite G.
    set (e := pion_mixing k (inp m)) in *. set (z := k_b0 k * (k_mdq k + k_muq k) + 3 * s - 2 * k_mpi k ^ 2 - k_mpi0 k ^ 2 - Q2) in *.
    assert (V : 0 <= k_vh k ^ 2) by apply pow2_ge_0. set (v := k_vh k) in *. set (b := beta m) in *. clearbody e z v b.
    replace ((- - (v * e) + b * v * z) ^ 2 - 5 * (b * - (v * e)) ^ 2) with (v ^ 2 * ((e + b * z) ^ 2 - 5 * (b * e) ^ 2)) by ring.
    apply Rmult_le_pos; [exact V|lra].
  - left. apply Rinv_0_lt_compat. pose proof (resonance_den_pos Q2 _ _ Hp Hw) as D.
    assert (P2 : forall a, a <> 0 -> 0 < a ^ 2) by (intros a A; rewrite <- Rsqr_pow2; now apply Rlt_0_sqr).
    assert (0 < k_fpi k ^ 4) by (replace (k_fpi k ^ 4) with ((k_fpi k ^ 2) ^ 2) by ring; now apply P2, pow_nonzero).
    assert (0 < k_vh k ^ 2) by now apply P2.
    apply Rmult_lt_0_compat; [apply Rmult_lt_0_compat; lra|exact D].
Qed.
Print Assumptions radiation_nonneg.
Theorem radiation_soft : forall (k : consts) (m : pmodel) (p1 p2 p3 q : vec),
  on_shell (k_mpi k) p1 -> on_shell (k_mpi k) p2 -> on_shell (k_mpi0 k) p3 -> sq q = 0 -> mdot q p1 <> 0 -> mdot q p2 <> 0 ->
  k_vh k <> 0 -> k_fpi k <> 0 -> mp (inp m) <> 0 -> width_p m <> 0 ->
  soft_square (fun l => msqrd_xx_to_p_to_pm0g k m p1 p2 p3 (vscale l q))
    (4 * PI * k_alpha k * eikonal p1 p2 q * msqrd_xx_to_p_to_pm0 k m p1 p2 p3).
Proof.
  intros k m p1 p2 p3 q H1 H2 H3 Hq N1 N2 Hv Hf Hp Hw. unfold sq in Hq. rewrite mdot_ldot in *.
  rewrite pm0_form by assumption. pose proof H1 as S1. pose proof H2 as S2. pose proof H3 as S3. apply sq_shell in S1, S2, S3.
  set (d12 := ldot p1 p2). set (dd := ldot p1 p2 + ldot p1 p3 + ldot p2 p3). set (k12 := ldot q p1 + ldot q p2).
  set (k123 := ldot q p1 + ldot q p2 + ldot q p3).
  set (fs := fun l => 2 * k_mpi k ^ 2 + 2 * d12 + 2 * (l * k12)). set (fQ := fun l => 2 * k_mpi k ^ 2 + k_mpi0 k ^ 2 + 2 * dd + 2 * (l * k123)).
  apply soft_square_from with (F := fun l => qe2 k * eikonal p1 p2 q * (chi_factor m p1 * charged_square k m (fs l) (fQ l))).
  - apply cp_mult; [apply cp_const|]. apply cp_mult; [apply cp_const|]. apply charged_square_cont; try assumption; unfold fs, fQ; cp.
  - unfold qe2. rewrite sq_sum3, sq_sum2, S1, S2, S3. unfold fs, fQ, d12, dd.
    replace (2 * k_mpi k ^ 2 + 2 * ldot p1 p2 + 2 * (0 * k12)) with (k_mpi k ^ 2 + k_mpi k ^ 2 + 2 * ldot p1 p2) by ring.
    replace (2 * k_mpi k ^ 2 + k_mpi0 k ^ 2 + 2 * (ldot p1 p2 + ldot p1 p3 + ldot p2 p3) + 2 * (0 * k123))
      with (k_mpi k ^ 2 + k_mpi k ^ 2 + k_mpi0 k ^ 2 + 2 * (ldot p1 p2 + ldot p1 p3 + ldot p2 p3)) by ring.
    reflexivity.
  - intros l Hl. assert (L : l <> 0) by lra.
    assert (Q0 : ldot (vscale l q) (vscale l q) = 0).
    { replace (ldot (vscale l q) (vscale l q)) with (l ^ 2 * ldot q q) by (unfold ldot, vscale; cbn [en px py pz]; ring). rewrite Hq. ring. }
    rewrite pm0g_form; [|assumption|assumption|assumption|exact Q0|rewrite ldot_scale; now apply Rmult_integral_contrapositive_currified|rewrite ldot_scale; now apply Rmult_integral_contrapositive_currified].
    rewrite <- (eikonal_scale p1 p2 q l) by assumption.
    assert (A1 : sq (vplus (vplus p1 p2) (vscale l q)) = fs l).
    { rewrite sq_sum3, S1, S2, Q0, (ldot_comm p1 (vscale l q)), (ldot_comm p2 (vscale l q)), !ldot_scale. unfold fs, d12, k12. ring. }
    assert (A2 : sq (vplus (vplus (vplus p1 p2) p3) (vscale l q)) = fQ l).
    { rewrite sq_sum4, S1, S2, S3, Q0, !ldot_scale. unfold fQ, dd, k123. ring. }
    rewrite A1, A2. ring.
Qed.
Print Assumptions radiation_soft.
Example radiation_soft_case : exists m p1 p2 p3 q, on_shell (k_mpi unit_consts) p1 /\ on_shell (k_mpi unit_consts) p2 /\ on_shell (k_mpi0 unit_consts) p3
  /\ 0 < en q /\ sq q = 0 /\ mdot q p1 <> 0 /\ mdot q p2 <> 0 /\ mp (inp m) <> 0 /\ width_p m <> 0 /\ beta m <> 0
  /\ 4 * mx (inp m) ^ 2 <= (en p1 + px p1 + py p1 + pz p1) ^ 2
  /\ let s := sq (vplus (vplus p1 p2) q) in
     let Q2 := sq (vplus (vplus (vplus p1 p2) p3) q) in
     5 * (beta m * pion_mixing unit_consts (inp m)) ^ 2
     <= (pion_mixing unit_consts (inp m) + beta m * (k_b0 unit_consts * (k_mdq unit_consts + k_muq unit_consts) + 3 * s - 2 * k_mpi unit_consts ^ 2 - k_mpi0 unit_consts ^ 2 - Q2)) ^ 2.
Proof.
  exists pion_model, (V4 (5 / 3) (4 / 3) 0 0), (V4 1 0 0 0), (V4 1 0 0 0), (V4 1 0 0 1).
  unfold pion_mixing, on_shell, sq, mdot, vplus. cbn. repeat split; lra.
Qed.

(** * C141: radiation from fermions *)
(** With x the photon energy over its largest value for massless fermions and v the velocity of the fermions in
    their rest frame, the spectrum is that of a spinless mediator; it is positive below the endpoint, zero at and
    beyond it, and its soft limit is universal. *)
Theorem fermion_radiation : forall (k : consts) (Q mf : R), 0 < mf -> 2 * mf < Q ->
  (forall eg, 0 < eg -> 4 * mf ^ 2 <= Q ^ 2 - 2 * Q * eg ->
     let x := 2 * eg / Q in let v := pair_velocity mf (sqrt (Q ^ 2 - 2 * Q * eg)) in
     dnde_xx_to_p_to_ffg k eg Q mf
     = 2 * k_alpha k / (PI * eg * pair_velocity mf Q) * ((1 - x + x ^ 2 / 2 - 2 * (mf / Q) ^ 2) * ln ((1 + v) / (1 - v)) - (1 - x) * v))
  /\ (forall eg, 0 < k_alpha k -> 0 < eg -> 4 * mf ^ 2 < Q ^ 2 - 2 * Q * eg -> 0 < dnde_xx_to_p_to_ffg k eg Q mf)
  /\ (forall eg, Q ^ 2 - 2 * Q * eg = 4 * mf ^ 2 -> dnde_xx_to_p_to_ffg k eg Q mf = 0)
  /\ (forall eg, eg < 0 \/ Q ^ 2 - 2 * Q * eg < 4 * mf ^ 2 -> dnde_xx_to_p_to_ffg k eg Q mf = 0)
  /\ soft_limit (fun eg => dnde_xx_to_p_to_ffg k eg Q mf) (soft_factor (k_alpha k) (pair_velocity mf Q)).
Proof.
  intros k Q mf Hm HQ. assert (Q0 : 0 < Q) by lra. pose proof PI_RGT_0 as HPI.
  assert (E0 : sqrt (1 - 4 * (mf / Q) ^ 2) = pair_velocity mf Q) by (unfold pair_velocity; f_equal; field; lra).
  assert (M : 0 < mf / Q) by (apply Rdiv_lt_0_compat; lra).
  assert (M4 : 4 * (mf / Q) ^ 2 < 1).
  { assert (mf / Q < 1 / 2) by (apply (Rmult_lt_reg_r Q); [lra|]; unfold Rdiv; rewrite Rmult_assoc, Rinv_l; lra). nra. }
  assert (V0 : 0 < pair_velocity mf Q) by (rewrite <- E0; apply sqrt_lt_R0; lra).
  assert (V1 : pair_velocity mf Q ^ 2 = 1 - 4 * (mf / Q) ^ 2) by (rewrite <- E0; apply pow2_sqrt; lra).
  assert (R : forall eg, 1 - 4 * (mf / Q) ^ 2 - 2 * eg / Q = (Q ^ 2 - 2 * Q * eg - 4 * mf ^ 2) / Q ^ 2) by (intro; field; lra).
  assert (QQ : 0 < / Q ^ 2) by (apply Rinv_0_lt_compat, pow_lt; lra).
  split; [|split; [|split; [|split]]].
  - intros eg He Hs x v. rewrite fsr_form by assumption. rewrite E0. f_equal. unfold pseudo_shape. fold x.
    assert (S : 0 < Q ^ 2 - 2 * Q * eg) by nra.
    assert (Ev : vx x (mf / Q) = v).
    { unfold vx, v, pair_velocity. rewrite pow2_sqrt by lra. f_equal. unfold x. field. split; [lra|]. split; [lra|]. nra. }
    rewrite Ev. reflexivity.
  - intros eg Ha He Hs. rewrite fsr_form by lra. rewrite E0. apply Rmult_lt_0_compat.
    + apply Rdiv_lt_0_compat; [lra|]. apply Rmult_lt_0_compat; [apply Rmult_lt_0_compat; lra|exact V0].
    + apply pseudo_shape_pos; [exact M|apply Rdiv_lt_0_compat; lra|].
      assert (0 < 1 - 4 * (mf / Q) ^ 2 - 2 * eg / Q); [|lra]. rewrite R. apply Rmult_lt_0_compat; lra.
  - intros eg Hs. assert (He : 0 < eg) by nra. rewrite fsr_form by lra.
    assert (X : 2 * eg / Q = 1 - 4 * (mf / Q) ^ 2).
    { assert (1 - 4 * (mf / Q) ^ 2 - 2 * eg / Q = 0); [|lra]. rewrite R. replace (Q ^ 2 - 2 * Q * eg - 4 * mf ^ 2) with 0 by lra. unfold Rdiv. ring. }
    rewrite X, pseudo_shape_endpoint by exact M. ring.
  - intros eg H. unfold dnde_xx_to_p_to_ffg. cbv zeta. destruct (Rle_dec (4 * mf ^ 2) (Q ^ 2 - 2 * Q * eg)) as [A|]; [|reflexivity].
    destruct (Rle_dec (Q ^ 2 - 2 * Q * eg) (Q ^ 2)) as [B|]; [|reflexivity]. exfalso. destruct H as [H|H]; nra.
  - destruct (pseudo_shape_der (mf / Q) M M4) as (l & D).
    pose proof (soft_from _ _ (2 * k_alpha k / (PI * pair_velocity mf Q)) Q ((Q ^ 2 - 4 * mf ^ 2) / (2 * Q))
      (fun eg => dnde_xx_to_p_to_ffg k eg Q mf) Q0 ltac:(apply Rdiv_lt_0_compat; nra) D) as K. cbv beta in K.
    replace (soft_factor (k_alpha k) (pair_velocity mf Q)) with (2 * k_alpha k / (PI * pair_velocity mf Q) * pseudo_shape (mf / Q) 0).
    + apply K. intros e He. rewrite fsr_form; [|lra|lra|lra|].
      * rewrite E0. set (h := pseudo_shape _ _). clearbody h. field. repeat split; lra.
      * destruct He as [_ He]. apply (Rmult_lt_compat_r (2 * Q)) in He; [|lra].
        replace ((Q ^ 2 - 4 * mf ^ 2) / (2 * Q) * (2 * Q)) with (Q ^ 2 - 4 * mf ^ 2) in He by (field; lra). lra.
    + unfold pseudo_shape, soft_factor. rewrite vx_0, E0. unfold lg. set (b := pair_velocity mf Q) in *.
      replace (2 * (mf / Q) ^ 2) with ((1 - b ^ 2) / 2) by lra. set (L := ln _). clearbody b L. field. split; lra.
Qed.
Print Assumptions fermion_radiation.
Example fermion_radiation_case : 0 < 1 /\ 2 * 1 < 4 /\ 4 * 1 ^ 2 < 4 ^ 2 - 2 * 4 * 1.
Proof. lra. Qed.

(** * C142: assignments *)
(** An assignment to an attribute has the effect of building the object anew with the changed attribute, including
    its exceptions; so has any sequence of assignments that succeeds. *)
Theorem assignment_fresh : forall (integ : (R -> R) -> R -> R -> R) (k : consts) (i : inputs) (m : pmodel) (f : field) (v : R),
  new_model integ k i = Ret m -> set_field integ k f v m = new_model integ k (set_input f v i).
Proof.
  intros integ k i m f v H. unfold new_model, redetermine_mixing in H. cbn [inp] in H.
  destruct (determine_mixing k i) as [[b m0]|e] eqn:D; [|discriminate]. cbn [bind fst snd inp beta mpi0 width_p] in H. unfold compute_width_p in H.
  destruct (total_width integ k (PModel i b m0 0)) as [w|e] eqn:W; [|discriminate]. cbn [bind inp beta mpi0] in H.
  assert (E : m = PModel i b m0 w) by congruence. subst m.
  unfold set_field, new_model, redetermine_mixing. cbn [inp beta mpi0 width_p].
  destruct (remixes f) eqn:RM.
  - destruct (determine_mixing k (set_input f v i)) as [[b' m']|e]; reflexivity.
  - assert (N : determine_mixing k (set_input f v i) = determine_mixing k i) by (destruct f; try discriminate RM; reflexivity).
    rewrite N, D. reflexivity.
Qed.
Print Assumptions assignment_fresh.
Theorem assignments_fresh : forall (integ : (R -> R) -> R -> R -> R) (k : consts) (l : list (field * R)) (i : inputs) (m m' : pmodel),
  new_model integ k i = Ret m ->
  fold_left (fun r fv => let* x := r in set_field integ k (fst fv) (snd fv) x) l (Ret m) = Ret m' ->
  new_model integ k (fold_left (fun j fv => set_input (fst fv) (snd fv) j) l i) = Ret m'.
Proof.
  intros integ k l. induction l as [|[f v] l IH]; intros i m m' H F; cbn [fold_left fst snd bind] in *.
  - congruence.
  - rewrite (assignment_fresh integ k i m f v H) in F. destruct (new_model integ k (set_input f v i)) as [m1|e] eqn:E.
    + now apply (IH _ m1).
    + exfalso. clear - F. induction l as [|a l IH]; cbn [fold_left bind] in F; [discriminate|now apply IH].
Qed.
Print Assumptions assignments_fresh.
(** below every threshold but that of two photons *)
Lemma closed_total integ k m : mp (inp m) < 2 * k_mpi k + mpi0 m -> mp (inp m) < 3 * mpi0 m ->
  1 <= 2 * (mx (inp m) / mp (inp m)) -> 1 <= 2 * (k_me k / mp (inp m)) -> 1 <= 2 * (k_mmu k / mp (inp m)) ->
  total_width integ k m = let* w := width_p_to_gg k m in Ret (w + 0 + 0 + 0 + integ (fun _ => 0) (4 * k_mpi k ^ 2) ((mp (inp m) - mpi0 m) ^ 2)
    + integ (fun _ => 0) (4 * mpi0 m ^ 2) ((mp (inp m) - mpi0 m) ^ 2)).
Proof.
  intros H1 H2 H3 H4 H5. unfold total_width, width_p_to_xx, width_p_to_ff, width_p_to_pi0pipi, width_p_to_pi0pi0pi0, quad, unary, dwidth_ds_p_to_pi0pipi, dwidth_ds_p_to_pi0pi0pi0.
  cbv zeta. destruct (Rlt_dec (2 * (mx (inp m) / mp (inp m))) 1); [exfalso; lra|].
  destruct (Rlt_dec (2 * (k_me k / mp (inp m))) 1); [exfalso; lra|]. destruct (Rlt_dec (2 * (k_mmu k / mp (inp m))) 1); [exfalso; lra|].
  destruct (Rle_dec (2 * k_mpi k + mpi0 m) (mp (inp m))); [exfalso; lra|]. destruct (Rle_dec (3 * mpi0 m) (mp (inp m))); [exfalso; lra|]. reflexivity.
Qed.
Definition mfv_consts : consts := Consts 1 1 1 2 1 1 1 1 1 1 1.
Lemma mfv_case_new integ up ll b mm : b = - (up / 3) -> 0 <= up <= 1 -> mm = sqrt (1 - up * (up / 3)) ->
  0 <= (8 * up / 9 + ll) * (1 + b) - b -> (8 * up / 9 + ll) * (-1 + b) + b <= 0 ->
  exists w, new_mfv integ mfv_consts 1 2 0 up 0 ll = Ret (Mfv (PModel (mfv_inputs mfv_consts 1 2 0 up 0 ll) b mm w) up 0 ll).
Proof.
  intros Eb Hu Em A B. unfold new_mfv, new_model, redetermine_mixing, determine_mixing. cbn [inp].
  assert (Ee : mixing_eps mfv_consts (mfv_inputs mfv_consts 1 2 0 up 0 ll) = - up).
  { unfold mixing_eps, mfv_inputs. cbn [mfv_consts k_b0 k_fpi k_muq k_mdq k_vh gpuu gpdd gpGG]. field. }
  rewrite Ee. change (mp (mfv_inputs mfv_consts 1 2 0 up 0 ll)) with 2. change (k_mpi0 mfv_consts) with 1.
  destruct (Req_EM_T (2 ^ 2 - 1 ^ 2) 0) as [Z|_]; [exfalso; lra|]. cbn [bind fst snd inp beta mpi0 width_p].
  replace (- up / (2 ^ 2 - 1 ^ 2)) with b by (rewrite Eb; field).
  replace (1 ^ 2 - - up * b) with (1 - up * (up / 3)) by (rewrite Eb; field). rewrite <- Em.
  assert (M1 : 2 < 3 * mm).
  { assert (2 / 3 < mm); [|lra]. rewrite Em. rewrite <- (sqrt_pow2 (2 / 3)) by lra. apply sqrt_lt_1; nra. }
  unfold compute_width_p. rewrite closed_total; try (cbn [inp mp mx mpi0 mfv_inputs mfv_consts k_mpi k_me k_mmu]; lra).
  assert (G : width_p_to_gg mfv_consts (PModel (mfv_inputs mfv_consts 1 2 0 up 0 ll) b mm 0)
    = Ret (- (1 ^ 2 * 2 ^ 3 * ((1 + b) * 1 * (ll + (8 * up + 0) / 9) - b * 1) * ((-1 + b) * 1 * (ll + (8 * up + 0) / 9) + b * 1)) / (128 * 1 ^ 2 * PI ^ 3 * 1 ^ 2))).
  { unfold width_p_to_gg. cbv zeta. cbn [mfv_inputs mfv_consts inp mp beta gpFF k_alpha k_fpi k_vh]. apply checked_ret.
    pose proof PI_RGT_0. assert (P3 : 0 < PI ^ 3) by (apply pow_lt; lra). apply Rmult_le_pos; [|left; apply Rinv_0_lt_compat; lra].
    replace (ll + (8 * up + 0) / 9) with (8 * up / 9 + ll) by field. set (g := 8 * up / 9 + ll) in *. clearbody g.
    assert (0 <= (g * (1 + b) - b) * - (g * (-1 + b) + b)) by (apply Rmult_le_pos; lra). nra. }
  rewrite G. cbn [bind]. eexists. reflexivity.
Qed.
Example assignment_case : forall integ, exists m, new_model integ mfv_consts (mfv_inputs mfv_consts 1 2 0 (9 / 10) 0 (- (1 / 6))) = Ret m.
Proof.
  intro integ. destruct (mfv_case_new integ (9 / 10) (- (1 / 6)) (- (9 / 10 / 3)) _ eq_refl ltac:(lra) eq_refl ltac:(lra) ltac:(lra)) as [w H].
  unfold new_mfv in H. destruct (new_model integ mfv_consts _) as [m|e]; [now exists m|discriminate].
Qed.
(** For the model of minimal flavour violation an assignment that succeeds has that effect, too. *)
Theorem mfv_assignment_fresh : forall (integ : (R -> R) -> R -> R -> R) (k : consts) (x p g up down ll v : R) (o o' : mfv),
  new_mfv integ k x p g up down ll = Ret o ->
  (set_mfield integ k M_mx v o = Ret o' -> new_mfv integ k v p g up down ll = Ret o')
  /\ (set_mfield integ k M_mp v o = Ret o' -> new_mfv integ k x v g up down ll = Ret o')
  /\ (set_mfield integ k M_gpxx v o = Ret o' -> new_mfv integ k x p v up down ll = Ret o')
  /\ (set_mfield integ k M_gpup v o = Ret o' -> new_mfv integ k x p g v down ll = Ret o')
  /\ (set_mfield integ k M_gpdown v o = Ret o' -> new_mfv integ k x p g up v ll = Ret o')
  /\ (set_mfield integ k M_gpll v o = Ret o' -> new_mfv integ k x p g up down v = Ret o').
Proof.
  intros integ k x p g up down ll v o o' H. unfold new_mfv in H.
  destruct (new_model integ k (mfv_inputs k x p g up down ll)) as [m|e] eqn:E; [|discriminate]. cbn [bind] in H.
  assert (Eo : o = Mfv m up down ll) by congruence. subst o.
  assert (F : forall i m f w m', new_model integ k i = Ret m -> set_field integ k f w m = Ret m' -> new_model integ k (set_input f w i) = Ret m')
    by (intros i n f w n' A B; now rewrite <- (assignment_fresh integ k i n f w A)).
  repeat split; intro U; unfold set_mfield in U; cbn [base gpup gpdown gpll] in U; cbv zeta in U;
  repeat (match type of U with (let* m := set_field integ k ?f ?w ?n in _) = _ =>
    let A := fresh "A" in destruct (set_field integ k f w n) eqn:A; [cbn [bind] in U|discriminate];
    match goal with B : new_model integ k ?j = Ret n |- _ => apply (F _ _ _ _ _ B) in A end end);
  unfold new_mfv;
  match type of U with Ret (Mfv ?n _ _ _) = _ => match goal with B : new_model integ k _ = Ret n |- _ =>
    cbn [set_input mfv_inputs mx mp gpxx gpuu gpdd gpss gpee gpmumu gpGG gpFF] in B; unfold mfv_inputs; rewrite B; cbn [bind]; exact U end end.
Qed.
Print Assumptions mfv_assignment_fresh.
(** It need not succeed: the couplings are changed one after the other, and an object half way may have a negative
    width where the object with the new value has not. *)
Theorem mfv_assignment_refuted : forall (integ : (R -> R) -> R -> R -> R), exists (k : consts) (x p g up down ll v : R) (o o' : mfv),
  new_mfv integ k x p g up down ll = Ret o /\ new_mfv integ k x p g v down ll = Ret o'
  /\ set_mfield integ k M_gpup v o = Raise AssertionError.
Proof.
  intro integ.
  destruct (mfv_case_new integ (3 / 10) (- (1 / 6)) (- (3 / 10 / 3)) _ eq_refl ltac:(lra) eq_refl ltac:(lra) ltac:(lra)) as [w1 H1].
  destruct (mfv_case_new integ (9 / 10) (- (1 / 6)) (- (9 / 10 / 3)) _ eq_refl ltac:(lra) eq_refl ltac:(lra) ltac:(lra)) as [w2 H2].
  exists mfv_consts, 1, 2, 0, (3 / 10), 0, (- (1 / 6)), (9 / 10). do 2 eexists. split; [exact H1|]. split; [exact H2|].
  unfold set_mfield. cbn [base gpup gpdown gpll]. cbv zeta.
  assert (Raises : forall m', beta m' = 1 / 10 -> gpFF (inp m') = 1 / 10 -> mp (inp m') = 2 -> compute_width_p integ mfv_consts m' = Raise AssertionError).
  { intros m' B1 B2 B3. unfold compute_width_p, total_width, width_p_to_gg. cbv zeta. rewrite B1, B2, B3.
    rewrite checked_raise; [reflexivity|]. cbn [mfv_consts k_alpha k_fpi k_vh]. pose proof PI_RGT_0. assert (P3 : 0 < PI ^ 3) by (apply pow_lt; lra).
    assert (N : 0 < / (128 * 1 ^ 2 * PI ^ 3 * 1 ^ 2)) by (apply Rinv_0_lt_compat; lra). unfold Rdiv at 1. set (j := / (128 * _ * _ * _)) in *. clearbody j. nra. }
  unfold set_field at 1. cbn [remixes inp]. unfold redetermine_mixing, determine_mixing. cbn [inp].
  set (i := set_input _ _ _). assert (Ee : mixing_eps mfv_consts i = 3 / 10).
  { unfold mixing_eps, i. cbn [set_input mfv_inputs mfv_consts k_b0 k_fpi k_muq k_mdq k_vh gpuu gpdd gpGG]. field. }
  rewrite Ee. change (mp i) with 2. change (k_mpi0 mfv_consts) with 1.
  destruct (Req_EM_T (2 ^ 2 - 1 ^ 2) 0) as [Z|_]; [exfalso; lra|]. cbn [bind fst snd inp beta mpi0 width_p].
  rewrite Raises; [reflexivity|cbn [beta]; field|cbn [inp]; unfold i; cbn [set_input mfv_inputs gpFF]; field|reflexivity].
Qed.
Print Assumptions mfv_assignment_refuted.

(** * C143: the axial vector *)
(** Two dark matter particles along the z axis to a pair of fermions: the matrix element is the contraction of the
    two axial tensors with -g for the propagator, averaged over the spins; it is not negative. *)
Theorem axial_annihilation : forall (mx mf ma cx cf : R) (p3 p4 : vec),
  let Q := en p3 + en p4 in
  let p1 := V4 (Q / 2) 0 0 (sqrt (Q ^ 2 / 4 - mx ^ 2)) in
  let p2 := V4 (Q / 2) 0 0 (- sqrt (Q ^ 2 / 4 - mx ^ 2)) in
  on_shell mf p3 -> on_shell mf p4 -> at_rest (vplus p3 p4) -> 4 * mx ^ 2 <= Q ^ 2 ->
  msqrd_xx_to_a_to_ff mx mf ma cx cf p3 p4
  = (cx * cf) ^ 2 / (Q ^ 2 - ma ^ 2) ^ 2 * exchange 0 (vplus p3 p4) (axial_tensor mx p1 p2) (axial_tensor mf p3 p4) / 4
  /\ 0 <= msqrd_xx_to_a_to_ff mx mf ma cx cf p3 p4.
Proof.
  intros mx mf ma cx cf p3 p4 Q p1 p2 H3 H4 Hr HQ.
  assert (Er : (Q / 2) ^ 2 - mx ^ 2 = Q ^ 2 / 4 - mx ^ 2) by field.
  assert (HR : 0 <= Q ^ 2 / 4 - mx ^ 2) by lra. pose proof (pow2_sqrt _ HR) as ER.
  rewrite exchange_axial. unfold msqrd_xx_to_a_to_ff, chi_momenta. fold Q. cbv zeta. rewrite Er. fold p1 p2.
  set (r := sqrt (Q ^ 2 / 4 - mx ^ 2)) in *.
  assert (D12 : mdot p1 p2 = Q ^ 2 / 2 - mx ^ 2) by (unfold mdot, p1, p2; cbn [en px py pz]; lra).
  destruct H3 as [H3 L3], H4 as [H4 L4]. destruct Hr as (R1 & R2 & R3). unfold vplus in R1, R2, R3. cbn [px py pz] in R1, R2, R3.
  assert (X4 : px p4 = - px p3) by lra. assert (Y4 : py p4 = - py p3) by lra. assert (Z4 : pz p4 = - pz p3) by lra.
  rewrite X4, Y4, Z4 in H4.
  assert (EE : en p3 = en p4 \/ en p3 + en p4 = 0).
  { assert (P : (en p3 - en p4) * (en p3 + en p4) = 0) by nra. apply Rmult_integral in P. destruct P; [left|right]; lra. }
  assert (D34 : mdot p3 p4 = Q ^ 2 / 2 - mf ^ 2) by (unfold mdot, Q; rewrite X4, Y4, Z4; lra).
  rewrite D12, D34, !mdot_ldot. unfold p1, p2, ldot. cbn [en px py pz]. rewrite X4, Y4, Z4.
  replace (- ma ^ 2 + Q ^ 2) with (Q ^ 2 - ma ^ 2) by ring. unfold Rdiv. set (j := / (Q ^ 2 - ma ^ 2) ^ 2).
  assert (Hj : 0 <= j).
  { unfold j. destruct (Req_dec ((Q ^ 2 - ma ^ 2) ^ 2) 0) as [Z|N]; [rewrite Z, Rinv_0; lra|left; apply Rinv_0_lt_compat].
    pose proof (pow2_ge_0 (Q ^ 2 - ma ^ 2)). lra. }
  clearbody j. split.
  - clearbody r Q. clear. field.
  - apply Rmult_le_pos; [|exact Hj]. apply Rmult_le_pos; [replace (4 * cf ^ 2 * cx ^ 2) with (4 * (cf * cx) ^ 2) by ring; pose proof (pow2_ge_0 (cf * cx)); lra|].
    set (e3 := en p3) in *. set (e4 := en p4) in *. set (z := pz p3) in *.
    assert (E3 : e3 ^ 2 = e4 ^ 2) by lra.
    assert (ES : 2 * (e3 * e4) = Q ^ 2 - 2 * e3 ^ 2) by (unfold Q; lra).
    destruct EE as [EE|EE].
    + assert (Q2 : Q = 2 * e3) by (unfold Q; lra). rewrite <- EE. rewrite Q2 in *.
      assert (A : 0 <= r ^ 2 * z ^ 2) by (apply Rmult_le_pos; apply pow2_ge_0).
      assert (B : 0 <= (e3 ^ 2 - mx ^ 2) * (e3 ^ 2 - mf ^ 2)).
      { apply Rmult_le_pos; [lra|]. pose proof (pow2_ge_0 (px p3)). pose proof (pow2_ge_0 (py p3)). pose proof (pow2_ge_0 z). lra. }
      pose proof (Rmult_le_pos _ _ (pow2_ge_0 mf) (pow2_ge_0 mx)).
      assert (A' : r ^ 2 * z ^ 2 = (e3 ^ 2 - mx ^ 2) * z ^ 2) by (rewrite ER; field).
      clearbody r e3 z. nra.
    + assert (Q2 : Q = 0) by exact EE. rewrite Q2 in *. assert (mx ^ 2 = 0) by (pose proof (pow2_ge_0 mx); lra).
      assert (A : 0 <= r ^ 2 * z ^ 2) by (apply Rmult_le_pos; apply pow2_ge_0). rewrite H. clearbody r e3 e4 z. nra.
Qed.
Print Assumptions axial_annihilation.
Example axial_case : on_shell 3 (V4 5 4 0 0) /\ on_shell 3 (V4 5 (-4) 0 0) /\ at_rest (vplus (V4 5 4 0 0) (V4 5 (-4) 0 0)) /\ 4 * 3 ^ 2 <= (5 + 5) ^ 2.
Proof. unfold on_shell, at_rest, vplus. cbn. lra. Qed.
(** A massive vector has the longitudinal term, which does not drop out because an axial current is not conserved:
    for heavy fermions the matrix element is off by orders of magnitude. *)
Theorem massive_vector_refuted : exists (mx mf ma cx cf : R) (p3 p4 : vec),
  let Q := en p3 + en p4 in
  let p1 := V4 (Q / 2) 0 0 (sqrt (Q ^ 2 / 4 - mx ^ 2)) in
  let p2 := V4 (Q / 2) 0 0 (- sqrt (Q ^ 2 / 4 - mx ^ 2)) in
  on_shell mf p3 /\ on_shell mf p4 /\ at_rest (vplus p3 p4) /\ 4 * mx ^ 2 <= Q ^ 2 /\ 0 < ma
  /\ let full := (cx * cf) ^ 2 / (Q ^ 2 - ma ^ 2) ^ 2 * exchange (/ ma ^ 2) (vplus p3 p4) (axial_tensor mx p1 p2) (axial_tensor mf p3 p4) / 4 in
     0 < msqrd_xx_to_a_to_ff mx mf ma cx cf p3 p4 /\ 1000 * msqrd_xx_to_a_to_ff mx mf ma cx cf p3 p4 < full.
Proof.
  exists 3, 3, 1, 1, 1, (V4 5 4 0 0), (V4 5 (-4) 0 0). cbv zeta. cbn [en].
  assert (S : sqrt ((5 + 5) ^ 2 / 4 - 3 ^ 2) = 4) by (replace ((5 + 5) ^ 2 / 4 - 3 ^ 2) with (4 ^ 2) by lra; apply sqrt_pow2; lra).
  assert (S' : sqrt (((5 + 5) / 2) ^ 2 - 3 ^ 2) = 4) by (replace (((5 + 5) / 2) ^ 2 - 3 ^ 2) with (4 ^ 2) by lra; apply sqrt_pow2; lra).
  rewrite S. split; [unfold on_shell; cbn; lra|]. split; [unfold on_shell; cbn; lra|]. split; [unfold at_rest; cbn; lra|].
  split; [lra|]. split; [lra|].
  assert (V : msqrd_xx_to_a_to_ff 3 3 1 1 1 (V4 5 4 0 0) (V4 5 (-4) 0 0) = 5392 / 9801).
  { unfold msqrd_xx_to_a_to_ff, chi_momenta. cbn [en]. cbv zeta. rewrite S'. unfold ldot. cbn [en px py pz]. field. }
  rewrite V. split; [lra|].
  replace (/ 1 ^ 2) with 1 by field. unfold exchange, sum4, propagator, axial_tensor, comp, metric, mdot, vplus. cbn [en px py pz Nat.eqb]. lra.
Qed.
Print Assumptions massive_vector_refuted.
(** Low's theorem for the fermions. *)
Theorem axial_soft_photon : forall (k : consts) (mx mf ma qf cx cf : R) (p3 p4 q : vec),
  on_shell mf p3 -> on_shell mf p4 -> at_rest (vplus p3 p4) -> 4 * mx ^ 2 <= (en p3 + en p4) ^ 2 -> (en p3 + en p4) ^ 2 <> ma ^ 2 ->
  mdot q p3 <> 0 -> mdot q p4 <> 0 ->
  soft_square (fun l => msqrd_xx_to_a_to_ffg k mx mf ma qf cx cf p3 p4 (vscale l q))
    (qf ^ 2 * (4 * PI * k_alpha k) * eikonal p3 p4 q * msqrd_xx_to_a_to_ff mx mf ma cx cf p3 p4).
Proof.
  intros k mx mf ma qf cx cf p3 p4 q H3 H4 Hr HX HA N3 N4. rewrite mdot_ldot in N3, N4.
  pose proof (sq_shell _ _ H3) as S3. pose proof (sq_shell _ _ H4) as S4.
  set (Q0 := en p3 + en p4) in *.
  assert (D34 : ldot p3 p4 = Q0 ^ 2 / 2 - mf ^ 2).
  { destruct Hr as (R1 & R2 & R3). unfold vplus in R1, R2, R3. cbn [px py pz] in R1, R2, R3. unfold ldot in S3, S4 |- *. unfold Q0.
    assert (X4 : px p4 = - px p3) by lra. assert (Y4 : py p4 = - py p3) by lra. assert (Z4 : pz p4 = - pz p3) by lra.
    rewrite X4, Y4, Z4 in *. nra. }
  set (fe := fun l : R => (Q0 + l * en q) / 2). set (fr := fun l : R => sqrt (fe l ^ 2 - mx ^ 2)).
  set (dm := fun (p : vec) (l : R) => fe l * en p - fr l * pz p). set (dp := fun (p : vec) (l : R) => fe l * en p + fr l * pz p).
  set (k3 := ldot q p3) in *. set (k4 := ldot q p4) in *. set (d34 := ldot p3 p4) in *. set (e2 := 4 * PI * k_alpha k).
  set (F := fun l => 4 * cf ^ 2 * cx ^ 2 * e2 * qf ^ 2
    * ffg_numerator mx mf (Q0 + l * en q) (dm q l) (dp q l) k3 k4 (dm p3 l) (dm p4 l) (dp p3 l) (dp p4 l) d34 l
    / (k3 ^ 2 * k4 ^ 2 * (ma ^ 2 - 2 * mf ^ 2 - 2 * (l * k3 + l * k4 + d34)) ^ 2)).
  assert (Cfe : continuity_pt fe 0) by (unfold fe; cp; lra).
  assert (Cfr : continuity_pt fr 0).
  { unfold fr. apply cp_sqrt; [cp|]. unfold fe. replace ((Q0 + 0 * en q) / 2) with (Q0 / 2) by (unfold Rdiv; ring). nra. }
  assert (Cm : forall p, continuity_pt (dm p) 0) by (intro p; unfold dm; cp).
  assert (Cp : forall p, continuity_pt (dp p) 0) by (intro p; unfold dp; cp).
  apply soft_square_from with (F := F).
  - unfold F. apply cp_div; [|cp|].
    + unfold ffg_numerator. pose proof (Cm p3). pose proof (Cm p4). pose proof (Cm q). pose proof (Cp p3). pose proof (Cp p4). pose proof (Cp q).
      repeat first [ assumption | exact (Cm p3) | exact (Cm p4) | exact (Cm q) | exact (Cp p3) | exact (Cp p4) | exact (Cp q)
        | apply cp_const | apply cp_id | apply cp_plus | apply cp_minus | apply cp_opp | apply cp_pow | apply cp_mult ].
    + apply Rmult_integral_contrapositive_currified; [apply Rmult_integral_contrapositive_currified; now apply pow_nonzero|].
      apply pow_nonzero. rewrite D34. intro Z. apply HA. lra.
  - unfold F, msqrd_xx_to_a_to_ff, chi_momenta. fold Q0. cbv zeta. rewrite (eikonal_form mf) by assumption. fold k3 k4 d34 e2.
    assert (E0 : fe 0 = Q0 / 2) by (unfold fe, Rdiv; ring). assert (F0 : fr 0 = sqrt ((Q0 / 2) ^ 2 - mx ^ 2)) by (unfold fr; now rewrite E0).
    set (rr := sqrt ((Q0 / 2) ^ 2 - mx ^ 2)) in *.
    assert (G1 : forall p, ldot (V4 (Q0 / 2) 0 0 rr) p = dm p 0) by (intro p; unfold dm, ldot; rewrite E0, F0; cbn [en px py pz]; ring).
    assert (G2 : forall p, ldot (V4 (Q0 / 2) 0 0 (- rr)) p = dp p 0) by (intro p; unfold dp, ldot; rewrite E0, F0; cbn [en px py pz]; ring).
    rewrite !G1, !G2. unfold ffg_numerator.
    set (a := dm p3 0). set (b := dm p4 0). set (c := dp p3 0). set (d := dp p4 0). set (g1 := dm q 0). set (g2 := dp q 0).
    assert (Em : ma ^ 2 - 2 * mf ^ 2 - 2 * (0 * k3 + 0 * k4 + d34) = ma ^ 2 - Q0 ^ 2) by (rewrite D34; field). rewrite Em.
    replace (- ma ^ 2 + Q0 ^ 2) with (- (ma ^ 2 - Q0 ^ 2)) by ring.
    assert (W : ma ^ 2 - Q0 ^ 2 <> 0) by lra. replace ((- (ma ^ 2 - Q0 ^ 2)) ^ 2) with ((ma ^ 2 - Q0 ^ 2) ^ 2) by ring.
    assert (EQ : Q0 ^ 2 = 2 * mf ^ 2 + 2 * d34) by lra. set (w := ma ^ 2 - Q0 ^ 2) in *.
    replace (Q0 + 0 * en q) with Q0 by ring. rewrite EQ. clearbody a b c d g1 g2 w k3 k4 d34 e2. clear - W N3 N4. field. repeat split; assumption.
  - intros l Hl. unfold msqrd_xx_to_a_to_ffg, chi_momenta. cbv zeta.
    replace (en p3 + en p4 + en (vscale l q)) with (Q0 + l * en q) by (unfold Q0, vscale; cbn [en]; ring).
    assert (G1 : forall p, ldot (V4 ((Q0 + l * en q) / 2) 0 0 (sqrt (((Q0 + l * en q) / 2) ^ 2 - mx ^ 2))) p = dm p l)
      by (intro p; unfold dm, fr, fe, ldot; cbn [en px py pz]; ring).
    assert (G2 : forall p, ldot (V4 ((Q0 + l * en q) / 2) 0 0 (- sqrt (((Q0 + l * en q) / 2) ^ 2 - mx ^ 2))) p = dp p l)
      by (intro p; unfold dp, fr, fe, ldot; cbn [en px py pz]; ring).
    rewrite !ldot_scale, (ldot_comm q (V4 _ _ _ (sqrt _))), (ldot_comm q (V4 _ _ _ (- _))), !G1, !G2. fold k3 k4 d34 e2.
    rewrite ffg_scaled by lra. reflexivity.
Qed.
Print Assumptions axial_soft_photon.
Example axial_soft_case : (5 + 5) ^ 2 <> 1 ^ 2 /\ mdot (V4 1 0 0 1) (V4 5 4 0 0) <> 0 /\ mdot (V4 1 0 0 1) (V4 5 (-4) 0 0) <> 0.
Proof. unfold mdot. cbn. lra. Qed.
