(** Lemmas about the right-handed neutrino model: kinematics of three-body decays, two-body widths,
    squared matrix elements, and the closed form of the leptonic width. *)
From Coq Require Import String Reals Bool Lra Lia List.
From Verif Require Import PyBase PyBaseFacts KinModel TheoryModel RamboModel RamboProofs KinProofs DalitzProofs Area SpecProofs NbodyProofs RhnModel.
Import ListNotations.
Local Open Scope R_scope.

(** * Vocabulary *)

(** [dalitz M m1 m2 m3 s t]: some momenta of three particles with these masses, adding up to a particle of
    mass M at rest, have s = (p2+p3)^2 and t = (p1+p3)^2 *)
Definition dalitz (M m1 m2 m3 s t : R) : Prop :=
  exists p1 p2 p3, event M [m1; m2; m3] [p1; p2; p3] /\ s = lnorm_sqr (vplus p2 p3) /\ t = lnorm_sqr (vplus p1 p3).

Lemma sq_le_of_sqrt s c : 0 <= s -> sqrt s <= c -> s <= c ^ 2.
Proof. intros H E. pose proof (sqrt_pos s). pose proof (sqrt_def s H). nra. Qed.

(** The invariants of an event: their sum and their ranges *)
Lemma dalitz_facts M m1 m2 m3 s t : 0 <= m1 -> 0 <= m2 -> 0 <= m3 -> dalitz M m1 m2 m3 s t ->
  m1 + m2 + m3 <= M /\ (m2 + m3) ^ 2 <= s <= (M - m1) ^ 2 /\ (m1 + m3) ^ 2 <= t <= (M - m2) ^ 2
  /\ (m1 + m2) ^ 2 <= M ^ 2 + m1 ^ 2 + m2 ^ 2 + m3 ^ 2 - s - t <= (M - m3) ^ 2.
Proof.
  intros H1 H2 H3 (p1 & p2 & p3 & Ev & -> & ->). apply event3 in Ev. destruct Ev as (S1 & S2 & S3 & E).
  assert (E1 : vplus (vplus p2 p3) p1 = V4 M 0 0 0) by (rewrite <- E; apply vplus_comm).
  assert (E2 : vplus (vplus p1 p3) p2 = V4 M 0 0 0)
    by (rewrite <- E; apply vec_eq; cbn [vplus en px py pz]; ring).
  assert (E3 : vplus (vplus p1 p2) p3 = V4 M 0 0 0)
    by (rewrite <- E; apply vec_eq; cbn [vplus en px py pz]; ring).
  destruct (pair_bounds M m2 m3 m1 p2 p3 p1 H2 H3 H1 S2 S3 (heavy_shell _ _ S1) E1) as [L1 U1].
  destruct (pair_bounds M m1 m3 m2 p1 p3 p2 H1 H3 H2 S1 S3 (heavy_shell _ _ S2) E2) as [L2 U2].
  destruct (pair_bounds M m1 m2 m3 p1 p2 p3 H1 H2 H3 S1 S2 (heavy_shell _ _ S3) E3) as [L3 U3].
  assert (W : lnorm_sqr (vplus p1 p2) = M ^ 2 + m1 ^ 2 + m2 ^ 2 + m3 ^ 2 - lnorm_sqr (vplus p2 p3) - lnorm_sqr (vplus p1 p3)).
  { pose proof (f_equal en E) as Ee. pose proof (f_equal px E) as Ex. pose proof (f_equal py E) as Ey. pose proof (f_equal pz E) as Ez.
    destruct S1 as [S1 _], S2 as [S2 _], S3 as [S3 _]. destruct p1 as [e1 x1 y1 z1], p2 as [e2 x2 y2 z2], p3 as [e3 x3 y3 z3].
    unfold lnorm_sqr. cbn [vplus en px py pz] in *.
    assert (e1 = M - e2 - e3) by lra. assert (x1 = - x2 - x3) by lra. assert (y1 = - y2 - y3) by lra. assert (z1 = - z2 - z3) by lra.
    subst e1 x1 y1 z1. nra. }
  assert (Tot : m1 + m2 + m3 <= M).
  { pose proof (f_equal en E) as Ee. cbn [vplus en] in Ee. destruct S1 as [_ S1], S2 as [_ S2], S3 as [_ S3]. lra. }
  rewrite <- W. assert (0 <= (m2 + m3) ^ 2) by nra. assert (0 <= (m1 + m3) ^ 2) by nra. assert (0 <= (m1 + m2) ^ 2) by nra.
  repeat split; try assumption; apply sq_le_of_sqrt; try assumption; lra.
Qed.

(** * Constants *)
Lemma GF_pos : 0 < GF.
Proof. unfold GF. apply Rdiv_lt_0_compat; [lra|]. apply pow_lt. lra. Qed.
Lemma sw_sq : sw ^ 2 = 2229 / 10000.
Proof. unfold sw. rewrite <- Rsqr_pow2. apply Rsqr_sqrt. lra. Qed.
Lemma sw_4 : sw ^ 4 = (2229 / 10000) ^ 2.
Proof. replace (sw ^ 4) with ((sw ^ 2) ^ 2) by ring. now rewrite sw_sq. Qed.
Lemma lepton_mass_pos g : 0 < lepton_mass g.
Proof. destruct g; unfold lepton_mass, m_e, m_mu, m_tau; lra. Qed.
Lemma m_pi_pos : 0 < m_pi.
Proof. unfold m_pi. lra. Qed.

(** * Squared matrix elements *)
Section MatrixElements.
Variables (vud : R) (ff2 : R -> R).

(** The pion brackets: with t + t' = M^2 + ml^2 + 2 mpi^2 - s both are
    (t - t')^2 + (s - 4 mpi^2)(M^2 + ml^2 - s) *)
Lemma pion_bracket M ml mp s t :
  4 * mp ^ 4 + (ml ^ 2 + M ^ 2) * (ml ^ 2 + M ^ 2 - s) - 4 * (ml ^ 2 + M ^ 2 + 2 * mp ^ 2 - s) * t + 4 * t ^ 2
  = (2 * t - (M ^ 2 + ml ^ 2 + 2 * mp ^ 2 - s)) ^ 2 + (s - 4 * mp ^ 2) * (M ^ 2 + ml ^ 2 - s).
Proof. ring. Qed.

Lemma l_pi0_pi_nonneg s t p : (forall q, 0 <= ff2 q) -> dalitz (p_mx p) (lepton_mass (p_gen p)) m_pi m_pi s t ->
  0 <= msqrd_l_pi0_pi vud ff2 s t p.
Proof.
  intros Hf D. pose proof (lepton_mass_pos (p_gen p)) as Hl. pose proof m_pi_pos as Hp.
  apply dalitz_facts in D; try lra. destruct D as (T & [S1 S2] & _). unfold msqrd_l_pi0_pi. rewrite pion_bracket.
  set (ml := lepton_mass (p_gen p)) in *. set (M := p_mx p) in *.
  assert (0 <= (s - 4 * m_pi ^ 2) * (M ^ 2 + ml ^ 2 - s)).
  { apply Rmult_le_pos; [nra|]. assert (0 <= M) by lra. clearbody ml M. nra. }
  assert (0 <= (2 * t - (M ^ 2 + ml ^ 2 + 2 * m_pi ^ 2 - s)) ^ 2) by apply pow2_ge_0.
  apply Rmult_le_pos; [|apply Hf]. apply Rmult_le_pos; [|lra].
  pose proof (pow2_ge_0 vud). pose proof (pow2_ge_0 (mixing p)). pose proof (pow2_ge_0 GF).
  apply Rmult_le_pos; [apply Rmult_le_pos; [lra|assumption]|assumption].
Qed.

Lemma v_pi_pi_nonneg s t p : (forall q, 0 <= ff2 q) -> dalitz (p_mx p) 0 m_pi m_pi s t ->
  0 <= msqrd_v_pi_pi ff2 s t p.
Proof.
  intros Hf D. pose proof m_pi_pos as Hp.
  apply dalitz_facts in D; try lra. destruct D as (T & [S1 S2] & _). unfold msqrd_v_pi_pi.
  set (M := p_mx p) in *.
  replace (M ^ 4 + 4 * m_pi ^ 4 + 4 * t * (- 2 * m_pi ^ 2 + s + t) - M ^ 2 * (s + 4 * t))
    with ((2 * t - (M ^ 2 + 0 ^ 2 + 2 * m_pi ^ 2 - s)) ^ 2 + (s - 4 * m_pi ^ 2) * (M ^ 2 + 0 ^ 2 - s)) by ring.
  assert (0 <= (s - 4 * m_pi ^ 2) * (M ^ 2 + 0 ^ 2 - s)).
  { apply Rmult_le_pos; nra. }
  pose proof (pow2_ge_0 (2 * t - (M ^ 2 + 0 ^ 2 + 2 * m_pi ^ 2 - s))).
  apply Rmult_le_pos; [|apply Hf]. apply Rmult_le_pos; [|lra].
  pose proof (pow2_ge_0 (1 - 2 * sw ^ 2)). pose proof (pow2_ge_0 (mixing p)). pose proof (pow2_ge_0 GF).
  apply Rmult_le_pos; [apply Rmult_le_pos; assumption|assumption].
Qed.

Lemma l_u_d_form s t p mu md ml ckm :
  let w := p_mx p ^ 2 + mu ^ 2 + md ^ 2 + ml ^ 2 - s - t in
  msqrd_l_u_d s t p mu md ml ckm = 16 * GF ^ 2 * mixing p ^ 2 * ckm ^ 2 * ((w - mu ^ 2 - md ^ 2) * (p_mx p ^ 2 + ml ^ 2 - w)).
Proof. cbv zeta. unfold msqrd_l_u_d. ring. Qed.

Lemma l_u_d_nonneg s t p mu md ml ckm : 0 <= mu -> 0 <= md -> 0 <= ml -> dalitz (p_mx p) mu md ml s t ->
  0 <= msqrd_l_u_d s t p mu md ml ckm.
Proof.
  intros Hu Hd Hl D. apply dalitz_facts in D; try assumption. destruct D as (T & _ & _ & [W1 W2]).
  rewrite l_u_d_form. set (w := p_mx p ^ 2 + mu ^ 2 + md ^ 2 + ml ^ 2 - s - t) in *. set (M := p_mx p) in *. clearbody w M.
  pose proof (pow2_ge_0 GF). pose proof (pow2_ge_0 (mixing p)). pose proof (pow2_ge_0 ckm).
  apply Rmult_le_pos; [apply Rmult_le_pos; [apply Rmult_le_pos; [lra|assumption]|assumption]|].
  apply Rmult_le_pos; nra.
Qed.

(** The leptonic bracket with coupling A: with tau = t - m^2 and tau' = t' - m^2 it is
    (M^2 - s)(A s + 2 A m^2 - 2 m^2) + 2 A tau tau' *)
Lemma lepton_bracket A M m s t :
  - (2 * m ^ 4 * A + 2 * m ^ 2 * (M ^ 2 - s - 2 * A * t) + A * (s ^ 2 + 2 * s * t + 2 * t ^ 2 - M ^ 2 * (s + 2 * t)))
  = (M ^ 2 - s) * (A * s + 2 * A * m ^ 2 - 2 * m ^ 2) + 2 * A * ((t - m ^ 2) * (M ^ 2 + m ^ 2 - s - t)).
Proof. ring. Qed.
Lemma lepton_bracket_nonneg A M m s t : 1 / 3 <= A -> 0 <= m -> dalitz M 0 m m s t ->
  0 <= (M ^ 2 - s) * (A * s + 2 * A * m ^ 2 - 2 * m ^ 2) + 2 * A * ((t - m ^ 2) * (M ^ 2 + m ^ 2 - s - t)).
Proof.
  intros HA Hm D. apply dalitz_facts in D; try lra. destruct D as (T & [S1 S2] & [T1 T2] & [W1 W2]).
  assert (0 <= (M ^ 2 - s) * (A * s + 2 * A * m ^ 2 - 2 * m ^ 2)).
  { apply Rmult_le_pos; [nra|]. assert (4 * m ^ 2 <= s) by nra. nra. }
  assert (0 <= (t - m ^ 2) * (M ^ 2 + m ^ 2 - s - t)) by (apply Rmult_le_pos; nra).
  nra.
Qed.

Lemma v_f_f_nonneg s t p mf : 0 <= mf -> dalitz (p_mx p) 0 mf mf s t -> 0 <= msqrd_v_f_f s t p mf.
Proof.
  intros Hm D. unfold msqrd_v_f_f.
  pose proof (lepton_bracket_nonneg (1 - 4 * sw ^ 2 + 8 * sw ^ 4) (p_mx p) mf s t ltac:(rewrite sw_sq, sw_4; lra) Hm D) as B.
  rewrite <- lepton_bracket in B. set (A := 1 - 4 * sw ^ 2 + 8 * sw ^ 4) in *. clearbody A.
  set (K := 2 * mf ^ 4 * A + _ + _) in *. clearbody K.
  pose proof (pow2_ge_0 GF). pose proof (pow2_ge_0 (mixing p)).
  replace (- 2 * mixing p ^ 2 * GF ^ 2 * K) with (2 * (mixing p ^ 2 * GF ^ 2) * - K) by ring.
  apply Rmult_le_pos; [|assumption]. apply Rmult_le_pos; [lra|]. apply Rmult_le_pos; assumption.
Qed.
Lemma v_l_l_nonneg s t p ml : 0 <= ml -> dalitz (p_mx p) 0 ml ml s t -> 0 <= msqrd_v_l_l s t p ml.
Proof.
  intros Hm D. unfold msqrd_v_l_l.
  pose proof (lepton_bracket_nonneg (1 + 4 * sw ^ 2 + 8 * sw ^ 4) (p_mx p) ml s t ltac:(rewrite sw_sq, sw_4; lra) Hm D) as B.
  rewrite <- lepton_bracket in B. set (A := 1 + 4 * sw ^ 2 + 8 * sw ^ 4) in *. clearbody A.
  set (K := 2 * ml ^ 4 * A + _ + _) in *. clearbody K.
  pose proof (pow2_ge_0 GF). pose proof (pow2_ge_0 (mixing p)).
  replace (- 2 * mixing p ^ 2 * GF ^ 2 * K) with (2 * (mixing p ^ 2 * GF ^ 2) * - K) by ring.
  apply Rmult_le_pos; [|assumption]. apply Rmult_le_pos; [lra|]. apply Rmult_le_pos; assumption.
Qed.

Lemma v_v_v_form s t p g : msqrd_v_v_v s t p g
  = (if gen_eqb g (p_gen p) then 2 else 1) * 16 * GF ^ 2 * mixing p * (s * t + (p_mx p ^ 2 - s - t) * (s + t)).
Proof. unfold msqrd_v_v_v. destruct (gen_eqb _ _); ring. Qed.
Lemma v_v_v_bracket M s t : dalitz M 0 0 0 s t -> 0 <= s * t + (M ^ 2 - s - t) * (s + t).
Proof.
  intro D. apply dalitz_facts in D; try lra. destruct D as (_ & [S1 _] & [T1 _] & [W1 _]).
  assert (0 <= s) by nra. assert (0 <= t) by nra. assert (0 <= M ^ 2 - s - t) by nra.
  assert (0 <= s * t) by (apply Rmult_le_pos; assumption).
  assert (0 <= (M ^ 2 - s - t) * (s + t)) by (apply Rmult_le_pos; lra). lra.
Qed.
End MatrixElements.

(** * Two-body widths *)
Lemma mixing_sq p : 0 <= mixing p ^ 2.
Proof. apply pow2_ge_0. Qed.

Lemma two_body_kallen x y : kallen_lambda 1 (x ^ 2) (y ^ 2) = (1 - (x + y) ^ 2) * (1 - (x - y) ^ 2).
Proof. unfold kallen_lambda. ring. Qed.

Lemma meson_poly xh xl : 0 <= xh -> 0 <= xl -> xh + xl <= 1 ->
  0 <= (1 - xl ^ 2) ^ 2 + xh ^ 2 * (1 + xl ^ 2) - 2 * xh ^ 4.
Proof.
  intros Hh Hl Hs.
  assert (B : xh ^ 2 <= (1 - xl) ^ 2) by nra.
  assert (E1 : xh ^ 2 * (1 + xl) ^ 2 <= (1 - xl ^ 2) ^ 2).
  { replace ((1 - xl ^ 2) ^ 2) with ((1 - xl) ^ 2 * (1 + xl) ^ 2) by ring. apply Rmult_le_compat_r; [apply pow2_ge_0|exact B]. }
  assert (E2 : xh ^ 2 <= 1) by nra. set (b := xh ^ 2) in *. assert (0 <= b) by apply pow2_ge_0.
  replace (xh ^ 4) with (b * b) by (unfold b; ring). clearbody b.
  assert (b <= (1 + xl) ^ 2) by nra.
  assert (b * b <= b * (1 + xl) ^ 2) by (apply Rmult_le_compat_l; assumption).
  assert (b * b <= b * (1 + xl ^ 2)) by (apply Rmult_le_compat_l; nra). lra.
Qed.

Lemma ratio_sum mx a b : 0 < mx -> a + b <= mx -> a / mx + b / mx <= 1.
Proof. intros H H'. apply Rmult_le_reg_r with mx; [exact H|]. field_simplify; lra. Qed.
Lemma ratio_nonneg mx a : 0 < mx -> 0 <= a -> 0 <= a / mx.
Proof. intros H H'. apply Rmult_le_pos; [exact H'|]. left. now apply Rinv_0_lt_compat. Qed.

(** * The Dalitz region at fixed s when the last two masses are equal *)
Lemma dalitz_physical M m1 m2 m3 s t : 0 < M ->
  (dalitz M m1 m2 m3 s t <-> physical M m1 m2 m3 (1 + (m1 / M) ^ 2 - s / M ^ 2) (1 + (m2 / M) ^ 2 - t / M ^ 2)).
Proof.
  intro HM.
  assert (K : forall p1 p2 p3, event M [m1; m2; m3] [p1; p2; p3] ->
            lnorm_sqr (vplus p2 p3) = M ^ 2 - 2 * M * en p1 + m1 ^ 2 /\ lnorm_sqr (vplus p1 p3) = M ^ 2 - 2 * M * en p2 + m2 ^ 2).
  { intros p1 p2 p3 Ev. apply event3 in Ev. destruct Ev as ([S1 _] & [S2 _] & _ & E).
    pose proof (f_equal en E) as Ee. pose proof (f_equal px E) as Ex. pose proof (f_equal py E) as Ey. pose proof (f_equal pz E) as Ez.
    destruct p1 as [e1 x1 y1 z1], p2 as [e2 x2 y2 z2], p3 as [e3 x3 y3 z3]. unfold lnorm_sqr. cbn [vplus en px py pz] in *.
    assert (e3 = M - e1 - e2) by lra. assert (x3 = - x1 - x2) by lra. assert (y3 = - y1 - y2) by lra. assert (z3 = - z1 - z2) by lra.
    subst e3 x3 y3 z3. split; nra. }
  split.
  - intros (p1 & p2 & p3 & Ev & Es & Et). exists p1, p2, p3. destruct (K _ _ _ Ev) as [K1 K2].
    split; [exact Ev|]. rewrite Es, Et, K1, K2. split; field; lra.
  - intros (p1 & p2 & p3 & Ev & Es & Et). exists p1, p2, p3. destruct (K _ _ _ Ev) as [K1 K2].
    split; [exact Ev|]. rewrite K1, K2, Es, Et. split; field; lra.
Qed.

Lemma dalitz_band M m1 m s t : 0 < M -> 0 <= m1 -> 0 <= m -> m1 < M -> 0 < s -> (m + m) ^ 2 <= s -> s < (M - m1) ^ 2 ->
  (dalitz M m1 m m s t <-> (2 * t - (M ^ 2 + m1 ^ 2 + 2 * m ^ 2 - s)) ^ 2 <= kallen_lambda (M ^ 2) s (m1 ^ 2) * (1 - 4 * m ^ 2 / s)).
Proof.
  intros HM H1 H2 H1M Hs Hl Hu. rewrite dalitz_physical by exact HM.
  set (x := 1 + (m1 / M) ^ 2 - s / M ^ 2). set (y := 1 + (m / M) ^ 2 - t / M ^ 2).
  assert (G : 0 <= gram ((m1 / M) ^ 2) ((m / M) ^ 2) ((m / M) ^ 2) x y
              <-> (2 * t - (M ^ 2 + m1 ^ 2 + 2 * m ^ 2 - s)) ^ 2 <= kallen_lambda (M ^ 2) s (m1 ^ 2) * (1 - 4 * m ^ 2 / s)).
  { pose proof (gram_identity ((m1 / M) ^ 2) ((m / M) ^ 2) ((m / M) ^ 2) x y) as I. cbn zeta in I.
    set (gr := gram _ _ _ x y) in *. clearbody gr.
    assert (E : kallen_lambda (M ^ 2) s (m1 ^ 2) * (1 - 4 * m ^ 2 / s) - (2 * t - (M ^ 2 + m1 ^ 2 + 2 * m ^ 2 - s)) ^ 2 = 16 * M ^ 6 / s * gr).
    { replace gr with (16 * (1 - x + (m1 / M) ^ 2) * gr / (16 * (s / M ^ 2))).
      2:{ unfold x. field. split; lra. }
      rewrite <- I. unfold x, y, kallen_lambda. field. split; lra. }
    assert (Pos : 0 < 16 * M ^ 6 / s) by (apply Rdiv_lt_0_compat; [pose proof (pow_lt M 6 HM); lra|exact Hs]).
    split; intro H.
    - assert (0 <= 16 * M ^ 6 / s * gr) by (apply Rmult_le_pos; lra). lra.
    - assert (0 <= 16 * M ^ 6 / s * gr) by lra. clear E. apply Rmult_le_reg_l with (16 * M ^ 6 / s); [exact Pos|]. lra. }
  rewrite <- G. assert (M2 : 0 < M ^ 2) by (apply pow_lt; exact HM).
  split; [apply physical_gram; exact HM|]. intro Hg. apply gram_physical; try assumption.
  - unfold x. apply Rmult_lt_reg_r with (M ^ 2); [exact M2|].
    replace (2 * (m1 / M) * M ^ 2) with (2 * m1 * M) by (field; lra).
    replace ((1 + (m1 / M) ^ 2 - s / M ^ 2) * M ^ 2) with (M ^ 2 + m1 ^ 2 - s) by (field; lra). nra.
  - unfold x. assert (0 < s / M ^ 2) by (apply Rdiv_lt_0_compat; assumption). lra.
  - unfold x. apply Rmult_le_reg_r with (M ^ 2); [exact M2|].
    replace ((1 + (m1 / M) ^ 2 - s / M ^ 2) * M ^ 2) with (M ^ 2 + m1 ^ 2 - s) by (field; lra). nra.
  - unfold x. apply Rmult_le_reg_r with (M ^ 2); [exact M2|].
    replace ((m / M + m / M) ^ 2 * M ^ 2) with ((m + m) ^ 2) by (field; lra).
    replace ((1 - (1 + (m1 / M) ^ 2 - s / M ^ 2) + (m1 / M) ^ 2) * M ^ 2) with s by (field; lra). exact Hl.
Qed.

(** The half width of the band in t *)
Definition t_half (M m1 m s : R) : R := sqrt (kallen_lambda (M ^ 2) s (m1 ^ 2)) * sqrt (1 - 4 * m ^ 2 / s) / 2.
Definition t_mid (M m1 m s : R) : R := (M ^ 2 + m1 ^ 2 + 2 * m ^ 2 - s) / 2.

Lemma kallen_below M m1 s : 0 <= m1 -> m1 <= M -> s <= (M - m1) ^ 2 -> 0 <= kallen_lambda (M ^ 2) s (m1 ^ 2).
Proof.
  intros H1 H2 H3. replace (kallen_lambda (M ^ 2) s (m1 ^ 2)) with (((M - m1) ^ 2 - s) * ((M + m1) ^ 2 - s)) by (unfold kallen_lambda; ring).
  apply Rmult_le_pos; nra.
Qed.
Lemma beta_nonneg m s : 0 < s -> 4 * m ^ 2 <= s -> 0 <= 1 - 4 * m ^ 2 / s.
Proof. intros H H'. apply Rmult_le_reg_r with s; [exact H|]. field_simplify; lra. Qed.

Lemma dalitz_interval M m1 m s t : 0 < M -> 0 <= m1 -> 0 <= m -> m1 < M -> 0 < s -> (m + m) ^ 2 <= s -> s < (M - m1) ^ 2 ->
  (dalitz M m1 m m s t <-> t_mid M m1 m s - t_half M m1 m s <= t <= t_mid M m1 m s + t_half M m1 m s).
Proof.
  intros HM H1 H2 H1M Hs Hl Hu. rewrite dalitz_band by assumption.
  assert (K : 0 <= kallen_lambda (M ^ 2) s (m1 ^ 2)) by (apply kallen_below; lra).
  assert (B : 0 <= 1 - 4 * m ^ 2 / s) by (apply beta_nonneg; nra).
  unfold t_mid, t_half. pose proof (sqrt_pos (kallen_lambda (M ^ 2) s (m1 ^ 2))) as SK. pose proof (sqrt_pos (1 - 4 * m ^ 2 / s)) as SB.
  pose proof (sqrt_def _ K) as DK. pose proof (sqrt_def _ B) as DB.
  set (k := sqrt (kallen_lambda _ _ _)) in *. set (b := sqrt (1 - _)) in *. rewrite <- DK, <- DB.
  set (c := M ^ 2 + m1 ^ 2 + 2 * m ^ 2 - s). clearbody k b c.
  assert (0 <= k * b) by (apply Rmult_le_pos; assumption). replace (k * k * (b * b)) with ((k * b) ^ 2) by ring.
  set (h := k * b) in *. clearbody h. split; intro H'.
  - split; nra.
  - nra.
Qed.

(** The decay width of a particle of mass M into three particles with a squared matrix element that
    depends on s and t: 1/((2 pi)^3 32 M^3) times the integral over the Dalitz region.  The first clause
    says that [lo s, hi s] are exactly the values of t that momenta allow at that s. *)
Definition phase_space_width (M m1 m2 m3 : R) (msqrd : R -> R -> R) (v : R) : Prop :=
  exists lo hi inner : R -> R,
    (forall s, (m2 + m3) ^ 2 < s < (M - m1) ^ 2 ->
       lo s <= hi s /\ (forall t, dalitz M m1 m2 m3 s t <-> lo s <= t <= hi s) /\ area (msqrd s) (lo s) (hi s) (inner s))
    /\ area inner ((m2 + m3) ^ 2) ((M - m1) ^ 2) (256 * PI ^ 3 * M ^ 3 * v).

(** The limits are determined by the region, so the width is *)
Lemma phase_space_width_unique M m1 m2 m3 f v w : 0 < M -> (m2 + m3) ^ 2 <= (M - m1) ^ 2 ->
  phase_space_width M m1 m2 m3 f v -> phase_space_width M m1 m2 m3 f w -> v = w.
Proof.
  intros HM Hs (lo & hi & i & A & B) (lo' & hi' & i' & A' & B').
  assert (E : area i ((m2 + m3) ^ 2) ((M - m1) ^ 2) (256 * PI ^ 3 * M ^ 3 * w)).
  { apply (area_ext i' i _ _ _ []); [|exact B']. intros s Hs' _. destruct (A s Hs') as (L & D & I). destruct (A' s Hs') as (L' & D' & I').
    assert (El : lo s = lo' s).
    { apply Rle_antisym.
      - assert (dalitz M m1 m2 m3 s (lo' s)) as Q by (apply D'; lra). apply D in Q. lra.
      - assert (dalitz M m1 m2 m3 s (lo s)) as Q by (apply D; lra). apply D' in Q. lra. }
    assert (Eh : hi s = hi' s).
    { apply Rle_antisym.
      - assert (dalitz M m1 m2 m3 s (hi s)) as Q by (apply D; lra). apply D' in Q. lra.
      - assert (dalitz M m1 m2 m3 s (hi' s)) as Q by (apply D'; lra). apply D in Q. lra. }
    rewrite <- El, <- Eh in I'. exact (area_unique _ _ _ _ _ L I' I). }
  pose proof (area_unique _ _ _ _ _ Hs B E) as Q.
  assert (0 < 256 * PI ^ 3 * M ^ 3). { pose proof (pow_lt PI 3 PI_RGT_0). pose proof (pow_lt M 3 HM). apply Rmult_lt_0_compat; [lra|assumption]. }
  apply Rmult_eq_reg_l with (256 * PI ^ 3 * M ^ 3); lra.
Qed.

(** Integrals over t of a quadratic *)
Lemma area_quadratic k0 k2 c h : area (fun t => k0 + k2 * (2 * t - 2 * c) ^ 2) (c - h) (c + h) (2 * h * k0 + k2 * (8 / 3 * h ^ 3)).
Proof.
  apply (area_val _ _ _ ((k0 * (c + h) + k2 * ((2 * (c + h) - 2 * c) ^ 3 / 6)) - (k0 * (c - h) + k2 * ((2 * (c - h) - 2 * c) ^ 3 / 6)))); [field|].
  apply (area_of_antiderivative (fun t => k0 * t + k2 * ((2 * t - 2 * c) ^ 3 / 6))). intros t _.
  eapply dl_val.
  - apply dl_plus; [apply dl_mult; [apply (dl_const k0)|apply dl_id]|apply dl_mult; [apply (dl_const k2)|]].
    apply dl_div; [|apply (dl_const 6)|lra]. apply dl_pow. apply dl_minus; [apply dl_mult; [apply (dl_const 2)|apply dl_id]|apply (dl_const (2 * c))].
  - unfold Rsqr. simpl. field.
Qed.

(** * Closed form of the leptonic width *)
Section Leptonic.
Variable a : R.   (* (m/M)^2 *)
Hypothesis Ha : 0 < a.

Definition bz (z : R) : R := sqrt (1 - 4 * a / z).
Definition lamz (z : R) : R := ln ((1 - bz z) / (1 + bz z)).

Lemma bz_arg z : 4 * a <= z -> 0 <= 1 - 4 * a / z < 1.
Proof.
  intro H. assert (0 < z) by lra. assert (0 < 4 * a / z) by (apply Rdiv_lt_0_compat; lra).
  assert (4 * a / z <= 1) by (apply Rmult_le_reg_r with z; [lra|]; field_simplify; lra). lra.
Qed.
Lemma bz_sq z : 4 * a <= z -> bz z * bz z = 1 - 4 * a / z.
Proof. intro H. apply sqrt_def. apply (bz_arg z H). Qed.
Lemma bz_range z : 4 * a <= z -> 0 <= bz z < 1.
Proof.
  intro H. split; [apply sqrt_pos|]. rewrite <- sqrt_1. apply sqrt_lt_1_alt. exact (bz_arg z H).
Qed.
Lemma bz_pos z : 4 * a < z -> 0 < bz z.
Proof.
  intro H. apply sqrt_lt_R0. assert (4 * a / z < 1); [|lra]. apply Rmult_lt_reg_r with z; [lra|]. field_simplify; lra.
Qed.
Lemma bz_cont z : 4 * a <= z -> continuity_pt bz z.
Proof.
  intro H. unfold bz. apply (continuity_pt_comp (fun z => 1 - 4 * a / z) sqrt).
  - apply derivable_continuous_pt. eexists. apply dl_minus; [apply (dl_const 1)|]. apply dl_div; [apply (dl_const (4 * a))|apply dl_id|lra].
  - apply continuity_pt_sqrt. apply (bz_arg z H).
Qed.
Lemma lamz_cont z : 4 * a <= z -> continuity_pt lamz z.
Proof.
  intro H. pose proof (bz_range z H) as B. unfold lamz.
  apply (continuity_pt_comp (fun z => (1 - bz z) / (1 + bz z)) ln).
  - apply continuity_pt_div; [| |lra].
    + apply continuity_pt_minus; [apply continuity_pt_const; intros ? ?; reflexivity|apply bz_cont; exact H].
    + apply continuity_pt_plus; [apply continuity_pt_const; intros ? ?; reflexivity|apply bz_cont; exact H].
  - apply derivable_continuous_pt. exists (/ ((1 - bz z) / (1 + bz z))). apply derivable_pt_lim_ln. apply Rdiv_lt_0_compat; lra.
Qed.
Lemma bz_dl z : 4 * a < z -> derivable_pt_lim bz z (2 * a / (z ^ 2 * bz z)).
Proof.
  intro H. pose proof (bz_pos z H) as B. unfold bz at 1. eapply dl_val.
  - apply dl_sqrt; [|apply Rlt_le_trans with (bz z * bz z); [apply Rmult_lt_0_compat; exact B|rewrite bz_sq; lra]].
    apply dl_minus; [apply (dl_const 1)|]. apply dl_div; [apply (dl_const (4 * a))|apply dl_id|lra].
  - unfold Rsqr. fold (bz z). field. split; lra.
Qed.
Lemma lamz_dl z : 4 * a < z -> derivable_pt_lim lamz z (- 1 / (z * bz z)).
Proof.
  intro H. pose proof (bz_pos z H) as B. pose proof (bz_range z ltac:(lra)) as B1. unfold lamz. eapply dl_val.
  - apply dl_ln; [|apply Rdiv_lt_0_compat; lra]. apply dl_div; [| |lra].
    + apply dl_minus; [apply (dl_const 1)|apply bz_dl; exact H].
    + apply dl_plus; [apply (dl_const 1)|apply bz_dl; exact H].
  - unfold Rsqr. pose proof (bz_sq z ltac:(lra)) as Q. set (b := bz z) in *. clearbody b.
    assert (E : a = z * (1 - b * b) / 4) by (rewrite Q; field; lra). rewrite E. field. repeat split; try lra; nra.
Qed.

(** The integral of [q z * sqrt(1 - 4a/z)], given the rational part P of the antiderivative *)
Lemma lepton_area P P' q c : 4 * a < 1 -> (forall z, 4 * a <= z -> derivable_pt_lim P z (P' z)) ->
  (forall z, 4 * a < z -> P' z * (z ^ 2 - 4 * a * z) + P z * (z - 2 * a) - c = q z * (z - 4 * a)) ->
  area (fun z => q z * bz z) (4 * a) 1 (P 1 * bz 1 + c * lamz 1).
Proof.
  intros H1 HP E. exists (fun z => P z * (z * bz z) + c * lamz z). split; [|split].
  - intros z Hz. apply continuity_pt_plus.
    + apply continuity_pt_mult; [apply derivable_continuous_pt; exists (P' z); apply HP; lra|].
      apply continuity_pt_mult; [apply derivable_continuous_pt, derivable_pt_id|apply bz_cont; lra].
    + apply continuity_pt_mult; [apply continuity_pt_const; intros ? ?; reflexivity|apply lamz_cont; lra].
  - exists []. intros z Hz _. pose proof (bz_pos z ltac:(lra)) as B. eapply dl_val.
    + apply dl_plus; [apply dl_mult; [apply HP; lra|apply dl_mult; [apply dl_id|apply bz_dl; lra]]|].
      apply dl_mult; [apply (dl_const c)|apply lamz_dl; lra].
    + cbv beta. specialize (E z ltac:(lra)). pose proof (bz_sq z ltac:(lra)) as Q. set (b := bz z) in *. clearbody b.
      apply Rmult_eq_reg_r with (z * b); [|apply Rgt_not_eq, Rmult_lt_0_compat; lra].
      transitivity (P' z * z ^ 2 * (b * b) + P z * z * (b * b) + P z * (2 * a) - c).
      * field. split; lra.
      * transitivity (q z * z * (b * b)); [|ring]. rewrite Q.
        transitivity (P' z * (z ^ 2 - 4 * a * z) + P z * (z - 2 * a) - c); [field; lra|]. rewrite E. field. lra.
  - assert (B0 : bz (4 * a) = 0) by (unfold bz; replace (1 - 4 * a / (4 * a)) with 0 by (field; lra); apply sqrt_0).
    assert (L0 : lamz (4 * a) = 0) by (unfold lamz; rewrite B0; replace ((1 - 0) / (1 + 0)) with 1 by field; apply ln_1).
    rewrite B0, L0. ring.
Qed.

(** The two integrals the leptonic widths are made of *)
Definition q_vector (z : R) : R := (1 - z) ^ 2 * (1 + 2 * z) * (1 + 2 * a / z).
Definition q_mass (z : R) : R := (1 - z) ^ 2.
Lemma area_vector : 4 * a < 1 -> area (fun z => q_vector z * bz z) (4 * a) 1
  ((1 / 2 - 5 * a + 9 * a ^ 2 - 18 * a ^ 3) * bz 1 + (36 * a ^ 4 - 24 * a ^ 3) * lamz 1).
Proof.
  intro H1. set (P := fun z => - 4 * a / z + (1 + 12 * a ^ 2 - 18 * a ^ 3) + (- 2 * a - 3 * a ^ 2) * z + (a - 1) * z ^ 2 + 1 / 2 * z ^ 3).
  replace (1 / 2 - 5 * a + 9 * a ^ 2 - 18 * a ^ 3) with (P 1) by (unfold P; field).
  apply (lepton_area P (fun z => 4 * a / (z * z) + (- 2 * a - 3 * a ^ 2) + (a - 1) * (2 * z) + 1 / 2 * (3 * z ^ 2))); [exact H1| |].
  - intros z Hz. unfold P. eapply dl_val.
    + apply dl_plus; [apply dl_plus; [apply dl_plus; [apply dl_plus; [|apply (dl_const (1 + 12 * a ^ 2 - 18 * a ^ 3))]|]|]|].
      * apply dl_div; [apply (dl_const (- 4 * a))|apply dl_id|lra].
      * apply dl_mult; [apply (dl_const (- 2 * a - 3 * a ^ 2))|apply dl_id].
      * apply dl_mult; [apply (dl_const (a - 1))|apply dl_pow, dl_id].
      * apply dl_mult; [apply (dl_const (1 / 2))|apply dl_pow, dl_id].
    + unfold Rsqr. simpl. field. lra.
  - intros z Hz. unfold P, q_vector. field. lra.
Qed.
Lemma area_mass : 4 * a < 1 -> area (fun z => q_mass z * bz z) (4 * a) 1
  ((1 / 3 + 5 / 3 * a - 2 * a ^ 2) * bz 1 + (2 * a - 4 * a ^ 2 + 4 * a ^ 3) * lamz 1).
Proof.
  intro H1. set (P := fun z => (1 + 2 * a - 2 * a ^ 2) + (- 1 - a / 3) * z + 1 / 3 * z ^ 2).
  replace (1 / 3 + 5 / 3 * a - 2 * a ^ 2) with (P 1) by (unfold P; field).
  apply (lepton_area P (fun z => (- 1 - a / 3) + 1 / 3 * (2 * z))); [exact H1| |].
  - intros z Hz. unfold P. eapply dl_val.
    + apply dl_plus; [apply dl_plus; [apply (dl_const (1 + 2 * a - 2 * a ^ 2))|]|].
      * apply dl_mult; [apply (dl_const (- 1 - a / 3))|apply dl_id].
      * apply dl_mult; [apply (dl_const (1 / 3))|apply dl_pow, dl_id].
    + simpl. field.
  - intros z Hz. unfold P, q_mass. field.
Qed.
End Leptonic.

(** ** The logarithm of the code *)

(** The exact logarithm, 2 ln((1-s)/(1+s)) with s = sqrt(1 - 4 x^2) *)
Definition exact_log (x : R) : R := 2 * ln ((1 - vff_sx x) / (1 + vff_sx x)).

Lemma sx_range x : 0 < x < 1 / 2 -> 0 < vff_sx x < 1 /\ vff_sx x * vff_sx x = 1 - 4 * x ^ 2.
Proof.
  intro H. assert (0 < 1 - 4 * x ^ 2 < 1) by nra. unfold vff_sx.
  pose proof (sqrt_lt_R0 (1 - 4 * x ^ 2) ltac:(lra)). pose proof (sqrt_def (1 - 4 * x ^ 2) ltac:(lra)).
  repeat split; try assumption. apply Rlt_le_trans with (sqrt 1); [apply sqrt_lt_1_alt; lra|rewrite sqrt_1; lra].
Qed.
Lemma num_form x : 0 < x < 1 / 2 -> vff_num x = (1 - vff_sx x) ^ 3 / 4.
Proof.
  intro H. destruct (sx_range x H) as [_ Q]. unfold vff_num. set (s := vff_sx x) in *. clearbody s.
  replace (x ^ 2) with ((1 - s * s) / 4) by lra. field.
Qed.
Lemma log_form x : 0 < x < 1 / 2 -> ln (vff_num x / (x ^ 2 * (1 + vff_sx x))) = exact_log x.
Proof.
  intro H. destruct (sx_range x H) as [S Q]. rewrite (num_form x H). unfold exact_log. set (s := vff_sx x) in *. clearbody s.
  replace ((1 - s) ^ 3 / 4 / (x ^ 2 * (1 + s))) with (((1 - s) / (1 + s)) * ((1 - s) / (1 + s))).
  - assert (0 < (1 - s) / (1 + s)) by (apply Rdiv_lt_0_compat; lra). rewrite ln_mult by assumption. ring.
  - replace (x ^ 2) with ((1 - s * s) / 4) by lra. field. repeat split; nra.
Qed.

(** The truncated series used for small x: 4 ln x + 4 x^2 + 6 x^4 is below the exact value by at most 16 x^6 *)
Section Series.
Definition sa (a : R) : R := sqrt (1 - 4 * a).
Definition gap (a : R) : R := 4 * ln (2 / (1 + sa a)) - 4 * a - 6 * a ^ 2.
Lemma sa_pos a : a <= 1 / 100 -> 0 < sa a.
Proof. intro H. apply sqrt_lt_R0. lra. Qed.
Lemma sa_dl a : a <= 1 / 100 -> derivable_pt_lim sa a (- 2 / sa a).
Proof.
  intro H. pose proof (sa_pos a H) as S. unfold sa at 1. eapply dl_val.
  - apply dl_sqrt; [|lra]. apply dl_minus; [apply (dl_const 1)|]. apply dl_mult; [apply (dl_const 4)|apply dl_id].
  - cbv beta. fold (sa a). field. lra.
Qed.
Lemma gap_dl a : a <= 1 / 100 -> derivable_pt_lim gap a (8 / (sa a * (1 + sa a)) - 4 - 12 * a).
Proof.
  intro H. pose proof (sa_pos a H) as S. unfold gap. eapply dl_val.
  - apply dl_minus; [apply dl_minus|].
    + apply dl_mult; [apply (dl_const 4)|]. apply dl_ln; [|apply Rdiv_lt_0_compat; lra].
      apply dl_div; [apply (dl_const 2)| |lra]. apply dl_plus; [apply (dl_const 1)|apply sa_dl; exact H].
    + apply dl_mult; [apply (dl_const 4)|apply dl_id].
    + apply dl_mult; [apply (dl_const 6)|apply dl_pow, dl_id].
  - unfold Rsqr. simpl. field. split; lra.
Qed.
Lemma sa_bounds a : 0 <= a <= 1 / 100 -> 1 - 2 * a - 2 * a ^ 2 - 5 * a ^ 3 <= sa a <= 1 - 2 * a - 2 * a ^ 2.
Proof.
  intro H. pose proof (sa_pos a ltac:(lra)) as S. pose proof (sqrt_def (1 - 4 * a) ltac:(lra)) as Q. fold (sa a) in Q.
  assert (0 <= a * a) by nra. assert (a * a <= a / 100) by nra. assert (0 <= a * a * a <= a / 10000) by nra.
  split.
  - apply Rnot_lt_le. intro L.
    assert ((1 - 2 * a - 2 * a ^ 2 - 5 * a ^ 3) * (1 - 2 * a - 2 * a ^ 2 - 5 * a ^ 3) <= 1 - 4 * a).
    { replace ((1 - 2 * a - 2 * a ^ 2 - 5 * a ^ 3) * (1 - 2 * a - 2 * a ^ 2 - 5 * a ^ 3))
        with (1 - 4 * a - a ^ 3 * (2 - 24 * a - 20 * a ^ 2 - 25 * a ^ 3)) by ring.
      assert (0 <= a ^ 3 * (2 - 24 * a - 20 * a ^ 2 - 25 * a ^ 3)); [|lra]. apply Rmult_le_pos; [apply pow_le; lra|]. simpl. nra. }
    nra.
  - apply Rnot_lt_le. intro L.
    assert (1 - 4 * a <= (1 - 2 * a - 2 * a ^ 2) * (1 - 2 * a - 2 * a ^ 2)).
    { replace ((1 - 2 * a - 2 * a ^ 2) * (1 - 2 * a - 2 * a ^ 2)) with (1 - 4 * a + a ^ 3 * (8 + 4 * a)) by ring.
      assert (0 <= a ^ 3 * (8 + 4 * a)); [|lra]. apply Rmult_le_pos; [apply pow_le|]; lra. }
    assert (0 < 1 - 2 * a - 2 * a ^ 2) by nra. nra.
Qed.
Lemma gap_slope a : 0 <= a <= 1 / 100 -> 0 <= 8 / (sa a * (1 + sa a)) - 4 - 12 * a <= 48 * a ^ 2.
Proof.
  intro H. pose proof (sa_pos a ltac:(lra)) as S. pose proof (sqrt_def (1 - 4 * a) ltac:(lra)) as Q. fold (sa a) in Q.
  pose proof (sa_bounds a H) as [B1 B2].
  assert (E : sa a * (1 + sa a) = sa a + 1 - 4 * a) by lra. rewrite E.
  assert (D : 0 < sa a + 1 - 4 * a) by lra. set (s := sa a) in *. clearbody s.
  assert (0 <= a ^ 3) by (apply pow_le; lra). assert (0 <= a ^ 2 <= 1 / 10000) by (simpl; nra).
  split.
  - assert (4 + 12 * a <= 8 / (s + 1 - 4 * a)); [|lra]. apply Rmult_le_reg_r with (s + 1 - 4 * a); [exact D|]. field_simplify; [|lra].
    assert ((1 + 3 * a) * (s + 1 - 4 * a) <= (1 + 3 * a) * (2 - 6 * a - 2 * a ^ 2)) by (apply Rmult_le_compat_l; lra).
    assert ((1 + 3 * a) * (2 - 6 * a - 2 * a ^ 2) = 2 - 20 * a ^ 2 - 6 * a ^ 3) by ring. lra.
  - assert (8 / (s + 1 - 4 * a) <= 4 + 12 * a + 48 * a ^ 2); [|lra]. apply Rmult_le_reg_r with (s + 1 - 4 * a); [exact D|].
    replace (8 / (s + 1 - 4 * a) * (s + 1 - 4 * a)) with 8 by (field; lra).
    assert ((1 + 3 * a + 12 * a ^ 2) * (2 - 6 * a - 2 * a ^ 2 - 5 * a ^ 3) <= (1 + 3 * a + 12 * a ^ 2) * (s + 1 - 4 * a)) by (apply Rmult_le_compat_l; lra).
    assert (Eq : (1 + 3 * a + 12 * a ^ 2) * (2 - 6 * a - 2 * a ^ 2 - 5 * a ^ 3) = 2 + a ^ 2 * (4 - 83 * a - 39 * a ^ 2 - 60 * a ^ 3)) by ring.
    assert (0 <= a ^ 2 * (4 - 83 * a - 39 * a ^ 2 - 60 * a ^ 3)). { apply Rmult_le_pos; [lra|]. assert (a ^ 3 <= 1 / 10000) by (simpl in *; nra). lra. }
    lra.
Qed.
Lemma gap_0 : gap 0 = 0.
Proof. unfold gap, sa. replace (1 - 4 * 0) with 1 by ring. rewrite sqrt_1. replace (2 / (1 + 1)) with 1 by field. rewrite ln_1. ring. Qed.
Lemma gap_bounds a : 0 <= a <= 1 / 100 -> 0 <= gap a <= 16 * a ^ 3.
Proof.
  intro H. rewrite <- gap_0 at 1. split.
  - apply (mono_piece gap (fun x => 8 / (sa x * (1 + sa x)) - 4 - 12 * x)); [lra| |].
    + intros x Hx. apply derivable_continuous_pt. eexists. apply gap_dl. lra.
    + intros x Hx. split; [apply gap_dl; lra|apply gap_slope; lra].
  - assert (16 * 0 ^ 3 - gap 0 <= 16 * a ^ 3 - gap a); [|rewrite gap_0 in *; lra].
    apply (mono_piece (fun x => 16 * x ^ 3 - gap x) (fun x => 48 * x ^ 2 - (8 / (sa x * (1 + sa x)) - 4 - 12 * x))); [lra| |].
    + intros x Hx. apply derivable_continuous_pt. eexists. apply dl_minus; [apply dl_mult; [apply (dl_const 16)|apply dl_pow, dl_id]|apply gap_dl; lra].
    + intros x Hx. split; [|pose proof (gap_slope x ltac:(lra)); lra]. eapply dl_val.
      * apply dl_minus; [apply dl_mult; [apply (dl_const 16)|apply dl_pow, dl_id]|apply gap_dl; lra].
      * simpl. ring.
Qed.
End Series.

Lemma series_gap x : 0 < x < 1 / 2 -> exact_log x - (4 * ln x + 4 * x ^ 2 + 6 * x ^ 4) = gap (x ^ 2).
Proof.
  intro H. destruct (sx_range x H) as [S Q]. unfold exact_log, gap. change (sa (x ^ 2)) with (vff_sx x). set (s := vff_sx x) in *. clearbody s.
  replace ((1 - s) / (1 + s)) with (x * x * ((2 / (1 + s)) * (2 / (1 + s)))).
  - assert (0 < 2 / (1 + s)) by (apply Rdiv_lt_0_compat; lra). assert (0 < x * x) by nra.
    rewrite !ln_mult by (try assumption; try lra; apply Rmult_lt_0_compat; assumption). ring.
  - replace (x * x) with ((1 - s * s) / 4) by lra. field. lra.
Qed.

(** Whichever branch the code takes, its logarithm is within 16 x^6 of the exact one *)
Lemma lx_error x : 0 < x < 1 / 2 -> 0 <= exact_log x - vff_lx x <= 16 * x ^ 6.
Proof.
  intro H. unfold vff_lx. destruct (Rlt_dec (vff_num x) (1 / 10 ^ 10)) as [L|L].
  - assert (Hx : 0 <= x ^ 2 <= 1 / 100).
    { split; [apply pow2_ge_0|]. rewrite (num_form x H) in L. destruct (sx_range x H) as [S Q]. set (s := vff_sx x) in *. clearbody s.
      apply Rnot_lt_le. intro G. assert (1 / 100 < 1 - s) by nra.
      assert (1 / 100 * (1 / 100) < (1 - s) * (1 - s)) by nra. assert (1 / 100 * (1 / 100) * (1 / 100) < (1 - s) * (1 - s) * (1 - s)) by nra.
      simpl in L. lra. }
    rewrite (series_gap x H). pose proof (gap_bounds (x ^ 2) Hx) as G. replace (x ^ 6) with ((x ^ 2) ^ 3) by ring. exact G.
  - rewrite (log_form x H). assert (0 <= x ^ 6) by (apply pow_le; lra). lra.
Qed.

(** * Widths as phase-space integrals *)
Lemma area_shrink f a b v k : 0 < k -> area f (a / k) (b / k) v -> area (fun s => f (s / k)) a b (k * v).
Proof.
  intros Hk A. apply (area_ext (fun s => k * (f (/ k * s) * / k)) _ _ _ _ []).
  - intros s _ _. replace (/ k * s) with (s / k) by (unfold Rdiv; ring). field. lra.
  - apply area_scale. apply area_stretch; [now apply Rinv_0_lt_compat|].
    replace (/ k * a) with (a / k) by (unfold Rdiv; ring). replace (/ k * b) with (b / k) by (unfold Rdiv; ring). exact A.
Qed.

Lemma kallen_massless M s : 0 <= M -> s <= M ^ 2 -> sqrt (kallen_lambda (M ^ 2) s (0 ^ 2)) = M ^ 2 - s.
Proof.
  intros HM H. replace (kallen_lambda (M ^ 2) s (0 ^ 2)) with ((M ^ 2 - s) ^ 2) by (unfold kallen_lambda; ring).
  apply sqrt_pow2. lra.
Qed.

(** ** N -> nu f f *)
Definition bracket (A M m s t : R) : R :=
  (M ^ 2 - s) * (A * s + 2 * A * m ^ 2 - 2 * m ^ 2) + 2 * A * ((t - m ^ 2) * (M ^ 2 + m ^ 2 - s - t)).
Definition shape (A a z : R) : R := (A / 3 * q_vector a z - 2 * a * q_mass z) * bz a z.

Lemma bracket_inner A M m s : 0 < m -> 2 * m < M -> (m + m) ^ 2 < s < (M - 0) ^ 2 ->
  area (bracket A M m s) (t_mid M 0 m s - t_half M 0 m s) (t_mid M 0 m s + t_half M 0 m s) (M ^ 6 * shape A ((m / M) ^ 2) (s / M ^ 2)).
Proof.
  intros Hm HM Hs. assert (Hs1 : 4 * m ^ 2 < s) by nra. assert (Hs2 : s < M ^ 2) by nra. assert (Hs0 : 0 < s) by nra. clear Hs.
  set (K := M ^ 2 - s).
  apply (area_ext (fun t => (K * (A * s + 2 * A * m ^ 2 - 2 * m ^ 2) + A * K ^ 2 / 2) + (- A / 2) * (2 * t - 2 * t_mid M 0 m s) ^ 2) _ _ _ _ []).
  { intros t _ _. unfold bracket, t_mid, K. field. }
  eapply area_val; [|apply area_quadratic].
  unfold t_half. rewrite kallen_massless by lra. fold K.
  assert (Eb : bz ((m / M) ^ 2) (s / M ^ 2) = sqrt (1 - 4 * m ^ 2 / s)) by (unfold bz; f_equal; field; split; lra).
  unfold shape, q_vector, q_mass. rewrite Eb. pose proof (sqrt_def (1 - 4 * m ^ 2 / s) (beta_nonneg m s Hs0 ltac:(lra))) as Q.
  set (b := sqrt _) in *. clearbody b.
  transitivity (b * (K * (K * (A * s + 2 * A * m ^ 2 - 2 * m ^ 2) + A * K ^ 2 / 2) - A / 6 * K ^ 3 * (b * b))); [field|].
  rewrite Q. unfold K. field. split; lra.
Qed.

Lemma shape_area A a : 0 < a -> 4 * a < 1 -> area (shape A a) (4 * a) 1
  (A / 3 * ((1 / 2 - 5 * a + 9 * a ^ 2 - 18 * a ^ 3) * bz a 1 + (36 * a ^ 4 - 24 * a ^ 3) * lamz a 1)
   + - 2 * a * ((1 / 3 + 5 / 3 * a - 2 * a ^ 2) * bz a 1 + (2 * a - 4 * a ^ 2 + 4 * a ^ 3) * lamz a 1)).
Proof.
  intros H1 H2. apply (area_ext (fun z => A / 3 * (q_vector a z * bz a z) + - 2 * a * (q_mass z * bz a z)) _ _ _ _ []).
  { intros z _ _. unfold shape. ring. }
  apply area_plus; apply area_scale; [apply area_vector|apply area_mass]; assumption.
Qed.

(** The functions t1 and t2 of the code with the exact logarithm *)
Definition exact_t1 (x : R) : R := (1 - 14 * x ^ 2 - 2 * x ^ 4 - 12 * x ^ 6) * vff_sx x + 12 * x ^ 4 * (x ^ 4 - 1) * exact_log x.
Definition exact_t2 (x : R) : R := x ^ 2 * (2 + 10 * x ^ 2 - 12 * x ^ 4) * vff_sx x + 6 * x ^ 4 * (1 - 2 * x ^ 2 + 2 * x ^ 4) * exact_log x.

Lemma shape_closed A x : 0 < x < 1 / 2 ->
  area (shape A (x ^ 2)) (4 * x ^ 2) 1 (2 / 3 * (A / 4 * exact_t1 x + (A - 1) / 2 * exact_t2 x)).
Proof.
  intro H. eapply area_val; [|apply shape_area; nra].
  assert (Eb : bz (x ^ 2) 1 = vff_sx x) by (unfold bz, vff_sx; f_equal; field).
  unfold lamz. rewrite Eb. unfold exact_t1, exact_t2, exact_log. field.
Qed.

Lemma bracket_width A M m c : 0 < m -> 2 * m < M ->
  phase_space_width M 0 m m (fun s t => c * bracket A M m s t)
    (c * M ^ 5 / (384 * PI ^ 3) * (A / 4 * exact_t1 (m / M) + (A - 1) / 2 * exact_t2 (m / M))).
Proof.
  intros Hm HM. exists (fun s => t_mid M 0 m s - t_half M 0 m s), (fun s => t_mid M 0 m s + t_half M 0 m s),
    (fun s => c * (M ^ 6 * shape A ((m / M) ^ 2) (s / M ^ 2))). split.
  - intros s Hs. assert (0 < s) by nra. split; [|split].
    + unfold t_half. pose proof (sqrt_pos (kallen_lambda (M ^ 2) s (0 ^ 2))). pose proof (sqrt_pos (1 - 4 * m ^ 2 / s)). nra.
    + intro t. apply dalitz_interval; nra.
    + apply area_scale. apply bracket_inner; assumption.
  - assert (Hx : 0 < m / M < 1 / 2).
    { split; [apply Rdiv_lt_0_compat; lra|]. apply Rmult_lt_reg_r with M; [lra|]. field_simplify; lra. }
    pose proof (shape_closed A (m / M) Hx) as S.
    assert (S' : area (fun s => shape A ((m / M) ^ 2) (s / M ^ 2)) ((m + m) ^ 2) ((M - 0) ^ 2)
                   (M ^ 2 * (2 / 3 * (A / 4 * exact_t1 (m / M) + (A - 1) / 2 * exact_t2 (m / M))))).
    { apply area_shrink; [apply pow_lt; lra|].
      replace ((m + m) ^ 2 / M ^ 2) with (4 * (m / M) ^ 2) by (field; lra). replace ((M - 0) ^ 2 / M ^ 2) with 1 by (field; lra). exact S. }
    eapply area_val; [|apply area_scale, area_scale, S']. field. apply PI_neq0.
Qed.

(** ** N -> nu nu nu *)
Lemma vvv_inner M s : 0 < M -> 0 < s < M ^ 2 ->
  area (fun t => s * t + (M ^ 2 - s - t) * (s + t)) (t_mid M 0 0 s - t_half M 0 0 s) (t_mid M 0 0 s + t_half M 0 0 s)
    (s * (M ^ 2 - s) ^ 2 + (M ^ 2 - s) ^ 3 / 6).
Proof.
  intros HM Hs. apply (area_ext (fun t => (s * (M ^ 2 - s) + (M ^ 2 - s) ^ 2 / 4) + (- 1 / 4) * (2 * t - 2 * t_mid M 0 0 s) ^ 2) _ _ _ _ []).
  { intros t _ _. unfold t_mid. field. }
  eapply area_val; [|apply area_quadratic]. unfold t_half. rewrite kallen_massless by lra.
  replace (1 - 4 * 0 ^ 2 / s) with 1 by (field; lra). rewrite sqrt_1. field.
Qed.
Lemma vvv_width M c : 0 < M ->
  phase_space_width M 0 0 0 (fun s t => c * (s * t + (M ^ 2 - s - t) * (s + t))) (c * M ^ 5 / (2048 * PI ^ 3)).
Proof.
  intro HM. exists (fun s => t_mid M 0 0 s - t_half M 0 0 s), (fun s => t_mid M 0 0 s + t_half M 0 0 s),
    (fun s => c * (s * (M ^ 2 - s) ^ 2 + (M ^ 2 - s) ^ 3 / 6)). split.
  - intros s Hs. assert (0 < s) by nra. assert (s < M ^ 2) by nra. split; [|split].
    + unfold t_half. pose proof (sqrt_pos (kallen_lambda (M ^ 2) s (0 ^ 2))). pose proof (sqrt_pos (1 - 4 * 0 ^ 2 / s)). nra.
    + intro t. apply dalitz_interval; nra.
    + apply area_scale. apply vvv_inner; lra.
  - eapply area_val; [|apply area_scale, (area_of_antiderivative
      (fun s => M ^ 4 * s ^ 2 / 2 - 2 * M ^ 2 * s ^ 3 / 3 + s ^ 4 / 4 - (M ^ 2 - s) ^ 4 / 24))].
    + field. apply PI_neq0.
    + intros s _. eapply dl_val.
      * apply dl_minus; [apply dl_plus; [apply dl_minus|]|].
        -- apply dl_div; [apply dl_mult; [apply (dl_const (M ^ 4))|apply dl_pow, dl_id]|apply (dl_const 2)|lra].
        -- apply dl_div; [apply dl_mult; [apply (dl_const (2 * M ^ 2))|apply dl_pow, dl_id]|apply (dl_const 3)|lra].
        -- apply dl_div; [apply dl_pow, dl_id|apply (dl_const 4)|lra].
        -- apply dl_div; [apply dl_pow; apply dl_minus; [apply (dl_const (M ^ 2))|apply dl_id]|apply (dl_const 24)|lra].
      * unfold Rsqr. simpl. field.
Qed.

(** ** Pion pairs *)
Lemma pion_inner M m1 m s c : 0 < M -> 0 <= m1 -> m1 < M -> 0 < m -> (m + m) ^ 2 < s < (M - m1) ^ 2 ->
  area (fun t => c * ((2 * t - (M ^ 2 + m1 ^ 2 + 2 * m ^ 2 - s)) ^ 2 + (s - 4 * m ^ 2) * (M ^ 2 + m1 ^ 2 - s)))
    (t_mid M m1 m s - t_half M m1 m s) (t_mid M m1 m s + t_half M m1 m s)
    (c * (M ^ 6 / 3 * (((1 - (m1 / M) ^ 2) ^ 2 + s / M ^ 2 * (1 + (m1 / M) ^ 2) - 2 * (s / M ^ 2) ^ 2)
       * sqrt (kallen_lambda 1 (s / M ^ 2) ((m1 / M) ^ 2)) * ((1 - 4 * m ^ 2 / s) * sqrt (1 - 4 * m ^ 2 / s))))).
Proof.
  intros HM H1 H1M Hm Hs. assert (0 < s) by nra. apply area_scale.
  apply (area_ext (fun t => (s - 4 * m ^ 2) * (M ^ 2 + m1 ^ 2 - s) + 1 * (2 * t - 2 * t_mid M m1 m s) ^ 2) _ _ _ _ []).
  { intros t _ _. unfold t_mid. field. }
  eapply area_val; [|apply area_quadratic]. unfold t_half.
  assert (Ek : kallen_lambda (M ^ 2) s (m1 ^ 2) = (M ^ 2) ^ 2 * kallen_lambda 1 (s / M ^ 2) ((m1 / M) ^ 2)) by (unfold kallen_lambda; field; lra).
  assert (K : 0 <= kallen_lambda (M ^ 2) s (m1 ^ 2)) by (apply kallen_below; lra).
  assert (P4 : 0 < (M ^ 2) ^ 2) by (apply pow_lt, pow_lt; exact HM).
  assert (K1 : 0 <= kallen_lambda 1 (s / M ^ 2) ((m1 / M) ^ 2)).
  { apply Rmult_le_reg_l with ((M ^ 2) ^ 2); [exact P4|]. rewrite <- Ek. lra. }
  rewrite Ek, sqrt_mult by lra. rewrite (sqrt_pow2 (M ^ 2)) by (apply pow_le; lra).
  pose proof (sqrt_def _ K1) as Q1. pose proof (sqrt_def (1 - 4 * m ^ 2 / s) (beta_nonneg m s ltac:(lra) ltac:(nra))) as Q2.
  set (k := sqrt (kallen_lambda _ _ _)) in *. set (b := sqrt (1 - _)) in *.
  transitivity (M ^ 2 * k * b * ((s - 4 * m ^ 2) * (M ^ 2 + m1 ^ 2 - s) + (M ^ 2) ^ 2 * (k * k) * (b * b) / 3)); [field|].
  rewrite Q1, Q2. unfold kallen_lambda. field. split; lra.
Qed.
Lemma phase_space_width_ext M m1 m2 m3 f g v : (forall s t, f s t = g s t) -> phase_space_width M m1 m2 m3 f v -> phase_space_width M m1 m2 m3 g v.
Proof.
  intros E (lo & hi & i & H & A). exists lo, hi, i. split; [|exact A]. intros s Hs. destruct (H s Hs) as (L & D & I). split; [exact L|]. split; [exact D|].
  apply (area_ext (f s) _ _ _ _ []); [intros t _ _; apply E|exact I].
Qed.
