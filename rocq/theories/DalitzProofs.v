(** Lemmas about pairs of particles and three-body phase space. *)
From Coq Require Import Reals Lra Psatz Lia Arith ZArith Bool List.
From Verif Require Import PyBase RamboModel RamboProofs KinModel KinProofs.
Import ListNotations.
Local Open Scope R_scope.

(** ** Invariant-mass limits *)
Lemma total_filter_pair f n i j : (i < j < n)%nat ->
  total (map f (filter (fun k => negb (Nat.eqb k i || Nat.eqb k j)) (seq 0 n))) = total (map f (seq 0 n)) - f i - f j.
Proof.
  intros H.
  assert (K : forall len a, total (map f (filter (fun k => negb (Nat.eqb k i || Nat.eqb k j)) (seq a len)))
    = total (map f (seq a len)) - (if ((a <=? i) && (i <? a + len))%nat then f i else 0)
      - (if ((a <=? j) && (j <? a + len))%nat then f j else 0)).
  { induction len as [|len IH]; intro a.
    - cbn [seq filter map total fold_right]. replace (a + 0)%nat with a by lia.
      destruct (Nat.leb_spec a i), (Nat.ltb_spec i a), (Nat.leb_spec a j), (Nat.ltb_spec j a); cbn [andb]; try lia; ring.
    - cbn [seq filter].
      destruct (Nat.eqb_spec a i) as [->|Hi].
      + cbn [orb negb map]. rewrite total_cons, IH.
        destruct (Nat.leb_spec i i), (Nat.ltb_spec i (i + S len)), (Nat.leb_spec (S i) i), (Nat.ltb_spec i (S i + len)),
          (Nat.leb_spec i j), (Nat.ltb_spec j (i + S len)), (Nat.leb_spec (S i) j), (Nat.ltb_spec j (S i + len)); cbn [andb]; try lia; ring.
      + destruct (Nat.eqb_spec a j) as [->|Hj].
        * cbn [orb negb map]. rewrite total_cons, IH.
          destruct (Nat.leb_spec j i), (Nat.ltb_spec i (j + S len)), (Nat.leb_spec (S j) i), (Nat.ltb_spec i (S j + len)),
            (Nat.leb_spec j j), (Nat.ltb_spec j (j + S len)), (Nat.leb_spec (S j) j), (Nat.ltb_spec j (S j + len)); cbn [andb]; try lia; ring.
        * cbn [orb negb map]. rewrite !total_cons, IH.
          destruct (Nat.leb_spec a i), (Nat.ltb_spec i (a + S len)), (Nat.leb_spec (S a) i), (Nat.ltb_spec i (S a + len)),
            (Nat.leb_spec a j), (Nat.ltb_spec j (a + S len)), (Nat.leb_spec (S a) j), (Nat.ltb_spec j (S a + len)); cbn [andb]; try lia; ring. }
  rewrite K. destruct (Nat.leb_spec 0 i), (Nat.ltb_spec i (0 + n)), (Nat.leb_spec 0 j), (Nat.ltb_spec j (0 + n)); cbn [andb]; try lia; ring.
Qed.
Lemma map_nth_seq (ms : list R) : map (fun k => nth k ms 0) (seq 0 (length ms)) = ms.
Proof.
  apply (nth_ext _ _ 0 0); [rewrite map_length, seq_length; reflexivity|].
  intros n Hn. rewrite map_length, seq_length in Hn.
  rewrite (nth_indep _ 0 ((fun k => nth k ms 0) 0%nat)) by (rewrite map_length, seq_length; lia).
  rewrite (map_nth (fun k => nth k ms 0)), seq_nth by lia. reflexivity.
Qed.
Lemma index_pairs_in n i j : In (i, j) (index_pairs n) <-> (i < j < n)%nat.
Proof.
  unfold index_pairs. rewrite in_flat_map. split.
  - intros (a & Ha & H). apply in_seq in Ha. apply in_map_iff in H. destruct H as (b & [= -> ->] & Hb). apply in_seq in Hb. lia.
  - intro H. exists i. split; [apply in_seq; lia|]. apply in_map_iff. exists j. split; [reflexivity|]. apply in_seq. lia.
Qed.
Lemma invariant_limits_in q ms i j lo hi : In ((i, j), (lo, hi)) (invariant_mass_limits q ms) <->
  (i < j < length ms)%nat /\ lo = nth i ms 0 + nth j ms 0 /\ hi = q - (total ms - nth i ms 0 - nth j ms 0).
Proof.
  unfold invariant_mass_limits. rewrite in_map_iff. split.
  - intros ((a & b) & [= -> -> <- <-] & H). apply index_pairs_in in H. split; [assumption|]. split; [reflexivity|].
    rewrite (total_filter_pair (fun k => nth k ms 0)) by assumption. now rewrite map_nth_seq.
  - intros (H & -> & ->). exists (i, j). split; [|now apply index_pairs_in].
    rewrite (total_filter_pair (fun k => nth k ms 0)) by assumption. now rewrite map_nth_seq.
Qed.
Lemma split_pair (ms : list R) i j : (i < j < length ms)%nat ->
  exists a b c, ms = a ++ nth i ms 0 :: b ++ nth j ms 0 :: c /\ length a = i /\ length (a ++ nth i ms 0 :: b) = j.
Proof.
  intro H. destruct (nth_split ms 0 (n := i)) as (a & r & E & La); [lia|].
  remember (nth i ms 0) as mi. remember (nth j ms 0) as mj. subst ms.
  rewrite app_length in H. cbn [length] in H.
  assert (Ej : mj = nth (j - i - 1) r 0).
  { subst mj. rewrite app_nth2 by lia. rewrite La. destruct (j - i)%nat eqn:Ed; [lia|]. cbn [nth]. f_equal. lia. }
  destruct (nth_split r 0 (n := j - i - 1)) as (b & c & Er & Lb); [lia|]. exists a, b, c. rewrite Ej, <- Er.
  split; [reflexivity|]. split; [assumption|]. rewrite app_length. cbn [length]. lia.
Qed.
Lemma Forall2_cons_l {A B} (P : A -> B -> Prop) x l ps : Forall2 P (x :: l) ps -> exists p r, ps = p :: r /\ P x p /\ Forall2 P l r.
Proof. intro H. inversion H; subst; eauto. Qed.

Lemma pair_event_split q a mi b mj c ps : event q (a ++ mi :: b ++ mj :: c) ps ->
  exists pa pi pb pj pc, ps = pa ++ pi :: pb ++ pj :: pc /\ length pa = length a /\ length (pa ++ pi :: pb) = length (a ++ mi :: b)
    /\ on_shell mi pi /\ on_shell mj pj /\ Forall2 on_shell (a ++ b ++ c) (pa ++ pb ++ pc)
    /\ vplus (vplus pi pj) (vsum (pa ++ pb ++ pc)) = V4 q 0 0 0.
Proof.
  intros [F E]. destruct (Forall2_split _ _ _ _ F) as (pa & r1 & -> & Fa & F1).
  destruct (Forall2_cons_l _ _ _ _ F1) as (pi & r2 & -> & Si & F2).
  destruct (Forall2_split _ _ _ _ F2) as (pb & r3 & -> & Fb & F3).
  destruct (Forall2_cons_l _ _ _ _ F3) as (pj & pc & -> & Sj & Fc).
  exists pa, pi, pb, pj, pc. split; [reflexivity|]. split; [symmetry; eapply Forall2_len; eassumption|].
  split. { rewrite !app_length. cbn [length]. rewrite <- (Forall2_len _ _ _ Fa), <- (Forall2_len _ _ _ Fb). reflexivity. }
  split; [assumption|]. split; [assumption|]. split; [repeat apply Forall2_app; assumption|].
  rewrite <- E. rewrite !vsum_app, !vsum_cons, !vsum_app, !vsum_cons. apply vec_eq; cbn [vplus en px py pz]; ring.
Qed.
Lemma nth_error_mid {A} (l : list A) x r : nth_error (l ++ x :: r) (length l) = Some x.
Proof. rewrite nth_error_app2 by lia. now rewrite Nat.sub_diag. Qed.
Lemma app_assoc4 {A} (a : list A) x b y c : a ++ x :: b ++ y :: c = (a ++ x :: b) ++ y :: c.
Proof. now rewrite <- app_assoc. Qed.

Lemma pair_bounds q mi mj Mo pi pj r : 0 <= mi -> 0 <= mj -> 0 <= Mo -> on_shell mi pi -> on_shell mj pj -> heavy Mo r ->
  vplus (vplus pi pj) r = V4 q 0 0 0 -> (mi + mj) ^ 2 <= lnorm_sqr (vplus pi pj) /\ sqrt (lnorm_sqr (vplus pi pj)) <= q - Mo.
Proof.
  intros Hi Hj Ho Si Sj Hr E. pose proof (heavy_plus mi mj pi pj Hi Hj (heavy_shell _ _ Si) (heavy_shell _ _ Sj)) as [P1 P2].
  set (w := vplus pi pj) in *. unfold lnorm_sqr. split; [lra|].
  destruct Hr as [R1 R2]. pose proof (f_equal en E) as Ee. cbn [vplus en] in Ee.
  apply Rle_trans with (en w); [|lra].
  apply Rle_trans with (sqrt (en w ^ 2)); [apply sqrt_le_1_alt; nra|]. rewrite sqrt_pow2; lra.
Qed.
Lemma pair_insert q a mi b mj c pi pj r : on_shell mi pi -> on_shell mj pj -> vplus (vplus pi pj) r = V4 q 0 0 0 ->
  (exists ps, Forall2 on_shell (a ++ b ++ c) ps /\ vsum ps = r) ->
  exists ps, event q (a ++ mi :: b ++ mj :: c) ps /\ nth_error ps (length a) = Some pi
    /\ nth_error ps (length (a ++ mi :: b)) = Some pj.
Proof.
  intros Si Sj E (ps & F & V). destruct (Forall2_split _ _ _ _ F) as (pa & r1 & -> & Fa & F1).
  destruct (Forall2_split _ _ _ _ F1) as (pb & pc & -> & Fb & Fc).
  exists (pa ++ pi :: pb ++ pj :: pc). split; [split|split].
  - apply Forall2_app; [assumption|]. constructor; [assumption|]. apply Forall2_app; [assumption|]. now constructor.
  - rewrite <- E, <- V. rewrite !vsum_app, !vsum_cons, !vsum_app, !vsum_cons. apply vec_eq; cbn [vplus en px py pz]; ring.
  - rewrite (Forall2_len _ _ _ Fa). apply nth_error_mid.
  - rewrite app_assoc4. replace (length (a ++ mi :: b)) with (length (pa ++ pi :: pb)); [apply nth_error_mid|].
    rewrite !app_length. cbn [length]. now rewrite (Forall2_len _ _ _ Fa), (Forall2_len _ _ _ Fb).
Qed.
Lemma lnorm_axis e p m : lnorm_sqr (V4 (hypot p m) 0 0 p) = m ^ 2 + 0 * e.
Proof. unfold lnorm_sqr. cbn [en px py pz]. rewrite hypot_sq. ring. Qed.
(** The pair back to back with everything else at rest. *)
Lemma pair_upper_attained q a mi b mj c : 0 < q -> nonneg (a ++ mi :: b ++ mj :: c) -> total (a ++ mi :: b ++ mj :: c) <= q ->
  0 < q - total (a ++ b ++ c) ->
  exists ps pi pj, event q (a ++ mi :: b ++ mj :: c) ps /\ nth_error ps (length a) = Some pi
    /\ nth_error ps (length (a ++ mi :: b)) = Some pj /\ lnorm_sqr (vplus pi pj) = (q - total (a ++ b ++ c)) ^ 2.
Proof.
  intros Hq Hn Ht Hp. apply nonneg_app in Hn. destruct Hn as [Na Hn]. apply nonneg_tail in Hn. destruct Hn as [Hi Hn].
  apply nonneg_app in Hn. destruct Hn as [Nb Hn]. apply nonneg_tail in Hn. destruct Hn as [Hj Nc].
  assert (No : nonneg (a ++ b ++ c)) by (repeat (apply nonneg_app; split; [assumption|]); assumption).
  rewrite !total_app, !total_cons, !total_app, !total_cons in Ht. set (Q := q - total (a ++ b ++ c)) in *.
  assert (HQ : mi + mj <= Q) by (unfold Q; rewrite !total_app; lra).
  set (p := two_body_momentum Q mi mj). pose proof (two_body_energy Q mi mj Hp Hi Hj HQ) as T. fold p in T.
  destruct (pair_insert q a mi b mj c (V4 (hypot p mi) 0 0 p) (V4 (hypot (- p) mj) 0 0 (- p)) (V4 (total (a ++ b ++ c)) 0 0 0))
    as (ps & A & B & C).
  - now apply shell_axis.
  - now apply shell_axis.
  - apply vec_eq; cbn [vplus en px py pz]; try ring. rewrite hypot_neg. unfold Q in T. lra.
  - now apply rest_list.
  - exists ps, (V4 (hypot p mi) 0 0 p), (V4 (hypot (- p) mj) 0 0 (- p)). split; [assumption|]. split; [assumption|]. split; [assumption|].
    unfold lnorm_sqr. cbn [vplus en px py pz]. rewrite hypot_neg, T. ring.
Qed.
(** The pair moving together against the rest. *)
Lemma pair_lower_attained q a mi b mj c : 0 < q -> nonneg (a ++ mi :: b ++ mj :: c) -> total (a ++ mi :: b ++ mj :: c) <= q ->
  a ++ b ++ c <> [] ->
  exists ps pi pj, event q (a ++ mi :: b ++ mj :: c) ps /\ nth_error ps (length a) = Some pi
    /\ nth_error ps (length (a ++ mi :: b)) = Some pj /\ lnorm_sqr (vplus pi pj) = (mi + mj) ^ 2.
Proof.
  intros Hq Hn Ht Hne. apply nonneg_app in Hn. destruct Hn as [Na Hn]. apply nonneg_tail in Hn. destruct Hn as [Hi Hn].
  apply nonneg_app in Hn. destruct Hn as [Nb Hn]. apply nonneg_tail in Hn. destruct Hn as [Hj Nc].
  assert (No : nonneg (a ++ b ++ c)) by (repeat (apply nonneg_app; split; [assumption|]); assumption).
  pose proof (total_nonneg _ No) as Hno.
  rewrite !total_app, !total_cons, !total_app, !total_cons in Ht. set (M := total (a ++ b ++ c)) in *.
  assert (HQ : (mi + mj) + M <= q) by (unfold M; rewrite !total_app; lra).
  set (p := two_body_momentum q (mi + mj) M). pose proof (two_body_energy q (mi + mj) M Hq ltac:(lra) Hno HQ) as T. fold p in T.
  destruct (comove [mi; mj] (V4 (hypot p (mi + mj)) 0 0 p)) as (pp & Fp & Vp).
  - discriminate.
  - intros m [<-|[<-|[]]]; assumption.
  - cbn [en total fold_right]. rewrite Rplus_0_r. apply hypot_ge. lra.
  - cbn [en px py pz total fold_right]. rewrite hypot_sq. ring.
  - destruct (Forall2_cons_l _ _ _ _ Fp) as (pi & r1 & -> & Si & F1). destruct (Forall2_cons_l _ _ _ _ F1) as (pj & r2 & -> & Sj & F2).
    inversion F2. subst r2. assert (W : vplus pi pj = V4 (hypot p (mi + mj)) 0 0 p).
    { rewrite <- Vp, !vsum_cons. apply vec_eq; cbn [vplus vsum fold_right en px py pz]; ring. }
    destruct (pair_insert q a mi b mj c pi pj (V4 (hypot (- p) M) 0 0 (- p))) as (ps & A & B & C).
    + assumption.
    + assumption.
    + rewrite W. apply vec_eq; cbn [vplus en px py pz]; try ring. rewrite hypot_neg. exact T.
    + apply comove; [assumption|assumption| |]; cbn [en px py pz]; fold M; [now apply hypot_ge|rewrite hypot_sq; ring].
    + exists ps, pi, pj. split; [assumption|]. split; [assumption|]. split; [assumption|]. rewrite W, (lnorm_axis 0). ring.
Qed.

(** ** Three particles *)
(** The scaled energies x = 2 E1 / q and y = 2 E2 / q occur in some final state. *)
Definition physical (q m1 m2 m3 x y : R) : Prop :=
  exists p1 p2 p3, event q [m1; m2; m3] [p1; p2; p3] /\ en p1 = q * x / 2 /\ en p2 = q * y / 2.

(** Twice the scalar product of the three-momenta of particles 1 and 2 over q^2, and the Gram determinant. *)
Definition cross12 (a b c x y : R) : R := 1 - x - y + x * y / 2 - c + a + b.
Definition gram (a b c x y : R) : R := (x ^ 2 / 4 - a) * (y ^ 2 / 4 - b) - (cross12 a b c x y / 2) ^ 2.
Lemma gram_identity a b c x y : let g := 1 - x + a in
  kallen_lambda 1 a g * kallen_lambda g b c - (2 * g * y - (2 - x) * (g + b - c)) ^ 2 = 16 * g * gram a b c x y.
Proof. cbn zeta. unfold kallen_lambda, gram, cross12. field. Qed.
Lemma kallen_1 a x : kallen_lambda 1 a (1 - x + a) = x ^ 2 - 4 * a.
Proof. unfold kallen_lambda. ring. Qed.

Lemma limits_gram a b c x y : 0 < 1 - x + a ->
  let g := 1 - x + a in
  let K := kallen_lambda 1 a g * kallen_lambda g b c in
  let pf := (2 - x) * (g + b - c) in
  (0 <= gram a b c x y <-> 0 <= K /\ 0.5 * (pf - sqrt K) / g <= y <= 0.5 * (pf + sqrt K) / g).
Proof.
  intros Hg g K pf. fold g in Hg. pose proof (gram_identity a b c x y) as I. cbn zeta in I. fold g in I. fold K in I. fold pf in I.
  assert (L : forall z, z / g <= y <-> z <= g * y).
  { intro z. split; intro H.
    - apply (Rmult_le_compat_r g) in H; [|lra]. replace (z / g * g) with z in H by (field; lra). lra.
    - apply (Rmult_le_reg_r g); [lra|]. replace (z / g * g) with z by (field; lra). lra. }
  assert (U : forall z, y <= z / g <-> g * y <= z).
  { intro z. split; intro H.
    - apply (Rmult_le_compat_r g) in H; [|lra]. replace (z / g * g) with z in H by (field; lra). lra.
    - apply (Rmult_le_reg_r g); [lra|]. replace (z / g * g) with z by (field; lra). lra. }
  rewrite L, U. pose proof (sqrt_pos K) as Sp. clearbody K pf. clearbody g. set (G := gram a b c x y) in *. clearbody G.
  pose proof (pow2_ge_0 (2 * g * y - pf)) as Sq. split.
  - intro H. assert (HgG : 0 <= g * G) by (apply Rmult_le_pos; lra). assert (HK : 0 <= K) by lra. split; [assumption|]. pose proof (pow2_sqrt K HK) as S.
    assert (H2 : (2 * g * y - pf) ^ 2 <= sqrt K ^ 2) by (rewrite S; lra).
    assert (H3 : Rabs (2 * g * y - pf) <= sqrt K).
    { rewrite <- (Rabs_pos_eq (sqrt K)) by assumption. apply Rsqr_le_abs_0. unfold Rsqr. nra. }
    assert (- sqrt K <= 2 * g * y - pf <= sqrt K) by (revert H3; unfold Rabs; destruct (Rcase_abs (2 * g * y - pf)); lra). lra.
  - intros [HK [H1 H2]]. pose proof (pow2_sqrt K HK) as S.
    assert (H3 : (2 * g * y - pf) ^ 2 <= sqrt K ^ 2).
    { assert (0 <= (sqrt K - (2 * g * y - pf)) * (sqrt K + (2 * g * y - pf))); [|nra].
      apply Rmult_le_pos; lra. }
    rewrite S in H3. assert (0 <= g * G) by lra. destruct (Rle_dec 0 G); [assumption|]. exfalso. nra.
Qed.

(** Energies inside the limits are at least the masses. *)
Lemma limits_low a b c x y : 0 <= a -> 0 <= b -> 0 <= c -> 0 < 1 - x + a -> 4 * a < x ^ 2 -> x <= 2 ->
  (sqrt b + sqrt c) ^ 2 <= 1 - x + a -> 0 <= gram a b c x y -> 2 * sqrt b <= y.
Proof.
  intros Ha Hb Hc Hg Hx Hx2 Hs HG. pose proof HG as HG'.
  apply (limits_gram a b c x y Hg) in HG. cbn zeta in HG. destruct HG as [HK [HL _]].
  set (g := 1 - x + a) in *. set (K := kallen_lambda 1 a g * kallen_lambda g b c) in *.
  pose proof (pow2_sqrt b Hb) as Sb. pose proof (pow2_sqrt c Hc) as Sc. pose proof (sqrt_pos b). pose proof (sqrt_pos c).
  assert (Hpf : 0 <= (2 - x) * (g + b - c)) by (apply Rmult_le_pos; nra).
  assert (Hy0 : 0 <= y).
  { eapply Rle_trans; [|exact HL]. apply Rmult_le_pos; [|left; now apply Rinv_0_lt_compat].
    pose proof (gram_identity a b c x 0) as I. cbn zeta in I. fold g in I. fold K in I.
    assert (G0 : gram a b c x 0 <= 0).
    { unfold gram. pose proof (pow2_ge_0 (cross12 a b c x 0 / 2)). assert (0 <= (x ^ 2 / 4 - a) * b) by (apply Rmult_le_pos; lra). nra. }
    assert (KP : K <= ((2 - x) * (g + b - c)) ^ 2) by nra.
    assert (sqrt K <= (2 - x) * (g + b - c)).
    { rewrite <- (sqrt_pow2 _ Hpf). now apply sqrt_le_1_alt. }
    lra. }
  assert (Hy2 : 4 * b <= y ^ 2).
  { unfold gram in HG'. pose proof (pow2_ge_0 (cross12 a b c x y / 2)).
    assert (0 <= (x ^ 2 / 4 - a) * (y ^ 2 / 4 - b)) by lra.
    assert (0 < x ^ 2 / 4 - a) by lra. 
    destruct (Rle_dec (4 * b) (y ^ 2)); [assumption|]. exfalso. assert (y ^ 2 / 4 - b < 0) by lra. nra. }
  destruct (Rle_dec (2 * sqrt b) y); [assumption|]. exfalso. nra.
Qed.
Lemma gram_swap a b c x y : gram a b c x y = gram a c b x (2 - x - y).
Proof. unfold gram, cross12. field. Qed.

(** Any final state lies inside; conversely any point inside is a final state. *)
Lemma event3 q m1 m2 m3 p1 p2 p3 : event q [m1; m2; m3] [p1; p2; p3] ->
  on_shell m1 p1 /\ on_shell m2 p2 /\ on_shell m3 p3 /\ vplus p1 (vplus p2 p3) = V4 q 0 0 0.
Proof.
  intros [F E]. inversion F as [|? ? ? ? S1 F1]; subst. inversion F1 as [|? ? ? ? S2 F2]; subst. inversion F2 as [|? ? ? ? S3 F3]; subst.
  repeat split; try apply S1; try apply S2; try apply S3. rewrite <- E, !vsum_cons. 
  apply vec_eq; cbn [vplus vsum fold_right en px py pz]; ring.
Qed.
Lemma mk_event3 q m1 m2 m3 p1 p2 p3 : on_shell m1 p1 -> on_shell m2 p2 -> on_shell m3 p3 -> vplus p1 (vplus p2 p3) = V4 q 0 0 0 ->
  event q [m1; m2; m3] [p1; p2; p3].
Proof.
  intros S1 S2 S3 E. split; [repeat (apply Forall2_cons; [assumption|]); apply Forall2_nil|]. rewrite <- E, !vsum_cons.
  apply vec_eq; cbn [vplus vsum fold_right en px py pz]; ring.
Qed.
Lemma physical_gram q m1 m2 m3 x y : 0 < q -> physical q m1 m2 m3 x y ->
  0 <= gram ((m1 / q) ^ 2) ((m2 / q) ^ 2) ((m3 / q) ^ 2) x y.
Proof.
  intros Hq (p1 & p2 & p3 & Ev & E1 & E2). apply event3 in Ev. destruct Ev as ([S1 _] & [S2 _] & [S3 _] & E).
  pose proof (cauchy3 p1 p2) as C. 
  set (n1 := px p1 ^ 2 + py p1 ^ 2 + pz p1 ^ 2) in *. set (n2 := px p2 ^ 2 + py p2 ^ 2 + pz p2 ^ 2) in *.
  pose proof (f_equal en E) as Ee. pose proof (f_equal px E) as Ex. pose proof (f_equal py E) as Ey. pose proof (f_equal pz E) as Ez.
  cbn [vplus en px py pz] in Ee, Ex, Ey, Ez.
  assert (D : dot3 p1 p2 = q ^ 2 * (cross12 ((m1 / q) ^ 2) ((m2 / q) ^ 2) ((m3 / q) ^ 2) x y / 2)).
  { assert (D2 : 2 * dot3 p1 p2 = en p3 ^ 2 - m3 ^ 2 - n1 - n2).
    { rewrite S3. replace (px p3) with (- px p1 - px p2) by lra. replace (py p3) with (- py p1 - py p2) by lra.
      replace (pz p3) with (- pz p1 - pz p2) by lra. unfold dot3, n1, n2. ring. }
    replace n1 with (en p1 ^ 2 - m1 ^ 2) in D2 by lra. replace n2 with (en p2 ^ 2 - m2 ^ 2) in D2 by lra.
    replace (en p3) with (q - en p1 - en p2) in D2 by lra. rewrite E1, E2 in D2.
    apply (Rmult_eq_reg_l 2); [|lra]. rewrite D2. unfold cross12. field. lra. }
  rewrite D in C. replace n1 with (q ^ 2 * (x ^ 2 / 4 - (m1 / q) ^ 2)) in C.
  2:{ transitivity (en p1 ^ 2 - m1 ^ 2); [rewrite E1; field; lra|lra]. }
  replace n2 with (q ^ 2 * (y ^ 2 / 4 - (m2 / q) ^ 2)) in C.
  2:{ transitivity (en p2 ^ 2 - m2 ^ 2); [rewrite E2; field; lra|lra]. }
  unfold gram. set (g1 := x ^ 2 / 4 - (m1 / q) ^ 2) in *. set (g2 := y ^ 2 / 4 - (m2 / q) ^ 2) in *.
  set (d := cross12 _ _ _ x y / 2) in *.
  apply (Rmult_le_reg_l (q ^ 4)); [apply pow_lt; lra|]. rewrite Rmult_0_r.
  replace (q ^ 4 * (g1 * g2 - d ^ 2)) with (q ^ 2 * g1 * (q ^ 2 * g2) - (q ^ 2 * d) ^ 2) by ring. lra.
Qed.

(** Momenta with particle 1 along the z axis, for energies e1 > m1, e2 >= m2 and scalar product [d]. *)
Lemma build_event q m1 m2 m3 e1 e2 : 0 <= m1 < e1 -> 0 <= m2 <= e2 -> m3 <= q - e1 - e2 ->
  let d := ((q - e1 - e2) ^ 2 - m3 ^ 2 - (e1 ^ 2 - m1 ^ 2) - (e2 ^ 2 - m2 ^ 2)) / 2 in
  d ^ 2 <= (e1 ^ 2 - m1 ^ 2) * (e2 ^ 2 - m2 ^ 2) ->
  let p1 := sqrt (e1 ^ 2 - m1 ^ 2) in
  let z := d / p1 in
  let x := sqrt (e2 ^ 2 - m2 ^ 2 - z ^ 2) in
  event q [m1; m2; m3] [V4 e1 0 0 p1; V4 e2 x 0 z; V4 (q - e1 - e2) (- x) 0 (- z - p1)].
Proof.
  intros H1 H2 H3 d Hd p1 z x.
  assert (P : 0 < e1 ^ 2 - m1 ^ 2) by nra. assert (Hp1 : 0 < p1) by now apply sqrt_lt_R0.
  assert (S1 : p1 ^ 2 = e1 ^ 2 - m1 ^ 2) by (apply pow2_sqrt; lra).
  assert (Hz : z * p1 = d) by (unfold z; field; lra).
  assert (Hz2 : z ^ 2 <= e2 ^ 2 - m2 ^ 2).
  { apply (Rmult_le_reg_l (p1 ^ 2)); [rewrite S1; assumption|]. replace (p1 ^ 2 * z ^ 2) with ((z * p1) ^ 2) by ring.
    rewrite Hz, S1. exact Hd. }
  assert (S2 : x ^ 2 = e2 ^ 2 - m2 ^ 2 - z ^ 2) by (apply pow2_sqrt; lra).
  apply mk_event3.
  - split; cbn [en px py pz]; lra.
  - split; cbn [en px py pz]; lra.
  - split; cbn [en px py pz]; [|lra].
    replace ((- z - p1) ^ 2) with (z ^ 2 + 2 * (z * p1) + p1 ^ 2) by ring. replace ((- x) ^ 2) with (x ^ 2) by ring.
    rewrite Hz, S1, S2. unfold d. field.
  - apply vec_eq; cbn [vplus en px py pz]; ring.
Qed.
Lemma gram_physical q m1 m2 m3 x y : 0 < q -> 0 <= m1 -> 0 <= m2 -> 0 <= m3 -> 2 * (m1 / q) < x -> x < 1 + (m1 / q) ^ 2 -> x <= 2 ->
  (m2 / q + m3 / q) ^ 2 <= 1 - x + (m1 / q) ^ 2 ->
  0 <= gram ((m1 / q) ^ 2) ((m2 / q) ^ 2) ((m3 / q) ^ 2) x y -> physical q m1 m2 m3 x y.
Proof.
  intros Hq H1 H2 H3 Hx Hx1 Hx2 Hs HG.
  assert (Hi : forall m, 0 <= m -> 0 <= m / q) by (intros m Hm; apply Rmult_le_pos; [assumption|left; now apply Rinv_0_lt_compat]).
  pose proof (Hi m1 H1) as M1. pose proof (Hi m2 H2) as M2. pose proof (Hi m3 H3) as M3.
  assert (Y2 : 2 * (m2 / q) <= y).
  { rewrite <- (sqrt_pow2 (m2 / q)) by assumption.
    apply (limits_low ((m1 / q) ^ 2) ((m2 / q) ^ 2) ((m3 / q) ^ 2) x y); try apply pow2_ge_0; try assumption; try lra; [nra|].
    now rewrite !sqrt_pow2 by assumption. }
  assert (Y3 : 2 * (m3 / q) <= 2 - x - y).
  { rewrite <- (sqrt_pow2 (m3 / q)) by assumption.
    apply (limits_low ((m1 / q) ^ 2) ((m3 / q) ^ 2) ((m2 / q) ^ 2) x (2 - x - y)); try apply pow2_ge_0; try assumption; try lra; [nra| |].
    - rewrite !sqrt_pow2 by assumption. now rewrite Rplus_comm.
    - now rewrite <- gram_swap. }
  assert (E : forall m, m = q * (m / q)) by (intro m; field; lra).
  pose proof (build_event q m1 m2 m3 (q * x / 2) (q * y / 2)) as B. cbn zeta in B.
  eexists; eexists; eexists; split; [apply B|split; reflexivity].
  - split; [assumption|]. rewrite (E m1) at 1. nra.
  - split; [assumption|]. rewrite (E m2) at 1. nra.
  - rewrite (E m3) at 1. nra.
  - unfold gram in HG. set (g1 := x ^ 2 / 4 - (m1 / q) ^ 2) in *. set (g2 := y ^ 2 / 4 - (m2 / q) ^ 2) in *.
    replace ((q * x / 2) ^ 2 - m1 ^ 2) with (q ^ 2 * g1) by (unfold g1; field; lra).
    replace ((q * y / 2) ^ 2 - m2 ^ 2) with (q ^ 2 * g2) by (unfold g2; field; lra).
    replace (((q - q * x / 2 - q * y / 2) ^ 2 - m3 ^ 2 - q ^ 2 * g1 - q ^ 2 * g2) / 2)
      with (q ^ 2 * (cross12 ((m1 / q) ^ 2) ((m2 / q) ^ 2) ((m3 / q) ^ 2) x y / 2)) by (unfold cross12, g1, g2; field; lra).
    set (d := cross12 _ _ _ x y / 2) in *.
    replace ((q ^ 2 * d) ^ 2) with (q ^ 4 * d ^ 2) by ring. replace (q ^ 2 * g1 * (q ^ 2 * g2)) with (q ^ 4 * (g1 * g2)) by ring.
    apply Rmult_le_compat_l; [apply pow_le; lra|]. lra.
Qed.
