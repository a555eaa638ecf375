(** Lemmas about the phase-space kinematics. *)
From Coq Require Import Reals Lra Psatz Lia Arith ZArith Bool List.
From Verif Require Import PyBase RamboModel RamboProofs KinModel.
Import ListNotations.
Local Open Scope R_scope.

(** ** Specification vocabulary *)
(** A final state: one four-momentum per particle, each on its mass shell, at rest in total. *)
Definition event (q : R) (ms : list R) (ps : list vec) : Prop := Forall2 on_shell ms ps /\ vsum ps = V4 q 0 0 0.
Definition nonneg (ms : list R) : Prop := forall m, In m ms -> 0 <= m.
(** Invariant mass of at least [M]. *)
Definition heavy (M : R) (p : vec) : Prop := M <= en p /\ px p ^ 2 + py p ^ 2 + pz p ^ 2 + M ^ 2 <= en p ^ 2.
Definition dot3 (a b : vec) : R := px a * px b + py a * py b + pz a * pz b.

Lemma nonneg_tail m ms : nonneg (m :: ms) -> 0 <= m /\ nonneg ms.
Proof. intro H. split; [apply H; now left|]. intros x Hx. apply H. now right. Qed.
Lemma nonneg_app a b : nonneg (a ++ b) <-> nonneg a /\ nonneg b.
Proof.
  split.
  - intro H. split; intros x Hx; apply H; apply in_or_app; auto.
  - intros [H1 H2] x Hx. apply in_app_or in Hx. destruct Hx; auto.
Qed.
Lemma total_app a b : total (a ++ b) = total a + total b.
Proof. induction a as [|x a IH]; cbn [app]; [cbn; ring|]. rewrite !total_cons, IH. ring. Qed.
Lemma vec_eq a b : en a = en b -> px a = px b -> py a = py b -> pz a = pz b -> a = b.
Proof. destruct a, b. cbn. now intros -> -> -> ->. Qed.
Lemma vplus_assoc a b c : vplus (vplus a b) c = vplus a (vplus b c).
Proof. apply vec_eq; cbn; ring. Qed.
Lemma vplus_comm a b : vplus a b = vplus b a.
Proof. apply vec_eq; cbn; ring. Qed.
Lemma vplus_0 a : vplus (V4 0 0 0 0) a = a.
Proof. apply vec_eq; cbn; ring. Qed.
Lemma vsum_cons p ps : vsum (p :: ps) = vplus p (vsum ps).
Proof. reflexivity. Qed.
Lemma vsum_app a b : vsum (a ++ b) = vplus (vsum a) (vsum b).
Proof.
  induction a as [|p a IH]; cbn [app]; [cbn [vsum fold_right]; now rewrite vplus_0|].
  now rewrite !vsum_cons, IH, vplus_assoc.
Qed.

(** ** Invariant masses add up at least to the sum of masses *)
Lemma cauchy3 a b : dot3 a b ^ 2 <= (px a ^ 2 + py a ^ 2 + pz a ^ 2) * (px b ^ 2 + py b ^ 2 + pz b ^ 2).
Proof.
  unfold dot3. pose proof (pow2_ge_0 (px a * py b - py a * px b)). pose proof (pow2_ge_0 (px a * pz b - pz a * px b)).
  pose proof (pow2_ge_0 (py a * pz b - pz a * py b)). nra.
Qed.
Lemma reverse_cauchy M N a b : 0 <= M -> 0 <= N -> heavy M a -> heavy N b -> M * N + dot3 a b <= en a * en b.
Proof.
  intros HM HN [A1 A2] [B1 B2]. set (d := dot3 a b). pose proof (cauchy3 a b) as C. fold d in C.
  set (x := px a ^ 2 + py a ^ 2 + pz a ^ 2) in *. set (y := px b ^ 2 + py b ^ 2 + pz b ^ 2) in *.
  assert (Hx : 0 <= x) by (unfold x; nra). assert (Hy : 0 <= y) by (unfold y; nra).
  assert (K : (M * N + d) ^ 2 <= (en a * en b) ^ 2).
  { replace ((en a * en b) ^ 2) with (en a ^ 2 * en b ^ 2) by ring.
    apply Rle_trans with ((x + M ^ 2) * (y + N ^ 2)).
    - assert (2 * (M * N) * d <= x * N ^ 2 + y * M ^ 2); [|nra].
      assert (Q : d <= sqrt x * sqrt y).
      { rewrite <- sqrt_mult by assumption. destruct (Rle_dec d 0) as [Hd|Hd]; [pose proof (sqrt_pos (x * y)); lra|].
        rewrite <- (sqrt_pow2 d) by lra. now apply sqrt_le_1_alt. }
      pose proof (sqrt_pos x). pose proof (sqrt_pos y). pose proof (pow2_sqrt x Hx) as Sx. pose proof (pow2_sqrt y Hy) as Sy.
      rewrite <- Sx, <- Sy. pose proof (pow2_ge_0 (sqrt x * N - sqrt y * M)). 
      assert (0 <= M * N) by now apply Rmult_le_pos. nra.
    - apply Rmult_le_compat; nra. }
  assert (0 <= en a * en b) by (apply Rmult_le_pos; lra).
  destruct (Rle_dec (M * N + d) (en a * en b)); [assumption|]. exfalso. nra.
Qed.
Lemma heavy_plus M N a b : 0 <= M -> 0 <= N -> heavy M a -> heavy N b -> heavy (M + N) (vplus a b).
Proof.
  intros HM HN Ha Hb. pose proof (reverse_cauchy M N a b HM HN Ha Hb) as C. destruct Ha as [A1 A2], Hb as [B1 B2].
  unfold heavy, vplus, dot3 in *. cbn [en px py pz]. split; [lra|]. nra.
Qed.
Lemma heavy_shell m p : on_shell m p -> heavy m p.
Proof. intros [A B]. split; [assumption|lra]. Qed.
Lemma heavy_sum ms ps : nonneg ms -> Forall2 on_shell ms ps -> heavy (total ms) (vsum ps).
Proof.
  intros Hn H. induction H as [|m p ms ps Hm H IH].
  - unfold heavy. cbn. split; [lra|]. rewrite !Rmult_0_l, !Rplus_0_l. lra.
  - rewrite total_cons, vsum_cons. apply nonneg_tail in Hn. destruct Hn as [Hm0 Hn]. apply heavy_plus.
    + assumption. + now apply total_nonneg. + now apply heavy_shell. + now apply IH.
Qed.

(** ** Two-body kinematics *)
Lemma kallen_factor c m1 m2 :
  kallen_lambda (c ^ 2) (m1 ^ 2) (m2 ^ 2) = (c - m1 - m2) * (c + m1 + m2) * ((c - m1 + m2) * (c + m1 - m2)).
Proof. unfold kallen_lambda. ring. Qed.
Lemma two_body_sq c m1 m2 : 0 < c -> 0 <= m1 -> 0 <= m2 -> m1 + m2 <= c ->
  0 <= two_body_momentum c m1 m2 /\ (2 * c * two_body_momentum c m1 m2) ^ 2 = kallen_lambda (c ^ 2) (m1 ^ 2) (m2 ^ 2).
Proof.
  intros Hc H1 H2 Ht. unfold two_body_momentum. cbn zeta.
  assert (E1 : (c - Rmax m1 m2 - Rmin m1 m2) * (c + Rmax m1 m2 + Rmin m1 m2) = (c - m1 - m2) * (c + m1 + m2)).
  { unfold Rmax, Rmin. destruct (Rle_dec m1 m2); ring. }
  assert (E2 : (c - Rmax m1 m2 + Rmin m1 m2) * (c + Rmax m1 m2 - Rmin m1 m2) = (c - m1 + m2) * (c + m1 - m2)).
  { unfold Rmax, Rmin. destruct (Rle_dec m1 m2); ring. }
  rewrite E1, E2. set (u := (c - m1 - m2) * (c + m1 + m2)). set (v := (c - m1 + m2) * (c + m1 - m2)).
  assert (Hu : 0 <= u) by (apply Rmult_le_pos; lra). assert (Hv : 0 <= v) by (apply Rmult_le_pos; lra). split.
  - apply Rmult_le_pos; [apply Rmult_le_pos; apply sqrt_pos|]. left. apply Rinv_0_lt_compat. lra.
  - replace (2 * c * (sqrt u * sqrt v / (2 * c))) with (sqrt u * sqrt v) by (field; lra).
    replace ((sqrt u * sqrt v) ^ 2) with (sqrt u ^ 2 * sqrt v ^ 2) by ring. rewrite !pow2_sqrt by assumption.
    now rewrite kallen_factor.
Qed.
Lemma two_body_hypot c m1 m2 : 0 < c -> 0 <= m1 -> 0 <= m2 -> m1 + m2 <= c ->
  hypot (two_body_momentum c m1 m2) m1 = (c ^ 2 + m1 ^ 2 - m2 ^ 2) / (2 * c).
Proof.
  intros Hc H1 H2 Ht. destruct (two_body_sq c m1 m2 Hc H1 H2 Ht) as [Hp Hs]. set (p := two_body_momentum c m1 m2) in *.
  assert (He : 0 <= (c ^ 2 + m1 ^ 2 - m2 ^ 2) / (2 * c)).
  { apply Rmult_le_pos; [nra|]. left. apply Rinv_0_lt_compat. lra. }
  rewrite <- (sqrt_pow2 _ He). unfold hypot. f_equal.
  apply (Rmult_eq_reg_l ((2 * c) ^ 2)); [|apply pow_nonzero; lra].
  replace ((2 * c) ^ 2 * (p * p + m1 * m1)) with ((2 * c * p) ^ 2 + (2 * c) ^ 2 * m1 ^ 2) by ring. rewrite Hs.
  unfold kallen_lambda. field. lra.
Qed.
Lemma two_body_swap c m1 m2 : two_body_momentum c m1 m2 = two_body_momentum c m2 m1.
Proof. unfold two_body_momentum. now rewrite (Rmax_comm m2), (Rmin_comm m2). Qed.
Lemma two_body_energy c m1 m2 : 0 < c -> 0 <= m1 -> 0 <= m2 -> m1 + m2 <= c ->
  hypot (two_body_momentum c m1 m2) m1 + hypot (two_body_momentum c m1 m2) m2 = c.
Proof.
  intros. rewrite two_body_hypot by assumption. rewrite two_body_swap. rewrite two_body_hypot by lra. field. lra.
Qed.
Lemma hypot_mono a b m : 0 <= a < b -> hypot a m < hypot b m.
Proof. intros H. unfold hypot. apply sqrt_lt_1_alt. nra. Qed.
Lemma two_body_unique c m1 m2 p : 0 < c -> 0 <= m1 -> 0 <= m2 -> m1 + m2 <= c -> 0 <= p ->
  hypot p m1 + hypot p m2 = c -> p = two_body_momentum c m1 m2.
Proof.
  intros Hc H1 H2 Ht Hp E. pose proof (two_body_energy c m1 m2 Hc H1 H2 Ht) as F.
  destruct (two_body_sq c m1 m2 Hc H1 H2 Ht) as [Hk _]. set (k := two_body_momentum c m1 m2) in *.
  destruct (Rtotal_order p k) as [L|[L|L]]; [exfalso| assumption |exfalso].
  - pose proof (hypot_mono p k m1 ltac:(lra)). pose proof (hypot_mono p k m2 ltac:(lra)). lra.
  - pose proof (hypot_mono k p m1 ltac:(lra)). pose proof (hypot_mono k p m2 ltac:(lra)). lra.
Qed.
Lemma shell_axis m p : 0 <= m -> on_shell m (V4 (hypot p m) 0 0 p).
Proof. intro H. split; cbn [en px py pz]; [rewrite hypot_sq; ring|now apply hypot_ge]. Qed.
Lemma hypot_neg a m : hypot (- a) m = hypot a m.
Proof. unfold hypot. f_equal. ring. Qed.

(** ** Building events *)
(** Particles at rest. *)
Lemma rest_list l : nonneg l -> exists ps, Forall2 on_shell l ps /\ vsum ps = V4 (total l) 0 0 0.
Proof.
  induction l as [|m l IH]; intro H; [exists []; split; [constructor|reflexivity]|]. apply nonneg_tail in H.
  destruct H as [Hm H]. destruct (IH H) as (ps & F & E). exists (V4 m 0 0 0 :: ps). split.
  - constructor; [|assumption]. split; cbn [en px py pz]; [ring|lra].
  - rewrite vsum_cons, E, total_cons. apply vec_eq; cbn [vplus en px py pz]; ring.
Qed.
(** Particles sharing a given total momentum of invariant mass equal to the sum of their masses. *)
Definition scale (k : R) (p : vec) : vec := V4 (k * en p) (k * px p) (k * py p) (k * pz p).
Lemma comove l r : l <> [] -> nonneg l -> total l <= en r -> en r ^ 2 = px r ^ 2 + py r ^ 2 + pz r ^ 2 + total l ^ 2 ->
  exists ps, Forall2 on_shell l ps /\ vsum ps = r.
Proof.
  intros Hne Hl He Hs. pose proof (total_nonneg l Hl) as Ht. destruct (Req_dec (total l) 0) as [Z|Z].
  - destruct l as [|m l]; [now destruct Hne|]. rewrite total_cons in Z. apply nonneg_tail in Hl. destruct Hl as [Hm Hl].
    pose proof (total_nonneg l Hl) as Hl2. assert (m = 0) by lra. assert (total l = 0) by lra. subst m.
    destruct (rest_list l Hl) as (ps & F & E). exists (r :: ps). split.
    + constructor; [|assumption]. rewrite total_cons in He, Hs. split; [|lra].
      rewrite Hs. rewrite H0. ring.
    + rewrite vsum_cons, E, H0. apply vec_eq; cbn [vplus en px py pz]; ring.
  - set (M := total l) in *. exists (map (fun m => scale (m / M) r) l). split.
    + assert (K : forall l', nonneg l' -> Forall2 on_shell l' (map (fun m => scale (m / M) r) l')).
      { clear Hl Hne. induction l' as [|m l' IH]; intro Hl; cbn [map]; constructor.
        - apply nonneg_tail in Hl. destruct Hl as [Hm _]. unfold on_shell, scale. cbn [en px py pz].
          assert (HM : 0 < M) by lra. split.
          + replace ((m / M * en r) ^ 2) with ((m / M) ^ 2 * en r ^ 2) by ring. rewrite Hs. field. lra.
          + apply Rle_trans with (m / M * M); [right; field; lra|]. apply Rmult_le_compat_l; [|lra].
            apply Rmult_le_pos; [lra|]. left. now apply Rinv_0_lt_compat.
        - apply IH. now apply nonneg_tail in Hl. }
      now apply K.
    + assert (K : forall l', vsum (map (fun m => scale (m / M) r) l') = scale (total l' / M) r).
      { induction l' as [|m l' IH]; cbn [map].
        - apply vec_eq; cbn [vsum fold_right total en px py pz scale]; field; lra.
        - rewrite vsum_cons, IH, total_cons. apply vec_eq; cbn [vplus scale en px py pz]; field; lra. }
      rewrite K. fold M. replace (M / M) with 1 by (field; lra). apply vec_eq; cbn [scale en px py pz]; ring.
Qed.
(** At least two particles can be at rest in total with any energy above threshold. *)
Lemma rest_event q l : (2 <= length l)%nat -> nonneg l -> 0 < q -> total l <= q -> exists ps, event q l ps.
Proof.
  intros Hlen Hl Hq Ht. destruct l as [|a [|b r]]; cbn [length] in Hlen; try lia.
  rewrite !total_cons in Ht. apply nonneg_tail in Hl. destruct Hl as [Ha Hl]. apply nonneg_tail in Hl. destruct Hl as [Hb Hr].
  destruct (rest_list r Hr) as (ps & F & E). pose proof (total_nonneg r Hr) as Hr0.
  destruct (Req_dec (q - total r) 0) as [Z|Z].
  - exists (V4 a 0 0 0 :: V4 b 0 0 0 :: ps). split.
    + constructor; [split; cbn [en px py pz]; [ring|lra]|]. constructor; [split; cbn [en px py pz]; [ring|lra]|assumption].
    + rewrite !vsum_cons, E. apply vec_eq; cbn [vplus en px py pz]; lra.
  - set (p := two_body_momentum (q - total r) a b).
    exists (V4 (hypot p a) 0 0 p :: V4 (hypot (- p) b) 0 0 (- p) :: ps). split.
    + constructor; [now apply shell_axis|]. constructor; [now apply shell_axis|assumption].
    + rewrite !vsum_cons, E. pose proof (two_body_energy (q - total r) a b ltac:(lra) Ha Hb ltac:(lra)) as T. fold p in T.
      apply vec_eq; cbn [vplus en px py pz]; try ring. rewrite hypot_neg. lra.
Qed.
Lemma Forall2_split {A B} (P : A -> B -> Prop) l1 l2 ps : Forall2 P (l1 ++ l2) ps ->
  exists p1 p2, ps = p1 ++ p2 /\ Forall2 P l1 p1 /\ Forall2 P l2 p2.
Proof. intro H. apply Forall2_app_inv_l in H. destruct H as (p1 & p2 & A1 & A2 & ->). eauto. Qed.
Lemma Forall2_len {A B} (P : A -> B -> Prop) l ps : Forall2 P l ps -> length l = length ps.
Proof. induction 1; cbn; congruence. Qed.
Lemma vplus_rot a b c : vplus a (vplus b c) = vplus b (vplus a c).
Proof. apply vec_eq; cbn; ring. Qed.

(** ** Energy limits *)
Lemma energy_limits_nth q ms i : nth_error (energy_limits q ms) i =
  option_map (fun m => (m, (q ^ 2 + m ^ 2 - (total ms - m) ^ 2) / (2 * q))) (nth_error ms i).
Proof. unfold energy_limits. apply nth_error_map. Qed.
Lemma energy_bounds q ms ps i m p : 0 < q -> nonneg ms -> event q ms ps -> nth_error ms i = Some m -> nth_error ps i = Some p ->
  m <= en p <= (q ^ 2 + m ^ 2 - (total ms - m) ^ 2) / (2 * q).
Proof.
  intros Hq Hn [F E] Hm Hp. destruct (nth_error_split ms i Hm) as (l1 & l2 & -> & L1).
  destruct (Forall2_split _ _ _ _ F) as (p1 & p2' & -> & F1 & F2). inversion F2 as [|? p0 ? p2 S F3]; subst.
  assert (p0 = p). { rewrite nth_error_app2 in Hp by (rewrite <- (Forall2_len _ _ _ F1); lia).
    rewrite (Forall2_len _ _ _ F1), Nat.sub_diag in Hp. now injection Hp. } subst p0.
  assert (H : heavy (total (l1 ++ l2)) (vsum (p1 ++ p2))).
  { apply heavy_sum; [|now apply Forall2_app]. apply nonneg_app in Hn. destruct Hn as [N1 N2].
    apply nonneg_app. split; [assumption|]. now apply nonneg_tail in N2. }
  assert (Hrest : vplus p (vsum (p1 ++ p2)) = V4 q 0 0 0).
  { rewrite <- E, !vsum_app, vsum_cons. apply vplus_rot. }
  rewrite !total_app, total_cons in *. set (r := vsum (p1 ++ p2)) in *.
  destruct S as [S1 S2]. destruct H as [H1 H2].
  pose proof (f_equal en Hrest) as Ee. pose proof (f_equal px Hrest) as Ex. pose proof (f_equal py Hrest) as Ey.
  pose proof (f_equal pz Hrest) as Ez. cbn [vplus en px py pz] in Ee, Ex, Ey, Ez.
  replace (px r) with (- px p) in H2 by lra. replace (py r) with (- py p) in H2 by lra.
  replace (pz r) with (- pz p) in H2 by lra. replace (en r) with (q - en p) in H2 by lra.
  split; [assumption|]. apply (Rmult_le_reg_r (2 * q)); [lra|].
  unfold Rdiv. rewrite Rmult_assoc, Rinv_l, Rmult_1_r by lra.
  replace (total l1 + (m + total l2) - m) with (total l1 + total l2) by ring. nra.
Qed.
(** Inserting one particle into an event of the others. *)
Lemma insert_event q l1 m l2 p r : on_shell m p -> vplus p r = V4 q 0 0 0 ->
  (exists ps, Forall2 on_shell (l1 ++ l2) ps /\ vsum ps = r) ->
  exists ps, event q (l1 ++ m :: l2) ps /\ nth_error ps (length l1) = Some p.
Proof.
  intros S E (ps & F & V). destruct (Forall2_split _ _ _ _ F) as (p1 & p2 & -> & F1 & F2).
  exists (p1 ++ p :: p2). split.
  - split; [apply Forall2_app; [assumption|now constructor]|].
    rewrite <- E, <- V, !vsum_app, vsum_cons. apply vplus_rot.
  - rewrite (Forall2_len _ _ _ F1). rewrite nth_error_app2 by lia. now rewrite Nat.sub_diag.
Qed.
Lemma energy_upper_attained q ms i m : 0 < q -> nonneg ms -> total ms <= q -> (2 <= length ms)%nat -> nth_error ms i = Some m ->
  exists ps p, event q ms ps /\ nth_error ps i = Some p /\ en p = (q ^ 2 + m ^ 2 - (total ms - m) ^ 2) / (2 * q).
Proof.
  intros Hq Hn Ht Hlen Hm. destruct (nth_error_split ms i Hm) as (l1 & l2 & -> & L1).
  apply nonneg_app in Hn. destruct Hn as [N1 N2]. apply nonneg_tail in N2. destruct N2 as [Hm0 N2].
  assert (No : nonneg (l1 ++ l2)) by (apply nonneg_app; auto). pose proof (total_nonneg _ No) as Hno.
  rewrite total_app, total_cons in Ht. rewrite total_app in Hno. rewrite total_app, total_cons. set (M := total l1 + total l2) in *.
  replace (total l1 + (m + total l2) - m) with M by (unfold M; ring).
  set (p := two_body_momentum q m M).
  destruct (insert_event q l1 m l2 (V4 (hypot p m) 0 0 p) (V4 (hypot (- p) M) 0 0 (- p))) as (ps & Ev & Np).
  - now apply shell_axis.
  - apply vec_eq; cbn [vplus en px py pz]; try ring. rewrite hypot_neg. apply two_body_energy; unfold M in *; lra.
  - apply comove; [|assumption| |].
    + intro Z. apply (f_equal (@length R)) in Z. rewrite app_length in *. cbn in *. lia.
    + cbn [en]. rewrite total_app. apply hypot_ge. assumption.
    + cbn [en px py pz]. rewrite total_app, hypot_sq. fold M. ring.
  - exists ps, (V4 (hypot p m) 0 0 p). rewrite <- L1. split; [assumption|]. split; [assumption|].
    cbn [en]. apply two_body_hypot; unfold M in *; lra.
Qed.
Lemma energy_lower_attained q ms i m : 0 < q -> nonneg ms -> total ms <= q -> (3 <= length ms)%nat -> nth_error ms i = Some m ->
  m < q -> exists ps p, event q ms ps /\ nth_error ps i = Some p /\ en p = m.
Proof.
  intros Hq Hn Ht Hlen Hm Hmq. destruct (nth_error_split ms i Hm) as (l1 & l2 & -> & L1).
  apply nonneg_app in Hn. destruct Hn as [N1 N2]. apply nonneg_tail in N2. destruct N2 as [Hm0 N2].
  assert (No : nonneg (l1 ++ l2)) by (apply nonneg_app; auto).
  rewrite total_app, total_cons in *.
  destruct (insert_event q l1 m l2 (V4 m 0 0 0) (V4 (q - m) 0 0 0)) as (ps & Ev & Np).
  - split; cbn [en px py pz]; [ring|lra].
  - apply vec_eq; cbn [vplus en px py pz]; ring.
  - destruct (rest_event (q - m) (l1 ++ l2)) as (ps & F & V); [|assumption|lra|rewrite total_app; lra|now exists ps].
    rewrite app_length in *. cbn in Hlen. lia.
  - exists ps, (V4 m 0 0 0). rewrite <- L1. auto.
Qed.
