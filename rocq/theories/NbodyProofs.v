(** Lemmas about the Altarelli-Parisi spectra and the n-body spectra of [NbodyModel]. *)
From Coq Require Import String Bool Reals Lra Lia List Arith.
From Verif Require Import PyBase PyBaseFacts RustMath Area SpecProofs KinModel NbodyModel.
Import ListNotations.
Local Open Scope string_scope.
Local Open Scope list_scope.
Local Open Scope R_scope.

(** * Altarelli-Parisi *)
(** The largest energy fraction at which a particle of mass m radiates a photon in this approximation *)
Definition endpoint (s m : R) : R := 1 - exp 1 * m ^ 2 / s.

Lemma exp1_pos : 2 < exp 1.
Proof. pose proof (exp_ineq1 1 ltac:(lra)). lra. Qed.
Lemma mask_endpoint x s m : 0 < s -> 0 < m -> exp 1 < s * (1 - x) / m ^ 2 <-> x < endpoint s m.
Proof.
  intros Hs Hm. unfold endpoint. assert (Hm2 : 0 < m ^ 2) by (apply pow_lt; lra).
  assert (E : exp 1 * m ^ 2 / s * s = exp 1 * m ^ 2) by (field; lra).
  assert (E' : s * (1 - x) / m ^ 2 * m ^ 2 = s * (1 - x)) by (field; lra). set (A := exp 1 * m ^ 2 / s) in *. set (B := s * (1 - x) / m ^ 2) in *.
  clearbody A B. split; intro H.
  - assert (exp 1 * m ^ 2 < B * m ^ 2) by (apply Rmult_lt_compat_r; assumption). nra.
  - assert (A * s < (1 - x) * s) by (apply Rmult_lt_compat_r; lra). nra.
Qed.
Lemma endpoint_lt s m : 0 < s -> 0 < m -> endpoint s m < 1.
Proof.
  intros Hs Hm. unfold endpoint. assert (0 < exp 1 * m ^ 2 / s); [|lra]. pose proof exp1_pos.
  apply Rdiv_lt_0_compat; [apply Rmult_lt_0_compat; [lra|apply pow_lt; lra]|lra].
Qed.
Lemma log_positive x s m : 0 < s -> 0 < m -> x < endpoint s m -> 0 < ln (s * (1 - x) / m ^ 2) - 1.
Proof.
  intros Hs Hm Hx. apply mask_endpoint in Hx; [|assumption..]. assert (ln (exp 1) < ln (s * (1 - x) / m ^ 2)); [|rewrite ln_exp in *; lra].
  apply ln_increasing; [apply exp_pos|exact Hx].
Qed.
Lemma log_decreasing x y s m : 0 < s -> 0 < m -> x < y -> y < 1 -> ln (s * (1 - y) / m ^ 2) < ln (s * (1 - x) / m ^ 2).
Proof.
  intros Hs Hm Hx Hy. assert (Hm2 : 0 < m ^ 2) by (apply pow_lt; lra). apply ln_increasing; [apply Rdiv_lt_0_compat; [nra|lra]|].
  apply Rmult_lt_compat_r; [now apply Rinv_0_lt_compat|nra].
Qed.
Section AP.
Variable alpha_em : R.
Hypothesis alpha_pos : 0 < alpha_em.
Lemma dndx_below x s m split q : 0 < s -> 0 < m -> x < endpoint s m ->
  dndx_photon_fsr alpha_em x s m split q = q ^ 2 * alpha_em / (2 * PI) * (split x * (ln (s * (1 - x) / m ^ 2) - 1)).
Proof.
  intros Hs Hm Hx. unfold dndx_photon_fsr. apply mask_endpoint in Hx; [|assumption..].
  destruct (Rlt_dec (exp 1) (s * (1 - x) / m ^ 2)); [reflexivity|tauto].
Qed.
Lemma dndx_above x s m split q : 0 < s -> 0 < m -> endpoint s m <= x -> dndx_photon_fsr alpha_em x s m split q = 0.
Proof.
  intros Hs Hm Hx. unfold dndx_photon_fsr. destruct (Rlt_dec (exp 1) (s * (1 - x) / m ^ 2)) as [H|]; [|ring].
  apply mask_endpoint in H; [|assumption..]. lra.
Qed.
Lemma pre_pos q : q <> 0 -> 0 < q ^ 2 * alpha_em / (2 * PI).
Proof.
  intro Hq. pose proof PI_RGT_0. apply Rdiv_lt_0_compat; [|lra]. apply Rmult_lt_0_compat; [|lra].
  rewrite <- Rsqr_pow2. now apply Rsqr_pos_lt.
Qed.
Lemma pre_nonneg q : 0 <= q ^ 2 * alpha_em / (2 * PI).
Proof.
  destruct (Req_dec q 0) as [->|H]; [|left; now apply pre_pos]. right. pose proof PI_RGT_0. field. lra.
Qed.
Lemma scalar_splitting_pos x : 0 < x < 1 -> 0 < scalar_splitting x.
Proof. intro H. unfold scalar_splitting. apply Rdiv_lt_0_compat; lra. Qed.
Lemma fermion_splitting_pos x : 0 < x -> 0 < fermion_splitting x.
Proof. intro H. unfold fermion_splitting. apply Rdiv_lt_0_compat; [nra|lra]. Qed.
Lemma splitting_decreasing n d n' d' : 0 < d < d' -> 0 <= n' <= n -> 0 < n -> n' / d' < n / d.
Proof.
  intros Hd Hn Hp. apply Rmult_lt_reg_r with (d * d'); [nra|].
  replace (n' / d' * (d * d')) with (n' * d) by (field; lra). replace (n / d * (d * d')) with (n * d') by (field; lra). nra.
Qed.
Lemma scalar_splitting_dec x y : 0 < x < y -> y < 1 -> scalar_splitting y < scalar_splitting x.
Proof. intros H H1. unfold scalar_splitting. apply splitting_decreasing; lra. Qed.
Lemma fermion_splitting_dec x y : 0 < x < y -> y < 1 -> fermion_splitting y < fermion_splitting x.
Proof. intros H H1. unfold fermion_splitting. apply splitting_decreasing; nra. Qed.
Lemma dndx_positive split q x s m : 0 < s -> 0 < m -> q <> 0 -> x < endpoint s m -> 0 < split x ->
  0 < dndx_photon_fsr alpha_em x s m split q.
Proof.
  intros Hs Hm Hq Hx Hp. rewrite dndx_below by assumption. apply Rmult_lt_0_compat; [now apply pre_pos|].
  apply Rmult_lt_0_compat; [assumption|now apply log_positive].
Qed.
Lemma dndx_nonneg split q x s m : 0 < s -> 0 < m -> (x < endpoint s m -> 0 <= split x) ->
  0 <= dndx_photon_fsr alpha_em x s m split q.
Proof.
  intros Hs Hm Hp. destruct (Rlt_dec x (endpoint s m)) as [H|H]; [|rewrite dndx_above; lra].
  rewrite dndx_below by assumption. apply Rmult_le_pos; [apply pre_nonneg|].
  apply Rmult_le_pos; [auto|left; now apply log_positive].
Qed.
Lemma dndx_decreasing split q x y s m : 0 < s -> 0 < m -> q <> 0 -> x < y -> y < endpoint s m -> 0 < split y < split x ->
  dndx_photon_fsr alpha_em y s m split q < dndx_photon_fsr alpha_em x s m split q.
Proof.
  intros Hs Hm Hq Hx Hy Hp. rewrite !dndx_below by lra. apply Rmult_lt_compat_l; [now apply pre_pos|].
  pose proof (log_positive y s m Hs Hm Hy). pose proof (endpoint_lt s m Hs Hm).
  pose proof (log_decreasing x y s m Hs Hm Hx ltac:(lra)). nra.
Qed.
Lemma dndx_continuous split q x s m : 0 < s -> 0 < m -> (exists l, derivable_pt_lim split x l) ->
  continuity_pt (fun y => dndx_photon_fsr alpha_em y s m split q) x.
Proof.
  intros Hs Hm (l & Dl). assert (Hm2 : 0 < m ^ 2) by (apply pow_lt; lra). pose proof (endpoint_lt s m Hs Hm) as E1.
  assert (C : x < 1 -> continuity_pt (fun y => q ^ 2 * alpha_em / (2 * PI) * (split y * (ln (s * (1 - y) / m ^ 2) - 1))) x).
  { intro Hx. apply derivable_continuous_pt. eexists. apply dl_mult; [apply dl_const|]. apply dl_mult; [exact Dl|].
    apply dl_minus; [|apply dl_const]. apply dl_ln; [|apply Rdiv_lt_0_compat; [nra|lra]].
    apply dl_div; [|apply dl_const|lra]. apply dl_mult; [apply dl_const|]. apply dl_minus; [apply dl_const|apply dl_id]. }
  apply cont_eps. intros eps He. destruct (Rlt_le_dec x (endpoint s m)) as [H|H].
  - apply cont_eps with (eps := eps) in C; [|lra|assumption]. destruct C as (d & Hd & C).
    exists (Rmin d (endpoint s m - x)). split; [apply Rmin_pos; lra|]. intros y Hy.
    pose proof (Rmin_l d (endpoint s m - x)). pose proof (Rmin_r d (endpoint s m - x)).
    apply Rabs_def2 in Hy as Hy'. rewrite !dndx_below by lra. apply C. lra.
  - rewrite (dndx_above x) by assumption. destruct (Rle_lt_or_eq_dec _ _ H) as [H1|H1].
    + exists (x - endpoint s m). split; [lra|]. intros y Hy. apply Rabs_def2 in Hy. rewrite dndx_above by lra. rewrite Rminus_0_r, Rabs_R0. exact He.
    + apply cont_eps with (eps := eps) in C; [|lra|assumption]. destruct C as (d & Hd & C). exists d. split; [assumption|].
      intros y Hy. destruct (Rlt_le_dec y (endpoint s m)) as [H2|H2]; [|rewrite dndx_above, Rminus_0_r, Rabs_R0 by assumption; exact He].
      specialize (C y Hy). rewrite dndx_below by assumption.
      replace (q ^ 2 * alpha_em / (2 * PI) * (split x * (ln (s * (1 - x) / m ^ 2) - 1))) with 0 in C; [exact C|].
      replace (s * (1 - x) / m ^ 2) with (exp 1); [rewrite ln_exp; ring|]. rewrite <- H1. unfold endpoint. field. lra.
Qed.
Lemma soft_limit split num q s m : 0 < s -> 0 < m -> 0 < endpoint s m -> (forall x, 0 < x -> x * split x = num x) ->
  (exists l, derivable_pt_lim num 0 l) -> num 0 = 2 ->
  forall eps, 0 < eps -> exists d, 0 < d /\ forall x, 0 < x < d ->
  Rabs (x * dndx_photon_fsr alpha_em x s m split q - q ^ 2 * alpha_em / PI * (ln (s / m ^ 2) - 1)) < eps.
Proof.
  intros Hs Hm He Hn (l & Dl) H0 eps Heps. assert (Hm2 : 0 < m ^ 2) by (apply pow_lt; lra).
  assert (C : continuity_pt (fun y => q ^ 2 * alpha_em / (2 * PI) * (num y * (ln (s * (1 - y) / m ^ 2) - 1))) 0).
  { apply derivable_continuous_pt. eexists. apply dl_mult; [apply dl_const|]. apply dl_mult; [exact Dl|].
    apply dl_minus; [|apply dl_const]. apply dl_ln; [|apply Rdiv_lt_0_compat; [nra|lra]].
    apply dl_div; [|apply dl_const|lra]. apply dl_mult; [apply dl_const|]. apply dl_minus; [apply dl_const|apply dl_id]. }
  apply cont_eps with (eps := eps) in C; [|assumption]. destruct C as (d & Hd & C).
  exists (Rmin d (endpoint s m)). split; [now apply Rmin_pos|]. intros x Hx.
  pose proof (Rmin_l d (endpoint s m)). pose proof (Rmin_r d (endpoint s m)).
  specialize (C x ltac:(rewrite Rminus_0_r, Rabs_right; lra)). rewrite H0 in C. rewrite dndx_below by lra.
  replace (s * (1 - 0) / m ^ 2) with (s / m ^ 2) in C by (field; lra).
  match goal with |- Rabs ?a < _ => match type of C with Rabs ?b < _ => replace a with b; [exact C|] end end.
  rewrite <- (Hn x) by lra. pose proof PI_RGT_0. field. lra.
Qed.
End AP.

Lemma area_stretch f a b v k : 0 < k -> area f (k * a) (k * b) v -> area (fun e => f (k * e) * k) a b v.
Proof.
  intros Hk (G & Gc & (l & Gd) & Gv). exists (fun e => G (k * e)). split; [|split].
  - intros x Hx. apply (continuity_pt_comp (fun e => k * e) G).
    + apply derivable_continuous_pt. exists (0 * x + k * 1). apply dl_mult; [apply dl_const|apply dl_id].
    + apply Gc. nra.
  - exists (map (fun y => y / k) l). intros x Hx Hn.
    eapply dl_val; [apply (dl_comp (fun e => k * e) G x (0 * x + k * 1) (f (k * x)))|ring].
    + apply dl_mult; [apply dl_const|apply dl_id].
    + apply Gd; [nra|]. intro Hi. apply Hn. apply in_map_iff. exists (k * x). split; [field; lra|exact Hi].
  - exact Gv.
Qed.

(** * Sums *)
Definition sum {A} (f : A -> R) (l : list A) : R := fold_right (fun a acc => f a + acc) 0 l.
Lemma sum_cons {A} (f : A -> R) a l : sum f (a :: l) = f a + sum f l.
Proof. reflexivity. Qed.
Lemma sum_nil {A} (f : A -> R) : sum f [] = 0.
Proof. reflexivity. Qed.
Lemma sum_ext {A} (f g : A -> R) l : (forall a, In a l -> f a = g a) -> sum f l = sum g l.
Proof. induction l as [|a l IH]; intro H; [reflexivity|]. rewrite !sum_cons. rewrite H by now left. f_equal. apply IH. intros b Hb. apply H. now right. Qed.
Lemma sum_app {A} (f : A -> R) l l' : sum f (l ++ l') = sum f l + sum f l'.
Proof. induction l as [|a l IH]; [rewrite sum_nil; cbn [app]; ring|]. cbn [app]. rewrite !sum_cons, IH. ring. Qed.
Lemma sum_plus {A} (f g : A -> R) l : sum (fun a => f a + g a) l = sum f l + sum g l.
Proof. induction l as [|a l IH]; [rewrite !sum_nil; ring|]. rewrite !sum_cons, IH. ring. Qed.
Lemma sum_scal {A} c (f : A -> R) l : sum (fun a => c * f a) l = c * sum f l.
Proof. induction l as [|a l IH]; [rewrite !sum_nil; ring|]. rewrite !sum_cons, IH. ring. Qed.
Lemma sum_zero {A} (l : list A) : sum (fun _ => 0) l = 0.
Proof. induction l as [|a l IH]; [reflexivity|]. rewrite sum_cons, IH. ring. Qed.
Lemma sum_one {A} (l : list A) : sum (fun _ => 1) l = INR (length l).
Proof. induction l as [|a l IH]; [reflexivity|]. rewrite sum_cons, IH. cbn [length]. rewrite S_INR. ring. Qed.
Lemma sum_map {A B} (f : B -> R) (g : A -> B) l : sum f (map g l) = sum (fun a => f (g a)) l.
Proof. induction l as [|a l IH]; [reflexivity|]. cbn [map]. rewrite !sum_cons. now rewrite IH. Qed.
Lemma sum_flat {A B} (f : B -> R) (g : A -> list B) l : sum f (flat_map g l) = sum (fun a => sum f (g a)) l.
Proof. induction l as [|a l IH]; [reflexivity|]. cbn [flat_map]. rewrite sum_app, IH. reflexivity. Qed.
Lemma sum_filter {A} (f : A -> R) (p : A -> bool) l : sum f (filter p l) = sum (fun a => if p a then f a else 0) l.
Proof.
  induction l as [|a l IH]; [reflexivity|]. cbn [filter].
  change (sum (fun a => if p a then f a else 0) (a :: l)) with ((if p a then f a else 0) + sum (fun a => if p a then f a else 0) l).
  destruct (p a); [change (sum f (a :: filter p l)) with (f a + sum f (filter p l))|]; rewrite IH; ring.
Qed.
Lemma sum_swap {A B} (f : A -> B -> R) l l' : sum (fun a => sum (f a) l') l = sum (fun b => sum (fun a => f a b) l) l'.
Proof.
  induction l as [|a l IH]; [rewrite sum_nil; now rewrite sum_zero|].
  rewrite sum_cons.
  rewrite IH, <- sum_plus. reflexivity.
Qed.
Lemma fold_sum {A} (f : A -> R) l a : fold_left (fun acc x => acc + f x) l a = a + sum f l.
Proof. revert a. induction l as [|b l IH]; intro a; cbn [fold_left]; [rewrite sum_nil; ring|]. rewrite IH, sum_cons. ring. Qed.
Lemma sum_pick {A} (dec : forall a b : A, {a = b} + {a <> b}) (v : A -> R) (k : A) l : NoDup l ->
  sum (fun a => if dec k a then v a else 0) l = if in_dec dec k l then v k else 0.
Proof.
  induction l as [|a l IH]; intro ND; [reflexivity|]. inversion ND; subst.
  change (sum (fun a => if dec k a then v a else 0) (a :: l)) with ((if dec k a then v a else 0) + sum (fun a => if dec k a then v a else 0) l).
  rewrite IH by assumption. destruct (dec k a) as [->|Hn].
  - destruct (in_dec dec a l); [tauto|]. destruct (in_dec dec a (a :: l)) as [|Hx]; [ring|]. exfalso; apply Hx; now left.
  - destruct (in_dec dec k l) as [Hi|Hi], (in_dec dec k (a :: l)) as [Hj|Hj]; try ring.
    + exfalso; apply Hj; now right.
    + destruct Hj; congruence.
Qed.

(** ** Pairs of particles *)
Lemma sum_above n i (f : nat -> R) : (i < n)%nat ->
  sum f (seq (S i) (n - S i)) = sum (fun j => if Nat.ltb i j then f j else 0) (seq 0 n).
Proof.
  intro H. replace (seq 0 n) with (seq 0 (S i) ++ seq (S i) (n - S i)) by (rewrite <- seq_app; f_equal; lia).
  rewrite sum_app. rewrite (sum_ext _ (fun _ => 0) (seq 0 (S i))), sum_zero, Rplus_0_l.
  - apply sum_ext. intros j Hj. apply in_seq in Hj. destruct (Nat.ltb_spec i j); [reflexivity|lia].
  - intros j Hj. apply in_seq in Hj. destruct (Nat.ltb_spec i j); [lia|reflexivity].
Qed.
Lemma sum_pairs n (f : nat -> nat -> R) :
  sum (fun ij => f (fst ij) (snd ij)) (index_pairs n) = sum (fun i => sum (fun j => if Nat.ltb i j then f i j else 0) (seq 0 n)) (seq 0 n).
Proof.
  unfold index_pairs. rewrite sum_flat. apply sum_ext. intros i Hi. apply in_seq in Hi. rewrite sum_map. cbn [fst snd]. now rewrite sum_above by lia.
Qed.
Lemma double_count n (f : nat -> nat -> R) :
  sum (fun ij => f (fst ij) (snd ij) + f (snd ij) (fst ij)) (index_pairs n)
  = sum (fun i => sum (fun j => if Nat.eq_dec i j then 0 else f i j) (seq 0 n)) (seq 0 n).
Proof.
  rewrite sum_plus, sum_pairs, (sum_pairs n (fun i j => f j i)).
  rewrite (sum_swap (fun i j => if Nat.ltb i j then f j i else 0)), <- sum_plus. apply sum_ext. intros i _. rewrite <- sum_plus.
  apply sum_ext. intros j _. destruct (Nat.ltb_spec i j), (Nat.ltb_spec j i), (Nat.eq_dec i j); try lia; ring.
Qed.

(** * The trapezoidal rule *)
Definition weigh (d : pdist) (g : R -> R) : R :=
  sum (fun k => (nth (S k) (fst d) 0 - nth k (fst d) 0) / 2 * (nth k (snd d) 0 * g (nth k (fst d) 0) + nth (S k) (snd d) 0 * g (nth (S k) (fst d) 0)))
    (seq 0 (length (fst d) - 1)).
Lemma trapezoid_weigh (g : R -> R) xs ps : length ps = length xs ->
  trapezoid xs (map (fun pr => fst pr * snd pr) (combine ps (map g xs))) = weigh (xs, ps) g.
Proof.
  revert ps. induction xs as [|x xs IH]; intros ps L; [now destruct ps|]. destruct ps as [|p ps]; [discriminate L|].
  injection L as L. destruct xs as [|x1 xs]; destruct ps as [|p1 ps]; try discriminate L; [reflexivity|].
  cbn [map combine fst snd].
  match goal with |- trapezoid (?a :: ?b :: ?l) (?u :: ?v :: ?w) = _ =>
    change (trapezoid (a :: b :: l) (u :: v :: w)) with ((b - a) * (u + v) / 2 + trapezoid (b :: l) (v :: w)) end. specialize (IH (p1 :: ps) L). cbn [map combine fst snd] in IH. rewrite IH. unfold weigh. cbn [fst snd length].
  replace (S (S (length xs)) - 1)%nat with (S (length xs)) by lia. replace (S (length xs) - 1)%nat with (length xs) by lia.
  cbn [seq]. rewrite sum_cons, <- seq_shift, sum_map. cbn [nth]. apply f_equal2; [field|reflexivity].
Qed.
Lemma weigh_ext d f g : (forall e, f e = g e) -> weigh d f = weigh d g.
Proof. intro H. unfold weigh. apply sum_ext. intros k _. now rewrite !H. Qed.
Lemma weigh_plus d f g : weigh d (fun e => f e + g e) = weigh d f + weigh d g.
Proof. unfold weigh. rewrite <- sum_plus. apply sum_ext. intros k _. ring. Qed.
Lemma weigh_zero d : weigh d (fun _ => 0) = 0.
Proof. unfold weigh. rewrite (sum_ext _ (fun _ => 0)); [apply sum_zero|]. intros; ring. Qed.

Lemma mem_In s l : mem s l = true <-> In s l.
Proof.
  unfold mem. rewrite existsb_exists. split.
  - intros (x & Hx & E). apply String.eqb_eq in E. now subst.
  - intro H. exists s. split; [assumption|apply String.eqb_refl].
Qed.
Lemma mem_not s l : mem s l = false <-> ~ In s l.
Proof. rewrite <- mem_In. destruct (mem s l); intuition congruence. Qed.

Section Nbody.
Variable photon positron : string -> R -> R -> R.
Variable neutrino : string -> R -> R -> R * R * R.
Variable fsr : string -> R -> R -> R.
Notation conv := (conv_dnde_dist photon positron neutrino fsr).
Notation spec := (spectrum photon positron neutrino fsr).
Definition matched (d : pdist) : Prop := length (snd d) = length (fst d).

Lemma conv_row ep d s product f : spec product s = Some f -> matched d ->
  conv ep d s product = Ret (map (fun k => weigh d (fun e => nth k (f ep e) 0)) (seq 0 (rows product))).
Proof.
  intros E M. unfold conv_dnde_dist. rewrite E. destruct d as [xs ps]. unfold matched in M. cbn [fst snd] in M. f_equal. apply map_ext. intro k.
  rewrite <- trapezoid_weigh by assumption. f_equal.
  revert ps M. induction xs as [|x xs IH]; intros ps M; destruct ps as [|p ps]; try discriminate M; [reflexivity|].
  cbn [map combine]. f_equal. apply IH. now injection M.
Qed.
Lemma conv_fsr ep d s : In s fsr_keys -> matched d -> conv ep d s "fsr" = Ret [weigh d (fun e => fsr s ep e)].
Proof.
  intros H M. rewrite (conv_row ep d s "fsr" (fun ep e => [fsr s ep e])); [reflexivity| |assumption].
  unfold spectrum. cbn [String.eqb]. change (String.eqb "fsr" "fsr") with true. cbv iota. now rewrite (proj2 (mem_In _ _) H).
Qed.

(** ** The loop over pairs *)
Definition named (s : string) (evs : list (string * pdist)) : list pdist := map snd (filter (fun ev => String.eqb s (fst ev)) evs).
Definition used (avg : bool) (c : nat) (s : string) (evs : list (string * pdist)) : list pdist :=
  if avg then named s evs else if Nat.eqb c 0 then firstn 1 (named s evs) else [].
Lemma used_cons avg c s s' d evs :
  used avg c s ((s', d) :: evs)
  = if String.eqb s s' then if avg || Nat.eqb c 0 then d :: used avg (S c) s evs else used avg c s evs else used avg c s evs.
Proof.
  unfold used, named. cbn [filter map fst snd]. destruct (String.eqb s s') eqn:E; cbn [map snd]; destruct avg; cbn [orb];
    try reflexivity; destruct (Nat.eqb c 0) eqn:E0; reflexivity.
Qed.
Lemma count_dset_same counts s n : count_of (dset counts s n) s = n.
Proof. unfold count_of. now rewrite dget_dset_same. Qed.
Lemma count_dset_other counts s s' n : s <> s' -> count_of (dset counts s n) s' = count_of counts s'.
Proof. intro H. unfold count_of. now rewrite dget_dset_other. Qed.
Lemma fsr_loop_spec ep avg evs : (forall ev, In ev evs -> matched (snd ev)) -> forall dndes counts,
  (forall s v, dget dndes s = Some v -> In s fsr_keys) ->
  exists dn cn, fsr_loop photon positron neutrino fsr ep avg evs dndes counts = Ret (dn, cn) /\ dkeys dn = dkeys dndes
    /\ (forall s v, dget dndes s = Some v ->
        dget dn s = Some (v + sum (fun d => weigh d (fun e => fsr s ep e)) (used avg (count_of counts s) s evs))
        /\ count_of cn s = (count_of counts s + length (used avg (count_of counts s) s evs))%nat).
Proof.
  induction evs as [|[s d] evs IH]; intros M dndes counts K.
  - exists dndes, counts. split; [reflexivity|]. split; [reflexivity|]. intros s v H. unfold used, named. cbn [filter map].
    destruct avg; [|destruct (Nat.eqb (count_of counts s) 0)]; cbn [firstn length]; rewrite sum_nil, Rplus_0_r, Nat.add_0_r; auto.
  - assert (M' : forall ev, In ev evs -> matched (snd ev)) by (intros; apply M; now right). cbn [fsr_loop].
    destruct (dget dndes s) as [v|] eqn:G.
    + destruct (avg || Nat.eqb (count_of counts s) 0) eqn:A.
      * rewrite conv_fsr by (eauto; apply (M (s, d)); now left). cbn [bind nth].
        destruct (IH M' (dset dndes s (v + weigh d (fun e => fsr s ep e))) (dset counts s (S (count_of counts s)))) as (dn & cn & E & EK & ES).
        { intros s' v' H. destruct (string_dec s s') as [<-|Hn]; [now apply (K s v)|]. rewrite dget_dset_other in H by assumption. eauto. }
        exists dn, cn. split; [exact E|]. split.
        { rewrite EK. clear - G. induction dndes as [|[k w] r IHr]; [discriminate G|]. cbn in *. destruct (String.eqb k s) eqn:E; cbn; [reflexivity|].
          f_equal. auto. }
        intros s' v' H. rewrite used_cons. destruct (string_dec s s') as [<-|Hn].
        -- rewrite String.eqb_refl, A. rewrite G in H. injection H as <-. destruct (ES s _ (dget_dset_same _ _ _)) as [E1 E2].
           rewrite count_dset_same in E1, E2. rewrite E1, E2. cbn [length]. split; [f_equal; rewrite sum_cons; ring|lia].
        -- destruct (String.eqb_spec s' s) as [->|]; [tauto|]. specialize (ES s' v'). rewrite dget_dset_other in ES by assumption.
           rewrite count_dset_other in ES by assumption. auto.
      * destruct (IH M' dndes counts K) as (dn & cn & E & EK & ES). exists dn, cn. split; [exact E|]. split; [exact EK|].
        intros s' v' H. rewrite used_cons. destruct (String.eqb_spec s' s) as [->|]; [rewrite A|]; auto.
    + destruct (IH M' dndes counts K) as (dn & cn & E & EK & ES). exists dn, cn. split; [exact E|]. split; [exact EK|].
      intros s' v' H. rewrite used_cons. destruct (String.eqb_spec s' s) as [->|]; [congruence|]. auto.
Qed.

(** the dictionary of zeros *)
Lemma init_spec fs : let d := fold_left (fun d s => if mem s fsr_keys then dset d s 0 else d) fs [] in
  NoDup (dkeys d) /\ (forall s, In s (dkeys d) <-> In s fs /\ In s fsr_keys) /\ (forall s v, dget d s = Some v -> v = 0).
Proof.
  assert (G : forall (d0 : dict R), NoDup (dkeys d0) -> (forall s v, dget d0 s = Some v -> v = 0) ->
    let d := fold_left (fun d s => if mem s fsr_keys then dset d s 0 else d) fs d0 in
    NoDup (dkeys d) /\ (forall s, In s (dkeys d) <-> In s (dkeys d0) \/ (In s fs /\ In s fsr_keys)) /\ (forall s v, dget d s = Some v -> v = 0)).
  { induction fs as [|s fs IH]; intros d0 N Z; cbn [fold_left].
    - split; [assumption|]. split; [|assumption]. intro s. cbn. tauto.
    - destruct (mem s fsr_keys) eqn:E.
      + apply mem_In in E. assert (KE : (In s (dkeys d0) /\ dkeys (dset d0 s 0) = dkeys d0) \/ (~ In s (dkeys d0) /\ dkeys (dset d0 s 0) = dkeys d0 ++ [s])).
        { destruct (in_dec string_dec s (dkeys d0)) as [Hi|Hi].
          - left. split; [assumption|]. clear - Hi. induction d0 as [|[k w] r IHr]; [contradiction Hi|]. cbn in *. destruct (String.eqb_spec k s); cbn; [reflexivity|].
            f_equal. destruct Hi; [congruence|auto].
          - right. split; [assumption|]. rewrite dset_fresh by assumption. unfold dkeys. now rewrite map_app. }
        destruct (IH (dset d0 s 0)) as (N1 & K1 & Z1).
        * destruct KE as [[_ ->]|[Hn ->]]; [assumption|]. 
          clear - N Hn. induction (dkeys d0) as [|k r IHr]; cbn; [repeat constructor; intros []|]. inversion N; subst. constructor.
          -- intro Hx. apply in_app_iff in Hx as [Hx|[<-|[]]]; [tauto|apply Hn; now left].
          -- apply IHr; [assumption|]. intro; apply Hn; now right.
        * intros s' v H. destruct (string_dec s s') as [<-|Hs]; [rewrite dget_dset_same in H; congruence|]. rewrite dget_dset_other in H by assumption. eauto.
        * split; [assumption|]. split; [|assumption]. intro s'. rewrite K1. cbn [In]. destruct KE as [[Hi ->]|[Hi ->]].
          -- split; [tauto|]. intros [H|[[<-|H] H']]; auto.
          -- rewrite in_app_iff. cbn [In]. split; [|tauto]. intros [[H|[<-|[]]]|[H H']]; auto.
      + destruct (IH d0 N Z) as (N1 & K1 & Z1). split; [assumption|]. split; [|assumption]. intro s'. rewrite K1. cbn [In].
        apply mem_not in E. split; [tauto|]. intros [H|[[<-|H] H']]; tauto. }
  cbn zeta. destruct (G [] (NoDup_nil _)) as (N & K & Z); [discriminate|]. split; [assumption|]. split; [|assumption]. intro s. rewrite K. cbn. tauto.
Qed.

(** The value returned: over the distinct charged names, the mean of what was computed for each *)
Lemma fsr_by_name ep fs dists avg : (forall pd, In pd dists -> matched (snd pd)) -> exists K : list string,
  NoDup K /\ (forall s, In s K <-> In s fs /\ In s fsr_keys)
  /\ dnde_photon_fsr photon positron neutrino fsr ep fs dists avg
     = Ret (sum (fun s => let u := used avg 0 s (fsr_events fs dists) in
                          sum (fun d => weigh d (fun e => fsr s ep e)) u / INR (length u)) K).
Proof.
  intro M. unfold dnde_photon_fsr. destruct (init_spec fs) as (N & K & Z). cbv zeta in *.
  set (d0 := fold_left (fun d s => if mem s fsr_keys then dset d s 0 else d) fs []) in *. exists (dkeys d0). split; [exact N|]. split; [exact K|].
  destruct (existsb (fun s => mem s fsr_keys) fs) eqn:X.
  - destruct (fsr_loop_spec ep avg (fsr_events fs dists)) with (dndes := d0) (counts := @nil (string * nat)) as (dn & cn & E & EK & ES).
    + intros ev H. unfold fsr_events in H. apply in_flat_map in H as (pd & H & [<-|[<-|[]]]); cbn [snd]; auto.
    + intros s v H. apply (K s). apply dget_Some_In in H. change s with (fst (s, v)). now apply in_map.
    + rewrite E. cbn [bind fst snd]. f_equal. rewrite fold_sum, Rplus_0_l. rewrite <- EK. unfold dkeys at 1. rewrite sum_map. apply sum_ext.
      intros [s v] H. cbn [fst snd]. assert (ND : NoDup (dkeys dn)) by (rewrite EK; exact N).
      pose proof (dget_In dn s v ND H) as G. assert (In s (dkeys d0)) as Hs by (rewrite <- EK; change s with (fst (s, v)); now apply in_map).
      destruct (dget d0 s) as [v0|] eqn:G0; [|apply dget_None in G0; tauto]. pose proof (Z s v0 G0) as ->.
      destruct (ES s 0 G0) as [E1 E2]. change (count_of [] s) with 0%nat in E1, E2. rewrite E1 in G. injection G as <-. rewrite E2.
      rewrite Rplus_0_l. reflexivity.
  - assert (dkeys d0 = []) as ->; [|reflexivity]. destruct (dkeys d0) as [|s r] eqn:Ek; [reflexivity|]. exfalso.
    destruct (K s) as [H _]. destruct H as [H H']; [now left|]. assert (existsb (fun s => mem s fsr_keys) fs = true); [|congruence].
    apply existsb_exists. exists s. split; [assumption|]. now apply mem_In.
Qed.

(** ** Every pair of particles has a distribution *)
Definition all_pairs (D : nat -> nat -> pdist) (n : nat) : list ((nat * nat) * pdist) :=
  map (fun ij => (ij, D (fst ij) (snd ij))) (index_pairs n).
Definition between (D : nat -> nat -> pdist) (i j : nat) : pdist := D (Nat.min i j) (Nat.max i j).
Lemma pairs_ordered n i j : In (i, j) (index_pairs n) -> (i < j < n)%nat.
Proof.
  unfold index_pairs. rewrite in_flat_map. intros (k & Hk & H). apply in_seq in Hk. apply in_map_iff in H as (j' & [= -> ->] & H). apply in_seq in H. lia.
Qed.
Lemma named_sum (h : pdist -> R) s fs D : let n := length fs in
  sum h (named s (fsr_events fs (all_pairs D n)))
  = sum (fun i => if String.eqb s (nth i fs "") then sum (fun j => if Nat.eq_dec i j then 0 else h (between D i j)) (seq 0 n) else 0) (seq 0 n).
Proof.
  intro n. unfold named. rewrite sum_map, sum_filter. unfold fsr_events, all_pairs. rewrite sum_flat, sum_map. cbn [fst snd].
  rewrite (sum_ext _ (fun ij => (if String.eqb s (nth (fst ij) fs "") then h (between D (fst ij) (snd ij)) else 0)
    + (if String.eqb s (nth (snd ij) fs "") then h (between D (snd ij) (fst ij)) else 0)) (index_pairs n)).
  - rewrite (double_count n (fun i j => if String.eqb s (nth i fs "") then h (between D i j) else 0)). apply sum_ext. intros i _.
    destruct (String.eqb s (nth i fs "")).
    + apply sum_ext. intros j _. destruct (Nat.eq_dec i j); reflexivity.
    + rewrite (sum_ext _ (fun _ => 0)); [apply sum_zero|]. intros j _. destruct (Nat.eq_dec i j); reflexivity.
  - intros [i j] H. apply pairs_ordered in H. cbn [fst snd]. unfold between. rewrite Nat.min_l, Nat.max_r, Nat.min_r, Nat.max_l by lia.
    rewrite !sum_cons, sum_nil. cbn [fst snd]. ring.
Qed.
Lemma others n i : (i < n)%nat -> sum (fun j => if Nat.eq_dec i j then 0 else 1) (seq 0 n) = INR (n - 1).
Proof.
  intro H. assert (E : sum (fun j => (if Nat.eq_dec i j then 0 else 1) + (if Nat.eq_dec i j then 1 else 0)) (seq 0 n) = INR n).
  { rewrite <- (seq_length n 0) at 2. rewrite <- sum_one. apply sum_ext. intros j _. destruct (Nat.eq_dec i j); ring. }
  rewrite sum_plus, (sum_pick Nat.eq_dec (fun _ => 1)) in E by apply seq_NoDup. destruct (in_dec Nat.eq_dec i (seq 0 n)) as [|Hn]; [|exfalso; apply Hn, in_seq; lia].
  rewrite minus_INR by lia. cbn [INR]. lra.
Qed.
Lemma sum_nth {A} (f : A -> R) d l : sum (fun i => f (nth i l d)) (seq 0 (length l)) = sum f l.
Proof.
  induction l as [|a l IH]; [reflexivity|]. cbn [length seq]. rewrite !sum_cons. cbn [nth]. f_equal. rewrite <- seq_shift, sum_map. exact IH.
Qed.
Lemma multiplicity s fs : sum (fun i => if String.eqb s (nth i fs "") then 1 else 0) (seq 0 (length fs)) = INR (count_occ string_dec fs s).
Proof.
  rewrite (sum_nth (fun x => if String.eqb s x then 1 else 0)). induction fs as [|a fs IH]; [reflexivity|]. rewrite sum_cons. cbn [count_occ].
  destruct (String.eqb_spec s a) as [H|H], (string_dec a s) as [H'|H']; try congruence; rewrite IH; [rewrite S_INR; ring|ring].
Qed.
Lemma named_count s fs D : INR (length (named s (fsr_events fs (all_pairs D (length fs))))) = INR (count_occ string_dec fs s) * INR (length fs - 1).
Proof.
  rewrite <- sum_one. rewrite (named_sum (fun _ => 1)). rewrite <- multiplicity, Rmult_comm, <- sum_scal. apply sum_ext. intros i Hi. apply in_seq in Hi.
  rewrite others by lia. destruct (String.eqb s (nth i fs "")); ring.
Qed.

(** Photons radiated by particle i: the mean over its partners of the spectrum weighed with the distribution
    of the invariant mass of the pair *)
Definition radiated (ep : R) (fs : list string) (D : nat -> nat -> pdist) (i : nat) : R :=
  / INR (length fs - 1) *
  sum (fun j => if Nat.eq_dec i j then 0 else weigh (between D i j) (fun e => fsr (nth i fs "") ep e)) (seq 0 (length fs)).

Lemma averaged ep fs D : (2 <= length fs)%nat -> (forall i j, matched (D i j)) ->
  dnde_photon_fsr photon positron neutrino fsr ep fs (all_pairs D (length fs)) true
  = Ret (sum (fun i => if in_dec string_dec (nth i fs "") fsr_keys then radiated ep fs D i / INR (count_occ string_dec fs (nth i fs "")) else 0)
      (seq 0 (length fs))).
Proof.
  intros Hn M. destruct (fsr_by_name ep fs (all_pairs D (length fs)) true) as (K & N & HK & E).
  { intros pd H. apply in_map_iff in H as (ij & <- & _). apply M. }
  rewrite E. f_equal. cbv zeta. unfold used.
  assert (Hn1 : INR (length fs - 1) <> 0) by (apply not_0_INR; lia).
  rewrite (sum_ext _ (fun s => sum (fun i => if string_dec (nth i fs "") s then radiated ep fs D i / INR (count_occ string_dec fs (nth i fs "")) else 0) (seq 0 (length fs))) K).
  - rewrite sum_swap. apply sum_ext. intros i Hi. apply in_seq in Hi.
    rewrite (sum_pick string_dec (fun _ => radiated ep fs D i / INR (count_occ string_dec fs (nth i fs "")))) by assumption.
    assert (In (nth i fs "") fs) by (apply nth_In; lia).
    destruct (in_dec string_dec (nth i fs "") K) as [H1|H1], (in_dec string_dec (nth i fs "") fsr_keys) as [H2|H2]; try reflexivity.
    + apply HK in H1. tauto.
    + exfalso. apply H1, HK. tauto.
  - intros s Hs. apply HK in Hs as [Hs _]. rewrite named_sum, named_count. unfold Rdiv at 1. rewrite Rmult_comm, <- sum_scal. apply sum_ext. intros i Hi.
    assert (INR (count_occ string_dec fs s) <> 0) by (apply not_0_INR; apply (count_occ_In string_dec) in Hs; lia).
    destruct (String.eqb_spec s (nth i fs "")) as [Hx|Hx], (string_dec (nth i fs "") s) as [H1|H1]; try congruence; [|ring].
    unfold radiated. rewrite <- Hx. field. split; assumption.
Qed.

(** ** Without averaging: the first pair containing each name *)
Lemma firstn_named s evs : firstn 1 (named s evs) = match find (fun ev => String.eqb s (fst ev)) evs with Some ev => [snd ev] | None => [] end.
Proof.
  unfold named. induction evs as [|[s' d] evs IH]; [reflexivity|]. cbn [filter find fst]. destruct (String.eqb s s'); [reflexivity|exact IH].
Qed.

Lemma find_app {A} (p : A -> bool) l l' : find p (l ++ l') = match find p l with Some a => Some a | None => find p l' end.
Proof. induction l as [|a l IH]; [reflexivity|]. cbn [app find]. destruct (p a); [reflexivity|exact IH]. Qed.
Lemma find_partner s fs D i : s <> nth 0 fs "" -> nth i fs "" = s -> forall m k, (k <= i < k + m)%nat -> (forall j, (k <= j < i)%nat -> nth j fs "" <> s) ->
  find (fun ev => String.eqb s (fst ev)) (fsr_events fs (map (fun ij => (ij, D (fst ij) (snd ij))) (map (fun j => (0%nat, j)) (seq k m)))) = Some (s, D 0%nat i).
Proof.
  intros H0 Hi. induction m as [|m IH]; intros k Hk Hj; [lia|]. cbn [seq map]. unfold fsr_events. cbn [flat_map fst snd app find].
  destruct (String.eqb_spec s (nth 0 fs "")); [tauto|]. destruct (String.eqb_spec s (nth k fs "")) as [E|E].
  - destruct (Nat.eq_dec k i) as [->|Hne]; [now rewrite E|]. exfalso. apply (Hj k); [lia|congruence].
  - apply IH; [|intros j Hj'; apply Hj; lia]. destruct (Nat.eq_dec k i) as [->|]; [congruence|lia].
Qed.
Lemma find_first s fs D i : (2 <= length fs)%nat -> (i < length fs)%nat -> nth i fs "" = s -> (forall j, (j < i)%nat -> nth j fs "" <> s) ->
  exists ev, find (fun ev => String.eqb s (fst ev)) (fsr_events fs (all_pairs D (length fs))) = Some ev /\ snd ev = D 0%nat (Nat.max 1 i).
Proof.
  intros Hn Hi Es Hj. unfold all_pairs, index_pairs. destruct (length fs) as [|[|n]]; [lia..|]. cbn [seq flat_map]. rewrite map_app.
  unfold fsr_events. rewrite flat_map_app, find_app. replace (S (S n) - 1)%nat with (S n) by lia. destruct i as [|i].
  - cbn [seq map flat_map fst snd app find]. destruct (String.eqb_spec s (nth 0 fs "")); [|congruence]. eexists. split; reflexivity.
  - change (flat_map _ (map ?f ?l)) with (fsr_events fs (map f l)). rewrite (find_partner s fs D (S i)); [|apply not_eq_sym, Hj; lia|assumption|lia|intros; apply Hj; lia].
    eexists. split; reflexivity.
Qed.
Lemma first_index s (l : list string) : In s l -> exists i, (i < length l)%nat /\ nth i l "" = s /\ (forall j, (j < i)%nat -> nth j l "" <> s).
Proof.
  induction l as [|a l IH]; intro H; [contradiction H|]. destruct (string_dec a s) as [->|Hn].
  - exists 0%nat. split; [cbn; lia|]. split; [reflexivity|]. intros; lia.
  - destruct IH as (i & Hi & E & Hj); [destruct H; congruence|]. exists (S i). split; [cbn; lia|]. split; [exact E|].
    intros [|j] Hj'; [exact Hn|]. apply Hj. lia.
Qed.
Lemma in_firstn (l : list string) i s : (i <= length l)%nat -> In s (firstn i l) <-> exists j, (j < i)%nat /\ nth j l "" = s.
Proof.
  revert i. induction l as [|a l IH]; intros [|i] Hi; cbn [firstn In length] in *; try (split; [tauto|intros (j & Hj & _); lia]); try lia.
  rewrite IH by lia. split.
  - intros [<-|(j & Hj & E)]; [exists 0%nat; split; [lia|reflexivity]|]. exists (S j). split; [lia|exact E].
  - intros ([|j] & Hj & E); [now left|]. right. exists j. split; [lia|exact E].
Qed.
Lemma unaveraged ep fs D : (2 <= length fs)%nat -> (forall i j, matched (D i j)) ->
  dnde_photon_fsr photon positron neutrino fsr ep fs (all_pairs D (length fs)) false
  = Ret (sum (fun i => if in_dec string_dec (nth i fs "") fsr_keys then if in_dec string_dec (nth i fs "") (firstn i fs) then 0
        else weigh (D 0%nat (Nat.max 1 i)) (fun e => fsr (nth i fs "") ep e) else 0) (seq 0 (length fs))).
Proof.
  intros Hn M. destruct (fsr_by_name ep fs (all_pairs D (length fs)) false) as (K & N & HK & E).
  { intros pd H. apply in_map_iff in H as (ij & <- & _). apply M. }
  rewrite E. f_equal. cbv zeta. unfold used. cbn [Nat.eqb].
  set (a := fun i => if in_dec string_dec (nth i fs "") (firstn i fs) then 0 else weigh (D 0%nat (Nat.max 1 i)) (fun e => fsr (nth i fs "") ep e)).
  rewrite (sum_ext _ (fun s => sum (fun i => if string_dec (nth i fs "") s then a i else 0) (seq 0 (length fs))) K).
  - rewrite sum_swap. apply sum_ext. intros i Hi. apply in_seq in Hi. rewrite (sum_pick string_dec (fun _ => a i)) by assumption.
    assert (In (nth i fs "") fs) by (apply nth_In; lia).
    destruct (in_dec string_dec (nth i fs "") K) as [H1|H1], (in_dec string_dec (nth i fs "") fsr_keys) as [H2|H2]; try reflexivity.
    + apply HK in H1. tauto.
    + exfalso. apply H1, HK. tauto.
  - intros s Hs. apply HK in Hs as [Hs _]. destruct (first_index s fs Hs) as (i & Hi & Ei & Hj).
    destruct (find_first s fs D i Hn Hi Ei Hj) as (ev & F & Fd). rewrite firstn_named, F, Fd, sum_cons, sum_nil. cbn [length INR].
    rewrite (sum_ext _ (fun k => if Nat.eq_dec i k then a k else 0)).
    + rewrite (sum_pick Nat.eq_dec a) by apply seq_NoDup. destruct (in_dec Nat.eq_dec i (seq 0 (length fs))) as [|Hx]; [|exfalso; apply Hx, in_seq; lia].
      unfold a. rewrite Ei. destruct (in_dec string_dec s (firstn i fs)) as [Hx|Hx]; [|field].
      apply in_firstn in Hx as (j & Hj' & E'); [|lia]. exfalso. now apply (Hj j).
    + intros k Hk. apply in_seq in Hk. destruct (Nat.eq_dec i k) as [<-|Hne]; [destruct (string_dec (nth i fs "") s); [reflexivity|congruence]|].
      destruct (string_dec (nth k fs "") s) as [Ek|]; [|reflexivity]. unfold a. rewrite Ek.
      destruct (in_dec string_dec s (firstn k fs)) as [Hx|Hx]; [reflexivity|]. exfalso. apply Hx, in_firstn; [lia|]. exists i. split; [|exact Ei].
      destruct (Nat.lt_trichotomy i k) as [|[|Hlt]]; [assumption|congruence|]. exfalso. now apply (Hj k).
Qed.
End Nbody.
