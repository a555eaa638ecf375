(** Lemmas on the histograms of events and on averages. *)
From Coq Require Import Reals Lra Psatz Lia ZArith Bool List.
From Verif Require Import PyBase RamboModel RamboProofs KinModel KinProofs KinProps VffModel VffProofs TriModel TriProofs HistModel.
Import ListNotations.
Local Open Scope nat_scope.
Local Open Scope R_scope.

(** * Specification *)

(** [w] is the sum of the weights of those entries whose value has the property *)
Inductive weighs (P : R -> Prop) : list (R * R) -> R -> Prop :=
| weighs_nil : weighs P [] 0
| weighs_in x v l w : P x -> weighs P l w -> weighs P ((x, v) :: l) (v + w)
| weighs_out x v l w : ~ P x -> weighs P l w -> weighs P ((x, v) :: l) w.

(** The bin number [k] of [n] equal ones between [lo] and [hi]; the last one includes its end *)
Definition bin_edge (lo hi : R) (n k : nat) : R := lo + INR k * ((hi - lo) / INR n).
Definition in_bin (lo hi : R) (n k : nat) (x : R) : Prop :=
  bin_edge lo hi n k <= x < bin_edge lo hi n (S k) \/ (S k = n /\ x = hi).

(** A distribution that gives each of [n] equal bins its share of the weight *)
Definition shares (d : dist) (lo hi : R) (n : nat) (xs : list (R * R)) : Prop :=
  length (bins d) = S n /\ (forall k, (k <= n)%nat -> nth_error (bins d) k = Some (bin_edge lo hi n k)) /\
  exists ps, probabilities d = Some ps /\ length ps = n /\ binned_integral ps (bins d) = 1 /\
    forall k p, nth_error ps k = Some p ->
      exists w, weighs (in_bin lo hi n k) xs w /\ p * ((hi - lo) / INR n) = w / total (map snd xs).

(** * Histograms *)

Lemma weighs_iff P Q xs w : (forall x, P x <-> Q x) -> weighs P xs w -> weighs Q xs w.
Proof.
  intros H. induction 1 as [|x v l w Px Hw IH|x v l w Px Hw IH].
  - constructor.
  - apply weighs_in; [now apply H|exact IH].
  - apply weighs_out; [intro; apply Px; now apply H|exact IH].
Qed.

Lemma up_to_diff last xs a b : a <= b ->
  weighs (fun x => a <= x /\ if last : bool then x <= b else x < b) xs (up_to last xs b - up_to false xs a).
Proof.
  intro Hab. unfold up_to. induction xs as [|[x v] xs IH].
  - cbn. replace (0 - 0) with 0 by ring. constructor.
  - cbn [map]. rewrite !total_cons. cbn [fst snd].
    destruct (Rlt_dec x a) as [A|A].
    + assert (B : (if last then if Rle_dec x b then v else 0 else if Rlt_dec x b then v else 0) = v).
      { destruct last; [destruct (Rle_dec x b)|destruct (Rlt_dec x b)]; try reflexivity; lra. }
      rewrite B. match goal with |- weighs _ _ (v + ?p - (v + ?q)) => replace (v + p - (v + q)) with (p - q) by ring end.
      apply weighs_out; [intros [K _]; lra|exact IH].
    + destruct last.
      * destruct (Rle_dec x b).
        -- match goal with |- weighs _ _ (v + ?p - (0 + ?q)) => replace (v + p - (0 + q)) with (v + (p - q)) by ring end.
           apply weighs_in; [lra|exact IH].
        -- match goal with |- weighs _ _ (0 + ?p - (0 + ?q)) => replace (0 + p - (0 + q)) with (p - q) by ring end.
           apply weighs_out; [lra|exact IH].
      * destruct (Rlt_dec x b).
        -- match goal with |- weighs _ _ (v + ?p - (0 + ?q)) => replace (v + p - (0 + q)) with (v + (p - q)) by ring end.
           apply weighs_in; [lra|exact IH].
        -- match goal with |- weighs _ _ (0 + ?p - (0 + ?q)) => replace (0 + p - (0 + q)) with (p - q) by ring end.
           apply weighs_out; [lra|exact IH].
Qed.

Lemma running_nth xs edges j : nth_error (running xs edges) j =
  option_map (up_to (Nat.eqb (S j) (length edges)) xs) (nth_error edges j).
Proof.
  revert j. induction edges as [|e r IH]; intro j; [now destruct j|].
  destruct r as [|e' r].
  - destruct j as [|j]; [reflexivity|]. cbn. destruct j; reflexivity.
  - change (running xs (e :: e' :: r)) with (up_to false xs e :: running xs (e' :: r)).
    destruct j as [|j]; [reflexivity|]. cbn [nth_error]. rewrite IH. reflexivity.
Qed.
Lemma running_length xs edges : length (running xs edges) = length edges.
Proof. induction edges as [|e [|e' r] IH]; [reflexivity|reflexivity|]. change (S (length (running xs (e' :: r))) = S (length (e' :: r))). now rewrite IH. Qed.
Lemma differences_nth l k a b : nth_error l k = Some a -> nth_error l (S k) = Some b -> nth_error (differences l) k = Some (b - a).
Proof.
  revert k. induction l as [|x [|y l] IH]; intros k Ha Hb; [now destruct k|destruct k as [|[|k]]; discriminate|].
  change (differences (x :: y :: l)) with ((y - x) :: differences (y :: l)).
  destruct k as [|k]; [cbn in *; congruence|]. cbn [nth_error] in *. now apply IH.
Qed.
Lemma differences_length l : length (differences l) = (length l - 1)%nat.
Proof. induction l as [|x [|y l] IH]; [reflexivity|reflexivity|]. change (S (length (differences (y :: l))) = (S (S (length l)) - 1)%nat). rewrite IH. cbn. lia. Qed.
Lemma differences_total l a b n : length l = S n -> nth_error l 0 = Some a -> nth_error l n = Some b -> total (differences l) = b - a.
Proof.
  revert a n. induction l as [|x [|y l] IH]; intros a n Hl Ha Hb; [discriminate| |].
  - destruct n; [|discriminate]. cbn in *. injection Ha as <-. injection Hb as <-. lra.
  - change (differences (x :: y :: l)) with ((y - x) :: differences (y :: l)). rewrite total_cons.
    destruct n as [|n]; [discriminate|]. cbn [nth_error] in Ha, Hb. injection Ha as <-.
    rewrite (IH y n); [ring|now apply Nat.succ_inj in Hl|reflexivity|exact Hb].
Qed.

Lemma linspace_spaced lo w a n : spaced w (map (fun i => lo + INR i * w) (seq a (S n))).
Proof.
  revert a. induction n as [|n IH]; intro a.
  - cbn. constructor.
  - change (seq a (S (S n))) with (a :: seq (S a) (S n)). change (seq (S a) (S n)) with (S a :: seq (S (S a)) n).
    cbn [map]. constructor; [rewrite S_INR; ring|]. exact (IH (S a)).
Qed.
Lemma spaced_integral w edges ps : spaced w edges -> length edges = S (length ps) -> binned_integral ps edges = total ps * w.
Proof.
  intros Hs. revert ps. unfold binned_integral, widths. induction Hs as [x|x y l E Hs IH]; intros ps Hl.
  - destruct ps; [cbn; lra|discriminate].
  - destruct ps as [|p ps]; [discriminate|]. cbn [tl combine map]. rewrite !total_cons. cbn [fst snd].
    cbn [tl] in IH. rewrite IH by (now apply Nat.succ_inj in Hl). rewrite E. ring.
Qed.

Lemma bin_edge_last lo hi n : (0 < n)%nat -> bin_edge lo hi n n = hi.
Proof. intro H. unfold bin_edge. field. apply Rgt_not_eq. now apply lt_0_INR. Qed.
Lemma bin_edge_mono lo hi n k : lo < hi -> (0 < n)%nat -> bin_edge lo hi n k < bin_edge lo hi n (S k).
Proof.
  intros H Hn. unfold bin_edge. rewrite S_INR. assert (0 < (hi - lo) / INR n); [|nra].
  apply Rdiv_lt_0_compat; [lra|]. now apply lt_0_INR.
Qed.

Lemma histogram_bins xs lo hi n k : lo < hi -> (k < n)%nat ->
  exists w, nth_error (histogram xs (linspace lo hi n)) k = Some w /\ weighs (in_bin lo hi n k) xs w.
Proof.
  intros H Hk. assert (Hn : (0 < n)%nat) by lia. pose proof (bin_edge_mono lo hi n k H Hn) as Hm.
  unfold histogram. eexists. split.
  - apply differences_nth; rewrite running_nth, linspace_length, nth_error_linspace by lia; cbn [option_map]; reflexivity.
  - fold (bin_edge lo hi n k). fold (bin_edge lo hi n (S k)).
    replace (Nat.eqb (S k) (S n)) with false by (symmetry; apply Nat.eqb_neq; lia).
    eapply weighs_iff; [|apply up_to_diff; lra]. intro x. cbv beta. unfold in_bin.
    destruct (Nat.eqb (S (S k)) (S n)) eqn:El.
    + apply Nat.eqb_eq in El. assert (S k = n) as <- by lia. rewrite !(bin_edge_last lo hi (S k)) in * by lia.
      split; [intros [A B]; destruct (Rle_lt_or_eq_dec _ _ B); [left; lra|right; split; [reflexivity|assumption]]|].
      intros [[A B]|[_ ->]]; lra.
    + apply Nat.eqb_neq in El. split; [intros [A B]; left; lra|]. intros [[A B]|[E _]]; [lra|lia].
Qed.
Lemma histogram_total xs lo hi n : lo < hi -> (0 < n)%nat -> (forall x v, In (x, v) xs -> lo <= x <= hi) ->
  total (histogram xs (linspace lo hi n)) = total (map snd xs).
Proof.
  intros H Hn Hx. unfold histogram.
  rewrite (differences_total _ (up_to false xs lo) (up_to true xs hi) n).
  - unfold up_to. assert (A : total (map (fun xw => if Rlt_dec (fst xw) lo then snd xw else 0) xs) = 0).
    { apply total_zero. intros [x v] Hi. cbn [fst snd]. specialize (Hx x v Hi). destruct (Rlt_dec x lo); [lra|reflexivity]. }
    rewrite A. rewrite Rminus_0_r. f_equal. apply map_ext_in. intros [x v] Hi. cbn [fst snd]. specialize (Hx x v Hi).
    destruct (Rle_dec x hi); [reflexivity|lra].
  - now rewrite running_length, linspace_length.
  - rewrite running_nth, linspace_length, nth_error_linspace by lia. cbn [option_map].
    replace (Nat.eqb 1 (S n)) with false by (symmetry; apply Nat.eqb_neq; lia). do 2 f_equal. cbn [INR]. ring.
  - rewrite running_nth, linspace_length, nth_error_linspace by lia. cbn [option_map]. rewrite Nat.eqb_refl. do 2 f_equal.
    exact (bin_edge_last lo hi n Hn).
Qed.

Lemma shares_of_histogram xs lo hi n : lo < hi -> (0 < n)%nat -> (forall x v, In (x, v) xs -> lo <= x <= hi) ->
  0 < total (map snd xs) ->
  exists d, dist_new (linspace lo hi n) (histogram xs (linspace lo hi n)) = Ret d /\ shares d lo hi n xs.
Proof.
  intros H Hn Hx Hw. set (edges := linspace lo hi n) in *. set (ys := histogram xs edges) in *.
  assert (Le : length edges = S n) by apply linspace_length.
  assert (Ly : length ys = n) by (unfold ys, histogram; rewrite differences_length, running_length; lia).
  assert (Sp : spaced ((hi - lo) / INR n) edges) by (apply linspace_spaced).
  assert (Hs : 0 < (hi - lo) / INR n) by (apply Rdiv_lt_0_compat; [lra|now apply lt_0_INR]).
  assert (Bi : binned_integral ys edges = total (map snd xs) * ((hi - lo) / INR n)).
  { rewrite (spaced_integral _ _ _ Sp) by lia. unfold ys, edges. now rewrite (histogram_total xs lo hi n H Hn Hx). }
  destruct (normalize_distribution_exact ys edges) as [N _]; [destruct ys; [cbn in Ly; lia|discriminate]|lia|].
  destruct N as (qs & Eq & One & Lq & Hq); [rewrite Bi; now apply Rmult_lt_0_compat|].
  unfold dist_new. replace (Nat.eqb (length edges) (length ys + 1)) with true by (symmetry; apply Nat.eqb_eq; lia).
  rewrite Eq. cbn [bind]. eexists. split; [reflexivity|]. unfold shares. cbn [bins probabilities].
  split; [exact Le|]. split; [intros k Hk; unfold edges; rewrite nth_error_linspace by lia; reflexivity|].
  exists qs. split; [reflexivity|]. split; [lia|]. split; [exact One|]. intros k p Hp.
  assert (Hk : (k < n)%nat) by (rewrite <- Ly, <- Lq; apply nth_error_Some; congruence).
  destruct (histogram_bins xs lo hi n k H Hk) as (w & Ew & Ww). fold edges in Ew. fold ys in Ew.
  exists w. split; [exact Ww|]. rewrite (Hq k w Ew) in Hp. injection Hp as <-. rewrite Bi. field.
  repeat split; try (apply Rgt_not_eq; lra). apply Rgt_not_eq. now apply lt_0_INR.
Qed.
