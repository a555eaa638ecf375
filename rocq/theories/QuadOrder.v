(** The ordering of the intervals by error (qpsrt), over exact real arithmetic. *)
From Coq Require Import Reals Lra QArith Qreals ZArith Lia ZifyNat Bool Arith Permutation List.
From Verif Require Import RustBase RustBaseFacts QuadModel QuadProofs.
Import ListNotations.
Local Open Scope nat_scope.
Ltac Zify.zify_post_hook ::= Z.to_euclidean_division_equations.

(** ** Specification *)
(** How many of [last] intervals are kept in order: all of them until more than half of the
    budget is used; afterwards only as many as can still be bisected, plus three. *)
Definition kept (limit last : nat) : nat :=
  if Nat.leb last (limit / 2 + 2) then last else limit + 3 - last.

(** [o 1, o 2, ...] lists intervals by decreasing error [e]: different intervals, in order; nothing
    that is left out has an error above that of any entry but the last two; and nothing is left out
    while the whole list is kept. *)
Record ordered (limit last : nat) (e : nat -> R) (o : nat -> nat) : Prop := {
  o_range : forall p, 1 <= p <= kept limit last -> 1 <= o p <= last;
  o_inj : forall p q, 1 <= p <= kept limit last -> 1 <= q <= kept limit last -> o p = o q -> p = q;
  o_sorted : forall p q, 1 <= p -> p < q -> q <= kept limit last -> (e (o q) <= e (o p))%R;
  o_top : forall x, 1 <= x <= last ->
    (exists p, 1 <= p <= kept limit last /\ o p = x) \/
    (forall p, 1 <= p -> p + 2 <= kept limit last -> (e x <= e (o p))%R);
  o_all : kept limit last = last -> forall x, 1 <= x <= last -> exists p, 1 <= p <= kept limit last /\ o p = x
}.

Definition err (elist : list R) (x : nat) : R := nth x elist 0%R.
Definition ent (iord : list nat) (p : nat) : nat := nth p iord 0.

(** ** Proofs *)
Lemma kept_jb limit last : kept limit last = jb limit last.
Proof. unfold kept, jb. destruct (Nat.leb_spec last (limit / 2 + 2)), (Nat.ltb_spec (limit / 2 + 2) last); lia. Qed.

Lemma ent_upd io i v p : i < length io -> ent (upd io i v) p = if Nat.eqb i p then v else ent io p.
Proof.
  intro H. unfold ent. destruct (Nat.eqb_spec i p) as [<-|Hne].
  - apply nth_error_nth. now apply nth_upd_same.
  - destruct (nth_error io p) as [y|] eqn:E.
    + rewrite (nth_error_nth _ _ _ E). apply nth_error_nth. now rewrite nth_upd_other.
    + apply nth_error_None in E. rewrite !nth_overflow; [reflexivity|exact E|now rewrite upd_length].
Qed.
Lemma wp_ent {B} io (k : nat) (g : nat -> rr QuadError B) Q :
  k < length io -> wp (g (ent io k)) Q -> wp (rbind (get io k) g) Q.
Proof.
  intros H Hg. destruct (@get_ok QuadError nat io k H) as (a & -> & Ha). cbn [rbind].
  unfold ent in Hg. now rewrite (nth_error_nth _ _ _ Ha) in Hg.
Qed.
Lemma wp_err {B} (el : list R) (k : nat) (g : R -> rr QuadError B) Q :
  k < length el -> wp (g (err el k)) Q -> wp (rbind (get el k) g) Q.
Proof.
  intros H Hg. destruct (@get_ok QuadError R el k H) as (a & -> & Ha). cbn [rbind].
  unfold err in Hg. now rewrite (nth_error_nth _ _ _ Ha) in Hg.
Qed.

(** The list with the hole at [h] closed up, and the list with [v] put at [h]. *)
Definition close (o : nat -> nat) (h p : nat) : nat := if Nat.ltb p h then o p else o (S p).
Definition ins (o : nat -> nat) (h v p : nat) : nat :=
  if Nat.ltb p h then o p else if Nat.eqb p h then v else o (p - 1).

Lemma close_down io h p : h < length io ->
  close (ent (upd io h (ent io (S h)))) (S h) p = close (ent io) h p.
Proof.
  intro H. unfold close. rewrite !ent_upd by exact H.
  destruct (Nat.ltb_spec p (S h)), (Nat.ltb_spec p h); try lia.
  - destruct (Nat.eqb_spec h p); [lia|reflexivity].
  - destruct (Nat.eqb_spec h p); [|lia]. now subst.
  - destruct (Nat.eqb_spec h (S p)); [lia|reflexivity].
Qed.
Lemma close_up io h p : S h < length io ->
  close (ent (upd io (S h) (ent io h))) h p = close (ent io) (S h) p.
Proof.
  intro H. unfold close. rewrite !ent_upd by exact H.
  destruct (Nat.ltb_spec p (S h)), (Nat.ltb_spec p h); try lia.
  - destruct (Nat.eqb_spec (S h) p); [lia|reflexivity].
  - assert (p = h) by lia. subst. now rewrite Nat.eqb_refl.
  - destruct (Nat.eqb_spec (S h) (S p)); [lia|reflexivity].
Qed.
Lemma fill io h v p : 1 <= h < length io -> ent (upd io h v) p = ins (close (ent io) h) h v p.
Proof.
  intro H. rewrite ent_upd by lia. unfold ins, close.
  destruct (Nat.eqb_spec h p) as [<-|Hne].
  - rewrite Nat.ltb_irrefl, Nat.eqb_refl. reflexivity.
  - destruct (Nat.ltb_spec p h); [reflexivity|]. destruct (Nat.eqb_spec p h); [lia|].
    destruct (Nat.ltb_spec (p - 1) h); [lia|]. f_equal. lia.
Qed.

Section Order.
Variable el : list R.
Notation e := (err el).

(** [errmax] belongs right at position [h] of [C] among the first [n]. *)
Definition fits_above (C : nat -> nat) (h : nat) (x : R) : Prop :=
  forall p, 1 <= p -> p < h -> (x <= e (C p))%R.
Definition desc (C : nat -> nat) (n : nat) : Prop :=
  forall p q, 1 <= p -> p < q -> q <= n -> (e (C q) <= e (C p))%R.

Lemma up_wp errmax io nrmax n C :
  1 <= nrmax <= S n -> S n < length io -> (forall p, 1 <= p <= n -> C p < length el) -> desc C n ->
  (forall p, 1 <= p <= n -> close (ent io) nrmax p = C p) ->
  wp (qpsrt_up RNum el errmax io nrmax) (fun r => match r with (io', h) =>
    1 <= h <= nrmax /\ length io' = length io /\ fits_above C h errmax /\
    forall p, 1 <= p <= n -> close (ent io') h p = C p end).
Proof.
  intros Hn Hl He Hd HC. unfold qpsrt_up. destruct (Nat.eqb_spec nrmax 1).
  { cbn [wp]. repeat split; auto; try lia. intros p H1 H2. lia. }
  apply wp_bind, wp_csub; [lia|].
  apply wp_for with (I := fun i s => match s with (io', h) =>
      h + i = nrmax + 1 /\ length io' = length io /\ forall p, 1 <= p <= n -> close (ent io') h p = C p end).
  - repeat split; auto.
  - intros i [io' h] Hi (A & B & D). apply wp_bind, wp_csub; [lia|].
    assert (Hp : ent io' (h - 1) = C (h - 1)).
    { rewrite <- (D (h - 1)) by lia. unfold close. destruct (Nat.ltb_spec (h - 1) h); [reflexivity|lia]. }
    apply wp_ent; [lia|]. apply wp_err; [rewrite Hp; apply He; lia|].
    destruct (fle RNum errmax (e (ent io' (h - 1)))) eqn:E.
    + cbn [wp]. repeat split; auto; try lia. apply Rfle_true in E. rewrite Hp in E.
      intros p H1 H2. destruct (Nat.eq_dec p (h - 1)) as [->|]; [exact E|].
      eapply Rle_trans; [exact E|]. apply Hd; lia.
    + apply wp_bind, wp_set; [lia|]. cbn [wp]. rewrite upd_length. repeat split; auto; try lia.
      intros p Hp'. rewrite <- (D p Hp').
      destruct h as [|h]; [lia|]. replace (S h - 1) with h by lia. apply close_up. lia.
  - intros [io' h] (A & B & D). repeat split; auto; try lia.
    intros p H1 H2. lia.
Qed.

Lemma down_wp errmax io h n C :
  1 <= h -> n + 1 < length io -> (forall p, 1 <= p < n -> C p < length el) ->
  fits_above C h errmax ->
  (forall p, 1 <= p < n -> close (ent io) h p = C p) ->
  wp (qpsrt_down RNum el errmax io (h + 1) n) (fun r => match r with (io', o) =>
    length io' = length io /\
    match o with
    | Some i => h + 1 <= i <= n /\ fits_above C (i - 1) errmax /\ (e (C (i - 1)%nat) <= errmax)%R
        /\ forall p, 1 <= p < n -> close (ent io') (i - 1) p = C p
    | None => fits_above C n errmax /\ forall p, 1 <= p < n -> ent io' p = C p
    end end).
Proof.
  intros Hh Hl He Ha HC. unfold qpsrt_down.
  apply wp_for with (I := fun i s => length (fst s) = length io /\ snd s = None /\ h + 1 <= i
      /\ fits_above C (i - 1) errmax /\ forall p, 1 <= p < n -> close (ent (fst s)) (i - 1) p = C p).
  - cbn [fst snd]. replace (h + 1 - 1) with h by lia. auto.
  - intros i [io' o] Hi (A & B & Hhi & D & E). cbn [fst snd] in *.
    assert (Hci : ent io' i = C (i - 1)).
    { rewrite <- (E (i - 1)) by lia. unfold close. rewrite Nat.ltb_irrefl. f_equal. lia. }
    apply wp_ent; [lia|]. apply wp_err; [rewrite Hci; apply He; lia|].
    destruct (fle RNum (e (ent io' i)) errmax) eqn:Ef.
    + cbn [wp]. apply Rfle_true in Ef. rewrite Hci in Ef. repeat split; auto; lia.
    + apply Rfle_false in Ef. rewrite Hci in Ef.
      apply wp_bind, wp_csub; [lia|]. apply wp_bind, wp_set; [lia|]. cbn [wp fst snd].
      rewrite upd_length. repeat split; auto; try lia.
      * intros p H1 H2. destruct (Nat.eq_dec p (i - 1)) as [->|]; [lra|]. apply D; lia.
      * intros p Hp. rewrite <- (E p Hp). replace (S i - 1) with (S (i - 1)) by lia.
        destruct i as [|i]; [lia|]. replace (S i - 1) with i by lia. apply close_down. lia.
  - intros [io' o] (A & B & Hhi & D & E). cbn [fst snd] in *. subst o. split; [exact A|]. split.
    + intros p H1 H2. apply D; lia.
    + intros p Hp. rewrite <- (E p Hp). unfold close. destruct (Nat.ltb_spec p (Nat.max (h + 1) (S n) - 1)); [reflexivity|lia].
Qed.

(** Inserting the smaller error from below: [L] is the list of the first [n] entries. *)
Lemma bottom_wp errmin last io i n L :
  1 <= i - 1 -> i <= n -> n + 1 < length io -> (forall p, 1 <= p <= n -> L p < length el) ->
  desc L n -> (errmin <= e (L (i - 1)%nat))%R ->
  (forall p, 1 <= p <= n -> ent io p = L p) ->
  wp (qpsrt_bottom RNum el errmin last io i n) (fun io' =>
    length io' = length io /\ exists h, i <= h <= n + 1 /\ fits_above L h errmin /\
    (forall p, h <= p <= n -> (e (L p) <= errmin)%R) /\
    forall p, 1 <= p <= n + 1 -> ent io' p = ins L h last p).
Proof.
  intros Hi Hin Hl He Hd Hbig HL. unfold qpsrt_bottom.
  apply wp_bind. apply wp_for with (I := fun j s => match s with (io', k, placed) =>
      k + j = n + i /\ length io' = length io /\ placed = false
      /\ (forall p, k + 1 <= p <= n -> (e (L p) <= errmin)%R)
      /\ forall p, 1 <= p <= n -> close (ent io') (k + 1) p = L p end).
  - repeat split; auto; try (intros; lia).
    intros p Hp. unfold close. destruct (Nat.ltb_spec p (n + 1)); [auto|lia].
  - intros j [[io' k] placed] Hj (A & B & C & D & E).
    assert (Hk : ent io' k = L k).
    { rewrite <- (E k) by lia. unfold close. destruct (Nat.ltb_spec k (k + 1)); [reflexivity|lia]. }
    apply wp_ent; [lia|]. apply wp_err; [rewrite Hk; apply He; lia|].
    destruct (flt RNum errmin (e (ent io' k))) eqn:Ef.
    + apply wp_bind, wp_set; [lia|]. cbn [wp]. rewrite upd_length. split; [exact B|].
      apply Rflt_true in Ef. rewrite Hk in Ef. change (F RNum) with R in *.
      exists (k + 1). split; [lia|]. split; [|split; [exact D|]].
      * intros p H1 H2. destruct (Nat.eq_dec p k) as [->|]; [lra|].
        apply Rle_trans with (e (L k)); [lra|]. apply Hd; lia.
      * intros p Hp. rewrite fill by lia. unfold ins.
        destruct (Nat.ltb_spec p (k + 1)); [apply E; lia|].
        destruct (Nat.eqb_spec p (k + 1)); [reflexivity|]. apply E. lia.
    + apply Rflt_false in Ef. rewrite Hk in Ef.
      apply wp_bind, wp_set; [lia|]. apply wp_bind, wp_csub; [lia|]. cbn [wp]. rewrite upd_length.
      repeat split; auto; try lia.
      * intros p Hp. destruct (Nat.eq_dec p k) as [->|]; [exact Ef|]. apply D; lia.
      * intros p Hp. rewrite <- (E p Hp). replace (k - 1 + 1) with k by lia. rewrite Nat.add_1_r.
        apply close_up. lia.
  - intros [[io' k] placed] (A & B & C & D & E). subst placed.
    apply wp_set; [lia|]. rewrite upd_length. split; [exact B|].
    assert (k + 1 = i) by lia.
    exists i. split; [lia|]. split; [|split].
    + intros p H1 H2. destruct (Nat.eq_dec p (i - 1)) as [->|]; [exact Hbig|].
      eapply Rle_trans; [exact Hbig|]. apply Hd; lia.
    + intros p Hp. apply D; lia.
    + intros p Hp. rewrite fill by lia. unfold ins. rewrite <- H.
      destruct (Nat.ltb_spec p (k + 1)); [apply E; lia|].
      destruct (Nat.eqb_spec p (k + 1)); [reflexivity|]. apply E. lia.
Qed.

End Order.

(** [okp r Q]: if [r] is a normal result, it satisfies [Q]. *)
Definition okp {E A} (r : rr E A) (Q : A -> Prop) : Prop := match r with Ok a => Q a | _ => True end.
Lemma okp_bind {E A B} (r : rr E A) (k : A -> rr E B) P Q :
  wp r P -> (forall a, P a -> okp (k a) Q) -> okp (rbind r k) Q.
Proof. destruct r; cbn; auto. Qed.

Lemma ins_desc el C h v n :
  1 <= h <= n -> desc el C (n - 1) -> fits_above el C h (err el v) ->
  (forall p, h <= p < n -> (err el (C p) <= err el v)%R) -> desc el (ins C h v) n.
Proof.
  intros Hh Hd Ha Hb p q H1 H2 H3. unfold ins.
  destruct (Nat.ltb_spec q h), (Nat.ltb_spec p h); try lia.
  - apply Hd; lia.
  - destruct (Nat.eqb_spec q h).
    + apply Ha; lia.
    + destruct (Nat.eq_dec p (q - 1)) as [->|]; [lia|]. apply Hd; lia.
  - destruct (Nat.eqb_spec q h); [lia|]. destruct (Nat.eqb_spec p h).
    + apply Hb. lia.
    + apply Hd; lia.
Qed.
Lemma ins_ge el C h v n p :
  1 <= h <= n -> desc el C (n - 1) -> desc el (ins C h v) n -> 1 <= p < n ->
  (err el (C p) <= err el (ins C h v p))%R.
Proof.
  intros Hh Hd Hi Hp. destruct (Nat.lt_trichotomy p h) as [H|[->|H]].
  - unfold ins. destruct (Nat.ltb_spec p h); [lra|lia].
  - replace (C h) with (ins C h v (S h)); [apply Hi; lia|].
    unfold ins. destruct (Nat.ltb_spec (S h) h); [lia|]. destruct (Nat.eqb_spec (S h) h); [lia|].
    f_equal. lia.
  - unfold ins. destruct (Nat.ltb_spec p h); [lia|]. destruct (Nat.eqb_spec p h); [lia|]. apply Hd; lia.
Qed.
Lemma ins_inj C h v n :
  1 <= h <= n -> (forall p q, 1 <= p < n -> 1 <= q < n -> C p = C q -> p = q) ->
  (forall p, 1 <= p < n -> C p <> v) ->
  forall p q, 1 <= p <= n -> 1 <= q <= n -> ins C h v p = ins C h v q -> p = q.
Proof.
  intros Hh Hi Hv p q Hp Hq. unfold ins.
  destruct (Nat.ltb_spec p h), (Nat.ltb_spec q h); try destruct (Nat.eqb_spec p h); try destruct (Nat.eqb_spec q h);
    intro E; try lia;
    try (apply Hi in E; lia); try (apply Hv in E; [contradiction|lia]); try (symmetry in E; apply Hv in E; [contradiction|lia]).
Qed.
Lemma ins_cases C h v n p : 1 <= h <= n -> 1 <= p <= n -> ins C h v p = v \/ exists q, 1 <= q < n /\ ins C h v p = C q.
Proof.
  intros Hh Hp. unfold ins. destruct (Nat.ltb_spec p h).
  - right. exists p. split; [lia|reflexivity].
  - destruct (Nat.eqb_spec p h); [now left|]. right. exists (p - 1). split; [lia|reflexivity].
Qed.
Lemma ins_here C h v n : 1 <= h <= n -> exists p, 1 <= p <= n /\ ins C h v p = v.
Proof. intro H. exists h. split; [exact H|]. unfold ins. now rewrite Nat.ltb_irrefl, Nat.eqb_refl. Qed.
Lemma ins_keeps C h v n q : 1 <= h <= n -> 1 <= q < n -> exists p, 1 <= p <= n /\ ins C h v p = C q.
Proof.
  intros Hh Hq. destruct (Nat.lt_ge_cases q h).
  - exists q. split; [lia|]. unfold ins. destruct (Nat.ltb_spec q h); [reflexivity|lia].
  - exists (S q). split; [lia|]. unfold ins. destruct (Nat.ltb_spec (S q) h); [lia|].
    destruct (Nat.eqb_spec (S q) h); [lia|]. f_equal. lia.
Qed.

Lemma kept_facts limit last : 3 <= last <= limit ->
  1 <= kept limit (last - 1) /\ 3 <= kept limit last /\ kept limit last <= last
  /\ kept limit last <= kept limit (last - 1) + 1
  /\ (kept limit last = last -> kept limit (last - 1) = last - 1)
  /\ (kept limit (last - 1) <> last - 1 -> kept limit last + 1 = kept limit (last - 1)).
Proof.
  intro H. unfold kept. destruct (Nat.leb_spec last (limit / 2 + 2)), (Nat.leb_spec (last - 1) (limit / 2 + 2)); lia.
Qed.

Section Step.
Variables (limit last : nat) (e0 : nat -> R) (el : list R) (io : list nat) (nrmax maxerr : nat).
Hypothesis Hlast : 3 <= last <= limit.
Hypothesis Hord : ordered limit (last - 1) e0 (ent io).
Hypothesis Hnr : 1 <= nrmax <= kept limit (last - 1).
Hypothesis Hmax : ent io nrmax = maxerr.
Hypothesis Hold : forall x, 1 <= x < last -> x <> maxerr -> err el x = e0 x.
Hypothesis Hnew : (err el last <= err el maxerr)%R.
Hypothesis Hel : last < length el.
Hypothesis Hio : last + 1 < length io.

Let n0 := kept limit (last - 1).
Let n1 := kept limit last.
Let C := close (ent io) nrmax.

Lemma C_old p : 1 <= p < n0 -> exists q, 1 <= q <= n0 /\ p <= q <= S p /\ q <> nrmax /\ C p = ent io q.
Proof.
  intro H. unfold C, close. destruct (Nat.ltb_spec p nrmax).
  - exists p. repeat split; try lia.
  - exists (S p). repeat split; try lia.
Qed.
Lemma C_facts p : 1 <= p < n0 -> 1 <= C p < last /\ C p <> maxerr /\ C p <> last.
Proof.
  intro H. destruct (C_old p H) as (q & H1 & H2 & H3 & E). rewrite E.
  pose proof (o_range _ _ _ _ Hord q H1) as Hr.
  split; [lia|]. split; [|lia]. intro E2. rewrite <- Hmax in E2. apply H3. eapply (o_inj _ _ _ _ Hord); eauto.
Qed.
Lemma C_err p : 1 <= p < n0 -> err el (C p) = e0 (C p).
Proof. intro H. destruct (C_facts p H) as (H1 & H2 & _). now apply Hold. Qed.
Lemma C_desc : desc el C (n0 - 1).
Proof.
  intros p q H1 H2 H3. rewrite !C_err by lia.
  destruct (C_old p ltac:(lia)) as (p' & Hp1 & Hp2 & _ & ->). destruct (C_old q ltac:(lia)) as (q' & Hq1 & Hq2 & Hq3 & ->).
  destruct (Nat.eq_dec p' q') as [->|]; [lra|]. apply (o_sorted _ _ _ _ Hord); lia.
Qed.
Lemma C_inj p q : 1 <= p < n0 -> 1 <= q < n0 -> C p = C q -> p = q.
Proof.
  intros Hp Hq. unfold C, close.
  destruct (Nat.ltb_spec p nrmax), (Nat.ltb_spec q nrmax); intro E; apply (o_inj _ _ _ _ Hord) in E; fold n0; lia.
Qed.
Lemma C_all x : (exists p, 1 <= p <= n0 /\ ent io p = x) -> x <> maxerr -> exists q, 1 <= q < n0 /\ C q = x.
Proof.
  intros (p & Hp & E) Hx. destruct (Nat.lt_trichotomy p nrmax) as [H|[->|H]].
  - exists p. split; [fold n0 in Hnr; lia|]. unfold C, close. destruct (Nat.ltb_spec p nrmax); [exact E|lia].
  - congruence.
  - exists (p - 1). split; [lia|]. unfold C, close. destruct (Nat.ltb_spec (p - 1) nrmax); [lia|].
    replace (S (p - 1)) with p by lia. exact E.
Qed.
Lemma maxerr_range : 1 <= maxerr < last.
Proof. pose proof (o_range _ _ _ _ Hord nrmax Hnr). rewrite Hmax in H. lia. Qed.

Lemma merged_ordered o h2 h4 :
  1 <= h2 <= n1 - 1 -> 1 <= h4 <= n1 -> desc el (ins C h2 maxerr) (n1 - 1) ->
  (forall p, 1 <= p <= n1 -> o p = ins (ins C h2 maxerr) h4 last p) -> desc el o n1 ->
  ordered limit last (err el) o.
Proof.
  intros Hh2 Hh4 HdL Ho Hdo. destruct (kept_facts limit last Hlast) as (K0 & K3 & Kl & K1 & Kall & Kst).
  fold n0 n1 in K0, K3, Kl, K1, Kall, Kst. pose proof maxerr_range as Hm.
  set (L := ins C h2 maxerr) in *.
  assert (Cr : forall p, 1 <= p < n1 - 1 -> 1 <= p < n0) by (intros; lia).
  assert (HLcase : forall p, 1 <= p <= n1 - 1 -> 1 <= L p < last).
  { intros p Hp. destruct (ins_cases C h2 maxerr (n1 - 1) p Hh2 Hp) as [E|(q & Hq & E)]; fold L in E; rewrite E; [lia|].
    destruct (C_facts q ltac:(lia)). lia. }
  assert (HLinj : forall p q, 1 <= p <= n1 - 1 -> 1 <= q <= n1 - 1 -> L p = L q -> p = q).
  { apply ins_inj; auto.
    - intros p q Hp Hq. apply C_inj; lia.
    - intros p Hp. destruct (C_facts p ltac:(lia)). tauto. }
  assert (HL1 : forall p, 1 <= p < n1 -> 1 <= p <= n1 - 1) by (intros; lia).
  assert (Hlist : forall q, 1 <= q <= n1 - 1 -> exists p, 1 <= p <= n1 /\ o p = L q).
  { intros q Hq. destruct (ins_keeps L h4 last n1 q Hh4 ltac:(lia)) as (p & Hp & E). exists p. now rewrite Ho. }
  assert (HlC : forall q, 1 <= q < n1 - 1 -> exists p, 1 <= p <= n1 /\ o p = C q).
  { intros q Hq. destruct (ins_keeps C h2 maxerr (n1 - 1) q Hh2 Hq) as (p & Hp & E). fold L in E. rewrite <- E. now apply Hlist. }
  assert (Hmlist : exists p, 1 <= p <= n1 /\ o p = maxerr).
  { destruct (ins_here C h2 maxerr (n1 - 1) Hh2) as (p & Hp & E). fold L in E. rewrite <- E. now apply Hlist. }
  assert (Hllist : exists p, 1 <= p <= n1 /\ o p = last).
  { destruct (ins_here L h4 last n1 Hh4) as (p & Hp & E). exists p. now rewrite Ho. }
  assert (Hge : forall p, 1 <= p < n1 - 1 -> (err el (C p) <= err el (o p))%R).
  { intros p Hp. rewrite Ho by lia. apply Rle_trans with (err el (L p)).
    - unfold L. apply (ins_ge el C h2 maxerr (n1 - 1)); auto. intros a b A1 A2 A3. apply C_desc; lia.
    - apply (ins_ge el L h4 last n1); auto; try lia.
      intros a b A1 A2 A3. rewrite <- !Ho by lia. now apply Hdo. }
  constructor; fold n1.
  - intros p Hp. rewrite Ho by lia. destruct (ins_cases L h4 last n1 p Hh4 Hp) as [->|(q & Hq & ->)]; [lia|].
    specialize (HLcase q (HL1 q Hq)). lia.
  - intros p q Hp Hq. rewrite !Ho by lia. apply (ins_inj L h4 last n1); auto.
    intros a Ha E. specialize (HLcase a (HL1 a Ha)). lia.
  - exact Hdo.
  - intros x Hx. destruct (Nat.eq_dec x last) as [->|Hxl]; [now left|].
    destruct (Nat.eq_dec x maxerr) as [->|Hxm]; [now left|].
    assert (Hor : (exists p, 1 <= p <= n0 /\ ent io p = x) \/
      (n0 <> last - 1 /\ forall p, 1 <= p -> p + 2 <= n0 -> (e0 x <= e0 (ent io p))%R)).
    { destruct (Nat.eq_dec n0 (last - 1)) as [E|E].
      - left. apply (o_all _ _ _ _ Hord E). lia.
      - destruct (o_top _ _ _ _ Hord x ltac:(lia)); [now left|now right]. }
    destruct Hor as [Hin|[E Hdom]].
    + destruct (C_all x Hin Hxm) as (q & Hq & <-).
      destruct (Nat.lt_ge_cases q (n1 - 1)).
      * left. apply HlC. lia.
      * right. intros p H1 H2. apply Rle_trans with (err el (C p)); [|apply Hge; lia].
        destruct (Nat.eq_dec p q) as [->|]; [lra|]. apply C_desc; lia.
    + right. specialize (Kst E). intros p H1 H2. apply Rle_trans with (err el (C p)); [|apply Hge; lia].
      rewrite C_err by lia. rewrite Hold by lia.
      destruct (C_old p ltac:(lia)) as (q & Hq1 & Hq2 & _ & ->). apply Hdom; lia.
  - intros E x Hx. specialize (Kall E). destruct (Nat.eq_dec x last) as [->|Hxl]; [exact Hllist|].
    destruct (Nat.eq_dec x maxerr) as [->|Hxm]; [exact Hmlist|].
    destruct (C_all x (o_all _ _ _ _ Hord Kall x ltac:(lia)) Hxm) as (q & Hq & <-). apply HlC. lia.
Qed.

(** One call of qpsrt, for three or more intervals. *)
Lemma qpsrt_step :
  okp (qpsrt RNum limit last maxerr el io nrmax) (fun r => match r with (m, er, io', nr') =>
    length io' = length io /\ ordered limit last (err el) (ent io') /\ 1 <= nr' <= nrmax
    /\ m = ent io' nr' /\ er = err el m end).
Proof.
  destruct (kept_facts limit last Hlast) as (K0 & K3 & Kl & K1 & Kall & Kst).
  fold n0 n1 in K0, K3, Kl, K1, Kall, Kst. pose proof maxerr_range as Hm. fold n0 in Hnr.
  assert (Hn0 : n0 <= last - 1) by (unfold n0; rewrite kept_jb; apply jb_le).
  unfold qpsrt. destruct (Nat.leb_spec last 2); [lia|].
  eapply okp_bind with (P := fun x => x = err el maxerr).
  { destruct (@get_ok QuadError R el maxerr ltac:(lia)) as (a & E & Ha).
    change (F RNum) with R. rewrite E. cbn [wp]. symmetry. now apply nth_error_nth. }
  intros errmax ->.
  eapply okp_bind.
  { apply up_wp with (n := n0 - 1) (C := C); auto; try lia.
    - intros p Hp. destruct (C_facts p ltac:(lia)). lia.
    - apply C_desc. }
  intros [io1 h] (Hh & Hl1 & Ha & HC1).
  rewrite upper_eq by lia. cbn [rbind]. rewrite <- kept_jb. fold n1.
  eapply okp_bind with (P := fun x => x = err el last).
  { destruct (@get_ok QuadError R el last ltac:(lia)) as (a & E & Ha').
    change (F RNum) with R. rewrite E. cbn [wp]. symmetry. now apply nth_error_nth. }
  intros errmin ->.
  eapply okp_bind with (P := fun x => x = n1 - 1); [apply wp_csub; [lia|reflexivity]|]. intros j ->.
  eapply okp_bind.
  { apply down_wp with (C := C); auto; try lia.
    - intros p Hp. destruct (C_facts p ltac:(lia)). lia.
    - intros p Hp. apply HC1. lia. }
  intros [io2 o] [Hl2 Ho]. 
  assert (Hend : forall io' h2 h4, length io' = length io ->
    1 <= h2 <= n1 - 1 -> 1 <= h4 <= n1 -> desc el (ins C h2 maxerr) (n1 - 1) ->
    (forall p, 1 <= p <= n1 -> ent io' p = ins (ins C h2 maxerr) h4 last p) -> desc el (ent io') n1 ->
    okp (qpsrt_end RNum el io' h) (fun r => match r with (m, er, io', nr') =>
      length io' = length io /\ ordered limit last (err el) (ent io') /\ 1 <= nr' <= nrmax
      /\ m = ent io' nr' /\ er = err el m end)).
  { intros io' h2 h4 Hl Hh2 Hh4 Hd2 Hent Hd4. unfold qpsrt_end.
    destruct (@get_ok QuadError nat io' h ltac:(lia)) as (m & E & Em). rewrite E. cbn [rbind].
    change (F RNum) with R. unfold get. destruct (nth_error el m) as [x|] eqn:Ex; cbn [rbind okp]; [|exact I].
    split; [exact Hl|]. split; [eapply merged_ordered; eauto|]. split; [lia|].
    split; symmetry; now apply nth_error_nth. }
  destruct o as [i|].
  - destruct Ho as (Hi & Hfi & Hei & HC2).
    assert (HdL : desc el (ins C (i - 1) maxerr) (n1 - 1)).
    { apply ins_desc; auto; try lia.
      - intros p q H1 H2 H3. apply C_desc; lia.
      - intros p Hp. destruct (Nat.eq_dec p (i - 1)) as [->|]; [exact Hei|].
        eapply Rle_trans; [|exact Hei]. apply C_desc; lia. }
    eapply okp_bind with (P := fun x => x = i - 1); [apply wp_csub; [lia|reflexivity]|]. intros k ->.
    eapply okp_bind with (P := fun x => x = upd io2 (i - 1) maxerr); [apply wp_set; [lia|reflexivity]|]. intros io3 ->.
    eapply okp_bind.
    { apply bottom_wp with (L := ins C (i - 1) maxerr); try rewrite upd_length; auto; try lia.
      - intros p Hp. destruct (ins_cases C (i - 1) maxerr (n1 - 1) p ltac:(lia) ltac:(lia)) as [->|(q & Hq & ->)]; [lia|].
        destruct (C_facts q ltac:(lia)). lia.
      - unfold ins. rewrite Nat.ltb_irrefl, Nat.eqb_refl. exact Hnew.
      - intros p Hp. rewrite fill by lia. unfold ins.
        destruct (Nat.ltb_spec p (i - 1)); [apply HC2; lia|].
        destruct (Nat.eqb_spec p (i - 1)); [reflexivity|]. apply HC2. lia. }
    cbn beta. rewrite upd_length. intros io4 (Hl4 & h4 & Hh4 & Hf4 & Hb4 & He4).
    replace (n1 - 1 + 1) with n1 in * by lia.
    apply Hend with (h2 := i - 1) (h4 := h4); auto; try lia.
    intros p q H1 H2 H3. rewrite !He4 by lia. revert p q H1 H2 H3.
    change (desc el (ins (ins C (i - 1) maxerr) h4 last) n1). apply ins_desc; auto; try lia.
    intros p Hp. apply Hb4. lia.
  - destruct Ho as (Hf & HC2).
    assert (HdL : desc el (ins C (n1 - 1) maxerr) (n1 - 1)).
    { apply ins_desc; auto; try lia. intros p q H1 H2 H3. apply C_desc; lia. }
    eapply okp_bind with (P := fun x => x = upd io2 (n1 - 1) maxerr); [apply wp_set; [lia|reflexivity]|]. intros io3 ->.
    eapply okp_bind with (P := fun x => x = upd (upd io2 (n1 - 1) maxerr) n1 last);
      [apply wp_set; [rewrite upd_length; lia|reflexivity]|]. intros io4 ->.
    assert (He4 : forall p, 1 <= p <= n1 ->
      ent (upd (upd io2 (n1 - 1) maxerr) n1 last) p = ins (ins C (n1 - 1) maxerr) n1 last p).
    { intros p Hp. rewrite ent_upd by (rewrite upd_length; lia). rewrite ent_upd by lia. unfold ins.
      destruct (Nat.eqb_spec n1 p), (Nat.ltb_spec p n1), (Nat.eqb_spec p n1); try lia.
      destruct (Nat.eqb_spec (n1 - 1) p), (Nat.ltb_spec p (n1 - 1)), (Nat.eqb_spec p (n1 - 1)); try lia.
      apply HC2. lia. }
    apply Hend with (h2 := n1 - 1) (h4 := n1); auto; try lia; [rewrite !upd_length; lia|].
    intros p q H1 H2 H3. rewrite !He4 by lia. revert p q H1 H2 H3.
    change (desc el (ins (ins C (n1 - 1) maxerr) n1 last) n1). apply ins_desc; auto; try lia.
    intros p H1 H2. unfold ins. destruct (Nat.ltb_spec p (n1 - 1)).
    + eapply Rle_trans; [exact Hnew|]. apply Hf; lia.
    + destruct (Nat.eqb_spec p (n1 - 1)); [exact Hnew|lia].
Qed.
End Step.

(** ** Every history of error estimates *)
(** [history limit last el io nrmax maxerr]: what the arrays can hold after bisecting [last - 1]
    times, starting from one interval.  Each step bisects the interval named by any maintained
    entry of the list (the main loops also move that pointer), gives its two halves any errors, the
    larger one staying in place, and calls qpsrt.  Entries of el above [last] are arbitrary. *)
Inductive history (limit : nat) : nat -> list R -> list nat -> nat -> nat -> R -> Prop :=
| h_start el io : 3 <= length io -> 2 <= length el -> ent io 1 = 1 -> history limit 1 el io 1 1 (err el 1)
| h_move last el io nr m er nr' : history limit last el io nr m er -> 1 <= nr' <= kept limit last ->
    history limit last el io nr' (ent io nr') (err el (ent io nr'))
| h_step last el io nr m er el' io' nr' m' er' :
    history limit last el io nr m er -> 1 <= nr <= kept limit last ->
    S last <= limit -> S last + 1 < length io -> S last < length el' ->
    (forall x, 1 <= x <= last -> x <> m -> err el' x = err el x) ->
    (err el' (S last) <= err el' m)%R ->
    qpsrt RNum limit (S last) m el' io nr = Ok (m', er', io', nr') ->
    history limit (S last) el' io' nr' m' er'
| h_grow last el io nr m er io' : history limit last el io nr m er -> length io <= length io' ->
    (forall p, p < length io -> ent io' p = ent io p) -> history limit last el io' nr m er.

Lemma ordered_ext limit last e o o' : (forall p, 1 <= p <= kept limit last -> o' p = o p) ->
  ordered limit last e o -> ordered limit last e o'.
Proof.
  intros E [A B C D F]. constructor.
  - intros p Hp. rewrite E by lia. auto.
  - intros p q Hp Hq. rewrite !E by lia. auto.
  - intros p q H1 H2 H3. rewrite !E by lia. auto.
  - intros x Hx. destruct (D x Hx) as [(p & Hp & Ep)|Hd].
    + left. exists p. split; [exact Hp|]. rewrite E by lia. exact Ep.
    + right. intros p H1 H2. rewrite E by lia. auto.
  - intros Hk x Hx. destruct (F Hk x Hx) as (p & Hp & Ep). exists p. split; [exact Hp|]. rewrite E by lia. exact Ep.
Qed.
Lemma kept_le limit last : kept limit last <= last.
Proof. rewrite kept_jb. apply jb_le. Qed.
Lemma kept_small limit last : last <= 2 -> kept limit last = last.
Proof. intro H. unfold kept. destruct (Nat.leb_spec last (limit / 2 + 2)); lia. Qed.

Lemma history_ordered limit last el io nr m er : history limit last el io nr m er ->
  ordered limit last (err el) (ent io) /\ 1 <= last /\ 1 <= nr /\ m = ent io nr /\ er = err el m
  /\ last < length el /\ last + 1 < length io /\ nr < length io.
Proof.
  Ltac sp := repeat match goal with |- _ /\ _ => split end.
  induction 1 as [el io H1 H2 H3|last el io nr m er nr' H IH Hn
    |last el io nr m er el' io' nr' m' er' H IH Hn Hl Hio Hel Hsame Hle E|last el io nr m er io' H IH Hlen Hsame].
  - split; [|sp; auto; lia].
    assert (K : kept limit 1 = 1) by (apply kept_small; lia).
    constructor; rewrite K.
    + intros p Hp. replace p with 1 by lia. lia.
    + intros p q Hp Hq _. lia.
    + intros; lia.
    + intros x Hx. left. exists 1. split; lia.
    + intros _ x Hx. exists 1. split; lia.
  - destruct IH as (A & B & C & D & Fe & G & I & J). pose proof (kept_le limit last). sp; auto; lia.
  - destruct IH as (A & B & C & D & Fe & G & I & J).
    destruct (Nat.le_gt_cases (S last) 2) as [H2|H2].
    + assert (last = 1) by lia. subst last. unfold qpsrt in E. cbn [Nat.leb] in E.
      unfold set in E. destruct (Nat.ltb_spec 1 (length io)); [|lia]. cbn [rbind] in E.
      rewrite upd_length in E. destruct (Nat.ltb_spec 2 (length io)); [|lia]. cbn [rbind] in E.
      assert (K : kept limit 2 = 2) by (apply kept_small; lia).
      assert (K1 : kept limit 1 = 1) by (apply kept_small; lia).
      assert (nr = 1) by lia. subst nr.
      pose proof (o_range _ _ _ _ A 1 ltac:(lia)) as R1. rewrite <- D in R1. assert (m = 1) by lia. subst m.
      unfold qpsrt_end in E.
      assert (G1 : ent (upd (upd io 1 1) 2 2) 1 = 1).
      { rewrite ent_upd by (rewrite upd_length; lia). rewrite ent_upd by lia. reflexivity. }
      assert (G2 : ent (upd (upd io 1 1) 2 2) 2 = 2).
      { rewrite ent_upd by (rewrite upd_length; lia). reflexivity. }
      destruct (@get_ok QuadError nat (upd (upd io 1 1) 2 2) 1 ltac:(rewrite !upd_length; lia)) as (k & Ek & Hk).
      rewrite Ek in E. cbn [rbind] in E.
      assert (k = 1). { rewrite <- G1. symmetry. now apply nth_error_nth. } subst k.
      destruct (@get_ok QuadError R el' 1 ltac:(lia)) as (x & Ex & Hx).
      change (F RNum) with R in E. rewrite Ex in E. cbn [rbind] in E. injection E as <- <- <- <-.
      split.
      * constructor; rewrite K.
        -- intros p Hp. destruct (Nat.eq_dec p 1) as [->|]; [rewrite G1; lia|].
           replace p with 2 by lia. rewrite G2; lia.
        -- intros p q Hp Hq.
           destruct (Nat.eq_dec p 1) as [->|]; destruct (Nat.eq_dec q 1) as [->|]; try lia;
             rewrite ?G1; try replace p with 2 by lia; try replace q with 2 by lia; rewrite ?G2; lia.
        -- intros p q Q1 Q2 Q3. replace p with 1 by lia. replace q with 2 by lia. rewrite G1, G2. rewrite H3 in Hle. exact Hle.
        -- intros y Hy. left. exists y. split; [lia|]. destruct (Nat.eq_dec y 1) as [->|]; [exact G1|].
           replace y with 2 by lia. exact G2.
        -- intros _ y Hy. exists y. split; [lia|]. destruct (Nat.eq_dec y 1) as [->|]; [exact G1|].
           replace y with 2 by lia. exact G2.
      * rewrite !upd_length, G1. split; [lia|]. split; [lia|]. split; [reflexivity|].
        split; [symmetry; now apply nth_error_nth|lia].
    + assert (Hs : okp (qpsrt RNum limit (S last) m el' io nr) (fun r => match r with (m, er, io', nr') =>
         length io' = length io /\ ordered limit (S last) (err el') (ent io') /\ 1 <= nr' <= nr
         /\ m = ent io' nr' /\ er = err el' m end)).
      { apply qpsrt_step with (e0 := err el); replace (S last - 1) with last by lia; auto; try lia.
        intros x Hx. apply Hsame. lia. }
      rewrite E in Hs. cbn [okp] in Hs. destruct Hs as (S1 & S2 & S3 & S4 & S5).
      sp; auto; lia.
  - destruct IH as (A & B & C & D & Fe & G & I & J).
    rewrite Hsame by exact J. sp; auto; try lia.
    eapply ordered_ext; [|exact A]. intros p Hp. apply Hsame. pose proof (kept_le limit last). lia.
Qed.

(** Whenever the pointer is at the top of the list, the selected interval has the largest error. *)
Lemma history_worst limit last el io m er : history limit last el io 1 m er -> last <= limit ->
  forall x, 1 <= x <= last -> (err el x <= er)%R.
Proof.
  intros H Hl x Hx. destruct (history_ordered _ _ _ _ _ _ _ H) as (A & B & C & -> & -> & _).
  destruct (o_top _ _ _ _ A x Hx) as [(p & Hp & <-)|Hd].
  - destruct (Nat.eq_dec p 1) as [->|]; [lra|]. apply (o_sorted _ _ _ _ A); lia.
  - destruct (Nat.le_gt_cases 3 (kept limit last)); [apply Hd; lia|].
    assert (K : kept limit last = last).
    { unfold kept in *. destruct (Nat.leb_spec last (limit / 2 + 2)); lia. }
    destruct (o_all _ _ _ _ A K x Hx) as (p & Hp & <-).
    destruct (Nat.eq_dec p 1) as [->|]; [lra|]. apply (o_sorted _ _ _ _ A); lia.
Qed.

(** While at most half of the budget (plus two) is used, the list is a permutation of all intervals. *)
Lemma history_permutation limit last el io nr m er : history limit last el io nr m er ->
  last <= limit / 2 + 2 -> Permutation (map (ent io) (seq 1 last)) (seq 1 last).
Proof.
  intros H Hl. destruct (history_ordered _ _ _ _ _ _ _ H) as (A & _).
  assert (K : kept limit last = last) by (unfold kept; destruct (Nat.leb_spec last (limit / 2 + 2)); lia).
  apply Permutation_sym. apply NoDup_Permutation_bis.
  - apply seq_NoDup.
  - now rewrite map_length.
  - intros x Hx. apply in_seq in Hx. destruct (o_all _ _ _ _ A K x ltac:(lia)) as (p & Hp & <-).
    apply in_map, in_seq. lia.
Qed.

(** The call itself never fails. *)
Lemma history_next limit last el io nr m er el' : history limit last el io nr m er ->
  1 <= nr <= kept limit last -> S last <= limit -> S last + 1 < length io -> S last < length el' ->
  qpsrt RNum limit (S last) m el' io nr <> Panic.
Proof.
  intros H Hn Hl Hio Hel. destruct (history_ordered _ _ _ _ _ _ _ H) as (A & B & C & D & _).
  pose proof (o_range _ _ _ _ A nr Hn) as Hm. rewrite <- D in Hm.
  pose proof (qpsrt_wp RNum limit (S last) m el' io nr) as W.
  rewrite <- !kept_jb in W. replace (S last - 1) with last in W by lia.
  assert (He : entries io (kept limit last) last).
  { intros k Hk. exists (ent io k). split; [|now apply (o_range _ _ _ _ A)].
    apply nth_error_nth'. pose proof (kept_le limit last). lia. }
  specialize (W ltac:(lia) Hm Hn Hio Hel He).
  eapply wp_no_panic. exact W.
Qed.
