(** Specification and proofs for QuadModel, for any number type: index safety, the counting of
    integrand calls, and the tiling of the interval. *)
From Coq Require Import List Arith Bool ZArith QArith Lia ZifyNat Permutation.
From Verif Require Import RustBase RustBaseFacts QuadModel.
Import ListNotations.
Local Open Scope nat_scope.
Ltac Zify.zify_post_hook ::= Z.to_euclidean_division_equations.

Section Safe.
Variable N : Num.
Notation FN := (F N).
Notation R := (rr QuadError).

(** ** The rules *)
(** The record computed by the 21-point rule when the calls made so far number [c]. *)
Definition krule (f : fn N) (c : nat) (a b : FN) : kronrod N :=
  match qk21 N f c a b with
  | Ok (k, _) => k
  | _ => Kronrod N a a a a
  end.

Lemma qk21_eq f c a b : qk21 N f c a b = Ok (krule f c a b, 21 + c).
Proof. reflexivity. Qed.

Definition krule15 (f : fn N) (c : nat) (a b : FN) : kronrod N :=
  match qk15 N f c a b with
  | Ok (k, _) => k
  | _ => Kronrod N a a a a
  end.
Lemma qk15_eq f c a b : qk15 N f c a b = Ok (krule15 f c a b, 15 + c).
Proof. reflexivity. Qed.

(** ** The epsilon table *)
Lemma qelg_body_wp n i s :
  1 <= i -> 2 * i + 1 <= n -> n <= 50 ->
  length (e_tab N s) = 53 -> e_k1 N s + 2 * i = n + 2 -> e_n N s = n -> e_conv N s = false ->
  wp (qelg_body N i s) (fun c => match c with
    | Cont s' => length (e_tab N s') = 53 /\ e_k1 N s' + 2 * (S i) = n + 2 /\ e_n N s' = n /\ e_conv N s' = false
    | Brk s' => length (e_tab N s') = 53 /\ 1 <= e_n N s' <= n
    end).
Proof.
  intros H1 H2 H3 Hl Hk Hn Hc. unfold qelg_body.
  apply wp_bind, wp_csub; [lia|]. apply wp_bind, wp_csub; [lia|].
  apply wp_bind, wp_get; [lia|]. intros res _.
  apply wp_bind, wp_get; [lia|]. intros e0 _.
  apply wp_bind, wp_get; [lia|]. intros e1 _.
  destruct (negb _).
  { cbn [wp e_tab e_n]. lia. }
  apply wp_bind, wp_get; [lia|]. intros e3 _.
  apply wp_bind, wp_set; [lia|].
  match goal with |- context [if ?b then Ok (Brk _) else _] => destruct b end.
  { cbn [wp e_tab e_n]. rewrite upd_length. lia. }
  apply wp_bind, wp_set; [rewrite upd_length; lia|].
  apply wp_bind, wp_csub; [lia|].
  match goal with |- context [if ?b then Ok (Cont _) else _] => destruct b end;
    cbn [wp e_tab e_n e_k1 e_conv]; rewrite !upd_length; lia.
Qed.

Lemma qelg_shift_wp num newelm tab :
  length tab = 53 -> num <= 50 -> 3 <= num -> newelm = (num - 1) / 2 ->
  wp (qelg_shift N num newelm tab) (fun t => length t = 53).
Proof.
  intros Hl Hn H3 ->. unfold qelg_shift.
  set (ib := if num / 2 * 2 =? num then 2 else 1).
  assert (Hib : 1 <= ib /\ ib + 2 * ((num - 1) / 2) <= num).
  { unfold ib. destruct (Nat.eqb_spec (num / 2 * 2) num); lia. }
  apply wp_bind. apply wp_for with (I := fun i p => length (fst p) = 53 /\ snd p + 2 = ib + 2 * i).
  - cbn. lia.
  - intros i [t j] Hi [H1 H2]. cbn [fst snd] in *.
    apply wp_bind, wp_get; [lia|]. intros v _.
    apply wp_bind, wp_set; [lia|]. cbn [wp fst snd]. rewrite upd_length. lia.
  - intros [t j] [H1 _]. exact H1.
Qed.

Lemma qelg_drop_wp num n tab :
  length tab = 53 -> num <= 50 -> n <= num ->
  wp (qelg_drop N num n tab) (fun t => length t = 53).
Proof.
  intros Hl Hn Hle. unfold qelg_drop. destruct (Nat.eqb_spec num n); [exact Hl|].
  apply wp_bind, wp_csub; [lia|].
  apply wp_bind. apply wp_for with (I := fun i p => length (fst p) = 53 /\ snd p = num - n + i).
  - cbn. lia.
  - intros i [t j] Hi [H1 H2]. cbn [fst snd] in *.
    apply wp_bind, wp_get; [lia|]. intros v _.
    apply wp_bind, wp_set; [lia|]. cbn [wp fst snd]. rewrite upd_length. lia.
  - intros [t j] [H1 _]. exact H1.
Qed.

(** The table routine is safe as long as at most 50 slots are in use, and never returns more slots
    than it was given. *)
Lemma qelg_wp n tab res3la nres :
  1 <= n <= 50 -> length tab = 53 -> length res3la = 4 ->
  wp (qelg N n tab res3la nres) (fun r => match r with (n', tab', res3la', nres', _, _) =>
    1 <= n' <= n /\ length tab' = 53 /\ length res3la' = 4 end).
Proof.
  intros Hn Hl Hr. unfold qelg.
  apply wp_bind, wp_get; [lia|]. intros r0 _.
  destruct (Nat.ltb_spec n 3). { cbn [wp]. repeat split; auto; lia. }
  apply wp_bind, wp_get; [lia|]. intros v _.
  apply wp_bind, wp_set; [lia|].
  apply wp_bind, wp_csub; [lia|].
  apply wp_bind, wp_set; [rewrite upd_length; lia|].
  apply wp_bind. eapply wp_mono.
  { apply wp_for with (I := fun i s => length (e_tab N s) = 53 /\ e_k1 N s + 2 * i = n + 2 /\ e_n N s = n /\ e_conv N s = false)
      (Q := fun s => length (e_tab N s) = 53 /\ 1 <= e_n N s <= n).
    - cbn [e_tab e_k1 e_n e_conv]. rewrite !upd_length. lia.
    - intros i s Hi (A & B & C & D). apply qelg_body_wp; auto; lia.
    - intros s (A & B & C & D). lia. }
  cbn beta. intros s [Ht He].
  destruct (e_conv N s). { cbn [wp]. repeat split; auto; lia. }
  set (n' := if e_n N s =? 50 then 2 * (50 / 2) - 1 else e_n N s).
  assert (Hn' : 1 <= n' <= n). { unfold n'. destruct (Nat.eqb_spec (e_n N s) 50); lia. }
  apply wp_bind. eapply wp_mono; [apply qelg_shift_wp; auto; lia|]. cbn beta. intros t1 Ht1.
  apply wp_bind. eapply wp_mono; [apply qelg_drop_wp; auto; lia|]. cbn beta. intros t2 Ht2.
  destruct (Nat.ltb_spec (nres + 1) 4).
  - apply wp_bind, wp_set; [lia|]. cbn [wp]. rewrite upd_length. auto.
  - apply wp_bind, wp_get; [lia|]. intros r3 _. apply wp_bind, wp_get; [lia|]. intros r2 _.
    apply wp_bind, wp_get; [lia|]. intros r1 _.
    apply wp_bind, wp_set; [lia|]. apply wp_bind, wp_set; [rewrite upd_length; lia|].
    apply wp_bind, wp_set; [rewrite !upd_length; lia|]. cbn [wp]. rewrite !upd_length. auto.
Qed.

(** ** Ordering the errors *)
(** How many entries of iord are maintained. *)
Definition jb (limit last : nat) : nat := if Nat.ltb (limit / 2 + 2) last then limit + 3 - last else last.

Lemma upper_eq limit last : last <= limit + 3 -> upper limit last = Ok (jb limit last).
Proof.
  intro H. unfold upper, jb, csub. destruct (Nat.ltb_spec (limit / 2 + 2) last); [|reflexivity].
  destruct (Nat.leb_spec last (limit + 3)); [reflexivity|lia].
Qed.
Lemma jb_le limit last : jb limit last <= last.
Proof. unfold jb. destruct (Nat.ltb_spec (limit / 2 + 2) last); lia. Qed.
Lemma jb_ge limit last : last <= limit -> 3 <= jb limit last \/ jb limit last = last.
Proof. unfold jb. destruct (Nat.ltb_spec (limit / 2 + 2) last); lia. Qed.
Lemma jb_step limit last : S last <= limit ->
  jb limit (S last) <= jb limit last + 1 /\ jb limit last <= jb limit (S last) + 2.
Proof.
  unfold jb. destruct (Nat.ltb_spec (limit / 2 + 2) last); destruct (Nat.ltb_spec (limit / 2 + 2) (S last)); lia.
Qed.

(** Entries 1..J of iord name intervals 1..L. *)
Definition entries (io : list nat) (J L : nat) : Prop :=
  forall k, 1 <= k <= J -> exists v, nth_error io k = Some v /\ 1 <= v <= L.

Lemma entries_upd io J L k v : entries io J L -> 1 <= v <= L -> k < length io -> entries (upd io k v) J L.
Proof.
  intros H Hv Hk j Hj. rewrite nth_upd. destruct (Nat.eqb_spec k j) as [->|].
  - destruct (Nat.ltb_spec j (length io)); [eauto|lia].
  - apply H; assumption.
Qed.
Lemma entries_extend io J L v : entries io J L -> 1 <= v <= L -> S J < length io -> entries (upd io (S J) v) (S J) L.
Proof.
  intros H Hv Hk j Hj. rewrite nth_upd. destruct (Nat.eqb_spec (S J) j) as [<-|].
  - destruct (Nat.ltb_spec (S J) (length io)); [eauto|lia].
  - apply H; lia.
Qed.
Lemma entries_mono io J L J' L' : entries io J L -> J' <= J -> L <= L' -> entries io J' L'.
Proof. intros H H1 H2 k Hk. destruct (H k ltac:(lia)) as (v & Hv & Hb). exists v; split; [assumption|lia]. Qed.

Lemma wp_entry {B} io J L (k : nat) (g : nat -> R B) Q :
  entries io J L -> 1 <= k <= J ->
  (forall v, nth_error io k = Some v -> 1 <= v <= L -> wp (g v) Q) -> wp (rbind (get io k) g) Q.
Proof.
  intros H Hk Hg. destruct (H k Hk) as (v & Hv & Hb). unfold get. rewrite Hv. cbn [rbind]. auto.
Qed.

Lemma qpsrt_up_wp elist errmax io nrmax J L :
  1 <= nrmax <= J -> J < length io -> L < length elist -> entries io J L ->
  wp (qpsrt_up N elist errmax io nrmax) (fun r => match r with (io', nr') =>
    1 <= nr' <= nrmax /\ length io' = length io /\ entries io' J L end).
Proof.
  intros Hn Hl He H. unfold qpsrt_up. destruct (Nat.eqb_spec nrmax 1).
  { cbn [wp]. repeat split; auto; lia. }
  apply wp_bind, wp_csub; [lia|].
  apply wp_for with (I := fun i p => match p with (io', nr') =>
      nr' + i = nrmax + 1 /\ length io' = length io /\ entries io' J L end).
  - auto.
  - intros i [io' nr'] Hi (A & B & C). apply wp_bind, wp_csub; [lia|].
    eapply wp_entry; [exact C|lia|]. intros v Hv Hb.
    apply wp_bind, wp_get; [lia|]. intros es _. destruct (fle N errmax es).
    + cbn [wp]. repeat split; auto; lia.
    + apply wp_bind, wp_set; [lia|]. cbn [wp]. rewrite upd_length. repeat split; auto; try lia.
      apply entries_upd; auto; lia.
  - intros [io' nr'] (A & B & C). repeat split; auto; lia.
Qed.

Lemma qpsrt_down_wp elist errmax io ibeg jbnd J L :
  2 <= ibeg -> jbnd <= J -> J < length io -> L < length elist -> entries io J L ->
  wp (qpsrt_down N elist errmax io ibeg jbnd) (fun r => match r with (io', o) =>
    length io' = length io /\ entries io' J L /\
    match o with Some i => ibeg <= i <= jbnd | None => True end end).
Proof.
  intros Hi Hj Hl He H. unfold qpsrt_down.
  apply wp_for with (I := fun i p => length (fst p) = length io /\ entries (fst p) J L /\ snd p = None).
  - auto.
  - intros i [io' o] Hb (A & B & C). cbn [fst snd] in *.
    eapply wp_entry; [exact B|lia|]. intros v Hv Hvb.
    apply wp_bind, wp_get; [lia|]. intros es _. destruct (fle N es errmax).
    + cbn [wp]. auto.
    + apply wp_bind, wp_csub; [lia|]. apply wp_bind, wp_set; [lia|]. cbn [wp fst snd].
      rewrite upd_length. repeat split; auto. apply entries_upd; auto; lia.
  - intros [io' o] (A & B & C). cbn [fst snd] in *. subst o. auto.
Qed.

Lemma qpsrt_bottom_wp elist errmin last io i jbnd J L :
  1 <= i <= jbnd -> jbnd <= J -> J + 1 < length io -> last < length elist -> last = S L -> entries io J L ->
  wp (qpsrt_bottom N elist errmin last io i jbnd) (fun io' =>
    length io' = length io /\ entries io' (Nat.max J (jbnd + 1)) last).
Proof.
  intros Hi Hj Hl He -> H. unfold qpsrt_bottom.
  apply wp_bind. apply wp_for with (I := fun j p => match p with (io', k, placed) =>
      k + j = jbnd + i /\ length io' = length io /\ placed = false /\ entries io' J (S L)
      /\ (i < j -> entries io' (Nat.max J (jbnd + 1)) (S L)) end).
  - repeat split; auto; try lia. eapply entries_mono; eauto.
  - intros j [[io' k] placed] Hb (A & B & C & D & E).
    eapply wp_entry; [exact D|lia|]. intros v Hv Hvb.
    apply wp_bind, wp_get; [lia|]. intros es _.
    assert (Hext : forall w, 1 <= w <= S L -> entries (upd io' (k + 1) w) (Nat.max J (jbnd + 1)) (S L)).
    { intros w Hw. destruct (Nat.eq_dec i j) as [->|].
      - assert (k = jbnd) by lia. subst k. destruct (Nat.le_gt_cases J jbnd).
        + assert (J = jbnd) by lia. subst J. replace (Nat.max jbnd (jbnd + 1)) with (S jbnd) by lia.
          rewrite Nat.add_1_r. apply entries_extend; auto; lia.
        + replace (Nat.max J (jbnd + 1)) with J by lia. apply entries_upd; auto; lia.
      - apply entries_upd; try lia; auto. apply E. lia. }
    destruct (flt N errmin es).
    + apply wp_bind, wp_set; [lia|]. cbn [wp]. rewrite upd_length. split; [lia|]. apply Hext; lia.
    + apply wp_bind, wp_set; [lia|]. apply wp_bind, wp_csub; [lia|]. cbn [wp]. rewrite upd_length.
      split; [lia|]. split; [lia|]. split; [reflexivity|]. split.
      * apply entries_upd; auto; lia.
      * intros _. apply Hext; lia.
  - intros [[io' k] placed] (A & B & C & D & E). subst placed.
    apply wp_set; [lia|]. rewrite upd_length. split; [lia|]. apply entries_upd; try lia. apply E. lia.
Qed.

Lemma qpsrt_end_wp elist io nrmax J L :
  1 <= nrmax <= J -> L < length elist -> entries io J L ->
  wp (qpsrt_end N elist io nrmax) (fun r => match r with (m, e, io', nr') =>
    io' = io /\ nr' = nrmax /\ 1 <= m <= L /\ nth_error io m = nth_error io m
    /\ nth_error io nrmax = Some m /\ nth_error elist m = Some e end).
Proof.
  intros Hn He H. unfold qpsrt_end. eapply wp_entry; [exact H|lia|]. intros v Hv Hb.
  apply wp_bind, wp_get; [lia|]. intros e Hee. cbn [wp]. auto 10.
Qed.

(** One call of qpsrt: the maintained entries stay valid, and the selected interval is the one
    named by the entry at nrmax, which does not move down. *)
Lemma qpsrt_wp limit last maxerr elist io nrmax :
  2 <= last <= limit -> 1 <= maxerr <= last - 1 -> 1 <= nrmax <= jb limit (last - 1) ->
  last + 1 < length io -> last < length elist -> entries io (jb limit (last - 1)) (last - 1) ->
  wp (qpsrt N limit last maxerr elist io nrmax) (fun r => match r with (m, e, io', nr') =>
    length io' = length io /\ 1 <= nr' <= nrmax /\ 1 <= m <= last /\ nth_error elist m = Some e
    /\ nth_error io' nr' = Some m
    /\ entries io' (jb limit last) last end).
Proof.
  intros Hlast Hm Hn Hl He H. unfold qpsrt.
  destruct (Nat.leb_spec last 2).
  - assert (last = 2) by lia. subst last.
    apply wp_bind, wp_set; [lia|]. apply wp_bind, wp_set; [rewrite upd_length; lia|].
    assert (Hent : entries (upd (upd io 1 1) 2 2) 2 2).
    { intros k Hk. rewrite !nth_upd, upd_length.
      destruct (Nat.eqb_spec 2 k) as [<-|].
      - destruct (Nat.ltb_spec 2 (length io)); [|lia]. eauto.
      - destruct (Nat.eqb_spec 1 k) as [<-|]; [|lia]. destruct (Nat.ltb_spec 1 (length io)); [|lia]. eauto. }
    pose proof (jb_le limit 1) as J1. cbn [Nat.sub] in *.
    assert (jb limit 2 <= 2) by apply jb_le.
    eapply wp_mono; [apply qpsrt_end_wp with (J := 2) (L := 2); auto; lia|].
    intros [[[m e] io'] nr'] (-> & -> & Hmm & _ & Hio & Hee). rewrite !upd_length.
    repeat split; auto; try lia. eapply entries_mono; eauto.
  - set (J0 := jb limit (last - 1)) in *.
    assert (HJ : jb limit last <= J0 + 1 /\ J0 <= jb limit last + 2).
    { pose proof (jb_step limit (last - 1) ltac:(lia)) as Hst.
      replace (S (last - 1)) with last in Hst by lia. exact Hst. }
    assert (HJ3 : 3 <= jb limit last) by (destruct (jb_ge limit last); lia).
    assert (HJ0 : J0 <= last - 1) by apply jb_le.
    apply wp_bind, wp_get; [lia|]. intros errmax _.
    apply wp_bind. eapply wp_mono; [apply qpsrt_up_wp with (J := J0) (L := last - 1); auto; lia|].
    intros [io1 nr1] (Hnr & Hl1 & Hent1).
    rewrite upper_eq by lia. cbn [rbind].
    apply wp_bind, wp_get; [lia|]. intros errmin _.
    apply wp_bind, wp_csub; [lia|].
    apply wp_bind. eapply wp_mono; [apply qpsrt_down_wp with (J := J0) (L := last - 1); auto; lia|].
    intros [io2 o] (Hl2 & Hent2 & Ho). destruct o as [i|].
    + apply wp_bind, wp_csub; [lia|]. apply wp_bind, wp_set; [lia|].
      apply wp_bind. eapply wp_mono.
      { apply qpsrt_bottom_wp with (J := J0) (L := last - 1); try rewrite upd_length; try lia.
        apply entries_upd; auto; lia. }
      cbn beta. rewrite upd_length. intros io3 (Hl3 & Hent3).
      eapply wp_mono.
      { apply qpsrt_end_wp with (J := Nat.max J0 (jb limit last)) (L := last); [lia|lia|].
        eapply entries_mono; [exact Hent3|lia|lia]. }
      intros [[[m e] io'] nr'] (-> & -> & Hmm & _ & Hio & Hee). repeat split; auto; try lia.
      eapply entries_mono; [exact Hent3|lia|lia].
    + apply wp_bind, wp_set; [lia|]. apply wp_bind, wp_set; [rewrite upd_length; lia|].
      assert (Hent3 : entries (upd (upd io2 (jb limit last - 1) maxerr) (jb limit last) last) (Nat.max J0 (jb limit last)) last).
      { assert (Hb : entries (upd io2 (jb limit last - 1) maxerr) J0 last).
        { apply entries_upd; try lia. eapply entries_mono; eauto; lia. }
        destruct (Nat.le_gt_cases (jb limit last) J0).
        - rewrite Nat.max_l by lia. apply entries_upd; auto; try lia. rewrite upd_length. lia.
        - replace (Nat.max J0 (jb limit last)) with (S J0) by lia. replace (jb limit last) with (S J0) by lia.
          apply entries_extend; try lia; [|rewrite upd_length; lia].
          replace (S J0 - 1) with (jb limit last - 1) by lia. exact Hb. }
      eapply wp_mono.
      { apply qpsrt_end_wp with (J := Nat.max J0 (jb limit last)) (L := last); [lia|lia|exact Hent3]. }
      intros [[[m e] io'] nr'] (-> & -> & Hmm & _ & Hio & Hee). rewrite !upd_length.
      repeat split; auto; try lia.
      eapply entries_mono; [exact Hent3|lia|lia].
Qed.

End Safe.
