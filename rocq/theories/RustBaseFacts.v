(** Facts about the Rust vocabulary: weakest preconditions, arrays, loops; and
    the real-number instance of [Num]. *)
From Coq Require Import List Arith Bool QArith Reals Qreals Lra Lia.
From Verif Require Import RustBase.
Import ListNotations.
Local Open Scope nat_scope.

(** [wp r Q]: no panic, and a normal result satisfies [Q]. *)
Definition wp {E A} (r : rr E A) (Q : A -> Prop) : Prop :=
  match r with Ok a => Q a | Err _ => True | Panic => False end.

Lemma wp_bind {E A B} (r : rr E A) (k : A -> rr E B) Q :
  wp r (fun a => wp (k a) Q) -> wp (rbind r k) Q.
Proof. destruct r; simpl; auto. Qed.
Lemma wp_mono {E A} (r : rr E A) (P Q : A -> Prop) : wp r P -> (forall a, P a -> Q a) -> wp r Q.
Proof. destruct r; simpl; auto. Qed.
Lemma wp_ok {E A} (r : rr E A) Q a : wp r Q -> r = Ok a -> Q a.
Proof. intros H ->; exact H. Qed.
Lemma wp_no_panic {E A} (r : rr E A) Q : wp r Q -> r <> Panic.
Proof. intros H ->; exact H. Qed.

Lemma get_ok {E A} (v : list A) i : i < length v -> exists a, @get E A v i = Ok a /\ nth_error v i = Some a.
Proof.
  intro H. unfold get. destruct (nth_error v i) as [a|] eqn:E0; [eauto|].
  apply nth_error_None in E0. lia.
Qed.
Lemma wp_get {E A} (v : list A) i (Q : A -> Prop) :
  i < length v -> (forall a, nth_error v i = Some a -> Q a) -> wp (@get E A v i) Q.
Proof. intros H HQ. destruct (@get_ok E A v i H) as (a & -> & Ha). simpl. auto. Qed.

Lemma upd_length {A} (v : list A) : forall i a, length (upd v i a) = length v.
Proof. induction v as [|x r IH]; intros [|i] a; simpl; auto. Qed.
Lemma nth_upd_same {A} (v : list A) : forall i a, i < length v -> nth_error (upd v i a) i = Some a.
Proof. induction v as [|x r IH]; intros [|i] a H; simpl in *; try lia; auto. apply IH; lia. Qed.
Lemma nth_upd_other {A} (v : list A) : forall i j a, i <> j -> nth_error (upd v i a) j = nth_error v j.
Proof.
  induction v as [|x r IH]; intros [|i] [|j] a H; simpl in *; auto; try congruence.
Qed.
Lemma nth_upd {A} (v : list A) i j a :
  nth_error (upd v i a) j = if Nat.eqb i j then (if Nat.ltb i (length v) then Some a else None) else nth_error v j.
Proof.
  destruct (Nat.eqb_spec i j) as [->|H].
  - destruct (Nat.ltb_spec j (length v)).
    + now apply nth_upd_same.
    + apply nth_error_None. now rewrite upd_length.
  - now apply nth_upd_other.
Qed.
Lemma wp_set {E A} (v : list A) i a (Q : list A -> Prop) :
  i < length v -> Q (upd v i a) -> wp (@set E A v i a) Q.
Proof. intros H HQ. unfold set. destruct (Nat.ltb_spec i (length v)); [exact HQ|lia]. Qed.
Lemma wp_csub {E} a b (Q : nat -> Prop) : b <= a -> Q (a - b) -> wp (@csub E a b) Q.
Proof. intros H HQ. unfold csub. destruct (Nat.leb_spec b a); [exact HQ|lia]. Qed.

Lemma resize_length {A} (v : list A) n d : length (resize v n d) = n.
Proof.
  unfold resize. rewrite app_length, repeat_length, firstn_length. lia.
Qed.
Lemma nth_resize {A} (v : list A) n d i :
  i < length v -> i < n -> nth_error (resize v n d) i = nth_error v i.
Proof.
  intros H1 H2. unfold resize. rewrite nth_error_app1.
  - revert i n H1 H2. induction v as [|x r IH]; intros [|i] [|n] H1 H2; simpl in *; try lia; auto.
    apply IH; lia.
  - rewrite firstn_length. lia.
Qed.

(** Invariant rule for loops: [I i s] before iteration [i]; [Q] after. *)
Lemma wp_loop {E S} (body : nat -> S -> rr E (ctl S)) (I : nat -> S -> Prop) (Q : S -> Prop) n : forall lo s,
  I lo s ->
  (forall i s, lo <= i < lo + n -> I i s ->
     wp (body i s) (fun c => match c with Cont s' => I (Datatypes.S i) s' | Brk s' => Q s' end)) ->
  (forall s, I (lo + n) s -> Q s) ->
  wp (loop n lo body s) Q.
Proof.
  induction n as [|n IH]; intros lo s HI Hb HQ; simpl.
  - apply HQ. now rewrite Nat.add_0_r.
  - apply wp_bind. eapply wp_mono; [apply Hb; [lia|exact HI]|].
    intros [s'|s'] H; simpl; [|exact H].
    apply IH; [exact H| |].
    + intros i s0 Hi. apply Hb. lia.
    + intros s0 H0. apply HQ. now replace (lo + Datatypes.S n) with (Datatypes.S lo + n) by lia.
Qed.
Lemma wp_for {E S} (body : nat -> S -> rr E (ctl S)) (I : nat -> S -> Prop) (Q : S -> Prop) lo hi s :
  I lo s ->
  (forall i s, lo <= i <= hi -> I i s ->
     wp (body i s) (fun c => match c with Cont s' => I (Datatypes.S i) s' | Brk s' => Q s' end)) ->
  (forall s, I (Nat.max lo (Datatypes.S hi)) s -> Q s) ->
  wp (for_range lo hi body s) Q.
Proof.
  intros HI Hb HQ. unfold for_range. apply wp_loop with (I := I); [exact HI| |].
  - intros i s0 Hi. apply Hb. lia.
  - intros s0 H0. apply HQ. replace (Nat.max lo (Datatypes.S hi)) with (lo + (Datatypes.S hi - lo)) by lia.
    exact H0.
Qed.

(** [tot r Q]: a normal result, and it satisfies [Q]. *)
Definition tot {E A} (r : rr E A) (Q : A -> Prop) : Prop := match r with Ok a => Q a | _ => False end.
Lemma tot_bind {E A B} (r : rr E A) (k : A -> rr E B) Q :
  tot r (fun a => tot (k a) Q) -> tot (rbind r k) Q.
Proof. destruct r; simpl; auto. Qed.
Lemma tot_mono {E A} (r : rr E A) (P Q : A -> Prop) : tot r P -> (forall a, P a -> Q a) -> tot r Q.
Proof. destruct r; simpl; auto. Qed.
Lemma tot_ok {E A} (r : rr E A) Q : tot r Q -> exists a, r = Ok a /\ Q a.
Proof. destruct r; simpl; try tauto. eauto. Qed.
Lemma tot_get {E A} (v : list A) i (Q : A -> Prop) :
  i < length v -> (forall a, nth_error v i = Some a -> Q a) -> tot (@get E A v i) Q.
Proof. intros H HQ. destruct (@get_ok E A v i H) as (a & -> & Ha). simpl. auto. Qed.
Lemma tot_set {E A} (v : list A) i a (Q : list A -> Prop) :
  i < length v -> Q (upd v i a) -> tot (@set E A v i a) Q.
Proof. intros H HQ. unfold set. destruct (Nat.ltb_spec i (length v)); [exact HQ|lia]. Qed.
Lemma tot_csub {E} a b (Q : nat -> Prop) : b <= a -> Q (a - b) -> tot (@csub E a b) Q.
Proof. intros H HQ. unfold csub. destruct (Nat.leb_spec b a); [exact HQ|lia]. Qed.
(** Loops whose body never breaks. *)
Lemma tot_loop {E S} (body : nat -> S -> rr E (ctl S)) (I : nat -> S -> Prop) (Q : S -> Prop) n : forall lo s,
  I lo s ->
  (forall i s, lo <= i < lo + n -> I i s ->
     tot (body i s) (fun c => match c with Cont s' => I (Datatypes.S i) s' | Brk s' => Q s' end)) ->
  (forall s, I (lo + n) s -> Q s) ->
  tot (loop n lo body s) Q.
Proof.
  induction n as [|n IH]; intros lo s HI Hb HQ; simpl.
  - apply HQ. now rewrite Nat.add_0_r.
  - apply tot_bind. eapply tot_mono; [apply Hb; [lia|exact HI]|].
    intros [s'|s'] H; simpl; [|exact H].
    apply IH; [exact H| |].
    + intros i s0 Hi. apply Hb. lia.
    + intros s0 H0. apply HQ. now replace (lo + Datatypes.S n) with (Datatypes.S lo + n) by lia.
Qed.

(** ** The reals *)
Local Open Scope R_scope.
Definition RNum : Num := {|
  F := R;
  lit := Q2R;
  fadd := Rplus; fsub := Rminus; fmul := Rmult; fdiv := Rdiv;
  fneg := Ropp; fabs := Rabs; fmax := Rmax; fmin := Rmin;
  fma := fun a b c => a * b + c;
  fpow15 := fun x => x * sqrt x;
  flt := fun x y => if Rlt_dec x y then true else false;
  fle := fun x y => if Rle_dec x y then true else false;
  feq := fun x y => if Req_EM_T x y then true else false;
  is_nan := fun _ => false;
  total_cmp_le := fun x y => if Rle_dec x y then true else false;
  epmach := / 2 ^ 52; uflow := / 2 ^ 1022; oflow := 2 ^ 1023 * (2 - / 2 ^ 52)
|}.

Lemma Rfle_true (x y : R) : fle RNum x y = true <-> x <= y.
Proof. simpl. destruct (Rle_dec x y); split; auto; congruence. Qed.
Lemma Rfle_false (x y : R) : fle RNum x y = false <-> y < x.
Proof. simpl. destruct (Rle_dec x y); split; auto; try lra; congruence. Qed.
Lemma Rflt_true (x y : R) : flt RNum x y = true <-> x < y.
Proof. simpl. destruct (Rlt_dec x y); split; auto; congruence. Qed.
Lemma Rflt_false (x y : R) : flt RNum x y = false <-> y <= x.
Proof. simpl. destruct (Rlt_dec x y); split; auto; try lra; congruence. Qed.
Lemma Rfeq_true (x y : R) : feq RNum x y = true <-> x = y.
Proof. simpl. destruct (Req_EM_T x y); split; auto; congruence. Qed.
Lemma Rfeq_false (x y : R) : feq RNum x y = false <-> x <> y.
Proof. simpl. destruct (Req_EM_T x y); split; auto; congruence. Qed.
