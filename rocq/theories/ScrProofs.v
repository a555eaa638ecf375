(** Lemmas about the scripts under [scripts/agents], with the vocabulary of
    their specification. *)

Require Import Arith Bool String Ascii Lia List.
Require Import Verif.ScrModel.
Import ListNotations.
Local Open Scope nat_scope.

(* ------------------------------------------------------------------ *)
(** * Texts *)

Lemma eqt_iff : forall a b, eqt a b = true <-> a = b.
Proof.
  induction a as [|x a IH]; intros [|y b]; simpl; split; intros H; try discriminate; auto.
  - apply andb_true_iff in H. destruct H as [E H]. apply Nat.eqb_eq in E. apply IH in H.
    subst. reflexivity.
  - injection H as -> ->. rewrite Nat.eqb_refl. simpl. apply IH. reflexivity.
Qed.

Lemma eqt_refl : forall a, eqt a a = true.
Proof. intros a. apply eqt_iff. reflexivity. Qed.

Lemma eqt_neq : forall a b, a <> b -> eqt a b = false.
Proof.
  intros a b N. destruct (eqt a b) eqn:E; auto. apply eqt_iff in E. contradiction.
Qed.

Lemma mem_iff : forall t ts, mem t ts = true <-> In t ts.
Proof.
  intros t ts. unfold mem. rewrite existsb_exists. split.
  - intros (x & I & E). apply eqt_iff in E. subst. exact I.
  - intros I. exists t. split; [exact I|apply eqt_refl].
Qed.

Lemma mem_false : forall t ts, mem t ts = false <-> ~ In t ts.
Proof.
  intros t ts. rewrite <- mem_iff. destruct (mem t ts); split; intros H; auto; try discriminate.
  exfalso. apply H. reflexivity.
Qed.

(** A text of which no character is in the class at its start. *)
Definition stops (f : nat -> bool) (t : text) : Prop :=
  match t with [] => True | c :: _ => f c = false end.

Lemma span_spec : forall f t a b,
  span f t = (a, b) -> t = a ++ b /\ forallb f a = true /\ stops f b.
Proof.
  intros f t. induction t as [|c r IH]; intros a b H; simpl in H.
  - injection H as <- <-. simpl. auto.
  - destruct (f c) eqn:E.
    + destruct (span f r) as [a' b'] eqn:ES. injection H as <- <-.
      destruct (IH a' b' eq_refl) as (-> & F & T). simpl. rewrite E, F. auto.
    + injection H as <- <-. simpl. auto.
Qed.

Lemma span_unique : forall f a b,
  forallb f a = true -> stops f b -> span f (a ++ b) = (a, b).
Proof.
  intros f a b. induction a as [|c a IH]; simpl; intros F T.
  - destruct b as [|d b]; simpl; auto. simpl in T. rewrite T. reflexivity.
  - apply andb_true_iff in F. destruct F as [E F]. rewrite E, IH; auto.
Qed.

Lemma drop_while_unique : forall f a b,
  forallb f a = true -> stops f b -> drop_while f (a ++ b) = b.
Proof. intros. unfold drop_while. rewrite span_unique; auto. Qed.

Lemma drop_while_spec : forall f t,
  exists a, t = a ++ drop_while f t /\ forallb f a = true /\ stops f (drop_while f t).
Proof.
  intros f t. unfold drop_while. destruct (span f t) as [a b] eqn:E.
  apply span_spec in E. exists a. simpl. exact E.
Qed.

Lemma drop_while_stops : forall f t, stops f t -> drop_while f t = t.
Proof. intros f t S. apply (drop_while_unique f [] t); auto. Qed.

Lemma drop_while_all : forall f t, forallb f t = true -> drop_while f t = [].
Proof.
  intros f t F. rewrite <- (app_nil_r t). apply drop_while_unique; simpl; auto.
Qed.

Lemma forallb_rev : forall f (t : text), forallb f (rev t) = forallb f t.
Proof.
  intros f t. induction t as [|c t IH]; simpl; auto.
  rewrite forallb_app, IH. simpl. rewrite andb_true_r. apply andb_comm.
Qed.

Lemma drop_end_spec : forall f t,
  exists a, t = drop_end_while f t ++ a /\ forallb f a = true /\
            stops f (rev (drop_end_while f t)).
Proof.
  intros f t. unfold drop_end_while.
  destruct (drop_while_spec f (rev t)) as (a & E & F & T).
  exists (rev a). split; [|split].
  - rewrite <- (rev_involutive t), E at 1. rewrite rev_app_distr. reflexivity.
  - rewrite forallb_rev. exact F.
  - rewrite rev_involutive. exact T.
Qed.

Lemma drop_end_unique : forall f a b,
  forallb f b = true -> stops f (rev a) -> drop_end_while f (a ++ b) = a.
Proof.
  intros f a b F T. unfold drop_end_while. rewrite rev_app_distr.
  rewrite drop_while_unique; [apply rev_involutive|rewrite forallb_rev; exact F|exact T].
Qed.

(** Nothing to strip. *)
Definition trimmed (t : text) : Prop := stops is_space t /\ stops is_space (rev t).

Lemma strip_pad : forall a t b,
  forallb is_space a = true -> forallb is_space b = true -> trimmed t ->
  strip (a ++ t ++ b) = t.
Proof.
  intros a t b A B [T1 T2]. unfold strip. destruct t as [|c t].
  - simpl. rewrite drop_while_all by (rewrite forallb_app, A, B; reflexivity). reflexivity.
  - rewrite (drop_while_unique is_space a ((c :: t) ++ b)) by (auto; simpl; exact T1).
    apply drop_end_unique; auto.
Qed.

Lemma strip_trimmed : forall t, trimmed t -> strip t = t.
Proof.
  intros t T. rewrite <- (app_nil_r t) at 1. apply (strip_pad [] t []); auto.
Qed.

Lemma strip_spec : forall t, exists a b,
  t = a ++ strip t ++ b /\ forallb is_space a = true /\ forallb is_space b = true /\
  trimmed (strip t).
Proof.
  intros t. unfold strip.
  destruct (drop_while_spec is_space t) as (a & E & F & T).
  destruct (drop_end_spec is_space (drop_while is_space t)) as (b & E2 & F2 & T2).
  exists a, b. split; [|split; [|split]]; auto.
  - rewrite <- E2. exact E.
  - split; auto.
    destruct (drop_end_while is_space (drop_while is_space t)) as [|c r] eqn:EE; simpl; auto.
    rewrite E2 in T. simpl in T. exact T.
Qed.

Lemma after_iff : forall p t r, after p t = Some r <-> t = p ++ r.
Proof.
  induction p as [|c p IH]; intros t r; simpl.
  - split; intros H; [injection H as <-; reflexivity|subst; reflexivity].
  - destruct t as [|d t].
    + split; intros H; discriminate.
    + destruct (c =? d) eqn:E.
      * apply Nat.eqb_eq in E. subst d. rewrite IH. split; intros H; [subst; reflexivity|].
        injection H as <-. reflexivity.
      * apply Nat.eqb_neq in E. split; intros H; [discriminate|].
        injection H as H1 H2. exfalso. apply E. auto.
Qed.

Lemma starts_iff : forall p t, starts p t = true <-> exists r, t = p ++ r.
Proof.
  intros p t. unfold starts. destruct (after p t) as [r|] eqn:E.
  - apply after_iff in E. split; intros _; [exists r; exact E|reflexivity].
  - split; [discriminate|]. intros (r & H). apply after_iff in H. rewrite E in H. discriminate.
Qed.

Lemma ends_iff : forall p t, ends p t = true <-> exists r, t = r ++ p.
Proof.
  intros p t. unfold ends. rewrite starts_iff. split; intros (r & H).
  - exists (rev r). rewrite <- (rev_involutive t), H, rev_app_distr, rev_involutive.
    reflexivity.
  - exists (rev r). rewrite H, rev_app_distr. reflexivity.
Qed.

Lemma bool_false_iff : forall b (P : Prop), (b = true <-> P) -> (b = false <-> ~ P).
Proof.
  intros b P H. split.
  - intros E X. apply H in X. rewrite E in X. discriminate.
  - intros N. destruct b; auto. exfalso. apply N. apply H. reflexivity.
Qed.

(* ------------------------------------------------------------------ *)
(** * Titles *)

(** The rules of docs/PR_GUIDELINES.md.  A title is
    [type(scope): subject], with an exclamation mark for a breaking change. *)
Definition allowed_types : list text :=
  map codes ["feat"; "fix"; "chore"; "ci"; "docs"; "test"; "refactor"; "perf"; "style";
             "build"; "revert"]%string.

Record good_title (alnum : nat -> bool) (h : text) : Prop := {
  gt_length : List.length h <= 69;
  gt_parts : exists ty sc bang su c rest,
    h = ty ++ codes "(" ++ sc ++ codes ")" ++ bang ++ codes ": " ++ su /\
    In ty allowed_types /\
    sc <> [] /\ List.length sc <= 10 /\
    (forall x, In x sc -> 97 <= x <= 122 \/ 48 <= x <= 57 \/ x = 45) /\
    (forall r, sc <> 45 :: r) /\ (forall r, sc <> r ++ [45]) /\
    ~ In sc allowed_types /\
    (bang = [] \/ bang = codes "!") /\
    su = c :: rest /\ alnum c = true /\
    (forall r, su <> r ++ codes ".") /\ (forall r, su <> r ++ codes " ")
}.

Lemma without_newline : forall t, ~ In 10 t -> without_last_newline t = t.
Proof.
  intros t N. unfold without_last_newline. destruct (rev t) as [|c r] eqn:E; auto.
  assert (c <> 10).
  { intros ->. apply N. apply in_rev. rewrite E. left. reflexivity. }
  destruct c as [|[|[|[|[|[|[|[|[|[|[|c]]]]]]]]]]]; auto. contradiction.
Qed.

Lemma letter_between : forall c, is_letter c = true -> 65 <= c <= 90 \/ 97 <= c <= 122.
Proof.
  intros c H. unfold is_letter, is_upper, is_lower in H.
  rewrite orb_true_iff, !andb_true_iff, !Nat.leb_le in H. lia.
Qed.

Lemma types_letters : forall ty,
  In ty allowed_types -> ty <> [] /\ forallb is_letter ty = true.
Proof.
  intros ty I. unfold allowed_types in I. simpl in I.
  repeat (destruct I as [<-|I]; [split; [discriminate|reflexivity]|]). contradiction.
Qed.

Lemma scope_char_iff : forall c,
  scope_char c = true <-> 97 <= c <= 122 \/ 48 <= c <= 57 \/ c = 45.
Proof.
  intros c. unfold scope_char, is_lower, is_digit.
  rewrite !orb_true_iff, !andb_true_iff, !Nat.leb_le, Nat.eqb_eq. lia.
Qed.

Definition bang_of (r : text) : text := match r with 33 :: r' => r' | _ => r end.

(** The regular expression of the header, for texts without line feed. *)
Lemma header_re_iff : forall h ty sc su,
  ~ In 10 h ->
  (header_re h = Some (ty, Some sc, su) <->
   exists bang,
     h = ty ++ 40 :: sc ++ 41 :: bang ++ 58 :: 32 :: su /\
     ty <> [] /\ forallb is_letter ty = true /\ ~ In 41 sc /\ (bang = [] \/ bang = [33])).
Proof.
  intros h ty sc su N. unfold header_re. split.
  - destruct (span is_letter h) as [t1 r] eqn:E1. apply span_spec in E1.
    destruct E1 as (H & F & T).
    destruct t1 as [|c1 t1]; [discriminate|].
    destruct r as [|c r1]; [discriminate|].
    destruct (Nat.eq_dec c 40) as [->|NE].
    + destruct (span (fun c => negb (c =? 41)) r1) as [s2 r2] eqn:E2. apply span_spec in E2.
      destruct E2 as (H2 & F2 & T2).
      destruct r2 as [|c2 r3]; [discriminate|].
      simpl in T2. apply negb_false_iff, Nat.eqb_eq in T2. subst c2.
      assert (NI : ~ In 41 s2).
      { intros I. rewrite forallb_forall in F2. specialize (F2 _ I). discriminate. }
      cbv beta iota.
      assert (B : exists bang, r3 = bang ++ bang_of r3 /\ (bang = [] \/ bang = [33])).
      { unfold bang_of. destruct r3 as [|b r3]; [exists []; auto|].
        destruct (Nat.eq_dec b 33) as [->|NB]; [exists [33]; auto|].
        exists []. split; [|auto].
        do 34 (destruct b as [|b]; [reflexivity || contradiction|]). reflexivity. }
      fold (bang_of r3).
      destruct B as (bang & B & BB).
      destruct (bang_of r3) as [|b r4] eqn:EB; [discriminate|].
      destruct (Nat.eq_dec b 58) as [->|NB].
      2:{ intros X. exfalso.
          do 59 (destruct b as [|b]; [discriminate X || contradiction|]). discriminate X. }
      destruct r4 as [|b r5]; [discriminate|].
      destruct (Nat.eq_dec b 32) as [->|NB].
      2:{ intros X. exfalso.
          do 33 (destruct b as [|b]; [discriminate X || contradiction|]). discriminate X. }
      assert (N5 : ~ In 10 r5).
      { intros I. apply N. rewrite H, H2, B. apply in_or_app. right. right.
        apply in_or_app. right. right. apply in_or_app. right. right. right. exact I. }
      rewrite (without_newline r5 N5).
      destruct (forallb (fun c => negb (c =? 10)) r5); [|discriminate].
      intros X. injection X as <- <- <-. exists bang.
      split; [|split; [discriminate|split; [exact F|split; auto]]].
      rewrite H, H2, B. reflexivity.
    + match goal with
      | |- match ?o with _ => _ end = _ -> _ =>
          assert (O : o = Some (None, c :: r1))
            by (do 41 (destruct c as [|c]; [reflexivity || contradiction|]); reflexivity);
          rewrite O
      end.
      cbv beta iota zeta. fold (bang_of (c :: r1)).
      destruct (bang_of (c :: r1)) as [|b r4]; [discriminate|].
      destruct (Nat.eq_dec b 58) as [->|NB].
      2:{ intros X. 
          do 59 (destruct b as [|b]; [discriminate X || contradiction|]). discriminate X. }
      destruct r4 as [|b r5]; [discriminate|].
      destruct (Nat.eq_dec b 32) as [->|NB].
      2:{ intros X. 
          do 33 (destruct b as [|b]; [discriminate X || contradiction|]). discriminate X. }
      match goal with |- (if ?b then _ else _) = _ -> _ => destruct b end;
        intros X; discriminate X.
  - intros (bang & H & NT & F & NI & B).
    rewrite H, (span_unique is_letter ty) by (auto; reflexivity).
    destruct ty as [|c1 t1]; [contradiction|].
    cbv beta iota.
    rewrite (span_unique (fun c => negb (c =? 41)) sc).
    2:{ apply forallb_forall. intros x I. apply negb_true_iff, Nat.eqb_neq.
        intros ->. contradiction. }
    2:{ reflexivity. }
    cbv beta iota.
    assert (N5 : ~ In 10 su).
    { intros I. apply N. rewrite H. apply in_or_app. right. right.
      apply in_or_app. right. right. apply in_or_app. right. right. right. exact I. }
    assert (FA : forallb (fun c => negb (c =? 10)) su = true).
    { apply forallb_forall. intros x I. apply negb_true_iff, Nat.eqb_neq.
      intros ->. contradiction. }
    destruct B as [->| ->]; cbn [app]; rewrite (without_newline su N5), FA; reflexivity.
Qed.

Lemma when_nil : forall b v, when b v = [] <-> b = false.
Proof. intros [] v; simpl; split; intros; auto; discriminate. Qed.

Lemma app_nil_iff : forall (A : Type) (a b : list A), a ++ b = [] <-> a = [] /\ b = [].
Proof.
  intros A a b. split; [apply app_eq_nil|]. intros [-> ->]. reflexivity.
Qed.

Lemma check_iff : forall alnum h, ~ In 10 h ->
  (check alnum h = [] <-> good_title alnum h).
Proof.
  intros alnum h N. unfold check. rewrite app_nil_iff, when_nil, Nat.ltb_ge. split.
  - intros [L C]. destruct (header_re h) as [[[ty [sc|]] su]|] eqn:E; try discriminate.
    2:{ apply app_nil_iff in C. destruct C as [_ C]. discriminate. }
    apply app_nil_iff in C. destruct C as [CT C]. apply app_nil_iff in C.
    destruct C as [CS CU]. rewrite when_nil, negb_false_iff, mem_iff in CT.
    apply (header_re_iff h ty sc su N) in E. destruct E as (bang & H & NT & F & NI & B).
    destruct sc as [|s0 sc0]; [discriminate|]. set (sc := s0 :: sc0) in *.
    rewrite !app_nil_iff, !when_nil in CS. destruct CS as (C1 & C2 & C3 & C4).
    destruct su as [|u0 su0]; [discriminate|]. set (su := u0 :: su0) in *.
    apply app_nil_iff in CU. destruct CU as [U1 U2]. rewrite when_nil, negb_false_iff in U1.
    assert (NS : ~ In 10 sc).
    { intros I. apply N. rewrite H. apply in_or_app. right. right. apply in_or_app.
      left. exact I. }
    rewrite negb_false_iff in C1. unfold scope_re in C1. rewrite (without_newline sc NS) in C1.
    rewrite Nat.ltb_ge in C2. rewrite orb_false_iff in C3. destruct C3 as [C3 C3'].
    apply mem_false in C4.
    split; [exact L|].
    exists ty, sc, bang, su, u0, su0.
    split; [rewrite H; reflexivity|].
    split; [exact CT|]. split; [discriminate|]. split; [exact C2|].
    split. { intros x I. apply scope_char_iff. unfold sc in C1, I.
             rewrite forallb_forall in C1. apply C1. exact I. }
    split. { intros r X. rewrite (bool_false_iff _ _ (starts_iff _ _)) in C3. apply C3.
             exists r. exact X. }
    split. { intros r X. rewrite (bool_false_iff _ _ (ends_iff _ _)) in C3'. apply C3'.
             exists r. exact X. }
    split; [exact C4|]. split; [exact B|]. split; [reflexivity|]. split; [exact U1|].
    destruct (ends (codes ".") su) eqn:ED; [discriminate|].
    rewrite when_nil in U2.
    rewrite (bool_false_iff _ _ (ends_iff _ _)) in ED.
    rewrite (bool_false_iff _ _ (ends_iff _ _)) in U2.
    split; intros r X; [apply ED|apply U2]; exists r; exact X.
  - intros [L (ty & sc & bang & su & c & rest & H & CT & NS & LS & SC & HS & HE & ST & B & SU & AL
              & D & SP)].
    split; [exact L|].
    assert (NI : ~ In 41 sc) by (intros I; apply SC in I; lia).
    assert (NN : ~ In 10 sc) by (intros I; apply SC in I; lia).
    destruct (types_letters ty CT) as [NT F].
    assert (E : header_re h = Some (ty, Some sc, su)).
    { apply (header_re_iff h ty sc su N). exists bang.
      split; [rewrite H; reflexivity|]. auto. }
    rewrite E, !app_nil_iff, when_nil, negb_false_iff, mem_iff.
    split; [exact CT|].
    assert (FS : forallb scope_char sc = true).
    { apply forallb_forall. intros x I. apply scope_char_iff. apply SC. exact I. }
    split.
    + destruct sc as [|s0 sc0]; [contradiction|]. set (s := s0 :: sc0) in *.
      rewrite !app_nil_iff, !when_nil.
      split. { apply negb_false_iff. unfold scope_re. rewrite (without_newline s NN).
               unfold s. exact FS. }
      split; [apply Nat.ltb_ge; exact LS|].
      split. { apply orb_false_iff. split.
               - apply (bool_false_iff _ _ (starts_iff _ _)). intros (r & X). apply (HS r X).
               - apply (bool_false_iff _ _ (ends_iff _ _)). intros (r & X). apply (HE r X). }
      apply mem_false. exact ST.
    + rewrite SU. rewrite SU in D, SP. rewrite app_nil_iff, when_nil, AL. split; [reflexivity|].
      replace (ends (codes ".") (c :: rest)) with false.
      2:{ symmetry. apply (bool_false_iff _ _ (ends_iff _ _)). intros (r & X). apply (D r X). }
      apply when_nil. apply (bool_false_iff _ _ (ends_iff _ _)). intros (r & X). apply (SP r X).
Qed.

Lemma in_split_where : forall f t w, In w (split_where f t) -> forall c, In c w -> f c = false.
Proof.
  intros f t. induction t as [|d r IH]; simpl; intros w I c J.
  - destruct I as [<-|[]]. contradiction.
  - destruct (f d) eqn:E.
    + destruct I as [<-|I]; [contradiction|]. apply (IH w I c J).
    + destruct (split_where f r) as [|w0 ws]; simpl in I.
      * destruct I as [<-|[]]. destruct J as [<-|[]]. exact E.
      * destruct I as [<-|I].
        -- destruct J as [<-|J]; [exact E|]. apply (IH w0 (or_introl eq_refl) c J).
        -- apply (IH w (or_intror I) c J).
Qed.

Lemma in_strip : forall c t, In c (strip t) -> In c t.
Proof.
  intros c t I. destruct (strip_spec t) as (a & b & E & _). rewrite E.
  apply in_or_app. right. apply in_or_app. left. exact I.
Qed.

(** Every character of the text is in one of the lines or breaks a line. *)
Lemma split_where_cover : forall f t c,
  In c t -> f c = false -> exists w, In w (split_where f t) /\ In c w.
Proof.
  intros f t. induction t as [|d r IH]; simpl; intros c I E; [contradiction|].
  destruct I as [->|I].
  - rewrite E. destruct (split_where f r) as [|w ws].
    + exists [c]. simpl. auto.
    + exists (c :: w). simpl. auto.
  - destruct (IH c I E) as (w & W & J). destruct (f d).
    + exists w. split; [right; exact W|exact J].
    + destruct (split_where f r) as [|w0 ws]; [contradiction|].
      destruct W as [->|W].
      * exists (d :: w). split; [left; reflexivity|right; exact J].
      * exists w. split; [right; exact W|exact J].
Qed.

Lemma break_space : forall c, line_break c = true -> is_space c = true.
Proof.
  intros c. unfold line_break, is_space.
  rewrite !orb_true_iff, !andb_true_iff, !Nat.leb_le, !Nat.eqb_eq. lia.
Qed.

Lemma strip_nil : forall t, strip t = [] <-> forallb is_space t = true.
Proof.
  intros t. split; intros H.
  - destruct (strip_spec t) as (a & b & E & A & B & _). rewrite H in E. rewrite E.
    simpl. rewrite forallb_app, A, B. reflexivity.
  - unfold strip. rewrite drop_while_all by exact H. reflexivity.
Qed.

(** A title that comes from the standard input has no line feed. *)
Lemma stdin_no_newline : forall stdin, ~ In 10 (read_title [] stdin).
Proof.
  intros stdin I. unfold read_title in I.
  destruct (find _ _) as [w|] eqn:E.
  - apply find_some in E. destruct E as [E _]. apply in_map_iff in E.
    destruct E as (l & <- & L). apply in_strip in I.
    pose proof (in_split_where line_break stdin l L 10 I). discriminate.
  - assert (S : strip stdin = []).
    { apply strip_nil. apply forallb_forall. intros c C.
      destruct (line_break c) eqn:B; [apply break_space; exact B|].
      destruct (split_where_cover line_break stdin c C B) as (w & W & J).
      assert (X : strip w = []).
      { pose proof (find_none _ _ E (strip w) (in_map strip _ _ W)) as X.
        apply negb_false_iff, eqt_iff in X. exact X. }
      apply strip_nil in X. rewrite forallb_forall in X. apply X. exact J. }
    rewrite S in I. contradiction.
Qed.

(* ------------------------------------------------------------------ *)
(** * Citations *)

(** The path is the citation, or ends with it after a slash. *)
Definition ends_in (c p : text) : Prop := p = c \/ exists pre, p = pre ++ 47 :: c.

Lemma split_path : forall p, exists w ws,
  split_at 47 p = w :: ws /\ join_with 47 (w :: ws) = p /\
  (forall c, In c (map (join_with 47) (tails ws)) <-> exists pre, p = pre ++ 47 :: c) /\
  (forall c, In c (map (join_with 47) (tails ws)) -> List.length c < List.length p) /\
  NoDup (map (join_with 47) (tails ws)).
Proof.
  induction p as [|d r IH]; simpl.
  - exists [], []. simpl. split; [|split; [|split; [|split]]]; auto.
    + intros c. split; [contradiction|]. intros (pre & H). destruct pre; discriminate.
    + intros c [].
    + constructor.
  - destruct IH as (w & ws & E & J & P & L & D). destruct (Nat.eqb_spec d 47) as [->|N].
    + rewrite E. exists [], (w :: ws). split; [reflexivity|].
      assert (J' : join_with 47 ([] :: w :: ws) = 47 :: r) by (rewrite <- J; reflexivity).
      split; [exact J'|].
      cbn [tails map]. rewrite J. split; [|split].
      * intros c. split.
        -- intros [<-|I]; [exists []; reflexivity|]. apply P in I.
           destruct I as (pre & ->). exists (47 :: pre). reflexivity.
        -- intros (pre & H). destruct pre as [|x pre]; simpl in H.
           ++ injection H as <-. left. reflexivity.
           ++ injection H as <- H. right. apply P. exists pre. exact H.
      * intros c [<-|I]; [simpl; lia|]. apply L in I. simpl. lia.
      * constructor; [|exact D]. intros I. apply L in I. lia.
    + rewrite E. exists (d :: w), ws. split; [reflexivity|]. split.
      * rewrite <- J. destruct ws; reflexivity.
      * split; [|split].
        -- intros c. rewrite P. split; intros (pre & H).
           ++ exists (d :: pre). rewrite H. reflexivity.
           ++ destruct pre as [|x pre]; simpl in H; injection H as H1 H; [contradiction|].
              exists pre. exact H.
        -- intros c I. apply L in I. simpl. lia.
        -- exact D.
Qed.

Lemma suffixes_iff : forall c p,
  In c (map (join_with 47) (tails (split_at 47 p))) <-> ends_in c p.
Proof.
  intros c p. destruct (split_path p) as (w & ws & E & J & P & _). rewrite E.
  cbn [tails map]. rewrite J. unfold ends_in. split.
  - intros [->|I]; [left; reflexivity|right; apply P; exact I].
  - intros [->|I]; [left; reflexivity|right; apply P; exact I].
Qed.

Lemma suffixes_nodup : forall p, NoDup (map (join_with 47) (tails (split_at 47 p))).
Proof.
  intros p. destruct (split_path p) as (w & ws & E & J & _ & L & D). rewrite E.
  cbn [tails map]. rewrite J. constructor; [|exact D]. intros I. apply L in I. lia.
Qed.

Lemma filter_eqt_nodup : forall c l, NoDup l ->
  filter (eqt c) l = if mem c l then [c] else [].
Proof.
  intros c l D. induction D as [|x l N D IH]; simpl; auto.
  unfold mem in *. simpl. destruct (eqt c x) eqn:E; simpl; rewrite IH.
  - apply eqt_iff in E. subst x. destruct (existsb (eqt c) l) eqn:M; auto.
    exfalso. apply N. apply mem_iff. exact M.
  - reflexivity.
Qed.

Definition ends_in_b (c p : text) : bool :=
  mem c (map (join_with 47) (tails (split_at 47 p))).

Lemma ends_in_b_iff : forall c p, ends_in_b c p = true <-> ends_in c p.
Proof. intros c p. unfold ends_in_b. rewrite mem_iff. apply suffixes_iff. Qed.

Lemma candidates_filter : forall files c, candidates files c = filter (ends_in_b c) files.
Proof.
  intros files c. induction files as [|p files IH]; simpl; auto.
  unfold candidates in *. simpl. rewrite IH.
  rewrite (filter_eqt_nodup c _ (suffixes_nodup p)). unfold ends_in_b.
  destruct (mem c _); reflexivity.
Qed.

Lemma candidates_in : forall files c p,
  In p (candidates files c) <-> In p files /\ ends_in c p.
Proof. intros. rewrite candidates_filter, filter_In, ends_in_b_iff. reflexivity. Qed.

Lemma nodup_filter : forall (A : Type) (f : A -> bool) l, NoDup l -> NoDup (filter f l).
Proof.
  intros A f l D. induction D as [|x l N D IH]; simpl; [constructor|].
  destruct (f x); auto. constructor; auto. intros I. apply filter_In in I. tauto.
Qed.

Lemma nodup_single : forall (A : Type) (l : list A) x,
  NoDup l -> In x l -> (forall y, In y l -> y = x) -> l = [x].
Proof.
  intros A l x D I U. destruct l as [|a [|b l]].
  - contradiction.
  - rewrite (U a (or_introl eq_refl)). reflexivity.
  - exfalso. inversion D as [|? ? N _]. subst. apply N. left.
    rewrite (U a), (U b); simpl; auto.
Qed.

Lemma candidates_unique : forall files c p,
  NoDup files -> In p files -> ends_in c p ->
  (forall q, In q files -> ends_in c q -> q = p) -> candidates files c = [p].
Proof.
  intros files c p D I E U. apply nodup_single.
  - rewrite candidates_filter. apply nodup_filter. exact D.
  - apply candidates_in. auto.
  - intros q Q. apply candidates_in in Q. apply U; tauto.
Qed.

(** Base names. *)
Definition no_slash (t : text) : Prop := ~ In 47 t.

Lemma slash_b : forall t, existsb (Nat.eqb 47) t = true <-> In 47 t.
Proof.
  intros t. rewrite existsb_exists. split.
  - intros (x & I & E). apply Nat.eqb_eq in E. subst. exact I.
  - intros I. exists 47. split; [exact I|reflexivity].
Qed.

Lemma split_no_slash : forall p, no_slash p -> split_at 47 p = [p].
Proof.
  induction p as [|c p IH]; intros N; simpl; auto.
  destruct (Nat.eqb_spec c 47) as [->|NE]; [exfalso; apply N; left; reflexivity|].
  rewrite IH; auto. intros I. apply N. right. exact I.
Qed.

Lemma base_name_plain : forall p, no_slash p -> base_name p = p.
Proof. intros p N. unfold base_name. rewrite split_no_slash by exact N. reflexivity. Qed.

Lemma split_not_nil : forall p, split_at 47 p <> [].
Proof. intros p. destruct (split_path p) as (w & ws & E & _). rewrite E. discriminate. Qed.

Lemma base_name_after : forall pre p, base_name (pre ++ 47 :: p) = base_name p.
Proof.
  intros pre p. unfold base_name. induction pre as [|c pre IH]; simpl.
  - destruct (split_at 47 p) as [|w ws] eqn:E; [destruct (split_not_nil p E)|]. reflexivity.
  - destruct (c =? 47).
    + destruct (split_at 47 (pre ++ 47 :: p)) as [|w ws] eqn:E;
        [destruct (split_not_nil _ E)|]. rewrite <- IH. reflexivity.
    + destruct (split_at 47 (pre ++ 47 :: p)) as [|w ws] eqn:E;
        [destruct (split_not_nil _ E)|]. rewrite <- IH. 
      destruct ws as [|v ws]; [|reflexivity].
      (* the first piece is not the last one *)
      exfalso. clear IH. revert w E. induction pre as [|x pre IH]; intros w E; simpl in E.
      * injection E as _ E. apply (split_not_nil p E).
      * destruct (x =? 47).
        -- injection E as _ E. apply (split_not_nil _ E).
        -- destruct (split_at 47 (pre ++ 47 :: p)) as [|w' ws'] eqn:E';
             [destruct (split_not_nil _ E')|].
           injection E as _ ->. apply (IH w' eq_refl).
Qed.

Lemma last_slash : forall p, In 47 p -> exists pre q, p = pre ++ 47 :: q /\ no_slash q.
Proof.
  induction p as [|c p IH]; intros I; [contradiction|].
  destruct (in_dec Nat.eq_dec 47 p) as [J|N].
  - destruct (IH J) as (pre & q & -> & N). exists (c :: pre), q. auto.
  - destruct I as [->|I]; [|contradiction]. exists [], p. auto.
Qed.

Lemma base_name_spec : forall p, no_slash (base_name p) /\ ends_in (base_name p) p.
Proof.
  intros p. destruct (in_dec Nat.eq_dec 47 p) as [I|N].
  - destruct (last_slash p I) as (pre & q & -> & N).
    rewrite base_name_after, base_name_plain by exact N.
    split; [exact N|right; exists pre; reflexivity].
  - rewrite base_name_plain by exact N. split; [exact N|left; reflexivity].
Qed.

Lemma ends_in_trans : forall a b c, ends_in a b -> ends_in b c -> ends_in a c.
Proof.
  intros a b c [->|(p & ->)] [->|(q & ->)].
  - left. reflexivity.
  - right. exists q. reflexivity.
  - right. exists p. reflexivity.
  - right. exists (q ++ 47 :: p). rewrite <- app_assoc. reflexivity.
Qed.

Lemma ends_in_base : forall c p, ends_in c p -> base_name p = base_name c.
Proof. intros c p [->|(pre & ->)]; [reflexivity|apply base_name_after]. Qed.

Lemma distinct_in : forall t ts, In t (distinct ts) <-> In t ts.
Proof.
  intros t ts. induction ts as [|x ts IH]; simpl; [tauto|].
  destruct (mem x ts) eqn:M.
  - rewrite IH. apply mem_iff in M. split; [auto|]. intros [<-|I]; auto.
  - simpl. rewrite IH. tauto.
Qed.

Lemma distinct_nodup : forall ts, NoDup (distinct ts).
Proof.
  induction ts as [|x ts IH]; simpl; [constructor|].
  destruct (mem x ts) eqn:M; auto. constructor; auto.
  rewrite distinct_in. apply mem_false. exact M.
Qed.

(** A document pins a base name to a path: one of its citations has a slash
    and this base name, and the path is the only one that ends with it. *)
Definition pins (files citations : list text) (name p : text) : Prop :=
  exists c, In c citations /\ In 47 c /\ base_name c = name /\
            In p files /\ ends_in c p /\ forall q, In q files -> ends_in c q -> q = p.

Lemma candidates_one : forall files c p,
  candidates files c = [p] ->
  In p files /\ ends_in c p /\ forall q, In q files -> ends_in c q -> q = p.
Proof.
  intros files c p E.
  assert (I : In p (candidates files c)) by (rewrite E; left; reflexivity).
  apply candidates_in in I. destruct I as [I1 I2]. split; [exact I1|]. split; [exact I2|].
  intros q Q EQ. assert (J : In q (candidates files c)) by (apply candidates_in; auto).
  rewrite E in J. destruct J as [<-|[]]. reflexivity.
Qed.

Lemma pinned_in : forall files citations name p,
  NoDup files -> (In p (pinned files citations name) <-> pins files citations name p).
Proof.
  intros files citations name p D. unfold pinned, pins. rewrite distinct_in, in_flat_map.
  split.
  - intros (c & C & I). exists c.
    destruct (existsb (Nat.eqb 47) c) eqn:S; [|contradiction].
    apply slash_b in S. simpl in I.
    destruct (candidates files c) as [|p0 [|? ?]] eqn:E; try contradiction.
    destruct (eqt (base_name c) name) eqn:B; [|contradiction].
    apply eqt_iff in B. destruct I as [<-|[]].
    apply candidates_one in E. tauto.
  - intros (c & C & S & B & I & E & U). exists c. split; [exact C|].
    apply slash_b in S. rewrite S. simpl.
    rewrite (candidates_unique files c p D I E U). rewrite B, eqt_refl. left. reflexivity.
Qed.

Lemma override_some : forall overrides name o,
  override_of overrides name = Some o -> In o overrides /\ base_name o = name.
Proof.
  intros overrides name o H. unfold override_of in H. apply find_some in H.
  destruct H as [I E]. apply in_rev in I. apply eqt_iff in E. auto.
Qed.

(** What a resolution may claim. *)
Definition resolved_rightly (files overrides citations : list text) (c p : text) (h : how)
    : Prop :=
  In p files /\
  match h with
  | by_exact => p = c
  | by_suffix => ends_in c p /\ forall q, In q files -> ends_in c q -> q = p
  | by_context =>
      no_slash c /\ pins files citations c p /\
      forall q, pins files citations c q -> q = p
  | by_map => In p overrides /\ base_name p = base_name c
  | _ => False
  end.

Lemma resolve_some : forall files overrides ef citations c p h,
  NoDup files ->
  resolve files overrides ef citations c = (Some p, h) ->
  resolved_rightly files overrides citations c p h.
Proof.
  intros files overrides ef citations c p h D H. unfold resolve in H.
  destruct (ef c && mem c files) eqn:E0.
  { injection H as <- <-. apply andb_true_iff in E0. destruct E0 as [_ M].
    apply mem_iff in M. split; [exact M|reflexivity]. }
  assert (OV : forall hits : list text,
    (match override_of overrides (base_name c) with
     | Some o => if mem o files then (Some o, by_map)
                 else (None, match hits with [] => by_external | _ => by_ambiguous end)
     | None => (None, match hits with [] => by_external | _ => by_ambiguous end)
     end) = (Some p, h) -> resolved_rightly files overrides citations c p h).
  { intros hits X. destruct (override_of overrides (base_name c)) as [o|] eqn:O;
      [|discriminate].
    destruct (mem o files) eqn:M; [|discriminate]. injection X as <- <-.
    apply override_some in O. apply mem_iff in M. split; [exact M|]. exact O. }
  assert (CT : forall hits : list text,
    (if existsb (Nat.eqb 47) c then
      (match override_of overrides (base_name c) with
       | Some o => if mem o files then (Some o, by_map)
                   else (None, match hits with [] => by_external | _ => by_ambiguous end)
       | None => (None, match hits with [] => by_external | _ => by_ambiguous end)
       end)
     else match pinned files citations c with
          | [p] => (Some p, by_context)
          | _ => (match override_of overrides (base_name c) with
                  | Some o => if mem o files then (Some o, by_map)
                              else (None, match hits with [] => by_external
                                                        | _ => by_ambiguous end)
                  | None => (None, match hits with [] => by_external | _ => by_ambiguous end)
                  end)
          end) = (Some p, h) -> resolved_rightly files overrides citations c p h).
  { intros hits X. destruct (existsb (Nat.eqb 47) c) eqn:S; [apply (OV hits X)|].
    destruct (pinned files citations c) as [|p0 [|p1 ps]] eqn:P.
    - apply (OV hits X).
    - injection X as <- <-.
      assert (I : In p0 (pinned files citations c)) by (rewrite P; left; reflexivity).
      apply (pinned_in files citations c p0 D) in I. split.
      + destruct I as (c' & _ & _ & _ & I & _). exact I.
      + split; [intros J; apply slash_b in J; rewrite S in J; discriminate|].
        split; [exact I|]. intros q Q. apply (pinned_in files citations c q D) in Q.
        rewrite P in Q. destruct Q as [<-|[]]. reflexivity.
    - apply (OV hits X). }
  destruct (candidates files c) as [|p0 [|p1 ps]] eqn:E.
  - apply (CT []). exact H.
  - injection H as <- <-. apply candidates_one in E. split; tauto.
  - apply (CT (p0 :: p1 :: ps)). exact H.
Qed.

Lemma resolve_none : forall files overrides ef citations c h,
  resolve files overrides ef citations c = (None, h) ->
  (h = by_external /\ (forall p, In p files -> ~ ends_in c p)) \/
  (h = by_ambiguous /\ exists p, In p files /\ ends_in c p).
Proof.
  intros files overrides ef citations c h H. unfold resolve in H.
  destruct (ef c && mem c files) eqn:E0; [discriminate|].
  assert (X : h = match candidates files c with [] => by_external | _ => by_ambiguous end).
  { destruct (candidates files c) as [|p0 [|p1 ps]] eqn:E; try discriminate;
    destruct (existsb (Nat.eqb 47) c);
    try (destruct (pinned files citations c) as [|q0 [|q1 qs]]; try discriminate);
    destruct (override_of overrides (base_name c)) as [o|];
    try (destruct (mem o files); try discriminate);
    injection H as <-; reflexivity. }
  destruct (candidates files c) as [|p0 ps] eqn:E.
  - left. split; [exact X|]. intros p I EI.
    assert (J : In p (candidates files c)) by (apply candidates_in; auto).
    rewrite E in J. contradiction.
  - right. split; [exact X|]. exists p0. apply candidates_in. rewrite E. left. reflexivity.
Qed.

(** The lines that a span cites: those between two of its numbers. *)
Definition cited (bounds : list nat) (n : nat) : Prop :=
  exists a b, In a bounds /\ In b bounds /\ a <= n <= b.

Lemma fold_min_spec : forall bs b,
  In (fold_left Nat.min bs b) (b :: bs) /\
  forall x, In x (b :: bs) -> fold_left Nat.min bs b <= x.
Proof.
  induction bs as [|c bs IH]; intros b; simpl.
  - split; [auto|]. intros x [->|[]]. lia.
  - destruct (IH (Nat.min b c)) as [I L]. split.
    + destruct I as [I|I]; [|auto]. rewrite <- I.
      destruct (Nat.min_spec b c) as [[_ ->]|[_ ->]]; auto.
    + intros x [->|[->|I']].
      * specialize (L (Nat.min x c) (or_introl eq_refl)). lia.
      * specialize (L (Nat.min b x) (or_introl eq_refl)). lia.
      * apply L. right. exact I'.
Qed.

Lemma fold_max_spec : forall bs b,
  In (fold_left Nat.max bs b) (b :: bs) /\
  forall x, In x (b :: bs) -> x <= fold_left Nat.max bs b.
Proof.
  induction bs as [|c bs IH]; intros b; simpl.
  - split; [auto|]. intros x [->|[]]. lia.
  - destruct (IH (Nat.max b c)) as [I L]. split.
    + destruct I as [I|I]; [|auto]. rewrite <- I.
      destruct (Nat.max_spec b c) as [[_ ->]|[_ ->]]; auto.
    + intros x [->|[->|I']].
      * specialize (L (Nat.max x c) (or_introl eq_refl)). lia.
      * specialize (L (Nat.max b x) (or_introl eq_refl)). lia.
      * apply L. right. exact I'.
Qed.

Lemma in_range_iff : forall total bounds,
  out_of_range total bounds = false <-> forall n, cited bounds n -> 1 <= n <= total.
Proof.
  intros total [|b bs]; simpl.
  - split; [|reflexivity]. intros _ n (x & y & [] & _).
  - destruct (fold_min_spec bs b) as [MI ML]. destruct (fold_max_spec bs b) as [XI XL].
    rewrite orb_false_iff, Nat.ltb_ge, Nat.ltb_ge. split.
    + intros [H1 H2] n (x & y & X & Y & L). specialize (ML x X). specialize (XL y Y). lia.
    + intros H. split.
      * apply (H (fold_left Nat.min bs b)). exists (fold_left Nat.min bs b), (fold_left Nat.min bs b).
        auto.
      * apply (H (fold_left Nat.max bs b)). exists (fold_left Nat.max bs b), (fold_left Nat.max bs b).
        auto.
Qed.

Lemma list_sum_zero : forall l, list_sum l = 0 <-> forall n, In n l -> n = 0.
Proof.
  induction l as [|x l IH]; cbn [list_sum fold_right].
  - split; [intros _ n []|reflexivity].
  - fold (list_sum l). split.
    + intros H n [->|I]; [lia|]. apply IH; [lia|exact I].
    + intros H. rewrite (H x (or_introl eq_refl)). simpl. apply IH. intros n I. apply H.
      right. exact I.
Qed.

Lemma filter_length_zero : forall (A : Type) (f : A -> bool) l,
  List.length (filter f l) = 0 <-> forall x, In x l -> f x = false.
Proof.
  intros A f l. induction l as [|x l IH]; simpl.
  - split; [intros _ x []|reflexivity].
  - destruct (f x) eqn:E; simpl.
    + split; [discriminate|]. intros H. rewrite (H x (or_introl eq_refl)) in E. discriminate.
    + rewrite IH. split; [intros H y [<-|I]; auto|]. intros H y I. apply H. auto.
Qed.

(** A document passes. *)
Definition doc_passes (files overrides : list text) (ef : text -> bool)
    (lines_of : text -> nat) (d : document) : Prop :=
  exists cites, d = Some cites /\
    forall c spans, In (c, spans) cites ->
      (forall p, In p files -> ~ ends_in c p) /\
        fst (resolve files overrides ef (map fst cites) c) = None \/
      exists p h,
        resolve files overrides ef (map fst cites) c = (Some p, h) /\
        forall s n, In s spans -> cited s n -> 1 <= n <= lines_of p.

Lemma doc_failures_zero : forall files overrides ef lines_of d,
  doc_failures files overrides ef lines_of d = 0 <->
  doc_passes files overrides ef lines_of d.
Proof.
  intros files overrides ef lines_of [cites|].
  2:{ split; [discriminate|]. intros (c & H & _). discriminate. }
  unfold doc_failures. rewrite list_sum_zero. split.
  - intros H. exists cites. split; [reflexivity|]. intros c spans I.
    specialize (H _ (in_map _ _ _ I)). simpl in H.
    destruct (resolve files overrides ef (map fst cites) c) as [[p|] h] eqn:E.
    + right. exists p, h. split; [reflexivity|]. intros s n S.
      rewrite filter_length_zero in H. specialize (H s S). apply in_range_iff. exact H.
    + left. split; [|reflexivity].
      apply resolve_none in E. destruct E as [[-> E]|[-> _]]; [exact E|discriminate].
  - intros (cs & E & H) n I. injection E as <-. apply in_map_iff in I.
    destruct I as ([c spans] & <- & I). simpl.
    destruct (H c spans I) as [[N R]|(p & h & R & S)].
    + destruct (resolve files overrides ef (map fst cites) c) as [o h] eqn:E. simpl in R.
      subst o. apply resolve_none in E. destruct E as [[-> _]|[_ (p & I1 & I2)]]; [reflexivity|].
      exfalso. apply (N p I1 I2).
    + rewrite R. apply filter_length_zero. intros s SI. apply in_range_iff.
      intros n C. apply (S s n SI C).
Qed.

(* ------------------------------------------------------------------ *)
(** * Tasks: the order of the ids *)

(** The order of a dictionary on lists of numbers. *)
Definition lex_before (a b : list nat) : Prop :=
  (exists y r, b = a ++ y :: r) \/
  (exists p x y r s, a = p ++ x :: r /\ b = p ++ y :: s /\ x < y).

(** By the numbers, then by the letters. *)
Definition key_before (a b : key) : Prop :=
  lex_before (fst a) (fst b) \/ fst a = fst b /\ lex_before (snd a) (snd b).

Lemma leb_list_iff : forall a b, leb_list a b = true <-> a = b \/ lex_before a b.
Proof.
  induction a as [|x a IH]; intros [|y b]; simpl.
  - split; auto.
  - split; [|reflexivity]. intros _. right. left. exists y, b. reflexivity.
  - split; [discriminate|]. intros [H|[(z & r & H)|(p & u & v & r & s & _ & H & _)]];
      try discriminate. destruct p; discriminate.
  - rewrite orb_true_iff, andb_true_iff, Nat.ltb_lt, Nat.eqb_eq, IH. split.
    + intros [L|[-> [->|[(z & r & ->)|(p & u & v & r & s & -> & -> & L)]]]].
      * right. right. exists [], x, y, a, b. auto.
      * left. reflexivity.
      * right. left. exists z, r. reflexivity.
      * right. right. exists (y :: p), u, v, r, s. auto.
    + intros [H|[(z & r & H)|(p & u & v & r & s & H1 & H2 & L)]].
      * injection H as -> ->. auto.
      * injection H as -> ->. right. split; [reflexivity|]. right. left. exists z, r. reflexivity.
      * destruct p as [|w p]; simpl in H1, H2.
        -- injection H1 as -> ->. injection H2 as -> ->. left. exact L.
        -- injection H1 as -> ->. injection H2 as -> ->. right. split; [reflexivity|].
           right. right. exists p, u, v, r, s. auto.
Qed.

Lemma leb_list_total : forall a b, leb_list a b = true \/ leb_list b a = true.
Proof.
  induction a as [|x a IH]; intros [|y b]; simpl; auto.
  destruct (lt_eq_lt_dec x y) as [[L|E]|L].
  - left. apply Nat.ltb_lt in L. rewrite L. reflexivity.
  - subst. rewrite Nat.eqb_refl, Nat.ltb_irrefl. simpl. apply IH.
  - right. apply Nat.ltb_lt in L. rewrite L. reflexivity.
Qed.

Lemma leb_list_trans : forall a b c,
  leb_list a b = true -> leb_list b c = true -> leb_list a c = true.
Proof.
  induction a as [|x a IH]; intros [|y b] [|z c]; simpl; auto; try discriminate.
  rewrite !orb_true_iff, !andb_true_iff, !Nat.ltb_lt, !Nat.eqb_eq.
  intros [L|[-> L]] [M|[-> M]].
  - left. lia.
  - left. exact L.
  - left. exact M.
  - right. split; [reflexivity|]. apply (IH b c L M).
Qed.

Lemma leb_list_antisym : forall a b,
  leb_list a b = true -> leb_list b a = true -> a = b.
Proof.
  induction a as [|x a IH]; intros [|y b]; simpl; auto; try discriminate.
  rewrite !orb_true_iff, !andb_true_iff, !Nat.ltb_lt, !Nat.eqb_eq.
  intros [L|[-> L]] [M|[E M]]; try lia. rewrite (IH b L M). reflexivity.
Qed.

Lemma leb_list_refl : forall a, leb_list a a = true.
Proof. intros a. apply leb_list_iff. left. reflexivity. Qed.

Lemma lex_irrefl : forall a, ~ lex_before a a.
Proof.
  intros a [(y & r & H)|(p & x & y & r & s & H1 & H2 & L)].
  - assert (List.length a = List.length (a ++ y :: r)) by (rewrite <- H; reflexivity).
    rewrite app_length in H0. simpl in H0. lia.
  - rewrite H1 in H2. apply app_inv_head in H2. injection H2 as -> _. lia.
Qed.

Lemma leb_list_false : forall a b, leb_list a b = false <-> lex_before b a.
Proof.
  intros a b. split; intros H.
  - destruct (leb_list_total b a) as [T|T]; [|rewrite H in T; discriminate].
    apply leb_list_iff in T. destruct T as [->|T]; [|exact T].
    rewrite leb_list_refl in H. discriminate.
  - destruct (leb_list a b) eqn:E; auto. exfalso.
    assert (T : leb_list b a = true) by (apply leb_list_iff; right; exact H).
    pose proof (leb_list_antisym a b E T) as X. subst. apply (lex_irrefl b H).
Qed.

Lemma leb_key_false : forall a b, leb_key a b = false <-> key_before b a.
Proof.
  intros [a1 a2] [b1 b2]. unfold leb_key, key_before. simpl.
  destruct (eqt a1 b1) eqn:E.
  - apply eqt_iff in E. subst b1. rewrite leb_list_false. split; [auto|].
    intros [H|[_ H]]; [destruct (lex_irrefl a1 H)|exact H].
  - rewrite leb_list_false. split; [auto|]. intros [H|[H _]]; [exact H|].
    subst. rewrite eqt_refl in E. discriminate.
Qed.

Lemma leb_key_true : forall a b, leb_key a b = true <-> ~ key_before b a.
Proof.
  intros a b. rewrite <- leb_key_false. destruct (leb_key a b); split; intros H; auto;
    discriminate.
Qed.

Lemma leb_key_total : forall a b, leb_key a b = true \/ leb_key b a = true.
Proof.
  intros [a1 a2] [b1 b2]. unfold leb_key. simpl. destruct (eqt a1 b1) eqn:E.
  - apply eqt_iff in E. subst. rewrite eqt_refl. apply leb_list_total.
  - replace (eqt b1 a1) with false; [apply leb_list_total|].
    symmetry. apply eqt_neq. intros ->. rewrite eqt_refl in E. discriminate.
Qed.

Lemma leb_key_trans : forall a b c,
  leb_key a b = true -> leb_key b c = true -> leb_key a c = true.
Proof.
  intros [a1 a2] [b1 b2] [c1 c2]. unfold leb_key. simpl.
  destruct (eqt a1 b1) eqn:E1; destruct (eqt b1 c1) eqn:E2; intros H1 H2.
  - apply eqt_iff in E1. apply eqt_iff in E2. subst. rewrite eqt_refl.
    apply (leb_list_trans _ b2); auto.
  - apply eqt_iff in E1. subst. rewrite E2. exact H2.
  - apply eqt_iff in E2. subst. rewrite E1. exact H1.
  - pose proof (leb_list_trans _ _ _ H1 H2) as T. destruct (eqt a1 c1) eqn:E3; auto.
    apply eqt_iff in E3. subst c1. pose proof (leb_list_antisym _ _ H1 H2) as X.
    subst. rewrite eqt_refl in E1. discriminate.
Qed.

(* ------------------------------------------------------------------ *)
(** * Stable sorting *)

Section Sorting.
  Context {A : Type} (le : A -> A -> bool).
  Hypothesis total : forall a b, le a b = true \/ le b a = true.
  Hypothesis trans : forall a b c, le a b = true -> le b c = true -> le a c = true.

  Fixpoint ordered (l : list A) : Prop :=
    match l with
    | [] => True
    | x :: r => (forall y, In y r -> le x y = true) /\ ordered r
    end.

  Lemma insert_in : forall x y l, In y (insert_by le x l) <-> y = x \/ In y l.
  Proof.
    intros x y l. induction l as [|z l IH]; simpl.
    - split; intros [H|H]; auto.
    - destruct (le x z); simpl; [|rewrite IH]; intuition.
  Qed.

  Lemma sort_in : forall y l, In y (sort_by le l) <-> In y l.
  Proof.
    intros y l. induction l as [|x l IH]; simpl; [tauto|]. rewrite insert_in, IH. intuition.
  Qed.

  Lemma insert_ordered : forall x l, ordered l -> ordered (insert_by le x l).
  Proof.
    intros x l. induction l as [|z l IH]; simpl; intros O.
    - split; [intros y []|exact I].
    - destruct O as [O1 O2]. destruct (le x z) eqn:E; simpl.
      + split; [|auto]. intros y [<-|J]; [exact E|]. apply (trans x z y E). apply O1. exact J.
      + split; [|apply IH; exact O2]. intros y J. apply insert_in in J.
        destruct J as [->|J]; [|apply O1; exact J].
        destruct (total x z) as [T|T]; [rewrite E in T; discriminate|exact T].
  Qed.

  Lemma sort_ordered : forall l, ordered (sort_by le l).
  Proof.
    induction l as [|x l IH]; simpl; [exact I|]. apply insert_ordered. exact IH.
  Qed.

  Lemma find_insert : forall (p : A -> bool) x l, ordered l ->
    find p (insert_by le x l) =
    if p x then match find p l with
                | None => Some x
                | Some y => if le x y then Some x else Some y
                end
    else find p l.
  Proof.
    intros p x l. induction l as [|z l IH]; intros O; simpl.
    - destruct (p x); reflexivity.
    - destruct O as [O1 O2]. destruct (le x z) eqn:E; simpl.
      + destruct (p x) eqn:PX; [|reflexivity].
        destruct (p z) eqn:PZ; [rewrite E; reflexivity|].
        destruct (find p l) as [y|] eqn:F; [|reflexivity].
        apply find_some in F. destruct F as [F _].
        rewrite (trans x z y E (O1 y F)). reflexivity.
      + destruct (p z) eqn:PZ; [|apply IH; exact O2].
        destruct (p x); [rewrite E|]; reflexivity.
  Qed.

  (** The first of the smallest elements of a list that satisfy [p]. *)
  Definition first_least (p : A -> bool) (l : list A) (x : A) : Prop :=
    exists l1 l2, l = l1 ++ x :: l2 /\ p x = true /\
      (forall y, In y l1 -> p y = true -> le y x = false) /\
      (forall y, In y l2 -> p y = true -> le x y = true).

  Lemma find_sort : forall p l x, find p (sort_by le l) = Some x -> first_least p l x.
  Proof.
    intros p l. induction l as [|a l IH]; intros x H; simpl in H; [discriminate|].
    rewrite (find_insert p a _ (sort_ordered l)) in H.
    destruct (p a) eqn:PA.
    - destruct (find p (sort_by le l)) as [y|] eqn:F.
      + destruct (IH y eq_refl) as (l1 & l2 & -> & PY & B1 & B2).
        destruct (le a y) eqn:E; injection H as <-.
        * exists [], (l1 ++ y :: l2). split; [reflexivity|]. split; [exact PA|].
          split; [intros z []|]. intros z I PZ. apply in_app_or in I.
          destruct I as [I|[<-|I]].
          -- destruct (total y z) as [T|T]; [apply (trans a y z E T)|].
             rewrite (B1 z I PZ) in T. discriminate.
          -- exact E.
          -- apply (trans a y z E). apply B2; auto.
        * exists (a :: l1), l2. split; [reflexivity|]. split; [exact PY|].
          split; [|exact B2]. intros z [<-|I] PZ; [exact E|]. apply B1; auto.
      + injection H as <-. exists [], l. split; [reflexivity|]. split; [exact PA|].
        split; [intros z []|]. intros z I PZ. exfalso.
        pose proof (find_none _ _ F z (proj2 (sort_in z l) I)) as X.
        rewrite PZ in X. discriminate.
    - destruct (IH x H) as (l1 & l2 & -> & PX & B1 & B2).
      exists (a :: l1), l2. split; [reflexivity|]. split; [exact PX|].
      split; [|exact B2]. intros z [<-|I] PZ; [rewrite PA in PZ; discriminate|].
      apply B1; auto.
  Qed.

  Lemma le_refl_total : forall a, le a a = true.
  Proof. intros a. destruct (total a a); auto. Qed.

  Lemma first_least_unique : forall p l x y, first_least p l x -> first_least p l y -> x = y.
  Proof.
    intros p l x y (l1 & l2 & E & PX & B1 & B2) (m1 & m2 & E' & PY & C1 & C2).
    rewrite E in E'. clear E. revert m1 E' C1. induction l1 as [|a l1 IH]; intros m1 E' C1.
    - destruct m1 as [|b m1]; simpl in E'; injection E' as -> E'; [reflexivity|].
      exfalso. assert (I : In y l2) by (rewrite E'; apply in_or_app; right; left; reflexivity).
      pose proof (B2 y I PY) as X. rewrite (C1 b (or_introl eq_refl) PX) in X. discriminate.
    - destruct m1 as [|b m1]; simpl in E'; injection E' as -> E'.
      + exfalso. assert (I : In x m2) by (rewrite <- E'; apply in_or_app; right; left; reflexivity).
        pose proof (C2 x I PX) as X. rewrite (B1 y (or_introl eq_refl) PY) in X. discriminate.
      + apply (IH (fun z I => B1 z (or_intror I)) m1 E').
        intros z I. apply C1. right. exact I.
  Qed.

  Lemma first_least_exists : forall p l x, In x l -> p x = true ->
    exists y, find p (sort_by le l) = Some y.
  Proof.
    intros p l x I P. destruct (find p (sort_by le l)) as [y|] eqn:F; [exists y; reflexivity|].
    exfalso. pose proof (find_none _ _ F x (proj2 (sort_in x l) I)) as X.
    rewrite P in X. discriminate.
  Qed.

  Lemma find_sort_iff : forall p l x, find p (sort_by le l) = Some x <-> first_least p l x.
  Proof.
    intros p l x. split; [apply find_sort|]. intros F.
    assert (F' := F). destruct F' as (l1 & l2 & E & P & _).
    destruct (first_least_exists p l x) as (y & Y).
    - rewrite E. apply in_or_app. right. left. reflexivity.
    - exact P.
    - rewrite Y. f_equal. apply (first_least_unique p l); [apply find_sort; exact Y|exact F].
  Qed.

  Lemma find_sort_none : forall p l,
    find p (sort_by le l) = None <-> forall x, In x l -> p x = false.
  Proof.
    intros p l. split.
    - intros F x I. apply (find_none _ _ F). apply sort_in. exact I.
    - intros H. destruct (find p (sort_by le l)) as [y|] eqn:F; auto.
      apply find_some in F. destruct F as [I P]. rewrite sort_in in I.
      rewrite (H y I) in P. discriminate.
  Qed.
End Sorting.

Definition task_le (a b : task) : bool := leb_key (t_key a) (t_key b).

Lemma task_le_total : forall a b, task_le a b = true \/ task_le b a = true.
Proof. intros a b. apply leb_key_total. Qed.

Lemma task_le_trans : forall a b c,
  task_le a b = true -> task_le b c = true -> task_le a c = true.
Proof. intros a b c. apply leb_key_trans. Qed.

(* ------------------------------------------------------------------ *)
(** * Tasks: statuses *)

(** The cell without marks of emphasis, code and deletion. *)
Definition unmarked (s : text) : text :=
  filter (fun c => negb ((c =? 96) || (c =? 42) || (c =? 126))) s.

Definition word_char (c : nat) : Prop := is_space c = false /\ c <> 40 /\ c <> 59.

(** The leading word of a cell: after white space, up to white space, a
    parenthesis or a semicolon. *)
Definition leading_word (s w : text) : Prop :=
  exists sp rest,
    unmarked s = sp ++ w ++ rest /\ forallb is_space sp = true /\ w <> [] /\
    (forall c, In c w -> word_char c) /\
    match rest with [] => True | c :: _ => ~ word_char c end.

Definition not_space (c : nat) : bool := negb (is_space c).
Definition not_note (c : nat) : bool := negb ((c =? 40) || (c =? 59)).

Lemma space_not_note : forall t, forallb is_space t = true -> forallb not_note t = true.
Proof.
  intros t F. apply forallb_forall. intros c I. rewrite forallb_forall in F.
  specialize (F c I). unfold not_note. apply negb_true_iff, orb_false_iff.
  split; apply Nat.eqb_neq; intros ->; discriminate.
Qed.

Lemma first_word_pad : forall a t, forallb is_space a = true ->
  first_word (a ++ t) = first_word t.
Proof.
  intros a t A. unfold first_word. f_equal. f_equal.
  destruct (drop_while_spec is_space t) as (b & E & B & S).
  rewrite E at 1. rewrite app_assoc. apply drop_while_unique; [|exact S].
  rewrite forallb_app, A, B. reflexivity.
Qed.

Lemma span_app_stop : forall f t b, stops f b -> fst (span f (t ++ b)) = fst (span f t).
Proof.
  intros f t b S. destruct (span f t) as [x y] eqn:E. apply span_spec in E.
  destruct E as (-> & F & T). rewrite <- app_assoc.
  destruct y as [|c y].
  - simpl. rewrite (span_unique f x b F S). reflexivity.
  - rewrite (span_unique f x ((c :: y) ++ b) F T). reflexivity.
Qed.

Lemma spaces_stop : forall b, forallb is_space b = true ->
  stops (fun c => negb (is_space c)) b.
Proof.
  intros [|c b] F; simpl; auto. simpl in F. apply andb_true_iff in F.
  rewrite (proj1 F). reflexivity.
Qed.

Lemma first_word_tail : forall t b, forallb is_space b = true ->
  first_word (t ++ b) = first_word t.
Proof.
  intros t b B. unfold first_word.
  destruct (drop_while_spec is_space t) as (a & E & A & S).
  destruct (drop_while is_space t) as [|c r] eqn:D.
  - rewrite E, app_nil_r. rewrite drop_while_all by (rewrite forallb_app, A, B; reflexivity).
    reflexivity.
  - rewrite E, <- app_assoc.
    rewrite (drop_while_unique is_space a ((c :: r) ++ b) A) by exact S.
    apply span_app_stop. apply spaces_stop. exact B.
Qed.

Lemma first_word_strip : forall t, first_word (strip t) = first_word t.
Proof.
  intros t. destruct (strip_spec t) as (a & b & E & A & B & _).
  rewrite E at 2. rewrite first_word_pad by exact A. rewrite first_word_tail by exact B.
  reflexivity.
Qed.

Lemma status_head_unmarked : forall s,
  status_head s = lower (first_word (fst (span not_note (unmarked s)))).
Proof.
  intros s. unfold status_head. f_equal. rewrite first_word_strip. unfold strip_md.
  fold (unmarked s). set (u := unmarked s). fold not_note.
  destruct (strip_spec u) as (a & b & E & A & B & _). rewrite E at 2.
  destruct (span not_note (strip u)) as [x y] eqn:ES.
  apply span_spec in ES. destruct ES as (EM & F & T). rewrite EM.
  destruct y as [|c y].
  - rewrite app_nil_r. rewrite <- (app_nil_r (a ++ x ++ b)).
    rewrite span_unique.
    + simpl. rewrite first_word_pad by exact A. rewrite first_word_tail by exact B. reflexivity.
    + rewrite !forallb_app, F, (space_not_note a A), (space_not_note b B). reflexivity.
    + exact I.
  - rewrite <- app_assoc. rewrite app_assoc. rewrite span_unique.
    + simpl. rewrite first_word_pad by exact A. reflexivity.
    + rewrite forallb_app, F, (space_not_note a A). reflexivity.
    + exact T.
Qed.

Lemma word_char_b : forall c, word_char c <-> not_space c && not_note c = true.
Proof.
  intros c. unfold word_char, not_space, not_note.
  rewrite andb_true_iff, !negb_true_iff, orb_false_iff, !Nat.eqb_neq. reflexivity.
Qed.

Lemma leading_word_head : forall s w, leading_word s w -> status_head s = lower w.
Proof.
  intros s w (sp & rest & E & SP & NE & W & R). rewrite status_head_unmarked. f_equal.
  rewrite E.
  assert (WN : forallb not_note w = true).
  { apply forallb_forall. intros c I. apply W, word_char_b, andb_true_iff in I. tauto. }
  assert (WS : forallb (fun c => negb (is_space c)) w = true).
  { apply forallb_forall. intros c I. apply W, word_char_b, andb_true_iff in I. tauto. }
  assert (X : exists x, fst (span not_note (sp ++ w ++ rest)) = sp ++ w ++ x /\
                        stops (fun c => negb (is_space c)) x).
  { destruct (span not_note rest) as [x y] eqn:ES. apply span_spec in ES.
    destruct ES as (ER & F & T). exists x. split.
    - rewrite ER, !app_assoc. rewrite span_unique; auto.
      rewrite !forallb_app, F, WN, (space_not_note sp SP). reflexivity.
    - destruct x as [|c x]; simpl; auto. rewrite ER in R. simpl in R.
      simpl in F. apply andb_true_iff in F. destruct F as [F _].
      destruct (negb (is_space c)) eqn:N; auto. exfalso. apply R. apply word_char_b.
      unfold not_space. rewrite N, F. reflexivity. }
  destruct X as (x & -> & SX). rewrite first_word_pad by exact SP. unfold first_word.
  rewrite drop_while_stops.
  - rewrite (span_unique _ w x WS SX). reflexivity.
  - destruct w as [|c w]; [contradiction|]. simpl.
    destruct (W c (or_introl eq_refl)) as [S _]. exact S.
Qed.

Lemma head_leading_word : forall s h, status_head s = h -> h <> [] ->
  exists w, leading_word s w /\ lower w = h.
Proof.
  intros s h H NE. destruct (drop_while_spec is_space (unmarked s)) as (sp & E & SP & ST).
  destruct (span (fun c => not_space c && not_note c) (drop_while is_space (unmarked s)))
    as [w rest] eqn:ES.
  apply span_spec in ES. destruct ES as (ER & F & T).
  destruct w as [|c w].
  - exfalso. apply NE. rewrite <- H. rewrite status_head_unmarked. rewrite E.
    rewrite ER in ST |- *. simpl in *.
    destruct rest as [|c rest].
    + rewrite app_nil_r. rewrite <- (app_nil_r sp), span_unique; simpl; auto;
        [|apply space_not_note; exact SP].
      rewrite <- (app_nil_r sp), first_word_pad by exact SP. reflexivity.
    + rewrite span_unique; [|apply space_not_note; exact SP|].
      * simpl. rewrite <- (app_nil_r sp), first_word_pad by exact SP. reflexivity.
      * simpl in ST, T |- *. unfold not_space in T. rewrite ST in T. simpl in T. exact T.
  - exists (c :: w).
    assert (L : leading_word s (c :: w)).
    { exists sp, rest. split; [rewrite <- ER; exact E|]. split; [exact SP|].
      split; [discriminate|]. split.
      - intros x I. apply word_char_b. rewrite forallb_forall in F. apply F. exact I.
      - destruct rest as [|x rest]; auto. simpl in T. intros X. apply word_char_b in X.
        rewrite T in X. discriminate. }
    split; [exact L|]. rewrite <- H. symmetry. apply leading_word_head. exact L.
Qed.

(** The leading word of the cell is one of the words, in any case. *)
Definition says (ws : list text) (s : text) : Prop :=
  exists w, leading_word s w /\ In (map lower_char w) ws.

Lemma mem_head_says : forall ws s, (forall w, In w ws -> w <> []) ->
  (mem (status_head s) ws = true <-> says ws s).
Proof.
  intros ws s N. rewrite mem_iff. split.
  - intros I. destruct (head_leading_word s _ eq_refl (N _ I)) as (w & L & E).
    exists w. split; [exact L|]. unfold lower in E. rewrite E. exact I.
  - intros (w & L & I). rewrite (leading_word_head s w L). exact I.
Qed.

Definition terminal_words : list text :=
  map codes ["complete"; "superseded"; "dropped"; "skipped"]%string.

Lemma done_says : forall s, status_is_done s = true <-> says terminal_words s.
Proof.
  intros s. unfold status_is_done. change done_tokens with terminal_words.
  apply (mem_head_says terminal_words s). intros w I. simpl in I.
  repeat (destruct I as [<-|I]; [discriminate|]). contradiction.
Qed.

Lemma blocked_says : forall s, status_is_blocked s = true <-> says [codes "blocked"] s.
Proof.
  intros s. unfold status_is_blocked, blocked_tokens.
  apply (mem_head_says [codes "blocked"] s). intros w [<-|[]]. discriminate.
Qed.

(* ------------------------------------------------------------------ *)
(** * Tasks: the table *)

(** A cell between two bars, and a row of cells. *)
Definition padded (c : text) : text := 32 :: c ++ [32].
Definition row_line (cells : list text) : text :=
  124 :: join_with 124 (map padded cells) ++ [124].

(** A cell without bar and without white space at its ends. *)
Definition plain_cell (c : text) : Prop := trimmed c /\ ~ In 124 c.

Lemma split_at_plain : forall s w, ~ In s w -> split_at s w = [w].
Proof.
  intros s w. induction w as [|c w IH]; intros N; simpl; auto.
  destruct (Nat.eqb_spec c s) as [->|NE]; [exfalso; apply N; left; reflexivity|].
  rewrite IH; auto. intros I. apply N. right. exact I.
Qed.

Lemma split_at_app : forall s w t, ~ In s w -> split_at s (w ++ s :: t) = w :: split_at s t.
Proof.
  intros s w t. induction w as [|c w IH]; intros N; simpl.
  - rewrite Nat.eqb_refl. reflexivity.
  - destruct (Nat.eqb_spec c s) as [->|NE]; [exfalso; apply N; left; reflexivity|].
    rewrite IH; auto. intros I. apply N. right. exact I.
Qed.

Lemma split_join : forall s ws, ws <> [] -> (forall w, In w ws -> ~ In s w) ->
  split_at s (join_with s ws) = ws.
Proof.
  intros s ws. induction ws as [|w ws IH]; intros NE N; [contradiction|].
  destruct ws as [|v ws].
  - apply split_at_plain. apply N. left. reflexivity.
  - change (join_with s (w :: v :: ws)) with (w ++ s :: join_with s (v :: ws)).
    rewrite split_at_app by (apply N; left; reflexivity).
    rewrite IH; [reflexivity|discriminate|]. intros x I. apply N. right. exact I.
Qed.

Lemma padded_strip : forall c, plain_cell c -> strip (padded c) = c.
Proof.
  intros c [T _]. unfold padded. change (32 :: c ++ [32]) with ([32] ++ c ++ [32]).
  apply strip_pad; auto.
Qed.

Lemma padded_bar : forall c, plain_cell c -> ~ In 124 (padded c).
Proof.
  intros c [_ N] [I|I]; [discriminate|]. apply in_app_or in I.
  destruct I as [I|[I|[]]]; [contradiction|discriminate].
Qed.

Lemma row_trimmed : forall cells, trimmed (row_line cells).
Proof.
  intros cells. split; [reflexivity|]. unfold row_line.
  cbn [rev]. rewrite rev_app_distr. reflexivity.
Qed.

Lemma split_row_line : forall cells, cells <> [] -> (forall c, In c cells -> plain_cell c) ->
  split_row (row_line cells) = cells.
Proof.
  intros cells NE P. unfold split_row. rewrite (strip_trimmed _ (row_trimmed cells)).
  unfold row_line at 1. cbv beta iota zeta.
  rewrite rev_app_distr. cbn [rev app]. rewrite rev_involutive.
  rewrite split_join.
  - clear NE. induction cells as [|c cells IH]; auto. cbn [map].
    rewrite padded_strip by (apply P; left; reflexivity). f_equal.
    apply IH. intros x I. apply P. right. exact I.
  - destruct cells; [contradiction|discriminate].
  - intros w I. apply in_map_iff in I. destruct I as (c & <- & I).
    apply padded_bar. apply P. exact I.
Qed.

(** The table that the project template prescribes. *)
Definition header_cells : list text :=
  map codes ["#"; "Task"; "Depends on"; "Status"; "Task Note"]%string.
Definition separator_cells : list text :=
  map codes ["---"; "---"; "---"; "---"; "---"]%string.

(** A row of the table with the task and what it depends on. *)
Definition task_row (td : task * text) : text :=
  row_line [t_id (fst td); t_title (fst td); snd td; t_status (fst td); t_note (fst td)].

(** A task that can be written in a row: the id has a digit, and the id and the
    title have no marks. *)
Definition has_digit (t : text) : Prop := exists c, In c t /\ is_digit c = true.

Definition writable (td : task * text) : Prop :=
  let (t, d) := td in
  plain_cell (t_id t) /\ plain_cell (t_title t) /\ plain_cell d /\
  plain_cell (t_status t) /\ plain_cell (t_note t) /\
  has_digit (t_id t) /\ unmarked (t_id t) = t_id t /\ unmarked (t_title t) = t_title t.

Definition tasks_document (before : list text) (rows : list (task * text))
    (following : list text) : list text :=
  before ++
  [codes "## Tasks"; []; row_line header_cells; row_line separator_cells] ++
  map task_row rows ++ [] :: following.

Definition colon_off (c : text) : text := match c with 58 :: r => r | _ => c end.

Lemma separator_chars : forall c, separator_cell c = true ->
  forall x, In x c -> x = 58 \/ x = 45.
Proof.
  intros c H x I.
  assert (X : exists p c1, c = p ++ c1 /\ (p = [] \/ p = [58]) /\
    c1 = colon_off c).
  { unfold colon_off. destruct c as [|a c]; [exists [], []; auto|].
    destruct (Nat.eq_dec a 58) as [->|N]; [exists [58], c; auto|].
    exists [], (a :: c). split; [reflexivity|]. split; [auto|].
    do 59 (destruct a as [|a]; [reflexivity || contradiction|]). reflexivity. }
  destruct X as (p & c1 & EC & P & E).
  change (match span (Nat.eqb 45) (colon_off c) with
          | ([], _) => false | (_, []) => true | (_, [58]) => true | _ => false
          end = true) in H.
  rewrite <- E in H. clear E. subst c.
  destruct (span (Nat.eqb 45) c1) as [h r] eqn:S. apply span_spec in S.
  destruct S as (-> & F & _). destruct h as [|h0 h]; [discriminate|].
  apply in_app_or in I. destruct I as [I|I].
  - destruct P as [->| ->]; [contradiction|]. destruct I as [<-|[]]. auto.
  - apply in_app_or in I. destruct I as [I|I].
    + right. rewrite forallb_forall in F. specialize (F x I). apply Nat.eqb_eq in F. auto.
    + destruct r as [|a [|b r]]; [contradiction| |].
      * destruct I as [<-|[]]. left.
        do 58 (destruct a as [|a]; [discriminate|]). destruct a; [reflexivity|discriminate].
      * exfalso. revert H. clear. do 58 (destruct a as [|a]; [discriminate|]).
        destruct a; discriminate.
Qed.

Lemma digit_not_separator : forall c cells, has_digit c -> is_separator (c :: cells) = false.
Proof.
  intros c cells (x & I & D). unfold is_separator. cbn [forallb].
  replace (eqt c [] || separator_cell c) with false; [reflexivity|].
  symmetry. apply orb_false_iff. split.
  - apply eqt_neq. intros ->. contradiction.
  - destruct (separator_cell c) eqn:S; auto. exfalso.
    destruct (separator_chars c S x I) as [->| ->]; discriminate.
Qed.

Lemma digit_key : forall t, has_digit t -> fst (parse_id_key t) <> [].
Proof.
  intros t (x & I & D). unfold parse_id_key.
  destruct (drop_while_spec (fun c => negb (is_digit c)) t) as (a & E & A & ST).
  destruct (drop_while (fun c => negb (is_digit c)) t) as [|c r].
  - exfalso. rewrite app_nil_r in E. subst a. rewrite forallb_forall in A.
    specialize (A x I). rewrite D in A. discriminate.
  - simpl in ST. apply negb_false_iff in ST.
    destruct (span is_digit (c :: r)) as [ds r'] eqn:S.
    cbn [span] in S. rewrite ST in S. destruct (span is_digit r) as [p q].
    injection S as <- <-. destruct (dotted (List.length q) q). discriminate.
Qed.

Lemma read_rows_written : forall rows following,
  (forall td, In td rows -> writable td) ->
  read_rows 0 3 (Some 1) (Some 4) (map task_row rows ++ [] :: following) = map fst rows.
Proof.
  intros rows following. induction rows as [|[t d] rows IH]; intros W; [reflexivity|].
  cbn [map app]. cbn [read_rows].
  set (cells := [t_id t; t_title t; d; t_status t; t_note t]).
  change (task_row (t, d)) with (row_line cells).
  rewrite (strip_trimmed _ (row_trimmed cells)).
  replace (starts (codes "|") (row_line cells)) with true by reflexivity. cbn [negb].
  destruct (W (t, d) (or_introl eq_refl)) as (P1 & P2 & P3 & P4 & P5 & D & U1 & U2).
  rewrite split_row_line.
  2: discriminate.
  2:{ intros c I. unfold cells in I. simpl in I.
      destruct I as [<-|[<-|[<-|[<-|[<-|[]]]]]]; assumption. }
  unfold cells. rewrite (digit_not_separator _ _ D). cbn [cell nth].
  assert (S1 : strip_md (t_id t) = t_id t).
  { unfold strip_md. fold (unmarked (t_id t)). rewrite U1. apply strip_trimmed. apply P1. }
  assert (S2 : strip_md (t_title t) = t_title t).
  { unfold strip_md. fold (unmarked (t_title t)). rewrite U2. apply strip_trimmed. apply P2. }
  rewrite S1, S2. rewrite IH by (intros td I; apply W; right; exact I).
  pose proof (digit_key _ D) as K.
  destruct (fst (parse_id_key (t_id t))); [contradiction|]. destruct t. reflexivity.
Qed.

Lemma table_written : forall before rows following,
  (forall l, In l before -> tasks_heading l = false) ->
  (forall td, In td rows -> writable td) ->
  find_tasks_table (tasks_document before rows following) = Some (map fst rows).
Proof.
  intros before rows following B W. unfold find_tasks_table, tasks_document.
  assert (H : forall t, after_heading (before ++ codes "## Tasks" :: t) = Some t).
  { intros t. induction before as [|l before IH]; [reflexivity|]. cbn [app after_heading].
    rewrite (B l (or_introl eq_refl)). apply IH. intros x I. apply B. right. exact I. }
  cbn [app]. rewrite H.
  set (tail := map task_row rows ++ [] :: following).
  replace (find_header true ([] :: row_line header_cells :: row_line separator_cells :: tail))
    with (Some (header_cells, row_line separator_cells :: tail)) by reflexivity.
  replace (find_col (columns header_cells) [codes "#"; codes "id"]) with (Some 0)
    by reflexivity.
  replace (find_col (columns header_cells) [codes "status"]) with (Some 3) by reflexivity.
  replace (find_col (columns header_cells) [codes "task"]) with (Some 1) by reflexivity.
  replace (find_col (columns header_cells) [codes "task note"; codes "note"]) with (Some 4)
    by reflexivity.
  f_equal. rewrite <- (read_rows_written rows following W). fold tail. reflexivity.
Qed.
