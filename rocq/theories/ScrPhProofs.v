(** Lemmas about the choice of the next phase in [scripts/agents]. *)

Require Import Arith Bool String Ascii Lia List.
Require Import Verif.ScrModel Verif.ScrProofs.
Import ListNotations.
Local Open Scope nat_scope.

(* ------------------------------------------------------------------ *)
(** * Ids of phases *)

(** A number without zeros in front. *)
Definition number_text (t : text) : Prop :=
  forallb is_digit t = true /\ exists c r, t = c :: r /\ (c = 48 -> r = []).

(** [3], [3.1] and [8A]. *)
Definition canonical (w : text) : Prop :=
  exists m, number_text m /\
    (w = m \/
     (exists n, number_text n /\ w = m ++ codes "." ++ n) \/
     (exists c, 65 <= c <= 90 /\ w = m ++ [c])).

Lemma digit_between : forall c, is_digit c = true <-> 48 <= c <= 57.
Proof. intros c. unfold is_digit. rewrite andb_true_iff, !Nat.leb_le. reflexivity. Qed.

Lemma upper_between : forall c, is_upper c = true <-> 65 <= c <= 90.
Proof. intros c. unfold is_upper. rewrite andb_true_iff, !Nat.leb_le. reflexivity. Qed.

Lemma lower_between : forall c, is_lower c = true <-> 97 <= c <= 122.
Proof. intros c. unfold is_lower. rewrite andb_true_iff, !Nat.leb_le. reflexivity. Qed.

Lemma space_iff : forall c, is_space c = true <->
  9 <= c <= 13 \/ 28 <= c <= 32 \/ c = 133 \/ c = 160.
Proof.
  intros c. unfold is_space. rewrite !orb_true_iff, !andb_true_iff, !Nat.leb_le, !Nat.eqb_eq.
  lia.
Qed.

Lemma space_false : forall c, ~ (9 <= c <= 13 \/ 28 <= c <= 32 \/ c = 133 \/ c = 160) ->
  is_space c = false.
Proof. intros c N. apply (bool_false_iff _ _ (space_iff c)). exact N. Qed.

Lemma digit_false : forall c, ~ 48 <= c <= 57 -> is_digit c = false.
Proof. intros c N. apply (bool_false_iff _ _ (digit_between c)). exact N. Qed.

Lemma upper_false : forall c, ~ 65 <= c <= 90 -> is_upper c = false.
Proof. intros c N. apply (bool_false_iff _ _ (upper_between c)). exact N. Qed.

Lemma lower_false : forall c, ~ 97 <= c <= 122 -> is_lower c = false.
Proof. intros c N. apply (bool_false_iff _ _ (lower_between c)). exact N. Qed.

Lemma digits_app : forall a b, digits_value (a ++ b) = fold_left (fun n d => n * 10 + (d - 48)) b (digits_value a).
Proof. intros a b. unfold digits_value. apply fold_left_app. Qed.

Lemma digits_snoc : forall a d, digits_value (a ++ [d]) = digits_value a * 10 + (d - 48).
Proof. intros a d. rewrite digits_app. reflexivity. Qed.

Lemma digits_zeros : forall z a, forallb (Nat.eqb 48) z = true ->
  digits_value (z ++ a) = digits_value a.
Proof.
  intros z. induction z as [|c z IH]; intros a F; [reflexivity|].
  cbn [forallb] in F. apply andb_true_iff in F. destruct F as [E F].
  apply Nat.eqb_eq in E. subst c. cbn [app]. rewrite <- (IH a F). reflexivity.
Qed.

Lemma int_text_spec : forall ds, ds <> [] -> forallb is_digit ds = true ->
  number_text (int_text ds) /\ digits_value (int_text ds) = digits_value ds.
Proof.
  intros ds NE F. unfold int_text.
  destruct (drop_while_spec (Nat.eqb 48) ds) as (z & E & Z & ST).
  destruct (drop_while (Nat.eqb 48) ds) as [|c r].
  - split.
    + split; [reflexivity|]. exists 48, []. auto.
    + rewrite app_nil_r in E. rewrite E. rewrite <- (app_nil_r z).
      rewrite digits_zeros by exact Z. reflexivity.
  - split.
    + split.
      * rewrite E, forallb_app in F. apply andb_true_iff in F. tauto.
      * exists c, r. split; [reflexivity|]. intros ->. discriminate.
    + rewrite E. rewrite digits_zeros by exact Z. reflexivity.
Qed.

Lemma int_text_fixed : forall ds, number_text ds -> int_text ds = ds.
Proof.
  intros ds (F & c & r & -> & Z). unfold int_text.
  destruct (Nat.eq_dec c 48) as [->|N].
  - rewrite (Z eq_refl). reflexivity.
  - rewrite drop_while_stops; [reflexivity|]. cbn [stops]. apply Nat.eqb_neq. auto.
Qed.

Lemma number_positive : forall t, forallb is_digit t = true ->
  forall c r, t = c :: r -> c <> 48 -> 0 < digits_value t.
Proof.
  intros t. induction t as [|d t IH] using rev_ind; intros F c r E N; [discriminate|].
  rewrite digits_snoc. rewrite forallb_app in F. apply andb_true_iff in F.
  destruct F as [F D]. cbn [forallb] in D. rewrite andb_true_r in D.
  apply digit_between in D.
  destruct t as [|x t].
  - injection E as <- <-. cbn. lia.
  - injection E as <- <-. pose proof (IH F x t eq_refl N). lia.
Qed.

Lemma leading_injective : forall a b,
  forallb is_digit a = true -> forallb is_digit b = true ->
  (forall c r, a = c :: r -> c <> 48) -> (forall c r, b = c :: r -> c <> 48) ->
  digits_value a = digits_value b -> a = b.
Proof.
  intros a. induction a as [|d a IH] using rev_ind; intros b FA FB LA LB E.
  - destruct b as [|c b]; [reflexivity|]. exfalso.
    pose proof (number_positive (c :: b) FB c b eq_refl (LB c b eq_refl)).
    rewrite <- E in H. cbn in H. lia.
  - destruct (list_eq_dec Nat.eq_dec b []) as [->|NB].
    + exfalso. destruct (a ++ [d]) as [|c r] eqn:EA; [destruct a; discriminate|].
      pose proof (number_positive (c :: r) FA c r eq_refl (LA c r eq_refl)).
      rewrite E in H. cbn in H. lia.
    + destruct (exists_last NB) as (b' & e & ->).
      rewrite !digits_snoc in E.
      rewrite forallb_app in FA, FB. apply andb_true_iff in FA. apply andb_true_iff in FB.
      destruct FA as [FA DA]. destruct FB as [FB DB]. cbn [forallb] in DA, DB.
      rewrite andb_true_r in DA, DB. apply digit_between in DA. apply digit_between in DB.
      assert (d = e) by lia. subst e.
      rewrite (IH b'); auto; try lia.
      * intros c r ->. apply (LA c (r ++ [d])). reflexivity.
      * intros c r ->. apply (LB c (r ++ [d])). reflexivity.
Qed.

Lemma number_injective : forall a b, number_text a -> number_text b ->
  digits_value a = digits_value b -> a = b.
Proof.
  intros a b (FA & c & r & -> & ZA) (FB & d & s & -> & ZB) E.
  destruct (Nat.eq_dec c 48) as [->|NC]; destruct (Nat.eq_dec d 48) as [->|ND].
  - rewrite ZA, ZB; auto.
  - exfalso. rewrite ZA in E by reflexivity.
    pose proof (number_positive (d :: s) FB d s eq_refl ND). rewrite <- E in H. cbn in H. lia.
  - exfalso. rewrite ZB in E by reflexivity.
    pose proof (number_positive (c :: r) FA c r eq_refl NC). rewrite E in H. cbn in H. lia.
  - apply leading_injective; auto.
    + intros x y H. injection H as <- <-. exact NC.
    + intros x y H. injection H as <- <-. exact ND.
Qed.

(** The end of [normalize_phase_id], from the token without prefix. *)
Definition read_token (token : text) : option text :=
  match span is_digit token with
  | ([], _) => None
  | (ds, []) => Some (int_text ds)
  | (ds, [c]) => if is_lower c then Some (int_text ds ++ [upper_char c]) else None
  | (ds, 46 :: r) =>
      match span is_digit r with
      | ([], _) => None
      | (ms, []) => Some (int_text ds ++ 46 :: int_text ms)
      | _ => None
      end
  | _ => None
  end.

(** What follows the first digits of a token. *)
Definition read_rest (ds r : text) : option text :=
  match r with
  | [] => Some (int_text ds)
  | [c] => if is_lower c then Some (int_text ds ++ [upper_char c]) else None
  | c :: r' =>
      if c =? 46 then
        match span is_digit r' with
        | ([], _) => None
        | (ms, []) => Some (int_text ds ++ 46 :: int_text ms)
        | _ => None
        end
      else None
  end.

Lemma read_token_rest : forall t d ds r, span is_digit t = (d :: ds, r) ->
  read_token t = read_rest (d :: ds) r.
Proof.
  intros t d ds r E. unfold read_token. rewrite E. destruct r as [|c r]; [reflexivity|].
  do 47 (destruct c as [|c]; [destruct r; reflexivity|]). destruct r; reflexivity.
Qed.

Lemma read_token_none : forall t r, span is_digit t = ([], r) -> read_token t = None.
Proof. intros t r E. unfold read_token. rewrite E. reflexivity. Qed.

Lemma upper_of_lower : forall c, is_lower c = true -> 65 <= upper_char c <= 90.
Proof.
  intros c L. unfold upper_char. rewrite L. apply lower_between in L. lia.
Qed.

Lemma read_token_canonical : forall t w, read_token t = Some w -> canonical w.
Proof.
  intros t w H. destruct (span is_digit t) as [ds r] eqn:E.
  destruct ds as [|d0 ds0].
  { rewrite (read_token_none t r E) in H. discriminate. }
  rewrite (read_token_rest _ _ _ _ E) in H.
  apply span_spec in E. destruct E as (_ & F & _). set (ds := d0 :: ds0) in *.
  destruct (int_text_spec ds ltac:(discriminate) F) as [N _].
  destruct r as [|c r].
  - injection H as <-. exists (int_text ds). split; [exact N|]. left. reflexivity.
  - destruct r as [|c2 r]; cbn [read_rest] in H.
    + destruct (is_lower c) eqn:L; [|discriminate]. injection H as <-.
      exists (int_text ds). split; [exact N|]. right. right.
      exists (upper_char c). split; [apply upper_of_lower; exact L|]. reflexivity.
    + destruct (c =? 46); [|discriminate].
      destruct (span is_digit (c2 :: r)) as [ms r2] eqn:E2. apply span_spec in E2.
      destruct E2 as (_ & F2 & _). destruct ms as [|m0 ms0]; [discriminate|].
      destruct r2; [|discriminate]. injection H as <-.
      destruct (int_text_spec (m0 :: ms0) ltac:(discriminate) F2) as [N2 _].
      exists (int_text ds). split; [exact N|]. right. left.
      exists (int_text (m0 :: ms0)). split; [exact N2|]. reflexivity.
Qed.

Definition phase_token (value : text) : text :=
  let token := lower (strip value) in
  let token :=
    match after (codes "phase") token with
    | Some r => drop_while (fun c => is_space c || (c =? 95) || (c =? 45)) r
    | None => token
    end in
  filter (fun c => negb (c =? 32)) (replace_char 95 46 token).

Lemma normalize_token : forall v, normalize_phase_id v = read_token (phase_token v).
Proof. intros v. reflexivity. Qed.

Lemma normalize_canonical : forall v w, normalize_phase_id v = Some w -> canonical w.
Proof. intros v w H. rewrite normalize_token in H. apply (read_token_canonical _ _ H). Qed.

(** A text of digits, dots and letters that starts with a digit is its own
    token, in lower case. *)
Definition id_char (c : nat) : Prop := 48 <= c <= 57 \/ c = 46 \/ 65 <= c <= 90 \/ 97 <= c <= 122.

Lemma lower_id_char : forall c, id_char c ->
  id_char (lower_char c) /\ lower_char c <> 95 /\ lower_char c <> 32.
Proof.
  intros c H. unfold id_char in *. unfold lower_char. destruct (is_upper c) eqn:U.
  - apply upper_between in U. lia.
  - apply (bool_false_iff _ _ (upper_between c)) in U. lia.
Qed.

Lemma id_char_trimmed : forall t, (forall c, In c t -> id_char c) -> trimmed t.
Proof.
  intros t H.
  assert (S : forall c, In c t -> is_space c = false).
  { intros c I. apply space_false. specialize (H c I). unfold id_char in H. lia. }
  split.
  - destruct t as [|c t]; simpl; auto. apply S. left. reflexivity.
  - destruct (rev t) as [|c r] eqn:E; simpl; auto. apply S. apply in_rev. rewrite E.
    left. reflexivity.
Qed.

Lemma filter_all : forall (A : Type) (f : A -> bool) l,
  (forall x, In x l -> f x = true) -> filter f l = l.
Proof.
  intros A f l. induction l as [|x l IH]; intros H; [reflexivity|]. cbn [filter].
  rewrite (H x (or_introl eq_refl)). f_equal. apply IH. intros y I. apply H. right. exact I.
Qed.

Lemma clean_token : forall t, (forall c, In c t -> id_char c) ->
  filter (fun c => negb (c =? 32)) (replace_char 95 46 (lower t)) = lower t.
Proof.
  intros t H.
  assert (R : replace_char 95 46 (lower t) = lower t).
  { unfold replace_char, lower. rewrite map_map. apply map_ext_in. intros c I.
    destruct (lower_id_char c (H c I)) as (_ & N & _). apply Nat.eqb_neq in N. rewrite N.
    reflexivity. }
  rewrite R. apply filter_all. intros x I. apply in_map_iff in I. destruct I as (c & <- & I).
  destruct (lower_id_char c (H c I)) as (_ & _ & N). apply negb_true_iff, Nat.eqb_neq. exact N.
Qed.

Lemma digit_lower : forall c, is_digit c = true -> lower_char c = c.
Proof.
  intros c D. apply digit_between in D. unfold lower_char. rewrite upper_false by lia.
  reflexivity.
Qed.

Lemma digits_lower : forall t, forallb is_digit t = true -> lower t = t.
Proof.
  intros t F. unfold lower. rewrite <- (map_id t) at 2. apply map_ext_in. intros c I.
  apply digit_lower. rewrite forallb_forall in F. apply F. exact I.
Qed.

Lemma digits_id_char : forall t, forallb is_digit t = true -> forall c, In c t -> id_char c.
Proof.
  intros t F c I. rewrite forallb_forall in F. apply F, digit_between in I.
  unfold id_char. lia.
Qed.

(** The words that may stand before an id. *)
Definition phase_prefix (p : text) : Prop :=
  p = [] \/ p = codes "phase-" \/ p = codes "phase " \/ p = codes "Phase " \/
  p = codes "phase_" \/ p = codes "phase".

Lemma phase_token_digit : forall p t d r,
  phase_prefix p -> t = d :: r -> is_digit d = true -> (forall c, In c t -> id_char c) ->
  phase_token (p ++ t) = lower t.
Proof.
  intros p t d r P E D H. unfold phase_token.
  assert (ST : strip (p ++ t) = p ++ t).
  { apply strip_trimmed. destruct (id_char_trimmed t H) as [T1 T2]. split.
    - destruct P as [->|[->|[->|[->|[->| ->]]]]]; [exact T1| | | | |]; reflexivity.
    - rewrite rev_app_distr. destruct (rev t) as [|c s] eqn:ER.
      + exfalso. apply (f_equal (@rev nat)) in ER. rewrite rev_involutive in ER.
        rewrite E in ER. discriminate.
      + exact T2. }
  rewrite ST. cbv zeta.
  replace (lower (p ++ t)) with (map lower_char p ++ lower t)
    by (unfold lower; rewrite map_app; reflexivity).
  assert (LT : lower t = d :: lower r) by (rewrite E; cbn; rewrite digit_lower by exact D; reflexivity).
  assert (STOP : stops (fun c => is_space c || (c =? 95) || (c =? 45)) (lower t)).
  { rewrite LT. cbn [stops]. apply digit_between in D.
    rewrite space_false by lia.
    replace (d =? 95) with false by (symmetry; apply Nat.eqb_neq; lia).
    replace (d =? 45) with false by (symmetry; apply Nat.eqb_neq; lia). reflexivity. }
  assert (NOT : forall k, after (codes "phase" ++ k) (lower t) = None).
  { intros k. rewrite LT. apply digit_between in D. cbn [codes].
    change (codes "phase" ++ k) with (112 :: codes "hase" ++ k). cbn [after].
    replace (112 =? d) with false by (symmetry; apply Nat.eqb_neq; lia). reflexivity. }
  specialize (NOT []). rewrite app_nil_r in NOT.
  assert (X : match after (codes "phase") (map lower_char p ++ lower t) with
              | Some r0 => drop_while (fun c => is_space c || (c =? 95) || (c =? 45)) r0
              | None => map lower_char p ++ lower t
              end = lower t).
  { destruct P as [->|[->|[->|[->|[->| ->]]]]].
    - cbn [map app]. rewrite NOT. reflexivity.
    - change (map lower_char (codes "phase-") ++ lower t) with (codes "phase" ++ [45] ++ lower t).
      rewrite (proj2 (after_iff _ _ _) eq_refl). apply drop_while_unique; auto.
    - change (map lower_char (codes "phase ") ++ lower t) with (codes "phase" ++ [32] ++ lower t).
      rewrite (proj2 (after_iff _ _ _) eq_refl). apply drop_while_unique; auto.
    - change (map lower_char (codes "Phase ") ++ lower t) with (codes "phase" ++ [32] ++ lower t).
      rewrite (proj2 (after_iff _ _ _) eq_refl). apply drop_while_unique; auto.
    - change (map lower_char (codes "phase_") ++ lower t) with (codes "phase" ++ [95] ++ lower t).
      rewrite (proj2 (after_iff _ _ _) eq_refl). apply drop_while_unique; auto.
    - change (map lower_char (codes "phase") ++ lower t) with (codes "phase" ++ lower t).
      rewrite (proj2 (after_iff _ _ _) eq_refl). apply drop_while_stops; auto. }
  rewrite X. apply clean_token. exact H.
Qed.

Lemma digits_head : forall ds, ds <> [] -> forallb is_digit ds = true ->
  exists d r, ds = d :: r /\ is_digit d = true.
Proof.
  intros [|d r] NE F; [contradiction|]. exists d, r. split; [reflexivity|].
  cbn [forallb] in F. apply andb_true_iff in F. tauto.
Qed.

Lemma normalize_major : forall p ds,
  phase_prefix p -> ds <> [] -> forallb is_digit ds = true ->
  normalize_phase_id (p ++ ds) = Some (int_text ds).
Proof.
  intros p ds P NE F. destruct (digits_head ds NE F) as (d & r & E & D).
  rewrite normalize_token, (phase_token_digit p ds d r P E D (digits_id_char ds F)).
  rewrite (digits_lower ds F).
  pose proof (span_unique is_digit ds [] F I) as X. rewrite app_nil_r in X. rewrite E in X at 2.
  rewrite (read_token_rest _ _ _ _ X). rewrite <- E. reflexivity.
Qed.

Lemma normalize_minor : forall p ds ms,
  phase_prefix p -> ds <> [] -> forallb is_digit ds = true ->
  ms <> [] -> forallb is_digit ms = true ->
  normalize_phase_id (p ++ ds ++ 46 :: ms) = Some (int_text ds ++ 46 :: int_text ms).
Proof.
  intros p ds ms P NE F NE2 F2. destruct (digits_head ds NE F) as (d & r & E & D).
  rewrite normalize_token.
  rewrite (phase_token_digit p (ds ++ 46 :: ms) d (r ++ 46 :: ms) P).
  - unfold lower. rewrite map_app. cbn [map]. fold (lower ds) (lower ms).
    rewrite (digits_lower ds F), (digits_lower ms F2).
    change (lower_char 46) with 46.
    pose proof (span_unique is_digit ds (46 :: ms) F eq_refl) as X. rewrite E in X at 2.
    rewrite (read_token_rest _ _ _ _ X). rewrite <- E.
    destruct ms as [|m0 ms0]; [contradiction|]. cbn [read_rest].
    pose proof (span_unique is_digit (m0 :: ms0) [] F2 I) as X2. rewrite app_nil_r in X2.
    rewrite X2. reflexivity.
  - rewrite E. reflexivity.
  - exact D.
  - intros c I. apply in_app_or in I. destruct I as [I|[<-|I]].
    + apply (digits_id_char ds F c I).
    + unfold id_char. lia.
    + apply (digits_id_char ms F2 c I).
Qed.

Lemma normalize_letter : forall p ds c,
  phase_prefix p -> ds <> [] -> forallb is_digit ds = true -> is_letter c = true ->
  normalize_phase_id (p ++ ds ++ [c]) = Some (int_text ds ++ [upper_char c]).
Proof.
  intros p ds c P NE F L. destruct (digits_head ds NE F) as (d & r & E & D).
  apply letter_between in L.
  rewrite normalize_token.
  rewrite (phase_token_digit p (ds ++ [c]) d (r ++ [c]) P).
  - unfold lower. rewrite map_app. cbn [map]. fold (lower ds).
    rewrite (digits_lower ds F).
    assert (LC : is_lower (lower_char c) = true /\ upper_char (lower_char c) = upper_char c /\
                 is_digit (lower_char c) = false).
    { unfold lower_char. destruct (is_upper c) eqn:U.
      - apply upper_between in U. split; [apply lower_between; lia|]. split.
        + unfold upper_char. replace (is_lower (c + 32)) with true
            by (symmetry; apply lower_between; lia).
          rewrite lower_false by lia. lia.
        + apply digit_false. lia.
      - apply (bool_false_iff _ _ (upper_between c)) in U.
        split; [apply lower_between; lia|]. split; [reflexivity|]. apply digit_false. lia. }
    destruct LC as (L1 & L2 & L3).
    pose proof (span_unique is_digit ds [lower_char c] F L3) as X. rewrite E in X at 2.
    rewrite (read_token_rest _ _ _ _ X). rewrite <- E. cbn [read_rest].
    rewrite L1, L2. reflexivity.
  - rewrite E. reflexivity.
  - exact D.
  - intros x I. apply in_app_or in I. destruct I as [I|[<-|[]]].
    + apply (digits_id_char ds F x I).
    + unfold id_char. lia.
Qed.

Lemma number_digits : forall m, number_text m -> m <> [] /\ forallb is_digit m = true.
Proof. intros m (F & c & r & -> & _). split; [discriminate|exact F]. Qed.

Lemma normalize_fixed : forall w, canonical w -> normalize_phase_id w = Some w.
Proof.
  intros w (m & N & H). destruct (number_digits m N) as [NE F].
  destruct H as [->|[(n & N2 & ->)|(c & C & ->)]].
  - rewrite (normalize_major [] m (or_introl eq_refl) NE F : normalize_phase_id m = _).
    rewrite int_text_fixed by exact N. reflexivity.
  - destruct (number_digits n N2) as [NE2 F2].
    pose proof (normalize_minor [] m n (or_introl eq_refl) NE F NE2 F2) as X.
    cbn [app] in X. change (codes "." ++ n) with (46 :: n). rewrite X.
    rewrite !int_text_fixed by assumption. reflexivity.
  - assert (L : is_letter c = true).
    { unfold is_letter. rewrite (proj2 (upper_between c) C). reflexivity. }
    pose proof (normalize_letter [] m c (or_introl eq_refl) NE F L) as X.
    cbn [app] in X. rewrite X, int_text_fixed by exact N. f_equal. f_equal. f_equal.
    unfold upper_char. rewrite lower_false by lia. reflexivity.
Qed.

(** The sort keys of the three kinds of ids. *)
Lemma key_major : forall m, number_text m -> phase_sort_key m = (digits_value m, 0, 0, []).
Proof.
  intros m N. destruct (number_digits m N) as [NE F]. unfold phase_sort_key.
  destruct (rev m) as [|c r] eqn:E.
  - exfalso. apply NE. rewrite <- (rev_involutive m), E. reflexivity.
  - assert (D : is_digit c = true).
    { rewrite forallb_forall in F. apply F. apply in_rev. rewrite E. left. reflexivity. }
    apply digit_between in D. unfold is_letter. rewrite upper_false, lower_false by lia.
    cbn [orb]. rewrite split_at_plain; [reflexivity|].
    intros I. rewrite forallb_forall in F. apply F, digit_between in I. lia.
Qed.

Lemma key_minor : forall m n, number_text m -> number_text n ->
  phase_sort_key (m ++ codes "." ++ n) = (digits_value m, 1, digits_value n, []).
Proof.
  intros m n N N2. destruct (number_digits m N) as [NE F].
  destruct (number_digits n N2) as [NE2 F2]. unfold phase_sort_key.
  change (codes "." ++ n) with (46 :: n). rewrite rev_app_distr. cbn [rev].
  destruct (rev n) as [|c r] eqn:E.
  - exfalso. apply NE2. rewrite <- (rev_involutive n), E. reflexivity.
  - cbn [app]. assert (D : is_digit c = true).
    { rewrite forallb_forall in F2. apply F2. apply in_rev. rewrite E. left. reflexivity. }
    apply digit_between in D. unfold is_letter. rewrite upper_false, lower_false by lia.
    cbn [orb]. rewrite split_at_app.
    + rewrite split_at_plain; [reflexivity|].
      intros I. rewrite forallb_forall in F2. apply F2, digit_between in I. lia.
    + intros I. rewrite forallb_forall in F. apply F, digit_between in I. lia.
Qed.

Lemma key_letter : forall m c, 65 <= c <= 90 ->
  phase_sort_key (m ++ [c]) = (digits_value m, 2, 0, [c]).
Proof.
  intros m c C. unfold phase_sort_key. rewrite rev_app_distr. cbn [rev app].
  unfold is_letter. rewrite (proj2 (upper_between c) C). cbn [orb].
  rewrite rev_involutive. reflexivity.
Qed.

Lemma sort_key_injective : forall a b, canonical a -> canonical b ->
  phase_sort_key a = phase_sort_key b -> a = b.
Proof.
  intros a b (m & N & A) (n & M & B) E.
  destruct A as [->|[(x & X & ->)|(c & C & ->)]];
  destruct B as [->|[(y & Y & ->)|(d & D & ->)]];
  rewrite ?key_minor, ?key_letter, ?key_major in E by assumption; try discriminate E.
  - injection E as E. apply number_injective; auto.
  - injection E as E1 E2. rewrite (number_injective m n N M E1).
    rewrite (number_injective x y X Y E2). reflexivity.
  - injection E as E1 ->. rewrite (number_injective m n N M E1). reflexivity.
Qed.

Lemma leb_phase_total : forall a b, leb_phase a b = true \/ leb_phase b a = true.
Proof.
  intros a b. unfold leb_phase.
  destruct (phase_sort_key a) as [[[? ?] ?] ?]. destruct (phase_sort_key b) as [[[? ?] ?] ?].
  apply leb_list_total.
Qed.

Lemma leb_phase_trans : forall a b c,
  leb_phase a b = true -> leb_phase b c = true -> leb_phase a c = true.
Proof.
  intros a b c. unfold leb_phase.
  destruct (phase_sort_key a) as [[[? ?] ?] ?]. destruct (phase_sort_key b) as [[[? ?] ?] ?].
  destruct (phase_sort_key c) as [[[? ?] ?] ?]. apply leb_list_trans.
Qed.

Lemma leb_phase_antisym : forall a b, canonical a -> canonical b ->
  leb_phase a b = true -> leb_phase b a = true -> a = b.
Proof.
  intros a b A B. unfold leb_phase. intros H1 H2. apply sort_key_injective; auto.
  destruct (phase_sort_key a) as [[[m1 k1] n1] s1].
  destruct (phase_sort_key b) as [[[m2 k2] n2] s2].
  pose proof (leb_list_antisym _ _ H1 H2) as E. cbn [app] in E.
  injection E as -> -> -> ->. reflexivity.
Qed.

Fixpoint glue (c : nat) (ws : list text) : text :=
  match ws with
  | [] => []
  | w :: ws' => match ws' with [] => w | _ => w ++ c :: glue c ws' end
  end.

Lemma split_join : forall c t, glue c (split_at c t) = t.
Proof.
  intros c t. induction t as [|d t IH]; [reflexivity|]. cbn [split_at].
  destruct (d =? c) eqn:E.
  - apply Nat.eqb_eq in E. subst d. destruct (split_at c t) as [|w ws] eqn:S1.
    + exfalso. destruct t as [|x t]; cbn [split_at] in S1; [discriminate|].
      destruct (x =? c); [discriminate|]. destruct (split_at c t); discriminate.
    + change (glue c ([] :: w :: ws)) with (c :: glue c (w :: ws)). rewrite IH. reflexivity.
  - destruct (split_at c t) as [|w ws] eqn:S1.
    + exfalso. destruct t as [|x t]; cbn [split_at] in S1; [discriminate|].
      destruct (x =? c); [discriminate|]. destruct (split_at c t); discriminate.
    + rewrite <- IH. cbn [glue]. destruct ws; reflexivity.
Qed.

(** The id of the name of the file and the normalised id agree. *)
Lemma prefix_normalized : forall p i,
  phase_id_from_prefix p = Some i -> normalize_phase_id p = Some i.
Proof.
  intros p i H. unfold phase_id_from_prefix in H.
  assert (PT : forall q d r, lower p = q -> q = d :: r -> is_digit d = true ->
               (forall c, In c q -> id_char c \/ c = 95) ->
               phase_token p = replace_char 95 46 q).
  { intros q d r EQ E D C.
    assert (IC : forall c, In c p -> is_space c = false).
    { intros c I. apply space_false. assert (J : In (lower_char c) q).
      { rewrite <- EQ. apply in_map. exact I. }
      apply C in J. unfold lower_char, id_char in J. destruct (is_upper c) eqn:U.
      - apply upper_between in U. lia.
      - lia. }
    unfold phase_token. rewrite strip_trimmed.
    2:{ split.
        - destruct p as [|c p]; simpl; auto. apply IC. left. reflexivity.
        - destruct (rev p) as [|c s] eqn:R; simpl; auto. apply IC. apply in_rev. rewrite R.
          left. reflexivity. }
    rewrite EQ. cbv zeta.
    replace (after (codes "phase") q) with (@None text).
    - apply filter_all. intros x I. apply negb_true_iff, Nat.eqb_neq.
      apply in_map_iff in I. destruct I as (c & <- & I). apply C in I. unfold id_char in I.
      destruct (c =? 95); lia.
    - rewrite E. apply digit_between in D.
      change (codes "phase") with (112 :: codes "hase"). cbn [after].
      replace (112 =? d) with false by (symmetry; apply Nat.eqb_neq; lia). reflexivity. }
  assert (AD : forall a, all_digits a = true -> a <> [] /\ forallb is_digit a = true).
  { intros [|c a] X; [discriminate|]. split; [discriminate|exact X]. }
  assert (RP : forall a, forallb is_digit a = true -> replace_char 95 46 a = a).
  { intros a X. unfold replace_char. rewrite <- (map_id a) at 2. apply map_ext_in.
    intros c I. rewrite forallb_forall in X. apply X, digit_between in I.
    replace (c =? 95) with false by (symmetry; apply Nat.eqb_neq; lia). reflexivity. }
  destruct (rev (lower p)) as [|c r] eqn:ER; [discriminate|].
  assert (EL : lower p = rev r ++ [c]).
  { rewrite <- (rev_involutive (lower p)), ER. reflexivity. }
  rewrite normalize_token.
  destruct (is_letter c) eqn:L.
  - destruct (all_digits (rev r)) eqn:A; [|discriminate]. injection H as <-.
    destruct (AD _ A) as [NE F]. destruct (digits_head _ NE F) as (d & s & E & D).
    assert (LC : is_lower c = true).
    { assert (J : In c (lower p)) by (rewrite EL; apply in_or_app; right; left; reflexivity).
      apply in_map_iff in J. destruct J as (x & <- & J).
      apply letter_between in L. apply lower_between.
      unfold lower_char in *. destruct (is_upper x) eqn:U.
      - apply upper_between in U. lia.
      - apply (bool_false_iff _ _ (upper_between x)) in U. lia. }
    rewrite (PT (rev r ++ [c]) d (s ++ [c]) EL).
    + unfold replace_char. rewrite map_app. fold (replace_char 95 46 (rev r)).
      rewrite (RP _ F). cbn [map]. apply lower_between in LC.
      replace (c =? 95) with false by (symmetry; apply Nat.eqb_neq; lia).
      assert (ND : stops is_digit [c]) by (cbn [stops]; apply digit_false; lia).
      pose proof (span_unique is_digit (rev r) [c] F ND) as X. rewrite E in X at 2.
      rewrite (read_token_rest _ _ _ _ X). rewrite <- E. cbn [read_rest].
      rewrite (proj2 (lower_between c) LC). reflexivity.
    + rewrite E. reflexivity.
    + exact D.
    + intros x I. left. apply in_app_or in I. destruct I as [I|[<-|[]]].
      * apply (digits_id_char _ F x I).
      * apply lower_between in LC. unfold id_char. lia.
  - clear r c ER EL L.
    destruct (split_at 95 (lower p)) as [|a [|b [|? ?]]] eqn:SA; try discriminate.
    + destruct (all_digits a) eqn:A; [|discriminate]. injection H as <-.
      destruct (AD _ A) as [NE F]. destruct (digits_head _ NE F) as (d & s & E & D).
      pose proof (split_join 95 (lower p)) as J. rewrite SA in J. cbn [glue] in J.
      rewrite (PT a d s (eq_sym J) E D).
      2:{ intros x I. left. apply (digits_id_char _ F x I). }
      rewrite (RP _ F).
      pose proof (span_unique is_digit a [] F I) as X. rewrite app_nil_r in X.
      rewrite E in X at 2. rewrite (read_token_rest _ _ _ _ X). rewrite <- E. reflexivity.
    + destruct (all_digits a) eqn:A; [|discriminate].
      destruct (all_digits b) eqn:B; [|discriminate]. injection H as <-.
      destruct (AD _ A) as [NE F]. destruct (digits_head _ NE F) as (d & s & E & D).
      destruct (AD _ B) as [NE2 F2].
      pose proof (split_join 95 (lower p)) as J. rewrite SA in J. cbn [glue] in J.
      rewrite (PT (a ++ 95 :: b) d (s ++ 95 :: b) (eq_sym J)).
      * unfold replace_char. rewrite map_app. cbn [map Nat.eqb].
        fold (replace_char 95 46 a) (replace_char 95 46 b).
        rewrite (RP _ F), (RP _ F2).
        pose proof (span_unique is_digit a (46 :: b) F eq_refl) as X. rewrite E in X at 2.
        rewrite (read_token_rest _ _ _ _ X). rewrite <- E.
        destruct b as [|m0 ms0]; [contradiction|]. cbn [read_rest].
        pose proof (span_unique is_digit (m0 :: ms0) [] F2 I) as X2. rewrite app_nil_r in X2.
        rewrite X2. reflexivity.
      * rewrite E. reflexivity.
      * exact D.
      * intros x I. apply in_app_or in I. destruct I as [I|[<-|I]]; [left|right; reflexivity|left].
        -- apply (digits_id_char _ F x I).
        -- apply (digits_id_char _ F2 x I).
Qed.

(* ------------------------------------------------------------------ *)
(** * Prerequisites in prose *)

(** A word in any case, and one or more spaces. *)
Definition word_is (k : string) (w : text) : Prop := lower w = codes k.
Definition gap (s : text) : Prop := s <> [] /\ forallb is_space s = true.

(** [Phase], spaces and a digit. *)
Definition mention_at (t : text) : Prop :=
  exists kw sp d r, t = kw ++ sp ++ d :: r /\
    word_is "phase" kw /\ gap sp /\ 48 <= d <= 57.

(** Digits, possibly with a decimal or with a letter. *)
Definition written_id (i : text) : Prop :=
  exists ds, ds <> [] /\ forallb is_digit ds = true /\
    (i = ds \/
     (exists ms, ms <> [] /\ forallb is_digit ms = true /\ i = ds ++ codes "." ++ ms) \/
     (exists c, is_letter c = true /\ i = ds ++ [c])).

(** [Phase 04 is complete], with any spaces and case, [is] left out or not. *)
Definition stated_complete (t i : text) : Prop :=
  exists kw sp sp2 mid cw rest,
    t = kw ++ sp ++ i ++ sp2 ++ mid ++ cw ++ rest /\
    word_is "phase" kw /\ gap sp /\ written_id i /\ gap sp2 /\
    (mid = [] \/ exists iw sp3, word_is "is" iw /\ gap sp3 /\ mid = iw ++ sp3) /\
    word_is "complete" cw.

Lemma nocase_some : forall p t r,
  after_nocase p t = Some r <-> exists w, t = w ++ r /\ lower w = p.
Proof.
  induction p as [|c p IH]; intros t r; cbn [after_nocase].
  - split.
    + intros H. injection H as <-. exists []. auto.
    + intros (w & -> & L). destruct w; [reflexivity|discriminate].
  - destruct t as [|d t].
    + split; [discriminate|]. intros (w & E & L). destruct w; discriminate.
    + destruct (c =? lower_char d) eqn:E.
      * apply Nat.eqb_eq in E. rewrite IH. split.
        -- intros (w & -> & <-). exists (d :: w). split; [reflexivity|]. cbn. rewrite E. reflexivity.
        -- intros (w & W & L). destruct w as [|x w]; [discriminate|].
           injection W as <- ->. injection L as _ <-. exists w. auto.
      * apply Nat.eqb_neq in E. split; [discriminate|].
        intros (w & W & L). destruct w as [|x w]; [discriminate|].
        injection W as <- ->. injection L as L _. congruence.
Qed.

Lemma spaces1_some : forall t r,
  spaces1 t = Some r <-> exists s, t = s ++ r /\ gap s /\ stops is_space r.
Proof.
  intros [|c t] r; cbn [spaces1].
  - split; [discriminate|]. intros (s & E & [N _] & _). destruct s; [contradiction|discriminate].
  - destruct (is_space c) eqn:C.
    + split.
      * intros H. injection H as <-. destruct (drop_while_spec is_space t) as (a & E & F & T).
        exists (c :: a). split; [cbn; rewrite <- E; reflexivity|]. split; [|exact T].
        split; [discriminate|]. cbn. rewrite C. exact F.
      * intros (s & E & [N F] & T). destruct s as [|x s]; [contradiction|].
        injection E as <- ->. cbn [forallb] in F. apply andb_true_iff in F.
        rewrite drop_while_unique; tauto.
    + split; [discriminate|]. intros (s & E & [N F] & T). destruct s as [|x s]; [contradiction|].
      injection E as <- ->. cbn [forallb] in F. rewrite C in F. discriminate.
Qed.

Lemma digit_stops_space : forall d r, is_digit d = true -> stops is_space (d :: r).
Proof. intros d r D. apply digit_between in D. cbn [stops]. apply space_false. lia. Qed.

Lemma phase_digits_some : forall t ds r,
  phase_digits t = Some (ds, r) <->
  exists kw sp, t = kw ++ sp ++ ds ++ r /\ word_is "phase" kw /\ gap sp /\
    ds <> [] /\ forallb is_digit ds = true /\ stops is_digit r.
Proof.
  intros t ds r. unfold phase_digits. split.
  - destruct (after_nocase (codes "phase") t) as [r1|] eqn:A; [|discriminate].
    destruct (spaces1 r1) as [r2|] eqn:B; [|discriminate].
    destruct (span is_digit r2) as [x y] eqn:C. intros H.
    destruct x as [|x0 x]; [discriminate|]. injection H as <- <-.
    apply nocase_some in A. destruct A as (kw & -> & K).
    apply spaces1_some in B. destruct B as (sp & -> & G & _).
    apply span_spec in C. destruct C as (-> & F & T).
    exists kw, sp. repeat split; auto; try discriminate; apply G.
  - intros (kw & sp & -> & K & G & N & F & T).
    rewrite (proj2 (nocase_some (codes "phase") _ (sp ++ ds ++ r))).
    2:{ exists kw. split; [reflexivity|exact K]. }
    destruct (digits_head ds N F) as (d & s & E & D).
    rewrite (proj2 (spaces1_some _ (ds ++ r))).
    2:{ exists sp. split; [reflexivity|]. split; [exact G|]. rewrite E.
        apply digit_stops_space. exact D. }
    rewrite (span_unique is_digit ds r F T). rewrite E. reflexivity.
Qed.

Lemma mention_digits : forall t, mention_at t <-> phase_digits t <> None.
Proof.
  intros t. split.
  - intros (kw & sp & d & r & -> & K & G & D).
    destruct (span is_digit (d :: r)) as [ds r2] eqn:E.
    assert (DD : is_digit d = true) by (apply digit_between; exact D).
    assert (X := E). apply span_spec in X. destruct X as (X & F & T).
    rewrite (proj2 (phase_digits_some _ ds r2)); [discriminate|].
    exists kw, sp. rewrite X. repeat split; auto; try apply G.
    intros ->. cbn [span] in E. rewrite DD in E. destruct (span is_digit r); discriminate.
  - intros H. destruct (phase_digits t) as [[ds r]|] eqn:E; [|contradiction].
    apply phase_digits_some in E. destruct E as (kw & sp & -> & K & G & N & F & _).
    destruct (digits_head ds N F) as (d & s & -> & D).
    exists kw, sp, d, (s ++ r). split; [reflexivity|]. split; [exact K|]. split; [exact G|].
    apply digit_between. exact D.
Qed.

Lemma raw_digits : forall t, raw_mention t <> None <-> phase_digits t <> None.
Proof.
  intros t. unfold raw_mention. destruct (phase_digits t) as [[ds r]|]; [|tauto].
  split; intros _; [discriminate|]. destruct (decimal r) as [[? ?]|]; discriminate.
Qed.

Definition complete_tail (t r : text) : Prop :=
  exists sp2 mid cw, t = sp2 ++ mid ++ cw ++ r /\ gap sp2 /\
    (mid = [] \/ exists iw sp3, word_is "is" iw /\ gap sp3 /\ mid = iw ++ sp3) /\
    word_is "complete" cw.

Lemma letter_stops : forall k w r c s, lower w = k -> k = c :: s -> 97 <= c <= 122 ->
  stops is_space (w ++ r).
Proof.
  intros k w r c s L -> C. destruct w as [|x w]; [discriminate|].
  injection L as L _. cbn [app stops]. apply space_false.
  unfold lower_char in L. destruct (is_upper x) eqn:U.
  - apply upper_between in U. lia.
  - lia.
Qed.

Lemma complete_after_some : forall t r, complete_after t = Some r <-> complete_tail t r.
Proof.
  intros t r. unfold complete_after. split.
  - destruct (spaces1 t) as [r0|] eqn:A; [|discriminate].
    apply spaces1_some in A. destruct A as (sp2 & -> & G & _).
    assert (D : after_nocase (codes "complete") r0 = Some r -> complete_tail (sp2 ++ r0) r).
    { intros H. apply nocase_some in H. destruct H as (cw & -> & C).
      exists sp2, [], cw. split; [reflexivity|]. split; [exact G|]. split; [left; reflexivity|].
      exact C. }
    destruct (after_nocase (codes "is") r0) as [r1|] eqn:B; [|exact D].
    destruct (spaces1 r1) as [r2|] eqn:C; [|exact D].
    destruct (after_nocase (codes "complete") r2) as [r3|] eqn:E; [|exact D].
    intros H. injection H as ->.
    apply nocase_some in B. destruct B as (iw & -> & W).
    apply spaces1_some in C. destruct C as (sp3 & -> & G3 & _).
    apply nocase_some in E. destruct E as (cw & -> & K).
    exists sp2, (iw ++ sp3), cw. split; [rewrite <- app_assoc; reflexivity|].
    split; [exact G|]. split; [right; exists iw, sp3; auto|exact K].
  - intros (sp2 & mid & cw & -> & G & M & C).
    assert (SC : stops is_space (cw ++ r)).
    { apply (letter_stops _ _ _ 99 (codes "omplete") C eq_refl). lia. }
    assert (CC : after_nocase (codes "complete") (cw ++ r) = Some r).
    { apply nocase_some. exists cw. auto. }
    destruct M as [->|(iw & sp3 & W & G3 & ->)].
    + cbn [app]. rewrite (proj2 (spaces1_some _ (cw ++ r))).
      2:{ exists sp2. auto. }
      destruct (after_nocase (codes "is") (cw ++ r)) as [r1|] eqn:B; [|exact CC].
      exfalso. apply nocase_some in B. destruct B as (iw & E & W).
      destruct iw as [|x iw]; [discriminate|]. destruct cw as [|y cw]; [discriminate|].
      injection E as -> _. injection W as W _. injection C as C _. rewrite C in W. discriminate W.
    + rewrite <- app_assoc. rewrite (proj2 (spaces1_some _ (iw ++ sp3 ++ cw ++ r))).
      2:{ exists sp2. split; [reflexivity|]. split; [exact G|].
          apply (letter_stops _ _ _ 105 (codes "s") W eq_refl). lia. }
      rewrite (proj2 (nocase_some (codes "is") _ (sp3 ++ cw ++ r))).
      2:{ exists iw. auto. }
      rewrite (proj2 (spaces1_some _ (cw ++ r))).
      2:{ exists sp3. auto. }
      rewrite CC. reflexivity.
Qed.

Lemma complete_tail_space : forall t r, complete_tail t r -> exists c s, t = c :: s /\ is_space c = true.
Proof.
  intros t r (sp2 & mid & cw & -> & [N F] & _). destruct sp2 as [|c sp2]; [contradiction|].
  exists c, (sp2 ++ mid ++ cw ++ r). split; [reflexivity|]. cbn [forallb] in F.
  apply andb_true_iff in F. tauto.
Qed.

Lemma decimal_some : forall t ms r, decimal t = Some (ms, r) <->
  t = 46 :: ms ++ r /\ ms <> [] /\ forallb is_digit ms = true /\ stops is_digit r.
Proof.
  intros t ms r. split.
  - intros H. destruct t as [|c t]; [discriminate|].
    destruct (Nat.eq_dec c 46) as [->|N].
    + cbn [decimal] in H. destruct (span is_digit t) as [x y] eqn:E.
      destruct x as [|x0 x]; [discriminate|]. injection H as <- <-.
      apply span_spec in E. destruct E as (-> & F & T). split; [reflexivity|].
      split; [discriminate|auto].
    + exfalso. do 46 (destruct c as [|c]; [discriminate H|]).
      destruct c as [|c]; [contradiction|discriminate H].
  - intros (-> & N & F & T). cbn [decimal]. rewrite (span_unique is_digit ms r F T).
    destruct ms; [contradiction|reflexivity].
Qed.

Lemma decimal_none : forall c r, c <> 46 -> decimal (c :: r) = None.
Proof.
  intros c r N. destruct (decimal (c :: r)) as [[ms r']|] eqn:E; auto.
  apply decimal_some in E. destruct E as (E & _). injection E as -> _. contradiction.
Qed.

Lemma complete_sound : forall t i r, complete_mention t = Some (i, r) ->
  exists kw sp u, t = kw ++ sp ++ i ++ u /\ word_is "phase" kw /\ gap sp /\
    written_id i /\ complete_tail u r.
Proof.
  intros t i r H. unfold complete_mention in H.
  destruct (phase_digits t) as [[ds r0]|] eqn:P; [|discriminate].
  apply phase_digits_some in P. destruct P as (kw & sp & -> & K & G & N & F & T).
  assert (PLAIN : match complete_after r0 with
          | Some r2 => Some (ds, r2)
          | None =>
              match r0 with
              | c :: r' => if is_letter c then
                             match complete_after r' with
                             | Some r2 => Some (ds ++ [c], r2)
                             | None => None
                             end
                           else None
              | [] => None
              end
          end = Some (i, r) ->
    exists kw0 sp0 u, kw ++ sp ++ ds ++ r0 = kw0 ++ sp0 ++ i ++ u /\ word_is "phase" kw0 /\
      gap sp0 /\ written_id i /\ complete_tail u r).
  { clear H. intros H. destruct (complete_after r0) as [r2|] eqn:C.
    - injection H as <- <-. apply complete_after_some in C. exists kw, sp, r0.
      repeat split; auto; try apply G. exists ds. auto.
    - destruct r0 as [|c r0]; [discriminate|]. destruct (is_letter c) eqn:L; [|discriminate].
      destruct (complete_after r0) as [r2|] eqn:C2; [|discriminate].
      injection H as <- <-. apply complete_after_some in C2. exists kw, sp, r0.
      split; [rewrite <- app_assoc; reflexivity|]. repeat split; auto; try apply G.
      exists ds. split; [exact N|]. split; [exact F|]. right. right. exists c. auto. }
  destruct (decimal r0) as [[ms r1]|] eqn:D; [|exact (PLAIN H)].
  destruct (complete_after r1) as [r2|] eqn:C; [|exact (PLAIN H)].
  injection H as <- <-. apply decimal_some in D. destruct D as (-> & NM & FM & _).
  apply complete_after_some in C. exists kw, sp, r1.
  split; [rewrite <- app_assoc; reflexivity|]. repeat split; auto; try apply G.
  exists ds. split; [exact N|]. split; [exact F|]. right. left. exists ms. auto.
Qed.

Lemma complete_complete : forall kw sp i u r,
  word_is "phase" kw -> gap sp -> written_id i -> complete_tail u r ->
  complete_mention (kw ++ sp ++ i ++ u) = Some (i, r).
Proof.
  intros kw sp i u r K G (ds & N & F & W) C.
  destruct (complete_tail_space _ _ C) as (c0 & s & EU & SP).
  pose proof (proj2 (complete_after_some _ _) C) as CA.
  assert (SU : stops is_digit u).
  { rewrite EU. cbn [stops]. apply space_iff in SP. apply digit_false. lia. }
  assert (NU : decimal u = None).
  { rewrite EU. apply decimal_none. intros ->. discriminate SP. }
  unfold complete_mention.
  destruct W as [->|[(ms & NM & FM & ->)|(c & L & ->)]].
  - rewrite (proj2 (phase_digits_some _ ds u)).
    2:{ exists kw, sp. repeat split; auto; apply G. }
    rewrite NU, CA. reflexivity.
  - rewrite (proj2 (phase_digits_some _ ds (46 :: ms ++ u))).
    2:{ exists kw, sp. split; [rewrite <- app_assoc; reflexivity|].
        repeat split; auto; apply G. }
    rewrite (proj2 (decimal_some _ ms u)).
    2:{ auto. }
    rewrite CA. reflexivity.
  - apply letter_between in L. rewrite (proj2 (phase_digits_some _ ds (c :: u))).
    2:{ exists kw, sp. split; [rewrite <- app_assoc; reflexivity|].
        repeat split; auto; try apply G. cbn [stops]. apply digit_false. lia. }
    rewrite decimal_none by lia.
    replace (complete_after (c :: u)) with (@None text).
    + unfold is_letter. replace (is_upper c || is_lower c) with true.
      * rewrite CA. reflexivity.
      * symmetry. apply orb_true_iff. rewrite upper_between, lower_between. exact L.
    + unfold complete_after, spaces1. rewrite space_false by lia. reflexivity.
Qed.

Lemma stated_iff : forall t i, stated_complete t i <-> exists r, complete_mention t = Some (i, r).
Proof.
  intros t i. split.
  - intros (kw & sp & sp2 & mid & cw & rest & -> & K & G & W & G2 & M & C).
    exists rest. apply complete_complete; auto. exists sp2, mid, cw. auto.
  - intros (r & H). apply complete_sound in H.
    destruct H as (kw & sp & u & -> & K & G & W & (sp2 & mid & cw & -> & G2 & M & C)).
    exists kw, sp, sp2, mid, cw, r. repeat split; auto; try apply G; apply G2.
Qed.

(** A mention starts with the letters [ph], and no mention starts within
    another one. *)
Definition ph (t : text) : bool :=
  match t with a :: b :: _ => (lower_char a =? 112) && (lower_char b =? 104) | _ => false end.

Definition noph (p r : text) : Prop :=
  forall p1 p2, p = p1 ++ p2 -> p2 <> [] -> ph (p2 ++ r) = false.

Lemma noph_nil : forall r, noph [] r.
Proof. intros r p1 p2 E N. symmetry in E. apply app_eq_nil in E. destruct E. contradiction. Qed.

Lemma noph_cons : forall c p r, ph (c :: p ++ r) = false -> noph p r -> noph (c :: p) r.
Proof.
  intros c p r H1 H2 p1 p2 E N. destruct p1 as [|x p1].
  - cbn [app] in E. subst p2. exact H1.
  - injection E as <- E. apply (H2 p1 p2 E N).
Qed.

Lemma noph_app : forall a b r, noph a (b ++ r) -> noph b r -> noph (a ++ b) r.
Proof.
  intros a. induction a as [|c a IH]; intros b r A B; [exact B|]. cbn [app].
  apply noph_cons.
  - rewrite <- app_assoc. apply (A [] (c :: a) eq_refl). discriminate.
  - apply IH; [|exact B]. intros p1 p2 E N. apply (A (c :: p1) p2); [|exact N].
    cbn. rewrite E. reflexivity.
Qed.

Lemma noph_class : forall f p r, forallb f p = true ->
  (forall c, f c = true -> lower_char c <> 112) -> noph p r.
Proof.
  intros f p r F H. induction p as [|c p IH]; [apply noph_nil|].
  cbn [forallb] in F. apply andb_true_iff in F. destruct F as [C F].
  apply noph_cons; [|apply IH; exact F]. cbn [ph]. destruct (p ++ r); [reflexivity|].
  replace (lower_char c =? 112) with false
    by (symmetry; apply Nat.eqb_neq; apply H; exact C). reflexivity.
Qed.

Lemma noph_spaces : forall p r, forallb is_space p = true -> noph p r.
Proof.
  intros p r F. apply (noph_class is_space); auto. intros c C. apply space_iff in C.
  unfold lower_char. rewrite upper_false by lia. lia.
Qed.

Lemma noph_digits : forall p r, forallb is_digit p = true -> noph p r.
Proof.
  intros p r F. apply (noph_class is_digit); auto. intros c C. apply digit_between in C.
  unfold lower_char. rewrite upper_false by lia. lia.
Qed.

Lemma ph_head : forall c t, lower_char c <> 112 -> ph (c :: t) = false.
Proof.
  intros c t N. cbn [ph]. destruct t; [reflexivity|].
  replace (lower_char c =? 112) with false by (symmetry; apply Nat.eqb_neq; exact N). reflexivity.
Qed.

Lemma ph_second : forall c d t, lower_char d <> 104 -> ph (c :: d :: t) = false.
Proof.
  intros c d t N. cbn [ph]. replace (lower_char d =? 104) with false
    by (symmetry; apply Nat.eqb_neq; exact N). apply andb_false_r.
Qed.

Lemma noph_complete : forall cw r, word_is "complete" cw -> noph cw r.
Proof.
  intros cw r W. unfold word_is in W. cbn in W.
  do 8 (destruct cw as [|? cw]; [discriminate|]). destruct cw; [|discriminate].
  injection W. intros.
  repeat (apply noph_cons; [first [apply ph_head; lia | apply ph_second; lia]|]). apply noph_nil.
Qed.

Lemma noph_is : forall iw r, word_is "is" iw -> noph iw r.
Proof.
  intros cw r W. unfold word_is in W. cbn in W.
  do 2 (destruct cw as [|? cw]; [discriminate|]). destruct cw; [|discriminate].
  injection W. intros.
  repeat (apply noph_cons; [apply ph_head; lia|]). apply noph_nil.
Qed.

Lemma phase_word : forall kw, word_is "phase" kw ->
  exists c k, kw = c :: k /\ (forall r, noph k r) /\ (forall r, ph (kw ++ r) = true).
Proof.
  intros kw W. unfold word_is in W. cbn in W.
  do 5 (destruct kw as [|? kw]; [discriminate|]). destruct kw; [|discriminate].
  injection W. intros. eexists. eexists. split; [reflexivity|]. split.
  - intros r. repeat (apply noph_cons; [apply ph_head; lia|]). apply noph_nil.
  - intros r. cbn [app ph]. rewrite H2, H3. reflexivity.
Qed.

Lemma noph_tail : forall u r, complete_tail u r ->
  exists q, u = q ++ r /\ q <> [] /\ noph q r.
Proof.
  intros u r (sp2 & mid & cw & -> & G & M & C). exists (sp2 ++ mid ++ cw).
  split; [rewrite <- !app_assoc; reflexivity|]. split.
  - destruct G as [N _]. destruct sp2; [contradiction|discriminate].
  - apply noph_app; [apply noph_spaces; apply G|]. apply noph_app; [|apply noph_complete; exact C].
    destruct M as [->|(iw & sp3 & W & G3 & ->)]; [apply noph_nil|].
    apply noph_app; [apply noph_is; exact W|apply noph_spaces; apply G3].
Qed.

Definition separate (m : text -> option (text * text)) : Prop :=
  forall t i r, m t = Some (i, r) ->
    exists c q, t = c :: q ++ r /\ forall p1 p2, q = p1 ++ p2 -> p2 <> [] -> m (p2 ++ r) = None.

Lemma ph_raw : forall t, ph t = false -> phase_digits t = None.
Proof.
  intros t H. destruct (phase_digits t) as [[ds r]|] eqn:E; auto.
  apply phase_digits_some in E. destruct E as (kw & sp & -> & K & _).
  destruct (phase_word kw K) as (c & k & _ & _ & P). rewrite P in H. discriminate.
Qed.

Lemma ph_complete : forall t, ph t = false -> complete_mention t = None.
Proof. intros t H. unfold complete_mention. rewrite (ph_raw t H). reflexivity. Qed.

Lemma ph_raw_mention : forall t, ph t = false -> raw_mention t = None.
Proof. intros t H. unfold raw_mention. rewrite (ph_raw t H). reflexivity. Qed.

Lemma separate_raw : separate raw_mention.
Proof.
  intros t i r H.
  assert (X : exists kw sp q, t = kw ++ sp ++ q ++ r /\ word_is "phase" kw /\ gap sp /\ noph q r).
  { unfold raw_mention in H. destruct (phase_digits t) as [[ds r0]|] eqn:P; [|discriminate].
    apply phase_digits_some in P. destruct P as (kw & sp & -> & K & G & N & F & T).
    destruct (decimal r0) as [[ms r1]|] eqn:D.
    - injection H as <- <-. apply decimal_some in D. destruct D as (-> & _ & FM & _).
      exists kw, sp, (ds ++ 46 :: ms). split; [rewrite <- app_assoc; reflexivity|].
      split; [exact K|]. split; [exact G|]. apply noph_app; [apply noph_digits; exact F|].
      apply noph_cons; [apply ph_head; discriminate|apply noph_digits; exact FM].
    - injection H as <- <-. exists kw, sp, ds. split; [reflexivity|].
      split; [exact K|]. split; [exact G|apply noph_digits; exact F]. }
  destruct X as (kw & sp & q & -> & K & G & NQ).
  destruct (phase_word kw K) as (c & k & -> & NK & _).
  exists c, (k ++ sp ++ q). split; [cbn; rewrite <- !app_assoc; reflexivity|].
  intros p1 p2 E N. apply ph_raw_mention.
  assert (Z : noph (k ++ sp ++ q) r).
  { apply noph_app; [apply NK|]. apply noph_app; [apply noph_spaces; apply G|exact NQ]. }
  apply (Z p1 p2 E N).
Qed.

Lemma separate_complete : separate complete_mention.
Proof.
  intros t i r H. apply complete_sound in H.
  destruct H as (kw & sp & u & -> & K & G & (ds & ND & F & W) & C).
  destruct (complete_tail_space _ _ C) as (c0 & s & EU & SP).
  destruct (noph_tail u r C) as (q & -> & NQ & Z).
  destruct (phase_word kw K) as (c & k & -> & NK & _).
  assert (ZI : noph i (q ++ r)).
  { destruct W as [->|[(ms & NM & FM & ->)|(x & L & ->)]].
    - apply noph_digits. exact F.
    - apply noph_app; [apply noph_digits; exact F|].
      apply noph_cons; [apply ph_head; discriminate|apply noph_digits; exact FM].
    - apply noph_app; [apply noph_digits; exact F|].
      apply noph_cons; [|apply noph_nil]. cbn [app]. rewrite EU. apply ph_second.
      apply space_iff in SP. unfold lower_char. rewrite upper_false by lia. lia. }
  exists c, (k ++ sp ++ i ++ q). split; [cbn; rewrite <- !app_assoc; reflexivity|].
  intros p1 p2 E N. apply ph_complete.
  assert (ZZ : noph (k ++ sp ++ i ++ q) r).
  { apply noph_app; [apply NK|]. apply noph_app; [apply noph_spaces; apply G|].
    apply noph_app; [exact ZI|exact Z]. }
  apply (ZZ p1 p2 E N).
Qed.

(** The ids of the matches at all positions. *)
Fixpoint all_ids (m : text -> option (text * text)) (t : text) : list text :=
  (match m t with Some (i, _) => [i] | None => [] end) ++
  match t with [] => [] | _ :: r => all_ids m r end.

Lemma all_ids_skip : forall m q r,
  (forall p1 p2, q = p1 ++ p2 -> p2 <> [] -> m (p2 ++ r) = None) ->
  all_ids m (q ++ r) = all_ids m r.
Proof.
  intros m q r. induction q as [|c q IH]; intros H; [reflexivity|].
  cbn [app all_ids]. pose proof (H [] (c :: q) eq_refl ltac:(discriminate)) as X.
  cbn [app] in X. rewrite X. cbn [app]. apply IH. intros p1 p2 E N.
  apply (H (c :: p1) p2); [cbn; rewrite E; reflexivity|exact N].
Qed.

Lemma find_all_ids : forall m, separate m -> forall k t, List.length t < k ->
  find_all m k t = all_ids m t.
Proof.
  intros m SE k. induction k as [|k IH]; intros t L; [lia|]. cbn [find_all].
  destruct (m t) as [[i r]|] eqn:E.
  - destruct (SE t i r E) as (c & q & -> & Z). rewrite IH.
    + cbn [all_ids]. rewrite E. cbn [app]. rewrite all_ids_skip by exact Z. reflexivity.
    + cbn in L. rewrite app_length in L. lia.
  - destruct t as [|c t].
    + cbn [all_ids]. rewrite E. reflexivity.
    + cbn [all_ids]. rewrite E. cbn [app]. apply IH. cbn in L. lia.
Qed.

Lemma mentions_all : forall m t, separate m -> mentions m t = all_ids m t.
Proof. intros m t SE. unfold mentions. apply find_all_ids; [exact SE|lia]. Qed.

Lemma all_ids_in : forall m t i,
  In i (all_ids m t) <-> exists pre s r, t = pre ++ s /\ m s = Some (i, r).
Proof.
  intros m t i. induction t as [|c t IH].
  - cbn [all_ids]. rewrite app_nil_r. split.
    + intros H. destruct (m []) as [[j r]|] eqn:E; [|contradiction].
      destruct H as [->|[]]. exists [], [], r. auto.
    + intros (pre & s & r & E & M). symmetry in E. apply app_eq_nil in E. destruct E as [_ ->].
      rewrite M. left. reflexivity.
  - cbn [all_ids]. rewrite in_app_iff, IH. split.
    + intros [H|(pre & s & r & -> & M)].
      * destruct (m (c :: t)) as [[j r]|] eqn:E; [|contradiction].
        destruct H as [->|[]]. exists [], (c :: t), r. auto.
      * exists (c :: pre), s, r. auto.
    + intros (pre & s & r & E & M). destruct pre as [|x pre].
      * left. cbn [app] in E. subst s. rewrite M. left. reflexivity.
      * right. injection E as <- ->. exists pre, s, r. auto.
Qed.

Lemma all_ids_count : forall m n, (forall s, n s <> None -> m s <> None) -> forall t,
  List.length (all_ids n t) <= List.length (all_ids m t) /\
  (List.length (all_ids n t) = List.length (all_ids m t) <->
   forall pre s, t = pre ++ s -> m s <> None -> n s <> None).
Proof.
  intros m n H t. induction t as [|c t [IH1 IH2]].
  - cbn [all_ids]. rewrite !app_nil_r. specialize (H []).
    split.
    + destruct (n []) as [[? ?]|]; destruct (m []) as [[? ?]|]; cbn; try lia.
      exfalso. apply H; [discriminate|reflexivity].
    + split.
      * intros E pre s X M. symmetry in X. apply app_eq_nil in X. destruct X as [_ ->].
        destruct (n []) as [[? ?]|]; [discriminate|].
        destruct (m []) as [[? ?]|]; [discriminate|contradiction].
      * intros X. specialize (X [] [] eq_refl).
        destruct (n []) as [[? ?]|]; destruct (m []) as [[? ?]|]; cbn; auto.
        -- exfalso. apply H; [discriminate|reflexivity].
        -- exfalso. apply X; [discriminate|reflexivity].
  - cbn [all_ids]. rewrite !app_length. specialize (H (c :: t)).
    assert (A : List.length (match n (c :: t) with Some (i, _) => [i] | None => [] end) <=
                List.length (match m (c :: t) with Some (i, _) => [i] | None => [] end) /\
                (List.length (match n (c :: t) with Some (i, _) => [i] | None => [] end) =
                 List.length (match m (c :: t) with Some (i, _) => [i] | None => [] end) <->
                 (m (c :: t) <> None -> n (c :: t) <> None))).
    { destruct (n (c :: t)) as [[? ?]|]; destruct (m (c :: t)) as [[? ?]|]; cbn.
      - split; [lia|]. split; [intros _ _; discriminate|reflexivity].
      - exfalso. apply H; [discriminate|reflexivity].
      - split; [lia|]. split; [discriminate|]. intros X. exfalso. apply X; [discriminate|reflexivity].
      - split; [lia|]. tauto. }
    destruct A as [A1 A2]. split; [lia|]. split.
    + intros E pre s X M. destruct pre as [|x pre].
      * cbn [app] in X. subst s. apply A2; [lia|exact M].
      * injection X as <- X. apply (proj1 IH2 ltac:(lia) pre s X M).
    + intros X. rewrite (proj2 A2 (X [] (c :: t) eq_refl)).
      rewrite (proj2 IH2); [reflexivity|]. intros pre s E. apply (X (c :: pre) s).
      cbn. rewrite E. reflexivity.
Qed.

Lemma complete_is_raw : forall s, complete_mention s <> None -> raw_mention s <> None.
Proof.
  intros s H. apply raw_digits. unfold complete_mention in H.
  destruct (phase_digits s); [discriminate|contradiction].
Qed.

Lemma insert_nodup : forall (A : Type) (le : A -> A -> bool) x l,
  NoDup l -> ~ In x l -> NoDup (insert_by le x l).
Proof.
  intros A le x l. induction l as [|y l IH]; intros N X; cbn [insert_by].
  - constructor; [exact X|exact N].
  - destruct (le x y).
    + constructor; [exact X|exact N].
    + inversion N as [|? ? N1 N2]; subst. constructor.
      * rewrite insert_in. intros [->|I]; [apply X; left; reflexivity|contradiction].
      * apply IH; [exact N2|]. intros I. apply X. right. exact I.
Qed.

Lemma sort_nodup : forall (A : Type) (le : A -> A -> bool) l,
  NoDup l -> NoDup (sort_by le l).
Proof.
  intros A le l N. induction N as [|x l X N IH]; [constructor|]. cbn [sort_by].
  apply insert_nodup; [exact IH|]. rewrite sort_in. exact X.
Qed.

(** The prose with spaces around it. *)
Lemma prereqs_read : forall a t b ids ok,
  forallb is_space a = true -> forallb is_space b = true -> trimmed t ->
  extract_prereqs (a ++ t ++ b) = (ids, ok) ->
  (ok = true <-> forall pre s, t = pre ++ s -> mention_at s -> exists i, stated_complete s i) /\
  (forall j, In j ids <-> exists pre s i, t = pre ++ s /\ stated_complete s i /\
                            normalize_phase_id i = Some j) /\
  NoDup ids.
Proof.
  intros a t b ids ok A B T H. unfold extract_prereqs in H. cbv zeta in H.
  rewrite (strip_pad a t b A B T) in H.
  rewrite !mentions_all in H by (apply separate_raw || apply separate_complete).
  destruct (all_ids_count raw_mention complete_mention complete_is_raw t) as [LE EQ].
  assert (STATED : forall s, (exists i, stated_complete s i) <-> complete_mention s <> None).
  { intros s. split.
    - intros (i & Q). apply stated_iff in Q. destruct Q as (r & Q). rewrite Q. discriminate.
    - intros Q. destruct (complete_mention s) as [[i r]|] eqn:E; [|contradiction].
      exists i. apply stated_iff. exists r. exact E. }
  assert (IDS : forall j, In j (normalized (all_ids complete_mention t)) <->
            exists pre s i, t = pre ++ s /\ stated_complete s i /\ normalize_phase_id i = Some j).
  { intros j. unfold normalized. rewrite in_flat_map. split.
    - intros (i & I & J). apply all_ids_in in I. destruct I as (pre & s & r & E & M).
      exists pre, s, i. split; [exact E|]. split; [apply stated_iff; exists r; exact M|].
      destruct (normalize_phase_id i) as [n|]; [|contradiction]. destruct J as [->|[]]. reflexivity.
    - intros (pre & s & i & E & Q & J). apply stated_iff in Q. destruct Q as (r & Q).
      exists i. split; [apply all_ids_in; exists pre, s, r; auto|]. rewrite J. left. reflexivity. }
  assert (NONE : all_ids raw_mention t = [] ->
            (forall pre s, t = pre ++ s -> ~ mention_at s) /\ all_ids complete_mention t = []).
  { intros Z. split.
    - intros pre s E M. apply mention_digits, raw_digits in M.
      destruct (raw_mention s) as [[i r]|] eqn:R; [|contradiction].
      assert (I : In i (all_ids raw_mention t)) by (apply all_ids_in; exists pre, s, r; auto).
      rewrite Z in I. contradiction.
    - rewrite Z in LE. cbn in LE. destruct (all_ids complete_mention t); [reflexivity|cbn in LE; lia]. }
  assert (NIL : all_ids raw_mention t = [] -> ([], true) = (ids, ok) ->
     (ok = true <-> forall pre s, t = pre ++ s -> mention_at s -> exists i, stated_complete s i) /\
     (forall j, In j ids <-> exists pre s i, t = pre ++ s /\ stated_complete s i /\
                            normalize_phase_id i = Some j) /\ NoDup ids).
  { intros Z X. destruct (NONE Z) as [N1 N2]. injection X as <- <-. split; [|split].
    - split; [|reflexivity]. intros _ pre s E M. destruct (N1 pre s E M).
    - intros j. rewrite <- IDS, N2. reflexivity.
    - constructor. }
  destruct t as [|c t].
  { apply NIL; [reflexivity|exact H]. }
  destruct (all_ids raw_mention (c :: t)) as [|i0 l0] eqn:R.
  { apply NIL; [reflexivity|exact H]. }
  injection H as <- <-. split; [|split].
  - rewrite negb_true_iff, Nat.ltb_ge. split.
    + intros G pre s E M. apply STATED. apply (proj1 EQ) with (pre := pre).
      * apply Nat.le_antisymm; [exact LE|exact G].
      * exact E.
      * apply raw_digits, mention_digits. exact M.
    + intros X. apply Nat.eq_le_incl. symmetry. apply (proj2 EQ).
      intros pre s E M. apply STATED. apply (X pre s E). apply mention_digits, raw_digits. exact M.
  - intros j. rewrite sort_in, distinct_in. apply IDS.
  - apply sort_nodup. apply distinct_nodup.
Qed.

(* ------------------------------------------------------------------ *)
(** * Eligible phases *)

(** A status that starts with some words, in any case, after any spaces. *)
Definition status_says (k : string) (s : option text) : Prop :=
  exists pad w rest, s = Some (pad ++ w ++ rest) /\ forallb is_space pad = true /\ word_is k w.

Lemma drop_end_app : forall f w rest, stops f (rev w) -> w <> [] ->
  drop_end_while f (w ++ rest) = w ++ drop_end_while f rest.
Proof.
  intros f w rest T N. destruct (drop_end_spec f rest) as (a & E & F & S1).
  rewrite E at 1. rewrite app_assoc. apply drop_end_unique; [exact F|].
  rewrite rev_app_distr. destruct (rev (drop_end_while f rest)) as [|c r]; [exact T|exact S1].
Qed.

Lemma status_starts : forall k c s d t, codes k = c :: s -> is_space c = false ->
  97 <= c <= 122 -> rev (codes k) = d :: t -> 97 <= d <= 122 ->
  forall v, starts (codes k) (lower (strip v)) = true <-> status_says k (Some v).
Proof.
  intros k c s d t EK SC LC ER LD v. rewrite starts_iff. split.
  - intros (r & E). destruct (strip_spec v) as (a & b & EV & A & _ & _).
    assert (X : exists w rest, strip v = w ++ rest /\ lower w = codes k).
    { exists (firstn (List.length (codes k)) (strip v)), (skipn (List.length (codes k)) (strip v)).
      split; [symmetry; apply firstn_skipn|]. unfold lower. rewrite <- firstn_map.
      fold (lower (strip v)). rewrite E. rewrite firstn_app, Nat.sub_diag, firstn_all.
      cbn [firstn]. apply app_nil_r. }
    destruct X as (w & rest & X & L). exists a, w, (rest ++ b). split; [|split; [exact A|exact L]].
    rewrite EV at 1. rewrite X, <- app_assoc. reflexivity.
  - intros (pad & w & rest & E & P & L). injection E as ->. unfold word_is in L.
    assert (LOW : forall x, 97 <= lower_char x <= 122 -> is_space x = false).
    { intros x H. apply space_false. unfold lower_char in H. destruct (is_upper x) eqn:U.
      - apply upper_between in U. lia.
      - lia. }
    assert (T1 : stops is_space (w ++ rest)).
    { destruct w as [|x w]; [rewrite EK in L; discriminate|]. cbn [app stops]. apply LOW.
      rewrite EK in L. injection L as -> _. exact LC. }
    assert (T2 : stops is_space (rev w)).
    { apply (f_equal (@rev nat)) in L. rewrite ER in L. unfold lower in L.
      rewrite <- map_rev in L. destruct (rev w) as [|x r]; [exact I|]. cbn [stops]. apply LOW.
      injection L as -> _. exact LD. }
    assert (NW : w <> []) by (intros ->; rewrite EK in L; discriminate).
    exists (lower (drop_end_while is_space rest)).
    unfold strip. rewrite (drop_while_unique is_space pad (w ++ rest) P T1).
    rewrite (drop_end_app is_space w rest T2 NW). unfold lower. rewrite map_app.
    fold (lower w). rewrite L. reflexivity.
Qed.

Lemma complete_says : forall s, status_is_complete s = true <-> status_says "complete" s.
Proof.
  intros [v|]; unfold status_is_complete.
  - eapply (status_starts "complete"); [reflexivity|reflexivity| |reflexivity|]; cbn; lia.
  - split; [discriminate|]. intros (pad & w & rest & E & _). discriminate.
Qed.

Lemma not_started_says : forall s, status_is_not_started s = true <-> status_says "not started" s.
Proof.
  intros [v|]; unfold status_is_not_started.
  - eapply (status_starts "not started"); [reflexivity|reflexivity| |reflexivity|]; cbn; lia.
  - split; [discriminate|]. intros (pad & w & rest & E & _). discriminate.
Qed.

(** A phase is closed when its status says complete and it has learnings. *)
Definition closed (p : phase) : Prop := status_says "complete" (p_status p) /\ p_learnings p <> 0.

(** A phase is eligible when it has not started, its prerequisites were
    understood and each of them is a closed phase of the project. *)
Definition eligible (phases : list phase) (p : phase) : Prop :=
  In p phases /\ status_says "not started" (p_status p) /\ p_resolvable p = true /\
  forall i, In i (p_prereqs p) -> exists q, In q phases /\ p_id q = i /\ closed q.

Definition distinct_ids (phases : list phase) : Prop := NoDup (map p_id phases).

Lemma closeout_closed : forall p, closeout_issues p = 0 <-> closed p.
Proof.
  intros p. unfold closeout_issues, closed. rewrite <- complete_says.
  destruct (status_is_complete (p_status p)); destruct (p_learnings p =? 0) eqn:L;
    (apply Nat.eqb_eq in L || apply Nat.eqb_neq in L); split; intros H;
    try discriminate; try (destruct H; discriminate); try (destruct H; contradiction); auto.
Qed.

Lemma get_phase_iff : forall phases i q, distinct_ids phases ->
  (get_phase phases i = Some q <-> In q phases /\ p_id q = i).
Proof.
  intros phases i q. unfold get_phase, distinct_ids. induction phases as [|p ps IH]; intros D.
  - cbn. split; [discriminate|tauto].
  - cbn [map] in D. inversion D as [|? ? N D']; subst. cbn [find].
    destruct (eqt (p_id p) i) eqn:E.
    + apply eqt_iff in E. split.
      * intros H. injection H as <-. split; [left; reflexivity|exact E].
      * intros [[->|I] Q]; [reflexivity|]. exfalso. apply N. rewrite E, <- Q.
        apply in_map. exact I.
    + rewrite (IH D'). split.
      * intros [I Q]. split; [right; exact I|exact Q].
      * intros [[->|I] Q]; [|auto]. rewrite Q, eqt_refl in E. discriminate.
Qed.

Lemma get_phase_none : forall phases i,
  get_phase phases i = None <-> ~ In i (map p_id phases).
Proof.
  intros phases i. unfold get_phase. induction phases as [|p ps IH].
  - cbn. tauto.
  - cbn [find map]. destruct (eqt (p_id p) i) eqn:E.
    + apply eqt_iff in E. split; [discriminate|]. intros H. exfalso. apply H. left. exact E.
    + rewrite IH. split.
      * intros N [H|H]; [|contradiction]. rewrite H, eqt_refl in E. discriminate.
      * intros N H. apply N. right. exact H.
Qed.

Lemma flat_map_nil : forall (A B : Type) (f : A -> list B) l,
  flat_map f l = [] <-> forall x, In x l -> f x = [].
Proof.
  intros A B f l. induction l as [|x l IH]; cbn [flat_map].
  - split; [intros _ y []|reflexivity].
  - split.
    + intros H. apply app_eq_nil in H. destruct H as [H1 H2]. intros y [<-|I]; [exact H1|].
      apply IH; assumption.
    + intros H. rewrite (H x (or_introl eq_refl)). apply IH. intros y I. apply H. right. exact I.
Qed.

Lemma filter_nil : forall (A : Type) (f : A -> bool) l,
  filter f l = [] <-> forall x, In x l -> f x = false.
Proof.
  intros A f l. induction l as [|x l IH]; cbn [filter].
  - split; [intros _ y []|reflexivity].
  - destruct (f x) eqn:E.
    + split; [discriminate|]. intros H. rewrite (H x (or_introl eq_refl)) in E. discriminate.
    + rewrite IH. split.
      * intros H y [<-|I]; auto.
      * intros H y I. apply H. right. exact I.
Qed.

Lemma blockers_nil : forall phases p, distinct_ids phases ->
  (prerequisite_blockers phases p = ([], []) <->
   forall i, In i (p_prereqs p) -> exists q, In q phases /\ p_id q = i /\ closed q).
Proof.
  intros phases p D. unfold prerequisite_blockers. cbv zeta. split.
  - intros H. injection H as H1 H2. rewrite flat_map_nil in H1. rewrite filter_nil in H2.
    intros i I. assert (I' : In i (sort_by leb_phase (p_prereqs p))) by (apply sort_in; exact I).
    specialize (H1 i I'). specialize (H2 i I').
    destruct (get_phase phases i) as [q|] eqn:G; [|discriminate].
    destruct (closeout_issues q =? 0) eqn:C; [|discriminate]. apply Nat.eqb_eq in C.
    apply (get_phase_iff phases i q D) in G. exists q. split; [apply G|]. split; [apply G|].
    apply closeout_closed. exact C.
  - intros H. f_equal.
    + apply flat_map_nil. intros i I. rewrite sort_in in I. destruct (H i I) as (q & Q & E & C).
      rewrite (proj2 (get_phase_iff phases i q D) (conj Q E)).
      apply closeout_closed in C. rewrite C. reflexivity.
    + apply filter_nil. intros i I. rewrite sort_in in I. destruct (H i I) as (q & Q & E & C).
      rewrite (proj2 (get_phase_iff phases i q D) (conj Q E)). reflexivity.
Qed.

Lemma no_blockers_iff : forall phases p,
  no_blockers phases p = true <-> prerequisite_blockers phases p = ([], []).
Proof.
  intros phases p. unfold no_blockers.
  destruct (prerequisite_blockers phases p) as [[|? ?] [|? ?]]; split; intros H;
    try reflexivity; discriminate.
Qed.

Lemma eligible_b : forall phases p, distinct_ids phases -> In p phases ->
  (status_is_not_started (p_status p) && p_resolvable p && no_blockers phases p = true <->
   eligible phases p).
Proof.
  intros phases p D I. rewrite !andb_true_iff, not_started_says, no_blockers_iff, blockers_nil
    by exact D. unfold eligible. tauto.
Qed.

Lemma frontier_iff : forall phases i, distinct_ids phases ->
  (In i (eligible_frontier phases) <-> exists p, eligible phases p /\ p_id p = i).
Proof.
  intros phases i D. unfold eligible_frontier. rewrite in_map_iff. split.
  - intros (p & <- & H). apply filter_In in H. destruct H as [I H]. rewrite sort_in in I.
    exists p. split; [apply eligible_b; assumption|reflexivity].
  - intros (p & E & <-). exists p. split; [reflexivity|]. apply filter_In.
    split; [apply sort_in; apply E|]. apply eligible_b; [exact D|apply E|exact E].
Qed.

Lemma map_nodup_filter : forall (A B : Type) (g : A -> B) f l,
  NoDup (map g l) -> NoDup (map g (filter f l)).
Proof.
  intros A B g f l N. induction l as [|x l IH]; [constructor|]. cbn [map] in N.
  inversion N as [|? ? N1 N2]; subst. cbn [filter]. destruct (f x); [|apply IH; exact N2].
  cbn [map]. constructor; [|apply IH; exact N2]. intros H. apply N1.
  apply in_map_iff in H. destruct H as (y & E & I). apply filter_In in I. rewrite <- E.
  apply in_map. apply I.
Qed.

Lemma insert_map_nodup : forall (A B : Type) (g : A -> B) (le : A -> A -> bool) x l,
  NoDup (map g l) -> ~ In (g x) (map g l) -> NoDup (map g (insert_by le x l)).
Proof.
  intros A B g le x l. induction l as [|y l IH]; intros N X; cbn [insert_by].
  - constructor; [exact X|exact N].
  - destruct (le x y).
    + cbn [map]. constructor; [exact X|exact N].
    + cbn [map] in *. inversion N as [|? ? N1 N2]; subst. constructor.
      * intros H. apply in_map_iff in H. destruct H as (z & E & I). apply insert_in in I.
        destruct I as [->|I]; [apply X; left; symmetry; exact E|].
        apply N1. rewrite <- E. apply in_map. exact I.
      * apply IH; [exact N2|]. intros I. apply X. right. exact I.
Qed.

Lemma sort_map_nodup : forall (A B : Type) (g : A -> B) (le : A -> A -> bool) l,
  NoDup (map g l) -> NoDup (map g (sort_by le l)).
Proof.
  intros A B g le l. induction l as [|x l IH]; intros N; [constructor|]. cbn [sort_by].
  cbn [map] in N. inversion N as [|? ? N1 N2]; subst. apply insert_map_nodup; [apply IH; exact N2|].
  intros H. apply N1. apply in_map_iff in H. destruct H as (z & E & I). rewrite sort_in in I.
  rewrite <- E. apply in_map. exact I.
Qed.

Lemma frontier_nodup : forall phases, distinct_ids phases -> NoDup (eligible_frontier phases).
Proof. intros phases D. unfold eligible_frontier. apply map_nodup_filter, sort_map_nodup. exact D. Qed.

(** Increasing in an order: every element before the later ones. *)
Fixpoint increasing (le : text -> text -> bool) (l : list text) : Prop :=
  match l with
  | [] => True
  | x :: r => (forall y, In y r -> le x y = true) /\ increasing le r
  end.

Lemma ordered_filter_map : forall f (l : list phase), ordered by_phase l ->
  increasing leb_phase (map p_id (filter f l)).
Proof.
  intros f l. induction l as [|x l IH]; intros O; [exact I|]. cbn [ordered] in O.
  destruct O as [O1 O2]. cbn [filter]. destruct (f x); [|apply IH; exact O2].
  cbn [map increasing]. split; [|apply IH; exact O2]. intros y Y.
  apply in_map_iff in Y. destruct Y as (q & <- & Q). apply filter_In in Q.
  apply (O1 q). apply Q.
Qed.

Lemma frontier_increasing : forall phases, increasing leb_phase (eligible_frontier phases).
Proof.
  intros phases. unfold eligible_frontier. apply ordered_filter_map, sort_ordered.
  - intros a b. apply leb_phase_total.
  - intros a b c. apply leb_phase_trans.
Qed.

Lemma blocked_iff : forall phases i, distinct_ids phases ->
  (In i (blocked_candidates phases) <->
   exists p, In p phases /\ p_id p = i /\ status_says "not started" (p_status p) /\
             ~ eligible phases p).
Proof.
  intros phases i D. unfold blocked_candidates. rewrite in_map_iff.
  assert (B : forall p, In p phases ->
    ((let (blockers, unknown) := prerequisite_blockers phases p in
      negb ((if p_resolvable p then 0 else 1) + List.length unknown +
            List.length blockers =? 0)) = true <->
     ~ (p_resolvable p = true /\ prerequisite_blockers phases p = ([], [])))).
  { intros p _. destruct (prerequisite_blockers phases p) as [bs us].
    rewrite negb_true_iff, Nat.eqb_neq. split.
    - intros H [R1 E]. injection E as -> ->. rewrite R1 in H. apply H. reflexivity.
    - intros H Z. apply H. destruct (p_resolvable p); [|cbn in Z; discriminate].
      split; [reflexivity|]. destruct us; [|cbn in Z; discriminate].
      destruct bs; [reflexivity|cbn in Z; discriminate]. }
  split.
  - intros (p & <- & H). apply filter_In in H. destruct H as [I H]. rewrite sort_in in I.
    apply andb_true_iff in H. destruct H as [S1 H]. apply not_started_says in S1.
    apply (B p I) in H. exists p. split; [exact I|]. split; [reflexivity|]. split; [exact S1|].
    intros (_ & _ & R1 & Q). apply H. split; [exact R1|]. apply blockers_nil; assumption.
  - intros (p & I & <- & S1 & N). exists p. split; [reflexivity|]. apply filter_In.
    split; [apply sort_in; exact I|]. apply andb_true_iff. split; [apply not_started_says; exact S1|].
    apply (B p I). intros [R1 Q]. apply N. unfold eligible. split; [exact I|]. split; [exact S1|].
    split; [exact R1|]. apply (blockers_nil phases p D). exact Q.
Qed.

(** What [load_phases] gives. *)
Lemma set_phase_ids : forall d p i, In i (map p_id (set_phase d p)) <-> In i (map p_id d) \/ i = p_id p.
Proof.
  intros d p i. induction d as [|q d IH]; cbn [set_phase map].
  - cbn. split; [intros [<-|[]]; auto|intros [[]| ->]; auto].
  - destruct (eqt (p_id q) (p_id p)) eqn:E.
    + apply eqt_iff in E. cbn [map]. cbn [In]. rewrite E. intuition.
    + cbn [map In]. rewrite IH. tauto.
Qed.

Lemma set_phase_distinct : forall d p, distinct_ids d -> distinct_ids (set_phase d p).
Proof.
  intros d p. unfold distinct_ids. induction d as [|q d IH]; intros D; cbn [set_phase].
  - cbn. constructor; [intros []|constructor].
  - cbn [map] in D. inversion D as [|? ? N D']; subst.
    destruct (eqt (p_id q) (p_id p)) eqn:E.
    + apply eqt_iff in E. cbn [map]. constructor; [rewrite <- E; exact N|exact D'].
    + cbn [map]. constructor; [|apply IH; exact D']. rewrite set_phase_ids. intros [H|H].
      * contradiction.
      * rewrite H, eqt_refl in E. discriminate.
Qed.

Lemma file_id_canonical : forall f i, file_id f = Some i -> canonical i.
Proof.
  intros f i H. unfold file_id in H.
  destruct (phase_id_from_prefix (f_prefix f)) as [j|] eqn:E; [|discriminate].
  apply prefix_normalized, normalize_canonical in E.
  destruct (f_phase f) as [[|c v]|].
  - injection H as <-. exact E.
  - destruct (normalize_phase_id (c :: v)) as [n|] eqn:N.
    + injection H as <-. apply (normalize_canonical _ _ N).
    + injection H as <-. exact E.
  - injection H as <-. exact E.
Qed.

Lemma load_step : forall files d,
  distinct_ids d -> (forall i, In i (map p_id d) -> canonical i) ->
  let e := fold_left (fun d f =>
    match file_id f with
    | None => d
    | Some id => let (ids, ok) := extract_prereqs (f_prose f) in
                 set_phase d (mk_phase id (f_status f) ids ok (f_learnings f))
    end) files d in
  distinct_ids e /\ (forall i, In i (map p_id e) -> canonical i) /\
  (forall i, In i (map p_id e) <-> In i (map p_id d) \/ exists f, In f files /\ file_id f = Some i).
Proof.
  induction files as [|f files IH]; intros d D C; cbn [fold_left].
  - split; [exact D|]. split; [exact C|]. intros i. split; [auto|].
    intros [H|(f & [] & _)]. exact H.
  - destruct (file_id f) as [j|] eqn:E.
    + destruct (extract_prereqs (f_prose f)) as [ids ok].
      destruct (IH (set_phase d (mk_phase j (f_status f) ids ok (f_learnings f)))) as (R1 & R2 & R3).
      * apply set_phase_distinct. exact D.
      * intros i I. apply set_phase_ids in I. destruct I as [I|I]; [apply C; exact I|].
        cbn [p_id] in I. subst i. apply (file_id_canonical _ _ E).
      * split; [exact R1|]. split; [exact R2|]. intros i. rewrite R3, set_phase_ids. cbn [p_id].
        split.
        -- intros [[H|H]|(g & G & F)]; [left; exact H|right; exists f|right; exists g].
           ++ split; [left; reflexivity|]. rewrite E, H. reflexivity.
           ++ split; [right; exact G|exact F].
        -- intros [H|(g & [<-|G] & F)]; [left; left; exact H|left; right|right; exists g; auto].
           rewrite E in F. injection F as ->. reflexivity.
    + destruct (IH d D C) as (R1 & R2 & R3). split; [exact R1|]. split; [exact R2|].
      intros i. rewrite R3. split.
      * intros [H|(g & G & F)]; [auto|]. right. exists g. split; [right; exact G|exact F].
      * intros [H|(g & [<-|G] & F)]; [auto| |].
        -- rewrite E in F. discriminate.
        -- right. exists g. auto.
Qed.

Lemma load_ids : forall files,
  distinct_ids (load_phases files) /\
  (forall i, In i (map p_id (load_phases files)) -> canonical i) /\
  (forall i, In i (map p_id (load_phases files)) <-> exists f, In f files /\ file_id f = Some i).
Proof.
  intros files. destruct (load_step files [] ltac:(constructor) ltac:(intros i [])) as (R1 & R2 & R3).
  split; [exact R1|]. split; [exact R2|]. intros i. unfold load_phases. rewrite R3.
  split; [intros [[]|H]; exact H|auto].
Qed.

(** Work goes on as long as the prerequisites are well founded. *)
Lemma progress_lemma : forall phases (rank : text -> nat), distinct_ids phases ->
  (forall p, In p phases ->
     closed p \/ (status_says "not started" (p_status p) /\ p_resolvable p = true)) ->
  (forall p i, In p phases -> In i (p_prereqs p) ->
     exists q, In q phases /\ p_id q = i /\ rank i < rank (p_id p)) ->
  (exists p, In p phases /\ ~ closed p) ->
  exists p, eligible phases p.
Proof.
  intros phases rank D H W (p0 & I0 & N0).
  assert (X : forall n p, rank (p_id p) < n -> In p phases -> ~ closed p ->
              exists q, eligible phases q).
  { induction n as [|n IH]; intros p L I N; [lia|].
    destruct (H p I) as [C|[S1 R1]]; [contradiction|].
    destruct (forallb (fun i => match get_phase phases i with
                                | Some q => closeout_issues q =? 0
                                | None => false
                                end) (p_prereqs p)) eqn:F.
    - exists p. split; [exact I|]. split; [exact S1|]. split; [exact R1|].
      intros i J. rewrite forallb_forall in F. specialize (F i J).
      destruct (get_phase phases i) as [q|] eqn:G; [|discriminate].
      apply (get_phase_iff phases i q D) in G. apply Nat.eqb_eq, closeout_closed in F.
      exists q. split; [apply G|]. split; [apply G|exact F].
    - assert (Y : exists i, In i (p_prereqs p) /\
                  match get_phase phases i with
                  | Some q => closeout_issues q =? 0
                  | None => false
                  end = false).
      { clear -F. induction (p_prereqs p) as [|i l IHl]; [discriminate|].
        cbn [forallb] in F. apply andb_false_iff in F. destruct F as [F|F].
        - exists i. split; [left; reflexivity|exact F].
        - destruct (IHl F) as (j & J & E). exists j. split; [right; exact J|exact E]. }
      destruct Y as (i & J & E). destruct (W p i I J) as (q & Q & EQ & LT).
      apply (IH q); [rewrite EQ; lia|exact Q|]. intros C. apply closeout_closed in C.
      rewrite (proj2 (get_phase_iff phases i q D) (conj Q EQ)) in E.
      rewrite C in E. discriminate. }
  apply (X (S (rank (p_id p0))) p0); auto.
Qed.

(* ------------------------------------------------------------------ *)
(** * The answer of the resolver *)

Lemma resolve_plain : forall phases, phases <> [] ->
  resolve_phase phases None None =
  match eligible_frontier phases with
  | [] => phase_blocked (blocked_candidates phases)
  | [i] => phase_ready i
  | is => phase_choose is
  end.
Proof.
  intros [|p ps] N; [contradiction|]. unfold resolve_phase. cbn [argument negb orb].
  destruct (eligible_frontier (p :: ps)) as [|i [|j l]]; reflexivity.
Qed.

Lemma argument_some : forall v, v <> [] -> argument (Some v) =
  match normalize_phase_id v with Some n => Some (Some n) | None => None end.
Proof. intros [|c v] N; [contradiction|reflexivity]. Qed.

Lemma resolve_target : forall phases v i, distinct_ids phases -> v <> [] ->
  (resolve_phase phases None (Some v) = phase_ready i <->
   normalize_phase_id v = Some i /\ exists p, eligible phases p /\ p_id p = i).
Proof.
  intros phases v i D N. unfold resolve_phase. rewrite (argument_some v N).
  destruct phases as [|p0 ps].
  { split; [discriminate|]. intros (_ & p & ([] & _) & _). }
  set (phases := p0 :: ps) in *. clearbody phases. clear p0 ps.
  cbn [argument]. destruct (normalize_phase_id v) as [n|] eqn:E.
  2:{ split; [discriminate|]. intros [X _]. discriminate. }
  destruct (get_phase phases n) as [p|] eqn:G.
  - cbn [negb orb]. apply (get_phase_iff phases n p D) in G. destruct G as [I P].
    assert (UNIQ : forall q, In q phases -> p_id q = n -> q = p).
    { intros q Q X. pose proof (proj2 (get_phase_iff phases n q D) (conj Q X)) as Y1.
      pose proof (proj2 (get_phase_iff phases n p D) (conj I P)) as Y2.
      rewrite Y1 in Y2. injection Y2 as ->. reflexivity. }
    assert (NC : status_is_not_started (p_status p) = true -> status_is_complete (p_status p) = false).
    { intros S1. destruct (status_is_complete (p_status p)) eqn:C; auto.
      unfold status_is_complete, status_is_not_started in *.
      destruct (p_status p) as [t|]; [|discriminate]. apply starts_iff in C. apply starts_iff in S1.
      destruct C as (a & C). destruct S1 as (b & S1). rewrite C in S1. discriminate. }
    split.
    + intros H. destruct (status_is_complete (p_status p)); [discriminate|].
      destruct (status_is_not_started (p_status p)) eqn:S1; [|discriminate].
      destruct (p_resolvable p) eqn:R1; [|discriminate]. cbn [negb] in H.
      destruct (prerequisite_blockers phases p) as [[|? ?] [|? ?]] eqn:B; try discriminate.
      injection H as <-. split; [reflexivity|]. exists p. split; [|exact P].
      split; [exact I|]. split; [apply not_started_says; exact S1|]. split; [exact R1|].
      apply (blockers_nil phases p D). exact B.
    + intros [X (q & Q & QI)]. injection X as X. subst i.
      rewrite (UNIQ q (proj1 Q) QI) in Q. destruct Q as (_ & S1 & R1 & W).
      apply not_started_says in S1. rewrite (NC S1), S1, R1. cbn [negb].
      rewrite (proj2 (blockers_nil phases p D) W). congruence.
  - cbn [negb orb]. split; [discriminate|]. intros [X (p & Q & QI)]. injection X as X.
    apply get_phase_none in G. exfalso. apply G. rewrite X, <- QI. apply in_map. apply Q.
Qed.

Lemma in_singleton_filter : forall (f : text -> bool) l i,
  filter f l = [i] -> In i l.
Proof.
  intros f l i H. assert (I : In i (filter f l)) by (rewrite H; left; reflexivity).
  apply filter_In in I. apply I.
Qed.

(** Whatever the arguments, an offered phase is eligible. *)
Lemma resolve_offers : forall phases c t, distinct_ids phases ->
  (forall i, resolve_phase phases c t = phase_ready i ->
     exists p, eligible phases p /\ p_id p = i) /\
  (forall is, resolve_phase phases c t = phase_choose is ->
     2 <= List.length is /\ NoDup is /\
     forall i, In i is -> exists p, eligible phases p /\ p_id p = i).
Proof.
  intros phases c t D.
  assert (SUB : forall l, (forall i, In i l -> In i (eligible_frontier phases)) -> NoDup l ->
    forall r, match l with
              | [] => phase_blocked (blocked_candidates phases)
              | [i] => phase_ready i
              | is => phase_choose is
              end = r ->
    (forall i, r = phase_ready i -> exists p, eligible phases p /\ p_id p = i) /\
    (forall is, r = phase_choose is -> 2 <= List.length is /\ NoDup is /\
       forall i, In i is -> exists p, eligible phases p /\ p_id p = i)).
  { intros l L ND r E. destruct l as [|x [|y l]]; subst r; split; intros z Z; try discriminate.
    - injection Z as <-. apply frontier_iff; [exact D|]. apply L. left. reflexivity.
    - injection Z as <-. split; [cbn; lia|]. split; [exact ND|]. intros i I.
      apply frontier_iff; [exact D|]. apply L. exact I. }
  unfold resolve_phase. destruct phases as [|p0 ps].
  { split; intros x H; discriminate. }
  set (phases := p0 :: ps) in *. clearbody phases. clear p0 ps.
  destruct (argument c) as [c'|]; [|split; intros x H; discriminate].
  destruct (argument t) as [t'|]; [|split; intros x H; discriminate].
  match goal with |- context [if ?b then _ else _] => destruct b end;
    [split; intros x H; discriminate|].
  destruct t' as [n|].
  - destruct (get_phase phases n) as [p|] eqn:G; [|split; intros x H; discriminate].
    apply (get_phase_iff phases n p D) in G. destruct G as [I P].
    destruct (status_is_complete (p_status p)); [split; intros x H; discriminate|].
    destruct (status_is_not_started (p_status p)) eqn:S1; [|split; intros x H; discriminate].
    destruct (p_resolvable p) eqn:R1; [|split; intros x H; discriminate]. cbn [negb].
    destruct (prerequisite_blockers phases p) as [[|? ?] [|? ?]] eqn:B;
      split; intros x H; try discriminate.
    injection H as <-. exists p. split; [|exact P].
    split; [exact I|]. split; [apply not_started_says; exact S1|]. split; [exact R1|].
    apply (blockers_nil phases p D). exact B.
  - eapply SUB; [| |reflexivity].
    + intros i. destruct c' as [d|]; [|auto].
      match goal with |- context [filter ?f ?l] =>
        pose proof (fun x => proj1 (filter_In f x l)) as FI; destruct (filter f l) eqn:FE
      end; [auto|]. intros I. apply (FI i). exact I.
    + destruct c' as [d|]; [|apply frontier_nodup; exact D].
      match goal with |- context [filter ?f ?l] =>
        pose proof (NoDup_filter f (frontier_nodup phases D)) as FI; destruct (filter f l) eqn:FE
      end; [apply frontier_nodup; exact D|exact FI].
Qed.

(** After a phase was completed, the eligible phases that wait for it come
    first; the others are offered only when there is none of them. *)
Definition waits (phases : list phase) (d : text) (i : text) : Prop :=
  exists p, eligible phases p /\ p_id p = i /\ In d (p_prereqs p).

Lemma resolve_completed : forall phases v d, distinct_ids phases -> v <> [] ->
  normalize_phase_id v = Some d -> In d (map p_id phases) ->
  exists l : list text,
    resolve_phase phases (Some v) None =
      match l with
      | [] => phase_blocked (blocked_candidates phases)
      | [i] => phase_ready i
      | is => phase_choose is
      end /\
    NoDup l /\ increasing leb_phase l /\
    ((exists i, waits phases d i) -> forall i, In i l <-> waits phases d i) /\
    ((forall i, ~ waits phases d i) -> l = eligible_frontier phases).
Proof.
  intros phases v d D N E K.
  set (f := fun i => match get_phase phases i with
                     | Some p => mem d (p_prereqs p)
                     | None => false
                     end).
  assert (W : forall i, In i (filter f (eligible_frontier phases)) <-> waits phases d i).
  { intros i. rewrite filter_In, (frontier_iff phases i D). unfold f. split.
    - intros [(p & EL & P) M].
      rewrite (proj2 (get_phase_iff phases i p D) (conj (proj1 EL) P)) in M.
      apply mem_iff in M. exists p. auto.
    - intros (p & EL & P & M). split; [exists p; auto|].
      rewrite (proj2 (get_phase_iff phases i p D) (conj (proj1 EL) P)).
      apply mem_iff. exact M. }
  exists (match filter f (eligible_frontier phases) with
          | [] => eligible_frontier phases
          | us => us
          end).
  split.
  { unfold resolve_phase. rewrite (argument_some v N), E. cbn [argument].
    destruct phases as [|p0 ps]; [destruct K|]. set (phases := p0 :: ps) in *.
    destruct (get_phase phases d) as [q|] eqn:G.
    - cbn [negb orb]. reflexivity.
    - apply get_phase_none in G. contradiction. }
  assert (INC : forall l, increasing leb_phase l -> increasing leb_phase (filter f l)).
  { induction l as [|x l IH]; intros O; [exact I|]. cbn [increasing] in O. destruct O as [O1 O2].
    cbn [filter]. destruct (f x); [|apply IH; exact O2]. cbn [increasing].
    split; [|apply IH; exact O2]. intros y Y. apply filter_In in Y. apply O1. apply Y. }
  pose proof (NoDup_filter f (frontier_nodup phases D)) as ND.
  specialize (INC _ (frontier_increasing phases)).
  destruct (filter f (eligible_frontier phases)) as [|x l].
  - split; [apply frontier_nodup; exact D|]. split; [apply frontier_increasing|]. split.
    + intros (i & Q). apply W in Q. destruct Q.
    + reflexivity.
  - split; [exact ND|]. split; [exact INC|]. split.
    + intros _ i. apply W.
    + intros Q. exfalso. apply (Q x). apply W. left. reflexivity.
Qed.

(* ------------------------------------------------------------------ *)
(** * The two scripts *)

Lemma directories_agree : forall f slug,
  f_prefix f <> [] -> forallb is_digit (f_prefix f) = true ->
  task_directory (codes "phase-" ++ f_prefix f ++ codes "-" ++ slug) = Some (prompt_directory f).
Proof.
  intros f slug N F. unfold task_directory, task_phase_number.
  rewrite (proj2 (after_iff (codes "phase-") _ _) eq_refl).
  rewrite (span_unique is_digit (f_prefix f) (codes "-" ++ slug) F eq_refl).
  unfold prompt_directory. rewrite (digits_lower _ F).
  destruct (f_prefix f); [contradiction|reflexivity].
Qed.

Lemma key_value_status : forall v, v <> [] -> trimmed v ->
  key_value (codes "status: " ++ v) = Some (codes "status", unquote v).
Proof.
  intros v N T. unfold key_value.
  change (drop_while is_space (codes "status: " ++ v)) with (codes "status: " ++ v).
  change (codes "status: " ++ v) with (codes "status" ++ (58 :: 32 :: v)).
  rewrite (span_unique key_char (codes "status") (58 :: 32 :: v) eq_refl eq_refl).
  change (strip (32 :: v)) with (strip (32 :: v)).
  assert (E : strip (32 :: v) = v).
  { pose proof (strip_pad [32] v [] eq_refl eq_refl T) as X. rewrite app_nil_r in X. exact X. }
  cbn [codes map list_ascii_of_string]. cbv beta iota.
  change (drop_while is_space (58 :: 32 :: v)) with (58 :: 32 :: v). cbv iota.
  rewrite E. destruct v; [contradiction|reflexivity].
Qed.

Lemma task_status_line : forall v rest, v <> [] -> trimmed v ->
  task_phase_status (codes "---" :: (codes "status: " ++ v) :: rest) = v.
Proof.
  intros v rest N T. unfold task_phase_status.
  change (eqt (strip (codes "---")) (codes "---")) with true. cbv iota.
  cbn [status_in].
  replace (eqt (strip (codes "status: " ++ v)) (codes "---")) with false.
  - unfold status_line.
    change (drop_while is_space (codes "status: " ++ v)) with (codes "status" ++ 58 :: 32 :: v).
    rewrite (proj2 (after_iff (codes "status") _ _) eq_refl).
    change (drop_while is_space (58 :: 32 :: v)) with (58 :: 32 :: v). cbv iota.
    assert (E : strip (32 :: v) = v).
    { pose proof (strip_pad [32] v [] eq_refl eq_refl T) as X. rewrite app_nil_r in X. exact X. }
    rewrite E. destruct v; [contradiction|reflexivity].
  - symmetry. apply eqt_neq. intros E.
    assert (TT : trimmed (codes "status: " ++ v)).
    { split; [reflexivity|]. rewrite rev_app_distr. destruct T as [_ T].
      destruct (rev v) as [|c r] eqn:R1; [|exact T]. exfalso. apply N.
      rewrite <- (rev_involutive v), R1. reflexivity. }
    rewrite (strip_trimmed _ TT) in E. discriminate E.
Qed.

(** A status of one plain word. *)
Lemma status_agree : forall v rest, v <> [] -> trimmed v ->
  (forall c r, v = c :: r -> c <> 39 /\ c <> 34) ->
  (lower v = codes "complete" \/ forall r, lower v <> codes "complete" ++ r) ->
  exists s, key_value (codes "status: " ++ v) = Some (codes "status", s) /\
    task_phase_open (codes "---" :: (codes "status: " ++ v) :: rest) =
      negb (status_is_complete (Some s)).
Proof.
  intros v rest N T Q C. exists (unquote v). split; [apply key_value_status; assumption|].
  unfold task_phase_open. rewrite task_status_line by assumption. f_equal.
  assert (U : unquote v = v).
  { destruct v as [|c r]; [reflexivity|]. destruct (Q c r eq_refl) as [Q1 Q2].
    cbn [unquote]. apply Nat.eqb_neq in Q1. apply Nat.eqb_neq in Q2. rewrite Q1, Q2. reflexivity. }
  rewrite U. unfold status_is_complete. rewrite (strip_trimmed v T).
  destruct C as [C|C].
  - rewrite C, eqt_refl. reflexivity.
  - rewrite eqt_neq by (intros E; apply (C []); rewrite E; reflexivity).
    symmetry. apply (bool_false_iff _ _ (starts_iff _ _)). intros (r & E). apply (C r E).
Qed.

(* ------------------------------------------------------------------ *)
(** * The next task *)

(** An id such as [5.3b]: numbers with dots between them, and letters. *)
Definition written_numbers (nums : list text) : Prop :=
  nums <> [] /\ forall n, In n nums -> n <> [] /\ forallb is_digit n = true.

Lemma dotted_written : forall nums fuel rest,
  (forall n, In n nums -> n <> [] /\ forallb is_digit n = true) ->
  List.length (flat_map (fun n => 46 :: n) nums) <= fuel ->
  stops is_digit rest -> stops (Nat.eqb 46) rest ->
  dotted fuel (flat_map (fun n => 46 :: n) nums ++ rest) = (nums, rest).
Proof.
  induction nums as [|n nums IH]; intros fuel rest W L S1 S2.
  - cbn [flat_map app]. destruct fuel; [reflexivity|]. cbn [dotted].
    destruct rest as [|c r]; [reflexivity|]. cbn [stops] in S2. apply Nat.eqb_neq in S2.
    do 46 (destruct c as [|c]; [reflexivity|]). destruct c as [|c]; [contradiction|reflexivity].
  - cbn [flat_map] in *. rewrite <- app_comm_cons in *. cbn [List.length] in L.
    rewrite app_length in L. destruct fuel as [|fuel]; [lia|].
    cbn [app dotted]. rewrite <- app_assoc.
    destruct (W n (or_introl eq_refl)) as [NE F].
    rewrite (span_unique is_digit n _ F).
    2:{ destruct nums as [|m nums]; [exact S1|reflexivity]. }
    destruct n as [|d n]; [contradiction|].
    rewrite IH; [reflexivity| |lia|exact S1|exact S2].
    intros m I. apply W. right. exact I.
Qed.

Lemma glue_flat : forall n nums, glue 46 (n :: nums) = n ++ flat_map (fun m => 46 :: m) nums.
Proof.
  intros n nums. revert n. induction nums as [|m nums IH]; intros n.
  - cbn. rewrite app_nil_r. reflexivity.
  - change (glue 46 (n :: m :: nums)) with (n ++ 46 :: glue 46 (m :: nums)). rewrite IH.
    reflexivity.
Qed.

Lemma parse_written : forall nums letters,
  written_numbers nums -> forallb is_letter letters = true ->
  parse_id_key (glue 46 nums ++ letters) = (map digits_value nums, lower letters).
Proof.
  intros nums letters [NE W] L. destruct nums as [|n nums]; [contradiction|].
  destruct (W n (or_introl eq_refl)) as [NN F]. unfold parse_id_key.
  rewrite glue_flat, <- app_assoc.
  destruct (digits_head n NN F) as (d & r & E & D).
  assert (LT : forall f, (forall c, 65 <= c <= 90 \/ 97 <= c <= 122 -> f c = false) -> stops f letters).
  { intros f H. destruct letters as [|c l]; [exact I|]. cbn [stops]. apply H.
    apply letter_between. cbn [forallb] in L. apply andb_true_iff in L. tauto. }
  assert (SD : stops is_digit letters) by (apply LT; intros c C; apply digit_false; lia).
  assert (SP : stops is_space letters) by (apply LT; intros c C; apply space_false; lia).
  assert (SO : stops (Nat.eqb 46) letters).
  { apply LT. intros c C. apply Nat.eqb_neq. lia. }
  rewrite drop_while_stops.
  2:{ rewrite E. cbn [app stops]. rewrite D. reflexivity. }
  rewrite (span_unique is_digit n _ F).
  2:{ destruct nums as [|m nums]; [exact SD|reflexivity]. }
  destruct n as [|d0 n0]; [contradiction|]. cbv iota.
  rewrite dotted_written.
  - rewrite (drop_while_stops is_space letters SP).
    pose proof (span_unique is_letter letters [] L I) as X. rewrite app_nil_r in X.
    rewrite X. reflexivity.
  - intros m J. apply W. right. exact J.
  - rewrite app_length. lia.
  - exact SD.
  - exact SO.
Qed.

(** The first of the tasks that are not finished, in the order of the keys and
    then of the table. *)
Definition next_task (tasks : list task) (t : task) : Prop :=
  exists l1 l2, tasks = l1 ++ t :: l2 /\ ~ says terminal_words (t_status t) /\
    (forall y, In y l1 -> ~ says terminal_words (t_status y) -> key_before (t_key t) (t_key y)) /\
    (forall y, In y l2 -> ~ says terminal_words (t_status y) -> ~ key_before (t_key y) (t_key t)).

Lemma open_says : forall t, negb (t_done t) = true <-> ~ says terminal_words (t_status t).
Proof.
  intros t. rewrite negb_true_iff. apply bool_false_iff. exact (done_says (t_status t)).
Qed.

Lemma next_first : forall tasks t,
  find (fun t => negb (t_done t)) (sort_by task_le tasks) = Some t <-> next_task tasks t.
Proof.
  intros tasks t. rewrite (find_sort_iff task_le task_le_total task_le_trans).
  unfold first_least, next_task.
  split; intros (l1 & l2 & E & P & A & B); exists l1, l2; split; try exact E;
    split; try (apply open_says; exact P); split; intros y Y O.
  - apply leb_key_false. apply (A y Y). apply open_says. exact O.
  - apply leb_key_true. apply (B y Y). apply open_says. exact O.
  - apply leb_key_false. apply (A y Y). apply open_says. exact O.
  - apply leb_key_true. apply (B y Y). apply open_says. exact O.
Qed.

Lemma next_answer : forall lines tasks, find_tasks_table lines = Some tasks -> tasks <> [] ->
  (resolve_task lines None = all_done <->
     forall t, In t tasks -> says terminal_words (t_status t)) /\
  (forall t, resolve_task lines None = task_ready t <->
     next_task tasks t /\ ~ says [codes "blocked"] (t_status t)) /\
  (forall t, resolve_task lines None = task_blocked t <->
     next_task tasks t /\ says [codes "blocked"] (t_status t)) /\
  (forall t, resolve_task lines None <> task_done t) /\
  resolve_task lines None <> task_error.
Proof.
  intros lines tasks F N.
  assert (E : resolve_task lines None =
    match find (fun t => negb (t_done t)) (sort_by task_le tasks) with
    | Some t => emit t | None => all_done end).
  { unfold resolve_task. rewrite F. destruct tasks; [contradiction|reflexivity]. }
  rewrite E. clear E.
  destruct (find (fun t => negb (t_done t)) (sort_by task_le tasks)) as [u|] eqn:G.
  - assert (NX := G). rewrite next_first in NX.
    assert (UQ : forall t, next_task tasks t -> t = u).
    { intros t H. apply next_first in H. rewrite G in H. injection H as ->. reflexivity. }
    assert (O : t_done u = false).
    { destruct NX as (l1 & l2 & _ & P & _). apply open_says, negb_true_iff in P. exact P. }
    assert (IU : In u tasks).
    { destruct NX as (l1 & l2 & -> & _). apply in_or_app. right. left. reflexivity. }
    unfold emit. rewrite O. destruct (t_blocked u) eqn:B.
    + unfold t_blocked in B. rewrite blocked_says in B.
      split; [split; [discriminate|]|split; [|split; [|split; discriminate]]].
      * intros H. pose proof (proj2 (done_says _) (H u IU)) as Z. unfold t_done in O. congruence.
      * intros t. split; [discriminate|]. intros [H X]. apply UQ in H. subst t. contradiction.
      * intros t. split.
        -- intros H. injection H as <-. split; [exact NX|exact B].
        -- intros [H X]. apply UQ in H. subst t. reflexivity.
    + assert (B' : ~ says [codes "blocked"] (t_status u)).
      { apply (proj1 (bool_false_iff _ _ (blocked_says (t_status u)))). exact B. }
      split; [split; [discriminate|]|split; [|split; [|split; discriminate]]].
      * intros H. pose proof (proj2 (done_says _) (H u IU)) as Z. unfold t_done in O. congruence.
      * intros t. split.
        -- intros H. injection H as <-. split; [exact NX|exact B'].
        -- intros [H X]. apply UQ in H. subst t. reflexivity.
      * intros t. split; [discriminate|]. intros [H X]. apply UQ in H. subst t. contradiction.
  - rewrite (find_sort_none task_le) in G.
    assert (NN : forall t, ~ next_task tasks t).
    { intros t (l1 & l2 & E & P & _). apply open_says in P. rewrite G in P; [discriminate|].
      rewrite E. apply in_or_app. right. left. reflexivity. }
    split; [|split; [|split; [|split; discriminate]]].
    + split; [|reflexivity]. intros _ t I. apply (proj1 (done_says (t_status t))).
      specialize (G t I). apply negb_false_iff in G. exact G.
    + intros t. split; [discriminate|]. intros [H _]. destruct (NN t H).
    + intros t. split; [discriminate|]. intros [H _]. destruct (NN t H).
Qed.
