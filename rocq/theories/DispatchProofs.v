(** Lemmas about DispatchModel and the words its theorems are stated in. *)
From Coq Require Import List Arith Bool ZArith Lia.
From Verif Require Import PyBase DispatchModel.
Import ListNotations.
Local Open Scope nat_scope.

Section Words.
Variable F : Type.
Variable f0 : F.
Variable of_int : Z -> option F.
Variable of_bool : bool -> F.
Notation heap := (list (list F)).

(** What the documentation calls a scalar, and the number it is *)
Inductive is_scalar (h : heap) : val F -> F -> Prop :=
| scalar_float x : is_scalar h (PFloat x) x
| scalar_int z x : of_int z = Some x -> is_scalar h (PInt z) x
| scalar_bool b : is_scalar h (PBool b) (of_bool b)
| scalar_num d x : is_scalar h (PNum d x) x
| scalar_floatable x : is_scalar h (PFloatable x) x
| scalar_array a : shape a = [] -> dt a <> DStr -> dt a <> DObj -> is_scalar h (PArr a) (nth (Z.to_nat (offset a)) (nth (buffer a) h []) f0).

(** Members of a sequence of numbers: Python floats, 64-bit integers and booleans *)
Inductive member : val F -> F -> Prop :=
| member_float x : member (PFloat x) x
| member_int z x : (- 2 ^ 63 <= z < 2 ^ 63)%Z -> of_int z = Some x -> member (PInt z) x
| member_bool b : member (PBool b) (of_bool b).
Definition floating (v : val F) : Prop := exists x, v = PFloat x.

(** A grid: a 1-d binary64 array, in the order of its strides, or a sequence of numbers that is empty or has a
    float among them *)
Inductive is_grid (h : heap) : val F -> list F -> Prop :=
| grid_array n b o s : is_grid h (PArr (Arr (DFloat 8 true) [n] b o [s]))
    (map (fun i => nth (Z.to_nat (o + Z.of_nat i * s)) (nth b h []) f0) (seq 0 n))
| grid_sequence items xs : Forall2 member items xs -> items = [] \/ Exists floating items -> is_grid h (PSeq items) xs.

(** The array [a] of heap [h] has the shape, binary64 type and row-major contents given *)
Definition holds (h : heap) (a : ndarray) (sh : list nat) (xs : list F) : Prop :=
  dt a = DFloat 8 true /\ shape a = sh /\ elements F f0 h a = xs.

Lemma flat_map_single {A B} (f : A -> B) l : flat_map (fun i => [f i]) l = map f l.
Proof. induction l; cbn; [reflexivity|]. now rewrite IHl. Qed.
Lemma nth_end {A} (h : list A) x d : nth (length h) (h ++ [x]) d = x.
Proof. rewrite app_nth2 by lia. now rewrite Nat.sub_diag. Qed.
Lemma map_nth_seq (xs : list F) : map (fun i => nth i xs f0) (seq 0 (length xs)) = xs.
Proof.
  apply (nth_ext _ _ f0 f0); [now rewrite map_length, seq_length|]. intros n Hn. rewrite map_length, seq_length in Hn.
  rewrite (nth_indep _ f0 (nth 0 xs f0)) by (rewrite map_length, seq_length; exact Hn).
  rewrite (map_nth (fun i => nth i xs f0)), seq_nth by exact Hn. reflexivity.
Qed.
Lemma elements_1d h d n b o s :
  elements F f0 h (Arr d [n] b o [s]) = map (fun i => nth (Z.to_nat (o + Z.of_nat i * s)) (nth b h []) f0) (seq 0 n).
Proof.
  unfold elements. cbn [shape indices map]. rewrite (flat_map_single (fun i => [i])), map_map. apply map_ext. intro i.
  unfold item, cell. cbn [buffer offset strides position]. now rewrite Z.add_0_r.
Qed.
Lemma iter_1d h d n b o s :
  iter F f0 h (Arr d [n] b o [s]) = map (fun i => nth (Z.to_nat (o + Z.of_nat i * s)) (nth b h []) f0) (seq 0 n).
Proof. unfold iter. cbn [shape]. apply map_ext. intro i. unfold item, cell. cbn [buffer offset strides position]. now rewrite Z.add_0_r. Qed.
Lemma alloc_1d h d xs h' a : alloc F h d [length xs] xs = (h', a) ->
  h' = h ++ [xs] /\ buffer a = length h /\ dt a = d /\ shape a = [length xs] /\ elements F f0 h' a = xs /\ iter F f0 h' a = xs.
Proof.
  unfold alloc. intro E. injection E as <- <-. cbn [buffer dt shape]. repeat split.
  - cbn [c_strides fold_right]. rewrite elements_1d, nth_end.
    transitivity (map (fun i => nth i xs f0) (seq 0 (length xs))); [|apply map_nth_seq]. apply map_ext. intro i. f_equal. lia.
  - cbn [c_strides fold_right]. rewrite iter_1d, nth_end.
    transitivity (map (fun i => nth i xs f0) (seq 0 (length xs))); [|apply map_nth_seq]. apply map_ext. intro i. f_equal. lia.
Qed.

(** Sequences of numbers *)
Definition mdtype (v : val F) : dtype :=
  match v with PFloat _ => DFloat 8 true | PInt _ => DInt 8 | _ => DBool end.
Lemma discover_member h v x : member v x -> discover F f0 of_int of_bool h v = Ret ([], [(mdtype v, x)]).
Proof.
  intros [y | z y H E | b]; cbn [discover mdtype]; [reflexivity| |reflexivity].
  rewrite E. unfold int_dtype. replace ((- 2 ^ 63 <=? z) && (z <? 2 ^ 63))%Z with true; [reflexivity|].
  symmetry. apply andb_true_intro. split; [apply Z.leb_le|apply Z.ltb_lt]; lia.
Qed.
Lemma list_nat_eqb_refl l : list_nat_eqb l l = true.
Proof. unfold list_nat_eqb. destruct (list_eq_dec _ l l); congruence. Qed.
Lemma discover_members h items xs : Forall2 member items xs ->
  discover F f0 of_int of_bool h (PSeq items) = Ret ([length items], combine (map mdtype items) xs).
Proof.
  intro H. cbn [discover]. induction H as [|v x items xs M H IH]; [reflexivity|].
  rewrite (discover_member h v x M). destruct items as [|w items]; [inversion H; subst; reflexivity|].
  rewrite IH. cbn [bind fst snd length]. change (list_nat_eqb [] []) with true. cbn [app map combine]. reflexivity.
Qed.
Lemma mdtype_cases v x : member v x -> mdtype v = DFloat 8 true \/ mdtype v = DInt 8 \/ mdtype v = DBool.
Proof. intros [ | | ]; cbn; auto. Qed.
Lemma promote_members items xs d : Forall2 member items xs ->
  (d = DFloat 8 true \/ d = DInt 8 \/ d = DBool) ->
  let r := fold_left promote (map mdtype items) d in
  (d = DFloat 8 true \/ Exists floating items -> r = DFloat 8 true) /\
  (d <> DFloat 8 true -> ~ Exists floating items -> r = DInt 8 \/ r = DBool).
Proof.
  intro H. revert d. induction H as [|v x items xs M H IH]; intros d D r.
  - cbn in r. split.
    + intros [E|E]; [exact E|inversion E].
    + intros N _. unfold r. destruct D as [D|[D|D]]; auto. congruence.
  - cbn [map fold_left] in r.
    assert (D' : promote d (mdtype v) = DFloat 8 true \/ promote d (mdtype v) = DInt 8 \/ promote d (mdtype v) = DBool).
    { destruct (mdtype_cases v x M) as [E|[E|E]], D as [D|[D|D]]; subst d; rewrite E; cbn; auto. }
    destruct (IH _ D') as [I1 I2]. split.
    + intro A. apply I1. destruct A as [A|A]; [subst d; left; destruct (mdtype_cases v x M) as [E|[E|E]]; rewrite E; reflexivity|].
      inversion A as [w l [y Y]|w l E']; subst.
      * left. cbn [mdtype]. destruct D as [-> | [-> | ->]]; reflexivity.
      * right. exact E'.
    + intros N A. apply I2.
      * destruct M as [y|z y B E|b].
        { exfalso. apply A. constructor. now exists y. }
        { cbn [mdtype]. destruct D as [D | [-> | ->]]; [congruence| |]; cbn; congruence. }
        { cbn [mdtype]. destruct D as [D | [-> | ->]]; [congruence| |]; cbn; congruence. }
      * intro A'. apply A. now constructor 2.
Qed.
Lemma Forall2_length {A B} (P : A -> B -> Prop) l m : Forall2 P l m -> length l = length m.
Proof. induction 1; cbn; congruence. Qed.
Lemma combine_fst {A B} (l : list A) (m : list B) : length l = length m -> map fst (combine l m) = l.
Proof. revert m. induction l; intros [|b m] H; cbn in *; try congruence. f_equal. apply IHl. lia. Qed.
Lemma combine_snd {A B} (l : list A) (m : list B) : length l = length m -> map snd (combine l m) = m.
Proof. revert m. induction l; intros [|b m] H; cbn in *; try congruence. f_equal. apply IHl. lia. Qed.
Lemma leaves_members items xs : Forall2 member items xs ->
  (items = [] \/ Exists floating items -> leaves_dtype F (combine (map mdtype items) xs) = DFloat 8 true) /\
  (items <> [] -> ~ Exists floating items -> is_float64 (leaves_dtype F (combine (map mdtype items) xs)) = false).
Proof.
  intro H. pose proof (Forall2_length _ _ _ H) as L. unfold leaves_dtype. rewrite combine_fst by (rewrite map_length; exact L).
  destruct H as [|v x items xs M H].
  - cbn. split; [reflexivity|congruence].
  - cbn [map]. destruct (promote_members items xs (mdtype v) H (mdtype_cases v x M)) as [P1 P2]. split.
    + intros [A|A]; [discriminate|]. apply P1. inversion A as [w l [y Y]|w l E']; subst; [left; reflexivity|now right].
    + intros _ A. destruct (P2) as [E|E]; try (rewrite E; reflexivity).
      * destruct M as [y|z y B E|b]; cbn; try congruence. intros _. apply A. constructor. now exists y.
      * intro A'. apply A. now constructor 2.
Qed.
Lemma as_array_members h items xs : Forall2 member items xs ->
  as_numpy_array F f0 of_int of_bool h (PSeq items) = Ret (alloc F h (leaves_dtype F (combine (map mdtype items) xs)) [length xs] xs).
Proof.
  intro H. pose proof (Forall2_length _ _ _ H) as L. unfold as_numpy_array. rewrite (discover_members h items xs H). cbn [bind fst snd].
  rewrite combine_snd by (rewrite map_length; exact L). now rewrite L.
Qed.

(** Classification *)
Lemma classify_scalar h v x : is_scalar h v x -> classify F f0 of_int of_bool h v = (h, Ret (Scalar F x)).
Proof.
  intros [y|z y E|b|d y|y|a S N1 N2]; cbn [classify has_len extract_f64]; try reflexivity; [now rewrite E|].
  unfold classify_array, ndim. rewrite S. cbn [length]. replace (has_numeric_dtype (dt a)) with true by (destruct (dt a); cbn; congruence).
  unfold item, cell. cbn [position]. now rewrite Z.add_0_r.
Qed.
Lemma classify_grid h v xs : is_grid h v xs -> exists h1 a, classify F f0 of_int of_bool h v = (h1, Ret (Vector F a)) /\
  (h1 = h \/ h1 = h ++ [xs]) /\ iter F f0 h1 a = xs.
Proof.
  intros [n b o s|items ys H E].
  - exists h, (Arr (DFloat 8 true) [n] b o [s]). split; [reflexivity|]. split; [now left|]. apply iter_1d.
  - cbn [classify has_len]. rewrite (as_array_members h items ys H). destruct (leaves_members items ys H) as [L _]. rewrite (L E).
    destruct (alloc F h (DFloat 8 true) [length ys] ys) as [h1 a] eqn:A. destruct (alloc_1d _ _ _ _ _ A) as (-> & B & D & S & _ & I).
    exists (h ++ [ys]), a. split; [|split; [now right|exact I]].
    unfold classify_array, ndim. rewrite S, D. reflexivity.
Qed.

(** Induction over nested values, and what can go wrong in np.asarray *)
Lemma val_ind' (P : val F -> Prop) : (forall v, match v with PSeq _ => True | _ => P v end) ->
  (forall items, Forall P items -> P (PSeq items)) -> forall v, P v.
Proof.
  intros H1 H2. fix IH 1. intro v. destruct v; try apply (H1 (PFloat x)); try apply (H1 (PInt z)); try apply (H1 (PBool b));
    try apply (H1 PNone); try apply (H1 PStr); try apply (H1 (PNum d x)); try apply (H1 (PFloatable x));
    try apply (H1 (POther sized)); try apply (H1 (PArr a)); try apply (H1 (PTuple items)).
  apply H2. induction items; constructor; [apply IH|assumption].
Qed.
Lemma discover_error h v e : discover F f0 of_int of_bool h v = Raise e -> e = ValueError.
Proof.
  revert e. revert v. refine (val_ind' (fun v => forall e, discover F f0 of_int of_bool h v = Raise e -> e = ValueError) _ _); [intro v; destruct v; try exact I; intros e E; discriminate E|intros items IH].
  cbn [discover]. induction IH as [|v items Hv HI IH]; intros e E; [discriminate|].
  destruct items as [|w items].
  - destruct (discover F f0 of_int of_bool h v) as [r|e'] eqn:D; cbn [bind] in E; [discriminate|]. injection E as <-. now apply Hv.
  - destruct (discover F f0 of_int of_bool h v) as [r|e'] eqn:D; cbn [bind] in E; [|injection E as <-; now apply Hv].
    match type of E with bind ?g _ = _ => destruct g as [s|e0] end; cbn [bind] in E; [|injection E as <-; now apply IH].
    destruct (fst s); [congruence|]. destruct (list_nat_eqb _ _); congruence.
Qed.
Lemma classify_array_error h a e : classify_array F f0 h a = Raise e -> e = ValueError.
Proof.
  unfold classify_array. destruct (ndim a) as [|[|n]]; [destruct (has_numeric_dtype _)|destruct (is_float64 _)|]; congruence.
Qed.
Lemma classify_errors h v : match snd (classify F f0 of_int of_bool h v) with
  | Ret _ => True
  | Raise e => (e = TypeError /\ has_len F v = false /\ extract_f64 F of_int of_bool v = None) \/ (e = ValueError /\ has_len F v = true)
  end.
Proof.
  assert (K : forall v, has_len F v = true -> forall h1 e,
    (match as_numpy_array F f0 of_int of_bool h v with Ret (h', a) => (h', classify_array F f0 h' a) | Raise e => (h, Raise e) end) = (h1, Raise e) ->
    e = ValueError).
  { intros w W h1 e E. unfold as_numpy_array in E. destruct (discover _ _ _ _ h w) as [r|e'] eqn:D; cbn [bind] in E.
    - destruct (alloc _ _ _ _ _) as [h' a]. injection E as _ E. now apply classify_array_error in E.
    - injection E as _ <-. now apply discover_error in D. }
  destruct v; cbn [classify has_len extract_f64 snd]; try exact I.
  - destruct (of_int z); [exact I|left; auto].
  - left; auto.
  - destruct (as_numpy_array _ _ _ _ _ _) as [[h' a]|e] eqn:E; cbn [snd].
    + destruct (classify_array F f0 h' a) eqn:C; [exact I|]. right. split; [now apply classify_array_error in C|reflexivity].
    + right. split; [|reflexivity]. apply (K PStr eq_refl h e). now rewrite E.
  - destruct sized.
    + destruct (as_numpy_array _ _ _ _ _ _) as [[h' a]|e] eqn:E; cbn [snd].
      * destruct (classify_array F f0 h' a) eqn:C; [exact I|]. right. split; [now apply classify_array_error in C|reflexivity].
      * right. split; [|reflexivity]. apply (K (POther true) eq_refl h e). now rewrite E.
    + left; auto.
  - destruct (as_numpy_array _ _ _ _ _ _) as [[h' a]|e] eqn:E; cbn [snd].
    + destruct (classify_array F f0 h' a) eqn:C; [exact I|]. right. split; [now apply classify_array_error in C|reflexivity].
    + right. split; [|reflexivity]. apply (K (PSeq items) eq_refl h e). now rewrite E.
  - destruct (classify_array F f0 h a) eqn:C; [exact I|]. right. split; [now apply classify_array_error in C|reflexivity].
  - destruct (as_numpy_array _ _ _ _ _ _) as [[h' a]|e] eqn:E; cbn [snd].
    + destruct (classify_array F f0 h' a) eqn:C; [exact I|]. right. split; [now apply classify_array_error in C|reflexivity].
    + right. split; [|reflexivity]. apply (K (PTuple items) eq_refl h e). now rewrite E.
Qed.
Lemma classify_heap h v : exists more, fst (classify F f0 of_int of_bool h v) = h ++ more.
Proof.
  assert (K : forall w, exists more, fst (match as_numpy_array F f0 of_int of_bool h w with Ret (h', a) => (h', classify_array F f0 h' a) | Raise e => (h, Raise e) end) = h ++ more).
  { intro w. unfold as_numpy_array. destruct (discover _ _ _ _ h w) as [r|e]; cbn [bind]; [|exists []; now rewrite app_nil_r].
    unfold alloc. cbn [fst]. eexists. reflexivity. }
  assert (N : exists more, h = h ++ more) by (exists []; now rewrite app_nil_r).
  destruct v; cbn [classify has_len]; try exact N; try apply K; try (destruct (extract_f64 _ _ _ _); exact N).
  destruct sized; [apply K|destruct (extract_f64 _ _ _ _); exact N].
Qed.
End Words.
