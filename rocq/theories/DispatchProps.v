(** C48: theorems about DispatchModel. *)
From Coq Require Import List Arith Bool ZArith Lia.
From Verif Require Import PyBase DispatchModel DispatchProofs.
Import ListNotations.
Local Open Scope nat_scope.

(** Numbers for the examples: integers as floats, with overflow beyond 1024 bits *)
Definition demo_int (z : Z) : option Z := if (Z.abs z <? 2 ^ 1024)%Z then Some z else None.
Definition demo_bool (b : bool) : Z := if b then 1%Z else 0%Z.

(** A scalar gives a float, and nothing is allocated. *)
Theorem dispatch_scalar : forall F (f0 : F) of_int of_bool h v x (kernel : F -> F),
  is_scalar F f0 of_int of_bool h v x -> map_unary F f0 of_int of_bool h v kernel = (h, Ret (PFloat (kernel x))).
Proof. intros. unfold map_unary. now rewrite (classify_scalar F f0 of_int of_bool h v x). Qed.
Print Assumptions dispatch_scalar.
Example dispatch_scalar_ex : let a := Arr (DInt 4) [] 0 2 [] in
  is_scalar Z 0%Z demo_int demo_bool [[5; 6; 7]%Z] (PArr a) 7%Z /\
  map_unary Z 0%Z demo_int demo_bool [[5; 6; 7]%Z] (PArr a) Z.succ = ([[5; 6; 7]%Z], Ret (PFloat 8%Z)).
Proof. split; [apply (scalar_array Z 0%Z demo_int demo_bool [[5; 6; 7]%Z]); [reflexivity|discriminate|discriminate]|reflexivity]. Qed.

(** A grid of n numbers gives a new binary64 array with the n values of the kernel, in the order of the grid. It
    lies in a buffer that did not exist before, and no buffer that did has changed. *)
Theorem dispatch_grid : forall F (f0 : F) of_int of_bool h v xs (kernel : F -> F),
  is_grid F f0 of_int of_bool h v xs ->
  exists h' a, map_unary F f0 of_int of_bool h v kernel = (h', Ret (PArr a)) /\
    holds F f0 h' a [length xs] (map kernel xs) /\ length h <= buffer a < length h' /\
    (forall b, b < length h -> nth b h' [] = nth b h []).
Proof.
  intros F f0 of_int of_bool h v xs kernel G. destruct (classify_grid F f0 of_int of_bool h v xs G) as (h1 & a & C & H1 & I).
  unfold map_unary. rewrite C, I.
  destruct (alloc F h1 (DFloat 8 true) [length (map kernel xs)] (map kernel xs)) as [h2 b] eqn:A.
  destruct (alloc_1d F f0 _ _ _ _ _ A) as (-> & B & D & S & E & _). exists (h1 ++ [map kernel xs]), b.
  split; [reflexivity|]. split; [rewrite map_length in S; now split|].
  assert (L : length h <= length h1) by (destruct H1 as [->| ->]; rewrite ?app_length; lia).
  rewrite B, app_length. cbn [length]. split; [lia|]. intros k Hk. rewrite app_nth1 by lia.
  destruct H1 as [->| ->]; [reflexivity|now rewrite app_nth1].
Qed.
Print Assumptions dispatch_grid.
(** a reversed view of every second element *)
Example dispatch_grid_ex : let a := Arr (DFloat 8 true) [3] 0 4 [(-2)%Z] in
  is_grid Z 0%Z demo_int demo_bool [[10; 11; 12; 13; 14]%Z] (PArr a) [14; 12; 10]%Z /\
  is_grid Z 0%Z demo_int demo_bool [] (PSeq [PInt 3; PFloat 4%Z; PBool true]) [3; 4; 1]%Z.
Proof.
  split.
  - exact (grid_array Z 0%Z demo_int demo_bool [[10; 11; 12; 13; 14]%Z] 3 0 4 (-2)).
  - apply grid_sequence; [|right; constructor 2; constructor; now exists 4%Z].
    constructor; [constructor; [lia|reflexivity]|]. constructor; [constructor|]. constructor; [apply (member_bool Z demo_int demo_bool true)|constructor].
Qed.

(** So writing into a returned spectrum leaves the grid that was passed in, and every other array, as it was. *)
Definition write {A} (h : list (list A)) (b : nat) (xs : list A) : list (list A) := firstn b h ++ xs :: skipn (S b) h.
Lemma nth_skipn' {A} n (l : list A) j d : nth j (skipn n l) d = nth (n + j) l d.
Proof.
  revert l. induction n as [|n IH]; intro l; [reflexivity|]. destruct l as [|x l]; [cbn; destruct j; reflexivity|]. exact (IH l).
Qed.
Lemma write_other {A} (h : list (list A)) b xs k : b < length h -> k <> b -> nth k (write h b xs) [] = nth k h [].
Proof.
  intros B K. unfold write. assert (L : length (firstn b h) = b) by (rewrite firstn_length; lia).
  destruct (Nat.lt_ge_cases k b).
  - rewrite app_nth1 by lia. revert b k B K L H. induction h as [|x h IH]; intros [|b] [|k] B K L H; cbn in *; try lia; [reflexivity|].
    apply IH; lia.
  - rewrite app_nth2 by lia. rewrite L. destruct (k - b) as [|j] eqn:J; [lia|]. cbn [nth].
    replace k with (S b + j) by lia. apply nth_skipn'.
Qed.
Theorem dispatch_no_alias : forall F (f0 : F) of_int of_bool h v xs (kernel : F -> F) (g : ndarray) new,
  is_grid F f0 of_int of_bool h v xs -> buffer g < length h ->
  forall h' a, map_unary F f0 of_int of_bool h v kernel = (h', Ret (PArr a)) ->
  elements F f0 (write h' (buffer a) new) g = elements F f0 h g.
Proof.
  intros F f0 of_int of_bool h v xs kernel g new G B h' a E.
  destruct (dispatch_grid F f0 of_int of_bool h v xs kernel G) as (h2 & a2 & E2 & _ & L & K). rewrite E in E2. injection E2 as <- <-.
  unfold elements. apply map_ext. intro idx. unfold item, cell. rewrite write_other by lia. now rewrite K.
Qed.
Print Assumptions dispatch_no_alias.

(** Refusals: an error is either a TypeError, exactly for objects that have no length and no float value, or a
    ValueError, for objects with a length. For an array: of rank two or more, of rank one and not native
    binary64, or of rank zero and not numeric. *)
Theorem dispatch_errors : forall F (f0 : F) of_int of_bool h v (kernel : F -> F),
  let r := snd (map_unary F f0 of_int of_bool h v kernel) in
  (forall e, r = Raise e -> e = TypeError \/ e = ValueError) /\
  (r = Raise TypeError <-> has_len F v = false /\ forall x, ~ is_scalar F f0 of_int of_bool h v x) /\
  (forall a, v = PArr a -> (r = Raise ValueError <->
     2 <= length (shape a) \/ (length (shape a) = 1 /\ dt a <> DFloat 8 true) \/ (shape a = [] /\ (dt a = DStr \/ dt a = DObj)))).
Proof.
  intros F f0 of_int of_bool h v kernel r.
  assert (R : r = match snd (classify F f0 of_int of_bool h v) with Raise e => Raise e | _ => r end /\
              (forall e, r = Raise e -> snd (classify F f0 of_int of_bool h v) = Raise e)).
  { unfold r, map_unary. destruct (classify F f0 of_int of_bool h v) as [h1 [[x|a]|e]]; cbn [snd]; split; try reflexivity; try congruence.
    unfold alloc. cbn [snd]. congruence. }
  destruct R as [R1 R2]. pose proof (classify_errors F f0 of_int of_bool h v) as C. split; [|split].
  - intros e E. rewrite (R2 e E) in C. tauto.
  - split.
    + intro E. rewrite (R2 _ E) in C. destruct C as [(_ & L & X)|[D _]]; [|discriminate]. split; [exact L|].
      intros x S. pose proof (classify_scalar F f0 of_int of_bool h v x S) as K. specialize (R2 _ E). rewrite K in R2. discriminate.
    + intros [L N]. destruct v; cbn in L; try discriminate; try solve [exfalso; eapply N; constructor].
      * unfold r, map_unary. cbn. destruct (of_int z) as [x|] eqn:Z; [exfalso; apply (N x); now constructor|reflexivity].
      * reflexivity.
      * subst sized. reflexivity.
  - intros a ->. cbn [classify snd] in R1, R2. unfold classify_array, ndim in *.
    assert (N1 : forall d, is_float64 d = true <-> d = DFloat 8 true).
    { intros [| | |[|[|[|[|[|[|[|[|[|]]]]]]]]] [|]| |]; cbn; split; congruence. }
    split.
    + intro E. specialize (R2 _ E). destruct (shape a) as [|n [|k l]]; cbn [length] in *; [| |left; lia].
      * right; right. split; [reflexivity|]. destruct (dt a); cbn in R2; try discriminate; auto.
      * right; left. split; [reflexivity|]. intro D. rewrite (proj2 (N1 _) D) in R2. discriminate.
    + intro H. unfold r, map_unary. cbn [classify]. unfold classify_array, ndim.
      destruct (shape a) as [|n [|k l]]; cbn [length] in *; [| |reflexivity].
      * destruct H as [H|[[H _]|[_ [H|H]]]]; try lia; rewrite H; reflexivity.
      * destruct H as [H|[[_ H]|[H _]]]; try lia; [|discriminate]. destruct (is_float64 (dt a)) eqn:I; [apply N1 in I; contradiction|reflexivity].
Qed.
Print Assumptions dispatch_errors.
Example dispatch_errors_ex :
  snd (map_unary Z 0%Z demo_int demo_bool [] PNone Z.succ) = Raise TypeError /\
  snd (map_unary Z 0%Z demo_int demo_bool [] (PInt (2 ^ 2000)) Z.succ) = Raise TypeError /\
  snd (map_unary Z 0%Z demo_int demo_bool [] PStr Z.succ) = Raise ValueError /\
  snd (map_unary Z 0%Z demo_int demo_bool [] (PSeq [PSeq [PFloat 1%Z]; PSeq [PFloat 2%Z]]) Z.succ) = Raise ValueError /\
  snd (map_unary Z 0%Z demo_int demo_bool [] (PSeq [PFloat 1%Z; PSeq []]) Z.succ) = Raise ValueError.
Proof. repeat split. Qed.

(** Whole numbers in a sequence need a float beside them: a sequence of integers and booleans alone is always
    refused, although each member is a scalar. *)
Theorem integer_sequence : forall F (f0 : F) of_int of_bool h items xs (kernel : F -> F),
  Forall2 (member F of_int of_bool) items xs -> items <> [] -> ~ Exists (floating F) items ->
  snd (map_unary F f0 of_int of_bool h (PSeq items) kernel) = Raise ValueError.
Proof.
  intros F f0 of_int of_bool h items xs kernel H N E. unfold map_unary. cbn [classify has_len].
  rewrite (as_array_members F f0 of_int of_bool h items xs H). destruct (leaves_members F of_int of_bool items xs H) as [_ L]. specialize (L N E).
  destruct (alloc F h _ [length xs] xs) as [h1 a] eqn:A. destruct (alloc_1d F f0 _ _ _ _ _ A) as (-> & _ & D & S & _ & _).
  unfold classify_array, ndim. rewrite S, D. cbn [length]. rewrite L. reflexivity.
Qed.
Print Assumptions integer_sequence.
Theorem elementwise_sequence_refuted : exists (items : list (val Z)) xs,
  Forall2 (fun v x => is_scalar Z 0%Z demo_int demo_bool [] v x) items xs /\
  snd (map_unary Z 0%Z demo_int demo_bool [] (PSeq items) Z.succ) = Raise ValueError.
Proof.
  exists [PInt 1; PInt 2], [1; 2]%Z. split; [|reflexivity]. repeat constructor.
Qed.
Print Assumptions elementwise_sequence_refuted.

(** Flavours: three floats for a scalar; for a grid of n energies a 3 x n array whose row k is flavour k. *)
Lemma rows_item {F} (f0 : F) (xs : list (F * F * F)) k i : k < 3 -> i < length xs ->
  nth (k * length xs + i) (flat_map (fun k => map (flavor F k) xs) [0; 1; 2]) f0 = flavor F k (nth i xs (f0, f0, f0)).
Proof.
  intros K I. cbn [flat_map]. rewrite app_nil_r.
  assert (M : forall k, nth i (map (flavor F k) xs) f0 = flavor F k (nth i xs (f0, f0, f0))).
  { intro j. rewrite (nth_indep _ f0 (flavor F j (f0, f0, f0))) by (rewrite map_length; exact I). apply map_nth. }
  destruct k as [|[|[|k]]]; [| | |lia].
  - rewrite app_nth1 by (rewrite map_length; lia). replace (0 * length xs + i) with i by lia. apply M.
  - rewrite app_nth2 by (rewrite map_length; lia). rewrite map_length. replace (1 * length xs + i - length xs) with i by lia.
    rewrite app_nth1 by (rewrite map_length; lia). apply M.
  - rewrite app_nth2 by (rewrite map_length; lia). rewrite map_length. rewrite app_nth2 by (rewrite map_length; lia). rewrite map_length.
    replace (2 * length xs + i - length xs - length xs) with i by lia. apply M.
Qed.
Theorem dispatch_flavors : forall F (f0 : F) of_int of_bool h v (ke km kt : F -> F),
  let kernel := fun x => (ke x, km x, kt x) in
  (forall x, is_scalar F f0 of_int of_bool h v x ->
    map_flavors F f0 of_int of_bool h v kernel = (h, Ret (PTuple [ke x; km x; kt x]))) /\
  (forall xs, is_grid F f0 of_int of_bool h v xs ->
    exists h' a, map_flavors F f0 of_int of_bool h v kernel = (h', Ret (PArr a)) /\
      dt a = DFloat 8 true /\ shape a = [3; length xs] /\ length h <= buffer a < length h' /\
      (forall b, b < length h -> nth b h' [] = nth b h []) /\
      (forall i, i < length xs -> item F f0 h' a [0; i] = ke (nth i xs f0) /\ item F f0 h' a [1; i] = km (nth i xs f0)
                                  /\ item F f0 h' a [2; i] = kt (nth i xs f0))).
Proof.
  intros F f0 of_int of_bool h v ke km kt kernel. split.
  - intros x S. unfold map_flavors. now rewrite (classify_scalar F f0 of_int of_bool h v x S).
  - intros xs G. destruct (classify_grid F f0 of_int of_bool h v xs G) as (h1 & a & C & H1 & I).
    unfold map_flavors. rewrite C, I. unfold alloc.
    set (rows := flat_map (fun k => map (flavor F k) (map kernel xs)) [0; 1; 2]).
    assert (L : length h <= length h1) by (destruct H1 as [->| ->]; rewrite ?app_length; lia).
    eexists _, _. split; [reflexivity|]. cbn [dt shape buffer]. rewrite map_length, app_length. cbn [length].
    split; [reflexivity|]. split; [reflexivity|]. split; [lia|]. split.
    { intros k Hk. rewrite app_nth1 by lia. destruct H1 as [->| ->]; [reflexivity|now rewrite app_nth1]. }
    intros i Hi.
    assert (R : forall k, k < 3 -> item F f0 (h1 ++ [rows]) (Arr (DFloat 8 true) [3; length xs] (length h1) 0 (c_strides [3; length xs])) [k; i]
                = flavor F k (kernel (nth i xs f0))).
    { intros k Hk. unfold item, cell. cbn [buffer offset strides c_strides position fold_right]. rewrite nth_end.
      replace (Z.to_nat _) with (k * length (map kernel xs) + i) by (rewrite map_length; lia).
      unfold rows. rewrite rows_item by (rewrite ?map_length; lia). f_equal.
      rewrite (nth_indep _ (f0, f0, f0) (kernel f0)) by (rewrite map_length; lia). apply map_nth. }
    rewrite !R by lia. repeat split; reflexivity.
Qed.
Print Assumptions dispatch_flavors.
Example dispatch_flavors_ex :
  let '(h, r) := map_flavors Z 0%Z demo_int demo_bool [] (PSeq [PFloat 1%Z; PFloat 2%Z]) (fun x => (x, 10 * x, 100 * x)%Z) in
  match r with Ret (PArr a) => elements Z 0%Z h a = [1; 2; 10; 20; 100; 200]%Z | _ => False end.
Proof. reflexivity. Qed.

(** A kernel that can fail: the error of the first failing element, otherwise the values of all. *)
Lemma collect_ret {F} (l : list (res F)) ys : collect F l = Ret ys <-> l = map Ret ys.
Proof.
  revert ys. induction l as [|r l IH]; intros ys; cbn [collect].
  - split; intro H; [now injection H as <-|destruct ys; [reflexivity|discriminate]].
  - destruct r as [x|e]; cbn [bind].
    + destruct (collect F l) as [xs|e] eqn:C; cbn [bind].
      * split; intro H.
        { injection H as <-. cbn [map]. f_equal. now apply IH. }
        { destruct ys as [|y ys]; [discriminate|]. injection H as -> H. apply IH in H. injection H as ->. reflexivity. }
      * split; intro H; [discriminate|]. destruct ys as [|y ys]; [discriminate|]. injection H as -> H. apply IH in H. discriminate.
    + split; intro H; [discriminate|]. destruct ys; discriminate.
Qed.
Lemma collect_raise {F} (l : list (res F)) e : collect F l = Raise e <-> exists ys rest, l = map Ret ys ++ Raise e :: rest.
Proof.
  induction l as [|r l IH]; cbn [collect].
  - split; [discriminate|]. intros (ys & rest & H). destruct ys; discriminate.
  - destruct r as [x|e']; cbn [bind].
    + destruct (collect F l) as [xs|e'] eqn:C; cbn [bind].
      * split; [discriminate|]. intros (ys & rest & H). destruct ys as [|y ys]; [discriminate|]. injection H as -> H.
        assert (X : Ret xs = @Raise (list F) e) by (apply IH; now exists ys, rest). discriminate.
      * split; intro H.
        { injection H as ->. destruct (proj1 IH eq_refl) as (ys & rest & ->). now exists (x :: ys), rest. }
        { destruct H as (ys & rest & H). destruct ys as [|y ys]; [discriminate|]. injection H as -> H.
          assert (X : Raise e' = @Raise (list F) e) by (apply IH; now exists ys, rest). exact X. }
    + split; intro H.
      * injection H as ->. now exists [], l.
      * destruct H as (ys & rest & H). destruct ys as [|y ys]; [|discriminate]. now injection H as ->.
Qed.
Theorem dispatch_try : forall F (f0 : F) of_int of_bool h v xs (kernel : F -> res F),
  is_grid F f0 of_int of_bool h v xs ->
  (forall e, snd (map_unary_try F f0 of_int of_bool h v kernel) = Raise e <->
    exists k, k < length xs /\ kernel (nth k xs f0) = Raise e /\ forall j, j < k -> exists y, kernel (nth j xs f0) = Ret y) /\
  (forall good : F -> F, (forall x, In x xs -> kernel x = Ret (good x)) ->
    map_unary_try F f0 of_int of_bool h v kernel = map_unary F f0 of_int of_bool h v good).
Proof.
  intros F f0 of_int of_bool h v xs kernel G. destruct (classify_grid F f0 of_int of_bool h v xs G) as (h1 & a & C & _ & I).
  unfold map_unary_try, map_unary. rewrite C, I. split.
  - intro e.
    assert (E : snd (match collect F (map kernel xs) with
       | Ret mapped => let '(h2, b) := alloc F h1 (DFloat 8 true) [length mapped] mapped in (h2, Ret (PArr b))
       | Raise e => (h1, Raise e) end) = @Raise (val F) e <-> collect F (map kernel xs) = Raise e).
    { destruct (collect F (map kernel xs)); cbn; split; congruence. }
    rewrite E, collect_raise. clear. split.
    + intros (ys & rest & H). exists (length ys).
      assert (L : length xs = length ys + S (length rest)) by (rewrite <- (map_length kernel xs), H, app_length, map_length; reflexivity).
      split; [lia|].
      assert (N : forall i, i < length xs -> kernel (nth i xs f0) = nth i (map kernel xs) (Raise TypeError)).
      { intros i Hi. rewrite (nth_indep _ _ (kernel f0)) by (rewrite map_length; lia). symmetry. apply map_nth. }
      rewrite N by lia. rewrite H. split.
      * rewrite app_nth2 by (rewrite map_length; lia). rewrite map_length, Nat.sub_diag. reflexivity.
      * intros j Hj. rewrite N by lia. rewrite H, app_nth1 by (rewrite map_length; lia). exists (nth j ys f0).
        rewrite (nth_indep _ _ (Ret f0)) by (rewrite map_length; lia). apply map_nth.
    + intros (k & Hk & E & B). revert k Hk E B. induction xs as [|x xs IH]; intros k Hk E B; [cbn in Hk; lia|].
      destruct k as [|k].
      * exists [], (map kernel xs). cbn in *. now rewrite E.
      * destruct (B 0 ltac:(lia)) as [y Y]. cbn in Y.
        destruct (IH k) as (ys & rest & H); [cbn in Hk; lia|exact E|intros j Hj; apply (B (S j)); lia|].
        exists (y :: ys), rest. cbn [map app]. now rewrite H, Y.
  - intros good Gd. assert (E : collect F (map kernel xs) = Ret (map good xs)).
    { apply collect_ret. rewrite map_map. apply map_ext_in. exact Gd. }
    now rewrite E.
Qed.
Print Assumptions dispatch_try.
Example dispatch_try_ex : let kernel := fun x => if (x =? 2)%Z then Raise TypeError else if (x =? 3)%Z then Raise ValueError else Ret x in
  snd (map_unary_try Z 0%Z demo_int demo_bool [] (PSeq [PFloat 1; PFloat 2; PFloat 3]%Z) kernel) = Raise TypeError.
Proof. reflexivity. Qed.

(** The widths argument: a grid gives its values; everything else, scalars included, raises ValueError. *)
Theorem dispatch_vector : forall F (f0 : F) of_int of_bool h v,
  (forall xs, is_grid F f0 of_int of_bool h v xs -> snd (require_vector F f0 of_int of_bool h v) = Ret xs) /\
  (forall x, is_scalar F f0 of_int of_bool h v x -> snd (require_vector F f0 of_int of_bool h v) = Raise ValueError) /\
  (forall e, snd (require_vector F f0 of_int of_bool h v) = Raise e -> e = ValueError).
Proof.
  intros F f0 of_int of_bool h v. split; [|split].
  - intros xs [n b o s|items ys H E]; unfold require_vector; cbn [has_len negb].
    + cbn [ndim shape length Nat.eqb negb dt is_float64 snd]. now rewrite iter_1d.
    + rewrite (as_array_members F f0 of_int of_bool h items ys H). destruct (leaves_members F of_int of_bool items ys H) as [L _]. rewrite (L E).
      destruct (alloc F h (DFloat 8 true) [length ys] ys) as [h1 a] eqn:A. destruct (alloc_1d F f0 _ _ _ _ _ A) as (-> & _ & D & S & _ & I).
      unfold ndim. rewrite S, D. cbn. now rewrite I.
  - intros x [y|z y E|b|d y|y|a S N1 N2]; unfold require_vector; try reflexivity. cbn [has_len negb]. unfold ndim. rewrite S. reflexivity.
  - intros e. unfold require_vector. destruct (negb (has_len F v)); [cbn; congruence|].
    assert (K : forall h1 (a : ndarray), snd (if negb (ndim a =? 1) then (h1, Raise ValueError) else if is_float64 (dt a) then (h1, Ret (iter F f0 h1 a)) else (h1, Raise ValueError)) = Raise e -> e = ValueError).
    { intros h1 a. destruct (negb _); [cbn; congruence|]. destruct (is_float64 _); cbn; congruence. }
    assert (N : match as_numpy_array F f0 of_int of_bool h v with Ret _ => True | Raise e' => e' = ValueError end).
    { unfold as_numpy_array. destruct (discover _ _ _ _ h v) as [r|e'] eqn:D; cbn [bind]; [exact I|]. now apply discover_error in D. }
    destruct v; try apply K; destruct (as_numpy_array _ _ _ _ _ _) as [[h1 a]|e']; try apply K; cbn [snd]; congruence.
Qed.
Print Assumptions dispatch_vector.
Example dispatch_vector_ex :
  snd (require_vector Z 0%Z demo_int demo_bool [] (PSeq [PFloat 1; PFloat 2]%Z)) = Ret [1; 2]%Z /\
  snd (require_vector Z 0%Z demo_int demo_bool [] (PFloat 1%Z)) = Raise ValueError.
Proof. split; reflexivity. Qed.
