(** The contraction of an index in the traces of DiracProofs is the sum over the four directions. *)
From Coq Require Import Reals Lra Psatz List Arith.
From Verif Require Import DiracProofs.
Import ListNotations.
Local Open Scope R_scope.

(** * Specification: the sum over the directions with the signs of the metric *)
Definition dirs (F : vec -> R) : R := F (V4 1 0 0 0) - F (V4 0 1 0 0) - F (V4 0 0 1 0) - F (V4 0 0 0 1).

(** * Products with marked places: [put1 i x] fills the places of index [i], [occ i] counts them *)
Definition put1 (i : nat) (x y : gamma) : gamma := match y with Index j => if Nat.eqb i j then x else y | _ => y end.
Definition here (i : nat) (y : gamma) : bool := match y with Index j => Nat.eqb i j | _ => false end.
Fixpoint occ (i : nat) (l : list gamma) : nat :=
  match l with [] => 0 | y :: r => (if here i y then 1 else 0) + occ i r end%nat.
Definition occs (i : nat) (s : list (list gamma)) : nat := occ i (concat s).
Definition fill (i : nat) (x : gamma) (s : list (list gamma)) : list (list gamma) := map (put i x) s.
Definition T (n : nat) (s : list (list gamma)) : R := trace n (hd [] s) (tl s).

(** [trace] by pairings *)
Definition pairing (n : nat) (a b : gamma) (s : list (list gamma)) : R :=
  match a, b with
  | Slash u, Slash v => mdot u v * T n s
  | Slash u, Index i => T n (fill i (Slash u) s)
  | Index i, Slash v => T n (fill i (Slash v) s)
  | Index j, Index i => if Nat.eqb i j then 4 * T n s else T n (fill i (Index j) s)
  end.
Fixpoint altg (P : gamma -> list gamma -> R) (sign : R) (before after : list gamma) : R :=
  match after with
  | [] => 0
  | b :: rest => sign * P b (before ++ rest) + altg P (- sign) (before ++ [b]) rest
  end.
Lemma trace_pairing : forall n a r more,
  trace (S n) (a :: r) more = altg (fun b l => pairing n a b (l :: more)) 1 [] r.
Proof.
  intros. cbn [trace].
  match goal with |- ?F 1 [] r = _ =>
    assert (G : forall after sign before, F sign before after = altg (fun b l => pairing n a b (l :: more)) sign before after) end.
  { induction after as [|b rest IH]; intros sign before; [reflexivity|]. cbn [altg]. rewrite <- IH. f_equal. f_equal.
    unfold pairing, T, fill. cbn [hd tl map]. destruct a, b; reflexivity. }
  apply G.
Qed.

Lemma altg_dirs : forall (P : gamma -> list gamma -> R) Q c (q : gamma -> gamma) (p : vec -> gamma -> gamma) r,
  (forall before b rest, r = before ++ b :: rest ->
     P (q b) (map q (before ++ rest)) = dirs (fun e => c e * Q e (p e b) (map (p e) (before ++ rest)))) ->
  altg P 1 [] (map q r) = dirs (fun e => c e * altg (Q e) 1 [] (map (p e) r)).
Proof.
  intros P Q c q p r H.
  assert (G : forall after sign before, r = before ++ after ->
    altg P sign (map q before) (map q after) = dirs (fun e => c e * altg (Q e) sign (map (p e) before) (map (p e) after))).
  { induction after as [|b rest IH]; intros sign before E.
    - cbn [map altg]. unfold dirs. ring.
    - cbn [map altg]. rewrite <- map_app, (H before b rest E).
      change [q b] with (map q [b]). rewrite <- map_app, IH by (rewrite <- app_assoc; exact E).
      unfold dirs. rewrite !map_app. cbn [map]. ring. }
  exact (G r 1 [] eq_refl).
Qed.

Lemma put_map : forall i x l, put i x l = map (put1 i x) l.
Proof. reflexivity. Qed.
Lemma occ_app : forall i a b, occ i (a ++ b) = (occ i a + occ i b)%nat.
Proof. induction a; intro b; [reflexivity|]. cbn [app occ]. rewrite IHa. lia. Qed.
Lemma occs_fill : forall m i x s, occs m (fill i x s) = occ m (map (put1 i x) (concat s)).
Proof. intros. unfold occs, fill. rewrite concat_map. reflexivity. Qed.
Lemma occ_put_slash : forall m i v l, occ m (map (put1 i (Slash v)) l) = if Nat.eqb m i then 0%nat else occ m l.
Proof.
  intros m i v l. induction l as [|[u|j] l IH]; cbn [map occ put1 here].
  - destruct (Nat.eqb m i); reflexivity.
  - exact IH.
  - destruct (Nat.eqb_spec i j) as [<-|N]; cbn [here].
    + rewrite IH. destruct (Nat.eqb m i); reflexivity.
    + rewrite IH. destruct (Nat.eqb_spec m i) as [->|]; [|reflexivity]. destruct (Nat.eqb_spec i j); [contradiction|reflexivity].
Qed.
Lemma occ_put_index : forall m i j l, i <> j ->
  occ m (map (put1 i (Index j)) l) = if Nat.eqb m i then 0%nat else if Nat.eqb m j then (occ j l + occ i l)%nat else occ m l.
Proof.
  intros m i j l N. induction l as [|[u|k] l IH]; cbn [map occ put1 here].
  - destruct (Nat.eqb m i), (Nat.eqb m j); reflexivity.
  - exact IH.
  - destruct (Nat.eqb_spec i k) as [<-|Nk]; cbn [here]; rewrite IH.
    + destruct (Nat.eqb_spec m i) as [->|]; [destruct (Nat.eqb_spec i j); [contradiction|reflexivity]|].
      destruct (Nat.eqb_spec m j) as [->|]; [|reflexivity]. destruct (Nat.eqb_spec j i); [congruence|]. lia.
    + destruct (Nat.eqb_spec m i) as [->|]; [destruct (Nat.eqb_spec i k); [contradiction|reflexivity]|].
      destruct (Nat.eqb_spec m j) as [->|]; [|reflexivity]. lia.
Qed.
Lemma put_absent : forall i x l, occ i l = 0%nat -> map (put1 i x) l = l.
Proof.
  intros i x l. induction l as [|y l IH]; intro H; [reflexivity|]. cbn [map occ] in *. destruct y as [u|j]; cbn [put1 here] in *.
  - rewrite IH by lia. reflexivity.
  - destruct (Nat.eqb i j); [lia|]. rewrite IH by lia. reflexivity.
Qed.
Lemma fill_absent : forall i x s, occs i s = 0%nat -> fill i x s = s.
Proof.
  intros i x s. unfold occs, fill. induction s as [|l s IH]; intro H; [reflexivity|]. cbn [concat map] in *. rewrite occ_app in H.
  rewrite IH by lia. rewrite put_map, put_absent by lia. reflexivity.
Qed.
Lemma fill_ext : forall i x j y k z h w s, (forall a, put1 i x (put1 j y a) = put1 k z (put1 h w a)) ->
  fill i x (fill j y s) = fill k z (fill h w s).
Proof. intros. unfold fill. rewrite !map_map. apply map_ext. intro l. rewrite !put_map, !map_map. apply map_ext. assumption. Qed.
Ltac puts := intros [?|?]; cbn [put1]; repeat (match goal with |- context [Nat.eqb ?a ?b] => destruct (Nat.eqb_spec a b); subst; cbn [put1] end); congruence.
Lemma fill_comm : forall i v j u s, i <> j -> fill i (Slash v) (fill j (Slash u) s) = fill j (Slash u) (fill i (Slash v) s).
Proof. intros. apply fill_ext. puts. Qed.
Lemma fill_comm_index : forall i v j k s, i <> j -> i <> k -> fill i (Slash v) (fill k (Index j) s) = fill k (Index j) (fill i (Slash v) s).
Proof. intros. apply fill_ext. puts. Qed.
Lemma fill_merge : forall i j e s, i <> j -> fill i (Slash e) (fill j (Index i) s) = fill j (Slash e) (fill i (Slash e) s).
Proof. intros. apply fill_ext. puts. Qed.
Lemma fill_merge' : forall i j e s, i <> j -> fill j (Slash e) (fill i (Index j) s) = fill j (Slash e) (fill i (Slash e) s).
Proof. intros. apply fill_ext. puts. Qed.

Lemma dirs_ext : forall F G, (forall e, F e = G e) -> dirs F = dirs G.
Proof. intros F G H. unfold dirs. rewrite !H. reflexivity. Qed.
Lemma dirs_scale : forall x F, dirs (fun e => x * F e) = x * dirs F.
Proof. intros. unfold dirs. ring. Qed.
Lemma dirs_complete : forall u v x, dirs (fun e => mdot e v * (mdot u e * x)) = mdot u v * x.
Proof. intros. unfold dirs, mdot. cbn [v0 v1 v2 v3]. ring. Qed.

Definition others (i : nat) (s : list (list gamma)) : Prop := forall j, j <> i -> occs j s = 0%nat \/ occs j s = 2%nat.

Lemma occs_cons2 : forall m a b before rest more,
  occs m ((a :: before ++ b :: rest) :: more)
  = ((if here m a then 1 else 0) + (if here m b then 1 else 0) + occs m ((before ++ rest) :: more))%nat.
Proof. intros. unfold occs. cbn [concat app occ]. rewrite !occ_app. cbn [occ]. lia. Qed.
Lemma occs_nil : forall m s, occs m ([] :: s) = occs m s.
Proof. reflexivity. Qed.

Lemma fillS_occ : forall m j v s, occs m (fill j (Slash v) s) = if Nat.eqb m j then 0%nat else occs m s.
Proof. intros. rewrite occs_fill, occ_put_slash. reflexivity. Qed.
Lemma fillI_occ : forall m k j s, k <> j -> occs m (fill k (Index j) s)
  = if Nat.eqb m k then 0%nat else if Nat.eqb m j then (occs j s + occs k s)%nat else occs m s.
Proof. intros. rewrite occs_fill, occ_put_index by assumption. reflexivity. Qed.

(** counts: rewrite every count, split on equalities, instantiate the hypothesis on the others *)
Ltac counting :=
  cbn [here] in *; rewrite ?fillS_occ, ?fillI_occ by congruence;
  repeat match goal with
  | H : context [Nat.eqb ?a ?a] |- _ => rewrite Nat.eqb_refl in H
  | |- context [Nat.eqb ?a ?b] => destruct (Nat.eqb_spec a b); subst
  | H : context [Nat.eqb ?a ?b] |- _ => destruct (Nat.eqb_spec a b); subst; try congruence
  end; try congruence; try lia.

(** one place: the trace is linear in the vector there *)
Definition linear_at (n : nat) : Prop := forall s i v, occs i s = 1%nat -> others i s ->
  T n (fill i (Slash v) s) = dirs (fun e => mdot e v * T n (fill i (Slash e) s)).
(** two places: the trace is the sum over the directions *)
Definition contracted_at (n : nat) : Prop := forall s i, occs i s = 2%nat -> others i s ->
  T n s = dirs (fun e => T n (fill i (Slash e) s)).

Section Pair.
Variable n : nat.
Hypothesis L : linear_at n.
Variables (a b : gamma) (s : list (list gamma)) (i : nat).
Hypothesis Ho : forall j, j <> i -> ((if here j a then 1 else 0) + (if here j b then 1 else 0) + occs j s = 0 \/
  (if here j a then 1 else 0) + (if here j b then 1 else 0) + occs j s = 2)%nat.

Lemma pair_linear : forall v, ((if here i a then 1 else 0) + (if here i b then 1 else 0) + occs i s = 1)%nat ->
  pairing n (put1 i (Slash v) a) (put1 i (Slash v) b) (fill i (Slash v) s)
  = dirs (fun e => mdot e v * pairing n (put1 i (Slash e) a) (put1 i (Slash e) b) (fill i (Slash e) s)).
Proof.
  intros v H. destruct a as [u|j], b as [w|k]; cbn [put1 here] in *.
  - cbn [pairing]. rewrite (L s i v); [|lia|intros m Hm; specialize (Ho m Hm); lia].
    rewrite <- dirs_scale. apply dirs_ext. intro. ring.
  - destruct (Nat.eqb_spec i k) as [<-|N]; cbn [pairing].
    + rewrite (fill_absent i) by lia. erewrite dirs_ext; [symmetry; apply dirs_complete|]. intro e. cbn beta. rewrite (fill_absent i) by lia. reflexivity.
    + rewrite <- fill_comm by congruence. rewrite L.
      * apply dirs_ext. intro e. rewrite fill_comm by congruence. reflexivity.
      * counting.
      * intros m Hm. specialize (Ho m Hm). counting.
  - destruct (Nat.eqb_spec i j) as [<-|N]; cbn [pairing].
    + rewrite (fill_absent i) by lia. erewrite dirs_ext; [|intro e; rewrite (fill_absent i) by lia; reflexivity].
      unfold dirs, mdot. cbn [v0 v1 v2 v3]. ring.
    + rewrite <- fill_comm by congruence. rewrite L.
      * apply dirs_ext. intro e. rewrite fill_comm by congruence. reflexivity.
      * counting.
      * intros m Hm. specialize (Ho m Hm). counting.
  - destruct (Nat.eqb_spec i j) as [<-|N]; destruct (Nat.eqb_spec i k) as [<-|N']; cbn [pairing].
    + lia.
    + assert (occs i s = 0%nat) by lia. rewrite (fill_absent i) by assumption. erewrite dirs_ext; [|intro e; rewrite (fill_absent i) by assumption; reflexivity].
      apply L.
      * specialize (Ho k ltac:(congruence)). counting.
      * intros m Hm. destruct (Nat.eq_dec m i) as [->|Hmi]; [left; assumption|]. specialize (Ho m Hmi). counting.
    + assert (occs i s = 0%nat) by lia. rewrite (fill_absent i) by assumption. erewrite dirs_ext; [|intro e; rewrite (fill_absent i) by assumption; reflexivity].
      apply L.
      * specialize (Ho j ltac:(congruence)). counting.
      * intros m Hm. destruct (Nat.eq_dec m i) as [->|Hmi]; [left; assumption|]. specialize (Ho m Hmi). counting.
    + destruct (Nat.eqb_spec k j) as [->|N''].
      * rewrite (L s i v); [|lia|intros m Hm; specialize (Ho m Hm); counting]. rewrite <- dirs_scale. apply dirs_ext. intro. ring.
      * rewrite <- fill_comm_index by congruence. rewrite L.
        -- apply dirs_ext. intro e. rewrite fill_comm_index by congruence. reflexivity.
        -- counting.
        -- intros m Hm. pose proof (Ho m Hm). pose proof (Ho k ltac:(congruence)). counting.
Qed.

Hypothesis K : contracted_at n.
Lemma pair_contracted : ((if here i a then 1 else 0) + (if here i b then 1 else 0) + occs i s = 2)%nat ->
  pairing n a b s = dirs (fun e => 1 * pairing n (put1 i (Slash e) a) (put1 i (Slash e) b) (fill i (Slash e) s)).
Proof.
  intro H. erewrite dirs_ext; [|intro e; apply Rmult_1_l]. destruct a as [u|j], b as [w|k]; cbn [put1 here] in *.
  - cbn [pairing]. rewrite dirs_scale. f_equal. apply K; [lia|intros m Hm; specialize (Ho m Hm); lia].
  - destruct (Nat.eqb_spec i k) as [<-|N]; cbn [pairing].
    + rewrite L; [|lia|intros m Hm; specialize (Ho m Hm); counting]. apply dirs_ext. intro e. rewrite mdot_sym. reflexivity.
    + rewrite (K _ i).
      * apply dirs_ext. intro e. rewrite fill_comm by congruence. reflexivity.
      * counting.
      * intros m Hm. specialize (Ho m Hm). counting.
  - destruct (Nat.eqb_spec i j) as [<-|N]; cbn [pairing].
    + apply L; [lia|intros m Hm; specialize (Ho m Hm); counting].
    + rewrite (K _ i).
      * apply dirs_ext. intro e. rewrite fill_comm by congruence. reflexivity.
      * counting.
      * intros m Hm. specialize (Ho m Hm). counting.
  - destruct (Nat.eqb_spec i j) as [<-|N]; destruct (Nat.eqb_spec i k) as [<-|N']; cbn [pairing].
    + rewrite Nat.eqb_refl. assert (occs i s = 0%nat) by lia. erewrite dirs_ext; [|intro e; rewrite (fill_absent i) by assumption; reflexivity].
      unfold dirs, mdot. cbn [v0 v1 v2 v3]. ring.
    + destruct (Nat.eqb_spec k i); [congruence|]. rewrite (K _ i).
      * apply dirs_ext. intro e. apply f_equal, fill_merge. congruence.
      * pose proof (Ho k ltac:(congruence)). counting.
      * intros m Hm. pose proof (Ho m Hm). pose proof (Ho k ltac:(congruence)). counting.
    + destruct (Nat.eqb_spec i j); [congruence|]. rewrite (K _ j).
      * apply dirs_ext. intro e. apply f_equal, fill_merge'. congruence.
      * pose proof (Ho j ltac:(congruence)). counting.
      * intros m Hm. pose proof (Ho j ltac:(congruence)). destruct (Nat.eq_dec m i) as [->|Hmi]; [counting|]. pose proof (Ho m Hmi). counting.
    + destruct (Nat.eqb_spec k j) as [->|N''].
      * rewrite dirs_scale. f_equal. apply K; [lia|intros m Hm; specialize (Ho m Hm); counting].
      * rewrite (K _ i).
        -- apply dirs_ext. intro e. rewrite fill_comm_index by congruence. reflexivity.
        -- counting.
        -- intros m Hm. pose proof (Ho m Hm). pose proof (Ho k ltac:(congruence)). counting.
Qed.
End Pair.

Lemma filled_pairs : forall n a r more i x,
  T (S n) (fill i x ((a :: r) :: more))
  = altg (fun b l => pairing n (put1 i x a) b (l :: map (put i x) more)) 1 [] (map (put1 i x) r).
Proof. intros. exact (trace_pairing n (put1 i x a) (map (put1 i x) r) (map (put i x) more)). Qed.

Lemma index_sums : forall n, linear_at n /\ contracted_at n.
Proof.
  induction n as [|n (L & K)].
  - split; intros s i; intros; unfold T; cbn [trace]; unfold dirs; ring.
  - split.
    + intros s i v H Ho. destruct s as [|l more]; [discriminate|]. destruct l as [|a r].
      * destruct more as [|l' more]; [discriminate|].
        change (T (S n) (fill i (Slash v) ([] :: l' :: more))) with (4 * T n (fill i (Slash v) (l' :: more))).
        rewrite (L (l' :: more) i v H Ho), <- dirs_scale. apply dirs_ext. intro e.
        change (T (S n) (fill i (Slash e) ([] :: l' :: more))) with (4 * T n (fill i (Slash e) (l' :: more))). ring.
      * rewrite filled_pairs. erewrite dirs_ext; [|intro e; rewrite filled_pairs; reflexivity].
        apply (altg_dirs _ (fun e b l => pairing n (put1 i (Slash e) a) b (l :: map (put i (Slash e)) more)) (fun e => mdot e v)
          (put1 i (Slash v)) (fun e => put1 i (Slash e))).
        intros before b rest E. subst r. apply (pair_linear n L a b ((before ++ rest) :: more) i).
        -- intros j Hj. rewrite <- occs_cons2. apply Ho, Hj.
        -- rewrite <- occs_cons2. exact H.
    + intros s i H Ho. destruct s as [|l more]; [discriminate|]. destruct l as [|a r].
      * destruct more as [|l' more]; [discriminate|]. change (T (S n) ([] :: l' :: more)) with (4 * T n (l' :: more)).
        rewrite (K (l' :: more) i H Ho), <- dirs_scale. reflexivity.
      * unfold T at 1. cbn [hd tl]. rewrite trace_pairing. rewrite <- (map_id r) at 1.
        transitivity (dirs (fun e => 1 * altg (fun b l => pairing n (put1 i (Slash e) a) b (l :: map (put i (Slash e)) more)) 1 []
          (map (put1 i (Slash e)) r))); [|apply dirs_ext; intro e; rewrite filled_pairs; apply Rmult_1_l].
        apply (altg_dirs _ (fun e b l => pairing n (put1 i (Slash e) a) b (l :: map (put i (Slash e)) more)) (fun e => 1)
          (fun x => x) (fun e => put1 i (Slash e))).
        intros before b rest E. subst r. rewrite map_id. apply (pair_contracted n L a b ((before ++ rest) :: more) i).
        -- intros j Hj. rewrite <- occs_cons2. apply Ho, Hj.
        -- exact K.
        -- rewrite <- occs_cons2. exact H.
Qed.

(** * Spin sums *)
Definition vertex_here (i : nat) (f : factor) : bool := match f with Vertex j => Nat.eqb i j | _ => false end.
(** the number of vertices with index [i] *)
Definition vertices (i : nat) (l : list factor) : nat := length (filter (vertex_here i) l).
(** the vertices with index [i] in direction [e] *)
Definition directed (i : nat) (e : vec) (l : list factor) : list factor :=
  map (fun f => if vertex_here i f then Spin e 0 else f) l.

Lemma expand_contract : forall i l acc k ke,
  (forall x, (forall j, occ j x = occ j acc + vertices j l)%nat -> k x = dirs (fun e => ke e (put i (Slash e) x))) ->
  expand acc k l = dirs (fun e => expand (put i (Slash e) acc) (ke e) (directed i e l)).
Proof.
  intros i l. induction l as [|[p m|j] l IH]; intros acc k ke H.
  - cbn [expand directed map]. apply H. intro j. unfold vertices. cbn [filter length]. lia.
  - cbn [expand directed map vertex_here]. rewrite (IH (acc ++ [Slash p]) k ke), (IH acc k ke).
    + unfold dirs, directed, put. rewrite !map_app. cbn [map]. ring.
    + intros x Hx. apply H. intro j. rewrite Hx. reflexivity.
    + intros x Hx. apply H. intro j. rewrite Hx, occ_app. unfold vertices. cbn [filter vertex_here occ here]. lia.
  - cbn [expand directed map vertex_here]. rewrite (IH (acc ++ [Index j]) k ke).
    + apply dirs_ext. intro e. unfold put. rewrite map_app. cbn [map]. destruct (Nat.eqb i j); cbn [expand]; [unfold directed; ring|reflexivity].
    + intros x Hx. apply H. intro m. rewrite Hx, occ_app. unfold vertices. cbn [filter vertex_here occ here].
      destruct (Nat.eqb m j); cbn [length]; lia.
Qed.

Lemma put_length : forall i x l, length (put i x l) = length l.
Proof. intros. apply map_length. Qed.

Lemma tr_directions : forall i l, vertices i l = 2%nat -> (forall j, vertices j l = 0%nat \/ vertices j l = 2%nat) ->
  tr l = dirs (fun e => tr (directed i e l)).
Proof.
  intros i l H Ho. unfold tr. apply (expand_contract i l [] (fun a => trace (steps [a]) a []) (fun _ a => trace (steps [a]) a [])).
  intros x Hx. cbn [occ Nat.add] in Hx. destruct (index_sums (steps [x])) as (_ & K).
  assert (O : forall j, occs j [x] = vertices j l) by (intro j; unfold occs; cbn [concat]; rewrite app_nil_r; apply Hx).
  change (trace (steps [x]) x []) with (T (steps [x]) [x]). rewrite (K [x] i).
  - apply dirs_ext. intro e. unfold T, fill. cbn [map hd tl]. unfold steps. cbn [fold_right]. rewrite put_length. reflexivity.
  - rewrite O. exact H.
  - intros j _. rewrite O. apply Ho.
Qed.
Lemma tr2_directions : forall i l l', (vertices i l + vertices i l' = 2)%nat ->
  (forall j, (vertices j l + vertices j l' = 0 \/ vertices j l + vertices j l' = 2)%nat) ->
  tr2 l l' = dirs (fun e => tr2 (directed i e l) (directed i e l')).
Proof.
  intros i l l' H Ho. unfold tr2.
  apply (expand_contract i l [] (fun a => expand [] (fun b => trace (steps [a; b]) a [b]) l')
    (fun e a => expand [] (fun b => trace (steps [a; b]) a [b]) (directed i e l'))).
  intros x Hx. cbn [occ Nat.add] in Hx.
  apply (expand_contract i l' [] (fun b => trace (steps [x; b]) x [b])
    (fun e b => trace (steps [put i (Slash e) x; b]) (put i (Slash e) x) [b])).
  intros y Hy. cbn [occ Nat.add] in Hy. destruct (index_sums (steps [x; y])) as (_ & K).
  assert (O : forall j, occs j [x; y] = (vertices j l + vertices j l')%nat)
    by (intro j; unfold occs; cbn [concat]; rewrite app_nil_r, occ_app, Hx, Hy; reflexivity).
  change (trace (steps [x; y]) x [y]) with (T (steps [x; y]) [x; y]). rewrite (K [x; y] i).
  - apply dirs_ext. intro e. unfold T, fill. cbn [map hd tl]. unfold steps. cbn [fold_right]. rewrite !put_length. reflexivity.
  - rewrite O. exact H.
  - intros j _. rewrite O. apply Ho.
Qed.
