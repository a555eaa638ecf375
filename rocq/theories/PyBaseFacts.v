(** Facts about the dictionary and result vocabulary of PyBase. *)
From Coq Require Import String Bool Lia List.
From Verif Require Import PyBase.
Import ListNotations.
Local Open Scope string_scope.
Local Open Scope list_scope.

Section Facts.
Context {A B : Type}.

Lemma dget_dset_same (d : dict A) k v : dget (dset d k v) k = Some v.
Proof.
  induction d as [|[k' v'] r IH]; simpl.
  - now rewrite String.eqb_refl.
  - destruct (String.eqb k' k) eqn:E; simpl; rewrite E; auto.
Qed.

Lemma dget_dset_other (d : dict A) k k' v : k <> k' -> dget (dset d k v) k' = dget d k'.
Proof.
  intros N. induction d as [|[k1 v1] r IH]; simpl.
  - destruct (String.eqb_spec k k'); congruence.
  - destruct (String.eqb_spec k1 k); simpl.
    + subst. destruct (String.eqb_spec k k'); congruence.
    + destruct (String.eqb k1 k'); auto.
Qed.

Lemma dset_fresh (d : dict A) k v : ~ In k (dkeys d) -> dset d k v = d ++ [(k, v)].
Proof.
  induction d as [|[k' v'] r IH]; simpl; intros H; auto.
  destruct (String.eqb_spec k' k).
  - subst. tauto.
  - rewrite IH; auto.
Qed.

Lemma dget_In (d : dict A) k v : NoDup (dkeys d) -> In (k, v) d -> dget d k = Some v.
Proof.
  induction d as [|[k' v'] r IH]; simpl; intros ND H; [tauto|].
  inversion ND; subst.
  destruct H as [H|H].
  - inversion H; subst. now rewrite String.eqb_refl.
  - destruct (String.eqb_spec k' k).
    + subst. exfalso. apply H2. change k with (fst (k, v)). now apply in_map.
    + auto.
Qed.

Lemma dget_Some_In (d : dict A) k v : dget d k = Some v -> In (k, v) d.
Proof.
  induction d as [|[k' v'] r IH]; simpl; intros H; [discriminate|].
  destruct (String.eqb_spec k' k).
  - inversion H; subst; auto.
  - auto.
Qed.

Lemma dget_None (d : dict A) k : dget d k = None <-> ~ In k (dkeys d).
Proof.
  induction d as [|[k' v'] r IH]; simpl; split; intros; auto.
  - destruct (String.eqb_spec k' k); [discriminate|]. apply IH in H. intuition.
  - destruct (String.eqb_spec k' k); [subst; tauto|]. apply IH. tauto.
Qed.

Lemma dget_app_l (d d' : dict A) k v : dget d k = Some v -> dget (d ++ d') k = Some v.
Proof.
  induction d as [|[k' v'] r IH]; simpl; [discriminate|].
  destruct (String.eqb k' k); auto.
Qed.

Lemma dget_app_r (d d' : dict A) k : dget d k = None -> dget (d ++ d') k = dget d' k.
Proof.
  induction d as [|[k' v'] r IH]; simpl; auto.
  destruct (String.eqb k' k); auto; discriminate.
Qed.

Lemma dkeys_dmap (f : A -> B) d : dkeys (dmap f d) = dkeys d.
Proof. unfold dkeys, dmap. rewrite map_map. reflexivity. Qed.

Lemma dvals_dmap (f : A -> B) d : dvals (dmap f d) = map f (dvals d).
Proof. unfold dvals, dmap. rewrite !map_map. reflexivity. Qed.

Lemma dget_dmap (f : A -> B) d k : dget (dmap f d) k = option_map f (dget d k).
Proof.
  induction d as [|[k' v'] r IH]; simpl; auto.
  destruct (String.eqb k' k); auto.
Qed.

Lemma dmapM_Ret (f : string -> A -> res B) (g : string -> A -> B) d :
  (forall k v, In (k, v) d -> f k v = Ret (g k v)) ->
  dmapM f d = Ret (map (fun kv => (fst kv, g (fst kv) (snd kv))) d).
Proof.
  induction d as [|[k v] r IH]; simpl; intros H; auto.
  rewrite H by auto. simpl. rewrite IH by auto. reflexivity.
Qed.

Lemma dmapM_Raise (f : string -> A -> res B) d k v e :
  In (k, v) d -> f k v = Raise e -> exists e', dmapM f d = Raise e'.
Proof.
  induction d as [|[k1 v1] r IH]; simpl; intros H E; [tauto|].
  destruct H as [H|H].
  - inversion H; subst. rewrite E. simpl. eauto.
  - destruct (f k1 v1) as [b|e1]; simpl; eauto.
    destruct (IH H E) as [e' ->]. simpl. eauto.
Qed.

(** The first element of the iteration that raises determines the exception. *)
Lemma dmapM_Raise_first (f : string -> A -> res B) d1 k v d2 e :
  (forall k' v', In (k', v') d1 -> exists b, f k' v' = Ret b) ->
  f k v = Raise e ->
  dmapM f (d1 ++ (k, v) :: d2) = Raise e.
Proof.
  induction d1 as [|[k1 v1] r IH]; simpl; intros H E.
  - rewrite E. reflexivity.
  - destruct (H k1 v1) as [b Hb]; auto. rewrite Hb. simpl.
    rewrite IH; auto. 
Qed.

End Facts.

Lemma dkeys_map_pair {A B : Type} (g : string -> A -> B) (d : dict A) :
  dkeys (map (fun kv => (fst kv, g (fst kv) (snd kv))) d) = dkeys d.
Proof. unfold dkeys. rewrite map_map. reflexivity. Qed.

Lemma dget_map_pair {A B : Type} (g : string -> A -> B) (d : dict A) k :
  dget (map (fun kv => (fst kv, g (fst kv) (snd kv))) d) k
  = option_map (g k) (dget d k).
Proof.
  induction d as [|[k' v'] r IH]; simpl; auto.
  destruct (String.eqb_spec k' k); simpl; subst; auto.
Qed.

(** Facts about checked list updates. *)
Lemma lupd_length {A} (l : list A) i v l' : lupd l i v = Ret l' -> length l' = length l.
Proof.
  revert i l'. induction l as [|x r IH]; intros i l' H; destruct i; simpl in H; try discriminate.
  - inversion H; reflexivity.
  - destruct (lupd r i v) eqn:E; simpl in H; [|discriminate].
    inversion H; subst. simpl. f_equal. eauto.
Qed.

Lemma lupd_Ret {A} (l : list A) i v : i < length l -> exists l', lupd l i v = Ret l'.
Proof.
  revert i. induction l as [|x r IH]; intros i H; simpl in *; [lia|].
  destruct i; eauto.
  destruct (IH i) as [l' ->]; [lia|]. simpl. eauto.
Qed.

Lemma lupd_Raise {A} (l : list A) i v : length l <= i -> lupd l i v = Raise IndexError.
Proof.
  revert i. induction l as [|x r IH]; intros i H; simpl in *; auto.
  destruct i; [lia|]. rewrite IH by lia. reflexivity.
Qed.

Lemma lupd_nth {A} (l : list A) i v l' j :
  lupd l i v = Ret l' -> nth_error l' j = if Nat.eqb j i then Some v else nth_error l j.
Proof.
  revert i j l'. induction l as [|x r IH]; intros i j l' H; destruct i; simpl in H; try discriminate.
  - inversion H; subst. destruct j; reflexivity.
  - destruct (lupd r i v) eqn:E; simpl in H; [|discriminate].
    inversion H; subst. destruct j; simpl; auto.
Qed.
