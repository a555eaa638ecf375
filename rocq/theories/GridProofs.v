(** Proofs about the constraint images. *)
From Coq Require Import String Bool Reals Lra Lia List.
From Verif Require Import PyBase PyBaseFacts GridModel.
Import ListNotations.
Local Open Scope string_scope.
Local Open Scope list_scope.

(** ** Specification vocabulary *)

(** Entry [j, i] of an image, if there is one. *)
Definition entry (m : mat) (j i : nat) : option R :=
  match nth_error m j with
  | Some row => nth_error row i
  | None => None
  end.

(** The image has [r] rows of [c] entries. *)
Definition has_shape (m : mat) (r c : nat) : Prop :=
  length m = r /\ forall row, In row m -> length row = c.

(** ** Arrays *)

Lemma zeros_shape r c : has_shape (zeros r c) r c.
Proof.
  split; [apply repeat_length|]. intros row H. apply repeat_spec in H. subst. apply repeat_length.
Qed.

Lemma zeros_entry r c j i : j < r -> i < c -> entry (zeros r c) j i = Some 0%R.
Proof.
  intros Hj Hi. unfold entry, zeros.
  rewrite (nth_error_nth' _ (repeat 0%R c)) by (now rewrite repeat_length).
  rewrite nth_repeat. rewrite (nth_error_nth' _ 0%R) by (now rewrite repeat_length).
  now rewrite nth_repeat.
Qed.

Lemma has_shape_row m r c j row : has_shape m r c -> nth_error m j = Some row -> length row = c.
Proof. intros [_ H] E. apply H. now apply nth_error_In in E. Qed.

Lemma mset_ok m r c j i v :
  has_shape m r c -> j < r -> i < c ->
  exists m', mset m j i v = Ret m' /\ has_shape m' r c /\
    forall j' i', entry m' j' i' =
      if andb (Nat.eqb j' j) (Nat.eqb i' i) then Some v else entry m j' i'.
Proof.
  intros S Hj Hi. destruct S as [SL SR].
  destruct (nth_error m j) as [row|] eqn:Er;
    [|apply nth_error_None in Er; lia].
  assert (Lr : length row = c) by (apply SR; now apply nth_error_In in Er).
  destruct (lupd_Ret row i v) as [row' Hr]; [lia|].
  destruct (lupd_Ret m j row') as [m' Hm]; [lia|].
  exists m'. split; [|split].
  - unfold mset, lindex. rewrite Er. simpl. rewrite Hr. simpl. exact Hm.
  - split; [rewrite (lupd_length _ _ _ _ Hm); auto|].
    intros x Hx. apply In_nth_error in Hx. destruct Hx as [k Hk].
    rewrite (lupd_nth _ _ _ _ k Hm) in Hk. destruct (Nat.eqb k j).
    + inversion Hk; subst. rewrite (lupd_length _ _ _ _ Hr); auto.
    + apply SR. now apply nth_error_In in Hk.
  - intros j' i'. unfold entry. rewrite (lupd_nth _ _ _ _ j' Hm).
    destruct (Nat.eqb_spec j' j); simpl; auto. subst j'.
    rewrite (lupd_nth _ _ _ _ i' Hr). rewrite Er. reflexivity.
Qed.

Lemma mset_row_out m r c j i v :
  has_shape m r c -> c <= i -> mset m j i v = Raise IndexError.
Proof.
  intros [SL SR] Hi. unfold mset, lindex. destruct (nth_error m j) as [row|] eqn:Er; simpl; auto.
  rewrite lupd_Raise; auto. rewrite (SR row); auto. now apply nth_error_In in Er.
Qed.

(** ** One point *)

Section Proofs.
Context {St : Type}.

Definition good_imgs (cons : dict (St -> res R)) (imgs : dict mat) (r c : nat)
    (value : (St -> res R) -> nat -> nat -> option R) (P : nat -> nat -> Prop) : Prop :=
  dkeys imgs = dkeys cons /\
  forall cn fn, In (cn, fn) cons -> exists m,
    dget imgs cn = Some m /\ has_shape m r c /\
    forall j i, P j i -> entry m j i = value fn j i.

Lemma dset_keys {A} (d : dict A) k v : In k (dkeys d) -> dkeys (dset d k v) = dkeys d.
Proof.
  induction d as [|[k' v'] r IH]; simpl; intros H; [tauto|].
  destruct (String.eqb_spec k' k); simpl; [reflexivity|].
  f_equal. apply IH. destruct H; [congruence|auto].
Qed.

Lemma eval_point_ok (cons : dict (St -> res R)) s j i imgs r c (val : (St -> res R) -> R) :
  NoDup (dkeys cons) ->
  (forall cn, In cn (dkeys cons) -> In cn (dkeys imgs)) ->
  (forall cn m, dget imgs cn = Some m -> has_shape m r c) ->
  j < r -> i < c ->
  (forall cn fn, In (cn, fn) cons -> fn s = Ret (val fn)) ->
  exists imgs', eval_point St cons s j i imgs = Ret imgs' /\
    dkeys imgs' = dkeys imgs /\
    (forall cn m, dget imgs' cn = Some m -> has_shape m r c) /\
    (forall cn, ~ In cn (dkeys cons) -> dget imgs' cn = dget imgs cn) /\
    (forall cn fn m, In (cn, fn) cons -> dget imgs cn = Some m ->
       exists m', dget imgs' cn = Some m' /\
         forall j' i', entry m' j' i' =
           if andb (Nat.eqb j' j) (Nat.eqb i' i) then Some (val fn) else entry m j' i').
Proof.
  revert imgs. induction cons as [|[cn fn] rest IH]; intros imgs ND HK HS Hj Hi HV; simpl.
  - exists imgs. split; [reflexivity|]. split; [reflexivity|]. split; [auto|]. split; [auto|].
    intros ? ? ? [].
  - inversion ND; subst. rewrite (HV cn fn) by (simpl; auto). simpl.
    assert (Kcn : In cn (dkeys imgs)) by (apply HK; simpl; auto).
    destruct (dget imgs cn) as [m|] eqn:Em; [|apply dget_None in Em; tauto].
    unfold dindex. rewrite Em. simpl.
    destruct (mset_ok m r c j i (val fn) (HS _ _ Em) Hj Hi) as [m' [E' [S' EN]]].
    rewrite E'. simpl.
    destruct (IH (dset imgs cn m')) as [imgs' [E2 [K2 [SH2 [O2 V2]]]]]; auto.
    + intros k Hk. rewrite dset_keys by auto. apply HK. simpl; auto.
    + intros k mm Hmm. destruct (string_dec k cn).
      * subst. rewrite dget_dset_same in Hmm. inversion Hmm; subst; auto.
      * rewrite dget_dset_other in Hmm by congruence. eauto.
    + intros k f Hin. apply (HV k f). simpl; auto.
    + exists imgs'. split; [exact E2|]. split; [rewrite K2; now apply dset_keys|].
      split; [exact SH2|]. split.
      * intros k Hk. simpl in Hk. rewrite O2 by tauto. apply dget_dset_other. intros ->. tauto.
      * intros k f mm [Heq|Hin] Hmm.
        -- inversion Heq; subst. rewrite Em in Hmm. inversion Hmm; subst.
           exists m'. split; [|exact EN]. rewrite O2; [apply dget_dset_same|].
           exact H1.
        -- assert (k <> cn).
           { intros ->. apply H1. change cn with (fst (cn, f)). now apply in_map. }
           eapply V2; eauto. rewrite dget_dset_other; auto.
Qed.

Lemma eval_point_good cons s j i imgs r c value P (val : (St -> res R) -> R) :
  NoDup (dkeys cons) -> j < r -> i < c ->
  good_imgs cons imgs r c value P ->
  (forall cn fn, In (cn, fn) cons -> fn s = Ret (val fn) /\ value fn j i = Some (val fn)) ->
  exists imgs', eval_point St cons s j i imgs = Ret imgs' /\
    good_imgs cons imgs' r c value (fun j' i' => P j' i' \/ (j' = j /\ i' = i)).
Proof.
  intros ND Hj Hi [GK G] HV.
  assert (HS : forall cn m, dget imgs cn = Some m -> has_shape m r c).
  { intros cn m Hm.
    assert (K : In cn (dkeys cons)).
    { rewrite <- GK. apply dget_Some_In in Hm. change cn with (fst (cn, m)). now apply in_map. }
    unfold dkeys in K. apply in_map_iff in K. destruct K as [[k fn] [E Hin]]. simpl in E; subst.
    destruct (G cn fn Hin) as [m0 [E0 [S0 _]]]. congruence. }
  destruct (eval_point_ok cons s j i imgs r c val ND) as [imgs' [E [K [SH [O V]]]]]; auto.
  - intros cn Hcn. now rewrite GK.
  - intros cn fn Hin. now apply (HV cn).
  - exists imgs'. split; [exact E|]. split; [congruence|].
    intros cn fn Hin. destruct (G cn fn Hin) as [m [Em [Sm Vm]]].
    destruct (V cn fn m Hin Em) as [m' [Em' EN]].
    exists m'. split; [exact Em'|]. split; [eauto|].
    intros j' i' HP. rewrite EN.
    destruct (Nat.eqb_spec j' j); destruct (Nat.eqb_spec i' i); simpl; subst;
      try (destruct HP as [HP|[? ?]]; [apply Vm; auto|congruence]).
    symmetry. apply (HV cn fn Hin).
Qed.

(** ** The loop, for any body that evaluates the constraints at a state that
    observably depends on the point only *)

Lemma loop_good {Pt : Type} (cons : dict (St -> res R)) r c value
    (body : Pt -> dict mat -> action St (dict mat)) (pos : Pt -> nat * nat)
    (inv : St -> Prop) pts :
  NoDup (dkeys cons) ->
  (forall p s imgs, In p pts -> inv s -> exists s' val,
      body p imgs s = (eval_point St cons s' (fst (pos p)) (snd (pos p)) imgs, s') /\
      inv s' /\ fst (pos p) < r /\ snd (pos p) < c /\
      forall cn fn, In (cn, fn) cons ->
        fn s' = Ret (val fn) /\ value fn (fst (pos p)) (snd (pos p)) = Some (val fn)) ->
  forall P imgs s, inv s -> good_imgs cons imgs r c value P ->
  exists imgs' s', for_points St pts body imgs s = (Ret imgs', s') /\ inv s' /\
    good_imgs cons imgs' r c value (fun j i => P j i \/ exists p, In p pts /\ pos p = (j, i)).
Proof.
  intros ND. induction pts as [|p rest IH]; intros HB P imgs s Is G; simpl.
  - exists imgs, s. split; [reflexivity|]. split; [exact Is|].
    destruct G as [GK G]. split; [exact GK|]. intros cn fn Hin.
    destruct (G cn fn Hin) as [m [E [S V]]]. exists m. split; [exact E|]. split; [exact S|].
    intros j i [HP|[q [[] _]]]. auto.
  - destruct (HB p s imgs (or_introl eq_refl) Is) as [s1 [val [EB [I1 [Hj [Hi HV]]]]]].
    rewrite EB.
    destruct (eval_point_good cons s1 _ _ imgs r c value P val ND Hj Hi G HV) as [imgs1 [E1 G1]].
    rewrite E1.
    destruct (IH (fun q s imgs Hq => HB q s imgs (or_intror Hq)) _ imgs1 s1 I1 G1)
      as [imgs2 [s2 [E2 [I2 [GK2 G2]]]]].
    exists imgs2, s2. split; [exact E2|]. split; [exact I2|]. split; [exact GK2|].
    intros cn fn Hin. destruct (G2 cn fn Hin) as [m [E [S V]]].
    exists m. split; [exact E|]. split; [exact S|]. intros j i HP. apply V.
    destruct HP as [HP|[q [[->|Hq] Hpos]]].
    + left. left. exact HP.
    + left. right. rewrite Hpos. simpl. auto.
    + right. eauto.
Qed.

Lemma initial_good cons r c value :
  good_imgs cons (dmap (fun _ : St -> res R => zeros r c) cons) r c value (fun _ _ => False).
Proof.
  split; [apply dkeys_dmap|]. intros cn fn Hin.
  exists (zeros r c). split; [|split].
  - rewrite dget_dmap. destruct (dget cons cn) eqn:E; [reflexivity|].
    apply dget_None in E. exfalso. apply E. change cn with (fst (cn, fn)). now apply in_map.
  - apply zeros_shape.
  - tauto.
Qed.

(** ** [constrain] *)

Lemma enum_In {A} (l : list A) i v : In (i, v) (enum l) <-> nth_error l i = Some v.
Proof.
  unfold enum. 
  assert (H : forall k (l : list A) i v, In (i, v) (combine (seq k (length l)) l) <->
                (k <= i /\ nth_error l (i - k) = Some v)).
  { clear. intros k l. revert k. induction l as [|x r IH]; intros k i v; simpl.
    - split; [tauto|]. intros [_ H]. destruct (i - k); discriminate.
    - rewrite IH. split.
      + intros [H|[H1 H2]].
        * inversion H; subst. rewrite Nat.sub_diag. auto.
        * split; [lia|]. replace (i - k) with (S (i - S k)) by lia. exact H2.
      + intros [H1 H2]. destruct (Nat.eq_dec i k).
        * subst. rewrite Nat.sub_diag in H2. simpl in H2. inversion H2. auto.
        * right. split; [lia|]. replace (i - k) with (S (i - S k)) in H2 by lia. exact H2. }
  rewrite H. rewrite Nat.sub_0_r. intuition lia.
Qed.

Variable setattr : string -> R -> St -> res St.

Lemma constrain_good cons p1 v1s p2 v2s s0 (set1 set2 : R -> St -> St)
    (F : (St -> res R) -> R -> R -> R) :
  NoDup (dkeys cons) -> p1 <> p2 ->
  (forall v s, setattr p1 v s = Ret (set1 v s)) ->
  (forall v s, setattr p2 v s = Ret (set2 v s)) ->
  (forall cn fn, In (cn, fn) cons -> forall s v w v' w',
     fn (set2 w' (set1 v' (set2 w (set1 v s)))) = fn (set2 w' (set1 v' s))) ->
  (forall cn fn, In (cn, fn) cons -> forall v w, In v v1s -> In w v2s ->
     fn (set2 w (set1 v s0)) = Ret (F fn v w)) ->
  exists imgs s',
    constrain St setattr cons p1 v1s p2 v2s "image" s0 = (Ret (Some imgs), s') /\
    dkeys imgs = dkeys cons /\
    forall cn fn, In (cn, fn) cons -> exists m,
      dget imgs cn = Some m /\ has_shape m (length v2s) (length v1s) /\
      forall i j v w, nth_error v1s i = Some v -> nth_error v2s j = Some w ->
        entry m j i = Some (F fn v w).
Proof.
  intros ND NE S1 S2 OW HF.
  unfold constrain. destruct (String.eqb_spec p1 p2); [tauto|].
  set (value := fun (fn : St -> res R) j i =>
         match nth_error v1s i, nth_error v2s j with
         | Some v, Some w => Some (F fn v w) | _, _ => None end).
  set (inv := fun s => forall cn fn, In (cn, fn) cons -> forall v w,
                 fn (set2 w (set1 v s)) = fn (set2 w (set1 v s0))).
  destruct (loop_good cons (length v2s) (length v1s) value
              (constrain_body St setattr cons p1 p2)
              (fun pt => (fst (snd pt), fst (fst pt))) inv
              (list_prod (enum v1s) (enum v2s)) ND) with
    (P := fun _ _ : nat => False)
    (imgs := dmap (fun _ : St -> res R => zeros (length v2s) (length v1s)) cons) (s := s0)
    as [imgs [s' [E [_ [GK G]]]]].
  - intros [[i v] [j w]] s imgs Hin Is. apply in_prod_iff in Hin. destruct Hin as [Hi Hj].
    apply enum_In in Hi. apply enum_In in Hj.
    exists (set2 w (set1 v s)), (fun fn => F fn v w). simpl. rewrite S1, S2.
    split; [reflexivity|]. split; [|split; [|split]].
    + intros cn fn Hc v' w'. rewrite (OW cn fn Hc). now apply (Is cn).
    + apply nth_error_Some. congruence.
    + apply nth_error_Some. congruence.
    + intros cn fn Hc. split.
      * rewrite (Is cn fn Hc). apply (HF cn fn Hc).
        -- now apply nth_error_In in Hi.
        -- now apply nth_error_In in Hj.
      * unfold value. now rewrite Hi, Hj.
  - intros cn fn Hc v w. reflexivity.
  - apply initial_good.
  - rewrite E. exists imgs, s'. split; [reflexivity|]. split; [exact GK|].
    intros cn fn Hc. destruct (G cn fn Hc) as [m [Em [Sm Vm]]].
    exists m. split; [exact Em|]. split; [exact Sm|].
    intros i j v w Hi Hj. rewrite Vm.
    + unfold value. now rewrite Hi, Hj.
    + right. exists ((i, v), (j, w)). split; [|reflexivity].
      apply in_prod_iff. split; now apply enum_In.
Qed.

Lemma constrain_same_name cons p v1s v2s mode s :
  constrain St setattr cons p v1s p v2s mode s = (Raise ValueError, s).
Proof. unfold constrain. now rewrite String.eqb_refl. Qed.

End Proofs.

(** ** [custom_constrain] *)

Section Custom.
Context {St : Type}.
Variable Obj : Type.
Variable update : Obj -> St -> St.

Definition rectangular {A} (g : list (list A)) (n m : nat) : Prop :=
  length g = n /\ forall row, In row g -> length row = m.

Definition at_grid {A} (g : list (list A)) (i j : nat) : option A :=
  match nth_error g i with Some row => nth_error row j | None => None end.

Lemma at_grid_lindex {A} (g : list (list A)) i j o :
  at_grid g i j = Some o -> bind (lindex g i) (fun row => lindex row j) = Ret o.
Proof.
  unfold at_grid, lindex. destruct (nth_error g i); [|discriminate]. simpl.
  intros ->. reflexivity.
Qed.

Lemma rectangular_at {A} (g : list (list A)) n m i j :
  rectangular g n m -> i < n -> j < m -> exists o, at_grid g i j = Some o.
Proof.
  intros [HL HR] Hi Hj. unfold at_grid.
  destruct (nth_error g i) as [row|] eqn:E; [|apply nth_error_None in E; lia].
  destruct (nth_error row j) eqn:E2; eauto.
  apply nth_error_None in E2. rewrite (HR row) in E2; [lia|]. now apply nth_error_In in E.
Qed.

(** The grid has no more columns than rows: the code returns n_rows by n_rows
    images whose first n_cols columns are right. *)
Lemma custom_good cons n m grid s0 (F : (St -> res R) -> Obj -> R) :
  NoDup (dkeys cons) -> rectangular grid n m -> m <= n ->
  (forall cn fn, In (cn, fn) cons -> forall o s, fn (update o s) = Ret (F fn o)) ->
  exists imgs s',
    custom_constrain St Obj update cons n m grid "image" s0 = (Ret (Some imgs), s') /\
    dkeys imgs = dkeys cons /\
    forall cn fn, In (cn, fn) cons -> exists im,
      dget imgs cn = Some im /\ has_shape im n n /\
      forall i j o, at_grid grid i j = Some o -> entry im i j = Some (F fn o).
Proof.
  intros ND RG LE HF. unfold custom_constrain.
  set (value := fun (fn : St -> res R) i j => option_map (F fn) (at_grid grid i j)).
  destruct (loop_good cons n n value (custom_body St Obj update cons grid)
              (fun pt => pt) (fun _ => True)
              (list_prod (seq 0 n) (seq 0 m)) ND) with
    (P := fun _ _ : nat => False)
    (imgs := dmap (fun _ : St -> res R => zeros n n) cons) (s := s0)
    as [imgs [s' [E [_ [GK G]]]]].
  - intros [i j] s imgs Hin _. apply in_prod_iff in Hin. destruct Hin as [Hi Hj].
    apply in_seq in Hi. apply in_seq in Hj.
    destruct (rectangular_at grid n m i j RG) as [o Ho]; [lia|lia|].
    exists (update o s), (fun fn => F fn o). simpl.
    rewrite (at_grid_lindex _ _ _ _ Ho).
    split; [reflexivity|]. split; [exact I|]. split; [lia|]. split; [lia|].
    intros cn fn Hc. split; [eapply HF; eauto|]. unfold value. now rewrite Ho.
  - exact I.
  - apply initial_good.
  - rewrite E. exists imgs, s'. split; [reflexivity|]. split; [exact GK|].
    intros cn fn Hc. destruct (G cn fn Hc) as [im [Em [Sm Vm]]].
    exists im. split; [exact Em|]. split; [exact Sm|].
    intros i j o Ho. rewrite Vm; [unfold value; now rewrite Ho|].
    right. exists (i, j). split; [|reflexivity].
    unfold at_grid in Ho. destruct (nth_error grid i) as [row|] eqn:Er; [|discriminate].
    assert (i < n) by (destruct RG as [<- _]; apply nth_error_Some; congruence).
    assert (j < m).
    { destruct RG as [_ RR]. rewrite <- (RR row); [apply nth_error_Some; congruence|].
      now apply nth_error_In in Er. }
    apply in_prod_iff. split; apply in_seq; lia.
Qed.

Lemma for_points_app {Pt} (a b : list Pt) body imgs s :
  for_points St (a ++ b) body imgs s =
  match for_points St a body imgs s with
  | (Ret imgs', s') => for_points St b body imgs' s'
  | (Raise e, s') => (Raise e, s')
  end.
Proof.
  revert imgs s. induction a as [|p r IH]; intros imgs s; simpl; [reflexivity|].
  destruct (body p imgs s) as [[imgs'|e] s']; auto.
Qed.

Lemma list_prod_app {A B} (a b : list A) (l : list B) :
  list_prod (a ++ b) l = list_prod a l ++ list_prod b l.
Proof. induction a as [|x r IH]; simpl; [reflexivity|]. rewrite IH. now rewrite app_assoc. Qed.

(** More columns than rows: IndexError. *)
Lemma custom_wide_raises cons n m grid s0 (F : (St -> res R) -> Obj -> R) mode :
  NoDup (dkeys cons) -> cons <> [] -> rectangular grid n m -> 1 <= n -> n < m ->
  (forall cn fn, In (cn, fn) cons -> forall o s, fn (update o s) = Ret (F fn o)) ->
  exists s', custom_constrain St Obj update cons n m grid mode s0 = (Raise IndexError, s').
Proof.
  intros ND NE RG N1 LT HF. unfold custom_constrain.
  set (value := fun (fn : St -> res R) i j => option_map (F fn) (at_grid grid i j)).
  (* the first n points of row 0 succeed, the next raises *)
  assert (SPLIT : exists rest, list_prod (seq 0 n) (seq 0 m)
                  = map (pair 0) (seq 0 n) ++ (0, n) :: rest).
  { destruct n as [|n']; [lia|].
    assert (SM : seq 0 m = seq 0 (S n') ++ S n' :: seq (S (S n')) (m - S n' - 1)).
    { replace m with (S n' + S (m - S n' - 1)) at 1 by lia. rewrite seq_app. reflexivity. }
    rewrite SM. remember (seq 0 (S n') ++ S n' :: seq (S (S n')) (m - S n' - 1)) as l.
    change (seq 0 (S n')) with (0 :: seq 1 n') at 1. simpl list_prod.
    subst l. rewrite map_app. rewrite <- app_assoc. simpl (map (pair 0) (S n' :: _)).
    simpl app at 2. eauto. }
  destruct SPLIT as [rest ->].
  rewrite for_points_app.
  destruct (loop_good cons n n value (custom_body St Obj update cons grid)
              (fun pt => pt) (fun _ => True)
              (map (pair 0) (seq 0 n)) ND) with
    (P := fun _ _ : nat => False)
    (imgs := dmap (fun _ : St -> res R => zeros n n) cons) (s := s0)
    as [imgs [s' [E [_ [GK G]]]]].
  - intros p s imgs Hin _. apply in_map_iff in Hin. destruct Hin as [j [<- Hj]].
    apply in_seq in Hj.
    destruct (rectangular_at grid n m 0 j RG) as [o Ho]; [lia|lia|].
    exists (update o s), (fun fn => F fn o). simpl.
    rewrite (at_grid_lindex _ _ _ _ Ho).
    split; [reflexivity|]. split; [exact I|]. split; [lia|]. split; [lia|].
    intros cn fn Hc. split; [eapply HF; eauto|]. unfold value. now rewrite Ho.
  - exact I.
  - apply initial_good.
  - rewrite E. simpl.
    destruct (rectangular_at grid n m 0 n RG) as [o Ho]; [lia|lia|].
    pose proof (at_grid_lindex _ _ _ _ Ho) as HL. rewrite HL.
    destruct cons as [|[cn fn] r]; [tauto|]. simpl.
    rewrite (HF cn fn) by (simpl; auto). simpl.
    destruct (G cn fn) as [im [Em [Sm _]]]; [simpl; auto|].
    unfold dindex. rewrite Em. simpl. rewrite (mset_row_out im n n) by (auto; lia).
    simpl. eauto.
Qed.

End Custom.
