(** Property theorems for constraint images (C06, C07). *)
From Coq Require Import String Bool Reals Lra Lia List.
From Verif Require Import PyBase PyBaseFacts GridModel GridProofs.
Import ListNotations.
Local Open Scope string_scope.
Local Open Scope list_scope.

(** C06.  For any theory on which assigning p1 then p2 overwrites what earlier
    assignments of them did (as seen by the constraints), every pixel is the
    constraint evaluated at its own point. *)
Theorem constrain_pixels :
  forall (St : Type) (setattr : string -> R -> St -> res St)
         (cons : dict (St -> res R)) p1 v1s p2 v2s s0 (set1 set2 : R -> St -> St)
         (F : (St -> res R) -> R -> R -> R),
    NoDup (dkeys cons) -> p1 <> p2 ->
    (forall v s, setattr p1 v s = Ret (set1 v s)) ->
    (forall v s, setattr p2 v s = Ret (set2 v s)) ->
    (forall cn fn, In (cn, fn) cons -> forall s v w v' w',
       fn (set2 w' (set1 v' (set2 w (set1 v s)))) = fn (set2 w' (set1 v' s))) ->
    (forall cn fn, In (cn, fn) cons -> forall v w, In v v1s -> In w v2s ->
       fn (set2 w (set1 v s0)) = Ret (F fn v w)) ->
    exists imgs s',
      constrain St setattr cons p1 v1s p2 v2s "image" s0 = (Ret (Some imgs), s') /\
      dkeys imgs = dkeys cons /\
      forall cn fn, In (cn, fn) cons -> exists m,
        dget imgs cn = Some m /\ has_shape m (length v2s) (length v1s) /\
        forall i j v w, nth_error v1s i = Some v -> nth_error v2s j = Some w ->
          entry m j i = Some (F fn v w).
Proof. exact @constrain_good. Qed.
Print Assumptions constrain_pixels.

(** A theory whose attributes are plain values. *)
Definition plain_setattr (k : string) (v : R) (s : dict R) : res (dict R) := Ret (dset s k v).

Lemma dset_overwrite {A} (s : dict A) p1 p2 v w v' w' :
  p1 <> p2 ->
  dset (dset (dset (dset s p1 v) p2 w) p1 v') p2 w' = dset (dset s p1 v') p2 w'.
Proof.
  intros NE. induction s as [|[k x] r IH].
  - simpl. destruct (String.eqb_spec p1 p2) as [E|_]; [tauto|]. simpl.
    rewrite String.eqb_refl. simpl.
    destruct (String.eqb_spec p1 p2) as [E|_]; [tauto|]. simpl. now rewrite String.eqb_refl.
  - simpl. destruct (String.eqb_spec k p1) as [E1|N1].
    + subst k. simpl. destruct (String.eqb_spec p1 p2) as [E|_]; [tauto|]. simpl.
      rewrite String.eqb_refl. simpl. destruct (String.eqb_spec p1 p2) as [E|_]; [tauto|].
      f_equal. clear IH. induction r as [|[k2 x2] r2 IH2]; simpl.
      * now rewrite String.eqb_refl.
      * destruct (String.eqb_spec k2 p2); simpl.
        -- destruct (String.eqb_spec k2 p2); [reflexivity|tauto].
        -- destruct (String.eqb_spec k2 p2); [tauto|]. now rewrite IH2.
    + simpl. destruct (String.eqb_spec k p2) as [E2|N2].
      * subst k. simpl. destruct (String.eqb_spec p2 p1) as [E|_]; [congruence|].
        simpl. rewrite String.eqb_refl. f_equal. clear IH.
        induction r as [|[k2 x2] r2 IH2]; simpl.
        -- now rewrite String.eqb_refl.
        -- destruct (String.eqb_spec k2 p1); simpl.
           ++ destruct (String.eqb_spec k2 p1); [reflexivity|tauto].
           ++ destruct (String.eqb_spec k2 p1); [tauto|]. now rewrite IH2.
      * simpl. destruct (String.eqb_spec k p1) as [E|_]; [tauto|]. simpl.
        destruct (String.eqb_spec k p2) as [E|_]; [tauto|]. now rewrite IH.
Qed.

(** C06 for plain attributes: no hypothesis on the constraint functions except
    that they return. *)
Theorem constrain_pixels_plain_attributes :
  forall (cons : dict (dict R -> res R)) p1 v1s p2 v2s s0 (F : (dict R -> res R) -> R -> R -> R),
    NoDup (dkeys cons) -> p1 <> p2 ->
    (forall cn fn, In (cn, fn) cons -> forall v w, In v v1s -> In w v2s ->
       fn (dset (dset s0 p1 v) p2 w) = Ret (F fn v w)) ->
    exists imgs s',
      constrain (dict R) plain_setattr cons p1 v1s p2 v2s "image" s0 = (Ret (Some imgs), s') /\
      dkeys imgs = dkeys cons /\
      forall cn fn, In (cn, fn) cons -> exists m,
        dget imgs cn = Some m /\ has_shape m (length v2s) (length v1s) /\
        forall i j v w, nth_error v1s i = Some v -> nth_error v2s j = Some w ->
          entry m j i = Some (F fn v w).
Proof.
  intros cons p1 v1s p2 v2s s0 F ND NE HF.
  apply (constrain_pixels (dict R) plain_setattr cons p1 v1s p2 v2s s0
           (fun v s => dset s p1 v) (fun v s => dset s p2 v) F); auto.
  intros cn fn _ s v w v' w'. now rewrite dset_overwrite.
Qed.
Print Assumptions constrain_pixels_plain_attributes.

(** C06: the same name twice raises before anything is assigned. *)
Theorem constrain_same_parameter_raises :
  forall (St : Type) (setattr : string -> R -> St -> res St) cons p v1s v2s mode s,
    constrain St setattr cons p v1s p v2s mode s = (Raise ValueError, s).
Proof. exact @constrain_same_name. Qed.
Print Assumptions constrain_same_parameter_raises.

(** A constraint that mixes both parameters, on a 2 by 3 plane. *)
Definition demo_con (s : dict R) : res R :=
  match dget s "mx", dget s "ms" with
  | Some a, Some b => Ret (a - 2 * b)%R
  | _, _ => Raise (AttributeError "mx")
  end.
Example demo_constrain_hypotheses :
  NoDup (dkeys [("c", demo_con)]) /\ "mx" <> "ms" /\
  forall cn fn, In (cn, fn) [("c", demo_con)] -> forall v w, In v [1; 2]%R -> In w [5; 6; 7]%R ->
    fn (dset (dset [("ms", 9%R)] "mx" v) "ms" w) = Ret ((fun _ a b => a - 2 * b)%R fn v w).
Proof.
  split; [repeat constructor; simpl; tauto|]. split; [discriminate|].
  intros cn fn [H|[]] v w _ _. inversion H; subst. reflexivity.
Qed.
Example demo_constrain :
  exists s', constrain (dict R) plain_setattr [("c", demo_con)] "mx" [1; 2]%R "ms" [5; 6; 7]%R "image" []
    = (Ret (Some [("c", [[1 - 2 * 5; 2 - 2 * 5]; [1 - 2 * 6; 2 - 2 * 6]; [1 - 2 * 7; 2 - 2 * 7]])]%R), s').
Proof. eexists. reflexivity. Qed.

(** C07.  With no more columns than rows the pixels of the grid are right, but
    the image is always square. *)
Theorem custom_constrain_square_images_partial :
  forall (St Obj : Type) (update : Obj -> St -> St) cons n m (grid : list (list Obj)) s0
         (F : (St -> res R) -> Obj -> R),
    NoDup (dkeys cons) -> rectangular grid n m -> m <= n ->
    (forall cn fn, In (cn, fn) cons -> forall o s, fn (update o s) = Ret (F fn o)) ->
    exists imgs s',
      custom_constrain St Obj update cons n m grid "image" s0 = (Ret (Some imgs), s') /\
      dkeys imgs = dkeys cons /\
      forall cn fn, In (cn, fn) cons -> exists im,
        dget imgs cn = Some im /\ has_shape im n n /\
        forall i j o, at_grid grid i j = Some o -> entry im i j = Some (F fn o).
Proof. exact @custom_good. Qed.
Print Assumptions custom_constrain_square_images_partial.

(** C07.  Every grid with more columns than rows raises IndexError. *)
Theorem custom_constrain_wide_grid_raises :
  forall (St Obj : Type) (update : Obj -> St -> St) cons n m (grid : list (list Obj)) s0
         (F : (St -> res R) -> Obj -> R) mode,
    NoDup (dkeys cons) -> cons <> [] -> rectangular grid n m -> 1 <= n -> n < m ->
    (forall cn fn, In (cn, fn) cons -> forall o s, fn (update o s) = Ret (F fn o)) ->
    exists s', custom_constrain St Obj update cons n m grid mode s0 = (Raise IndexError, s').
Proof. exact @custom_wide_raises. Qed.
Print Assumptions custom_constrain_wide_grid_raises.

(** C07, the claim for all shapes, fails in both directions. *)
Theorem custom_constrain_shape_refuted :
  exists (cons : dict (R -> res R)),
    (exists (grid : list (list R)) s',
        rectangular grid 1 2 /\
        custom_constrain R R (fun o _ => o) cons 1 2 grid "image" 0%R = (Raise IndexError, s')) /\
    (exists (grid : list (list R)) imgs im s',
        rectangular grid 2 1 /\
        custom_constrain R R (fun o _ => o) cons 2 1 grid "image" 0%R = (Ret (Some imgs), s') /\
        dget imgs "c" = Some im /\ ~ has_shape im 2 1).
Proof.
  exists [("c", fun s => Ret s)]. split.
  - exists [[1; 2]]%R. eexists. split; [split; [reflexivity|]|reflexivity].
    intros row [<-|[]]. reflexivity.
  - exists [[1]; [2]]%R. eexists. eexists. eexists.
    split; [split; [reflexivity|]|split; [reflexivity|split; [reflexivity|]]].
    + intros row [<-|[<-|[]]]; reflexivity.
    + intros [_ H]. specialize (H _ (or_introl eq_refl)). discriminate.
Qed.
Print Assumptions custom_constrain_shape_refuted.

Example demo_custom_hypotheses :
  rectangular [[1; 2]; [3; 4]]%R 2 2 /\ 2 <= 2 /\
  (forall cn fn, In (cn, fn) [("c", fun s : R => Ret s)] -> forall o s : R,
     fn ((fun o _ => o) o s) = Ret ((fun _ o => o) fn o)).
Proof.
  split; [split; [reflexivity|intros row [<-|[<-|[]]]; reflexivity]|]. split; [lia|].
  intros cn fn [H|[]] o s. inversion H; subst. reflexivity.
Qed.
