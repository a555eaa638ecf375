(** Proofs about the aggregation layer. *)
From Coq Require Import String Bool Reals Lra Lia List.
From Verif Require Import PyBase PyBaseFacts TheoryModel.
Import ListNotations.
Local Open Scope string_scope.
Local Open Scope list_scope.
Local Open Scope R_scope.

(** ** Specification vocabulary (independent of the model) *)

(** Plain mathematical sum of a list. *)
Fixpoint Rsum (l : list R) : R :=
  match l with
  | [] => 0
  | x :: r => x + Rsum r
  end.

(** The share of [x] in a total [s]; nothing is shared out when the total is 0. *)
Definition share (x s : R) : R := if Req_EM_T s 0 then 0 else x / s.

(** [f] computes the function [g] elementwise, on a float or on an array. *)
Definition elementwise (f : val -> R -> res val) (g : R -> R -> R) : Prop :=
  forall e_cm,
    (forall e, f (VF e) e_cm = Ret (VF (g e e_cm))) /\
    (forall l, f (VA l) e_cm = Ret (VA (map (fun e => g e e_cm) l))).

Definition elementwise1 (f : val -> res val) (g : R -> R) : Prop :=
  (forall e, f (VF e) = Ret (VF (g e))) /\
  (forall l, f (VA l) = Ret (VA (map g l))).

(** ** Sums *)

Lemma fold_left_Rplus l a : fold_left Rplus l a = a + Rsum l.
Proof.
  revert a. induction l as [|x r IH]; intros a; simpl; [lra|].
  rewrite IH. lra.
Qed.

Lemma rsum_py_Rsum l : rsum_py l = Rsum l.
Proof. unfold rsum_py. rewrite fold_left_Rplus. lra. Qed.

Lemma Rsum_nonneg l : (forall x, In x l -> 0 <= x) -> 0 <= Rsum l.
Proof.
  induction l as [|x r IH]; simpl; intros H; [lra|].
  specialize (IH (fun y Hy => H y (or_intror Hy))). specialize (H x (or_introl eq_refl)). lra.
Qed.

Lemma Rsum_In_le l x : (forall y, In y l -> 0 <= y) -> In x l -> x <= Rsum l.
Proof.
  induction l as [|y r IH]; simpl; intros H Hx; [tauto|].
  assert (0 <= y) by (apply H; auto).
  assert (0 <= Rsum r) by (apply Rsum_nonneg; auto).
  destruct Hx as [->|Hx]; [lra|].
  assert (x <= Rsum r) by (apply IH; auto). lra.
Qed.

Lemma Rsum_pos l x : (forall y, In y l -> 0 <= y) -> In x l -> 0 < x -> 0 < Rsum l.
Proof. intros H Hx P. pose proof (Rsum_In_le l x H Hx). lra. Qed.

Lemma Rsum_scale (c : R) l : Rsum (map (fun x => x * c) l) = Rsum l * c.
Proof. induction l as [|x r IH]; simpl; [ring|]. rewrite IH. ring. Qed.

Lemma Rsum_zero l : (forall x, In x l -> x = 0) -> Rsum l = 0.
Proof.
  induction l as [|x r IH]; simpl; intros H; [reflexivity|].
  rewrite (H x) by auto. rewrite IH by auto. lra.
Qed.

Lemma Rsum_map_ext {A} (f g : A -> R) l :
  (forall x, In x l -> f x = g x) -> Rsum (map f l) = Rsum (map g l).
Proof.
  induction l as [|x r IH]; simpl; intros H; auto.
  rewrite H by auto. rewrite IH by auto. reflexivity.
Qed.

Lemma share_bounds x s : 0 <= x -> x <= s -> 0 <= share x s <= 1.
Proof.
  intros H1 H2. unfold share. destruct (Req_EM_T s 0); [lra|].
  assert (0 < s) by lra. split.
  - apply Rmult_le_pos; [lra|]. left. now apply Rinv_0_lt_compat.
  - apply Rmult_le_reg_r with s; auto. unfold Rdiv.
    rewrite Rmult_assoc, Rinv_l by lra. lra.
Qed.

Lemma share_sum l : Rsum l <> 0 -> Rsum (map (fun x => share x (Rsum l)) l) = 1.
Proof.
  intros H. rewrite (Rsum_map_ext _ (fun x => x * / Rsum l)).
  - rewrite Rsum_scale. now field.
  - intros x _. unfold share. destruct (Req_EM_T (Rsum l) 0); [tauto|]. reflexivity.
Qed.

(** ** The total entry and the fractions *)

Lemma filter_not_total {A} (d : dict A) v :
  ~ In "total" (dkeys d) -> filter not_total (d ++ [("total", v)]) = d.
Proof.
  intros H. rewrite filter_app. simpl. rewrite app_nil_r.
  induction d as [|[k w] r IH]; simpl in *; auto.
  unfold not_total at 1. simpl.
  destruct (String.eqb_spec k "total"); [subst; tauto|]. simpl. f_equal. apply IH. tauto.
Qed.

Lemma with_total_get (d : dict R) s :
  ~ In "total" (dkeys d) -> dindex (dset d "total" s) "total" = Ret s.
Proof. intros H. unfold dindex. now rewrite dget_dset_same. Qed.

Lemma fractions_spec (d : dict R) :
  ~ In "total" (dkeys d) ->
  fractions_of (dset d "total" (rsum_py (dvals d)))
  = Ret (dmap (fun x => share x (Rsum (dvals d))) d).
Proof.
  intros H. unfold fractions_of. rewrite with_total_get by auto. simpl.
  rewrite dset_fresh, filter_not_total, rsum_py_Rsum by auto.
  destruct (Req_EM_T (Rsum (dvals d)) 0) as [E|E]; f_equal; unfold dmap; apply map_ext;
    intros a; f_equal; unfold share; destruct (Req_EM_T (Rsum (dvals d)) 0); tauto.
Qed.

(** All cross sections at an energy, as a list. *)
Definition sigmas_at (th : theory_ann) (e_cm : R) : list R :=
  map (fun kv => snd kv e_cm) (sigma_funcs th).

Lemma dvals_sigmas th e_cm :
  dvals (dmap (fun f : R -> R => f e_cm) (sigma_funcs th)) = sigmas_at th e_cm.
Proof. unfold dvals, dmap, sigmas_at. now rewrite map_map. Qed.

Lemma ann_bfs_spec th e_cm :
  ~ In "total" (dkeys (sigma_funcs th)) ->
  annihilation_branching_fractions th e_cm
  = Ret (dmap (fun f => share (f e_cm) (Rsum (sigmas_at th e_cm))) (sigma_funcs th)).
Proof.
  intros H. unfold annihilation_branching_fractions, annihilation_cross_sections.
  rewrite fractions_spec by (now rewrite dkeys_dmap).
  rewrite dvals_sigmas. unfold dmap. now rewrite map_map.
Qed.

Lemma ann_total_is_sum th e_cm :
  NoDup (dkeys (sigma_funcs th)) -> ~ In "total" (dkeys (sigma_funcs th)) ->
  dget (annihilation_cross_sections th e_cm) "total" = Some (Rsum (sigmas_at th e_cm)) /\
  (forall fs f, In (fs, f) (sigma_funcs th) ->
     dget (annihilation_cross_sections th e_cm) fs = Some (f e_cm)) /\
  dkeys (annihilation_cross_sections th e_cm) = dkeys (sigma_funcs th) ++ ["total"].
Proof.
  intros ND H. unfold annihilation_cross_sections.
  rewrite dvals_sigmas, rsum_py_Rsum. split; [apply dget_dset_same|split].
  - intros fs f Hin. rewrite dget_dset_other.
    + rewrite dget_dmap, (dget_In _ _ _ ND Hin). reflexivity.
    + intros <-. apply H. change "total" with (fst ("total", f)). now apply in_map.
  - rewrite dset_fresh by (now rewrite dkeys_dmap).
    unfold dkeys at 1. rewrite map_app. simpl. f_equal. apply dkeys_dmap.
Qed.

Lemma ann_fractions th e_cm :
  NoDup (dkeys (sigma_funcs th)) -> ~ In "total" (dkeys (sigma_funcs th)) ->
  (forall fs f, In (fs, f) (sigma_funcs th) -> 0 <= f e_cm) ->
  exists bfs,
    annihilation_branching_fractions th e_cm = Ret bfs /\
    dkeys bfs = dkeys (sigma_funcs th) /\
    (forall b, In b (dvals bfs) -> 0 <= b <= 1) /\
    ((exists fs f, In (fs, f) (sigma_funcs th) /\ 0 < f e_cm) -> 
       Rsum (dvals bfs) = 1 /\
       forall fs f, In (fs, f) (sigma_funcs th) ->
         exists b, dget bfs fs = Some b /\ b * Rsum (sigmas_at th e_cm) = f e_cm) /\
    ((forall fs f, In (fs, f) (sigma_funcs th) -> f e_cm = 0) ->
       forall b, In b (dvals bfs) -> b = 0).
Proof.
  intros ND H POS.
  assert (POS' : forall y, In y (sigmas_at th e_cm) -> 0 <= y).
  { intros y Hy. unfold sigmas_at in Hy. apply in_map_iff in Hy.
    destruct Hy as [[fs f] [<- Hin]]. simpl. eauto. }
  eexists. split; [apply ann_bfs_spec; auto|]. split; [apply dkeys_dmap|].
  assert (V : dvals (dmap (fun f : R -> R => share (f e_cm) (Rsum (sigmas_at th e_cm)))
                     (sigma_funcs th))
              = map (fun x => share x (Rsum (sigmas_at th e_cm))) (sigmas_at th e_cm)).
  { unfold dvals, dmap, sigmas_at. now rewrite !map_map. }
  rewrite V. split; [|split].
  - intros b Hb. apply in_map_iff in Hb. destruct Hb as [x [<- Hx]].
    apply share_bounds; [auto|]. now apply Rsum_In_le.
  - intros [fs [f [Hin P]]].
    assert (NZ : Rsum (sigmas_at th e_cm) <> 0).
    { apply Rgt_not_eq. apply (Rsum_pos _ (f e_cm)); auto.
      unfold sigmas_at. apply in_map_iff. exists (fs, f). auto. }
    split; [now apply share_sum|].
    intros fs' f' Hin'. rewrite dget_dmap, (dget_In _ _ _ ND Hin'). simpl.
    eexists. split; [reflexivity|]. unfold share.
    destruct (Req_EM_T _ 0); [tauto|]. now field.
  - intros Z b Hb.
    assert (S0 : Rsum (sigmas_at th e_cm) = 0).
    { apply Rsum_zero. intros x Hx. unfold sigmas_at in Hx. apply in_map_iff in Hx.
      destruct Hx as [[fs f] [<- Hin]]. simpl. eauto. }
    apply in_map_iff in Hb. destruct Hb as [x [<- Hx]].
    unfold share. destruct (Req_EM_T _ 0); tauto.
Qed.

(** ** Sums of spectra *)

Lemma zip_add_map (f g : R -> R) l :
  zip_add (map f l) (map g l) = map (fun e => f e + g e) l.
Proof. induction l as [|x r IH]; simpl; auto. now rewrite IH. Qed.

Lemma vsum_from_arrays (hs : list (R -> R)) (f : R -> R) l :
  vsum_from (VA (map f l)) (map (fun h => VA (map h l)) hs)
  = Ret (VA (map (fun e => f e + Rsum (map (fun h => h e) hs)) l)).
Proof.
  revert f. induction hs as [|h r IH]; intros f; simpl.
  - f_equal. f_equal. apply map_ext. intros; lra.
  - rewrite !map_length, Nat.eqb_refl. simpl. rewrite zip_add_map, IH.
    f_equal. f_equal. apply map_ext. intros; lra.
Qed.

Lemma vsum_arrays (hs : list (R -> R)) l :
  hs <> [] ->
  vsum (map (fun h => VA (map h l)) hs)
  = Ret (VA (map (fun e => Rsum (map (fun h => h e) hs)) l)).
Proof.
  destruct hs as [|h r]; [tauto|]. intros _. unfold vsum. simpl.
  rewrite map_map. rewrite (map_ext (fun x => 0 + h x) h) by (intros; lra).
  rewrite vsum_from_arrays. reflexivity.
Qed.

Lemma vsum_from_floats (hs : list (R -> R)) x e :
  vsum_from (VF x) (map (fun h => VF (h e)) hs) = Ret (VF (x + Rsum (map (fun h => h e) hs))).
Proof.
  revert x. induction hs as [|h r IH]; intros x; simpl.
  - now rewrite Rplus_0_r.
  - rewrite IH. f_equal. f_equal. lra.
Qed.

Lemma vsum_floats (hs : list (R -> R)) e :
  vsum (map (fun h => VF (h e)) hs) = Ret (VF (Rsum (map (fun h => h e) hs))).
Proof. unfold vsum. rewrite vsum_from_floats. now rewrite Rplus_0_l. Qed.

(** Apply a function elementwise to a value. *)
Definition vmap (h : R -> R) (v : val) : val :=
  match v with VF e => VF (h e) | VA l => VA (map h l) end.

Lemma add_total_spec (d : dict (R -> R)) v :
  d <> [] -> ~ In "total" (dkeys d) ->
  add_total (dmap (fun h => vmap h v) d)
  = Ret (dmap (fun h => vmap h v) d
         ++ [("total", vmap (fun e => Rsum (map (fun kh => snd kh e) d)) v)]).
Proof.
  intros NE H. unfold add_total. rewrite dvals_dmap.
  assert (E : vsum (map (fun h => vmap h v) (dvals d))
              = Ret (vmap (fun e => Rsum (map (fun kh => snd kh e) d)) v)).
  { destruct v; simpl.
    - rewrite vsum_floats. unfold dvals. now rewrite map_map.
    - rewrite vsum_arrays.
      + unfold dvals. f_equal. f_equal. apply map_ext. intros. now rewrite map_map.
      + destruct d; [tauto|]. discriminate. }
  rewrite E. simpl. rewrite dset_fresh; auto. now rewrite dkeys_dmap.
Qed.

Lemma zeros_vmap v : zeros_like v = vmap (fun _ => 0) v.
Proof. destruct v; reflexivity. Qed.

Lemma vscale_vmap c h v : vscale c (vmap h v) = vmap (fun e => c * h e) v.
Proof. destruct v; simpl; auto. now rewrite map_map. Qed.

Lemma vmap_ext f g v : (forall e, f e = g e) -> vmap f v = vmap g v.
Proof. intros H. destruct v; simpl; [now rewrite H|]. f_equal. now apply map_ext. Qed.

Lemma elementwise_vmap f g v e_cm :
  elementwise f g -> f v e_cm = Ret (vmap (fun e => g e e_cm) v).
Proof. intros H. destruct (H e_cm) as [H1 H2]. destruct v; simpl; auto. Qed.

(** The weighted spectrum the documentation promises for one channel. *)
Definition channel_spec (th : theory_ann) (e_cm : R) (g : string -> R -> R -> R)
    (fs : string) (sigma : R -> R) (e : R) : R :=
  share (sigma e_cm) (Rsum (sigmas_at th e_cm)) * g fs e e_cm.

Definition total_spec (th : theory_ann) (e_cm : R) (g : string -> R -> R -> R) (e : R) : R :=
  Rsum (map (fun kv => channel_spec th e_cm g (fst kv) (snd kv) e) (sigma_funcs th)).

Definition well_formed (th : theory_ann) : Prop :=
  NoDup (dkeys (sigma_funcs th)) /\ ~ In "total" (dkeys (sigma_funcs th)) /\
  sigma_funcs th <> [].

(** Every channel open at [e_cm] has a function in [funcs] computing [g]. *)
Definition covers (th : theory_ann) (funcs : dict (val -> R -> res val)) (e_cm : R)
    (g : string -> R -> R -> R) : Prop :=
  forall fs s, In (fs, s) (sigma_funcs th) -> 0 < s e_cm ->
    exists f, dget funcs fs = Some f /\ elementwise f (g fs).

Lemma share_zero s : share 0 s = 0.
Proof. unfold share. destruct (Req_EM_T s 0); auto. unfold Rdiv. ring. Qed.

Lemma share_nonzero x s : share x s <> 0 -> x <> 0.
Proof. intros H E. apply H. subst. apply share_zero. Qed.

Lemma dmapM_map_keys {A B C} (mk : string -> B) (F : string -> B -> res C) (d : dict A) :
  dmapM F (map (fun fs => (fs, mk fs)) (dkeys d))
  = dmapM (fun fs _ => F fs (mk fs)) d.
Proof.
  induction d as [|[k v] r IH]; simpl; auto.
  destruct (F k (mk k)); simpl; auto. now rewrite IH.
Qed.

Lemma map_pair_dmap {A} (h : string -> A -> R -> R) v (d : dict A) :
  map (fun kv => (fst kv, vmap (h (fst kv) (snd kv)) v)) d
  = dmap (fun k => vmap k v) (map (fun kv => (fst kv, h (fst kv) (snd kv))) d).
Proof. unfold dmap. rewrite map_map. reflexivity. Qed.

Lemma wrapped_spec th funcs e_cm g fs s v :
  NoDup (dkeys (sigma_funcs th)) ->
  In (fs, s) (sigma_funcs th) -> 0 <= s e_cm ->
  covers th funcs e_cm g ->
  make_dnde_wrapped (sigma_funcs th) funcs fs v e_cm
  = Ret (vmap (fun e => if Rlt_dec 0 (s e_cm) then g fs e e_cm else 0) v).
Proof.
  intros ND Hin P C. unfold make_dnde_wrapped, dindex.
  rewrite (dget_In _ _ _ ND Hin). simpl.
  destruct (Rlt_dec 0 (s e_cm)) as [Hp|Hn].
  - destruct (C fs s Hin Hp) as [f [-> E]]. simpl. now apply elementwise_vmap.
  - now rewrite zeros_vmap.
Qed.

Lemma ann_weighted th funcs e_cm g v (bf_test : bool) :
  well_formed th ->
  (forall fs s, In (fs, s) (sigma_funcs th) -> 0 <= s e_cm) ->
  covers th funcs e_cm g ->
  bind (annihilation_branching_fractions th e_cm) (fun bfs =>
  bind (dmapM (fun fs dnde_func =>
             bind (dindex bfs fs) (fun bf =>
             if andb bf_test (if Req_EM_T bf 0 then true else false)
             then Ret (zeros_like v)
             else (bind (dnde_func v e_cm) (fun s => Ret (vscale bf s)))))
          (map (fun fs => (fs, make_dnde_wrapped (sigma_funcs th) funcs fs))
               (dkeys (sigma_funcs th)))) add_total)
  = Ret (map (fun kv => (fst kv, vmap (channel_spec th e_cm g (fst kv) (snd kv)) v))
             (sigma_funcs th)
         ++ [("total", vmap (total_spec th e_cm g) v)]).
Proof.
  intros [ND [NT NE]] P C. rewrite ann_bfs_spec by auto. simpl.
  rewrite dmapM_map_keys.
  rewrite (dmapM_Ret _ (fun fs s => vmap (channel_spec th e_cm g fs s) v)).
  - simpl. rewrite map_pair_dmap, add_total_spec.
    + f_equal. f_equal. f_equal. f_equal. apply vmap_ext. intros e.
      unfold total_spec. now rewrite map_map.
    + destruct (sigma_funcs th); [tauto|discriminate].
    + rewrite (dkeys_map_pair (fun fs s => channel_spec th e_cm g fs s)). auto.
  - intros fs s Hin. unfold dindex.
    rewrite dget_dmap, (dget_In _ _ _ ND Hin). simpl.
    assert (W := wrapped_spec th funcs e_cm g fs s v ND Hin (P _ _ Hin) C).
    rewrite W. simpl. rewrite vscale_vmap, zeros_vmap.
    destruct (andb bf_test _) eqn:T.
    + apply andb_prop in T. destruct T as [_ T].
      destruct (Req_EM_T (share (s e_cm) (Rsum (sigmas_at th e_cm))) 0) as [Z|Z]; [|discriminate].
      f_equal. apply vmap_ext. intros e. unfold channel_spec. rewrite Z. ring.
    + f_equal. apply vmap_ext. intros e. unfold channel_spec.
      destruct (Rlt_dec 0 (s e_cm)) as [Hp|Hn]; [reflexivity|].
      assert (Z : s e_cm = 0) by (specialize (P _ _ Hin); lra).
      rewrite Z, share_zero. ring.
Qed.

Lemma ann_spectra_weighted th e_cm g v :
  well_formed th ->
  (forall fs s, In (fs, s) (sigma_funcs th) -> 0 <= s e_cm) ->
  covers th (cont_funcs th) e_cm g ->
  spectra th v e_cm
  = Ret (map (fun kv => (fst kv, vmap (channel_spec th e_cm g (fst kv) (snd kv)) v))
             (sigma_funcs th)
         ++ [("total", vmap (total_spec th e_cm g) v)]).
Proof.
  intros W P C. rewrite <- (ann_weighted th (cont_funcs th) e_cm g v true W P C).
  unfold spectra, spectrum_funcs.
  destruct (annihilation_branching_fractions th e_cm) as [bfs|]; simpl; auto.
  f_equal.
  assert (EXT : forall (d : dict (val -> R -> res val)) (F G : string -> (val -> R -> res val) -> res val),
           (forall k f, F k f = G k f) -> dmapM F d = dmapM G d).
  { intros d F G H. induction d as [|[k x] r IH]; simpl; auto. now rewrite H, IH. }
  apply EXT. intros k f. destruct (dindex bfs k); simpl; auto.
  destruct (Req_EM_T a 0); reflexivity.
Qed.

Lemma ann_positron_spectra_weighted th e_cm g v :
  well_formed th ->
  (forall fs s, In (fs, s) (sigma_funcs th) -> 0 <= s e_cm) ->
  covers th (pos_funcs th) e_cm g ->
  positron_spectra th v e_cm
  = Ret (map (fun kv => (fst kv, vmap (channel_spec th e_cm g (fst kv) (snd kv)) v))
             (sigma_funcs th)
         ++ [("total", vmap (total_spec th e_cm g) v)]).
Proof.
  intros W P C. rewrite <- (ann_weighted th (pos_funcs th) e_cm g v false W P C).
  reflexivity.
Qed.

Lemma get_total {A} (d : dict A) v : ~ In "total" (dkeys d) ->
  dindex (d ++ [("total", v)]) "total" = Ret v.
Proof.
  intros H. unfold dindex. rewrite dget_app_r; [reflexivity|]. now apply dget_None.
Qed.

Lemma ann_total_spectrum th e_cm g v :
  well_formed th ->
  (forall fs s, In (fs, s) (sigma_funcs th) -> 0 <= s e_cm) ->
  covers th (cont_funcs th) e_cm g ->
  total_spectrum th v e_cm
  = Ret (VA (map (total_spec th e_cm g) (match v with VF e => [e] | VA l => l end))).
Proof.
  intros W P C. unfold total_spectrum.
  assert (NT : ~ In "total" (dkeys (sigma_funcs th))) by apply W.
  destruct v; rewrite (ann_spectra_weighted th e_cm g _ W P C); simpl;
    rewrite get_total; auto; unfold dkeys; rewrite map_map; exact NT.
Qed.

(** ** A missing continuum entry *)

Lemma ann_missing_raises th e_cm v fs s :
  NoDup (dkeys (sigma_funcs th)) -> ~ In "total" (dkeys (sigma_funcs th)) ->
  (forall fs s, In (fs, s) (sigma_funcs th) -> 0 <= s e_cm) ->
  In (fs, s) (sigma_funcs th) -> 0 < s e_cm -> dget (cont_funcs th) fs = None ->
  exists e, spectra th v e_cm = Raise e.
Proof.
  intros ND NT P Hin Hp Hn. unfold spectra. rewrite ann_bfs_spec by auto. simpl.
  unfold spectrum_funcs. rewrite dmapM_map_keys.
  edestruct (@dmapM_Raise (R -> R) val) as [e E]; [exact Hin| |rewrite E; simpl; eauto].
  unfold dindex. rewrite dget_dmap, (dget_In _ _ _ ND Hin). simpl.
  assert (NZ : Rsum (sigmas_at th e_cm) > 0).
  { apply (Rsum_pos _ (s e_cm)); auto.
    - intros y Hy. unfold sigmas_at in Hy. apply in_map_iff in Hy.
      destruct Hy as [[k f] [<- Hk]]. simpl. eauto.
    - unfold sigmas_at. apply in_map_iff. exists (fs, s). auto. }
  assert (share (s e_cm) (Rsum (sigmas_at th e_cm)) <> 0).
  { unfold share. destruct (Req_EM_T _ 0); [lra|].
    apply Rmult_integral_contrapositive_currified; [lra|]. apply Rinv_neq_0_compat. lra. }
  destruct (Req_EM_T _ 0); [tauto|].
  unfold make_dnde_wrapped, dindex. rewrite (dget_In _ _ _ ND Hin). simpl.
  destruct (Rlt_dec 0 (s e_cm)); [|tauto]. rewrite Hn. simpl. reflexivity.
Qed.

(** ** Decaying theories *)

Definition d_well_formed (th : theory_dec) : Prop :=
  NoDup (dkeys (d_widths th)) /\ ~ In "total" (dkeys (d_widths th)).

Lemma dec_bfs_spec th :
  ~ In "total" (dkeys (d_widths th)) ->
  decay_branching_fractions th
  = Ret (dmap (fun w => share w (Rsum (dvals (d_widths th)))) (d_widths th)).
Proof. intros H. unfold decay_branching_fractions, decay_widths. now apply fractions_spec. Qed.

Lemma dec_fractions th :
  d_well_formed th ->
  (forall w, In w (dvals (d_widths th)) -> 0 <= w) ->
  dget (decay_widths th) "total" = Some (Rsum (dvals (d_widths th))) /\
  (forall fs w, In (fs, w) (d_widths th) -> dget (decay_widths th) fs = Some w) /\
  exists bfs,
    decay_branching_fractions th = Ret bfs /\
    dkeys bfs = dkeys (d_widths th) /\
    (forall b, In b (dvals bfs) -> 0 <= b <= 1) /\
    (Rsum (dvals (d_widths th)) <> 0 ->
       Rsum (dvals bfs) = 1 /\
       forall fs w, In (fs, w) (d_widths th) ->
         exists b, dget bfs fs = Some b /\ b * Rsum (dvals (d_widths th)) = w) /\
    (Rsum (dvals (d_widths th)) = 0 -> forall b, In b (dvals bfs) -> b = 0).
Proof.
  intros [ND NT] P. unfold decay_widths at 1. rewrite rsum_py_Rsum.
  split; [apply dget_dset_same|]. split.
  { intros fs w Hin. unfold decay_widths. rewrite dget_dset_other; [now apply dget_In|].
    intros <-. apply NT. change "total" with (fst ("total", w)). now apply in_map. }
  eexists. split; [now apply dec_bfs_spec|]. split; [apply dkeys_dmap|].
  rewrite dvals_dmap. split; [|split].
  - intros b Hb. apply in_map_iff in Hb. destruct Hb as [x [<- Hx]].
    apply share_bounds; auto. now apply Rsum_In_le.
  - intros NZ. split; [now apply share_sum|]. intros fs w Hin.
    rewrite dget_dmap, (dget_In _ _ _ ND Hin). simpl. eexists. split; [reflexivity|].
    unfold share. destruct (Req_EM_T _ 0); [tauto|]. now field.
  - intros Z b Hb. apply in_map_iff in Hb. destruct Hb as [x [<- _]].
    unfold share. destruct (Req_EM_T _ 0); tauto.
Qed.

(** Width of a final state as the documentation means it: 0 when not listed. *)
Definition width_of (th : theory_dec) (fs : string) : R :=
  match dget (d_widths th) fs with Some w => w | None => 0 end.

Definition d_channel_spec (th : theory_dec) (g : string -> R -> R) (fs : string) (e : R) : R :=
  share (width_of th fs) (Rsum (dvals (d_widths th))) * g fs e.

Definition d_total_spec {A} (th : theory_dec) (funcs : dict A) (g : string -> R -> R) (e : R) : R :=
  Rsum (map (fun fs => d_channel_spec th g fs e) (dkeys funcs)).

(** Every listed function belongs to a final state with a width and computes [g]
    whenever that width is positive. *)
Definition d_covers (th : theory_dec) (funcs : dict (val -> res val)) (g : string -> R -> R) : Prop :=
  forall fs f, In (fs, f) funcs ->
    In fs (dkeys (d_widths th)) /\ (0 < width_of th fs -> elementwise1 f (g fs)).

Lemma elementwise1_vmap f g v : elementwise1 f g -> f v = Ret (vmap g v).
Proof. intros [H1 H2]. destruct v; simpl; auto. Qed.

Lemma In_dkeys_dget {A} (d : dict A) k : In k (dkeys d) -> exists v, dget d k = Some v.
Proof.
  intros H. destruct (dget d k) eqn:E; eauto.
  apply dget_None in E. tauto.
Qed.

Lemma decay_widths_get th fs :
  d_well_formed th -> In fs (dkeys (d_widths th)) ->
  dget (decay_widths th) fs = Some (width_of th fs).
Proof.
  intros [ND NT] H. unfold decay_widths, width_of.
  rewrite dget_dset_other by (intros <-; tauto).
  destruct (In_dkeys_dget _ _ H) as [w ->]. reflexivity.
Qed.

Lemma weigh_spec th g (funcs : dict (val -> res val)) v :
  d_well_formed th ->
  funcs <> [] ->
  (forall fs f, In (fs, f) funcs -> In fs (dkeys (d_widths th)) /\
      f v = Ret (vmap (fun e => if Rlt_dec 0 (width_of th fs) then g fs e else 0) v)) ->
  (forall w, In w (dvals (d_widths th)) -> 0 <= w) ->
  bind (decay_branching_fractions th) (fun bfs => weigh bfs funcs v)
  = Ret (map (fun kv => (fst kv, vmap (d_channel_spec th g (fst kv)) v)) funcs
         ++ [("total", vmap (d_total_spec th funcs g) v)]).
Proof.
  intros [ND NT] NE C P. rewrite dec_bfs_spec by auto. unfold weigh. simpl.
  rewrite (dmapM_Ret _ (fun fs _ => vmap (d_channel_spec th g fs) v)).
  - simpl. rewrite (map_pair_dmap (fun fs _ => d_channel_spec th g fs)), add_total_spec.
    + f_equal. f_equal. f_equal. f_equal. apply vmap_ext. intros e.
      unfold d_total_spec, dkeys. now rewrite !map_map.
    + destruct funcs; [tauto|discriminate].
    + rewrite (dkeys_map_pair (fun fs _ => d_channel_spec th g fs)).
      intros H. apply in_map_iff in H. destruct H as [[k f] [E Hin]]. simpl in E. subst.
      apply NT. eapply C; eauto.
  - intros fs f Hin. destruct (C fs f Hin) as [K E].
    destruct (In_dkeys_dget _ _ K) as [w Hw].
    unfold dindex. rewrite dget_dmap, Hw. simpl. rewrite E. simpl. rewrite vscale_vmap.
    f_equal. apply vmap_ext. intros e. unfold d_channel_spec.
    assert (W : width_of th fs = w) by (unfold width_of; now rewrite Hw).
    rewrite W. destruct (Rlt_dec 0 w); [reflexivity|].
    assert (0 <= w).
    { apply P. apply dget_Some_In in Hw. change w with (snd (fs, w)). now apply in_map. }
    replace w with 0 by lra. rewrite share_zero. ring.
Qed.

Lemma dec_spectra_weighted th g v :
  d_well_formed th -> d_cont_funcs th <> [] ->
  (forall w, In w (dvals (d_widths th)) -> 0 <= w) ->
  d_covers th (d_cont_funcs th) g ->
  d_spectra th v
  = Ret (map (fun kv => (fst kv, vmap (d_channel_spec th g (fst kv)) v)) (d_cont_funcs th)
         ++ [("total", vmap (d_total_spec th (d_cont_funcs th) g) v)]).
Proof.
  intros W NE P C. unfold d_spectra.
  set (wrapped := map (fun kv : string * (val -> res val) =>
        (fst kv, if Rlt_dec 0 (width_of th (fst kv)) then snd kv
                 else (fun e_gams => Ret (zeros_like e_gams)))) (d_cont_funcs th)).
  assert (F : d_spectrum_funcs th = Ret wrapped).
  { unfold d_spectrum_funcs, wrapped.
    apply (dmapM_Ret _ (fun fs f => if Rlt_dec 0 (width_of th fs) then f
                 else (fun e_gams => Ret (zeros_like e_gams)))).
    intros fs f Hin. destruct (C fs f Hin) as [K _]. unfold dindex.
    rewrite decay_widths_get by auto. simpl. destruct (Rlt_dec 0 (width_of th fs)); auto. }
  rewrite F. simpl.
  rewrite (weigh_spec th g wrapped v); auto.
  - unfold wrapped. f_equal. rewrite map_map. simpl. f_equal. f_equal. f_equal.
    apply vmap_ext. intros e. unfold d_total_spec, dkeys. rewrite !map_map. reflexivity.
  - unfold wrapped. destruct (d_cont_funcs th); [tauto|discriminate].
  - intros fs f Hin. unfold wrapped in Hin. apply in_map_iff in Hin.
    destruct Hin as [[k f0] [E Hin]]. simpl in E. inversion E; subst.
    destruct (C fs f0 Hin) as [K EL]. split; auto.
    destruct (Rlt_dec 0 (width_of th fs)).
    + apply elementwise1_vmap. auto.
    + now rewrite zeros_vmap.
Qed.

(** ** The late-binding closures *)

Lemma positron_loop_spec widths items fr acc :
  NoDup (dkeys acc ++ dkeys items) ->
  positron_loop widths items fr acc
  = (match items with
     | [] => fr
     | _ => Some (last items ("", fun _ => Raise RuntimeError))
     end,
     acc ++ map (fun kv => (fst kv, dnde_wrapped_body widths)) items).
Proof.
  revert fr acc. induction items as [|[k f] r IH]; intros fr acc ND; simpl.
  - now rewrite app_nil_r.
  - simpl in ND.
    assert (NK : ~ In k (dkeys acc)).
    { apply NoDup_remove_2 in ND. intros H. apply ND. apply in_or_app. auto. }
    rewrite dset_fresh by auto. rewrite IH.
    + f_equal.
      * destruct r; reflexivity.
      * rewrite <- app_assoc. reflexivity.
    + unfold dkeys at 1. rewrite map_app. simpl. rewrite <- app_assoc. simpl. exact ND.
Qed.

Lemma positron_funcs_spec th fs dnde :
  NoDup (dkeys (d_pos_funcs th)) -> d_pos_funcs th <> [] ->
  last (d_pos_funcs th) ("", fun _ => Raise RuntimeError) = (fs, dnde) ->
  d_positron_spectrum_funcs th
  = map (fun kv => (fst kv, dnde_wrapped_body (decay_widths th) (Some (fs, dnde))))
        (d_pos_funcs th).
Proof.
  intros ND NE HL. unfold d_positron_spectrum_funcs.
  rewrite positron_loop_spec by exact ND.
  destruct (d_pos_funcs th) as [|p r] eqn:E; [tauto|]. rewrite <- E in *.
  simpl app. rewrite HL. unfold dmap. now rewrite map_map.
Qed.

Lemma dec_positron_all_last th k f fs dnde :
  NoDup (dkeys (d_pos_funcs th)) ->
  In (k, f) (d_pos_funcs th) ->
  last (d_pos_funcs th) ("", fun _ => Raise RuntimeError) = (fs, dnde) ->
  exists h, dget (d_positron_spectrum_funcs th) k = Some h /\
    forall v, h v = (let* w := dindex (decay_widths th) fs in
                     if Rlt_dec 0 w then dnde v else Ret (zeros_like v)).
Proof.
  intros ND Hin HL. unfold d_positron_spectrum_funcs.
  rewrite positron_loop_spec by exact ND. simpl.
  rewrite dget_dmap. rewrite (dget_map_pair (fun _ _ => dnde_wrapped_body (decay_widths th))).
  rewrite (dget_In _ _ _ ND Hin). simpl. eexists. split; [reflexivity|].
  intros v. destruct (d_pos_funcs th) as [|p r]; [inversion Hin|]. rewrite HL. reflexivity.
Qed.

(** With a single final state the closures are harmless. *)
Lemma dec_positron_single th g fs f v :
  d_well_formed th -> d_pos_funcs th = [(fs, f)] ->
  (forall w, In w (dvals (d_widths th)) -> 0 <= w) ->
  d_covers th (d_pos_funcs th) g ->
  d_positron_spectra th v
  = Ret [(fs, vmap (d_channel_spec th g fs) v); ("total", vmap (d_channel_spec th g fs) v)].
Proof.
  intros W E P C. unfold d_positron_spectra.
  rewrite (weigh_spec th g (d_positron_spectrum_funcs th) v); auto.
  - unfold d_positron_spectrum_funcs. rewrite E. simpl. f_equal. f_equal. f_equal. f_equal.
    apply vmap_ext. intros e. unfold d_total_spec. simpl. lra.
  - unfold d_positron_spectrum_funcs. rewrite E. simpl. discriminate.
  - unfold d_positron_spectrum_funcs. rewrite E. simpl. intros fs' f' [H|[]].
    inversion H; subst. rewrite E in C. destruct (C fs' f (or_introl eq_refl)) as [K EL].
    split; auto. unfold dnde_wrapped_body, dindex. rewrite decay_widths_get by auto. simpl.
    destruct (Rlt_dec 0 (width_of th fs')).
    + apply elementwise1_vmap. auto.
    + now rewrite zeros_vmap.
Qed.

(** What the total positron spectrum really is with several channels: the sum of
    the branching fractions times the spectrum of the last channel. *)
Lemma dec_positron_total_is_last th g fs f v :
  d_well_formed th -> NoDup (dkeys (d_pos_funcs th)) -> d_pos_funcs th <> [] ->
  last (d_pos_funcs th) ("", fun _ => Raise RuntimeError) = (fs, f) ->
  (forall k h, In (k, h) (d_pos_funcs th) -> In k (dkeys (d_widths th))) ->
  0 < width_of th fs -> elementwise1 f g ->
  d_total_positron_spectrum th (VA v)
  = Ret (VA (map (fun e =>
       Rsum (map (fun k => share (width_of th k) (Rsum (dvals (d_widths th))))
                 (dkeys (d_pos_funcs th))) * g e) v)).
Proof.
  intros [ND NT] NDP NE HL K PW EL. unfold d_total_positron_spectrum, d_positron_spectra.
  rewrite dec_bfs_spec by auto. unfold weigh. simpl.
  rewrite (positron_funcs_spec th fs f NDP NE HL).
  assert (KF : In fs (dkeys (d_widths th))).
  { apply (K fs f). rewrite <- HL. clear -NE.
    induction (d_pos_funcs th) as [|a r IH]; [tauto|].
    destruct r; [left; reflexivity|]. right. apply IH. discriminate. }
  assert (EQ : dmapM
      (fun (fs0 : string) (dnde_func : val -> res val) =>
       bind (dindex (dmap (fun w => share w (Rsum (dvals (d_widths th)))) (d_widths th)) fs0)
         (fun bf => bind (dnde_func (VA v)) (fun s => Ret (vscale bf s))))
      (map (fun x : string * (val -> res val) => (fst x, dnde_wrapped_body (decay_widths th) (Some (fs, f))))
         (d_pos_funcs th))
    = Ret (dmap (fun h => vmap h (VA v))
         (map (fun k => (k, fun e => share (width_of th k) (Rsum (dvals (d_widths th))) * g e))
              (dkeys (d_pos_funcs th))))).
  { rewrite (dmapM_Ret _ (fun k _ => vmap (fun e => share (width_of th k) (Rsum (dvals (d_widths th))) * g e) (VA v))).
    - f_equal. unfold dmap, dkeys. rewrite !map_map. reflexivity.
    - intros k h Hin. apply in_map_iff in Hin. destruct Hin as [[k0 h0] [E Hin]].
      simpl in E. inversion E; subst. pose proof (K _ _ Hin) as KK.
      destruct (In_dkeys_dget _ _ KK) as [w Hw].
      unfold dindex at 1. rewrite dget_dmap, Hw. simpl.
      unfold dnde_wrapped_body, dindex. rewrite decay_widths_get; [|split; auto|auto]. simpl.
      destruct (Rlt_dec 0 (width_of th fs)); [|tauto].
      rewrite (elementwise1_vmap _ _ _ EL). simpl. rewrite map_map.
      unfold width_of. rewrite Hw. reflexivity. }
  rewrite EQ. cbn [bind]. rewrite add_total_spec.
  - cbn [bind]. rewrite get_total.
    + simpl vmap. f_equal. f_equal. apply map_ext. intros e. rewrite map_map. simpl.
      clear. induction (dkeys (d_pos_funcs th)) as [|k r IH]; simpl; [ring|]. rewrite IH. ring.
    + rewrite dkeys_dmap. unfold dkeys at 1. rewrite map_map. simpl. rewrite map_id.
      intros H. apply in_map_iff in H. destruct H as [[k h] [E Hin]]. simpl in E. subst.
      apply NT. eapply K; eauto.
  - destruct (d_pos_funcs th); [tauto|discriminate].
  - unfold dkeys at 1. rewrite map_map. simpl. rewrite map_id.
    intros H. apply in_map_iff in H. destruct H as [[k h] [E Hin]]. simpl in E. subst.
    apply NT. eapply K; eauto.
Qed.

(** ** Lines *)

Lemma lines_spec bfs energies :
  (forall fs, In fs (dkeys energies) -> In fs (dkeys bfs)) ->
  exists lines, lines_of bfs energies = Ret lines /\
    dkeys lines = dkeys energies /\
    (NoDup (dkeys energies) -> forall fs e, In (fs, e) energies ->
       exists b, dget bfs fs = Some b /\ dget lines fs = Some (e, b)).
Proof.
  intros H. unfold lines_of.
  exists (map (fun kv => (fst kv, (snd kv, match dget bfs (fst kv) with Some b => b | None => 0 end))) energies).
  split; [|split].
  - rewrite (dmapM_Ret _ (fun fs e => (e, match dget bfs fs with Some b => b | None => 0 end))); auto.
    intros k v Hin. unfold dindex.
    destruct (In_dkeys_dget bfs k) as [b ->].
    + apply H. change k with (fst (k, v)). now apply in_map.
    + reflexivity.
  - apply (dkeys_map_pair (fun fs e => (e, match dget bfs fs with Some b => b | None => 0 end))).
  - intros ND fs e Hin.
    assert (K : In fs (dkeys energies)) by (change fs with (fst (fs, e)); now apply in_map).
    destruct (In_dkeys_dget bfs fs (H _ K)) as [b Hb]. exists b. split; auto.
    rewrite (dget_map_pair (fun fs e => (e, match dget bfs fs with Some b => b | None => 0 end))).
    rewrite (dget_In _ _ _ ND Hin). simpl. now rewrite Hb.
Qed.

Lemma lines_missing bfs energies fs e :
  In (fs, e) energies -> dget bfs fs = None -> exists x, lines_of bfs energies = Raise x.
Proof.
  intros Hin Hn. unfold lines_of. eapply dmapM_Raise; [exact Hin|].
  unfold dindex. rewrite Hn. reflexivity.
Qed.
