(** C184: background models. *)
From Coq Require Import Reals Lra Psatz List Sorted.
From Verif Require Import PyBase LimitsModel BgModel.
Import ListNotations.
Local Open Scope R_scope.

(** ** Specification *)
Definition applies (b : background) (e : R) : Prop := bg_low b <= e <= bg_high b.
(** the energies of an argument that is not a list *)
Definition asked (es : energies) : option (list R) :=
  match es with EFloat e => Some [e] | EArray l => Some l | EList _ => None end.
Definition answered (a : answer) : list flt := match a with AFloat v => [v] | AArray vs => vs end.
(** a table in increasing order *)
Definition ordered (t : list (R * R)) : Prop := StronglySorted (fun p q => fst p < fst q) t.
(** a straight line between neighbours of the table *)
Definition on_chord (t : list (R * R)) (e v : R) : Prop :=
  exists a x0 y0 x1 y1 b s, t = a ++ (x0, y0) :: (x1, y1) :: b /\ 0 <= s <= 1 /\ e = (1 - s) * x0 + s * x1 /\ v = (1 - s) * y0 + s * y1.

(** ** Lemmas *)
Lemma outside_spec b e : outside b e = true <-> ~ applies b e.
Proof. unfold outside, applies. destruct (Rlt_dec e (bg_low b)), (Rlt_dec (bg_high b) e); split; intro H; try reflexivity; try discriminate; lra. Qed.
Lemma inside_spec b e : outside b e = false <-> applies b e.
Proof. unfold outside, applies. destruct (Rlt_dec e (bg_low b)), (Rlt_dec (bg_high b) e); split; intro H; try reflexivity; try discriminate; lra. Qed.

(** ** A warning names the first energy outside the range; there is none if all are inside *)
Theorem background_warning : forall b es l, asked es = Some l ->
  (forall e, fst (bg_flux b es) = Some e <->
     exists before after, l = before ++ e :: after /\ Forall (applies b) before /\ ~ applies b e) /\
  (fst (bg_flux b es) = None <-> Forall (applies b) l).
Proof.
  assert (G : forall b l, let w := match filter (outside b) l with [] => None | e :: _ => Some e end in
    (forall e, w = Some e <-> exists before after, l = before ++ e :: after /\ Forall (applies b) before /\ ~ applies b e) /\
    (w = None <-> Forall (applies b) l)).
  { intros b l. induction l as [|x l [I1 I2]]; cbn.
    - split; [intro e; split; [discriminate|intros ([|? ?] & c & E & _); discriminate]|split; constructor].
    - destruct (outside b x) eqn:E.
      + apply outside_spec in E. split.
        * intro e. split; [intro H; injection H as <-; exists [], l; repeat split; [constructor|exact E]|].
          intros ([|y a] & c & H & F & N); injection H as -> ->; [reflexivity|]. inversion F. contradiction.
        * split; [discriminate|]. intro F. inversion F. contradiction.
      + apply inside_spec in E. split.
        * intro e. rewrite (I1 e). split.
          -- intros (a & c & -> & F & N). exists (x :: a), c. repeat split; [constructor; assumption|exact N].
          -- intros ([|y a] & c & H & F & N); injection H as -> ->; [contradiction|]. inversion F. exists a, c. auto.
        * rewrite I2. split; [intro F; constructor; assumption|intro F; inversion F; assumption]. }
  intros b es l H. destruct es as [e|es|es]; cbn in H; [|injection H as <-; apply G|discriminate].
  injection H as <-. specialize (G b [e]). cbn in G. cbn. destruct (outside b e); exact G.
Qed.
Print Assumptions background_warning.

Example background_warning_example : fst (bg_flux gecco_bg_model (EArray [1; 5000; 6000])) = Some 5000.
Proof.
  cbn. repeat (rewrite (proj2 (inside_spec gecco_bg_model 1)) by (unfold applies; cbn; lra)).
  rewrite (proj2 (outside_spec gecco_bg_model 5000)) by (unfold applies; cbn; lra). reflexivity.
Qed.

(** ** The power laws: at every energy but zero the flux is the power law, inside the range or not *)
Theorem power_law_backgrounds : forall es l, asked es = Some l -> Forall (fun e => e <> 0) l ->
  exists g d, snd (bg_flux gecco_bg_model es) = Ret g /\ snd (bg_flux default_bg_model es) = Ret d /\
    answered g = map (fun e => FNum (0.008 / (e * e))) l /\ answered d = map (fun e => FNum (0.00274 / (e * e))) l.
Proof.
  assert (G : forall c k l, c = k -> Forall (fun e => e <> 0) l ->
    map (fun e => if Req_EM_T (e ^ 2) 0 then FInf else FNum (c / e ^ 2)) l = map (fun e => FNum (k / (e * e))) l).
  { intros c k l -> F. induction F as [|e l He F IH]; cbn [map]; [reflexivity|]. rewrite IH. f_equal.
    destruct (Req_EM_T (e ^ 2) 0) as [Z|_]; [exfalso; apply He; nra|]. do 2 f_equal. ring. }
  intros es l H F. destruct es as [e|es|es]; cbn in H; [| |discriminate]; injection H as <-.
  - inversion F as [|x y He _]; subst. cbn [bg_flux snd bg_fn gecco_bg_model default_bg_model inverse_square].
    destruct (Req_EM_T (e ^ 2) 0) as [Z|_]; [exfalso; apply He; nra|]. do 2 eexists. repeat split; cbn; do 3 f_equal; try lra; ring.
  - do 2 eexists. cbn [bg_flux snd bg_fn gecco_bg_model default_bg_model inverse_square]. repeat split; cbn [answered]; apply G; try assumption; lra.
Qed.
Print Assumptions power_law_backgrounds.

Example power_law_backgrounds_example : asked (EArray [1; 20000]) = Some [1; 20000] /\ Forall (fun e => e <> 0) [1; 20000].
Proof. split; [reflexivity|]. repeat constructor; lra. Qed.

(** ** A background from a table: inside the range the flux lies on the line between neighbours, one energy outside raises ValueError *)
Lemma segment_spec : forall rest x0 y0 e, ordered ((x0, y0) :: rest) -> rest <> [] ->
  (x0 <= e <= fst (last ((x0, y0) :: rest) (0, 0)) -> exists v, segment x0 y0 rest e = Some v /\ on_chord ((x0, y0) :: rest) e v) /\
  (~ x0 <= e <= fst (last ((x0, y0) :: rest) (0, 0)) -> segment x0 y0 rest e = None).
Proof.
  induction rest as [|[x1 y1] r IH]; intros x0 y0 e O N; [contradiction|].
  inversion O as [|p l O1 F]; subst. inversion F as [|q l' H01 F']; subst. cbn in H01.
  assert (L : forall d, last ((x0, y0) :: (x1, y1) :: r) d = last ((x1, y1) :: r) d) by reflexivity. rewrite L.
  assert (Hlast : x1 <= fst (last ((x1, y1) :: r) (0, 0))).
  { destruct r as [|p r]; [cbn; lra|]. inversion O1 as [|p' l'' O2 F2]; subst. rewrite Forall_forall in F2.
    left. apply (F2 (last (p :: r) (0, 0))). destruct (@exists_last _ (p :: r) ltac:(discriminate)) as (a & z & ->). rewrite last_last. apply in_or_app. right. left. reflexivity. }
  cbn [segment]. destruct (Rlt_dec e x0) as [H|H].
  - split; [lra|reflexivity].
  - destruct (Rle_dec e x1) as [H1|H1].
    + split; [|intro Z; exfalso; apply Z; lra]. intros _. eexists. split; [reflexivity|].
      exists [], x0, y0, x1, y1, r, ((e - x0) / (x1 - x0)). split; [reflexivity|]. split.
      * split; [apply Rmult_le_pos; [lra|left; apply Rinv_0_lt_compat; lra]|apply (Rmult_le_reg_r (x1 - x0)); [lra|]; unfold Rdiv; rewrite Rmult_assoc, Rinv_l; lra].
      * split; field; lra.
    + destruct r as [|p r].
      * cbn in *. destruct (Req_EM_T e x1); [lra|]. split; [lra|reflexivity].
      * destruct (IH x1 y1 e O1 ltac:(discriminate)) as [A B]. split.
        -- intros [_ Hh]. destruct A as (v & E & (a & u0 & w0 & u1 & w1 & b & s & Et & R1)); [lra|]. exists v. split; [exact E|].
           exists ((x0, y0) :: a), u0, w0, u1, w1, b, s. split; [rewrite Et; reflexivity|exact R1].
        -- intro Z. apply B. intros [_ Hh]. apply Z. lra.
Qed.
Lemma last_pair {A} (x q d : A) r : last (x :: q :: r) d = last r q.
Proof. revert x q. induction r as [|z r IH]; intros x q; [reflexivity|]. change (last (q :: z :: r) d = last (z :: r) q). rewrite IH. destruct r; [reflexivity|]. clear. revert z a. induction r as [|y r IH]; intros z a; [reflexivity|]. exact (IH z y). Qed.
Theorem table_background : forall p q r es l, ordered (p :: q :: r) -> asked es = Some l ->
  exists b, from_interp (p :: q :: r) = Ret b /\ bg_low b = fst p /\ bg_high b = fst (last r q) /\
  (Forall (applies b) l -> exists a, bg_flux b es = (None, Ret a) /\
     Forall2 (fun e v => exists f, v = FNum f /\ on_chord (p :: q :: r) e f) l (answered a)) /\
  (~ Forall (applies b) l -> snd (bg_flux b es) = Raise ValueError /\ fst (bg_flux b es) <> None).
Proof.
  intros [x0 y0] q r es l O H. set (t := (x0, y0) :: q :: r). eexists. split; [reflexivity|]. split; [reflexivity|].
  split; [cbn [bg_high]; f_equal; apply last_pair|].
  set (b := {| bg_low := x0; bg_high := fst (last t (0, 0)); bg_fn := interp t |}).
  assert (In_ : forall e, applies b e -> exists v, table_at t e = Some v /\ on_chord t e v)
    by (intros e He; apply (segment_spec (q :: r) x0 y0 e O ltac:(discriminate)); exact He).
  assert (Out : forall e, ~ applies b e -> table_at t e = None)
    by (intros e He; apply (segment_spec (q :: r) x0 y0 e O ltac:(discriminate)); exact He).
  destruct (background_warning b es l H) as [_ W].
  set (at_ := fun e => match table_at t e with Some v => Ret (FNum v) | None => Raise ValueError end).
  assert (M1 : forall k, Forall (applies b) k -> exists vs, mapM at_ k = Ret vs /\ Forall2 (fun e v => exists f, v = FNum f /\ on_chord t e f) k vs).
  { intros k F. induction F as [|e k He F IH]; [exists []; split; [reflexivity|constructor]|].
    destruct IH as (vs & E & G). destruct (In_ e He) as (v & Ev & C). exists (FNum v :: vs). cbn. unfold at_ at 1. rewrite Ev. cbn. rewrite E.
    split; [reflexivity|]. constructor; [exists v; auto|exact G]. }
  assert (M2 : forall k, ~ Forall (applies b) k -> mapM at_ k = Raise ValueError).
  { intros k. induction k as [|e k IH]; intro N; [exfalso; apply N; constructor|]. cbn. unfold at_ at 1.
    destruct (outside b e) eqn:E; [apply outside_spec in E; rewrite (Out e E); reflexivity|]. apply inside_spec in E.
    destruct (In_ e E) as (v & -> & _). cbn. rewrite IH; [reflexivity|]. intro F. apply N. constructor; assumption. }
  split; intro F.
  - assert (W0 : fst (bg_flux b es) = None) by (apply W; exact F). destruct (M1 l F) as (vs & E & G).
    destruct es as [e|es|es]; cbn in H; [| |discriminate]; injection H as <-.
    + cbn in E. destruct (at_ e) as [v|] eqn:Ea; [|discriminate]. cbn in E. injection E as <-. exists (AFloat v). split; [|exact G].
      rewrite (surjective_pairing (bg_flux b _)), W0. f_equal. change (snd (bg_flux b (EFloat e))) with (let* v := at_ e in Ret (AFloat v)). rewrite Ea. reflexivity.
    + exists (AArray vs). split; [|exact G]. rewrite (surjective_pairing (bg_flux b _)), W0. f_equal. cbn [bg_flux snd bg_fn b interp].
      change (fun e : R => match table_at t e with Some v => Ret (FNum v) | None => Raise ValueError end) with at_. rewrite E. reflexivity.
  - split; [|intro Z; apply F, W, Z]. specialize (M2 l F).
    destruct es as [e|es|es]; cbn in H; [| |discriminate]; injection H as <-.
    + cbn in M2. change (snd (bg_flux b (EFloat e))) with (let* v := at_ e in Ret (AFloat v)).
      destruct (at_ e); [discriminate|]. cbn in *. congruence.
    + cbn [bg_flux snd bg_fn b interp]. change (fun e : R => match table_at t e with Some v => Ret (FNum v) | None => Raise ValueError end) with at_.
      rewrite M2. reflexivity.
Qed.
Print Assumptions table_background.

Example table_background_example : ordered [(1, 5); (2, 3); (4, 1)] /\
  interp [(1, 5); (2, 3); (4, 1)] (EFloat 3) = Ret (AFloat (FNum 2)).
Proof.
  split; [repeat constructor; cbn; lra|]. cbn. destruct (Rlt_dec 3 1); [lra|]. destruct (Rle_dec 3 2); [lra|].
  destruct (Rlt_dec 3 2); [lra|]. destruct (Rle_dec 3 4); [|lra]. cbn. do 3 f_equal. lra.
Qed.

(** ** No background answers NaN outside its range, as the docstring says: the power laws go on, the table raises *)
Theorem background_nan_refuted :
  (exists e v, ~ applies gecco_bg_model e /\ bg_flux gecco_bg_model (EFloat e) = (Some e, Ret (AFloat (FNum v))) /\ 0 < v) /\
  (forall p q r b e, ordered (p :: q :: r) -> from_interp (p :: q :: r) = Ret b -> ~ applies b e ->
     snd (bg_flux b (EFloat e)) = Raise ValueError) /\
  (forall es a, snd (bg_flux gecco_bg_model es) = Ret a \/ snd (bg_flux default_bg_model es) = Ret a -> ~ In FNaN (answered a)).
Proof.
  split; [|split].
  - exists 5000, (2 * (4 / 10 ^ 3) / 5000 ^ 2). assert (N : ~ applies gecco_bg_model 5000) by (unfold applies; cbn; lra). split; [exact N|].
    split; [|lra]. apply outside_spec in N. unfold bg_flux. rewrite N. cbn [bg_fn gecco_bg_model inverse_square].
    destruct (Req_EM_T (5000 ^ 2) 0); [lra|reflexivity].
  - intros p q r b e O E N. destruct (table_background p q r (EFloat e) [e] O eq_refl) as (b' & E' & _ & _ & _ & G). rewrite E in E'. injection E' as <-.
    apply G. intro F. inversion F. contradiction.
  - assert (G : forall c es a, inverse_square c es = Ret a -> ~ In FNaN (answered a)).
    { intros c [e|l|l] a H; cbn in H; [|injection H as <-|discriminate].
      - destruct (Req_EM_T _ _); [discriminate|]. injection H as <-. intros [Z|[]]. discriminate.
      - cbn. rewrite in_map_iff. intros (e & Z & _). destruct (Req_EM_T _ _); discriminate. }
    intros [e|l|l] a [H|H]; cbn [bg_flux snd gecco_bg_model default_bg_model bg_fn] in H; try discriminate; exact (G _ _ _ H).
Qed.
Print Assumptions background_nan_refuted.

(** ** The range of the default background contains zero, where a float raises and an array is infinite *)
Theorem default_background_at_zero_refuted :
  applies default_bg_model 0 /\ bg_flux default_bg_model (EFloat 0) = (None, Raise ZeroDivisionError) /\
  bg_flux default_bg_model (EArray [0; 1]) = (None, Ret (AArray [FInf; FNum (2.74 / 10 ^ 3 / 1 ^ 2)])).
Proof.
  assert (A0 : applies default_bg_model 0) by (unfold applies; cbn; lra). assert (A1 : applies default_bg_model 1) by (unfold applies; cbn; lra).
  apply inside_spec in A0 as B0. apply inside_spec in A1 as B1. split; [exact A0|].
  unfold bg_flux. cbn [filter]. rewrite B0, B1. cbn [bg_fn default_bg_model inverse_square map].
  destruct (Req_EM_T (0 ^ 2) 0) as [_|n]; [|exfalso; apply n; ring]. destruct (Req_EM_T (1 ^ 2) 0) as [Z|_]; [lra|]. split; reflexivity.
Qed.
Print Assumptions default_background_at_zero_refuted.
