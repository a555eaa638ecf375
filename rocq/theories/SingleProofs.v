(** Specifications and proofs for SingleModel. *)
From Coq Require Import String Ascii Bool Reals Lra Lia List.
From Verif Require Import PyBase PyBaseFacts LimitsModel LimitsProofs SingleModel.
Import ListNotations.
Local Open Scope string_scope.
Local Open Scope list_scope.
Local Open Scope R_scope.

(** A channel all of whose particles are known. *)
Definition known (sm : dict R) (fs : string) : Prop :=
  forall s, In s (split_space fs) -> exists m, dget sm s = Some m.

Lemma known_masses sm fs : known sm fs -> exists ms, lookup_masses sm (split_space fs) = Ret ms.
Proof.
  intro H. unfold lookup_masses.
  destruct (mapM (fun s => dindex sm s) (split_space fs)) as [ms|e] eqn:E; [eauto|].
  destruct (mapM_Raise _ _ _ E) as (s & Hin & Hs). destruct (H s Hin) as [m Hm].
  unfold dindex in Hs. rewrite Hm in Hs. discriminate.
Qed.

(** The object is what the constructor would build now. *)
Definition ann_fresh (sm : dict R) (o : ann) : Prop :=
  ann_new sm (a_mx o) (a_fs o) (a_sigma o) = Ret o.
Definition dec_fresh (sm : dict R) (o : dec) : Prop :=
  dec_new sm (d_mx o) (d_fs o) (d_width o) = Ret o.

Definition ann_op_ok (sm : dict R) (op : ann_op) : Prop :=
  match op with AnnSetFs fs => known sm fs | _ => True end.

Lemma ann_new_fresh sm mx fs s o : ann_new sm mx fs s = Ret o -> ann_fresh sm o /\ a_fs o = fs /\ a_mx o = mx /\ a_sigma o = s.
Proof.
  unfold ann_fresh, ann_new. intro H.
  destruct (lookup_masses sm (split_space fs)) as [ms|] eqn:E; cbn [bind] in H; [|discriminate].
  inversion H; subst; cbn [a_fs a_mx a_sigma]. rewrite E; cbn [bind]. auto.
Qed.

Lemma ann_step_fresh sm o op : ann_op_ok sm op -> ann_fresh sm o -> ann_fresh sm (fst (ann_step sm o op)).
Proof.
  intros Hop Ho. destruct op as [fs|mx|s]; simpl in *.
  - destruct (known_masses sm fs Hop) as [ms Hms]. rewrite Hms. cbn [fst].
    unfold ann_fresh, ann_new; cbn [a_fs a_mx a_sigma]. now rewrite Hms.
  - unfold ann_fresh, ann_new in *; cbn [a_fs a_mx a_sigma a_states a_masses].
    destruct (lookup_masses sm (split_space (a_fs o))); cbn [bind] in *; [|discriminate].
    inversion Ho as [Heq]. rewrite <- Heq. reflexivity.
  - unfold ann_fresh, ann_new in *; cbn [a_fs a_mx a_sigma a_states a_masses].
    destruct (lookup_masses sm (split_space (a_fs o))); cbn [bind] in *; [|discriminate].
    inversion Ho as [Heq]. rewrite <- Heq. reflexivity.
Qed.

(** the last value assigned, or the initial one *)
Definition last_fs (init : string) (ops : list ann_op) : string :=
  fold_left (fun f op => match op with AnnSetFs fs => fs | _ => f end) ops init.
Definition last_mx (init : R) (ops : list ann_op) : R :=
  fold_left (fun f op => match op with AnnSetMx m => m | _ => f end) ops init.
Definition last_sigma (init : R) (ops : list ann_op) : R :=
  fold_left (fun f op => match op with AnnSetSigma m => m | _ => f end) ops init.

Lemma ann_history sm mx fs s o ops :
  ann_new sm mx fs s = Ret o -> Forall (ann_op_ok sm) ops ->
  ann_new sm (last_mx mx ops) (last_fs fs ops) (last_sigma s ops) = Ret (ann_run sm o ops).
Proof.
  intros Hn Hops. destruct (ann_new_fresh _ _ _ _ _ Hn) as (Hf & <- & <- & <-). clear Hn.
  revert o Hf. induction ops as [|op r IH]; intros o Hf; [exact Hf|].
  inversion Hops; subst. unfold last_mx, last_fs, last_sigma, ann_run in *. simpl.
  specialize (IH H2 (fst (ann_step sm o op)) (ann_step_fresh sm o op H1 Hf)).
  assert (E : a_mx (fst (ann_step sm o op)) = (match op with AnnSetMx m => m | _ => a_mx o end)
    /\ a_fs (fst (ann_step sm o op)) = (match op with AnnSetFs m => m | _ => a_fs o end)
    /\ a_sigma (fst (ann_step sm o op)) = (match op with AnnSetSigma m => m | _ => a_sigma o end)).
  { destruct op as [f|m|m]; simpl; [destruct (lookup_masses sm (split_space f))|..]; auto. }
  destruct E as (E1 & E2 & E3). rewrite E1, E2, E3 in IH. exact IH.
Qed.

Definition small_sm : dict R := [("mu", 105); ("e", 1/2); ("g", 0)].

Lemma ann_failed_assignment :
  exists sm o op, ann_fresh sm o /\ (exists k, snd (ann_step sm o op) = Raise (KeyError k))
    /\ ann_list (fst (ann_step sm o op)) <> ann_list o.
Proof.
  exists small_sm, {| a_mx := 200; a_fs := "mu mu"; a_sigma := 1; a_states := ["mu"; "mu"]; a_masses := [105; 105] |}, (AnnSetFs "x x").
  split; [reflexivity|]. split; [exists "x"; reflexivity|]. vm_compute. congruence.
Qed.

Lemma dec_fs_setter_stale :
  exists sm o fs, dec_fresh sm o /\ known sm fs
    /\ dec_list (dec_step o (DecSetFs fs)) = [fs]
    /\ (forall o', dec_new sm (d_mx o) fs (d_width o) = Ret o' ->
          dec_fs_mass sm (dec_step o (DecSetFs fs)) <> dec_fs_mass sm o').
Proof.
  exists small_sm, {| d_mx := 200; d_fs := "mu mu"; d_width := 1; d_states := ["mu"; "mu"]; d_masses := [105; 105] |}, "e e".
  split; [reflexivity|]. split.
  { intros s Hs. simpl in Hs. destruct Hs as [<-|[<-|[]]]; simpl; eauto. }
  split; [reflexivity|].
  intros o' H. unfold dec_new in H. simpl in H. inversion H; subst. simpl.
  unfold dec_fs_mass; simpl. intro E. inversion E. lra.
Qed.

(** Assigning anything but a different channel is harmless. *)
Definition dec_op_ok (o : dec) (op : dec_op) : Prop :=
  match op with DecSetFs fs => fs = d_fs o | _ => True end.

Lemma dec_step_fresh sm o op : dec_op_ok o op -> dec_fresh sm o -> dec_fresh sm (dec_step o op).
Proof.
  intros Hop Ho. unfold dec_fresh, dec_new in *.
  destruct (lookup_masses sm (split_space (d_fs o))) as [ms|] eqn:E; cbn [bind] in *; [|discriminate].
  inversion Ho as [Heq]. destruct op as [fs|mx|w]; simpl in *.
  - subst fs. rewrite E; cbn [bind]. rewrite <- Heq at 5 6. reflexivity.
  - rewrite E; cbn [bind]. rewrite <- Heq. reflexivity.
  - rewrite E; cbn [bind]. rewrite <- Heq. reflexivity.
Qed.

Lemma dec_history_same_channel sm o ops :
  dec_fresh sm o -> Forall (dec_op_ok o) ops -> dec_fresh sm (dec_run o ops) /\ d_fs (dec_run o ops) = d_fs o.
Proof.
  intros Hf Hops. unfold dec_run. revert o Hf Hops.
  induction ops as [|op r IH]; intros o Hf Hops; simpl; [auto|].
  inversion Hops; subst.
  assert (E : d_fs (dec_step o op) = d_fs o) by (destruct op; simpl in *; auto).
  destruct (IH (dec_step o op)) as [Ha Hb].
  - now apply dec_step_fresh.
  - eapply Forall_impl; [|exact H2]. intros a Ha. destruct a; simpl in *; congruence.
  - split; [assumption|congruence].
Qed.

(** ** Lines *)

(** Two-body kinematics: the energy of the particle of mass [m] recoiling
    against [m'] is the one conserving energy and momentum. *)
Definition two_body_energy (Q m m' E : R) : Prop :=
  exists E' p, E + E' = Q /\ E ^ 2 = p ^ 2 + m ^ 2 /\ E' ^ 2 = p ^ 2 + m' ^ 2.

(** What the base class documents: final states to photon energies. *)
Definition is_number (l : pyline) : Prop := exists x, l = PyNum x.

Lemma gamma_lines_never_numbers fs states masses Q d k l :
  gamma_line_energies fs states masses Q = Ret d -> In (k, l) d -> ~ is_number l.
Proof.
  unfold gamma_line_energies. intros H Hin [x ->].
  destruct states as [|s1 [|s2 [|]]]; try (inversion H; subst; contradiction).
  destruct masses as [|m1 [|m2 [|]]]; try discriminate.
  inversion H; subst; clear H.
  destruct (String.eqb s1 "g"), (String.eqb s2 "g"); simpl in Hin;
    try contradiction; destruct Hin as [Hin|[]]; discriminate.
Qed.

Lemma positron_lines_never_numbers fs states masses Q d k l :
  positron_line_energies fs states masses Q = Ret d -> In (k, l) d -> ~ is_number l.
Proof.
  unfold positron_line_energies. intros H Hin [x ->].
  destruct states as [|s1 [|s2 [|]]]; try (inversion H; subst; contradiction).
  destruct masses as [|m1 [|m2 [|]]]; try discriminate.
  inversion H; subst; clear H.
  destruct (String.eqb s1 "e"), (String.eqb s2 "e"); simpl in Hin;
    try contradiction; destruct Hin as [Hin|[]]; discriminate.
Qed.

Lemma photon_pair_line sm mx s Q :
  dget sm "g" = Some 0 ->
  exists o, ann_new sm mx "g g" s = Ret o
    /\ gamma_line_energies (a_fs o) (a_states o) (a_masses o) Q
       = Ret [("g g", PyDict [("g g", (Q ^ 2 + 0 ^ 2 - 0 ^ 2) / (2 * Q))])].
Proof.
  intro Hg. unfold ann_new, lookup_masses. simpl. unfold dindex. rewrite Hg. cbn [bind].
  eexists; split; reflexivity.
Qed.

Lemma photon_pair_cmb_raises f e_cm e_min bf d :
  line_sum_py "g g" e_cm e_min f [("g g", (PyDict d, bf))] 0 = Raise TypeError.
Proof. reflexivity. Qed.

(** The textbook formula conserves energy and momentum. *)
Lemma two_body_energy_formula Q a b : 0 < Q -> 0 <= a -> 0 <= b -> a + b <= Q ->
  two_body_energy Q a b ((Q ^ 2 + a ^ 2 - b ^ 2) / (2 * Q)).
Proof.
  intros HQ Ha Hb Hab.
  exists ((Q ^ 2 - a ^ 2 + b ^ 2) / (2 * Q)),
    (sqrt (((Q ^ 2 + a ^ 2 - b ^ 2) / (2 * Q)) ^ 2 - a ^ 2)).
  assert (Hk : 0 <= ((Q ^ 2 + a ^ 2 - b ^ 2) / (2 * Q)) ^ 2 - a ^ 2).
  { replace (((Q ^ 2 + a ^ 2 - b ^ 2) / (2 * Q)) ^ 2 - a ^ 2)
      with ((Q - (a + b)) * (Q + a + b) * ((Q - (a - b)) * (Q + (a - b))) / (2 * Q) ^ 2) by (field; lra).
    apply Rmult_le_pos.
    - repeat apply Rmult_le_pos; lra.
    - left. apply Rinv_0_lt_compat. apply pow_lt. lra. }
  split; [field; lra|]. rewrite pow2_sqrt by assumption. split; [ring|field; lra].
Qed.

(** A line for every two-body channel with a positron, none for the others. *)
Lemma positron_line_inner_energy fs s1 s2 m1 m2 Q :
  0 < Q -> 0 <= m1 -> 0 <= m2 -> m1 + m2 <= Q ->
  exists d, positron_line_energies fs [s1; s2] [m1; m2] Q = Ret d
    /\ (s1 = "e" -> exists E, d = [(fs, PyDict [(fs, E)])] /\ two_body_energy Q m1 m2 E)
    /\ (s1 <> "e" -> s2 = "e" -> exists E, d = [(fs, PyDict [(fs, E)])] /\ two_body_energy Q m2 m1 E)
    /\ (s1 <> "e" -> s2 <> "e" -> d = []).
Proof.
  intros HQ H1 H2 Hth. unfold positron_line_energies. eexists. split; [reflexivity|].
  destruct (String.eqb_spec s1 "e") as [E1|E1]; [|destruct (String.eqb_spec s2 "e") as [E2|E2]].
  - split; [|split; intros; contradiction]. intros _. eexists. split; [reflexivity|]. now apply two_body_energy_formula.
  - split; [intros; contradiction|]. split; [|intros; contradiction]. intros _ _. eexists. split; [reflexivity|].
    replace (Q ^ 2 - m1 ^ 2 + m2 ^ 2) with (Q ^ 2 + m2 ^ 2 - m1 ^ 2) by ring. apply two_body_energy_formula; lra.
  - split; [intros; contradiction|]. split; [intros; contradiction|reflexivity].
Qed.
(** A line for every two-body channel with a photon, none for the others. *)
Lemma gamma_line_all fs s1 s2 m1 m2 Q :
  0 < Q -> 0 <= m1 -> 0 <= m2 -> m1 + m2 <= Q ->
  exists d, gamma_line_energies fs [s1; s2] [m1; m2] Q = Ret d
    /\ (s1 = "g" -> exists name E, d = [(fs, PyDict [(name, E)])] /\ two_body_energy Q m1 m2 E)
    /\ (s1 <> "g" -> s2 = "g" -> exists name E, d = [(fs, PyDict [(name, E)])] /\ two_body_energy Q m2 m1 E)
    /\ (s1 <> "g" -> s2 <> "g" -> d = []).
Proof.
  intros HQ H1 H2 Hth. unfold gamma_line_energies. eexists. split; [reflexivity|].
  destruct (String.eqb_spec s1 "g") as [E1|E1], (String.eqb_spec s2 "g") as [E2|E2]; cbn [andb].
  - split; [|split; intros; contradiction]. intros _. do 2 eexists. split; [reflexivity|]. now apply two_body_energy_formula.
  - split; [|split; intros; contradiction]. intros _. do 2 eexists. split; [reflexivity|]. now apply two_body_energy_formula.
  - split; [intros; contradiction|]. split; [|intros; contradiction]. intros _ _. do 2 eexists. split; [reflexivity|].
    replace (Q ^ 2 - m1 ^ 2 + m2 ^ 2) with (Q ^ 2 + m2 ^ 2 - m1 ^ 2) by ring. apply two_body_energy_formula; lra.
  - split; [intros; contradiction|]. split; [intros; contradiction|reflexivity].
Qed.

(** str.split, by its result: the pieces joined by single spaces give the string back, and no piece
    contains a space. *)
Fixpoint joined (l : list string) : string :=
  match l with [] => "" | [s] => s | s :: r => (s ++ " " ++ joined r)%string end.
Fixpoint spaceless (s : string) : Prop :=
  match s with EmptyString => True | String c r => c <> " "%char /\ spaceless r end.
Lemma append_assoc (a b c : string) : ((a ++ b) ++ c = a ++ (b ++ c))%string.
Proof. induction a as [|x a IH]; [reflexivity|]. cbn. now rewrite IH. Qed.
Lemma spaceless_snoc s c : spaceless s -> c <> " "%char -> spaceless (s ++ String c "")%string.
Proof. induction s as [|x s IH]; cbn; [auto|]. intros [H1 H2] H. auto. Qed.
Lemma split_aux_spec s : forall cur, spaceless cur ->
  split_aux s cur <> [] /\ joined (split_aux s cur) = (cur ++ s)%string /\ Forall spaceless (split_aux s cur).
Proof.
  induction s as [|c s IH]; intros cur Hc; cbn [split_aux].
  - split; [discriminate|]. split; [|auto]. cbn. clear. induction cur as [|x cur IH]; [reflexivity|]. cbn. now rewrite <- IH.
  - destruct (Ascii.eqb_spec c " "%char) as [->|E].
    + destruct (IH "" I) as (A & B & C). split; [discriminate|]. split; [|now constructor].
      destruct (split_aux s "") as [|p l]; [now destruct A|].
      change (joined (cur :: p :: l)) with (cur ++ " " ++ joined (p :: l))%string. now rewrite B.
    + destruct (IH (cur ++ String c "")%string (spaceless_snoc _ _ Hc E)) as (A & B & C). split; [assumption|]. split; [|assumption].
      rewrite B, append_assoc. reflexivity.
Qed.
Lemma joined_inj : forall l r, l <> [] -> r <> [] -> Forall spaceless l -> Forall spaceless r -> joined l = joined r -> l = r.
Proof.
  assert (K : forall a b x y, spaceless a -> spaceless b ->
    (x = "" \/ exists x', x = String " " x') -> (y = "" \/ exists y', y = String " " y') -> (a ++ x = b ++ y)%string -> a = b /\ x = y).
  { induction a as [|c a IH]; intros [|d b] x y Ha Hb Hx Hy E; cbn in *.
    - auto.
    - exfalso. destruct Hx as [->|(x' & ->)]; [discriminate|]. injection E as <- _. now apply Hb.
    - exfalso. destruct Hy as [->|(y' & ->)]; [discriminate|]. injection E as -> _. now apply Ha.
    - injection E as <- E. destruct (IH b x y) as [-> ->]; auto; tauto. }
  assert (N : forall s, (s ++ "")%string = s) by (induction s as [|c s IH]; [reflexivity|cbn; now rewrite IH]).
  assert (J : forall a l, joined (a :: l) = (a ++ match l with [] => "" | _ => String " " (joined l) end)%string).
  { intros a [|b l]; cbn; [now rewrite N|reflexivity]. }
  induction l as [|a l IH]; intros r H1 H2 F1 F2 E; [now destruct H1|]. destruct r as [|b r]; [now destruct H2|].
  rewrite !J in E. inversion F1; subst. inversion F2; subst.
  assert (S : forall l : list string, (match l with [] => "" | _ => String " " (joined l) end = "") \/
     exists x, match l with [] => "" | _ => String " " (joined l) end = String " " x) by (intros [|? ?]; eauto).
  destruct (K a b _ _ ltac:(assumption) ltac:(assumption) (S l) (S r) E) as [-> E']. f_equal.
  destruct l as [|p l], r as [|q r]; try reflexivity; try discriminate E'. apply IH; try discriminate; auto. now injection E'.
Qed.

(** The cross section after any history. *)
Lemma fold_plus_acc : forall l a, fold_left Rplus l a = a + fold_right Rplus 0 l.
Proof. induction l as [|x l IH]; intro a; cbn; [ring|]. rewrite IH. ring. Qed.
Lemma ann_xsec_history sm mx fs s o ops e :
  ann_new sm mx fs s = Ret o -> Forall (ann_op_ok sm) ops ->
  exists ms, Forall2 (fun name m => dget sm name = Some m) (split_space (last_fs fs ops)) ms
    /\ (2 * last_mx mx ops <= e -> fold_right Rplus 0 ms <= e -> ann_xsec sm (ann_run sm o ops) e = Ret (last_sigma s ops))
    /\ (e < 2 * last_mx mx ops \/ e < fold_right Rplus 0 ms -> ann_xsec sm (ann_run sm o ops) e = Ret 0).
Proof.
  intros Hn Hops. pose proof (ann_history sm mx fs s o ops Hn Hops) as H. unfold ann_new in H.
  destruct (lookup_masses sm (split_space (last_fs fs ops))) as [ms|] eqn:E; cbn [bind] in H; [|discriminate].
  exists ms. split.
  { clear - E. unfold lookup_masses in E. revert ms E. induction (split_space (last_fs fs ops)) as [|x l IH]; intros ms E.
    - cbn in E. injection E as <-. constructor.
    - cbn [mapM] in E. unfold dindex at 1 in E. destruct (dget sm x) as [m|] eqn:G; cbn [bind] in E; [|discriminate].
      destruct (mapM (fun s => dindex sm s) l) as [r|] eqn:M; cbn [bind] in E; [|discriminate]. injection E as <-.
      constructor; [assumption|]. now apply IH. }
  injection H as H. rewrite <- H. unfold ann_xsec, ann_fs_mass. cbn [a_mx a_sigma a_states]. rewrite E. cbn [bind].
  rewrite fold_plus_acc, Rplus_0_l. split.
  - intros A B. destruct (Rlt_dec e (2 * last_mx mx ops)); [lra|]. destruct (Rlt_dec e (fold_right Rplus 0 ms)); [lra|reflexivity].
  - intros AB. destruct (Rlt_dec e (2 * last_mx mx ops)); [reflexivity|]. destruct (Rlt_dec e (fold_right Rplus 0 ms)); [reflexivity|lra].
Qed.

(** The number inside the nested dictionary is the right one. *)
Lemma gamma_line_inner_energy fs s1 s2 m1 m2 Q d k inner :
  0 < Q -> 0 <= m1 -> 0 <= m2 -> m1 + m2 <= Q ->
  gamma_line_energies fs [s1; s2] [m1; m2] Q = Ret d -> In (k, PyDict inner) d ->
  exists name E, inner = [(name, E)] /\ k = fs
    /\ ((s1 = "g" /\ two_body_energy Q m1 m2 E) \/ (s2 = "g" /\ two_body_energy Q m2 m1 E)).
Proof.
  intros HQ H1 H2 Hth H Hin.
  assert (Hkin : forall a b, 0 <= a -> 0 <= b -> a + b <= Q ->
            two_body_energy Q a b ((Q ^ 2 + a ^ 2 - b ^ 2) / (2 * Q))).
  { intros a b Ha Hb Hab.
    exists ((Q ^ 2 - a ^ 2 + b ^ 2) / (2 * Q)),
      (sqrt (((Q ^ 2 + a ^ 2 - b ^ 2) / (2 * Q)) ^ 2 - a ^ 2)).
    assert (Hk : 0 <= ((Q ^ 2 + a ^ 2 - b ^ 2) / (2 * Q)) ^ 2 - a ^ 2).
    { replace (((Q ^ 2 + a ^ 2 - b ^ 2) / (2 * Q)) ^ 2 - a ^ 2)
        with ((Q - (a + b)) * (Q + a + b) * ((Q - (a - b)) * (Q + (a - b))) / (2 * Q) ^ 2) by (field; lra).
      apply Rmult_le_pos.
      - repeat apply Rmult_le_pos; lra.
      - left. apply Rinv_0_lt_compat. apply pow_lt. lra. }
    split; [field; lra|]. rewrite pow2_sqrt by assumption. split; [ring|field; lra]. }
  unfold gamma_line_energies in H. inversion H; subst; clear H.
  assert (Hr : (Q ^ 2 - m1 ^ 2 + m2 ^ 2) / (2 * Q) = (Q ^ 2 + m2 ^ 2 - m1 ^ 2) / (2 * Q)) by (field; lra).
  destruct (String.eqb_spec s1 "g") as [E1|E1], (String.eqb_spec s2 "g") as [E2|E2]; simpl in Hin;
    try contradiction; destruct Hin as [Hin|[]]; inversion Hin; subst.
  - do 2 eexists; repeat split. left; split; [reflexivity|]. apply (Hkin m1 m2); assumption.
  - do 2 eexists; repeat split. left; split; [reflexivity|]. apply (Hkin m1 m2); assumption.
  - do 2 eexists; repeat split. right; split; [reflexivity|].
    assert (X := Hkin m2 m1 H2 H1 ltac:(lra)). rewrite <- Hr in X. exact X.
Qed.

(** ** PBH *)

(** The current spectrum belongs to the current mass. *)
Definition pbh_coherent (mxs : list R) (o : pbh) : Prop :=
  exists i, p_col o = Some i /\ nth_error mxs i = Some (p_mx o).

Lemma find_index_spec l x : forall k i, find_index l x k = Some i -> (k <= i)%nat /\ nth_error l (i - k) = Some x.
Proof.
  induction l as [|y r IH]; simpl; intros k i H; [discriminate|].
  destruct (Req_EM_T y x).
  - inversion H; subst. rewrite Nat.sub_diag. auto.
  - destruct (IH (S k) i H) as [H1 H2]. split; [lia|].
    replace (i - k)%nat with (S (i - S k)) by lia. exact H2.
Qed.
Lemma find_index_None l x : forall k, find_index l x k = None -> ~ In x l.
Proof.
  induction l as [|y r IH]; simpl; intros k H; [tauto|].
  destruct (Req_EM_T y x); [discriminate|]. intros [->|Hin]; [congruence|]. now apply (IH (S k)).
Qed.

Lemma pbh_history mxs mx o vals :
  pbh_new mxs mx = Ret o -> Forall (fun v => In v mxs) vals -> pbh_coherent mxs (pbh_run mxs o vals).
Proof.
  intros Hn Hv.
  assert (Hset : forall o v, In v mxs -> pbh_coherent mxs (fst (pbh_set mxs o v))).
  { intros o' v Hin. unfold pbh_set. destruct (find_index mxs v 0) as [i|] eqn:E.
    - exists i; simpl. split; [reflexivity|]. apply find_index_spec in E. destruct E as [_ E].
      now rewrite Nat.sub_0_r in E.
    - now apply find_index_None in E. }
  assert (H0 : pbh_coherent mxs o).
  { unfold pbh_new, pbh_set in Hn. destruct (find_index mxs mx 0) as [i|] eqn:E; cbn [bind] in Hn; [|discriminate].
    inversion Hn; subst. exists i; simpl; split; [reflexivity|].
    apply find_index_spec in E. destruct E as [_ E]. now rewrite Nat.sub_0_r in E. }
  clear Hn. revert o H0. induction vals as [|v r IH]; intros o H0; simpl; [assumption|].
  inversion Hv; subst. apply IH; auto.
Qed.

Lemma pbh_failed_assignment :
  exists mxs o v, pbh_coherent mxs o /\ snd (pbh_set mxs o v) = Raise IndexError
    /\ ~ pbh_coherent mxs (fst (pbh_set mxs o v)).
Proof.
  exists [1; 2], {| p_mx := 1; p_col := Some 0%nat |}, 3.
  split; [exists 0%nat; auto|].
  unfold pbh_set; simpl. destruct (Req_EM_T 1 3); [lra|]. destruct (Req_EM_T 2 3); [lra|].
  split; [reflexivity|]. intros (i & Hi & Hn). simpl in *. inversion Hi; subst. simpl in Hn. inversion Hn. lra.
Qed.
