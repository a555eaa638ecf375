(** Specifications and proofs for LimitsModel. *)
From Coq Require Import String Bool Reals Lra Lia List.
From Verif Require Import PyBase PyBaseFacts LimitsModel TheoryProofs.
Import ListNotations.
Local Open Scope string_scope.
Local Open Scope list_scope.
Local Open Scope R_scope.

(** ** Units *)

Lemma hbar2_c3_pos : 0 < hbar2_c3.
Proof.
  unfold hbar2_c3.
  apply Rmult_lt_0_compat; apply pow_lt.
  - apply Rmult_lt_0_compat; [lra | apply pow_lt; lra].
  - apply Rdiv_lt_0_compat; [lra | apply pow_lt; lra].
Qed.

Lemma convert_there_and_back (sv : R) :
  exists y z, convert_sigmav sv "cm^3 / s" = Some y /\ convert_sigmav y "MeV^-2" = Some sv
    /\ convert_sigmav sv "MeV^-2" = Some z /\ convert_sigmav z "cm^3 / s" = Some sv
    /\ (0 < sv -> 0 < y /\ 0 < z).
Proof.
  pose proof hbar2_c3_pos as Hp.
  exists (sv * hbar2_c3), (sv / hbar2_c3).
  unfold convert_sigmav; cbn -[hbar2_c3 Rmult Rdiv].
  repeat split.
  - f_equal; field; lra.
  - f_equal; field; lra.
  - apply Rmult_lt_0_compat; assumption.
  - apply Rdiv_lt_0_compat; assumption.
Qed.

(** hbar^2 c^3 is about 1.17e-11 MeV^2 cm^3/s *)
Lemma hbar2_c3_value : 1.16 / 10 ^ 11 < hbar2_c3 < 1.18 / 10 ^ 11.
Proof. unfold hbar2_c3; lra. Qed.

Lemma convert_documented_none (sv : R) : convert_sigmav sv "cm^3/s" = None.
Proof. reflexivity. Qed.

(** ** CMB *)

(** What one line deposits: number of particles of the line's kind times energy
    fraction times efficiency, if the efficiency is tabulated there. *)
Definition line_deposit (fs : string) (e_cm e_min : R) (f : R -> R) (l : string * (R * R)) : R :=
  let n := if String.eqb (fst l) fs then 2 else 1 in
  if Rlt_dec e_min (fst (snd l)) then n * snd (snd l) * fst (snd l) * f (fst (snd l)) / e_cm else 0.

Lemma line_sum_acc fs e_cm e_min f lines acc :
  line_sum fs e_cm e_min f lines acc
  = acc + Rsum (map (line_deposit fs e_cm e_min f) lines).
Proof.
  revert acc; induction lines as [|[ch [en bf]] r IH]; intro acc; simpl; [lra|].
  rewrite IH. unfold line_deposit; cbn [fst snd].
  destruct (Rlt_dec e_min en); [|lra].
  destruct (String.eqb ch fs); unfold Rdiv; ring.
Qed.

Definition e_cmb (env : cmb_env) (th : cmb_theory) (x_kd : R) : R :=
  2 * c_mx th * (1 + (vx_cmb env (c_mx th) x_kd) ^ 2 / 2).

Definition continuum_g env th x_kd :=
  quad env (fun e => e * c_spec th e (e_cmb env th x_kd) * f_g env e)
    (e_min_g env) (e_cmb env th x_kd / 2) / e_cmb env th x_kd.
Definition continuum_ep env th x_kd :=
  quad env (fun e => e * (2 * c_pos_spec th e (e_cmb env th x_kd)) * f_ep env e)
    (e_min_ep env) (e_cmb env th x_kd / 2) / e_cmb env th x_kd.

Lemma e_cmb_eq env th x_kd :
  2 * c_mx th * (1 + 0.5 * (vx_cmb env (c_mx th) x_kd) ^ 2) = e_cmb env th x_kd.
Proof. unfold e_cmb. lra. Qed.

Lemma f_eff_sum env th x_kd :
  f_eff env th x_kd =
    continuum_g env th x_kd + continuum_ep env th x_kd
    + Rsum (map (line_deposit "g g" (e_cmb env th x_kd) (e_min_g env) (f_g env))
                (c_lines th (e_cmb env th x_kd)))
    + Rsum (map (line_deposit "e e" (e_cmb env th x_kd) (e_min_ep env) (f_ep env))
                (c_pos_lines th (e_cmb env th x_kd))).
Proof.
  unfold f_eff, f_eff_ep, f_eff_g, continuum_g, continuum_ep.
  rewrite !line_sum_acc, !e_cmb_eq. lra.
Qed.

Lemma cmb_limit_saturates env th x_kd p_ann :
  c_mx th <> 0 -> f_eff env th x_kd <> 0 ->
  f_eff env th x_kd * cmb_limit env th x_kd p_ann / c_mx th = p_ann.
Proof. intros; unfold cmb_limit; field; auto. Qed.

(** Efficiencies compare pointwise; the integrator is monotone. *)
Definition quad_monotone (q : (R -> R) -> R -> R -> R) : Prop :=
  forall f g a b, (forall x, f x <= g x) -> q f a b <= q g a b.

Definition with_eff (env : cmb_env) (fg fe : R -> R) : cmb_env :=
  {| f_g := fg; e_min_g := e_min_g env; f_ep := fe; e_min_ep := e_min_ep env;
     vx_cmb := vx_cmb env; quad := quad env |}.

(** No negative spectra, energies or fractions. *)
Definition physical_theory (th : cmb_theory) (Q : R) : Prop :=
  0 < Q
  /\ (forall e, 0 <= e * c_spec th e Q) /\ (forall e, 0 <= e * c_pos_spec th e Q)
  /\ (forall l, In l (c_lines th Q) -> 0 <= fst (snd l) /\ 0 <= snd (snd l))
  /\ (forall l, In l (c_pos_lines th Q) -> 0 <= fst (snd l) /\ 0 <= snd (snd l)).

Lemma Rsum_map_le {A} (f g : A -> R) (l : list A) :
  (forall a, In a l -> f a <= g a) -> Rsum (map f l) <= Rsum (map g l).
Proof.
  induction l as [|a r IH]; simpl; intro H; [lra|].
  pose proof (H a (or_introl eq_refl)).
  assert (Rsum (map f r) <= Rsum (map g r)) by (apply IH; intros; apply H; now right).
  lra.
Qed.

Lemma line_deposit_mono fs Q e_min f g l :
  0 < Q -> 0 <= fst (snd l) -> 0 <= snd (snd l) -> (forall e, f e <= g e) ->
  line_deposit fs Q e_min f l <= line_deposit fs Q e_min g l.
Proof.
  intros HQ H1 H2 H. unfold line_deposit.
  destruct (Rlt_dec e_min (fst (snd l))); [|lra].
  apply Rmult_le_compat_r; [left; now apply Rinv_0_lt_compat|].
  apply Rmult_le_compat_l; [|apply H].
  apply Rmult_le_pos; auto. apply Rmult_le_pos; auto.
  destruct (String.eqb (fst l) fs); lra.
Qed.

Lemma f_eff_mono env th x_kd fg fe :
  quad_monotone (quad env) -> physical_theory th (e_cmb env th x_kd) ->
  (forall e, f_g env e <= fg e) -> (forall e, f_ep env e <= fe e) ->
  f_eff env th x_kd <= f_eff (with_eff env fg fe) th x_kd.
Proof.
  intros Hq (HQ & Hs & Hp & Hl & Hpl) Hg He.
  rewrite !f_eff_sum.
  change (e_cmb (with_eff env fg fe) th x_kd) with (e_cmb env th x_kd).
  assert (continuum_g env th x_kd <= continuum_g (with_eff env fg fe) th x_kd).
  { unfold continuum_g; cbn [with_eff quad f_g e_min_g].
    change (e_cmb (with_eff env fg fe) th x_kd) with (e_cmb env th x_kd).
    apply Rmult_le_compat_r; [left; now apply Rinv_0_lt_compat|].
    apply Hq; intro e. apply Rmult_le_compat_l; auto. }
  assert (continuum_ep env th x_kd <= continuum_ep (with_eff env fg fe) th x_kd).
  { unfold continuum_ep; cbn [with_eff quad f_ep e_min_ep].
    change (e_cmb (with_eff env fg fe) th x_kd) with (e_cmb env th x_kd).
    apply Rmult_le_compat_r; [left; now apply Rinv_0_lt_compat|].
    apply Hq; intro e. apply Rmult_le_compat_l; auto.
    specialize (Hp e). nra. }
  cbn [with_eff f_g f_ep e_min_g e_min_ep].
  assert (Rsum (map (line_deposit "g g" (e_cmb env th x_kd) (e_min_g env) (f_g env))
                    (c_lines th (e_cmb env th x_kd)))
          <= Rsum (map (line_deposit "g g" (e_cmb env th x_kd) (e_min_g env) fg)
                    (c_lines th (e_cmb env th x_kd)))).
  { apply Rsum_map_le; intros l Hin. destruct (Hl l Hin). now apply line_deposit_mono. }
  assert (Rsum (map (line_deposit "e e" (e_cmb env th x_kd) (e_min_ep env) (f_ep env))
                    (c_pos_lines th (e_cmb env th x_kd)))
          <= Rsum (map (line_deposit "e e" (e_cmb env th x_kd) (e_min_ep env) fe)
                    (c_pos_lines th (e_cmb env th x_kd)))).
  { apply Rsum_map_le; intros l Hin. destruct (Hpl l Hin). now apply line_deposit_mono. }
  lra.
Qed.

Lemma cmb_limit_antitone env th x_kd p_ann fg fe :
  quad_monotone (quad env) -> physical_theory th (e_cmb env th x_kd) ->
  0 <= c_mx th -> 0 <= p_ann -> 0 < f_eff env th x_kd ->
  (forall e, f_g env e <= fg e) -> (forall e, f_ep env e <= fe e) ->
  cmb_limit (with_eff env fg fe) th x_kd p_ann <= cmb_limit env th x_kd p_ann.
Proof.
  intros Hq Hph Hm Hp H0 Hg He.
  pose proof (f_eff_mono env th x_kd fg fe Hq Hph Hg He).
  unfold cmb_limit. apply Rmult_le_compat_l; [now apply Rmult_le_pos|].
  apply Rinv_le_contravar; assumption.
Qed.

(** All the energy in a photon pair: the efficiency of the photon energy. *)
Lemma f_eff_photon_pair env th x_kd :
  (forall a b, quad env (fun _ => 0) a b = 0) ->
  (forall f g a b, (forall x, f x = g x) -> quad env f a b = quad env g a b) ->
  (forall e Q, c_spec th e Q = 0) -> (forall e Q, c_pos_spec th e Q = 0) ->
  (forall Q, c_lines th Q = [("g g", (Q / 2, 1))]) -> (forall Q, c_pos_lines th Q = []) ->
  e_cmb env th x_kd <> 0 -> e_min_g env < e_cmb env th x_kd / 2 ->
  f_eff env th x_kd = f_g env (e_cmb env th x_kd / 2).
Proof.
  intros Hq0 Hqe Hs Hp Hl Hpl H0 Hmin.
  rewrite f_eff_sum, Hl, Hpl.
  assert (continuum_g env th x_kd = 0) as ->.
  { unfold continuum_g. rewrite (Hqe _ (fun _ => 0)), Hq0; [field; auto|].
    intro x; rewrite Hs; ring. }
  assert (continuum_ep env th x_kd = 0) as ->.
  { unfold continuum_ep. rewrite (Hqe _ (fun _ => 0)), Hq0; [field; auto|].
    intro x; rewrite Hp; ring. }
  cbn [map Rsum]. unfold Rsum, line_deposit; simpl.
  destruct (Rlt_dec _ _); [|lra]. field; auto.
Qed.

Lemma cmb_constrainer_raises env x_kd p_ann model :
  cmb_limit_constrain env x_kd p_ann model = Raise (AttributeError "mx").
Proof. destruct model; reflexivity. Qed.

(** The constrainer's own efficiency uses the fourth power of the velocity. *)
Definition slowed (env : cmb_env) : cmb_env :=
  {| f_g := f_g env; e_min_g := e_min_g env; f_ep := f_ep env; e_min_ep := e_min_ep env;
     vx_cmb := fun m x => (vx_cmb env m x) ^ 2; quad := quad env |}.

Lemma limit_f_eff_slowed env x_kd th :
  limit_f_eff env x_kd (PModel th) = Ret (f_eff (slowed env) th x_kd).
Proof. reflexivity. Qed.

(** ** Elementwise constrainers *)

Lemma lupd_app_mid {A} (pre : list A) (v w : A) suf :
  lupd (pre ++ v :: suf) (length pre) w = Ret (pre ++ w :: suf).
Proof. induction pre as [|a r IH]; simpl; [reflexivity|]. rewrite IH. reflexivity. Qed.

Lemma constrain_loop_spec (Model : Type) (c : Model -> res R) ms :
  forall pre, constrain_loop Model c (length pre) ms (pre ++ repeat 0 (length ms))
    = let* vs := mapM c ms in Ret (pre ++ vs).
Proof.
  induction ms as [|m r IH]; intro pre; simpl; [reflexivity|].
  destruct (c m) as [v|e]; cbn [bind]; [|reflexivity].
  rewrite lupd_app_mid. cbn [bind].
  specialize (IH (pre ++ [v])). rewrite app_length in IH; simpl in IH.
  rewrite Nat.add_1_r, <- app_assoc in IH; simpl in IH. rewrite IH.
  destruct (mapM c r); cbn [bind]; [now rewrite <- app_assoc|reflexivity].
Qed.

Lemma abstract_constrain_mapM (Model : Type) (c : Model -> res R) ms :
  abstract_constrain Model c ms = mapM c ms.
Proof.
  unfold abstract_constrain. pose proof (constrain_loop_spec Model c ms []) as H.
  simpl in H. rewrite H. now destruct (mapM c ms).
Qed.

Lemma mapM_nth {A B} (f : A -> res B) l vs :
  mapM f l = Ret vs ->
  length vs = length l /\ forall i a, nth_error l i = Some a -> exists v, nth_error vs i = Some v /\ f a = Ret v.
Proof.
  revert vs; induction l as [|a r IH]; simpl; intros vs H.
  - inversion H; subst. split; [reflexivity|]. intros [|i] a; discriminate.
  - destruct (f a) as [y|] eqn:E; cbn [bind] in H; [|discriminate].
    destruct (mapM f r) as [r'|] eqn:E'; cbn [bind] in H; [|discriminate].
    inversion H; subst. destruct (IH r' eq_refl) as [Hl Hn].
    split; [simpl; now rewrite Hl|].
    intros [|i] b Hb; simpl in *; [inversion Hb; subst; eauto|now apply Hn].
Qed.

Lemma mapM_Raise {A B} (f : A -> res B) l e :
  mapM f l = Raise e -> exists a, In a l /\ f a = Raise e.
Proof.
  induction l as [|a r IH]; simpl; intro H; [discriminate|].
  destruct (f a) as [y|e'] eqn:E; cbn [bind] in H.
  - destruct (mapM f r) as [r'|e''] eqn:E'; cbn [bind] in H; [discriminate|].
    inversion H; subst. destruct IH as (b & Hin & Hb); auto. eauto.
  - inversion H; subst; eauto.
Qed.

Lemma abstract_constrain_elementwise (Model : Type) (c : Model -> res R) ms vs :
  abstract_constrain Model c ms = Ret vs ->
  length vs = length ms /\
  forall i m, nth_error ms i = Some m ->
    exists v, nth_error vs i = Some v /\ c m = Ret v /\ abstract_constrain Model c [m] = Ret [v].
Proof.
  rewrite abstract_constrain_mapM; intro H. destruct (mapM_nth _ _ _ H) as [Hl Hn].
  split; [assumption|]. intros i m Hm. destruct (Hn i m Hm) as (v & Hv & Hc).
  exists v; repeat split; auto. rewrite abstract_constrain_mapM; simpl. now rewrite Hc.
Qed.

Lemma abstract_constrain_total (Model : Type) (c : Model -> res R) ms :
  (forall m, In m ms -> exists v, c m = Ret v) -> exists vs, abstract_constrain Model c ms = Ret vs.
Proof.
  rewrite abstract_constrain_mapM. intro H.
  destruct (mapM c ms) as [vs|e] eqn:E; [eauto|].
  destruct (mapM_Raise _ _ _ E) as (a & Hin & Ha). destruct (H a Hin). congruence.
Qed.

(** ** CompositeConstrainer *)

Lemma composite_add_shared :
  exists ops k c j, j <> k
    /\ contents (crun ops) j <> contents (crun (ops ++ [Add k c])) j.
Proof.
  exists [NewDefault; NewDefault], 0%nat, "cmb", 1%nat. split; [discriminate|].
  vm_compute. discriminate.
Qed.

Definition uses_default (o : cop) : bool := match o with NewDefault => true | _ => false end.

Definition distinct_refs (h : heap) : Prop :=
  NoDup (objs h) /\ Forall (fun r => (r < length (lists h))%nat) (objs h).

Lemma set_nth_length {A} (l : list A) i v : length (set_nth l i v) = length l.
Proof.
  unfold set_nth. destruct (lupd l i v) eqn:E; [|reflexivity].
  now apply lupd_length in E.
Qed.

Lemma set_nth_same {A} (l : list A) : forall i v, (i < length l)%nat -> nth_error (set_nth l i v) i = Some v.
Proof.
  unfold set_nth. induction l as [|a r IH]; intros [|i] v H; simpl in *; try lia; [reflexivity|].
  specialize (IH i v ltac:(lia)).
  destruct (lupd r i v) eqn:E; simpl; [assumption|].
  destruct (lupd_Ret r i v ltac:(lia)) as [l' Hl']. congruence.
Qed.

Lemma set_nth_other {A} (l : list A) : forall i j v, i <> j -> nth_error (set_nth l i v) j = nth_error l j.
Proof.
  unfold set_nth. induction l as [|a r IH]; intros [|i] [|j] v H; simpl in *; try reflexivity; try congruence.
  - destruct (lupd r i v); reflexivity.
  - specialize (IH i j v ltac:(congruence)). destruct (lupd r i v); simpl; [assumption|reflexivity].
Qed.

Lemma set_nth_In {A} (l : list A) i v x : In x (set_nth l i v) -> x = v \/ In x l.
Proof.
  intro H. apply In_nth_error in H. destruct H as [j Hj].
  destruct (Nat.eq_dec i j) as [->|Hne].
  - destruct (Nat.lt_ge_cases j (length l)) as [Hlt|Hge].
    + rewrite set_nth_same in Hj by assumption. inversion Hj; auto.
    + assert (nth_error (set_nth l j v) j = None)
        by (apply nth_error_None; now rewrite set_nth_length). congruence.
  - rewrite set_nth_other in Hj by assumption. right. eapply nth_error_In; eauto.
Qed.

Lemma set_nth_fresh_NoDup (l : list nat) i v :
  NoDup l -> ~ In v l -> NoDup (set_nth l i v).
Proof.
  intros Hnd Hv. apply NoDup_nth_error. intros a b Ha Hab.
  rewrite set_nth_length in Ha.
  destruct (Nat.eq_dec i a) as [->|Hia], (Nat.eq_dec a b) as [->|Hab']; auto.
  - rewrite set_nth_same, set_nth_other in Hab by (try lia; assumption).
    exfalso; apply Hv. eapply nth_error_In; symmetry; eauto.
  - destruct (Nat.eq_dec i b) as [->|Hib].
    + rewrite set_nth_other in Hab by assumption.
      destruct (Nat.lt_ge_cases b (length l)) as [Hlt|Hge].
      * rewrite set_nth_same in Hab by assumption. exfalso; apply Hv. eapply nth_error_In; eauto.
      * assert (nth_error (set_nth l b v) b = None)
          by (apply nth_error_None; now rewrite set_nth_length).
        rewrite H in Hab. apply nth_error_None in Hab. lia.
    + rewrite !set_nth_other in Hab by assumption.
      rewrite NoDup_nth_error in Hnd. now apply Hnd.
Qed.

Lemma cstep_distinct h o : uses_default o = false -> distinct_refs h -> distinct_refs (cstep h o).
Proof.
  intros Hd [Hn Hf]. destruct o as [|l|k c|k]; simpl in *; try discriminate.
  - split; simpl.
    + rewrite <- rev_involutive. apply NoDup_rev. rewrite rev_app_distr; simpl.
      constructor; [|now apply NoDup_rev].
      intro H; apply in_rev in H. rewrite Forall_forall in Hf. specialize (Hf _ H). lia.
    + apply Forall_app; split.
      * eapply Forall_impl; [|exact Hf]. intros a Ha; simpl in *. rewrite app_length; simpl; lia.
      * constructor; [rewrite app_length; simpl; lia|constructor].
  - destruct (nth_error (objs h) k) as [r|] eqn:E1; [|now split].
    destruct (nth_error (lists h) r) as [l|] eqn:E2; [|now split].
    split; simpl; [assumption|]. now rewrite set_nth_length.
  - destruct (nth_error (objs h) k) as [r|] eqn:E1; [|now split].
    split; simpl.
    + apply set_nth_fresh_NoDup; auto.
      intro H. rewrite Forall_forall in Hf. specialize (Hf _ H). lia.
    + apply Forall_forall. intros x Hx. rewrite app_length; simpl.
      apply set_nth_In in Hx. destruct Hx as [->|Hx]; [lia|].
      rewrite Forall_forall in Hf. specialize (Hf _ Hx). lia.
Qed.

Lemma crun_distinct ops :
  forallb (fun o => negb (uses_default o)) ops = true -> distinct_refs (crun ops).
Proof.
  unfold crun. intro H.
  assert (Hgen : forall ops h, forallb (fun o => negb (uses_default o)) ops = true ->
            distinct_refs h -> distinct_refs (fold_left cstep ops h)).
  { clear. induction ops as [|o r IH]; simpl; intros h H Hh; [assumption|].
    apply andb_true_iff in H. destruct H as [Ho Hr].
    apply IH; [assumption|]. apply cstep_distinct; [now destruct (uses_default o)|assumption]. }
  apply Hgen; [assumption|]. split; constructor.
Qed.

(** What [contents] should be: an independent list per object. *)
Definition spec_step (s : list (list string)) (o : cop) : list (list string) :=
  match o with
  | NewDefault => s ++ [[]]
  | NewWith l => s ++ [l]
  | Add k c => match nth_error s k with Some l => set_nth s k (l ++ [c]) | None => s end
  | Reset k => set_nth s k []
  end.
Definition spec_run (ops : list cop) : list (list string) := fold_left spec_step ops [].

Definition agrees (h : heap) (s : list (list string)) : Prop :=
  distinct_refs h /\ length s = length (objs h) /\ forall k, contents h k = nth_error s k.

Lemma set_nth_oob {A} (l : list A) : forall i v, (length l <= i)%nat -> set_nth l i v = l.
Proof.
  unfold set_nth. induction l as [|a r IH]; intros [|i] v H; simpl in *; try lia; try reflexivity.
  specialize (IH i v ltac:(lia)). destruct (lupd r i v) eqn:E; [|reflexivity].
  apply f_equal. exact IH.
Qed.

Lemma cstep_agrees h s o :
  uses_default o = false -> agrees h s -> agrees (cstep h o) (spec_step s o).
Proof.
  intros Hd (Hdis & Hlen & Hc).
  pose proof (cstep_distinct h o Hd Hdis) as Hdis'. destruct Hdis as [Hn Hf].
  split; [assumption|]. clear Hdis'.
  assert (Href : forall k r, nth_error (objs h) k = Some r -> (r < length (lists h))%nat).
  { intros k r Hk. rewrite Forall_forall in Hf. apply Hf. eapply nth_error_In; eauto. }
  destruct o as [|l|k c|k]; simpl in *; try discriminate.
  - split; [rewrite !app_length; simpl; lia|]. intro k.
    unfold contents; simpl. specialize (Hc k). unfold contents in Hc.
    destruct (Nat.lt_ge_cases k (length (objs h))) as [Hlt|Hge].
    + rewrite (nth_error_app1 (objs h)) by assumption.
      rewrite (nth_error_app1 s) by lia.
      destruct (nth_error (objs h) k) as [r|] eqn:E; [|assumption].
      rewrite nth_error_app1 by eauto. assumption.
    + rewrite (nth_error_app2 (objs h)) by assumption.
      rewrite (nth_error_app2 s) by lia. rewrite Hlen.
      destruct (k - length (objs h))%nat as [|d]; simpl.
      * rewrite nth_error_app2, Nat.sub_diag by lia. reflexivity.
      * destruct d; reflexivity.
  - unfold contents in *. 
    destruct (nth_error (objs h) k) as [r|] eqn:E1.
    2:{ specialize (Hc k) as Hk. rewrite E1 in Hk. rewrite <- Hk.
        split; [assumption|]. exact Hc. }
    specialize (Hc k) as Hk. rewrite E1 in Hk. rewrite <- Hk.
    destruct (nth_error (lists h) r) as [l|] eqn:E2; simpl.
    2:{ apply nth_error_None in E2. specialize (Href _ _ E1). lia. }
    split; [now rewrite set_nth_length|]. intro j.
    destruct (Nat.eq_dec k j) as [->|Hkj].
    + rewrite E1, !set_nth_same; [reflexivity| |eauto].
      assert (nth_error s j <> None) by congruence. now apply nth_error_Some.
    + rewrite (set_nth_other s) by assumption. rewrite <- Hc.
      destruct (nth_error (objs h) j) as [r'|] eqn:E3; [|reflexivity].
      apply set_nth_other. intros ->. apply Hkj.
      rewrite NoDup_nth_error in Hn. apply Hn; [|congruence].
      apply nth_error_Some; congruence.
  - unfold contents in *.
    destruct (nth_error (objs h) k) as [r|] eqn:E1.
    2:{ rewrite set_nth_oob; [split; assumption|].
        apply nth_error_None in E1. lia. }
    assert ((k < length s)%nat) by (rewrite Hlen; apply nth_error_Some; congruence).
    simpl. split; [rewrite !set_nth_length; assumption|]. intro j.
    destruct (Nat.eq_dec k j) as [->|Hkj].
    + rewrite !set_nth_same by lia. rewrite nth_error_app2, Nat.sub_diag by lia. reflexivity.
    + rewrite !set_nth_other by assumption. rewrite <- Hc.
      destruct (nth_error (objs h) j) as [r'|] eqn:E3; [|reflexivity].
      apply nth_error_app1. eauto.
Qed.

Lemma composite_explicit_independent ops k :
  forallb (fun o => negb (uses_default o)) ops = true ->
  contents (crun ops) k = nth_error (spec_run ops) k.
Proof.
  intro H.
  assert (Hgen : forall ops h s, forallb (fun o => negb (uses_default o)) ops = true ->
            agrees h s -> agrees (fold_left cstep ops h) (fold_left spec_step ops s)).
  { clear. induction ops as [|o r IH]; simpl; intros h s H Hh; [assumption|].
    apply andb_true_iff in H. destruct H as [Ho Hr].
    apply IH; [assumption|]. apply cstep_agrees; [now destruct (uses_default o)|assumption]. }
  apply Hgen; [assumption|]. split; [split; constructor|]. split; [reflexivity|].
  intro j; destruct j; reflexivity.
Qed.

(** ** One-bin limits *)

Definition ext_le (a b : ext) : Prop :=
  match a, b with
  | _, Inf => True
  | Inf, Fin _ => False
  | Fin x, Fin y => x <= y
  end.

(** A rate [s] is compatible with a bin when the signal, scaled to that rate,
    stays within the observed flux plus n_sigma errors. *)
Definition compatible (dw n_sigma s : R) (b : bin) : Prop :=
  s * b_phi b <= dw * (b_high b - b_low b) * (b_flux b + n_sigma * b_err b).

Lemma ext_le_refl a : ext_le a a.
Proof. destruct a; simpl; auto; lra. Qed.
Lemma ext_le_trans a b c : ext_le a b -> ext_le b c -> ext_le a c.
Proof. destruct a, b, c; simpl; auto; try lra; tauto. Qed.
Lemma ext_min_l a b : ext_le (ext_min a b) a.
Proof. destruct a, b; simpl; auto; [destruct (Rlt_dec _ _); simpl; lra|lra]. Qed.
Lemma ext_min_r a b : ext_le (ext_min a b) b.
Proof. destruct a, b; simpl; auto; [destruct (Rlt_dec _ _); simpl; lra|lra]. Qed.
Lemma ext_min_glb a b c : ext_le c a -> ext_le c b -> ext_le c (ext_min a b).
Proof. destruct a, b, c; simpl; auto; destruct (Rlt_dec _ _); simpl; lra. Qed.
Lemma ext_min_either a b : ext_min a b = a \/ ext_min a b = b.
Proof. destruct a, b; simpl; auto; destruct (Rlt_dec _ _); auto. Qed.

Lemma fold_min_spec r : forall x,
  (forall y, In y (x :: r) -> ext_le (fold_left ext_min r x) y)
  /\ In (fold_left ext_min r x) (x :: r).
Proof.
  induction r as [|z r IH]; intro x; simpl.
  - split; [|auto]. intros y [->|[]]; apply ext_le_refl.
  - destruct (IH (ext_min x z)) as [H1 H2]. split.
    + intros y [->|[->|Hy]].
      * eapply ext_le_trans; [apply H1; left; reflexivity|apply ext_min_l].
      * eapply ext_le_trans; [apply H1; left; reflexivity|apply ext_min_r].
      * apply H1; now right.
    + destruct H2 as [H2|H2]; [|auto].
      rewrite <- H2. destruct (ext_min_either x z) as [E|E]; rewrite E; auto.
Qed.

Lemma min_list_spec l m :
  min_list l = Ret m -> In m l /\ forall y, In y l -> ext_le m y.
Proof.
  destruct l as [|x r]; simpl; intro H; [discriminate|]. inversion H; subst.
  destruct (fold_min_spec r x). auto.
Qed.

Lemma min_list_total l : l <> [] -> exists m, min_list l = Ret m.
Proof. destruct l; [congruence|]; simpl; eauto. Qed.

Lemma sv_lim_spec dw n_sigma b s :
  0 < b_phi b -> (ext_le (Fin s) (sv_lim dw n_sigma b) <-> compatible dw n_sigma s b).
Proof.
  intro H. unfold sv_lim, compatible. destruct (Rlt_dec 0 (b_phi b)); [|lra].
  simpl. unfold phi_max. split; intro Hs.
  - apply (Rmult_le_compat_r (b_phi b)) in Hs; [|lra].
    unfold Rdiv in Hs. rewrite Rmult_assoc, Rinv_l, Rmult_1_r in Hs; lra.
  - apply (Rmult_le_reg_r (b_phi b)); [assumption|].
    unfold Rdiv. rewrite (Rmult_assoc _ (/ b_phi b)), Rinv_l, Rmult_1_r; lra.
Qed.

Lemma one_bin_finite dw n_sigma bins L :
  constrain_one_bin dw n_sigma bins = Ret (Fin L) ->
  (exists b, In b bins /\ 0 < b_phi b
      /\ L * b_phi b = dw * (b_high b - b_low b) * (b_flux b + n_sigma * b_err b))
  /\ forall s, s <= L <-> (forall b, In b bins -> 0 < b_phi b -> compatible dw n_sigma s b).
Proof.
  unfold constrain_one_bin. intro H. apply min_list_spec in H. destruct H as [Hin Hle].
  apply in_map_iff in Hin. destruct Hin as (b & Hb & Hbin).
  assert (Hbp : 0 < b_phi b).
  { unfold sv_lim in Hb. destruct (Rlt_dec 0 (b_phi b)); [assumption|discriminate]. }
  split.
  - exists b; repeat split; auto.
    unfold sv_lim in Hb. destruct (Rlt_dec 0 (b_phi b)); [|lra].
    inversion Hb. unfold phi_max. field. lra.
  - intro s. split.
    + intros Hs b' Hb' Hp'. apply sv_lim_spec; [assumption|].
      apply ext_le_trans with (Fin L); [exact Hs|].
      apply Hle. now apply in_map.
    + intro Hall. specialize (Hall b Hbin Hbp).
      apply sv_lim_spec in Hall; [|assumption]. rewrite Hb in Hall. exact Hall.
Qed.

Lemma one_bin_infinite dw n_sigma bins :
  bins <> [] ->
  (constrain_one_bin dw n_sigma bins = Ret Inf <-> forall b, In b bins -> b_phi b <= 0).
Proof.
  intro Hne. unfold constrain_one_bin. split.
  - intros H b Hb. apply min_list_spec in H. destruct H as [_ Hle].
    specialize (Hle (sv_lim dw n_sigma b) (in_map _ _ _ Hb)).
    unfold sv_lim in Hle. destruct (Rlt_dec 0 (b_phi b)); [now simpl in Hle|lra].
  - intro H. destruct (min_list_total (map (sv_lim dw n_sigma) bins)) as [m Hm].
    { destruct bins; [congruence|discriminate]. }
    rewrite Hm. apply min_list_spec in Hm. destruct Hm as [Hin _].
    apply in_map_iff in Hin. destruct Hin as (b & Hb & Hbin).
    unfold sv_lim in Hb. specialize (H b Hbin). destruct (Rlt_dec 0 (b_phi b)); [lra|congruence].
Qed.

Lemma one_bin_empty dw n_sigma : constrain_one_bin dw n_sigma [] = Raise ValueError.
Proof. reflexivity. Qed.

Definition with_phi (b : bin) (p : R) : bin :=
  {| b_low := b_low b; b_high := b_high b; b_flux := b_flux b; b_err := b_err b; b_phi := p |}.

Lemma one_bin_antitone dw n_sigma (bins : list bin) (boost : bin -> R) m1 m2 :
  (forall b, In b bins -> 0 <= phi_max dw n_sigma b) ->
  (forall b, In b bins -> b_phi b <= boost b) ->
  constrain_one_bin dw n_sigma bins = Ret m1 ->
  constrain_one_bin dw n_sigma (map (fun b => with_phi b (boost b)) bins) = Ret m2 ->
  ext_le m2 m1.
Proof.
  unfold constrain_one_bin. intros Hpm Hb H1 H2.
  apply min_list_spec in H1. apply min_list_spec in H2.
  destruct H1 as [Hin1 _], H2 as [_ Hle2].
  apply in_map_iff in Hin1. destruct Hin1 as (b & Hbeq & Hbin).
  eapply ext_le_trans.
  - apply Hle2. rewrite map_map. apply in_map_iff. exists b. split; [reflexivity|assumption].
  - rewrite <- Hbeq. unfold sv_lim, with_phi, phi_max; cbn [b_phi b_low b_high b_flux b_err].
    specialize (Hb b Hbin). specialize (Hpm b Hbin). unfold phi_max in Hpm.
    destruct (Rlt_dec 0 (b_phi b)) as [Hp|Hp].
    + destruct (Rlt_dec 0 (boost b)); [|lra]. simpl.
      apply Rmult_le_compat_l; [assumption|]. apply Rinv_le_contravar; assumption.
    + destruct (Rlt_dec 0 (boost b)); simpl; auto.
Qed.

(** The same statement for the parameter-plane helper: a point is accepted
    exactly when no bin is overshot. *)
Lemma mapM_In {A B} (f : A -> res B) l vs a :
  mapM f l = Ret vs -> In a l -> exists v, f a = Ret v /\ In v vs.
Proof.
  intros H Hin. apply In_nth_error in Hin. destruct Hin as [i Hi].
  destruct (mapM_nth _ _ _ H) as [_ Hn]. destruct (Hn i a Hi) as (v & Hv & Hf).
  exists v; split; [assumption|]. eapply nth_error_In; eauto.
Qed.
Lemma mapM_In_inv {A B} (f : A -> res B) l vs v :
  mapM f l = Ret vs -> In v vs -> exists a, f a = Ret v /\ In a l.
Proof.
  revert vs; induction l as [|a r IH]; simpl; intros vs H Hin.
  - inversion H; subst; contradiction.
  - destruct (f a) as [y|] eqn:E; cbn [bind] in H; [|discriminate].
    destruct (mapM f r) as [r'|] eqn:E'; cbn [bind] in H; [|discriminate].
    inversion H; subst. destruct Hin as [->|Hin]; [eauto|].
    destruct (IH r' eq_refl Hin) as (a' & ? & ?); eauto.
Qed.

Lemma helper_nonneg dw n_sigma bins m :
  binned_gamma_helper dw n_sigma bins = Ret m ->
  (ext_le (Fin 0) m <-> forall b, In b bins -> 0 < b_phi b -> compatible dw n_sigma 1 b).
Proof.
  unfold binned_gamma_helper. intro H.
  destruct (mapM (bin_constraint dw n_sigma) bins) as [cs|] eqn:E; cbn [bind] in H; [|discriminate].
  apply min_list_spec in H. destruct H as [Hin Hle].
  assert (Hb : forall b v, 0 < b_phi b -> bin_constraint dw n_sigma b = Ret v ->
            (ext_le (Fin 0) v <-> compatible dw n_sigma 1 b)).
  { intros b v Hp Hv. unfold bin_constraint in Hv. destruct (Rlt_dec 0 (b_phi b)); [|lra].
    destruct (Rlt_dec 0 _); [|discriminate]. inversion Hv; subst; simpl.
    unfold compatible. split; intro; lra. }
  split.
  - intros H0 b Hbin Hp. destruct (mapM_In _ _ _ _ E Hbin) as (v & Hv & Hvin).
    apply (Hb b v Hp Hv). eapply ext_le_trans; [exact H0|]. now apply Hle.
  - intro Hall. destruct (mapM_In_inv _ _ _ _ E Hin) as (b & Hb' & Hbin).
    destruct (Rlt_dec 0 (b_phi b)) as [Hp|Hp].
    + apply (Hb b m Hp Hb'). now apply Hall.
    + unfold bin_constraint in Hb'. destruct (Rlt_dec 0 (b_phi b)); [lra|].
      inversion Hb'; simpl; auto.
Qed.

(** ** Chi-squared limit *)

Definition scale_bin (s : R) (b : bin) : bin := with_phi b (s * b_phi b).

Lemma fold_plus_Rsum l : forall acc, fold_left Rplus l acc = acc + Rsum l.
Proof. induction l as [|a r IH]; intro acc; simpl; [lra|]. rewrite IH. lra. Qed.

Lemma chi2_scale_zero_flux dw bins s :
  0 <= s -> (forall b, In b bins -> b_flux b = 0) ->
  chi2_obs dw (map (scale_bin s) bins) = s ^ 2 * chi2_obs dw bins.
Proof.
  intros Hs Hz. unfold chi2_obs. rewrite !fold_plus_Rsum.
  rewrite map_map. cbn [scale_bin with_phi b_phi b_low b_high b_err b_flux].
  induction bins as [|b r IH]; simpl; [lra|].
  assert (Hr : forall b, In b r -> b_flux b = 0) by (intros; apply Hz; now right).
  specialize (IH Hr). rewrite (Hz b (or_introl eq_refl)).
  set (w := dw * (b_high b - b_low b)) in *.
  replace (Rmax (s * b_phi b - w * 0) 0) with (s * Rmax (b_phi b - w * 0) 0).
  - unfold Rdiv in *. simpl in IH. rewrite Rplus_0_l in *. rewrite IH. ring.
  - rewrite !Rmult_0_r, !Rminus_0_r. unfold Rmax.
    destruct (Rle_dec (b_phi b) 0), (Rle_dec (s * b_phi b) 0); try ring; nra.
Qed.

Lemma chi2_limit_zero_flux dw crit bins L :
  0 <= crit -> (forall b, In b bins -> b_flux b = 0) ->
  0 < chi2_obs dw bins ->
  constrain_chi_squared dw crit bins = Fin L ->
  chi2_obs dw (map (scale_bin L) bins) = crit.
Proof.
  unfold constrain_chi_squared. intros Hc Hz Hp H.
  destruct (Req_EM_T _ _); [lra|]. inversion H.
  rewrite chi2_scale_zero_flux; [|apply sqrt_pos|assumption].
  rewrite pow2_sqrt.
  - field. lra.
  - apply Rmult_le_pos; [assumption|]. left; now apply Rinv_0_lt_compat.
Qed.

Definition chi2_bin : bin := {| b_low := 0; b_high := 1; b_flux := 1; b_err := 1; b_phi := 2 |}.

Lemma chi2_bin_one : chi2_obs 1 [chi2_bin] = 1.
Proof.
  unfold chi2_obs; simpl.
  replace (2 - 1 * (1 - 0) * 1) with 1 by ring. unfold Rmax. destruct (Rle_dec 1 0); [lra|field].
Qed.

Lemma chi2_limit_refutation :
  exists dw crit bins L, (forall b, In b bins -> 0 < b_phi b /\ 0 < b_err b /\ 0 <= b_flux b)
    /\ constrain_chi_squared dw crit bins = Fin L
    /\ 0 < crit < chi2_obs dw (map (scale_bin L) bins).
Proof.
  exists 1, 4, [chi2_bin], 2. split; [|split].
  - intros b [<-|[]]; simpl; lra.
  - unfold constrain_chi_squared. rewrite chi2_bin_one.
    destruct (Req_EM_T 1 0); [lra|]. f_equal.
    replace (4 / 1) with (2 * 2) by field. apply sqrt_square; lra.
  - unfold chi2_obs; simpl.
    replace (2 * 2 - 1 * (1 - 0) * 1) with 3 by ring. unfold Rmax.
    destruct (Rle_dec 3 0); [lra|]. split; [lra|].
    replace (0 + 3 * (3 * 1) / (1 * (1 - 0) * 1 * (1 * (1 - 0) * 1 * 1))) with 9 by field. lra.
Qed.

Lemma chi2_limit_infinite_refutation :
  exists dw crit bins s, (forall b, In b bins -> 0 < b_phi b /\ 0 < b_err b /\ 0 <= b_flux b)
    /\ constrain_chi_squared dw crit bins = Inf
    /\ 0 < crit < chi2_obs dw (map (scale_bin s) bins).
Proof.
  exists 1, 4, [{| b_low := 0; b_high := 1; b_flux := 1; b_err := 1; b_phi := 1 |}], 4.
  split; [|split].
  - intros b [<-|[]]; simpl; lra.
  - unfold constrain_chi_squared, chi2_obs; simpl.
    replace (1 - 1 * (1 - 0) * 1) with 0 by ring.
    unfold Rmax. destruct (Rle_dec 0 0); [|lra].
    match goal with |- context [Req_EM_T ?a 0] => replace a with 0 by field end.
    destruct (Req_EM_T 0 0); [reflexivity|lra].
  - unfold chi2_obs; simpl.
    replace (4 * 1 - 1 * (1 - 0) * 1) with 3 by ring. unfold Rmax.
    destruct (Rle_dec 3 0); [lra|]. split; [lra|].
    match goal with |- _ < ?a => replace a with 9 by field end. lra.
Qed.

(** ** Unbinned windows *)

(** The windows are exactly the ordered pairs of grid points. *)
Lemma windows_spec grid a b :
  In (a, b) (windows grid) <->
  exists i j, (i < j)%nat /\ nth_error grid i = Some a /\ nth_error grid j = Some b.
Proof.
  induction grid as [|e r IH]; simpl.
  - split; [contradiction|]. intros (i & j & _ & H & _). destruct i; discriminate.
  - rewrite in_app_iff, in_map_iff, IH. split.
    + intros [(x & Hx & Hin)|(i & j & Hij & Hi & Hj)].
      * inversion Hx; subst. apply In_nth_error in Hin. destruct Hin as [j Hj].
        exists 0%nat, (S j). repeat split; [lia|assumption].
      * exists (S i), (S j). repeat split; auto; lia.
    + intros (i & j & Hij & Hi & Hj). destruct j as [|j]; [lia|]. destruct i as [|i].
      * left. simpl in *. inversion Hi; subst. exists b. split; [reflexivity|].
        eapply nth_error_In; eauto.
      * right. exists i, j. repeat split; auto; lia.
Qed.

Lemma fold_max_spec r : forall x,
  (forall y, In y (x :: r) -> y <= fold_left Rmax r x) /\ In (fold_left Rmax r x) (x :: r).
Proof.
  induction r as [|z r IH]; intro x; simpl.
  - split; [|auto]. intros y [->|[]]; lra.
  - destruct (IH (Rmax x z)) as [H1 H2]. split.
    + intros y [->|[->|Hy]].
      * eapply Rle_trans; [apply Rmax_l|apply H1; now left].
      * eapply Rle_trans; [apply (Rmax_r x)|apply H1; now left].
      * apply H1; now right.
    + destruct H2 as [H2|H2]; [|auto]. rewrite <- H2. unfold Rmax. destruct (Rle_dec x z); auto.
Qed.

Definition window_bound (prefactor n_sigma : R) (I_S I_B : R -> R -> R) (a b : R) : R :=
  prefactor * n_sigma * sqrt (I_B a b) / I_S a b.

Lemma unbinned_best prefactor n_sigma I_S I_B grid L :
  0 <= prefactor -> 0 <= n_sigma ->
  (forall i j a b, (i < j)%nat -> nth_error grid i = Some a -> nth_error grid j = Some b ->
     0 < I_S a b /\ 0 < I_B a b) ->
  unbinned_bound prefactor n_sigma I_S I_B grid = Ret L ->
  (exists i j a b, (i < j)%nat /\ nth_error grid i = Some a /\ nth_error grid j = Some b
      /\ L = window_bound prefactor n_sigma I_S I_B a b)
  /\ forall i j a b, (i < j)%nat -> nth_error grid i = Some a -> nth_error grid j = Some b ->
      L <= window_bound prefactor n_sigma I_S I_B a b.
Proof.
  intros Hp Hn Hpos H. unfold unbinned_bound in H.
  set (snr := fun w : R * R => I_S (fst w) (snd w) / sqrt (I_B (fst w) (snd w))) in *.
  destruct (max_list (map snr (windows grid))) as [m|] eqn:E; [|discriminate].
  inversion H; subst L; clear H.
  assert (Hwb : forall a b, 0 < I_S a b -> 0 < I_B a b ->
     window_bound prefactor n_sigma I_S I_B a b = prefactor * n_sigma / snr (a, b) /\ 0 < snr (a, b)).
  { intros a b H1 H2. pose proof (sqrt_lt_R0 _ H2). unfold window_bound, snr; simpl. split.
    - field. split; lra.
    - now apply Rdiv_lt_0_compat. }
  unfold max_list in E. destruct (map snr (windows grid)) as [|x r] eqn:Em; [discriminate|].
  inversion E; subst m; clear E.
  destruct (fold_max_spec r x) as [Hle Hin]. rewrite <- Em in Hle, Hin.
  split.
  - apply in_map_iff in Hin. destruct Hin as ([a b] & Hab & Hw).
    apply windows_spec in Hw. destruct Hw as (i & j & Hij & Hi & Hj).
    exists i, j, a, b. repeat split; auto.
    destruct (Hpos i j a b Hij Hi Hj) as [H1 H2]. destruct (Hwb a b H1 H2) as [-> _].
    now rewrite Hab.
  - intros i j a b Hij Hi Hj.
    destruct (Hpos i j a b Hij Hi Hj) as [H1 H2]. destruct (Hwb a b H1 H2) as [-> Hs].
    apply Rmult_le_compat_l; [now apply Rmult_le_pos|].
    apply Rinv_le_contravar; [assumption|].
    apply Hle. apply in_map. apply windows_spec. eauto.
Qed.

Lemma unbinned_total prefactor n_sigma I_S I_B grid :
  (2 <= length grid)%nat -> exists L, unbinned_bound prefactor n_sigma I_S I_B grid = Ret L.
Proof.
  destruct grid as [|a [|b r]]; simpl; try lia. intros _.
  unfold unbinned_bound; simpl. eauto.
Qed.

Lemma unbinned_short prefactor n_sigma I_S I_B grid :
  (length grid <= 1)%nat -> unbinned_bound prefactor n_sigma I_S I_B grid = Raise ValueError.
Proof. destruct grid as [|a [|b r]]; simpl; try lia; reflexivity. Qed.

(** ** Measurements *)

Lemma fm_mutates :
  exists h lows highs flux upper lower power,
    let '(h', m) := fm_init h lows highs flux upper lower power in
    deref h' flux <> deref h flux
    /\ deref (fst (fm_init h' lows highs flux upper lower power)) (m_upper (snd (fm_init h' lows highs flux upper lower power)))
       <> deref h' (m_upper m).
Proof.
  exists [[1]; [3]; [8]; [12]; [4]], 0%nat, 1%nat, 2%nat, 3%nat, 4%nat, 2%nat.
  unfold fm_init, zip2, deref, set_nth; simpl. split.
  - intro H. inversion H as [H1]. lra.
  - intro H. inversion H as [H1]. lra.
Qed.

(** Entry by entry: what a measurement holds when its five arrays are
    different objects. *)
Lemma zip2_nth {A B C} (f : A -> B -> C) l m i a b :
  nth_error l i = Some a -> nth_error m i = Some b -> nth_error (zip2 f l m) i = Some (f a b).
Proof.
  unfold zip2. revert m i; induction l as [|x r IH]; intros [|y s] [|i] Ha Hb; simpl in *; try discriminate.
  - now inversion Ha; inversion Hb; subst.
  - now apply IH.
Qed.

Lemma deref_set_same h r v : (r < length h)%nat -> deref (set_nth h r v) r = v.
Proof.
  intro H. unfold deref. apply nth_error_nth. now apply set_nth_same.
Qed.
Lemma deref_set_other h r r' v : r <> r' -> deref (set_nth h r v) r' = deref h r'.
Proof.
  intro H. unfold deref.
  pose proof (set_nth_other h r r' v H) as E.
  destruct (nth_error h r') as [x|] eqn:E'.
  - apply nth_error_nth with (d := []) in E, E'. congruence.
  - apply nth_error_None in E, E'. now rewrite !nth_overflow.
Qed.
Lemma deref_app h l r : (r < length h)%nat -> deref (h ++ l) r = deref h r.
Proof. intro H. unfold deref. now apply app_nth1. Qed.

Lemma fm_values h lows highs flux upper lower power h' m i el eh f u l :
  fm_init h lows highs flux upper lower power = (h', m) ->
  (flux < length h)%nat -> (upper < length h)%nat -> (lower < length h)%nat ->
  flux <> upper -> flux <> lower ->
  nth_error (deref h lows) i = Some el -> nth_error (deref h highs) i = Some eh ->
  nth_error (deref h flux) i = Some f -> nth_error (deref h upper) i = Some u ->
  nth_error (deref h lower) i = Some l ->
  let w := ((el + eh) / 2) ^ power in
  nth_error (deref h' (m_flux m)) i = Some (f / w)
  /\ nth_error (deref h' (m_upper m)) i = Some (u / w - f / w)
  /\ nth_error (deref h' (m_lower m)) i = Some (f / w - l / w).
Proof.
  intros H Hf Hu Hl Hfu Hfl Hel Heh Hff Huu Hll w.
  unfold fm_init in H. inversion H; subst h' m; clear H. cbn [m_flux m_upper m_lower].
  set (bins := zip2 (fun a b => 0.5 * (a + b)) (deref h lows) (deref h highs)).
  assert (Hbin : nth_error bins i = Some (0.5 * (el + eh))) by (unfold bins; now apply (zip2_nth (fun a b => 0.5 * (a + b)))).
  assert (Hw : (0.5 * (el + eh)) ^ power = w) by (unfold w; f_equal; lra).
  set (flux' := zip2 (fun f e => f / e ^ power) (deref h flux) bins).
  assert (Hflux' : nth_error flux' i = Some (f / w)).
  { rewrite <- Hw. unfold flux'. now apply (zip2_nth (fun f e => f / e ^ power)). }
  assert (Hlen : length (set_nth h flux flux') = length h) by apply set_nth_length.
  rewrite !deref_set_same by assumption.
  rewrite !(deref_set_other h flux upper), !(deref_set_other h flux lower) by assumption.
  repeat split.
  - rewrite deref_app by (rewrite Hlen; assumption). now rewrite deref_set_same.
  - unfold deref at 1. rewrite app_nth2 by lia. rewrite Nat.sub_diag. simpl nth.
    apply (zip2_nth (fun p f => p - f)); [|assumption].
    rewrite <- Hw. now apply (zip2_nth (fun u e => u / e ^ power)).
  - unfold deref at 1. rewrite app_nth2 by lia.
    replace (S (length (set_nth h flux flux')) - length (set_nth h flux flux'))%nat with 1%nat by lia.
    simpl nth. apply (zip2_nth (fun f p => f - p)); [assumption|].
    rewrite <- Hw. now apply (zip2_nth (fun u e => u / e ^ power)).
Qed.

(** Only the flux array is written to. *)
Lemma fm_frame h lows highs flux upper lower power h' m r :
  fm_init h lows highs flux upper lower power = (h', m) ->
  (r < length h)%nat -> r <> flux -> deref h' r = deref h r.
Proof.
  intros H Hr Hne. unfold fm_init in H. inversion H; subst; clear H.
  rewrite deref_app by (now rewrite set_nth_length).
  apply deref_set_other. congruence.
Qed.
