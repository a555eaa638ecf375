(** Specification and proofs for InterpModel. *)
From Coq Require Import List Arith Bool QArith Reals Lra Lia.
From Verif Require Import RustBase RustBaseFacts InterpModel.
Import ListNotations.
Local Open Scope nat_scope.

(** ** Any number type *)
Section Generic.
Variable N : Num.

(** The loop always has enough fuel, never reads out of range, and, when some
    node up to [imax] is not above [x] at index 0, returns at least 1. *)
Lemma bisect_ok x xp : forall fuel imin imax,
  imin <= imax -> imax <= length xp -> imax - imin < fuel ->
  (exists v, nth_error xp 0 = Some v /\ fle N v x = true) -> 
  wp (bisect N fuel x xp imin imax) (fun i => imin <= i <= imax /\ (1 <= imax -> 1 <= i)).
Proof.
  induction fuel as [|fuel IH]; intros imin imax H1 H2 H3 H0; [lia|]. cbn [bisect].
  destruct (Nat.ltb_spec imin imax) as [Hlt|Hge].
  - set (imid := imin + (imax - imin) / 2).
    assert (Hmid : imin <= imid < imax).
    { unfold imid. pose proof (Nat.div_lt (imax - imin) 2). lia. }
    apply wp_bind. apply wp_get; [lia|]. intros v Hv.
    destruct (fle N v x) eqn:Ev.
    + eapply wp_mono; [apply IH; try lia; exact H0|]. cbn beta. intros a [Ha1 Ha2]. lia.
    + eapply wp_mono; [apply IH; try lia; exact H0|]. cbn beta. intros a [Ha1 Ha2].
      split; [lia|]. intros _. apply Ha2.
      destruct (Nat.eq_dec imid 0) as [E|E]; [|lia].
      rewrite E in Hv. destruct H0 as (w & Hw & Hle). congruence.
  - simpl. lia.
Qed.

Lemma bisect_no_err x xp : forall fuel a b, bisect N fuel x xp a b <> Err tt.
Proof.
  induction fuel as [|fuel IH]; intros a b; cbn [bisect]; [discriminate|].
  destruct (a <? b); [|discriminate]. unfold get.
  destruct (nth_error xp (a + (b - a) / 2)) as [v|]; cbn [rbind]; [|discriminate].
  destruct (fle N v x); apply IH.
Qed.

Lemma search_ok x xp :
  xp <> [] ->
  (forall v, nth_error xp 0 = Some v -> flt N x v = false -> fle N v x = true) ->
  wp (search N x xp) (fun s => match s with Cell j => j < length xp | _ => True end).
Proof.
  intros Hne H0. unfold search.
  assert (Hl : 0 < length xp) by (destruct xp; [congruence|simpl; lia]).
  apply wp_bind, wp_csub; [lia|].
  apply wp_bind, wp_get; [lia|]. intros hi Hhi.
  destruct (flt N hi x); [exact I|].
  apply wp_bind, wp_get; [lia|]. intros lo Hlo.
  destruct (flt N x lo) eqn:Elo; [exact I|].
  apply wp_bind. eapply wp_mono.
  - apply bisect_ok; try lia. exists lo. split; [assumption|]. now apply H0.
  - cbn beta. intros i [Hi1 Hi2]. apply wp_bind, wp_csub; [lia|]. simpl. lia.
Qed.

(** For any number type and any comparison, interpolation on a non-empty grid
    with matching values does not panic, as long as "not below the first node"
    implies "not less than the first node" (no NaN as first node). *)
Lemma interp_no_panic x xp fp :
  xp <> [] -> length xp = length fp ->
  (is_nan N x = false -> forall v, nth_error xp 0 = Some v -> flt N x v = false -> fle N v x = true) ->
  exists y, interp N x xp fp = Ok y.
Proof.
  intros Hne Hlen H0.
  assert (Hl : 0 < length xp) by (destruct xp; [congruence|simpl; lia]).
  assert (Hget : forall (v : list (F N)) i, i < length v -> exists y, @get unit _ v i = Ok y).
  { intros v i Hi. destruct (@get_ok unit _ v i Hi) as (a & Ha & _). eauto. }
  unfold interp. destruct xp as [|x0 r] eqn:Exp; [congruence|]. rewrite <- Exp in *. clear Exp x0 r.
  rewrite <- Hlen, Nat.eqb_refl. cbn [negb].
  destruct (Nat.eqb_spec (length xp) 1); [apply Hget; lia|].
  destruct (is_nan N x); [eauto|].
  pose proof (search_ok x xp Hne (H0 eq_refl)) as Hs.
  destruct (search N x xp) as [s| |] eqn:Es; simpl in Hs; [|destruct e|contradiction].
  2:{ exfalso. revert Es. clear. intro Es. unfold search in Es.
      assert (Hg : forall (v : list (F N)) i, @get unit _ v i <> Err tt).
      { intros v i. unfold get. destruct (nth_error v i); discriminate. }
      assert (Hc : forall a b, @csub unit a b <> Err tt).
      { intros a b. unfold csub. destruct (b <=? a); discriminate. }
      pose proof (bisect_no_err x xp) as Hb.
      destruct (csub (length xp) 1) eqn:E1; cbn [rbind] in Es; try discriminate; [|destruct e; eapply Hc; eauto].
      destruct (get xp a) eqn:E2; cbn [rbind] in Es; try discriminate; [|destruct e; eapply Hg; eauto].
      destruct (flt N a0 x); [discriminate|].
      destruct (get xp 0) eqn:E3; cbn [rbind] in Es; try discriminate; [|destruct e; eapply Hg; eauto].
      destruct (flt N x a1); [discriminate|].
      match type of Es with context [bisect N ?f x xp 0 ?m] => destruct (bisect N f x xp 0 m) eqn:E4 end.
      2:{ destruct e; eapply Hb; eauto. }
      2: discriminate.
      cbn [rbind] in Es.
      destruct (csub a2 1) eqn:E5; cbn [rbind] in Es; try discriminate; destruct e; eapply Hc; eauto. }
  cbn [rbind]. destruct s as [| |j].
  - apply Hget; lia.
  - apply Hget; lia.
  - destruct (Nat.eqb_spec j (length xp - 1)); [apply Hget; lia|].
    destruct (Hget xp j ltac:(lia)) as [xj ->]. cbn [rbind].
    destruct (feq N xj x); [apply Hget; lia|].
    destruct (Hget xp (j + 1) ltac:(lia)) as [xj1 ->]. cbn [rbind].
    destruct (Hget fp j ltac:(lia)) as [fj ->]. cbn [rbind].
    destruct (Hget fp (j + 1) ltac:(lia)) as [fj1 ->]. cbn [rbind].
    destruct (negb _); [eauto|]. destruct (negb _); [eauto|]. destruct (feq N fj fj1); eauto.
Qed.

Lemma interp_nan x xp fp :
  2 <= length xp -> length xp = length fp -> is_nan N x = true -> interp N x xp fp = Ok x.
Proof.
  intros H1 H2 H3. unfold interp. destruct xp as [|x0 r]; [simpl in H1; lia|].
  rewrite <- H2, Nat.eqb_refl. cbn [negb].
  destruct (Nat.eqb_spec (length (x0 :: r)) 1); [lia|]. now rewrite H3.
Qed.

Lemma interp_one_point x x0 f0 : interp N x [x0] [f0] = Ok f0.
Proof. reflexivity. Qed.

End Generic.

(** A number type with a NaN: [None] compares false with everything. *)
Definition NanNat : Num := {|
  F := option nat; lit := fun _ => Some 0;
  fadd := fun a b => None; fsub := fun a b => None; fmul := fun a b => None; fdiv := fun a b => None;
  fneg := fun a => a; fabs := fun a => a; fmax := fun a b => a; fmin := fun a b => a;
  fma := fun a b c => None; fpow15 := fun a => a;
  flt := fun a b => match a, b with Some x, Some y => Nat.ltb x y | _, _ => false end;
  fle := fun a b => match a, b with Some x, Some y => Nat.leb x y | _, _ => false end;
  feq := fun a b => match a, b with Some x, Some y => Nat.eqb x y | _, _ => false end;
  is_nan := fun a => match a with None => true | _ => false end;
  total_cmp_le := fun a b => true;
  epmach := Some 0; uflow := Some 0; oflow := Some 0 |}.

Lemma interp_nan_node_panics :
  exists (x : F NanNat) xp fp, is_nan NanNat x = false /\ 2 <= length xp /\ length xp = length fp
    /\ interp NanNat x xp fp = Panic.
Proof.
  exists (Some 3), [None; Some 5], [Some 0; Some 1]. repeat split. simpl; lia.
Qed.

(** ** The reals *)
Local Open Scope R_scope.

(** An ascending grid (repeated nodes allowed). *)
Definition ascending (xp : list R) : Prop :=
  forall i j a b, (i <= j)%nat -> nth_error xp i = Some a -> nth_error xp j = Some b -> a <= b.

Lemma bisect_real x xp : ascending xp -> forall fuel imin imax i,
  (imin <= imax)%nat -> (imax <= length xp)%nat ->
  (forall k a, (k < imin)%nat -> nth_error xp k = Some a -> a <= x) ->
  (forall k a, (imax <= k)%nat -> nth_error xp k = Some a -> x < a) ->
  bisect RNum fuel x xp imin imax = Ok i ->
  (i <= length xp)%nat /\
  (forall k a, (k < i)%nat -> nth_error xp k = Some a -> a <= x) /\
  (forall k a, (i <= k)%nat -> nth_error xp k = Some a -> x < a).
Proof.
  intros Hasc. induction fuel as [|fuel IH]; intros imin imax i H1 H2 Hlo Hhi H; [discriminate|].
  cbn [bisect] in H. destruct (Nat.ltb_spec imin imax) as [Hlt|Hge].
  - set (imid := (imin + (imax - imin) / 2)%nat) in *.
    assert (Hmid : (imin <= imid < imax)%nat).
    { unfold imid. pose proof (Nat.div_lt (imax - imin) 2). lia. }
    destruct (@get_ok unit _ xp imid ltac:(lia)) as (v & Hg & Hv). change (F RNum) with R in *. rewrite Hg in H. cbn [rbind] in H.
    destruct (fle RNum v x) eqn:Ev.
    + apply Rfle_true in Ev. eapply (IH (imid + 1)%nat imax); try lia; try assumption.
      intros k a Hk Ha. apply Rle_trans with v; [|assumption].
      apply (Hasc k imid); auto; lia.
    + apply Rfle_false in Ev. eapply (IH imin imid); try lia; try assumption.
      intros k a Hk Ha. apply Rlt_le_trans with v; [assumption|].
      apply (Hasc imid k); auto; lia.
  - inversion H; subst. split; [lia|]. split.
    + intros k a Hk. apply Hlo; lia.
    + intros k a Hk. apply Hhi; lia.
Qed.

(** Where the search ends, for an ascending grid. *)
Lemma search_real x xp :
  ascending xp -> xp <> [] ->
  exists s, search RNum x xp = Ok s /\
  match s with
  | Below => forall a, nth_error xp 0 = Some a -> x < a
  | Above => forall a, nth_error xp (length xp - 1) = Some a -> a < x
  | Cell j => (exists a, nth_error xp j = Some a /\ a <= x)
      /\ (forall k b, (j < k)%nat -> nth_error xp k = Some b -> x < b)
      /\ (forall a, nth_error xp (length xp - 1) = Some a -> x <= a)
  end.
Proof.
  intros Hasc Hne.
  assert (Hl : (0 < length xp)%nat) by (destruct xp; [congruence|simpl; lia]).
  assert (Hok : wp (search RNum x xp) (fun s => match s with Cell j => (j < length xp)%nat | _ => True end)).
  { apply search_ok; [assumption|]. intros v Hv H. apply Rflt_false in H. now apply Rfle_true. }
  unfold search in *. unfold csub in *. change (F RNum) with R in *.
  destruct (Nat.leb_spec 1 (length xp)); [|lia]. cbn [rbind] in *.
  destruct (@get_ok unit _ xp (length xp - 1) ltac:(lia)) as (hi & Hgh & Hhi).
  change (F RNum) with R in *. rewrite Hgh. rewrite Hgh in Hok. cbn [rbind] in *.
  destruct (flt RNum hi x) eqn:E1.
  { eexists; split; [reflexivity|]. intros a Ha. rewrite Hhi in Ha. inversion Ha; subst. now apply Rflt_true in E1. }
  destruct (@get_ok unit _ xp 0 Hl) as (lo & Hgl & Hlo).
  change (F RNum) with R in *. rewrite Hgl. rewrite Hgl in Hok. cbn [rbind] in *.
  destruct (flt RNum x lo) eqn:E2.
  { eexists; split; [reflexivity|]. intros a Ha. rewrite Hlo in Ha. inversion Ha; subst. now apply Rflt_true in E2. }
  apply Rflt_false in E1, E2.
  match type of Hok with context [bisect RNum ?f x xp 0 ?m] => destruct (bisect RNum f x xp 0 m) as [i| |] eqn:Eb end;
    cbn [rbind] in *; try contradiction.
  2:{ exfalso. destruct e. exact (bisect_no_err RNum x xp _ _ _ Eb). }
  destruct (bisect_real x xp Hasc _ _ _ _ (Nat.le_0_l _) (Nat.le_refl _)
    ltac:(intros; lia) ltac:(intros k a Hk Ha; apply nth_error_None in Hk; congruence) Eb) as (Hi & Hbelow & Habove).
  destruct (Nat.leb_spec 1 i) as [Hi1|Hi0]; cbn [rbind] in *; [|contradiction].
  eexists; split; [reflexivity|]. split; [|split].
  - destruct (@get_ok unit _ xp (i - 1) ltac:(lia)) as (a & _ & Ha).
    exists a; split; [assumption|]. apply (Hbelow (i - 1)%nat); [lia|assumption].
  - intros k b Hk Hb. apply (Habove k); [lia|assumption].
  - intros a Ha. change (F RNum) with R in *. rewrite Hhi in Ha. inversion Ha; subst. assumption.
Qed.

Definition grid_ok (xp fp : list R) : Prop :=
  (2 <= length xp)%nat /\ length xp = length fp /\ ascending xp.

Lemma interp_unfold x (xp fp : list R) :
  grid_ok xp fp ->
  interp RNum x xp fp =
    (s <- search RNum x xp ;;
     match s with
     | Below => get fp 0
     | Above => get fp (length xp - 1)
     | Cell j =>
        if Nat.eqb j (length xp - 1) then get fp j else
        xj <- get xp j ;;
        if feq RNum xj x then get fp j else
        xj1 <- get xp (j + 1) ;;
        fj <- get fp j ;;
        fj1 <- get fp (j + 1) ;;
        Ok ((fj1 - fj) / (xj1 - xj) * (x - xj) + fj)
     end).
Proof.
  intros (H2 & Hlen & _). unfold interp.
  destruct xp as [|x0 r] eqn:E; [simpl in H2; lia|]. rewrite <- E in *. clear E x0 r.
  change (F RNum) with R. rewrite <- Hlen, Nat.eqb_refl. cbn [negb].
  destruct (Nat.eqb_spec (length xp) 1); [lia|]. cbn [is_nan RNum negb]. reflexivity.
Qed.

(** The specification: clamped piecewise-linear interpolation. *)
Inductive interpolant (xp fp : list R) (x : R) : R -> Prop :=
| I_below a f : nth_error xp 0 = Some a -> nth_error fp 0 = Some f -> x < a -> interpolant xp fp x f
| I_above a f : nth_error xp (length xp - 1) = Some a -> nth_error fp (length xp - 1) = Some f ->
    a < x -> interpolant xp fp x f
| I_node j f : nth_error xp j = Some x -> nth_error fp j = Some f ->
    (forall k b, (j < k)%nat -> nth_error xp k = Some b -> x < b) -> interpolant xp fp x f
| I_cell j a b f g : nth_error xp j = Some a -> nth_error xp (S j) = Some b ->
    nth_error fp j = Some f -> nth_error fp (S j) = Some g -> a < x < b ->
    interpolant xp fp x (f + (g - f) * ((x - a) / (b - a))).

Lemma nth_get {A} (v : list A) i a : nth_error v i = Some a -> @get unit A v i = Ok a.
Proof. unfold get. now intros ->. Qed.

Lemma interp_correct x xp fp :
  grid_ok xp fp -> exists y, interp RNum x xp fp = Ok y /\ interpolant xp fp x y.
Proof.
  intro H. pose proof H as (H2 & Hlen & Hasc). rewrite interp_unfold by assumption.
  destruct (search_real x xp Hasc) as (s & Hs & Hspec); [destruct xp; [simpl in H2; lia|discriminate]|].
  rewrite Hs. cbn [rbind].
  assert (Hsome : forall (v : list R) i, (i < length v)%nat -> exists a, nth_error v i = Some a).
  { intros v i Hi. destruct (@get_ok unit _ v i Hi) as (a & _ & Ha). eauto. }
  destruct s as [| |j].
  - destruct (Hsome xp 0%nat ltac:(lia)) as [a Ha]. destruct (Hsome fp 0%nat ltac:(lia)) as [f Hf].
    rewrite (nth_get _ _ _ Hf). eexists; split; [reflexivity|]. eapply I_below; eauto.
  - destruct (Hsome xp (length xp - 1)%nat ltac:(lia)) as [a Ha].
    destruct (Hsome fp (length xp - 1)%nat ltac:(lia)) as [f Hf].
    rewrite (nth_get _ _ _ Hf). eexists; split; [reflexivity|]. eapply I_above; eauto.
  - destruct Hspec as ((a & Ha & Hax) & Hnext & Hlast).
    assert (Hj : (j < length xp)%nat) by (apply nth_error_Some; congruence).
    destruct (Hsome fp j ltac:(lia)) as [f Hf].
    destruct (Nat.eqb_spec j (length xp - 1)) as [Ej|Ej].
    + rewrite (nth_get _ _ _ Hf). eexists; split; [reflexivity|].
      assert (a = x) by (apply Rle_antisym; [assumption|]; apply Hlast; congruence). subst a.
      eapply I_node; eauto.
    + rewrite (nth_get _ _ _ Ha). cbn [rbind].
      destruct (feq RNum a x) eqn:Ea.
      * apply Rfeq_true in Ea. subst a. rewrite (nth_get _ _ _ Hf). eexists; split; [reflexivity|].
        eapply I_node; eauto.
      * apply Rfeq_false in Ea.
        destruct (Hsome xp (S j) ltac:(lia)) as [b Hb]. destruct (Hsome fp (S j) ltac:(lia)) as [g Hg].
        rewrite Nat.add_1_r. rewrite (nth_get _ _ _ Hb), (nth_get _ _ _ Hf), (nth_get _ _ _ Hg). cbn [rbind].
        eexists; split; [reflexivity|].
        assert (Hxb : x < b) by (apply (Hnext (S j)); [lia|assumption]).
        assert (Hax' : a < x) by lra.
        replace ((g - f) / (b - a) * (x - a) + f) with (f + (g - f) * ((x - a) / (b - a))) by (field; lra).
        eapply I_cell; eauto.
Qed.

(** The specification determines the value. *)
Lemma ascending_lt xp i j a b : ascending xp -> nth_error xp i = Some a -> nth_error xp j = Some b -> a < b -> (i < j)%nat.
Proof.
  intros H Ha Hb Hab. destruct (Nat.lt_ge_cases i j) as [|Hge]; [assumption|].
  specialize (H j i b a Hge Hb Ha). lra.
Qed.

Lemma interp_at_node x xp fp j f :
  grid_ok xp fp -> nth_error xp j = Some x -> nth_error fp j = Some f ->
  (forall k b, (j < k)%nat -> nth_error xp k = Some b -> x < b) ->
  interp RNum x xp fp = Ok f.
Proof.
  intros H Hx Hf Hn. destruct (interp_correct x xp fp H) as (y & Hy & Hi). rewrite Hy. f_equal.
  destruct H as (H2 & Hlen & Hasc).
  assert (Hj : (j < length xp)%nat) by (apply nth_error_Some; congruence).
  destruct Hi as [a f' Ha Hf' Hlt|a f' Ha Hf' Hlt|k f' Hk Hf' Hkn|k a b f' g Ha Hb Hf' Hg Hlt].
  - pose proof (Hasc 0%nat j a x (Nat.le_0_l _) Ha Hx). lra.
  - assert (Hjl : (j <= length xp - 1)%nat) by lia.
    pose proof (Hasc _ _ _ _ Hjl Hx Ha). lra.
  - destruct (Nat.lt_trichotomy j k) as [Hjk|[->|Hjk]].
    + specialize (Hn k x Hjk Hk). lra.
    + congruence.
    + specialize (Hkn j x Hjk Hx). lra.
  - destruct (Nat.le_gt_cases j k) as [Hjk|Hjk].
    + pose proof (Hasc _ _ _ _ Hjk Hx Ha). lra.
    + pose proof (Hasc (S k) j _ _ Hjk Hb Hx). lra.
Qed.

Lemma interp_in_cell x xp fp j a b f g :
  grid_ok xp fp ->
  nth_error xp j = Some a -> nth_error xp (S j) = Some b ->
  nth_error fp j = Some f -> nth_error fp (S j) = Some g -> a <= x < b ->
  interp RNum x xp fp = Ok (f + (g - f) * ((x - a) / (b - a)))
  /\ Rmin f g <= f + (g - f) * ((x - a) / (b - a)) <= Rmax f g.
Proof.
  intros H Ha Hb Hf Hg Hx. split.
  - destruct (Req_EM_T a x) as [->|Hne].
    + rewrite (interp_at_node x xp fp j f); auto.
      * f_equal. field. lra.
      * intros k c Hk Hc. destruct H as (_ & _ & Hasc). pose proof (Hasc (S j) k b c Hk Hb Hc). lra.
    + destruct (interp_correct x xp fp H) as (y & Hy & Hi). rewrite Hy. f_equal.
      destruct H as (H2 & Hlen & Hasc).
      assert (Hj : (S j < length xp)%nat) by (apply nth_error_Some; congruence).
      destruct Hi as [a' f' Ha' Hf' Hlt|a' f' Ha' Hf' Hlt|k f' Hk Hf' Hkn|k a' b' f' g' Ha' Hb' Hf' Hg' Hlt].
      * pose proof (Hasc 0%nat j a' a (Nat.le_0_l _) Ha' Ha). lra.
      * assert (Hjl : (S j <= length xp - 1)%nat) by lia.
        pose proof (Hasc _ _ _ _ Hjl Hb Ha'). lra.
      * assert (j < k)%nat by (eapply ascending_lt; eauto; lra).
        assert (k < S j)%nat by (eapply ascending_lt; eauto; lra). lia.
      * assert (k = j).
        { assert (j < S k)%nat by (eapply ascending_lt; eauto; lra).
          assert (k < S j)%nat by (eapply ascending_lt; eauto; lra). lia. }
        subst k. congruence.
  - set (t := (x - a) / (b - a)).
    assert (0 <= t <= 1).
    { unfold t. split.
      - apply Rmult_le_pos; [lra|]. left. apply Rinv_0_lt_compat. lra.
      - apply (Rmult_le_reg_r (b - a)); [lra|]. unfold Rdiv. rewrite Rmult_assoc, Rinv_l; lra. }
    unfold Rmin, Rmax. destruct (Rle_dec f g); nra.
Qed.

Lemma interp_clamped x xp fp :
  grid_ok xp fp ->
  (forall a f, nth_error xp 0 = Some a -> nth_error fp 0 = Some f -> x < a -> interp RNum x xp fp = Ok f) /\
  (forall a f, nth_error xp (length xp - 1) = Some a -> nth_error fp (length xp - 1) = Some f ->
     a < x -> interp RNum x xp fp = Ok f).
Proof.
  intro H. pose proof H as (H2 & Hlen & Hasc).
  destruct (interp_correct x xp fp H) as (y & Hy & Hi). rewrite Hy.
  assert (Hend : forall i c, nth_error xp i = Some c -> (i <= length xp - 1)%nat).
  { intros i c Hc. assert (i < length xp)%nat by (apply nth_error_Some; congruence). lia. }
  split; intros a f Ha Hf Hlt; f_equal;
    destruct Hi as [a' f' Ha' Hf' Hlt'|a' f' Ha' Hf' Hlt'|k f' Hk Hf' Hkn|k a' b' f' g' Ha' Hb' Hf' Hg' Hlt'];
    try congruence; exfalso;
    repeat match goal with
    | H1 : nth_error xp 0 = Some _, H2 : nth_error xp ?i = Some _ |- _ =>
        match i with 0%nat => fail 1 | _ => pose proof (Hasc 0%nat i _ _ (Nat.le_0_l _) H1 H2); clear H2 end
    | H1 : nth_error xp (length xp - 1) = Some _, H2 : nth_error xp ?i = Some _ |- _ =>
        match i with (length xp - 1)%nat => fail 1 | _ => pose proof (Hasc i (length xp - 1)%nat _ _ (Hend _ _ H2) H2 H1); clear H2 end
    end; lra.
Qed.

Lemma interp_monotone x y xp fp u v :
  grid_ok xp fp -> ascending fp -> x <= y ->
  interp RNum x xp fp = Ok u -> interp RNum y xp fp = Ok v -> u <= v.
Proof.
  intros H Hf Hxy Hu Hv. pose proof H as (H2 & Hlen & Hasc).
  destruct (interp_correct x xp fp H) as (u' & Hu' & Hi).
  destruct (interp_correct y xp fp H) as (v' & Hv' & Hj).
  assert (u' = u) by congruence. assert (v' = v) by congruence. subst u' v'. clear Hu Hu' Hv Hv'.
  assert (Hend : forall i (c : R) l, nth_error l i = Some c -> length xp = length l -> (i <= length xp - 1)%nat).
  { intros i c l Hc Hll. assert (i < length l)%nat by (apply nth_error_Some; congruence). lia. }
  (* every interpolated value lies between the values at two bracketing indices *)
  assert (Hbr : forall z w, interpolant xp fp z w ->
    exists i j fi fj, nth_error fp i = Some fi /\ nth_error fp j = Some fj /\ fi <= w <= fj /\ (i <= j <= S i)%nat
      /\ (forall a, nth_error xp i = Some a -> a <= z \/ i = 0%nat)
      /\ (forall b, nth_error xp j = Some b -> z <= b \/ j = (length xp - 1)%nat)
      /\ (i = j -> (forall k c, (i < k)%nat -> nth_error xp k = Some c -> z < c) /\
           (forall k c, (k < i)%nat -> nth_error xp k = Some c -> c <= z))).
  { intros z w Hw. destruct Hw as [a f Ha Hf0 Hlt|a f Ha Hf0 Hlt|k f Hk Hf0 Hkn|k a b f g Ha Hb Hf0 Hg Hlt].
    - exists 0%nat, 0%nat, f, f. repeat split; auto; try lra; try lia.
      + intros b Hb. left. assert (b = a) by congruence. lra.
      + intros k c Hk Hc. pose proof (Hasc 0%nat k _ _ (Nat.le_0_l _) Ha Hc). lra.
    - exists (length xp - 1)%nat, (length xp - 1)%nat, f, f. repeat split; auto; try lra; try lia.
      + intros b Hb. left. assert (b = a) by congruence. lra.
      + intros k c Hk Hc. assert (nth_error xp k = None) by (apply nth_error_None; lia). congruence.
      + intros k c Hk Hc. assert (Hkl : (k <= length xp - 1)%nat) by lia.
        pose proof (Hasc _ _ _ _ Hkl Hc Ha). lra.
    - exists k, k, f, f. repeat split; auto; try lra; try lia.
      + intros b Hb. left. assert (b = z) by congruence. lra.
      + intros b Hb. left. assert (b = z) by congruence. lra.
      + intros k' c Hk' Hc. assert (Hkl : (k' <= k)%nat) by lia. exact (Hasc _ _ _ _ Hkl Hc Hk).
    - assert (Hfg : f <= g) by (apply (Hf k (S k)); auto).
      assert (0 <= (z - a) / (b - a) <= 1).
      { split.
        - apply Rmult_le_pos; [lra|]. left. apply Rinv_0_lt_compat. lra.
        - apply (Rmult_le_reg_r (b - a)); [lra|]. unfold Rdiv. rewrite Rmult_assoc, Rinv_l; lra. }
      exists k, (S k), f, g. repeat split; auto; try nra; try lia.
      + intros c Hc. left. assert (c = a) by congruence. lra.
      + intros c Hc. left. assert (c = b) by congruence. lra. }
  destruct Hi as [a f Ha Hf0 Hlt|a f Ha Hf0 Hlt|k f Hk Hf0 Hkn|k a b f g Ha Hb Hf0 Hg Hlt].
  - (* x below the grid: u is the least value *)
    destruct (Hbr y v Hj) as (i & j & fi & fj & Hfi & _ & Hle & _).
    pose proof (Hf 0%nat i _ _ (Nat.le_0_l _) Hf0 Hfi). lra.
  - (* x above the grid: so is y *)
    destruct Hj as [a' f' Ha' Hf' Hlt'|a' f' Ha' Hf' Hlt'|k' f' Hk' Hf' Hkn'|k' a' b' f' g' Ha' Hb' Hf' Hg' Hlt'].
    + pose proof (Hasc 0%nat _ _ _ (Nat.le_0_l _) Ha' Ha). lra.
    + assert (f = f') by congruence. lra.
    + pose proof (Hasc _ _ _ _ (Hend _ _ xp Hk' eq_refl) Hk' Ha). lra.
    + pose proof (Hasc _ _ _ _ (Hend _ _ xp Hb' eq_refl) Hb' Ha). lra.
  - destruct Hj as [a' f' Ha' Hf' Hlt'|a' f' Ha' Hf' Hlt'|k' f' Hk' Hf' Hkn'|k' a' b' f' g' Ha' Hb' Hf' Hg' Hlt'].
    + pose proof (Hasc 0%nat _ _ _ (Nat.le_0_l _) Ha' Hk). lra.
    + exact (Hf _ _ _ _ (Hend _ _ fp Hf0 Hlen) Hf0 Hf').
    + destruct (Nat.le_gt_cases k k') as [Hkk|Hkk].
      * exact (Hf _ _ _ _ Hkk Hf0 Hf').
      * specialize (Hkn' _ _ Hkk Hk). lra.
    + assert (Hk1 : (k < S k')%nat) by (eapply ascending_lt; eauto; lra).
      assert (Hle : f <= f') by (apply (Hf k k'); auto; lia).
      assert (f' <= g') by (apply (Hf k' (S k')); auto).
      assert (0 <= (y - a') / (b' - a')).
      { apply Rmult_le_pos; [lra|]. left. apply Rinv_0_lt_compat. lra. }
      nra.
  - assert (Hfg : f <= g) by (apply (Hf k (S k)); auto).
    assert (Ht : 0 <= (x - a) / (b - a) <= 1).
    { split.
      - apply Rmult_le_pos; [lra|]. left. apply Rinv_0_lt_compat. lra.
      - apply (Rmult_le_reg_r (b - a)); [lra|]. unfold Rdiv. rewrite Rmult_assoc, Rinv_l; lra. }
    destruct Hj as [a' f' Ha' Hf' Hlt'|a' f' Ha' Hf' Hlt'|k' f' Hk' Hf' Hkn'|k' a' b' f' g' Ha' Hb' Hf' Hg' Hlt'].
    + pose proof (Hasc 0%nat _ _ _ (Nat.le_0_l _) Ha' Ha). lra.
    + assert (g <= f') by (exact (Hf _ _ _ _ (Hend _ _ fp Hg Hlen) Hg Hf')). nra.
    + assert (k < k')%nat by (eapply ascending_lt; eauto; lra).
      assert (g <= f') by (apply (Hf (S k) k'); auto). nra.
    + assert (Hk1 : (k < S k')%nat) by (eapply ascending_lt; eauto; lra).
      assert (Ht' : 0 <= (y - a') / (b' - a')).
      { apply Rmult_le_pos; [lra|]. left. apply Rinv_0_lt_compat. lra. }
      assert (f' <= g') by (apply (Hf k' (S k')); auto).
      destruct (Nat.eq_dec k k') as [<-|Hne].
      * assert (a' = a) by congruence. assert (b' = b) by congruence.
        assert (f' = f) by congruence. assert (g' = g) by congruence. subst.
        apply Rplus_le_compat_l, Rmult_le_compat_l; [lra|].
        apply Rmult_le_compat_r; [left; apply Rinv_0_lt_compat; lra|lra].
      * assert (g <= f') by (apply (Hf (S k) k'); auto; lia). nra.
Qed.
