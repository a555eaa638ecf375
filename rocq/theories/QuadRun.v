(** Whole runs of qagse, qagpe and quad in QuadModel, for any number type. *)
From Coq Require Import List Arith Bool ZArith QArith Lia ZifyNat Permutation.
From Verif Require Import RustBase RustBaseFacts QuadModel QuadProofs QuadLoop.
Import ListNotations.
Local Open Scope nat_scope.
Ltac Zify.zify_post_hook ::= Z.to_euclidean_division_equations.

Lemma upd_perm1 {X} (t : list X) : forall j a b, nth_error t j = Some b -> Permutation (b :: upd t j a) (a :: t).
Proof.
  induction t as [|x t IH]; intros [|j] a b H; cbn in *; try discriminate.
  - inversion H; subst. apply perm_swap.
  - rewrite perm_swap. rewrite (IH j a b H). apply perm_swap.
Qed.
Lemma swap_perm {X} (t : list X) : forall i j a b, nth_error t i = Some a -> nth_error t j = Some b ->
  Permutation (upd (upd t i b) j a) t.
Proof.
  induction t as [|x t IH]; intros [|i] [|j] a b Ha Hb; cbn in *; try discriminate.
  - reflexivity || (inversion Ha; now subst).
  - inversion Ha; subst. now apply upd_perm1.
  - inversion Hb; subst. now apply upd_perm1.
  - constructor. now apply IH.
Qed.

Lemma firstn_S_map {X Y} (g : X -> Y) (l : list X) : forall i x,
  nth_error l i = Some x -> map g (firstn (S i) l) = map g (firstn i l) ++ [g x].
Proof.
  induction l as [|h t IH]; intros [|i] x H; cbn in H; try discriminate.
  - inversion H; subst. reflexivity.
  - cbn [firstn map app]. f_equal. now apply IH.
Qed.

Lemma workspace_len_bounds lim needed : needed <= lim -> needed + 2 <= workspace_len lim needed <= lim + 2.
Proof. unfold workspace_len. lia. Qed.

Lemma nth_upd_hit {X} (v : list X) i a : i < length v -> nth_error (upd v i a) i = Some a.
Proof. intro H. rewrite nth_upd, Nat.eqb_refl. destruct (Nat.ltb_spec i (length v)); [reflexivity|lia]. Qed.

Section Run.
Variable N : Num.
Notation FN := (F N).
Notation R := (rr QuadError).
Variable f : fn N.
Variable epsabs epsrel : FN.
Variable limit : nat.
Variable T : list (piece N) -> FN -> FN -> nat -> Prop.
Hypothesis Tstep : forall ps i a b r e area errsum c x y,
  nth_error ps i = Some (a, b, r, e) -> T ps area errsum c ->
  (halves N f c a b = (x, y) \/ halves N f c a b = (y, x)) ->
  T (upd ps i x ++ [y])
    (fadd N area (fsub N (fadd N (p_r N (fst (halves N f c a b))) (p_r N (snd (halves N f c a b)))) r))
    (fadd N errsum (fsub N (fadd N (p_e N (fst (halves N f c a b))) (p_e N (snd (halves N f c a b)))) e))
    (42 + c).
Variable A : FN -> Prop.
Hypothesis A0 : A (oflow N).
Hypothesis Alt : forall x y, A x -> flt N y x = true -> A y.

(** What a run of qagse returns. *)
Inductive qagse_result (a b : FN) (o : outcome N) : Prop :=
| se_early ier :
    let k := krule N f 0 a b in
    let bound := fmax N epsabs (fmul N epsrel (fabs N (k_result N k))) in
    (ier = 0 -> 2 <= limit /\ (fle N (k_abserr N k) bound = true \/ feq N (k_abserr N k) (lit N 0) = true)) ->
    tolerance_bad N epsabs epsrel = false ->
    T [kpiece N f 0 a b] (k_result N k) (k_abserr N k) 21 ->
    o = Outcome N (k_result N k) (k_abserr N k) 21 1 (from_code ier) 21 -> qagse_result a b o
| se_loop s v e ier defabs sgn :
    Done N limit T false s -> exit_kind N epsabs epsrel A false s ->
    finish N defabs sgn s = Ok (v, e, ier) ->
    o = Outcome N v e (42 * q_last N s - 21) (q_last N s) (from_code ier) (q_cnt N s) -> qagse_result a b o.

Lemma qagse_start_wp a b :
  T [kpiece N f 0 a b] (k_result N (krule N f 0 a b)) (k_abserr N (krule N f 0 a b)) 21 ->
  wp (qagse_start N f a b epsabs epsrel limit) (fun r => match r with
    | inl o => qagse_result a b o
    | inr (s, _, _) => 2 <= limit /\ Inv N limit T A false 2 2 s end).
Proof.
  intro HT. unfold qagse_start.
  destruct (Nat.ltb_spec limit 1) as [|Hl]; [exact I|].
  destruct (tolerance_bad N epsabs epsrel) eqn:Etol; [exact I|].
  pose proof (workspace_len_bounds limit 1 Hl) as Hcap. set (cap := workspace_len limit 1) in *.
  apply wp_bind, wp_set; [rewrite repeat_length; lia|]. apply wp_bind, wp_set; [rewrite repeat_length; lia|].
  rewrite qk21_eq. cbn [rbind]. set (k := krule N f 0 a b) in *.
  apply wp_bind, wp_set; [rewrite repeat_length; lia|]. apply wp_bind, wp_set; [rewrite repeat_length; lia|].
  apply wp_bind, wp_set; [rewrite repeat_length; lia|].
  set (errbnd := fmax N epsabs (fmul N epsrel (fabs N (k_result N k)))).
  set (ier0 := if fle N (k_abserr N k) (fmul N (fmul N (lit N 100) (epmach N)) (k_resabs N k)) && flt N errbnd (k_abserr N k) then 2 else 0).
  set (ier := if limit =? 1 then 1 else ier0).
  match goal with |- context [if negb (ier =? 0) || ?c || ?d then _ else _] => set (c1 := c); set (c2 := d) end.
  destruct (negb (ier =? 0) || c1 || c2) eqn:E.
  - cbn [wp rbind]. apply se_early with (ier := ier); [|exact Etol|exact HT|reflexivity].
    intro Ei. rewrite Ei in E. cbn [Nat.eqb negb orb] in E. split.
    + unfold ier in Ei. destruct (Nat.eqb_spec limit 1); [discriminate|lia].
    + apply orb_true_iff in E. destruct E as [E|E]; [left|right; exact E].
      apply andb_true_iff in E. apply E.
  - apply orb_false_iff in E. destruct E as [E _]. apply orb_false_iff in E. destruct E as [E _].
    apply negb_false_iff, Nat.eqb_eq in E.
    assert (Hlim : 2 <= limit). { unfold ier in E. destruct (Nat.eqb_spec limit 1); [discriminate|lia]. }
    apply wp_bind, wp_set; [rewrite repeat_length; lia|]. cbn [wp].
    split; [exact Hlim|]. constructor; unfold st0; sq; try lia; try reflexivity; try discriminate; try exact A0.
    + repeat split; sq; rewrite ?upd_length, ?repeat_length; try reflexivity; discriminate.
    + rewrite nth_upd_hit; [reflexivity|rewrite repeat_length; lia].
    + pose proof (jb_ge limit 1). cbn [Nat.sub]. lia.
    + intros j Hj. pose proof (jb_le limit (2 - 1)) as Hj'. replace j with 1 by lia. exists 1.
      split; [rewrite nth_upd_hit; [reflexivity|rewrite repeat_length; lia]|lia].
    + repeat split; sq; rewrite ?upd_length, ?repeat_length; try reflexivity; lia.
    + exists [kpiece N f 0 a b]. split; [|exact HT]. split; [reflexivity|].
      intros j Hj. replace j with 0 by lia. unfold at_. sq.
      rewrite !nth_upd_hit by (rewrite repeat_length; lia). reflexivity.
Qed.

Lemma qagse_run a b :
  limit <= 51 ->
  T [kpiece N f 0 a b] (k_result N (krule N f 0 a b)) (k_abserr N (krule N f 0 a b)) 21 ->
  wp (qagse N f a b epsabs epsrel limit) (qagse_result a b).
Proof.
  intros H51 HT. unfold qagse. apply wp_bind. eapply wp_mono; [apply (qagse_start_wp a b HT)|].
  intros [o|[[s0 defabs] sgn]] H; [exact H|]. destruct H as [Hlim HI0].
  apply wp_bind.
  apply wp_mono with (P := fun s => Done N limit T false s /\ exit_kind N epsabs epsrel A false s).
  { apply wp_for with (I := fun L s => L <= limit /\ Inv N limit T A false (Nat.max 2 (L - 1)) L s).
    - split; [exact Hlim|exact HI0].
    - intros L s HL [_ HI]. eapply wp_mono; [apply (qagse_body_wp N f epsabs epsrel limit T Tstep A Alt a b L s HL H51 HI)|].
      intros [s'|s'] H; cbn [step_post] in H; [|exact H]. cbn [Nat.sub]. rewrite Nat.sub_0_r. exact H.
    - intros s [H _]. lia. }
  intros s [HD HE].
  pose proof (finish_wp N f limit T Tstep A Alt false defabs sgn s HD) as HF.
  destruct (finish N defabs sgn s) as [[[v e] code]| |] eqn:Ef; [|exact I|contradiction].
  cbn [rbind]. apply wp_bind, wp_csub; [pose proof (d_last N limit T false s HD); lia|].
  cbn [wp]. eapply se_loop; eauto.
Qed.

(** ** The initial pieces of qagpe *)
Fixpoint kchain (c : nat) (xs : list FN) : list (piece N) :=
  match xs with
  | x :: (y :: _) as r => kpiece N f c x y :: kchain (21 + c) r
  | _ => []
  end.
Definition with_err (ps : list (piece N)) (es : list FN) : list (piece N) :=
  map (fun q => match q with ((a, b, r, _), e) => (a, b, r, e) end) (combine ps es).
Definition total (l : list FN) : FN := fold_left (fadd N) l (lit N 0).

Lemma kchain_length xs : forall c, length (kchain c xs) = length xs - 1.
Proof using N f.
  clear Tstep A0 Alt A T.
  induction xs as [|x [|y r] IH]; intro c; [reflexivity|reflexivity|].
  change (kchain c (x :: y :: r)) with (kpiece N f c x y :: kchain (21 + c) (y :: r)).
  cbn [length]. rewrite IH. cbn [length]. lia.
Qed.
Lemma kchain_nth xs : forall c k x y, nth_error xs k = Some x -> nth_error xs (S k) = Some y ->
  nth_error (kchain c xs) k = Some (kpiece N f (21 * k + c) x y).
Proof.
  induction xs as [|x0 [|y0 r] IH]; intros c k x y Hx Hy; [now destruct k|now destruct k as [|[]]|].
  change (kchain c (x0 :: y0 :: r)) with (kpiece N f c x0 y0 :: kchain (21 + c) (y0 :: r)).
  destruct k as [|k].
  - cbn in Hx, Hy. inversion Hx; inversion Hy; subst. reflexivity.
  - cbn [nth_error] in *. rewrite (IH (21 + c) k x y Hx Hy). f_equal. f_equal. lia.
Qed.

Lemma sort_pts_wp z xs nint :
  length xs = nint + 1 ->
  wp (sort_pts N nint (z :: xs)) (fun r => exists xs', r = z :: xs' /\ Permutation xs' xs).
Proof.
  intro Hl. unfold sort_pts.
  apply wp_for with (I := fun _ r => exists xs', r = z :: xs' /\ Permutation xs' xs); [eauto| |auto].
  intros i r Hi HI. apply wp_bind.
  apply wp_mono with (P := fun r => exists xs', r = z :: xs' /\ Permutation xs' xs); [|auto].
  apply wp_for with (I := fun _ r => exists xs', r = z :: xs' /\ Permutation xs' xs); [exact HI| |auto].
  clear r HI. intros j r Hj (xs' & -> & Hp).
  assert (Hl' : length (z :: xs') = nint + 2) by (cbn [length]; rewrite (Permutation_length Hp); lia).
  apply wp_bind, wp_get; [lia|]. intros x Hx. apply wp_bind, wp_get; [lia|]. intros y Hy.
  destruct (flt N y x); [|cbn [wp]; eauto].
  apply wp_bind, wp_set; [lia|]. apply wp_bind, wp_set; [rewrite upd_length; lia|]. cbn [wp].
  destruct i as [|i]; [lia|]. destruct j as [|j]; [lia|]. cbn [upd]. eexists. split; [reflexivity|].
  cbn [nth_error] in Hx, Hy. rewrite (swap_perm xs' i j x y Hx Hy). exact Hp.
Qed.

Lemma put_points_eq points : forall pre z k, 2 <= length pre -> length points <= k ->
  fold_left (fun (r : R (list FN * nat)) p => ' (pts, i) <- r ;; pts <- set pts (i + 2) p ;; Ok (pts, i + 1))
    points (Ok (pre ++ repeat z k, length pre - 2))
  = Ok (pre ++ points ++ repeat z (k - length points), length pre - 2 + length points).
Proof.
  induction points as [|p r IH]; intros pre z k Hp Hk; cbn [fold_left length] in *.
  - rewrite Nat.sub_0_r, Nat.add_0_r. reflexivity.
  - destruct k as [|k]; [lia|]. cbn [rbind]. replace (length pre - 2 + 2) with (length pre) by lia.
    unfold set at 2. rewrite app_length. cbn [repeat length].
    destruct (Nat.ltb_spec (length pre) (length pre + S (length (repeat z k)))); [|lia]. cbn [rbind].
    assert (E : upd (pre ++ z :: repeat z k) (length pre) p = (pre ++ [p]) ++ repeat z k).
    { clear. induction pre as [|x t IHt]; cbn; [reflexivity|]. now rewrite IHt. }
    rewrite E. replace (length pre - 2 + 1) with (length (pre ++ [p]) - 2) by (rewrite app_length; cbn; lia).
    rewrite IH; [|rewrite app_length; cbn; lia|lia]. rewrite <- app_assoc. cbn [app].
    f_equal. f_equal. rewrite app_length. cbn. lia.
Qed.

(** The points with their ends, in the order given. *)
Definition all_points (a b : FN) (points : list FN) : list FN := fmin N a b :: points ++ [fmax N a b].
(** [ys] is what the initial pieces are cut from. *)
Definition cut_points (a b : FN) (points ys : list FN) : Prop :=
  (points = [] /\ ys = all_points a b points) \/
  (points <> [] /\ exists y0 r,
     sort_pts N (length points + 1) (lit N 0 :: all_points a b points) = Ok (lit N 0 :: y0 :: r)
     /\ feq N y0 (fmin N a b) = true /\ (exists yn, nth_error (y0 :: r) (length points + 1) = Some yn /\ feq N yn (fmax N a b) = true)
     /\ Permutation (y0 :: r) (all_points a b points) /\ ys = fmin N a b :: r).

Lemma cut_points_length a b points ys : cut_points a b points ys -> length ys = length points + 2.
Proof using N.
  clear Tstep A0 Alt A T.
  intros [[-> ->]|(_ & y0 & r & _ & _ & _ & Hp & ->)].
  - reflexivity.
  - apply Permutation_length in Hp. unfold all_points in Hp. cbn [length] in Hp |- *. rewrite app_length in Hp.
    cbn [length] in Hp. lia.
Qed.

Lemma first_pieces_wp ys z y0 cap w lev ndin nint :
  length ys = nint -> 1 <= nint -> nint + 2 <= cap ->
  length (al N w) = cap -> length (bl N w) = cap -> length (rl N w) = cap -> length (el N w) = cap ->
  length (io N w) = cap -> length lev = cap -> length ndin = nint + 2 ->
  forall v, 
  wp (first_pieces N f nint (z :: v :: ys) (Pieces N w lev ndin y0 (lit N 0) (lit N 0) (lit N 0) 0)) (fun p =>
    length (al N (p_w N p)) = cap /\ length (bl N (p_w N p)) = cap /\ length (rl N (p_w N p)) = cap
    /\ length (el N (p_w N p)) = cap /\ length (io N (p_w N p)) = cap /\ length (p_lev N p) = cap
    /\ length (p_ndin N p) = nint + 2
    /\ p_cnt N p = 21 * nint
    /\ entries (io N (p_w N p)) nint nint
    /\ holds (p_w N p) nint (kchain 0 (y0 :: ys))
    /\ p_result N p = total (map (p_r N) (kchain 0 (y0 :: ys)))).
Proof.
  intros Hys Hn Hcap A1 A2 A3 A4 A5 A6 A7 v. unfold first_pieces.
  eapply wp_mono.
  { apply wp_for with (I := fun i p =>
      length (al N (p_w N p)) = cap /\ length (bl N (p_w N p)) = cap /\ length (rl N (p_w N p)) = cap
      /\ length (el N (p_w N p)) = cap /\ length (io N (p_w N p)) = cap /\ length (p_lev N p) = cap
      /\ length (p_ndin N p) = nint + 2
      /\ p_cnt N p = 21 * (i - 1)
      /\ entries (io N (p_w N p)) (i - 1) nint
      /\ (forall k, k < i - 1 -> at_ (p_w N p) (S k) = nth_error (kchain 0 (y0 :: ys)) k)
      /\ nth_error (y0 :: ys) (i - 1) = Some (p_a1 N p)
      /\ p_result N p = total (map (p_r N) (firstn (i - 1) (kchain 0 (y0 :: ys))))).
    - sp; auto; cbn.
      + intros k Hk. lia.
      + intros k Hk. lia.
    - intros i p Hi (B1 & B2 & B3 & B4 & B5 & B6 & B7 & Hc & He & Hat & Ha & Hr).
      apply wp_bind, wp_get; [cbn [length]; lia|]. intros b1 Hb.
      replace (i + 1) with (S (S (i - 1))) in Hb by lia. cbn [nth_error] in Hb.
      rewrite qk21_eq. cbn [rbind].
      apply wp_bind, wp_set; [lia|].
      apply wp_bind. apply wp_mono with (P := fun d => length d = nint + 2).
      { destruct (_ && _); [apply wp_set|]; cbn [wp]; rewrite ?upd_length; lia. }
      intros nd Hnd. repeat (apply wp_bind, wp_set; [lia|]). cbn [wp].
      destruct i as [|i]; [lia|]. replace (S i - 1) with i in * by lia. replace (S (S i) - 1) with (S i) by lia.
      pose proof (kchain_nth (y0 :: ys) 0 i _ _ Ha Hb) as Hk. rewrite Nat.add_0_r, <- Hc in Hk.
      cbn [p_w p_lev p_ndin p_a1 p_result p_cnt al bl rl el io]. sp; rewrite ?upd_length; auto; try lia.
      + intros k Hk1. rewrite nth_upd. destruct (Nat.eqb_spec (S i) k) as [<-|].
        * exists (S i). destruct (Nat.ltb_spec (S i) (length (io N (p_w N p)))); [split; [reflexivity|lia]|lia].
        * apply He. lia.
      + intros k Hk1. unfold at_. cbn [al bl rl el]. rewrite !nth_upd.
        destruct (Nat.eqb_spec (S i) (S k)) as [E|E].
        * inversion E; subst k.
          repeat match goal with |- context [Nat.ltb ?u ?x] => destruct (Nat.ltb_spec u x); [|lia] end.
          rewrite Hk. reflexivity.
        * apply Hat. lia.
      + rewrite Hr, (firstn_S_map _ _ _ _ Hk). unfold total. rewrite fold_left_app. reflexivity.
    - intros p H. exact H. }
  intros p (B1 & B2 & B3 & B4 & B5 & B6 & B7 & Hc & He & Hat & Ha & Hr).
  replace (Nat.max 1 (S nint) - 1) with nint in * by lia.
  assert (Hl : length (kchain 0 (y0 :: ys)) = nint) by (rewrite kchain_length; cbn [length]; lia).
  sp; auto.
  - split; [exact Hl|]. exact Hat.
  - rewrite Hr. rewrite <- Hl at 1. now rewrite firstn_all.
Qed.

Lemma piece_errors_wp nint ndin abserr elist :
  nint < length ndin -> nint < length elist ->
  wp (piece_errors N nint ndin abserr elist) (fun r => match r with (elist', errsum) =>
    length elist' = length elist /\ exists es, length es = nint
    /\ (forall k, k < nint -> nth_error elist' (S k) = nth_error es k) /\ errsum = total es end).
Proof.
  intros H1 H2. unfold piece_errors. eapply wp_mono.
  { apply wp_for with (I := fun i r => match r with (elist', errsum) =>
      length elist' = length elist /\ exists es, length es = i - 1
      /\ (forall k, k < i - 1 -> nth_error elist' (S k) = nth_error es k) /\ errsum = total es end).
    - split; [reflexivity|]. exists []. sp; auto. intros k Hk. lia.
    - intros i [el' es0] Hi (Hl & es & He & Hn & ->).
      apply wp_bind, wp_get; [lia|]. intros d _.
      apply wp_bind. apply wp_mono with (P := fun l => length l = length elist /\ forall k, k <> i -> nth_error l k = nth_error el' k).
      { destruct (Nat.eqb d 1); [apply wp_set; [lia|]|cbn [wp]].
        - rewrite upd_length. split; [exact Hl|]. intros k Hk. rewrite nth_upd. destruct (Nat.eqb_spec i k); congruence.
        - auto. }
      intros l [Hll Hk]. apply wp_bind, wp_get; [lia|]. intros e Ee. cbn [wp].
      split; [exact Hll|]. exists (es ++ [e]). rewrite app_length. cbn [length]. sp.
      + lia.
      + intros k Hk'. destruct (Nat.eq_dec (S k) i) as [E|E].
        * rewrite nth_error_app2 by lia. replace (k - length es) with 0 by lia. now rewrite E.
        * rewrite nth_error_app1 by lia. rewrite Hk by lia. apply Hn. lia.
      + unfold total. now rewrite fold_left_app.
    - intros r H. exact H. }
  intros [l s] (Hl & es & He & Hn & Hs). split; [exact Hl|]. exists es.
  replace (Nat.max 1 (S nint) - 1) with nint in * by lia. auto.
Qed.

Lemma order_pieces_wp npts nint elist io0 :
  npts <= nint -> nint < length elist -> nint < length io0 -> entries io0 nint nint ->
  wp (order_pieces N npts nint elist io0) (fun r => length r = length io0 /\ entries r nint nint).
Proof.
  intros Hn H1 H2 He. unfold order_pieces.
  apply wp_for with (I := fun _ r => length r = length io0 /\ entries r nint nint); [auto| |auto].
  intros i r Hi [Hl Her]. eapply wp_entry; [exact Her|lia|]. intros i0 Hi0 Hb.
  apply wp_bind. eapply wp_mono.
  { apply wp_for with (I := fun _ q => match q with (ind1, k) =>
      1 <= ind1 <= nint /\ (ind1 = i0 \/ i + 1 <= k <= nint) end) .
    - auto.
    - intros j [ind1 k] Hj [Hin Hk]. eapply wp_entry; [exact Her|lia|]. intros ind2 _ Hb2.
      apply wp_bind, wp_get; [lia|]. intros e1 _. apply wp_bind, wp_get; [lia|]. intros e2 _.
      destruct (fle N e1 e2); cbn [wp]; [|auto]. split; [lia|]. right. lia.
    - intros q H. exact H. }
  intros [ind1 k] [Hin Hk]. destruct (Nat.eqb_spec ind1 i0) as [E|E]; [cbn [wp]; auto|].
  destruct Hk as [Hk|Hk]; [contradiction|].
  apply wp_bind, wp_set; [lia|]. apply wp_bind, wp_set; [rewrite upd_length; lia|]. cbn [wp].
  rewrite !upd_length. split; [exact Hl|].
  apply entries_upd; [apply entries_upd; [exact Her|exact Hb|lia]|exact Hin|rewrite upd_length; lia].
Qed.

Inductive qagpe_result (a b : FN) (points : list FN) (o : outcome N) : Prop :=
| pe_early ys e es ier :
    let ps := kchain 0 ys in
    let v := total (map (p_r N) ps) in
    cut_points a b points ys ->
    (ier = 0 -> fle N e (fmax N epsabs (fmul N epsrel (fabs N v))) = true) ->
    T (with_err ps es) v (total es) (21 * (length points + 1)) ->
    length es = length points + 1 ->
    o = Outcome N (fmul N v (if flt N b a then fneg N (lit N 1) else lit N 1)) e (21 * (length points + 1))
          (length points + 1) (from_code ier) (21 * (length points + 1)) -> qagpe_result a b points o
| pe_loop s v e ier defabs sgn :
    Done N limit T true s ->
    exit_kind N epsabs epsrel A true s \/
      (points = [] /\ limit = 1 /\ q_goto_sum N s = false /\ q_ier N s = 0 /\ q_ierro N s = 0 /\ q_abserr N s = oflow N) ->
    finish N defabs sgn s = Ok (v, e, ier) ->
    o = Outcome N (fmul N v (if flt N b a then fneg N (lit N 1) else lit N 1)) e (q_neval N s)
          (q_last N s) (from_code ier) (q_cnt N s) -> qagpe_result a b points o.

Lemma with_err_holds (w : work N) n ps elist es :
  holds w n ps -> length es = n -> (forall k, k < n -> nth_error elist (S k) = nth_error es k) ->
  forall io0, holds (Work N (al N w) (bl N w) (rl N w) elist io0) n (with_err ps es).
Proof.
  intros [Hl Hat] He Hn io0. split.
  - unfold with_err. rewrite map_length, combine_length. lia.
  - intros k Hk. specialize (Hat k Hk). specialize (Hn k Hk). unfold at_ in *. cbn [al bl rl el].
    rewrite Hn. clear Hn.
    assert (E : nth_error (with_err ps es) k = match nth_error ps k, nth_error es k with
        | Some (x, y, r, _), Some e => Some (x, y, r, e) | _, _ => None end).
    { clear. unfold with_err. revert es k. induction ps as [|[[[x y] r] e] ps IH]; intros es k; destruct k; destruct es; cbn; auto.
      now destruct (nth_error ps k) as [[[[? ?] ?] ?]|]. }
    rewrite E. clear E. destruct (nth_error ps k) as [[[[x y] r] e]|] eqn:Ep.
    + destruct (nth_error (al N w) (S k)); [|discriminate]. destruct (nth_error (bl N w) (S k)); [|discriminate].
      destruct (nth_error (rl N w) (S k)); [|discriminate]. destruct (nth_error (el N w) (S k)); [|discriminate].
      inversion Hat; subst. reflexivity.
    + apply nth_error_None in Ep. lia.
Qed.

Lemma qagpe_start_wp a b points :
  (forall ys es, cut_points a b points ys -> length es = length points + 1 ->
     T (with_err (kchain 0 ys) es) (total (map (p_r N) (kchain 0 ys))) (total es) (21 * (length points + 1))) ->
  wp (qagpe_start N f a b points epsabs epsrel limit) (fun r => match r with
    | inl o => qagpe_result a b points o
    | inr (s, _, _) =>
        (length points + 2 <= limit /\ Inv N limit T A true 1 (length points + 2) s) \/
        (Done N limit T true s /\ points = [] /\ limit = 1 /\ q_goto_sum N s = false /\ q_ier N s = 0
         /\ q_ierro N s = 0 /\ q_abserr N s = oflow N) end).
Proof.
  intros HT. unfold qagpe_start. set (npts := length points) in *.
  destruct (Nat.leb_spec limit npts) as [|Hl]; [exact I|].
  destruct (tolerance_bad N epsabs epsrel); [exact I|].
  pose proof (workspace_len_bounds limit (npts + 1) ltac:(lia)) as Hcap. set (cap := workspace_len limit (npts + 1)) in *.
  apply wp_bind, wp_set; [rewrite repeat_length; lia|]. apply wp_bind, wp_set; [rewrite repeat_length; lia|].
  apply wp_bind, wp_set; [rewrite repeat_length; lia|].
  replace (npts + 2 + 1) with (S (S (npts + 1))) by lia.
  change (upd (repeat (lit N 0) (S (S (npts + 1)))) 1 (fmin N a b))
    with (lit N 0 :: fmin N a b :: repeat (lit N 0) (npts + 1)).
  unfold put_points.
  assert (Epts : fold_left (fun (r : R (list FN * nat)) p => ' (pts, i) <- r ;; pts <- set pts (i + 2) p ;; Ok (pts, i + 1))
    points (Ok (lit N 0 :: fmin N a b :: repeat (lit N 0) (npts + 1), 0))
    = Ok (lit N 0 :: fmin N a b :: points ++ [lit N 0], npts)).
  { change (lit N 0 :: fmin N a b :: repeat (lit N 0) (npts + 1)) with ([lit N 0; fmin N a b] ++ repeat (lit N 0) (npts + 1)).
    pose proof (put_points_eq points [lit N 0; fmin N a b] (lit N 0) (npts + 1) ltac:(cbn; lia) ltac:(unfold npts; lia)) as Hpp.
    cbn [length Nat.sub] in Hpp. etransitivity; [exact Hpp|]. cbn [app Nat.add]. fold npts.
    replace (npts + 1 - npts) with 1 by lia. reflexivity. }
  rewrite Epts. cbn [rbind]. clear Epts.
  apply wp_bind, wp_set; [cbn [length]; rewrite app_length; cbn; fold npts; lia|].
  replace (npts + 2) with (S (S npts)) by lia.
  change (upd (lit N 0 :: fmin N a b :: points ++ [lit N 0]) (S (S npts)) (fmax N a b))
    with (lit N 0 :: fmin N a b :: upd (points ++ [lit N 0]) npts (fmax N a b)).
  assert (Eu : upd (points ++ [lit N 0]) npts (fmax N a b) = points ++ [fmax N a b]).
  { unfold npts. clear. induction points as [|x t IHt]; cbn; [reflexivity|]. now rewrite IHt. }
  rewrite Eu. clear Eu. replace (S (S npts)) with (npts + 2) by lia. fold (all_points a b points).
  change (get (lit N 0 :: all_points a b points) 1) with (Ok (E:=QuadError) (fmin N a b)). cbn [rbind].
  assert (Hal : length (all_points a b points) = npts + 2).
  { unfold all_points. cbn [length]. rewrite app_length. cbn. fold npts. lia. }
  (* the points the pieces are cut from *)
  apply wp_bind.
  apply wp_mono with (P := fun pts => exists v r, pts = lit N 0 :: v :: r /\ cut_points a b points (fmin N a b :: r)).
  { destruct (Nat.eqb_spec npts 0) as [E0|E0].
    - cbn [wp]. exists (fmin N a b), (points ++ [fmax N a b]). split; [reflexivity|]. left.
      assert (points = []) by (destruct points; [reflexivity|discriminate]). subst points. auto.
    - pose proof (sort_pts_wp (lit N 0) (all_points a b points) (npts + 1) ltac:(lia)) as Hs.
      destruct (sort_pts N (npts + 1) (lit N 0 :: all_points a b points)) as [pts'| |] eqn:Es; [|exact I|contradiction].
      destruct Hs as (xs' & -> & Hp). cbn [rbind].
      assert (Hl' : length xs' = npts + 2) by (rewrite (Permutation_length Hp); exact Hal).
      destruct xs' as [|y0 r]; [cbn [length] in Hl'; lia|].
      change (get (lit N 0 :: y0 :: r) 1) with (Ok (E:=QuadError) y0). cbn [rbind].
      apply wp_bind, wp_get; [cbn [length] in *; lia|]. intros yn Hyn.
      replace (npts + 1 + 1) with (S (npts + 1)) in Hyn by lia. cbn [nth_error] in Hyn.
      destruct (feq N y0 (fmin N a b)) eqn:E1; cbn [negb orb]; [|exact I].
      destruct (feq N yn (fmax N a b)) eqn:E2; cbn [negb]; [|exact I].
      cbn [wp]. exists y0, r. split; [reflexivity|]. right. split; [intros ->; now apply E0|].
      exists y0, r. sp; auto. exists yn. auto. }
  intros pts (v & r & -> & Hcut). pose proof (cut_points_length _ _ _ _ Hcut) as Hcl. cbn [length] in Hcl. fold npts in Hcl.
  apply wp_bind. eapply wp_mono.
  { apply first_pieces_wp with (cap := cap); cbn [al bl rl el io length]; rewrite ?upd_length, ?repeat_length; lia. }
  intros p (B1 & B2 & B3 & B4 & B5 & B6 & B7 & Hc & He & Hh & Hr).
  apply wp_bind. eapply wp_mono; [apply piece_errors_wp; lia|].
  intros [elist errsum] (Hle & es & Hes & Hen & ->).
  specialize (HT _ es Hcut Hes). fold npts in HT. rewrite <- Hr, <- Hc in HT.
  set (ps := with_err (kchain 0 (fmin N a b :: r)) es) in *.
  match goal with |- context [if ?c && flt N ?e0 ?x then 2 else 0] => set (ier0 := if c && flt N e0 x then 2 else 0) end.
  apply wp_bind.
  apply wp_mono with (P := fun io' => length io' = cap /\ entries io' (npts + 1) (npts + 1)).
  { destruct (Nat.eqb (npts + 1) 1); cbn [wp]; [auto|].
    eapply wp_mono; [apply order_pieces_wp; try lia; exact He|]. cbn beta. intros io' [H1 H2]. split; [lia|exact H2]. }
  intros io' [Hio1 Hio2].
  set (ier1 := if negb (npts + 1 =? 1) && (limit <? npts + 2) then 1 else ier0).
  match goal with |- context [if negb (ier1 =? 0) || ?c then _ else _] => destruct (negb (ier1 =? 0) || c) eqn:E end.
  - cbn [wp rbind].
    eapply (pe_early a b points _ (fmin N a b :: r) (p_abserr N p) es (if 2 <? ier1 then ier1 - 1 else ier1)).
    + exact Hcut.
    + intro Ei. assert (ier1 = 0) by (destruct (Nat.ltb_spec 2 ier1); lia). rewrite H in E. cbn [Nat.eqb negb orb] in E.
      rewrite Hr in E. exact E.
    + rewrite Hr, Hc in HT. exact HT.
    + exact Hes.
    + rewrite Hr, Hc. reflexivity.
  - apply orb_false_iff in E. destruct E as [E _]. apply negb_false_iff, Nat.eqb_eq in E.
    apply wp_bind, wp_set; [rewrite repeat_length; lia|].
    eapply wp_entry; [exact Hio2|lia|]. intros m Hm Hmb.
    apply wp_bind, wp_get; [lia|]. intros errmax Hmax. cbn [wp].
    assert (Hcap2 : npts + 2 <= limit \/ (npts = 0 /\ limit = 1)).
    { unfold ier1 in E. destruct (Nat.eqb_spec (npts + 1) 1); destruct (Nat.ltb_spec limit (npts + 2)); cbn in E; try discriminate; lia. }
    match goal with |- context [Inv N limit T A true 1 _ ?u] => set (s0 := u) end.
    assert (Hh' : holds (q_wk N s0) (npts + 1) ps) by (apply with_err_holds; assumption).
    destruct Hcap2 as [H2|H2]; [left|right].
    + split; [exact H2|].
      constructor; unfold s0, st0; sq; try lia; try reflexivity; try discriminate; try exact A0.
      * repeat split; sq; auto; lia.
      * exact Hmax.
      * pose proof (jb_ge limit (npts + 2 - 1)). lia.
      * pose proof (jb_le limit (npts + 2 - 1)).
        apply entries_mono with (J := npts + 1) (L := npts + 1); [exact Hio2|lia|lia].
      * repeat split; sq; rewrite ?upd_length, ?repeat_length; try reflexivity; lia.
      * exists ps. replace (npts + 2 - 1) with (npts + 1) by lia. split; [exact Hh'|exact HT].
    + split.
      * constructor; unfold s0, st0; sq; try lia; try (intros _; lia).
        exists ps. split; [exact Hh'|exact HT].
      * sp; auto; try lia. destruct points; [reflexivity|]. unfold npts in H2. cbn [length] in H2. lia.
Qed.

Lemma qagpe_run a b points :
  limit <= 51 + length points ->
  (forall ys es, cut_points a b points ys -> length es = length points + 1 ->
     T (with_err (kchain 0 ys) es) (total (map (p_r N) (kchain 0 ys))) (total es) (21 * (length points + 1))) ->
  wp (qagpe N f a b points epsabs epsrel limit) (qagpe_result a b points).
Proof.
  intros H51 HT. unfold qagpe. apply wp_bind. eapply wp_mono; [apply (qagpe_start_wp a b points HT)|].
  intros [o|[[s0 defabs] sgn]] H; [exact H|]. set (npts := length points) in *.
  apply wp_bind.
  apply wp_mono with (P := fun s => Done N limit T true s /\ (exit_kind N epsabs epsrel A true s \/
    (points = [] /\ limit = 1 /\ q_goto_sum N s = false /\ q_ier N s = 0 /\ q_ierro N s = 0 /\ q_abserr N s = oflow N))).
  { apply wp_for with (I := fun L s =>
      (L <= limit /\ Inv N limit T A true (L - 1 - npts) L s) \/
      (s = s0 /\ limit = 1 /\ Done N limit T true s /\ points = [] /\ q_goto_sum N s = false /\ q_ier N s = 0
         /\ q_ierro N s = 0 /\ q_abserr N s = oflow N)).
    - destruct H as [[H1 H2]|H]; [left|right; tauto]. split; [exact H1|]. now replace (npts + 2 - 1 - npts) with 1 by lia.
    - intros L s HL [[_ HI]|(_ & H1 & _)]; [|lia].
      eapply wp_mono; [apply (qagpe_body_wp N f epsabs epsrel limit T Tstep A Alt npts L s); auto; lia|].
      intros [s'|s'] H'; cbn [step_post] in H'; [|destruct H'; auto]. left. cbn [Nat.sub]. rewrite Nat.sub_0_r. exact H'.
    - intros s [[H' _]|H']; [lia|]. tauto. }
  intros s [HD HE].
  pose proof (finish_wp N f limit T Tstep A Alt true defabs sgn s HD) as HF.
  destruct (finish N defabs sgn s) as [[[v' e'] code]| |] eqn:Ef; [|exact I|contradiction].
  cbn [rbind wp]. eapply pe_loop; eauto.
Qed.

End Run.
