(** The adaptive quadrature over the reals: sums, tolerances, orientation, and the Kronrod rules. *)
From Coq Require Import List Arith Bool ZArith QArith Reals Qreals Lra Lia ZifyNat Permutation.
From Verif Require Import RustBase RustBaseFacts QuadModel QuadProofs QuadLoop QuadRun QuadSpec.
Import ListNotations.
Local Open Scope R_scope.

Definition Rsum (l : list R) : R := fold_right Rplus 0 l.
Lemma Rsum_app l1 l2 : Rsum (l1 ++ l2) = Rsum l1 + Rsum l2.
Proof. unfold Rsum. induction l1 as [|x l IH]; cbn [app fold_right]; [lra|]. rewrite IH. lra. Qed.
Lemma Rsum_perm l1 l2 : Permutation l1 l2 -> Rsum l1 = Rsum l2.
Proof. unfold Rsum. induction 1; cbn [fold_right]; lra. Qed.
Lemma total_Rsum (l : list R) : total RNum l = Rsum l.
Proof.
  unfold total. change (lit RNum 0) with (Q2R 0). change (fadd RNum) with Rplus.
  assert (H : forall x, fold_left Rplus l x = x + Rsum l).
  { induction l as [|y l IH]; intro x; cbn [fold_left Rsum fold_right]; [unfold Rsum; cbn; lra|]. rewrite IH. unfold Rsum. cbn. lra. }
  rewrite H. rewrite RMicromega.Q2R_0. lra.
Qed.

Section Reals.
Variable f : fn RNum.

Definition Ts (ps : list (piece RNum)) (area errsum : R) (_ : nat) : Prop :=
  area = Rsum (map (p_r RNum) ps) /\ errsum = Rsum (map (p_e RNum) ps).
Lemma Ts_step : forall ps i a b r e area errsum c x y,
  nth_error ps i = Some (a, b, r, e) -> Ts ps area errsum c ->
  (halves RNum f c a b = (x, y) \/ halves RNum f c a b = (y, x)) ->
  Ts (upd ps i x ++ [y])
    (fadd RNum area (fsub RNum (fadd RNum (p_r RNum (fst (halves RNum f c a b))) (p_r RNum (snd (halves RNum f c a b)))) r))
    (fadd RNum errsum (fsub RNum (fadd RNum (p_e RNum (fst (halves RNum f c a b))) (p_e RNum (snd (halves RNum f c a b)))) e))
    (42 + c).
Proof.
  intros ps i a b r e area errsum c x y Hi [H1 H2] Hxy.
  destruct (perm_upd_nil ps i _ x y Hi) as (q & P1 & P2).
  destruct (halves RNum f c a b) as [u v]. cbn [fst snd].
  change (fadd RNum) with Rplus. change (fsub RNum) with Rminus.
  pose proof (Rsum_perm _ _ (Permutation_map (p_r RNum) P1)) as R1. pose proof (Rsum_perm _ _ (Permutation_map (p_e RNum) P1)) as R2.
  pose proof (Rsum_perm _ _ (Permutation_map (p_r RNum) P2)) as R3. pose proof (Rsum_perm _ _ (Permutation_map (p_e RNum) P2)) as R4.
  assert (E1 : area = r + Rsum (map (p_r RNum) q)) by exact (eq_trans H1 R1).
  assert (E2 : errsum = e + Rsum (map (p_e RNum) q)) by exact (eq_trans H2 R2).
  assert (E3 : Rsum (map (p_r RNum) (upd ps i x ++ [y])) = p_r RNum x + (p_r RNum y + Rsum (map (p_r RNum) q))) by exact R3.
  assert (E4 : Rsum (map (p_e RNum) (upd ps i x ++ [y])) = p_e RNum x + (p_e RNum y + Rsum (map (p_e RNum) q))) by exact R4.
  clear H1 H2 R1 R2 R3 R4. change (F RNum) with R in *. unfold Ts.
  split; [refine (eq_trans _ (eq_sym E3))|refine (eq_trans _ (eq_sym E4))]; subst area errsum;
    destruct Hxy as [E|E]; injection E as <- <-; ring.
Qed.

Lemma sum_rlist_holds {N} (w : work N) L ps : holds w L ps -> sum_rlist N (rl N w) L = Ok (total N (map (p_r N) ps)).
Proof.
  intros [Hl H]. unfold sum_rlist, for_range. replace (S L - 1)%nat with L by lia.
  unfold total. generalize (lit N 0) as x.
  assert (Hg : forall k, (k <= L)%nat -> forall x,
    loop k (S (L - k)) (fun (k0 : nat) (r : F N) => v <- get (rl N w) k0;; Ok (Cont (fadd N r v))) x
    = Ok (E := QuadError) (fold_left (fadd N) (map (p_r N) (skipn (L - k) ps)) x)).
  { induction k as [|k IH]; intros Hk x.
    - rewrite Nat.sub_0_r. rewrite <- Hl at 2. rewrite skipn_all. reflexivity.
    - cbn [loop]. assert (Hlt : (L - S k < L)%nat) by lia. specialize (H _ Hlt).
      destruct (nth_error ps (L - S k)) as [[[[a b] r] e]|] eqn:Ep.
      2:{ apply nth_error_None in Ep. lia. }
      unfold at_ in H. destruct (nth_error (al N w) (S (L - S k))); [|discriminate].
      destruct (nth_error (bl N w) (S (L - S k))); [|discriminate].
      destruct (nth_error (rl N w) (S (L - S k))) as [r'|] eqn:Er; [|discriminate].
      destruct (nth_error (el N w) (S (L - S k))); [|discriminate]. injection H as _ _ Hr _. subst r'.
      unfold get. rewrite Er. cbn [rbind]. replace (S (S (L - S k))) with (S (L - k)) by lia.
      rewrite IH by lia.
      assert (Es : skipn (L - S k) ps = (a, b, r, e) :: skipn (L - k) ps).
      { replace (L - k)%nat with (S (L - S k)) by lia. revert Ep. generalize (L - S k)%nat. clear.
        induction ps as [|h t IHt]; intros [|n] E; cbn in *; try discriminate; [now inversion E|]. apply IHt. exact E. }
      rewrite Es. reflexivity. }
  intro x. specialize (Hg L (le_n L) x). rewrite Nat.sub_diag in Hg. exact Hg.
Qed.

(** How a result with code 0 comes about. *)
Lemma finish_ok {N} d g (s : st N) v e : finish N d g s = Ok (v, e, 0%nat) ->
  (sum_rlist N (rl N (q_wk N s)) (q_last N s) = Ok v /\ e = q_errsum N s /\ q_ier N s = 0%nat
     /\ (q_goto_sum N s = true \/ feq N (q_abserr N s) (oflow N) = true))
  \/ (q_goto_sum N s = false /\ v = q_result N s /\ e = q_abserr N s /\ q_ier N s = 0%nat).
Proof.
  unfold finish. intro H.
  assert (Hc : forall n : nat, (if (2 <? n)%nat then (n - 1)%nat else n) = 0%nat -> n = 0%nat).
  { intros n. destruct (Nat.ltb_spec 2 n); lia. }
  destruct (q_goto_sum N s).
  { left. destruct (sum_rlist N (rl N (q_wk N s)) (q_last N s)) as [r| |]; cbn [rbind] in H; try discriminate.
    injection H as -> -> Hn. apply Hc in Hn. auto. }
  destruct (feq N (q_abserr N s) (oflow N)).
  { left. destruct (sum_rlist N (rl N (q_wk N s)) (q_last N s)) as [r| |]; cbn [rbind] in H; try discriminate.
    injection H as -> -> Hn. apply Hc in Hn. auto. }
  right. split; [reflexivity|].
  destruct (Nat.eqb_spec (q_ier N s + q_ierro N s) 0) as [E0|E0].
  { destruct (g && _); injection H; intros; subst; repeat split; try reflexivity; lia. }
  exfalso.
  set (ier := if (q_ier N s =? 0)%nat then 3%nat else q_ier N s) in *.
  assert (Hier : ier <> 0%nat) by (unfold ier; destruct (Nat.eqb_spec (q_ier N s) 0); lia).
  assert (Hc' : forall b : bool, (if (2 <? (if b then 6 else ier))%nat then ((if b then 6 else ier) - 1)%nat else (if b then 6 else ier))%nat <> 0%nat).
  { intro b. intro E. apply Hc in E. destruct b; lia. }
  pose proof (Hc' false) as Hf. cbn iota in Hf.
  repeat match type of H with
  | rbind (sum_rlist N ?u ?w) _ = _ => destruct (sum_rlist N u w) as [r| |]; cbn [rbind] in H; try discriminate
  | Ok _ = Ok _ => injection H as _ _ Hn; (apply Hf in Hn || (eapply Hc' in Hn)); contradiction
  | (if ?c then _ else _) = _ => destruct c
  | (let a := _ in _) = _ => cbn zeta in H
  end.
Qed.

Lemma tolerance_ok (epsabs epsrel v : R) :
  tolerance_bad RNum epsabs epsrel = false -> 0 <= Rmax epsabs (epsrel * Rabs v).
Proof.
  unfold tolerance_bad. intro H. apply andb_false_iff in H. destruct H as [H|H].
  - apply Rfle_false in H. change (lit RNum 0) with (Q2R 0) in H. rewrite RMicromega.Q2R_0 in H.
    eapply Rle_trans; [|apply Rmax_l]. lra.
  - apply Rflt_false in H. eapply Rle_trans; [|apply Rmax_r]. apply Rmult_le_pos; [|apply Rabs_pos].
    eapply Rle_trans; [|exact H]. change (fmax RNum) with Rmax. eapply Rle_trans; [|apply Rmax_r].
    change (lit RNum) with Q2R. rewrite <- RMicromega.Q2R_0. apply Qle_Rle. vm_compute. discriminate.
Qed.

Lemma from_code_ok c : from_code c = IerOk -> c = 0%nat.
Proof. do 6 (destruct c as [|c]; [try reflexivity; discriminate|]). discriminate. Qed.

Definition below_oflow (x : R) : Prop := x <= oflow RNum.
Lemma below_lt x y : below_oflow x -> flt RNum y x = true -> below_oflow y.
Proof. unfold below_oflow. intros H E. apply Rflt_true in E. change (F RNum) with R in *. lra. Qed.

Lemma exit_ok (epsabs epsrel : R) strict s ps d g v e :
  holds (q_wk RNum s) (q_last RNum s) ps -> Ts ps (q_area RNum s) (q_errsum RNum s) (q_cnt RNum s) ->
  exit_kind RNum epsabs epsrel below_oflow strict s -> finish RNum d g s = Ok (v, e, 0%nat) ->
  e <= Rmax epsabs (epsrel * Rabs v).
Proof.
  intros Hh [Ha He] Hx Hf. apply finish_ok in Hf. change (F RNum) with R in *.
  destruct Hx as [Hg Hsum Hb|Hg Hi|x Hg Ax Hlt Ht Hb].
  - destruct Hf as [(Hs & -> & _)|(Hg' & _)]; [|congruence].
    rewrite (sum_rlist_holds _ _ _ Hh) in Hs. injection Hs as <-. rewrite total_Rsum, <- Ha.
    apply Rfle_true in Hsum. rewrite Hb in Hsum. exact Hsum.
  - destruct Hf as [(_ & _ & H & _)|(_ & _ & _ & H)]; contradiction.
  - destruct Hf as [(_ & _ & _ & [H|H])|(_ & -> & -> & _)].
    + congruence.
    + apply Rfeq_true in H. apply Rflt_true in Hlt. unfold below_oflow in Ax. change (F RNum) with R in *. rewrite H in Hlt. lra.
    + assert (Hle : q_abserr RNum s <= q_ertest RNum s).
      { destruct strict; [apply Rflt_true in Ht; change (F RNum) with R in *; lra|apply Rfle_true in Ht; exact Ht]. }
      rewrite Hb in Hle. exact Hle.
Qed.

Lemma qagse_tolerance a b epsabs epsrel limit o :
  (limit <= 51)%nat -> qagse RNum f a b epsabs epsrel limit = Ok o -> o_ier RNum o = IerOk ->
  o_abserr RNum o <= Rmax epsabs (epsrel * Rabs (o_value RNum o)).
Proof.
  intros H E Hok.
  assert (T0 : Ts [kpiece RNum f 0 a b] (k_result RNum (krule RNum f 0 a b)) (k_abserr RNum (krule RNum f 0 a b)) 21).
  { unfold Ts, kpiece. cbn [map Rsum fold_right p_r p_e]. change (F RNum) with R in *. split; apply (eq_sym (Rplus_0_r _)). }
  pose proof (qagse_run RNum f epsabs epsrel limit Ts Ts_step below_oflow (Rle_refl _) below_lt a b H T0) as W.
  rewrite E in W. cbn [wp] in W. destruct W as [ier k bound Hi Htol _ ->|s v e ier d g HD HE Hf ->]; cbn [o_ier o_abserr o_value] in *.
  - apply from_code_ok in Hok. destruct (Hi Hok) as [_ [Hle|He]].
    + apply Rfle_true in Hle. exact Hle.
    + apply Rfeq_true in He. change (F RNum) with R in *. rewrite He.
      change (lit RNum 0) with (Q2R 0). rewrite RMicromega.Q2R_0. now apply tolerance_ok.
  - apply from_code_ok in Hok. subst ier. destruct HD as [_ _ _ (ps & Hh & HT)].
    eapply exit_ok; eauto.
Qed.

Lemma qagpe_tolerance a b points epsabs epsrel limit o :
  (limit <= 51 + length points)%nat -> (points <> [] \/ 2 <= limit)%nat ->
  qagpe RNum f a b points epsabs epsrel limit = Ok o -> o_ier RNum o = IerOk ->
  o_abserr RNum o <= Rmax epsabs (epsrel * Rabs (o_value RNum o)).
Proof.
  intros H H2 E Hok.
  assert (T0 : forall ys es, cut_points RNum a b points ys -> length es = (length points + 1)%nat ->
     Ts (with_err RNum (kchain RNum f 0 ys) es) (total RNum (map (p_r RNum) (kchain RNum f 0 ys))) (total RNum es) (21 * (length points + 1))).
  { intros ys es Hc He. assert (Hl : length es = length (kchain RNum f 0 ys)).
    { rewrite kchain_length, (cut_points_length _ _ _ _ _ Hc), He. lia. }
    unfold Ts. rewrite with_err_r, with_err_e by exact Hl. rewrite !total_Rsum. auto. }
  pose proof (qagpe_run RNum f epsabs epsrel limit Ts Ts_step below_oflow (Rle_refl _) below_lt a b points H T0) as W.
  assert (Hs : forall v, Rabs (fmul RNum v (if flt RNum b a then fneg RNum (lit RNum 1) else lit RNum 1)) = Rabs v).
  { intro v. change (fmul RNum) with Rmult. rewrite Rabs_mult. change (lit RNum 1) with (Q2R 1). change (fneg RNum (Q2R 1)) with (- Q2R 1)%R. rewrite RMicromega.Q2R_1.
    destruct (flt RNum b a); [rewrite (Rabs_Ropp 1)|]; rewrite Rabs_R1; apply Rmult_1_r. }
  rewrite E in W. cbn [wp] in W. destruct W as [ys e es ier ps v _ Hi _ _ ->|s v e ier d g HD HE Hf ->]; cbn [o_ier o_abserr o_value] in *.
  - apply from_code_ok in Hok. specialize (Hi Hok). apply Rfle_true in Hi. rewrite Hs. exact Hi.
  - apply from_code_ok in Hok. subst ier. destruct HD as [_ _ _ (ps & Hh & HT)].
    destruct HE as [HE|(Hp & Hl & _)]; [|destruct H2; [contradiction|lia]].
    rewrite Hs. eapply exit_ok; eauto.
Qed.

Lemma quad_tolerance a b (o : opts RNum) r :
  (limit_ RNum o <= 51)%nat -> (points_ RNum o = None \/ 2 <= limit_ RNum o)%nat ->
  quad RNum f a b o = Ok r -> o_ier RNum r = IerOk ->
  o_abserr RNum r <= Rmax (epsabs_ RNum o) (epsrel_ RNum o * Rabs (o_value RNum r)).
Proof.
  intros Hl Hp E Hok. unfold quad in E. destruct (feq RNum a b).
  { injection E as <-. cbn [o_abserr o_value] in *. change (lit RNum 0) with (Q2R 0). rewrite RMicromega.Q2R_0, Rabs_R0.
    eapply Rle_trans; [|apply Rmax_r]. change (F RNum) with R in *. rewrite Rmult_0_r. apply Rle_refl. }
  set (lo := if flt RNum b a then b else a) in E. set (hi := if flt RNum b a then a else b) in E.
  assert (K : forall x, (match points_ RNum o with
        | None => qagse RNum f lo hi (epsabs_ RNum o) (epsrel_ RNum o) (limit_ RNum o)
        | Some p => qagpe RNum f lo hi (filter_points RNum p lo hi) (epsabs_ RNum o) (epsrel_ RNum o) (limit_ RNum o)
        end) = Ok x -> o_ier RNum x = IerOk ->
      o_abserr RNum x <= Rmax (epsabs_ RNum o) (epsrel_ RNum o * Rabs (o_value RNum x))).
  { intros x Ex Hx. destruct (points_ RNum o) as [p|].
    - eapply qagpe_tolerance; [| |exact Ex|exact Hx]; [lia|].
      destruct Hp as [Hp|Hp]; [discriminate|now right].
    - eapply qagse_tolerance; eauto. }
  match type of E with rbind ?rx _ = _ => destruct rx as [x| |] eqn:Ex end; cbn [rbind] in E; try discriminate.
  destruct (flt RNum b a); injection E as <-; cbn [o_ier o_abserr o_value] in *.
  - change (fneg RNum (o_value RNum x)) with (- o_value RNum x). rewrite Rabs_Ropp. now apply K.
  - now apply K.
Qed.

(** ** Orientation *)
Definition negated (r : rr QuadError (outcome RNum)) : rr QuadError (outcome RNum) :=
  match r with
  | Ok o => Ok (Outcome RNum (- o_value RNum o) (o_abserr RNum o) (o_neval RNum o) (o_last RNum o) (o_ier RNum o) (o_calls RNum o))
  | r => r
  end.
Lemma quad_reverse a b o : a <> b -> quad RNum f b a o = negated (quad RNum f a b o).
Proof.
  intro Hab. unfold quad.
  assert (E1 : feq RNum a b = false) by now apply Rfeq_false.
  assert (E2 : feq RNum b a = false) by (apply Rfeq_false; intro; now apply Hab).
  rewrite E1, E2. change (F RNum) with R in *.
  destruct (Rlt_dec a b) as [H|H].
  - assert (L1 : flt RNum a b = true) by now apply Rflt_true.
    assert (L2 : flt RNum b a = false) by (apply Rflt_false; change (F RNum) with R in *; lra).
    rewrite L1, L2. match goal with |- rbind ?r _ = _ => destruct r as [x| |] end; reflexivity.
  - assert (L1 : flt RNum a b = false) by (apply Rflt_false; change (F RNum) with R in *; lra).
    assert (L2 : flt RNum b a = true) by (apply Rflt_true; change (F RNum) with R in *; lra).
    rewrite L1, L2. match goal with |- rbind ?r _ = _ => destruct r as [x| |] end; try reflexivity.
    cbn [rbind negated]. destruct x as [v e n l i c]. cbn [o_value o_abserr o_neval o_last o_ier o_calls].
    change (fneg RNum v) with (- v). now rewrite Ropp_involutive.
Qed.

End Reals.
