(** Specification vocabulary and theorems about whole runs of the adaptive quadrature. *)
From Coq Require Import List Arith Bool ZArith QArith Reals Qreals Lra Lia ZifyNat Permutation.
From Verif Require Import RustBase RustBaseFacts QuadModel QuadProofs QuadLoop QuadRun.
Import ListNotations.
Local Open Scope nat_scope.
Ltac Zify.zify_post_hook ::= Z.to_euclidean_division_equations.

(** ** Tilings *)
(** Consecutive intervals from [x] to [y]. *)
Fixpoint chain {N} (x y : F N) (l : list (piece N)) : Prop :=
  match l with
  | [] => x = y
  | (a, b, _, _) :: r => a = x /\ chain b y r
  end.
(** In some order, the intervals lead from [x] to [y] without gap or overlap. *)
Definition tiles {N} (x y : F N) (l : list (piece N)) : Prop := exists c, Permutation l c /\ chain x y c.
(** Every stored integral is the 21-point rule on that interval. *)
Definition ruled {N} (f : fn N) (l : list (piece N)) : Prop :=
  Forall (fun p => match p with (a, b, r, _) => exists c k n, qk21 N f c a b = Ok (k, n) /\ r = k_result N k end) l.
Definition left_end {N} (p : piece N) : F N := match p with (a, _, _, _) => a end.

Lemma chain_app {N} (l1 : list (piece N)) : forall l2 x y, chain x y (l1 ++ l2) <-> exists z, chain x z l1 /\ chain z y l2.
Proof.
  induction l1 as [|[[[a b] r] e] l1 IH]; intros l2 x y; cbn [app chain].
  - split; [eauto|]. intros (z & -> & H). exact H.
  - rewrite IH. split.
    + intros (H & z & H1 & H2). eauto.
    + intros (z & (H & H1) & H2). eauto.
Qed.

Lemma perm_upd {X} (ps : list X) i p x : nth_error ps i = Some p ->
  forall l1 l2, Permutation ps (l1 ++ p :: l2) -> Permutation (upd ps i x) (x :: l1 ++ l2).
Proof.
  intros Hi l1 l2 Hp. pose proof (upd_perm1 ps i x p Hi) as H.
  apply Permutation_cons_inv with (a := p). rewrite H, Hp.
  rewrite <- Permutation_middle. apply perm_swap.
Qed.

Lemma krule_ok {N} (f : fn N) c a b : qk21 N f c a b = Ok (krule N f c a b, 21 + c).
Proof. apply qk21_eq. Qed.

Lemma tiles_step {N} (f : fn N) lo hi (ps : list (piece N)) i a b r e c x y :
  nth_error ps i = Some (a, b, r, e) -> tiles lo hi ps ->
  (halves N f c a b = (x, y) \/ halves N f c a b = (y, x)) ->
  tiles lo hi (upd ps i x ++ [y]).
Proof.
  intros Hi (cs & Hp & Hc) Hxy.
  assert (Hin : In (a, b, r, e) cs) by (eapply Permutation_in; [exact Hp|]; eapply nth_error_In; eauto).
  apply in_split in Hin. destruct Hin as (l1 & l2 & ->).
  pose proof (perm_upd ps i _ x Hi l1 l2 Hp) as Hu.
  apply chain_app in Hc. destruct Hc as (z & H1 & H2). cbn [chain] in H2. destruct H2 as [<- H2].
  exists (l1 ++ fst (halves N f c a b) :: snd (halves N f c a b) :: l2). split.
  - rewrite Hu. rewrite <- Permutation_cons_append. rewrite <- !Permutation_middle.
    destruct Hxy as [E|E]; rewrite E; cbn [fst snd]; [apply perm_swap|reflexivity].
  - apply chain_app. exists a. split; [exact H1|]. cbn. auto.
Qed.
Lemma Forall_upd {X} (P : X -> Prop) (l : list X) : forall i x, Forall P l -> P x -> Forall P (upd l i x).
Proof.
  induction l as [|h t IH]; intros [|i] x H Hx; cbn [upd]; auto; inversion H; subst; constructor; auto.
Qed.
Lemma ruled_step {N} (f : fn N) (ps : list (piece N)) i c a b x y :
  ruled f ps -> (halves N f c a b = (x, y) \/ halves N f c a b = (y, x)) -> ruled f (upd ps i x ++ [y]).
Proof.
  intros H Hxy.
  assert (Hk : forall c u v, (fun p : piece N => match p with (a, b, r, _) => exists c k n, qk21 N f c a b = Ok (k, n) /\ r = k_result N k end)
             (kpiece N f c u v)).
  { intros c0 u v. exists c0, (krule N f c0 u v), (21 + c0). split; [apply krule_ok|reflexivity]. }
  assert (Hx : (fun p : piece N => match p with (a, b, r, _) => exists c k n, qk21 N f c a b = Ok (k, n) /\ r = k_result N k end) x
            /\ (fun p : piece N => match p with (a, b, r, _) => exists c k n, qk21 N f c a b = Ok (k, n) /\ r = k_result N k end) y).
  { destruct Hxy as [E|E]; inversion E; subst; split; apply Hk. }
  apply Forall_app. split; [apply Forall_upd; [exact H|apply Hx]|]. constructor; [apply Hx|constructor].
Qed.
Lemma lefts_step {N} (f : fn N) (L : list (F N)) (ps : list (piece N)) i a b r e c x y :
  nth_error ps i = Some (a, b, r, e) -> incl L (map left_end ps) ->
  (halves N f c a b = (x, y) \/ halves N f c a b = (y, x)) ->
  incl L (map left_end (upd ps i x ++ [y])).
Proof.
  intros Hi H Hxy z Hz. specialize (H z Hz). apply in_map_iff in H. destruct H as (p & Ep & Hp).
  rewrite map_app. apply in_or_app.
  assert (Hz' : z = a \/ In z (map left_end (upd ps i x))).
  { apply In_nth_error in Hp. destruct Hp as (j & Hj). destruct (Nat.eq_dec i j) as [<-|Hij].
    - left. rewrite Hi in Hj. inversion Hj; subst p. now cbn in Ep.
    - right. apply in_map_iff. exists p. split; [exact Ep|]. apply nth_error_In with (n := j).
      rewrite nth_upd. destruct (Nat.eqb_spec i j); [contradiction|exact Hj]. }
  destruct Hz' as [->|Hz']; [|auto].
  assert (Hl : i < length ps) by (apply nth_error_Some; congruence).
  destruct Hxy as [E|E]; inversion E; subst.
  - left. apply in_map_iff. eexists. split; [|apply nth_error_In with (n := i); apply nth_upd_hit; exact Hl]. reflexivity.
  - right. left. reflexivity.
Qed.

Lemma upd_app_length {X} (l : list X) i x y : length (upd l i x ++ [y]) = S (length l).
Proof. rewrite app_length, upd_length. cbn. lia. Qed.

Lemma perm_upd_nil {X} (l : list X) i p x y : nth_error l i = Some p ->
  exists r, Permutation l (p :: r) /\ Permutation (upd l i x ++ [y]) (x :: y :: r).
Proof.
  intro H. pose proof (nth_error_In _ _ H) as Hin. apply in_split in Hin. destruct Hin as (l1 & l2 & El).
  exists (l1 ++ l2). split.
  - rewrite El. symmetry. apply Permutation_middle.
  - rewrite <- Permutation_cons_append. rewrite (perm_upd l i p x H l1 l2) by (rewrite El; reflexivity).
    apply perm_swap.
Qed.

Lemma nth_last {X} (l : list X) d : forall n y, length l = S n -> nth_error l n = Some y -> y = last l d.
Proof.
  induction l as [|x [|z t] IH]; intros n y HS E; try discriminate.
  - destruct n; [now inversion E|discriminate].
  - destruct n as [|n]; [discriminate|]. cbn [nth_error] in E. change (last (x :: z :: t) d) with (last (z :: t) d).
    apply IH with (n := n); [cbn in *; lia|exact E].
Qed.

(** The intervals stored in a state. *)
Definition stored {N} (s : st N) (ps : list (piece N)) : Prop := holds (q_wk N s) (q_last N s) ps.

(** ** States of the main loops *)
(** [Some i]: about to run iteration [i]; [None]: the loop has been left. *)
Inductive qagse_state {N} (f : fn N) (a b epsabs epsrel : F N) (limit : nat) : option nat -> st N -> Prop :=
| se_start s d g : qagse_start N f a b epsabs epsrel limit = Ok (inr (s, d, g)) ->
    qagse_state f a b epsabs epsrel limit (Some 2) s
| se_next i s s' : qagse_state f a b epsabs epsrel limit (Some i) s -> i <= limit ->
    qagse_body N f a b epsabs epsrel limit i s = Ok (Cont s') ->
    qagse_state f a b epsabs epsrel limit (Some (S i)) s'
| se_exit i s s' : qagse_state f a b epsabs epsrel limit (Some i) s -> i <= limit ->
    qagse_body N f a b epsabs epsrel limit i s = Ok (Brk s') ->
    qagse_state f a b epsabs epsrel limit None s'.
Inductive qagpe_state {N} (f : fn N) (a b : F N) (points : list (F N)) (epsabs epsrel : F N) (limit : nat) : option nat -> st N -> Prop :=
| pe_start s d g : qagpe_start N f a b points epsabs epsrel limit = Ok (inr (s, d, g)) ->
    qagpe_state f a b points epsabs epsrel limit (Some (length points + 2)) s
| pe_next i s s' : qagpe_state f a b points epsabs epsrel limit (Some i) s -> i <= limit ->
    qagpe_body N f epsabs epsrel limit i s = Ok (Cont s') ->
    qagpe_state f a b points epsabs epsrel limit (Some (S i)) s'
| pe_exit i s s' : qagpe_state f a b points epsabs epsrel limit (Some i) s -> i <= limit ->
    qagpe_body N f epsabs epsrel limit i s = Ok (Brk s') ->
    qagpe_state f a b points epsabs epsrel limit None s'.

Section Any.
Context {N : Num}.
Variable f : fn N.

(** [n0] pieces at the start, then two rules of 21 points for each new interval. *)
Definition Tt (lo hi : F N) (L : list (F N)) (n0 : nat) (ps : list (piece N)) (_ _ : F N) (c : nat) : Prop :=
  tiles lo hi ps /\ ruled f ps /\ incl L (map left_end ps) /\ n0 <= length ps /\ c + 21 * n0 = 42 * length ps.
Lemma Tt_step lo hi L n0 : forall ps i a b r e area errsum c x y,
  nth_error ps i = Some (a, b, r, e) -> Tt lo hi L n0 ps area errsum c ->
  (halves N f c a b = (x, y) \/ halves N f c a b = (y, x)) ->
  forall area' errsum', Tt lo hi L n0 (upd ps i x ++ [y]) area' errsum' (42 + c).
Proof.
  intros ps i a b r e area errsum c x y Hi (H1 & H2 & H3 & H4 & H5) Hxy area' errsum'. repeat split.
  - eapply tiles_step; eauto.
  - eapply ruled_step; eauto.
  - eapply lefts_step; eauto.
  - rewrite upd_app_length. lia.
  - rewrite upd_app_length. lia.
Qed.

Definition always (_ : F N) : Prop := True.

Lemma qagse_state_inv a b epsabs epsrel limit o s :
  limit <= 51 -> qagse_state f a b epsabs epsrel limit o s ->
  exists ps, stored s ps /\ tiles a b ps /\ ruled f ps /\ length ps <= limit /\ q_last N s = length ps
    /\ q_cnt N s + 21 = 42 * length ps /\ match o with Some i => S (length ps) = i | None => True end.
Proof.
  intros H51 Hs. set (T := Tt a b [] 1).
  assert (Ts := fun ps i x y r e ar es c u v H1 H2 H3 => Tt_step a b [] 1 ps i x y r e ar es c u v H1 H2 H3
     (fadd N ar (fsub N (fadd N (p_r N (fst (halves N f c x y))) (p_r N (snd (halves N f c x y)))) r))
     (fadd N es (fsub N (fadd N (p_e N (fst (halves N f c x y))) (p_e N (snd (halves N f c x y)))) e))).
  change (forall ps i x y r e ar es c u v, nth_error ps i = Some (x, y, r, e) -> T ps ar es c ->
    (halves N f c x y = (u, v) \/ halves N f c x y = (v, u)) ->
    T (upd ps i u ++ [v])
     (fadd N ar (fsub N (fadd N (p_r N (fst (halves N f c x y))) (p_r N (snd (halves N f c x y)))) r))
     (fadd N es (fsub N (fadd N (p_e N (fst (halves N f c x y))) (p_e N (snd (halves N f c x y)))) e)) (42 + c)) in Ts.
  assert (HI : match o with
    | Some i => i - 1 <= limit /\ (i <= limit -> Inv N limit T always false (Nat.max 2 (i - 1)) i s)
                /\ 2 <= i /\ tracked N T s (i - 1) /\ q_last N s = i - 1
    | None => Done N limit T false s end).
  { assert (T0 : T [kpiece N f 0 a b] (k_result N (krule N f 0 a b)) (k_abserr N (krule N f 0 a b)) 21).
    { repeat split.
      - exists [kpiece N f 0 a b]. split; [reflexivity|]. cbn. auto.
      - constructor; [|constructor]. exists 0, (krule N f 0 a b), (21 + 0). split; [apply krule_ok|reflexivity].
      - intros z [].
      - cbn [length]. lia. }
    induction Hs as [s d g Hst|i s s' Hs IH Hi Hb|i s s' Hs IH Hi Hb].
    - pose proof (qagse_start_wp N f epsabs epsrel limit T Ts always I (fun _ _ _ _ => I) a b T0) as H.
      rewrite Hst in H. cbn [wp] in H. destruct H as [H1 H2]. split; [lia|].
      split; [auto|]. split; [lia|]. split; [apply (i_T _ _ _ _ _ _ _ _ H2)|apply (i_last _ _ _ _ _ _ _ _ H2)].
    - destruct IH as (_ & HI & H2 & _). specialize (HI Hi).
      pose proof (qagse_body_wp N f epsabs epsrel limit T Ts always (fun _ _ _ _ => I) a b i s (conj H2 Hi) H51 HI) as H.
      rewrite Hb in H. cbn [wp step_post] in H. destruct H as [H3 H4].
      cbn [Nat.sub]. rewrite Nat.sub_0_r. split; [lia|]. split; [auto|]. split; [lia|].
      pose proof (i_T _ _ _ _ _ _ _ _ H4) as H5. pose proof (i_last _ _ _ _ _ _ _ _ H4) as H6.
      cbn [Nat.sub] in H5, H6. rewrite Nat.sub_0_r in H5, H6. auto.
    - destruct IH as (_ & HI & H2 & _). specialize (HI Hi).
      pose proof (qagse_body_wp N f epsabs epsrel limit T Ts always (fun _ _ _ _ => I) a b i s (conj H2 Hi) H51 HI) as H.
      rewrite Hb in H. cbn [wp step_post] in H. apply H. }
  assert (HT : exists L, tracked N T s L /\ q_last N s = L /\ L <= limit /\ match o with Some i => S L = i | None => True end).
  { destruct o as [i|].
    - destruct HI as (H1 & _ & H2 & H3 & H4). exists (i - 1). repeat split; auto; lia.
    - exists (q_last N s). split; [apply HI|]. split; [reflexivity|]. split; [apply HI|exact I]. }
  destruct HT as (L & (ps & Hh & H1 & H2 & _ & _ & H3) & EL & HL & Ho). exists ps. unfold stored. rewrite EL.
  pose proof (proj1 Hh) as El. rewrite El.
  split; [exact Hh|]. split; [exact H1|]. split; [exact H2|]. split; [exact HL|]. split; [reflexivity|].
  split; [lia|exact Ho].
Qed.


Lemma kchain_chain xs : forall c x y r, xs = x :: r -> y = last xs x -> chain x y (kchain N f c xs).
Proof.
  induction xs as [|x0 [|y0 r0] IH]; intros c x y r E Ey; inversion E; subst.
  - reflexivity.
  - change (kchain N f c (x :: y0 :: r0)) with (kpiece N f c x y0 :: kchain N f (21 + c) (y0 :: r0)).
    cbn [chain kpiece]. split; [reflexivity|]. apply IH with (r := r0); [reflexivity|].
    clear. cbn [last]. destruct r0 as [|z t]; [reflexivity|]. revert z. induction t; intro z; [reflexivity|apply IHt].
Qed.
Lemma with_err_nth ps es k : nth_error (with_err N ps es) k = match nth_error ps k, nth_error es k with
        | Some (x, y, r, _), Some e => Some (x, y, r, e) | _, _ => None end.
Proof.
  unfold with_err. revert es k. induction ps as [|[[[x y] r] e] ps IH]; intros es k; destruct k; destruct es; cbn; auto.
  now destruct (nth_error ps k) as [[[[? ?] ?] ?]|].
Qed.
Lemma with_err_chain ps : forall es x y, length es = length ps -> chain x y ps -> chain x y (with_err N ps es).
Proof.
  induction ps as [|[[[a b] r] e] ps IH]; intros es x y Hl H; destruct es as [|e' es]; try discriminate; [exact H|].
  cbn [chain] in H. destruct H as [-> H]. change (with_err N ((x, b, r, e) :: ps) (e' :: es)) with ((x, b, r, e') :: with_err N ps es).
  split; [reflexivity|]. apply IH; [now inversion Hl|exact H].
Qed.
Lemma with_err_ruled ps es : ruled f ps -> ruled f (with_err N ps es).
Proof.
  unfold with_err. revert es. induction ps as [|[[[a b] r] e] ps IH]; intros es H; destruct es as [|e' es]; try constructor.
  - inversion H; subst. assumption.
  - inversion H; subst. now apply IH.
Qed.
Lemma with_err_left ps : forall es, length es = length ps -> map left_end (with_err N ps es) = map left_end ps.
Proof.
  induction ps as [|[[[a b] r] e] ps IH]; intros es Hl; destruct es as [|e' es]; try discriminate; [reflexivity|].
  cbn. f_equal. apply IH. now inversion Hl.
Qed.
Lemma with_err_length ps es : length es = length ps -> length (with_err N ps es) = length ps.
Proof. intro H. unfold with_err. rewrite map_length, combine_length. lia. Qed.
Lemma with_err_r ps : forall es, length es = length ps -> map (p_r N) (with_err N ps es) = map (p_r N) ps.
Proof.
  induction ps as [|[[[a b] r] e] ps IH]; intros es Hl; destruct es as [|e' es]; try discriminate; [reflexivity|].
  cbn. f_equal. apply IH. now inversion Hl.
Qed.
Lemma with_err_e ps : forall es, length es = length ps -> map (p_e N) (with_err N ps es) = es.
Proof.
  induction ps as [|[[[a b] r] e] ps IH]; intros es Hl; destruct es as [|e' es]; try discriminate; [reflexivity|].
  cbn. f_equal. apply IH. now inversion Hl.
Qed.
Lemma kchain_ruled xs : forall c, ruled f (kchain N f c xs).
Proof.
  induction xs as [|x0 [|y0 r0] IH]; intro c; try constructor.
  - exists c, (krule N f c x0 y0), (21 + c). split; [apply krule_ok|reflexivity].
  - apply IH.
Qed.
Lemma kchain_left xs : forall c, map left_end (kchain N f c xs) = removelast xs.
Proof.
  induction xs as [|x0 [|y0 r0] IH]; intro c; try reflexivity.
  change (kchain N f c (x0 :: y0 :: r0)) with (kpiece N f c x0 y0 :: kchain N f (21 + c) (y0 :: r0)).
  cbn [map]. rewrite IH. reflexivity.
Qed.

(** The end of the list of cut points equals the right end of the interval as the code compares them. *)
Lemma cut_points_ends a b points ys : cut_points N a b points ys ->
  exists r yn, ys = fmin N a b :: r /\ yn = last ys (fmin N a b)
    /\ ((points = [] /\ yn = fmax N a b) \/ feq N yn (fmax N a b) = true).
Proof.
  intro H. pose proof (cut_points_length _ _ _ _ _ H) as Hl. destruct H as [[-> ->]|(Hne & y0 & r & _ & _ & (yn & Hn & Hf) & _ & ->)].
  - exists [fmax N a b], (fmax N a b). cbn. auto.
  - exists r, yn. split; [reflexivity|]. split; [|auto].
    destruct r as [|z t] eqn:Er; [cbn [length] in Hl; lia|].
    rewrite <- Er in *. assert (E : nth_error (fmin N a b :: r) (length points + 1) = Some yn).
    { replace (length points + 1) with (S (length points)) in * by lia. exact Hn. }
    apply (nth_last (fmin N a b :: r) _ (length points + 1)); [lia|exact E].
Qed.

Lemma qagpe_T0 a b points ys es :
  cut_points N a b points ys -> length es = length points + 1 ->
  Tt (fmin N a b) (last ys (fmin N a b)) (removelast ys) (length points + 1)
     (with_err N (kchain N f 0 ys) es) (total N (map (p_r N) (kchain N f 0 ys))) (total N es) (21 * (length points + 1)).
Proof.
  intros H He. pose proof (cut_points_length _ _ _ _ _ H) as Hl.
  destruct (cut_points_ends _ _ _ _ H) as (r & yn & -> & Ey & _).
  assert (Hk : length (kchain N f 0 (fmin N a b :: r)) = length points + 1) by (rewrite kchain_length; lia).
  assert (Hw : length es = length (kchain N f 0 (fmin N a b :: r))) by lia.
  unfold Tt. split; [|split; [|split]].
  - eexists. split; [reflexivity|]. apply with_err_chain; [exact Hw|]. eapply kchain_chain; reflexivity.
  - apply with_err_ruled, kchain_ruled.
  - rewrite with_err_left, kchain_left by exact Hw. apply incl_refl.
  - rewrite with_err_length by exact Hw. lia.
Qed.

Lemma Tt_step' lo hi L n0 : forall ps i a b r e area errsum c x y,
  nth_error ps i = Some (a, b, r, e) -> Tt lo hi L n0 ps area errsum c ->
  (halves N f c a b = (x, y) \/ halves N f c a b = (y, x)) ->
  Tt lo hi L n0 (upd ps i x ++ [y])
    (fadd N area (fsub N (fadd N (p_r N (fst (halves N f c a b))) (p_r N (snd (halves N f c a b)))) r))
    (fadd N errsum (fsub N (fadd N (p_e N (fst (halves N f c a b))) (p_e N (snd (halves N f c a b)))) e))
    (42 + c).
Proof. intros. eapply Tt_step; eauto. Qed.

(** ** No panic *)
Lemma qagse_no_panic a b epsabs epsrel limit : limit <= 51 -> qagse N f a b epsabs epsrel limit <> Panic.
Proof.
  intro H. eapply wp_no_panic.
  apply (qagse_run N f epsabs epsrel limit (fun _ _ _ _ => True) (fun _ _ _ _ _ _ _ _ _ _ _ _ _ _ => I)
    always I (fun _ _ _ _ => I) a b H I).
Qed.
Lemma qagpe_no_panic a b points epsabs epsrel limit :
  limit <= 51 + length points -> qagpe N f a b points epsabs epsrel limit <> Panic.
Proof.
  intro H. eapply wp_no_panic.
  apply (qagpe_run N f epsabs epsrel limit (fun _ _ _ _ => True) (fun _ _ _ _ _ _ _ _ _ _ _ _ _ _ => I)
    always I (fun _ _ _ _ => I) a b points H (fun _ _ _ _ => I)).
Qed.
Lemma quad_no_panic a b (o : opts N) : limit_ N o <= 51 -> quad N f a b o <> Panic.
Proof.
  intro H. unfold quad. destruct (feq N a b); [discriminate|].
  match goal with |- rbind ?r _ <> _ => assert (Hr : r <> Panic) end.
  { destruct (points_ N o) as [p|]; [apply qagpe_no_panic; lia|apply qagse_no_panic; lia]. }
  match goal with |- rbind ?r _ <> _ => destruct r; cbn [rbind] end; try discriminate; try contradiction.
  destruct (flt N b a); discriminate.
Qed.

(** ** Counts *)
Lemma qagse_counts a b epsabs epsrel limit o :
  limit <= 51 -> qagse N f a b epsabs epsrel limit = Ok o ->
  1 <= o_last N o <= limit /\ o_calls N o = o_neval N o /\ o_neval N o = 21 + 42 * (o_last N o - 1).
Proof.
  intros H E.
  assert (HT : Tt a b [] 1 [kpiece N f 0 a b] (k_result N (krule N f 0 a b)) (k_abserr N (krule N f 0 a b)) 21).
  { repeat split.
    - exists [kpiece N f 0 a b]. split; [reflexivity|]. cbn. auto.
    - constructor; [|constructor]. exists 0, (krule N f 0 a b), (21 + 0). split; [apply krule_ok|reflexivity].
    - intros z [].
    - cbn [length]. lia. }
  pose proof (qagse_run N f epsabs epsrel limit (Tt a b [] 1) (Tt_step' a b [] 1) always I (fun _ _ _ _ => I) a b H HT) as W.
  assert (Hlim : 1 <= limit).
  { unfold qagse, qagse_start in E. destruct (Nat.ltb_spec limit 1); [discriminate|lia]. }
  rewrite E in W. cbn [wp] in W. destruct W as [ier k bound _ _ _ ->|s v e ier d g HD _ _ ->].
  - cbn [o_last o_calls o_neval]. lia.
  - cbn [o_last o_calls o_neval]. destruct HD as [H1 _ _ (ps & [Hl _] & _ & _ & _ & _ & H3)]. lia.
Qed.
Lemma qagpe_counts a b points epsabs epsrel limit o :
  limit <= 51 + length points -> qagpe N f a b points epsabs epsrel limit = Ok o ->
  length points + 1 <= o_last N o <= limit /\ o_calls N o = o_neval N o
  /\ o_neval N o = 21 * (length points + 1) + 42 * (o_last N o - (length points + 1)).
Proof.
  intros H E.
  pose (T := fun ps (_ _ : F N) c => length points + 1 <= length ps /\ c + 21 * (length points + 1) = 42 * @length (piece N) ps).
  assert (Ts : forall ps i a b r e area errsum c x y,
    nth_error ps i = Some (a, b, r, e) -> T ps area errsum c ->
    (halves N f c a b = (x, y) \/ halves N f c a b = (y, x)) ->
    T (upd ps i x ++ [y])
    (fadd N area (fsub N (fadd N (p_r N (fst (halves N f c a b))) (p_r N (snd (halves N f c a b)))) r))
    (fadd N errsum (fsub N (fadd N (p_e N (fst (halves N f c a b))) (p_e N (snd (halves N f c a b)))) e))
    (42 + c)).
  { intros ps i x y r e ar es c u v _ (H1 & H2) _. unfold T. rewrite upd_app_length. lia. }
  assert (T0 : forall ys es, cut_points N a b points ys -> length es = length points + 1 ->
     T (with_err N (kchain N f 0 ys) es) (total N (map (p_r N) (kchain N f 0 ys))) (total N es) (21 * (length points + 1))).
  { intros ys es Hc He. destruct (qagpe_T0 a b points ys es Hc He) as (_ & _ & _ & H1 & H2). split; assumption. }
  pose proof (qagpe_run N f epsabs epsrel limit T Ts always I (fun _ _ _ _ => I) a b points H T0) as W.
  assert (Hlim : length points + 1 <= limit).
  { unfold qagpe, qagpe_start in E. destruct (Nat.leb_spec limit (length points)); [discriminate|lia]. }
  rewrite E in W. cbn [wp] in W. destruct W as [ys e es ier ps v _ _ _ _ ->|s v e ier d g HD _ _ ->].
  - cbn [o_last o_calls o_neval]. lia.
  - cbn [o_last o_calls o_neval]. destruct HD as [H1 _ Hn (ps & [Hl _] & H2 & H3)]. specialize (Hn eq_refl). lia.
Qed.

Lemma qagpe_state_inv a b points epsabs epsrel limit o s :
  limit <= 51 + length points -> qagpe_state f a b points epsabs epsrel limit o s ->
  exists ps ys, cut_points N a b points ys /\ stored s ps
    /\ tiles (fmin N a b) (last ys (fmin N a b)) ps /\ ruled f ps /\ incl (removelast ys) (map left_end ps)
    /\ length ps <= limit /\ q_last N s = length ps /\ q_neval N s = q_cnt N s
    /\ match o with Some i => S (length ps) = i | None => True end.
Proof.
  intros H51 Hs.
  pose (T := fun ps ar es c => exists ys, cut_points N a b points ys /\
    Tt (fmin N a b) (last ys (fmin N a b)) (removelast ys) (length points + 1) ps ar es c).
  assert (Ts : forall ps i a b r e area errsum c x y,
    nth_error ps i = Some (a, b, r, e) -> T ps area errsum c ->
    (halves N f c a b = (x, y) \/ halves N f c a b = (y, x)) ->
    T (upd ps i x ++ [y])
    (fadd N area (fsub N (fadd N (p_r N (fst (halves N f c a b))) (p_r N (snd (halves N f c a b)))) r))
    (fadd N errsum (fsub N (fadd N (p_e N (fst (halves N f c a b))) (p_e N (snd (halves N f c a b)))) e))
    (42 + c)).
  { intros ps i x y r e ar es c u v Hi (ys & Hc & HT) Hh. exists ys. split; [exact Hc|]. eapply Tt_step'; eauto. }
  assert (T0 : forall ys es, cut_points N a b points ys -> length es = length points + 1 ->
     T (with_err N (kchain N f 0 ys) es) (total N (map (p_r N) (kchain N f 0 ys))) (total N es) (21 * (length points + 1))).
  { intros ys es Hc He. exists ys. split; [exact Hc|]. now apply qagpe_T0. }
  assert (HI : match o with
    | Some i => i - 1 <= limit /\ (i <= limit -> Inv N limit T always true (i - 1 - length points) i s)
                /\ length points + 2 <= i /\ tracked N T s (i - 1) /\ q_last N s = i - 1 /\ q_neval N s = q_cnt N s
    | None => Done N limit T true s end).
  { induction Hs as [s d g Hst|i s s' Hs IH Hi Hb|i s s' Hs IH Hi Hb].
    - pose proof (qagpe_start_wp N f epsabs epsrel limit T Ts always I (fun _ _ _ _ => I) a b points T0) as H.
      rewrite Hst in H. cbn [wp] in H. destruct H as [[H1 H2]|(H1 & H2 & H3 & _)].
      + replace (length points + 2 - 1 - length points) with 1 by lia. split; [lia|].
        split; [auto|]. split; [lia|]. split; [apply (i_T _ _ _ _ _ _ _ _ H2)|].
        split; [apply (i_last _ _ _ _ _ _ _ _ H2)|apply (i_neval _ _ _ _ _ _ _ _ H2 eq_refl)].
      + subst points. cbn [length] in *. split; [lia|]. split; [intro; lia|]. split; [lia|].
        destruct H1 as [D1 D2 D3 D4]. replace (q_last N s) with 1 in * by lia. auto.
    - destruct IH as (_ & HI & H2 & _). specialize (HI Hi).
      pose proof (qagpe_body_wp N f epsabs epsrel limit T Ts always (fun _ _ _ _ => I) (length points) i s (conj H2 Hi) H51 HI) as H.
      rewrite Hb in H. cbn [wp step_post] in H. destruct H as [H3 H4].
      cbn [Nat.sub]. rewrite Nat.sub_0_r. split; [lia|]. split; [auto|]. split; [lia|].
      pose proof (i_T _ _ _ _ _ _ _ _ H4) as H5. pose proof (i_last _ _ _ _ _ _ _ _ H4) as H6.
      pose proof (i_neval _ _ _ _ _ _ _ _ H4 eq_refl) as H7.
      cbn [Nat.sub] in H5, H6. rewrite Nat.sub_0_r in H5, H6. auto.
    - destruct IH as (_ & HI & H2 & _). specialize (HI Hi).
      pose proof (qagpe_body_wp N f epsabs epsrel limit T Ts always (fun _ _ _ _ => I) (length points) i s (conj H2 Hi) H51 HI) as H.
      rewrite Hb in H. cbn [wp step_post] in H. apply H. }
  assert (HT : exists L, tracked N T s L /\ q_last N s = L /\ L <= limit /\ q_neval N s = q_cnt N s
     /\ match o with Some i => S L = i | None => True end).
  { destruct o as [i|].
    - destruct HI as (H1 & _ & H2 & H3 & H4 & H5). exists (i - 1). sp; auto; lia.
    - exists (q_last N s). split; [apply HI|]. split; [reflexivity|]. split; [apply HI|]. split; [apply HI; reflexivity|exact I]. }
  destruct HT as (L & (ps & Hh & ys & Hc & H1 & H2 & H3 & _) & EL & HL & Hn & Ho). exists ps, ys. unfold stored. rewrite EL.
  pose proof (proj1 Hh) as El. rewrite El. sp; auto.
Qed.
End Any.
