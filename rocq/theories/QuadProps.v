(** Property theorems for the adaptive quadrature (C42-C45, C69). *)
From Coq Require Import List Arith Bool ZArith QArith Reals Lra Lia Floats Permutation Qreals.
From Verif Require Import RustBase RustBaseFacts QuadModel QuadFloat QuadProofs QuadLoop QuadRun QuadSpec QuadReal QuadRules QuadOrder.
Import ListNotations.
Local Open Scope nat_scope.

(** ** C42: no panic *)

(** C42.  For every number type (so also with NaN and infinities) and every integrand, the entry
    point with at most 51 subdivisions (the only live value is 50) returns a result or an error of
    its error type: no index is out of range and no index subtraction underflows.  Missing from the
    full property: larger limits, for which it is false (next theorem). *)
Theorem quadrature_never_panics_partial (N : Num) (f : fn N) a b (o : opts N) :
  limit_ N o <= 51 -> quad N f a b o <> Panic.
Proof. exact (quad_no_panic f a b o). Qed.
Print Assumptions quadrature_never_panics_partial.

(** With break points the bound on the limit is larger: each break point uses up one interval before
    the loop starts. *)
Theorem quadrature_points_never_panics_partial (N : Num) (f : fn N) a b points epsabs epsrel limit :
  limit <= 51 + length points -> qagpe N f a b points epsabs epsrel limit <> Panic.
Proof. exact (qagpe_no_panic f a b points epsabs epsrel limit). Qed.
Print Assumptions quadrature_points_never_panics_partial.

Definition inv_sqrt : fn FloatNum := fun _ x => (1 / PrimFloat.sqrt x)%float.
Definition reports (r : rr QuadError (outcome FloatNum)) (last neval : nat) : bool :=
  match r with
  | Ok o => Nat.eqb (o_last FloatNum o) last && Nat.eqb (o_neval FloatNum o) neval && Nat.eqb (o_calls FloatNum o) neval
      && match o_ier FloatNum o with IerOk => true | _ => false end
  | _ => false
  end.
(** Runs that bisect five times and extrapolate. *)
Example ex_run :
  reports (quad FloatNum inv_sqrt 0%float 1%float (Opts FloatNum 0x1p-30%float 0x1p-30%float 50 None)) 6 231 = true.
Proof. vm_compute. reflexivity. Qed.
Example ex_run_points :
  reports (qagpe FloatNum inv_sqrt 0%float 1%float [0.5%float] 0x1p-30%float 0x1p-30%float 50) 7 252 = true.
Proof. vm_compute. reflexivity. Qed.

Lemma panics_ok {E A} (r : rr E A) : match r with Panic => true | _ => false end = true -> r = Panic.
Proof. destruct r; [discriminate|discriminate|reflexivity]. Qed.
(** C42, finding: a limit of 60 panics.  When the extrapolation table stops by convergence it skips
    the step that keeps it below 50 entries; an integrand that is NaN at one point keeps the loop
    running until the table index passes the end of its array. *)
Theorem quadrature_never_panics_refuted :
  exists (f : fn FloatNum) a b epsabs epsrel limit,
    1 <= limit /\ quad FloatNum f a b (Opts FloatNum epsabs epsrel limit None) = Panic.
Proof.
  exists bad_integrand, 0%float, 1%float, (float_of_Q 1.49e-8), (float_of_Q 1.49e-8), 60.
  split; [lia|]. apply panics_ok. vm_compute. reflexivity.
Qed.
Print Assumptions quadrature_never_panics_refuted.

(** ** C43: tiling and counts *)

(** C43.  In every reachable state of the main loop the stored intervals lead from [a] to [b]
    without gap or overlap, each stored integral is the 21-point rule on its interval, there are at
    most [limit] of them, and the integrand has been called 21 times per rule evaluation (one for
    the first interval, two for each bisection). *)
Theorem quadrature_tiles (N : Num) (f : fn N) a b epsabs epsrel limit o s :
  limit <= 51 -> qagse_state f a b epsabs epsrel limit o s ->
  exists ps, stored s ps /\ tiles a b ps /\ ruled f ps /\ length ps <= limit /\ q_last N s = length ps
    /\ q_cnt N s + 21 = 42 * length ps /\ match o with Some i => S (length ps) = i | None => True end.
Proof. exact (qagse_state_inv f a b epsabs epsrel limit o s). Qed.
Print Assumptions quadrature_tiles.

(** C43.  The reported number of evaluations is the number of calls made to the integrand. *)
Theorem quadrature_counts (N : Num) (f : fn N) a b epsabs epsrel limit o :
  limit <= 51 -> qagse N f a b epsabs epsrel limit = Ok o ->
  1 <= o_last N o <= limit /\ o_calls N o = o_neval N o /\ o_neval N o = 21 + 42 * (o_last N o - 1).
Proof. exact (qagse_counts f a b epsabs epsrel limit o). Qed.
Print Assumptions quadrature_counts.

(** C43, with break points: the intervals tile the range between the two ends, and every break point
    is still a left end. *)
Theorem quadrature_points_tiles (N : Num) (f : fn N) a b points epsabs epsrel limit o s :
  limit <= 51 + length points -> qagpe_state f a b points epsabs epsrel limit o s ->
  exists ps ys, cut_points N a b points ys /\ stored s ps
    /\ tiles (fmin N a b) (last ys (fmin N a b)) ps /\ ruled f ps /\ incl (removelast ys) (map left_end ps)
    /\ length ps <= limit /\ q_last N s = length ps /\ q_neval N s = q_cnt N s
    /\ match o with Some i => S (length ps) = i | None => True end.
Proof. exact (qagpe_state_inv f a b points epsabs epsrel limit o s). Qed.
Print Assumptions quadrature_points_tiles.

Theorem quadrature_points_counts (N : Num) (f : fn N) a b points epsabs epsrel limit o :
  limit <= 51 + length points -> qagpe N f a b points epsabs epsrel limit = Ok o ->
  length points + 1 <= o_last N o <= limit /\ o_calls N o = o_neval N o
  /\ o_neval N o = 21 * (length points + 1) + 42 * (o_last N o - (length points + 1)).
Proof. exact (qagpe_counts f a b points epsabs epsrel limit o). Qed.
Print Assumptions quadrature_points_counts.

(** Reachable states in which bisections have been made. *)
Definition two_steps (N : Num) (f : fn N) (a b e : F N) (limit : nat) : option (st N) :=
  match qagse_start N f a b e e limit with
  | Ok (inr (s, _, _)) =>
      match qagse_body N f a b e e limit 2 s with
      | Ok (Cont s) => match qagse_body N f a b e e limit 3 s with Ok (Cont s) => Some s | _ => None end
      | _ => None
      end
  | _ => None
  end.
Definition last_is {N} (o : option (st N)) (n : nat) : bool :=
  match o with Some s => Nat.eqb (q_last N s) n | None => false end.
Lemma two_steps_reach N f a b e limit n : 3 <= limit -> last_is (two_steps N f a b e limit) n = true ->
  exists s, qagse_state f a b e e limit (Some 4) s /\ q_last N s = n.
Proof.
  intros Hl E. unfold last_is, two_steps in E.
  destruct (qagse_start N f a b e e limit) as [[o|[[s1 d] g]]| |] eqn:E1; try discriminate.
  destruct (qagse_body N f a b e e limit 2 s1) as [[s2|s2]| |] eqn:E2; try discriminate.
  destruct (qagse_body N f a b e e limit 3 s2) as [[s3|s3]| |] eqn:E3; try discriminate.
  exists s3. split; [|now apply Nat.eqb_eq].
  eapply se_next; [eapply se_next; [eapply se_start; exact E1|lia|exact E2]|lia|exact E3].
Qed.
Example ex_state : exists s, qagse_state inv_sqrt 0%float 1%float 0x1p-30%float 0x1p-30%float 50 (Some 4) s
  /\ q_last FloatNum s = 3.
Proof. apply two_steps_reach; [lia|]. vm_compute. reflexivity. Qed.
Definition one_step (N : Num) (f : fn N) (a b e : F N) points (limit : nat) : option (st N) :=
  match qagpe_start N f a b points e e limit with
  | Ok (inr (s, _, _)) =>
      match qagpe_body N f e e limit (length points + 2) s with Ok (Cont s) => Some s | _ => None end
  | _ => None
  end.
Lemma one_step_reach N f a b e points limit n :
  length points + 2 <= limit -> last_is (one_step N f a b e points limit) n = true ->
  exists s, qagpe_state f a b points e e limit (Some (length points + 3)) s /\ q_last N s = n.
Proof.
  intros Hl E. unfold last_is, one_step in E.
  destruct (qagpe_start N f a b points e e limit) as [[o|[[s1 d] g]]| |] eqn:E1; try discriminate.
  destruct (qagpe_body N f e e limit (length points + 2) s1) as [[s2|s2]| |] eqn:E2; try discriminate.
  exists s2. split; [|now apply Nat.eqb_eq]. replace (length points + 3) with (S (length points + 2)) by lia.
  eapply pe_next; [eapply pe_start; exact E1|exact Hl|exact E2].
Qed.
Example ex_state_points : exists s,
  qagpe_state inv_sqrt 0%float 1%float [0.5%float] 0x1p-30%float 0x1p-30%float 50 (Some 4) s /\ q_last FloatNum s = 3.
Proof. apply (one_step_reach FloatNum inv_sqrt 0%float 1%float 0x1p-30%float [0.5%float]); [cbn; lia|]. vm_compute. reflexivity. Qed.

(** ** C44: the order of the intervals *)

(** C44.  After any sequence of bisections with any errors, the entries 1, 2, ... of the index list
    are different intervals in order of decreasing error, nothing left out exceeds any but the last
    two entries, and nothing is left out while the list is complete; the selected interval and its
    error are the ones named by the pointer. *)
Theorem worst_interval_order limit last el io nr m er : history limit last el io nr m er ->
  ordered limit last (err el) (ent io) /\ m = ent io nr /\ er = err el m.
Proof. intro H. destruct (history_ordered _ _ _ _ _ _ _ H) as (A & _ & _ & B & C & _). auto. Qed.
Print Assumptions worst_interval_order.

(** C44.  While at most half of the budget plus two is used, the list is a permutation of all
    intervals. *)
Theorem worst_interval_permutation limit last el io nr m er : history limit last el io nr m er ->
  last <= limit / 2 + 2 -> Permutation (map (ent io) (seq 1 last)) (seq 1 last).
Proof. exact (history_permutation limit last el io nr m er). Qed.
Print Assumptions worst_interval_permutation.

(** C44.  With the pointer at the top, the interval selected for bisection has the largest error of
    all, also after the list has been cut short. *)
Theorem worst_interval_selected limit last el io m er : history limit last el io 1 m er -> last <= limit ->
  forall x, 1 <= x <= last -> (err el x <= er)%R.
Proof. exact (history_worst limit last el io m er). Qed.
Print Assumptions worst_interval_selected.

Theorem worst_interval_never_panics limit last el io nr m er el' : history limit last el io nr m er ->
  1 <= nr <= kept limit last -> S last <= limit -> S last + 1 < length io -> S last < length el' ->
  qpsrt RNum limit (S last) m el' io nr <> Panic.
Proof. exact (history_next limit last el io nr m er el'). Qed.
Print Assumptions worst_interval_never_panics.

(** Errors 4, then 3 and 1, then (bisecting the interval of error 3) 2/3 and 1/2: now interval 2,
    of error 1, is the worst. *)
Example ex_history :
  history 50 3 [0; 2 / 3; 1; 1 / 2; 0; 0]%R [0; 2; 1; 3; 0; 0] 1 2 1%R /\ 3 <= 50 / 2 + 2.
Proof.
  split; [|cbn; lia].
  assert (H1 : history 50 1 [0; 4; 0; 0; 0; 0]%R [0; 1; 0; 0; 0; 0] 1 1 4).
  { exact (h_start 50 [0; 4; 0; 0; 0; 0]%R [0; 1; 0; 0; 0; 0] ltac:(cbn; lia) ltac:(cbn; lia) eq_refl). }
  assert (H2 : history 50 2 [0; 3; 1; 0; 0; 0]%R [0; 1; 2; 0; 0; 0] 1 1 3).
  { eapply h_step; [exact H1|cbn; lia|lia|cbn; lia|cbn; lia| | |].
    - intros x Hx Hn. lia.
    - cbn. lra.
    - reflexivity. }
  eapply h_step; [exact H2|cbn; lia|lia|cbn; lia|cbn; lia| | |].
  - intros x Hx Hn. replace x with 2 by lia. reflexivity.
  - cbn. lra.
  - unfold qpsrt, qpsrt_up, qpsrt_down, qpsrt_end. cbn.
    destruct (Rle_dec 1 (2 / 3)); [lra|]. reflexivity.
Qed.

(** ** C45: the rules *)

(** C45.  The 21-point rule (and the 15-point one) returns the weighted sum given by its table, and
    the error estimate is built from the difference to the embedded Gauss sum. *)
Theorem rule21_is_tabulated (g : R -> R) c (a b : R) :
  exists resabs resasc,
    qk21 RNum (fun _ => g) c a b = Ok (kronrod_error RNum (rule_sum K21_0 K21 ((a + b) / 2)%R ((b - a) / 2)%R g)
      (rule_sum 0 G10 ((a + b) / 2)%R ((b - a) / 2)%R g) resabs resasc ((b - a) / 2)%R, 21 + c)
    /\ (forall k n, qk21 RNum (fun _ => g) c a b = Ok (k, n) -> k_result RNum k = rule K21_0 K21 a b g).
Proof.
  destruct (krule_eq g c a b) as (ra & rs & E). exists ra, rs. rewrite qk21_eq, E. split; [reflexivity|].
  intros k n H. injection H as <- _. rewrite <- E. apply krule_result.
Qed.
Print Assumptions rule21_is_tabulated.
Theorem rule15_is_tabulated (g : R -> R) c (a b : R) :
  exists resabs resasc,
    qk15 RNum (fun _ => g) c a b = Ok (kronrod_error RNum (rule_sum K15_0 K15 ((a + b) / 2)%R ((b - a) / 2)%R g)
      (rule_sum G7_0 G7 ((a + b) / 2)%R ((b - a) / 2)%R g) resabs resasc ((b - a) / 2)%R, 15 + c)
    /\ (forall k n, qk15 RNum (fun _ => g) c a b = Ok (k, n) -> k_result RNum k = rule K15_0 K15 a b g).
Proof.
  destruct (krule15_eq g c a b) as (ra & rs & E). exists ra, rs. rewrite qk15_eq, E. split; [reflexivity|].
  intros k n H. injection H as <- _. rewrite <- E. apply krule15_result.
Qed.
Print Assumptions rule15_is_tabulated.

(** C45.  All four tables integrate every polynomial up to the degree of the rule, over every
    interval, up to 10^-32 of the size of its coefficients (in the variable running from -1 to 1). *)
Theorem rules_exact_on_polynomials :
  degree_exact K21_0 K21 31 /\ degree_exact 0 G10 19 /\ degree_exact K15_0 K15 23 /\ degree_exact G7_0 G7 13.
Proof. exact rules_exact. Qed.
Print Assumptions rules_exact_on_polynomials.

(** C45.  A constant integrand. *)
Theorem rule21_on_constants (v : R) c (a b : R) k n :
  qk21 RNum (fun _ _ => v) c a b = Ok (k, n) ->
  (Rabs ((k_result RNum k : R) - (b - a) * v) <= Rabs (b - a) * Rabs v / (2 * 10 ^ 32))%R.
Proof.
  intro H. destruct (rule21_is_tabulated (fun _ => v) c a b) as (_ & _ & _ & E). rewrite (E _ _ H).
  destruct rules_exact as [D _].
  specialize (D [v] a b (fun _ => v) ltac:(cbn; lia)).
  unfold size, sum_over in D. cbn [fold_right poly integral pow INR] in D.
  specialize (D ltac:(intro x; ring)).
  eapply Rle_trans; [|eapply Rle_trans; [exact D|]].
  - right. f_equal. field.
  - right. unfold Rdiv. rewrite Rabs_mult, (Rabs_pos_eq (/ 2)) by lra.
    assert (10 ^ 32 <> 0)%R by (apply pow_nonzero; lra). field; assumption.
Qed.
Print Assumptions rule21_on_constants.

(** C45.  Only the values between the two ends matter (also for an integrand with state). *)
Theorem rule21_looks_only_inside (f g : fn RNum) c a b :
  (forall k x, (Rmin a b <= x <= Rmax a b)%R -> f k x = g k x) -> qk21 RNum f c a b = qk21 RNum g c a b.
Proof. exact (qk21_local f g c a b). Qed.
Print Assumptions rule21_looks_only_inside.
Example ex_inside : exists f g : fn RNum, f <> g /\
  (forall k x, (Rmin 0 1 <= x <= Rmax 0 1)%R -> f k x = g k x).
Proof.
  exists (fun _ x => Rabs x), (fun _ x => x). split.
  - intro H. assert (E : Rabs (-1) = (-1)%R) by exact (f_equal (fun h => h 0 (-1)%R) H).
    rewrite Rabs_left in E by lra. lra.
  - intros k x H. rewrite Rmin_left in H by lra. apply Rabs_pos_eq. lra.
Qed.

(** C45.  Reversing the interval negates the value and changes nothing else. *)
Theorem quadrature_reversed f a b o : a <> b -> quad RNum f b a o = negated (quad RNum f a b o).
Proof. exact (quad_reverse f a b o). Qed.
Print Assumptions quadrature_reversed.
Example ex_reversed : (0 <> 1)%R.
Proof. lra. Qed.

(** ** C69: a result reported as good meets the tolerance *)

(** C69.  In exact arithmetic a result without a warning has an error estimate within the
    tolerance.  Missing from the full property: a limit of 1 together with a (possibly empty) list
    of break points, for which it is false (next theorem), and limits above 51. *)
Theorem tolerance_met_partial f a b (o : opts RNum) r :
  limit_ RNum o <= 51 -> (points_ RNum o = None \/ 2 <= limit_ RNum o) ->
  quad RNum f a b o = Ok r -> o_ier RNum r = IerOk ->
  (o_abserr RNum r <= Rmax (epsabs_ RNum o) (epsrel_ RNum o * Rabs (o_value RNum r)))%R.
Proof. exact (quad_tolerance f a b o r). Qed.
Print Assumptions tolerance_met_partial.
(** The hypotheses are met by a run on the zero function. *)
Lemma krule_zero c (a b : R) : krule RNum (fun _ _ => 0%R) c a b = Kronrod RNum 0%R 0%R 0%R 0%R.
Proof.
  assert (E : krule RNum (fun _ _ => 0%R) c a b = kronrod_error RNum 0%R 0%R 0%R 0%R (Q2R 0.5 * (b - a))%R).
  { run_rule. rewrite ?RMicromega.Q2R_0.
    repeat (rewrite ?Rabs_R0, ?Rplus_0_l, ?Rmult_0_r, ?Rminus_0_r, ?Rmult_0_l). reflexivity. }
  rewrite E. unfold kronrod_error. change (F RNum) with R in *.
  change (fmul RNum) with Rmult. change (fsub RNum) with Rminus. change (fabs RNum) with Rabs.
  change (lit RNum) with Q2R. rewrite !Rmult_0_l. rewrite Rminus_0_r, Rmult_0_l, Rabs_R0.
  assert (E1 : feq RNum 0%R (Q2R 0) = true) by (rewrite RMicromega.Q2R_0; now apply Rfeq_true).
  rewrite E1. cbn [negb andb].
  assert (E2 : flt RNum (fdiv RNum (uflow RNum) (Q2R 50 * epmach RNum)%R) 0%R = false).
  { apply Rflt_false. cbn [fdiv uflow epmach RNum]. left. apply Rdiv_lt_0_compat.
    - apply Rinv_0_lt_compat, pow_lt. lra.
    - apply Rmult_lt_0_compat; [|apply Rinv_0_lt_compat, pow_lt; lra].
      rewrite <- RMicromega.Q2R_0. apply Qlt_Rlt. reflexivity. }
  rewrite E2. reflexivity.
Qed.
Example ex_tolerance : exists r, quad RNum (fun _ _ => 0%R) 0%R 1%R (Opts RNum 1%R 1%R 50 None) = Ok r
  /\ o_ier RNum r = IerOk /\ o_neval RNum r = 21.
Proof.
  unfold quad. change (F RNum) with R in *.
  assert (E : feq RNum 0%R 1%R = false) by (apply Rfeq_false; change (F RNum) with R; lra).
  assert (E2 : flt RNum 1%R 0%R = false) by (apply Rflt_false; change (F RNum) with R; lra).
  rewrite E, E2. cbn [points_ epsabs_ epsrel_ limit_].
  unfold qagse, qagse_start. cbn [Nat.ltb Nat.leb].
  assert (E3 : tolerance_bad RNum 1%R 1%R = false).
  { unfold tolerance_bad. apply andb_false_iff. left. apply Rfle_false. change (lit RNum 0) with (Q2R 0).
    rewrite RMicromega.Q2R_0. change (F RNum) with R. lra. }
  rewrite E3. rewrite qk21_eq, krule_zero. unfold set.
  assert (Hc : (1 <? length (repeat (lit RNum 0) (workspace_len 50 1))) = true) by reflexivity. rewrite Hc.
  assert (Hc2 : (1 <? length (repeat 0 (workspace_len 50 1))) = true) by reflexivity. rewrite Hc2.
  cbn [rbind k_result k_abserr k_resabs k_resasc Nat.eqb].
  assert (E4 : feq RNum 0%R (lit RNum 0) = true) by (apply Rfeq_true; change (lit RNum 0) with (Q2R 0); now rewrite RMicromega.Q2R_0).
  assert (E5 : flt RNum (fmax RNum 1%R (fmul RNum 1%R (fabs RNum 0%R))) 0%R = false).
  { apply Rflt_false. change (fmax RNum) with Rmax. eapply Rle_trans; [|apply Rmax_l]. change (F RNum) with R. lra. }
  rewrite E4, E5, andb_false_r, !orb_true_r. cbn [rbind]. eexists. split; [reflexivity|]. split; reflexivity.
Qed.

Definition misses (N : Num) (epsabs epsrel : F N) (r : rr QuadError (outcome N)) : bool :=
  match r with
  | Ok r => match o_ier N r with IerOk => true | _ => false end
      && flt N (fmax N epsabs (fmul N epsrel (fabs N (o_value N r)))) (o_abserr N r)
  | _ => false
  end.
Lemma misses_ok N epsabs epsrel r : misses N epsabs epsrel r = true ->
  exists o, r = Ok o /\ o_ier N o = IerOk
    /\ flt N (fmax N epsabs (fmul N epsrel (fabs N (o_value N o)))) (o_abserr N o) = true.
Proof.
  destruct r as [o| |]; try discriminate. cbn. intro E. apply andb_true_iff in E. destruct E as [E1 E2].
  exists o. split; [reflexivity|]. split; [destruct (o_ier N o); congruence|exact E2].
Qed.
(** C69, finding: with break points requested, none of them inside, and a limit of 1, the loop does
    not run and its initial "no warning" is returned whatever the error estimate. *)
Theorem tolerance_met_refuted :
  exists (f : fn FloatNum) a b epsabs epsrel limit points r,
    quad FloatNum f a b (Opts FloatNum epsabs epsrel limit (Some points)) = Ok r
    /\ o_ier FloatNum r = IerOk
    /\ flt FloatNum (fmax FloatNum epsabs (fmul FloatNum epsrel (fabs FloatNum (o_value FloatNum r)))) (o_abserr FloatNum r) = true.
Proof.
  exists inv_sqrt, 0%float, 1%float, 0x1p-30%float, 0x1p-30%float, 1, [].
  apply misses_ok. vm_compute. reflexivity.
Qed.
Print Assumptions tolerance_met_refuted.
