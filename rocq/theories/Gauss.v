(** The integral of the Gaussian: [E] is the primitive of exp(-x^2) that vanishes at 0, and it tends to
    sqrt(pi)/2.  Mathematics only, nothing of /repo is modelled here. *)
From Coq Require Import Reals Lra List ClassicalEpsilon.
From Verif Require Import RustBase RustMath Area Primitive.
Import ListNotations.
Local Open Scope R_scope.

Lemma exp_le x y : x <= y -> exp x <= exp y.
Proof. intros [H| ->]; [left; now apply exp_increasing|right; reflexivity]. Qed.
Lemma exp_le_1 x : x <= 0 -> exp x <= 1.
Proof. intros H. rewrite <- exp_0. now apply exp_le. Qed.

Definition bell (x : R) : R := exp (- x ^ 2).

Lemma bell_cont x : continuity_pt bell x.
Proof. unfold bell. reg. Qed.

Definition E (x : R) : R := if Rle_dec 0 x then the_area bell 0 x else - the_area bell x 0.

Lemma E_local c : 0 < c -> exists G, (forall x, - c <= x <= c -> derivable_pt_lim G x (bell x))
  /\ forall x, - c <= x <= c -> E x = G x - G 0.
Proof.
  intros Hc. destruct (cont_primitive bell (- c) c ltac:(lra)) as [G HG]; [intros; apply bell_cont|].
  exists G. split; [exact HG|]. intros x Hx. unfold E. destruct (Rle_dec 0 x).
  - apply the_area_val; [lra|]. apply area_of_antiderivative. intros z Hz. apply HG. lra.
  - rewrite (the_area_val bell x 0 (G 0 - G x)); [ring|lra|]. apply area_of_antiderivative. intros z Hz. apply HG. lra.
Qed.

Lemma E_deriv x : derivable_pt_lim E x (bell x).
Proof.
  pose proof (Rabs_pos x). pose proof (Rle_abs x). pose proof (Rle_abs (- x)) as B. rewrite Rabs_Ropp in B.
  destruct (E_local (Rabs x + 1) ltac:(lra)) as [G [HG HE]].
  apply (derivable_pt_lim_locally_ext (fun y => G y - G 0) E x (- (Rabs x + 1)) (Rabs x + 1)); [lra| |].
  - intros y Hy. symmetry. apply HE. lra.
  - replace (bell x) with (bell x - 0) by ring. apply (derivable_pt_lim_minus G (fun _ => G 0)).
    + apply HG. lra.
    + apply derivable_pt_lim_const.
Qed.

Lemma E_0 : E 0 = 0.
Proof. destruct (E_local 1 ltac:(lra)) as [G [_ HE]]. rewrite (HE 0) by lra. ring. Qed.

Lemma E_area a b : a <= b -> area bell a b (E b - E a).
Proof. intros H. apply area_of_antiderivative. intros; apply E_deriv. Qed.

Lemma bell_pos x : 0 < bell x. Proof. apply exp_pos. Qed.
Lemma bell_even x : bell (- x) = bell x. Proof. unfold bell. f_equal. ring. Qed.

Lemma derive0_const f : (forall x, derivable_pt_lim f x 0) -> forall x, f x = f 0.
Proof.
  intros D x. destruct (Rle_dec 0 x) as [H|H].
  - assert (A : area (fun _ => 0) 0 x (f x - f 0)) by (apply area_of_antiderivative; intros; apply D).
    pose proof (area_unique _ _ _ _ _ H A (area_const 0 0 x)). lra.
  - assert (A : area (fun _ => 0) x 0 (f 0 - f x)) by (apply area_of_antiderivative; intros; apply D).
    pose proof (area_unique _ x 0 _ _ ltac:(lra) A (area_const 0 x 0)). lra.
Qed.

Lemma E_odd x : E (- x) = - E x.
Proof.
  pose (f := fun y => E (- y) + E y).
  assert (D : forall y, derivable_pt_lim f y 0).
  { intros y. unfold f. replace 0 with (bell (- y) * (- 1) + bell y) by (rewrite bell_even; ring).
    apply (derivable_pt_lim_plus (fun y => E (- y)) E); [|apply E_deriv].
    apply (derivable_pt_lim_comp (fun y => - y) E); [|apply E_deriv].
    replace (-1) with (- (1)) by ring. apply (derivable_pt_lim_opp id), derivable_pt_lim_id. }
  pose proof (derive0_const f D x) as H. unfold f in H. rewrite Ropp_0, E_0 in H. lra.
Qed.

Lemma E_nonneg x : 0 <= x -> 0 <= E x.
Proof.
  intros H. pose proof (E_area 0 x H) as A. rewrite E_0, Rminus_0_r in A.
  pose proof (area_le (fun _ => 0) bell 0 x _ _ H ltac:(intros; apply Rlt_le, bell_pos) (area_const 0 0 x) A). lra.
Qed.

(** The companion integral *)
Definition k_of (x t : R) : R := exp (- (x ^ 2 * (1 + t ^ 2))) / (1 + t ^ 2).

Lemma one_sq t : 1 <= 1 + t ^ 2. Proof. nra. Qed.
Lemma k_cont x t : continuity_pt (k_of x) t.
Proof. unfold k_of. reg. apply Rgt_not_eq. pose proof (one_sq t). lra. Qed.

Definition K (x : R) : R := the_area (k_of x) 0 1.
Lemma K_area x : area (k_of x) 0 1 (K x).
Proof.
  destruct (area_exists (k_of x) 0 1 ltac:(lra)) as [v Hv]; [intros; apply k_cont|].
  unfold K. now rewrite (the_area_val _ 0 1 v ltac:(lra) Hv).
Qed.

(** exp(-u) - 1 + u is between 0 and 2 u^2 *)
Lemma exp_second u : Rabs u <= 1 / 2 -> 0 <= exp (- u) - 1 + u <= 2 * u ^ 2.
Proof.
  intros H. pose proof (Rle_abs u) as H1. pose proof (Rle_abs (- u)) as H2. rewrite Rabs_Ropp in H2.
  pose proof (exp_ineq1_le (- u)) as A. pose proof (exp_ineq1_le u) as B.
  pose proof (exp_pos (- u)) as P.
  assert (M : exp (- u) * exp u = 1) by (rewrite <- exp_plus, Rplus_opp_l; apply exp_0).
  split; [lra|]. nra.
Qed.

(** int_0^1 exp(-x^2 (1+t^2)) dt *)
Lemma inner_area x : exists I, area (fun t => exp (- (x ^ 2 * (1 + t ^ 2)))) 0 1 (exp (- x ^ 2) * I)
  /\ x * I = E x /\ 0 <= I <= 1.
Proof.
  destruct (area_exists (fun t => exp (- (x * t) ^ 2)) 0 1 ltac:(lra)) as [I HI]; [intros; reg|].
  exists I. split; [|split].
  - apply (area_scale (exp (- x ^ 2))) in HI. refine (area_ext _ _ _ _ _ [] _ HI).
    intros t _ _. rewrite <- exp_plus. f_equal. ring.
  - apply (area_scale x) in HI.
    assert (A : area (fun t => x * exp (- (x * t) ^ 2)) 0 1 (E (x * 1) - E (x * 0))).
    { apply (area_of_antiderivative (fun t => E (x * t))). intros t _.
      replace (x * exp (- (x * t) ^ 2)) with (bell (x * t) * x) by (unfold bell; ring).
      apply (derivable_pt_lim_comp (fun t => x * t) E); [|apply E_deriv].
      pose proof (derivable_pt_lim_scal id x t 1 (derivable_pt_lim_id t)) as D. rewrite Rmult_1_r in D. exact D. }
    pose proof (area_unique _ 0 1 _ _ ltac:(lra) HI A) as U. rewrite Rmult_1_r, Rmult_0_r, E_0 in U. lra.
  - split.
    + pose proof (area_le (fun _ => 0) _ 0 1 _ _ ltac:(lra) ltac:(intros; apply Rlt_le, exp_pos) (area_const 0 0 1) HI). lra.
    + pose proof (area_le (fun t => exp (- (x * t) ^ 2)) (fun _ => 1) 0 1 _ _ ltac:(lra)
        ltac:(intros t _; apply exp_le_1; pose proof (pow2_ge_0 (x * t)); lra) HI (area_const 1 0 1)). lra.
Qed.

Lemma K_step x h : Rabs h <= 1 / (4 * (2 * Rabs x + 1)) ->
  - h ^ 2 <= K (x + h) - K x + 2 * h * exp (- x ^ 2) * E x <= 8 * (2 * Rabs x + 1) ^ 2 * h ^ 2.
Proof.
  intros Hh. set (m := 2 * Rabs x + 1) in *. pose proof (Rabs_pos x) as PX.
  assert (Hm : 1 <= m) by (unfold m; lra).
  assert (H1 : Rabs h * m <= 1 / 4).
  { apply Rmult_le_reg_r with (4 / m); [apply Rdiv_lt_0_compat; lra|].
    replace (Rabs h * m * (4 / m)) with (4 * Rabs h) by (field; lra).
    replace (1 / 4 * (4 / m)) with (4 * (1 / (4 * m))) by (field; lra). lra. }
  assert (H2 : Rabs h <= 1) by (pose proof (Rabs_pos h); nra).
  set (a := 2 * x * h + h ^ 2).
  assert (Ha : Rabs a <= Rabs h * m).
  { unfold a. replace (2 * x * h + h ^ 2) with (h * (2 * x + h)) by ring. rewrite Rabs_mult.
    apply Rmult_le_compat_l; [apply Rabs_pos|]. unfold m. eapply Rle_trans; [apply Rabs_triang|].
    rewrite Rabs_mult, (Rabs_pos_eq 2) by lra. lra. }
  destruct (inner_area x) as [I [AI [EI BI]]].
  pose proof (K_area (x + h)) as A1. pose proof (K_area x) as A0.
  pose proof (area_plus _ _ _ _ _ _ A1 (area_plus _ _ _ _ _ _ (area_scale (-1) _ _ _ _ A0) (area_scale a _ _ _ _ AI))) as A.
  assert (pt : forall t, 0 < t < 1 -> 0 <= k_of (x + h) t + (-1 * k_of x t + a * exp (- (x ^ 2 * (1 + t ^ 2))))
                 <= 8 * m ^ 2 * h ^ 2).
  { intros t Ht. set (u := a * (1 + t ^ 2)).
    assert (T : 1 <= 1 + t ^ 2 <= 2) by nra.
    assert (U : Rabs u <= 2 * (Rabs h * m)).
    { unfold u. rewrite Rabs_mult, (Rabs_pos_eq (1 + t ^ 2)) by lra.
      pose proof (Rabs_pos a). nra. }
    replace (k_of (x + h) t + (-1 * k_of x t + a * exp (- (x ^ 2 * (1 + t ^ 2)))))
      with (exp (- (x ^ 2 * (1 + t ^ 2))) * ((exp (- u) - 1 + u) / (1 + t ^ 2))).
    2:{ unfold k_of. replace (- ((x + h) ^ 2 * (1 + t ^ 2))) with (- (x ^ 2 * (1 + t ^ 2)) + - u) by (unfold u, a; ring).
        rewrite exp_plus. unfold u. field. lra. }
    destruct (exp_second u ltac:(lra)) as [S1 S2].
    assert (X : 0 < exp (- (x ^ 2 * (1 + t ^ 2))) <= 1).
    { split; [apply exp_pos|]. apply exp_le_1. pose proof (pow2_ge_0 x) as X2. assert (0 <= x ^ 2 * (1 + t ^ 2)) by (apply Rmult_le_pos; lra). lra. }
    assert (Q : 0 <= (exp (- u) - 1 + u) / (1 + t ^ 2) <= 2 * u ^ 2).
    { split; [apply Rmult_le_pos; [lra|apply Rlt_le, Rinv_0_lt_compat; lra]|].
      apply Rmult_le_reg_r with (1 + t ^ 2); [lra|]. unfold Rdiv. rewrite Rmult_assoc, Rinv_l by lra.
      pose proof (pow2_ge_0 u). nra. }
    assert (W : u ^ 2 <= 4 * m ^ 2 * h ^ 2).
    { rewrite <- (pow2_abs u), <- (pow2_abs h). pose proof (Rabs_pos u).
      replace (4 * m ^ 2 * Rabs h ^ 2) with ((2 * (Rabs h * m)) ^ 2) by ring. apply pow_incr. lra. }
    split; [apply Rmult_le_pos; lra|]. nra. }
  pose proof (area_le _ _ 0 1 _ _ ltac:(lra) (fun t Ht => proj1 (pt t Ht)) (area_const 0 0 1) A) as L.
  pose proof (area_le _ _ 0 1 _ _ ltac:(lra) (fun t Ht => proj2 (pt t Ht)) A (area_const (8 * m ^ 2 * h ^ 2) 0 1)) as U.
  assert (X : 0 < exp (- x ^ 2) <= 1).
  { split; [apply exp_pos|]. apply exp_le_1. pose proof (pow2_ge_0 x). lra. }
  rewrite <- EI. unfold a in L, U. set (q := exp (- x ^ 2)) in *. clearbody q.
  assert (0 <= h ^ 2 * (q * I) <= h ^ 2).
  { pose proof (pow2_ge_0 h). assert (0 <= q * I <= 1) by nra. nra. }
  split; nra.
Qed.

Lemma K_deriv x : derivable_pt_lim K x (- (2 * exp (- x ^ 2) * E x)).
Proof.
  intros eps He. set (m := 2 * Rabs x + 1). pose proof (Rabs_pos x) as PX.
  assert (Hm : 1 <= m) by (unfold m; lra).
  set (d := Rmin (1 / (4 * m)) (eps / (16 * m ^ 2))).
  assert (Hd : 0 < d).
  { unfold d. apply Rmin_glb_lt; apply Rdiv_lt_0_compat; nra. }
  exists (mkposreal d Hd). intros h Hh0 Hh. simpl in Hh.
  assert (H1 : Rabs h <= 1 / (4 * m)) by (left; eapply Rlt_le_trans; [exact Hh|apply Rmin_l]).
  assert (H2 : Rabs h < eps / (16 * m ^ 2)) by (eapply Rlt_le_trans; [exact Hh|apply Rmin_r]).
  pose proof (K_step x h H1) as S. fold m in S.
  replace ((K (x + h) - K x) / h - - (2 * exp (- x ^ 2) * E x))
    with ((K (x + h) - K x + 2 * h * exp (- x ^ 2) * E x) / h) by (field; exact Hh0).
  set (z := K (x + h) - K x + 2 * h * exp (- x ^ 2) * E x) in *. clearbody z.
  unfold Rdiv. rewrite Rabs_mult, Rabs_inv.
  assert (Ph : 0 < Rabs h) by now apply Rabs_pos_lt.
  apply Rmult_lt_reg_r with (Rabs h); [exact Ph|]. rewrite Rmult_assoc, Rinv_l by lra.
  assert (Z : Rabs z <= 8 * m ^ 2 * h ^ 2).
  { apply Rabs_le. assert (1 <= m ^ 2) by nra. pose proof (pow2_ge_0 h). split; nra. }
  rewrite <- (pow2_abs h) in Z.
  assert (W : 16 * m ^ 2 * Rabs h < eps).
  { apply Rmult_lt_compat_r with (r := 16 * m ^ 2) in H2; [|nra].
    replace (eps / (16 * m ^ 2) * (16 * m ^ 2)) with eps in H2 by (field; nra). nra. }
  assert (0 <= m ^ 2) by nra. nra.
Qed.

Lemma K_0 : K 0 = PI / 4.
Proof.
  transitivity (atan 1 - atan 0); [|rewrite atan_0, atan_1; ring].
  apply (area_unique (k_of 0) 0 1 _ _ Rle_0_1 (K_area 0)).
  apply area_of_antiderivative. intros t _. unfold k_of.
  replace (- (0 ^ 2 * (1 + t ^ 2))) with 0 by ring. rewrite exp_0.
  replace (1 / (1 + t ^ 2)) with (/ (1 + t ^ 2)) by (unfold Rdiv; ring). apply derivable_pt_lim_atan.
Qed.

Lemma E_sq x : E x ^ 2 + K x = PI / 4.
Proof.
  pose (f := fun y => E y * E y + K y).
  assert (D : forall y, derivable_pt_lim f y 0).
  { intros y. unfold f.
    replace 0 with ((bell y * E y + E y * bell y) + - (2 * exp (- y ^ 2) * E y)) by (unfold bell; ring).
    apply (derivable_pt_lim_plus (fun y => E y * E y) K); [|apply K_deriv].
    apply (derivable_pt_lim_mult E E); apply E_deriv. }
  pose proof (derive0_const f D x) as H. unfold f in H. rewrite E_0, K_0 in H. lra.
Qed.

Lemma K_bound x : 0 <= K x <= exp (- x ^ 2).
Proof.
  pose proof (K_area x) as A. split.
  - pose proof (area_le (fun _ => 0) (k_of x) 0 1 _ _ ltac:(lra)
      ltac:(intros t _; unfold k_of; apply Rmult_le_pos;
        [apply Rlt_le, exp_pos|apply Rlt_le, Rinv_0_lt_compat; pose proof (one_sq t); lra]) (area_const 0 0 1) A). lra.
  - assert (B : forall t, 0 < t < 1 -> k_of x t <= exp (- x ^ 2)).
    { intros t _. unfold k_of. pose proof (one_sq t) as T.
      apply Rle_trans with (exp (- (x ^ 2 * (1 + t ^ 2)))).
      - apply Rmult_le_reg_r with (1 + t ^ 2); [lra|]. unfold Rdiv. rewrite Rmult_assoc, Rinv_l by lra.
        pose proof (exp_pos (- (x ^ 2 * (1 + t ^ 2)))). nra.
      - apply exp_le. pose proof (pow2_ge_0 x). nra. }
    pose proof (area_le _ _ 0 1 _ _ ltac:(lra) B A (area_const (exp (- x ^ 2)) 0 1)). lra.
Qed.

Lemma E_limit x : 0 <= x -> sqrt PI / 2 - 2 * exp (- x ^ 2) <= E x <= sqrt PI / 2.
Proof.
  intros Hx. pose proof (E_sq x) as S. pose proof (K_bound x) as B. pose proof (E_nonneg x Hx) as P.
  pose proof PI_RGT_0. pose proof PI2_3_2 as P3.
  assert (Q : sqrt PI * sqrt PI = PI) by (apply sqrt_sqrt; lra).
  assert (1 < sqrt PI) by (rewrite <- sqrt_1; apply sqrt_lt_1; lra).
  set (s := sqrt PI) in *. clearbody s. split; [|nra].
  assert ((s / 2 - E x) * (s / 2 + E x) <= exp (- x ^ 2)) by nra.
  destruct (Rle_dec (s / 2) (E x)); [pose proof (exp_pos (- x ^ 2)); lra|]. nra.
Qed.
