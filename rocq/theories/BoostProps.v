(** Property theorems for the boosts of lines and of tables (C24, C25, C46, C47, C70). *)
From Coq Require Import Floats String ZArith QArith Bool Arith Lia Reals Lra Qreals List.
From Verif Require Import PyBase RustBase RustBaseFacts RustMath Area QuadModel QuadFloat FloatMath
  InterpModel BoostModel BoostProofs BoostTable.
Import ListNotations.
Local Open Scope nat_scope.
Local Open Scope R_scope.

(** C46.  NumPy's pairwise summation, as ported, is the plain sum over the reals: no term is lost or
    used twice, for lists of any length. *)
Theorem pairwise_sum_is_the_sum (values : list R) :
  pairwise_sum RMath values = Ok (fold_right Rplus 0 values).
Proof. exact (pairwise_sum_real values). Qed.
Print Assumptions pairwise_sum_is_the_sum.

(** C46.  For every number type the recursion ends and no index is out of range. *)
Theorem pairwise_sum_never_panics (M : Math) (values : list (F M)) : exists s, pairwise_sum M values = Ok s.
Proof. exact (pairwise_sum_ok M values). Qed.
Print Assumptions pairwise_sum_never_panics.

(** A binary64 list of 20 entries takes the blocked path: the large term eats the ones. *)
Example ex_pairwise_float :
  match pairwise_sum FloatMath (0x1p+60%float :: repeat 1%float 19) with
  | Ok s => PrimFloat.eqb s (0x1p+60)%float | _ => false end = true.
Proof. reflexivity. Qed.

(** C24.  A line at rest-frame energy [e0], seen from a frame moving with velocity [beta]: constant
    between the two kinematic ends gamma (e0 -+ beta k0), zero elsewhere. *)
Theorem boosted_line_is_a_box (e0 m beta : R) : 0 <= m < e0 -> 0 < beta < 1 -> forall e : R,
  let gamma := / sqrt (1 - beta * beta) in
  let k0 := sqrt (e0 * e0 - m * m) in
  (gamma * (e0 - beta * k0) < e < gamma * (e0 + beta * k0) ->
     boost_delta_function RMath e0 e m beta = / (2 * gamma * beta * k0))
  /\ (e <= gamma * (e0 - beta * k0) \/ gamma * (e0 + beta * k0) <= e ->
     boost_delta_function RMath e0 e m beta = 0).
Proof.
  intros Hm Hb e gamma k0. split; intro He.
  - exact (delta_inside e0 m beta e Hm Hb He).
  - rewrite delta_box by lra. unfold window_lo, window_hi.
    change (lorentz beta) with gamma. change (momentum e0 m) with k0.
    destruct (Rlt_dec _ e); [|reflexivity]. destruct (Rlt_dec e _); [lra|reflexivity].
Qed.
Print Assumptions boosted_line_is_a_box.

(** C24.  The box holds one particle: the area over any range covering the window is 1. *)
Theorem boosted_line_counts_one (e0 m beta a b : R) : 0 <= m < e0 -> 0 < beta < 1 ->
  a <= window_lo e0 m beta -> window_hi e0 m beta <= b ->
  area (fun e => boost_delta_function RMath e0 e m beta) a b 1.
Proof. exact (delta_area e0 m beta a b). Qed.
Print Assumptions boosted_line_counts_one.

(** C24.  Its mean energy is gamma e0, as the Lorentz transformation of an isotropic line says. *)
Theorem boosted_line_energy (e0 m beta a b : R) : 0 <= m < e0 -> 0 < beta < 1 ->
  a <= window_lo e0 m beta -> window_hi e0 m beta <= b ->
  area (fun e => e * boost_delta_function RMath e0 e m beta) a b (lorentz beta * e0).
Proof. exact (delta_energy e0 m beta a b). Qed.
Print Assumptions boosted_line_energy.

(** C24.  Zero for velocities outside (0, 1] and for energies below the mass. *)
Theorem boosted_line_unphysical (e0 e m beta : R) : 1 < beta \/ beta <= 0 \/ e < m ->
  boost_delta_function RMath e0 e m beta = 0.
Proof. exact (delta_zero e0 e m beta). Qed.
Print Assumptions boosted_line_unphysical.

(** Velocity 3/5, massless line at 4: the box is 1/6 high and reaches from 2 to 8. *)
Example ex_line : boost_delta_function RMath 4 5 0 (3 / 5) = 1 / 6
  /\ window_lo 4 0 (3 / 5) = 2 /\ window_hi 4 0 (3 / 5) = 8.
Proof.
  assert (Hlo : window_lo 4 0 (3 / 5) = 2) by (unfold window_lo; rewrite lorentz_35, momentum_massless by lra; lra).
  assert (Hhi : window_hi 4 0 (3 / 5) = 8) by (unfold window_hi; rewrite lorentz_35, momentum_massless by lra; lra).
  split; [|split; assumption]. rewrite delta_inside by lra. rewrite lorentz_35, momentum_massless by lra.
  match goal with |- ?a = ?b => change (@eq R a b) end. field.
Qed.

(** C24.  The Python helper computes the same function on float arrays. *)
Theorem python_boosted_line_agrees of_int trunc (es : list R) (e0 m beta : R) : 0 < beta < 1 ->
  py_boost_delta_function RMath of_int trunc (Floats (M:=RMath) es) e0 m beta
  = Floats (map (fun e => boost_delta_function RMath e0 e m beta) es).
Proof. exact (py_delta_agrees of_int trunc es e0 m beta). Qed.
Print Assumptions python_boosted_line_agrees.

(** C24, finding: on an integer array the Python helper stores its values into an integer array and
    they are cut to zero. *)
Theorem python_boosted_line_integers_refuted (trunc : R -> Z) : (forall x, 0 <= x < 1 -> trunc x = 0%Z) ->
  exists (e : Z) (e0 m beta : R), 0 <= m < e0 /\ 0 < beta < 1
  /\ boost_delta_function RMath e0 (IZR e) m beta = 1 / 6
  /\ py_boost_delta_function RMath IZR trunc (Ints [e]) e0 m beta = Ints [0%Z].
Proof.
  intro Ht. exists 5%Z, 4, 0, (3 / 5). split; [lra|]. split; [lra|].
  split; [apply ex_line|apply (py_delta_ints trunc Ht)].
Qed.
Print Assumptions python_boosted_line_integers_refuted.

(** Truncation toward zero meets the hypothesis. *)
Example ex_trunc : forall x, 0 <= x < 1 -> (fun x => if Rlt_dec x 0 then (- Int_part (- x))%Z else Int_part x) x = 0%Z.
Proof.
  intros x Hx. cbn beta. destruct (Rlt_dec x 0); [lra|]. unfold Int_part.
  assert (E : up x = 1%Z).
  { symmetry. apply (tech_up x 1); lra. }
  rewrite E. reflexivity.
Qed.

(** C25, the part that holds: above the speed of light both helpers answer zeros, and an unknown
    integration method is a ValueError.  Missing: negative velocities (refuted below). *)
Theorem unphysical_velocity_partial :
  (forall spline (dnde energies : list R) (beta mass : R), 1 < beta ->
     dnde_boost_array RMath spline dnde energies beta mass = map (fun _ => 0) energies)
  /\ (forall Args (none : Args) fn integrate (mass beta : R) energies method args,
        In method ["quad"; "trapz"; "simps"; "quadrature"]%string -> 1 < beta ->
        fn_boosted RMath Args none fn integrate mass energies beta method args = Ret (map (fun _ => 0) energies))
  /\ (forall (M : Math) Args (none : Args) fn integrate mass energies beta method args,
        ~ In method ["quad"; "trapz"; "simps"; "quadrature"]%string ->
        fn_boosted M Args none fn integrate mass energies beta method args = Raise ValueError).
Proof.
  split; [exact boost_array_above|]. split.
  - intros. now apply boost_fn_above.
  - intros. now apply boost_fn_method.
Qed.
Print Assumptions unphysical_velocity_partial.

(** C25, finding: the test for a small velocity comes first and a negative velocity passes it, so
    every spectrum is returned unboosted at every negative velocity. *)
Theorem negative_velocity_refuted :
  (forall spline (dnde energies : list R) (beta mass : R), beta < 0 ->
     dnde_boost_array RMath spline dnde energies beta mass = dnde)
  /\ exists (dnde energies : list R) (beta : R),
       beta = -3 / 5 /\ dnde = [7] /\ energies = [2]
       /\ forall spline, dnde_boost_array RMath spline dnde energies beta 0 <> map (fun _ => 0) energies.
Proof.
  split; [exact boost_array_negative|]. exists [7], [2], (-3 / 5). repeat split.
  intros spline. rewrite boost_array_negative by lra. intro H. inversion H. lra.
Qed.
Print Assumptions negative_velocity_refuted.

(** C25, finding: the same early return forgets the extra arguments of the spectrum function, so a
    boosted function called at rest with arguments evaluates it without them. *)
Theorem boosted_function_drops_arguments_refuted :
  exists (fn : R -> option R -> R) (mass beta : R) (args : option R),
    0 <= beta /\ forall integrate,
    fn_boosted RMath (option R) None fn integrate mass [2] beta "quad" args
    <> Ret (map (fun e => fn e args) [2]).
Proof.
  exists (fun e a => match a with Some k => k * e | None => e end), 0, 0, (Some 5). split; [lra|].
  intros integrate. rewrite boost_fn_small.
  - cbn [map]. intro H. inversion H. lra.
  - left. reflexivity.
  - apply Rinv_0_lt_compat, pow_lt. lra.
Qed.
Print Assumptions boosted_function_drops_arguments_refuted.

(** C47.  What the boost integral of a table adds up, over the reals: with [i] the first node at or
    above the lower end of the window and [j] the last node at or below its upper end, the answer is
    the below-table tail plus the area of the interpolant over the window, plus an error term: minus
    the cell [j-1, j] when i < j; plus the cell [j, i] when the window lies inside one cell; nothing
    when i = j.  Missing from the property: the error term is not zero. *)
Theorem table_boost_partial (e beta : R) (x y : list R) (L : R -> R) (i j : nat) :
  0 < beta < 1 -> 0 < e -> length x = length y -> sorted x -> 0 < X x 0 -> interpolates L x y ->
  first_above x (low_end e beta x) i -> last_below x (high_end e beta x) j ->
  clear_of x (low_end e beta x) -> clear_of x (high_end e beta x) ->
  e * lorentz beta * (1 - beta) <= X x (length x - 1) -> X x 0 <= e * lorentz beta * (1 + beta) ->
  forall A, area L (low_end e beta x) (high_end e beta x) A ->
  boost_integrate_linear_interp RMath e beta x y
  = Ok ((below e beta x y + A + miscounted x y i j) / (2 * lorentz beta * beta)).
Proof. exact (account e beta x y L i j). Qed.
Print Assumptions table_boost_partial.

(** The table with nodes 1, 2, 3, 4 and values equal to the nodes meets the hypotheses. *)
Example ex_table : sorted ramp /\ interpolates (fun _ => 1) ramp ramp
  /\ first_above ramp (low_end 2 (3 / 5) ramp) 0 /\ last_below ramp (high_end 2 (3 / 5) ramp) 3
  /\ area (fun _ => 1) (low_end 2 (3 / 5) ramp) (high_end 2 (3 / 5) ramp) 3.
Proof.
  split; [apply ramp_sorted|]. split; [apply ramp_interp|]. split; [apply ramp_first|].
  split; [apply ramp_last|apply ramp_area].
Qed.

(** C47 is false: on that table the window is the whole table, its area is 3, and the code divides 2
    instead. *)
Theorem table_boost_refuted :
  exists (e beta : R) (x y : list R) (L : R -> R) (A : R),
    0 < beta < 1 /\ 0 < e /\ length x = length y /\ sorted x /\ interpolates L x y
    /\ e * lorentz beta * (1 - beta) = X x 0 /\ e * lorentz beta * (1 + beta) = X x (length x - 1)
    /\ area L (X x 0) (X x (length x - 1)) A
    /\ boost_integrate_linear_interp RMath e beta x y <> Ok (A / (2 * lorentz beta * beta)).
Proof.
  exists 2, (3 / 5), ramp, ramp, (fun _ => 1), 3.
  split; [lra|]. split; [lra|]. split; [reflexivity|]. split; [apply ramp_sorted|].
  split; [apply ramp_interp|]. rewrite lorentz_35.
  split; [unfold X, ramp; cbn [nth]; lra|]. split; [unfold X, ramp; cbn [nth length Nat.sub]; lra|].
  split.
  - pose proof ramp_area as A. rewrite ramp_low, ramp_high in A. exact A.
  - rewrite ramp_run, lorentz_35. intro H. injection H. lra.
Qed.
Print Assumptions table_boost_refuted.

(** C47.  Every non-empty table of reals, sorted or not, gets an answer at every velocity in (0, 1):
    neither [expect] nor the index subtraction fails. *)
Theorem table_boost_never_panics (e beta : R) (x y : list R) :
  0 < beta < 1 -> length x = length y -> x <> [] ->
  exists v, boost_integrate_linear_interp RMath e beta x y = Ok v.
Proof. exact (table_answers e beta x y). Qed.
Print Assumptions table_boost_never_panics.

(** C47, boundary: with a NaN node in binary64 the [expect] fails. *)
Theorem table_boost_nan_node_panics :
  exists (x y : list float), length x = length y /\
  match boost_integrate_linear_interp FloatMath 3%float 0.5%float x y with Panic => true | _ => false end = true.
Proof. exists [1; nan]%float, [1; 1]%float. split; vm_compute; reflexivity. Qed.
Print Assumptions table_boost_nan_node_panics.

(** C70.  Over the reals every parent energy of a massive parent is classified: below its mass, at
    rest, or in flight with a velocity strictly between 0 and 1. *)
Theorem parent_energy_classified (e m : R) : 0 < m ->
  exists b, branch RMath e m = Ok b
  /\ match b with
     | BelowThreshold => e < m
     | RestFrame => 0 <= e - m < / 2 ^ 52
     | InFlight beta => / 2 ^ 52 <= e - m /\ 0 < beta < 1
     end.
Proof.
  intro Hm. change (F RMath) with R. rewrite (branch_real e m Hm).
  assert (0 < / 2 ^ 52) by (apply Rinv_0_lt_compat, pow_lt; lra). set (eps := / 2 ^ 52) in *. clearbody eps.
  destruct (Rlt_dec e m); [eexists; split; [reflexivity|assumption]|].
  destruct (Rlt_dec (e - m) eps); eexists; (split; [reflexivity|]).
  - lra.
  - split; [lra|]. apply beta_real. lra.
Qed.
Print Assumptions parent_energy_classified.

(** An eta at 5/3 of its mass flies with velocity 4/5. *)
Example ex_flight : exists beta, branch RMath 5 3 = Ok (InFlight beta) /\ beta = 4 / 5.
Proof.
  exists (boost_beta RMath 5 3). split.
  - rewrite branch_real by lra. destruct (Rlt_dec 5 3); [lra|].
    destruct (Rlt_dec (5 - 3) (/ 2 ^ 52)); [|reflexivity]. exfalso.
    assert (/ 2 ^ 52 <= / 1); [|rewrite Rinv_1 in *; lra]. apply Rinv_le_contravar; [lra|]. apply pow_R1_Rle. lra.
  - unfold boost_beta. change (lit RMath) with Q2R. rewrite Q2R_1.
    change (fmul RMath) with Rmult. change (fdiv RMath) with Rdiv. change (fsub RMath) with Rminus.
    change (fsqrt RMath) with sqrt. cbn zeta.
    replace (1 - 3 / 5 * (3 / 5)) with (4 / 5 * (4 / 5)) by field. apply sqrt_square. lra.
Qed.

(** C70 is false of binary64: for a finite parent energy far above the mass the velocity rounds to 1
    and the call fails, although the source says only NaN can fail here. *)
Theorem parent_energy_classified_refuted :
  exists e m : float,
    (PrimFloat.ltb 0 m && PrimFloat.ltb m e && PrimFloat.ltb e infinity)%float = true
    /\ match branch FloatMath e m with Err BetaOutOfRange => true | _ => false end = true.
Proof. exists 1e12%float, 548%float. split; vm_compute; reflexivity. Qed.
Print Assumptions parent_energy_classified_refuted.
