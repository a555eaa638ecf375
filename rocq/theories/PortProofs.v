(** The surviving Cython functions and the Rust kernels give the same numbers: proofs. *)
From Coq Require Import String ZArith QArith Bool Arith Lia ZifyNat Floats Reals Lra Qreals FunctionalExtensionality List.
From Verif Require Import PyBase RustBase RustBaseFacts RustMath Area BoostModel BoostProofs BoostTable SpecModel SpecProofs
  PionModel PionProofs PortModel.
Import ListNotations.
Local Open Scope nat_scope.
Local Open Scope R_scope.

(** ** Pointwise functions *)
Ltac runit := rmodel; change (epmach RNum) with (/ 2 ^ 52) in *; change (fabs RNum) with Rabs in *;
  change (fpi RMath) with PI in *.
Lemma half_Q : Q2R 0.5 = / 2.
Proof. unfold Q2R. cbn. lra. Qed.

Lemma port_gamma e m : cy_boost_gamma RMath e m = boost_gamma RMath e m.
Proof. reflexivity. Qed.
Lemma port_beta e m : cy_boost_beta RMath e m = boost_beta RMath e m.
Proof. reflexivity. Qed.

Lemma port_delta e0 e m beta : cy_boost_delta_function RMath e0 e m beta = boost_delta_function RMath e0 e m beta.
Proof.
  unfold cy_boost_delta_function, boost_delta_function. rmodel.
  replace (- beta * beta + 1) with (1 - beta * beta) by ring.
  replace (e * e + - (m * m)) with (e * e - m * m) by ring.
  replace (e0 * e0 + - (m * m)) with (e0 * e0 - m * m) by ring.
  set (k := sqrt (e * e - m * m)). replace (- beta * k + e) with (e - beta * k) by ring.
  replace (beta * k + e) with (e + beta * k) by ring. reflexivity.
Qed.

Lemma port_photon_muon_rest me mmu alpha e :
  cy_photon_muon_rest_frame RMath me mmu alpha e = dnde_photon_muon_rest_frame RMath me mmu alpha e.
Proof.
  unfold cy_photon_muon_rest_frame, dnde_photon_muon_rest_frame, pm_Y_MAX, pm_R, pm_MASS_RATIO, THREE_PI. runit.
  destruct ((if Rle_dec (2 * e / mmu) 0 then true else false) ||
    (if Rle_dec (1 - me / mmu) (2 * e / mmu) then true else false)); [reflexivity|].
  set (y := 2 * e / mmu). set (L := ln _). unfold Rdiv. ring.
Qed.

Lemma port_photon_muon spence me mmu alpha e emu :
  cy_photon_muon RMath spence me mmu alpha e emu = dnde_photon_muon RMath spence me mmu alpha e emu.
Proof.
  unfold cy_photon_muon, dnde_photon_muon. rewrite port_photon_muon_rest.
  unfold pm_ONE_MINUS_R, pm_R, pm_MASS_RATIO, THREE_PI, boost_beta, boost_gamma. runit.
  destruct (Rlt_dec emu mmu); [reflexivity|]. destruct (Rlt_dec (emu - mmu) (/ 2 ^ 52)); [reflexivity|].
  set (beta := sqrt _). set (x := 2 * e / mmu * (emu / mmu)). set (r := me / mmu * (me / mmu)).
  destruct ((if Rlt_dec x 0 then true else false) || (if Rle_dec ((1 - r) / (1 - beta)) x then true else false)); [reflexivity|].
  set (wp := if (if Rlt_dec _ _ then true else false) then 1 + beta else _).
  set (xp := x * wp). set (xm := x * (1 - beta)).
  set (L1 := ln ((1 - xm) / r)). set (L2 := ln ((1 - xp) / r)). set (L3 := ln xm). set (L4 := ln xp).
  set (L5 := ln ((1 - xp) / (1 - xm))). set (L6 := ln (xp / xm)). set (s1 := spence xm). set (s2 := spence xp).
  clearbody L1 L2 L3 L4 L5 L6 s1 s2 xp xm beta.
  unfold Rdiv. rewrite ?Rinv_mult. ring.
Qed.

Lemma port_lnug mpi alpha fpi fa fv fvs e ml :
  cy_pi_to_lnug RMath mpi alpha fpi fa fv fvs e ml = dnde_pi_to_lnug RMath mpi alpha fpi fa fv fvs e ml.
Proof.
  unfold cy_pi_to_lnug, dnde_pi_to_lnug. runit.
  set (x := 2 * e / mpi). set (r := ml / mpi * (ml / mpi)).
  destruct ((if Rlt_dec x 0 then true else false) || (if Rlt_dec (1 - r) x then true else false)); [reflexivity|].
  set (L := ln _). set (q := sqrt 2). clearbody L q x r. unfold Rdiv. rewrite ?Rinv_mult. ring.
Qed.

Lemma port_charged_pion_integrand spence me mmu mpi alpha fpi fa fv fvs emu br1 br2 e epi cl :
  cy_charged_pion_integrand RMath spence me mmu mpi alpha fpi fa fv fvs emu br1 br2 e epi cl
  = charged_pion_integrand RMath spence me mmu mpi alpha fpi fa fv fvs emu br1 br2 e epi cl.
Proof.
  unfold cy_charged_pion_integrand, charged_pion_integrand. rewrite port_beta, port_gamma. runit.
  set (b := boost_beta RMath epi mpi). set (g := boost_gamma RMath epi mpi).
  replace (- b * cl + 1) with (1 - b * cl) by ring. rewrite port_photon_muon, !port_lnug.
  replace (g + g) with (2 * g) by ring. ring.
Qed.
Lemma port_charged_pion spence quad me mmu mpi alpha fpi fa fv fvs emu br1 br2 e epi :
  cy_photon_charged_pion RMath spence quad me mmu mpi alpha fpi fa fv fvs emu br1 br2 e epi
  = dnde_photon_charged_pion RMath spence quad me mmu mpi alpha fpi fa fv fvs emu br1 br2 e epi.
Proof.
  unfold cy_photon_charged_pion, dnde_photon_charged_pion.
  replace (cy_charged_pion_integrand RMath spence me mmu mpi alpha fpi fa fv fvs emu br1 br2 e epi)
    with (charged_pion_integrand RMath spence me mmu mpi alpha fpi fa fv fvs emu br1 br2 e epi); [reflexivity|].
  apply functional_extensionality. intro cl. now rewrite port_charged_pion_integrand.
Qed.

Lemma port_neutral_pion m br f32 e epi : f32 0 = 0 ->
  cy_photon_neutral_pion RMath m br f32 e epi = dnde_photon_neutral_pion RMath m br f32 e epi.
Proof.
  intro H. unfold cy_photon_neutral_pion, dnde_photon_neutral_pion. runit. rewrite half_Q, H.
  reflexivity.
Qed.

Lemma port_pos_rest me mmu rf x :
  cy_dndx_rest_frame RMath me mmu rf x = pos_dndx_rest_frame RMath me mmu rf x.
Proof.
  unfold cy_dndx_rest_frame, pos_dndx_rest_frame, TWO_R, ONE_PLUS_R2, FOUR_R2, NEG_THREE_MINUS_THREE_R2.
  change (cy_R RMath me mmu) with (c_R RMath me mmu). change (cy_R2 RMath me mmu) with (c_R2 RMath me mmu). runit.
  set (r := c_R RMath me mmu). set (r2 := c_R2 RMath me mmu).
  destruct (_ || _); [reflexivity|]. set (q := sqrt _). unfold Rdiv. ring.
Qed.
Lemma port_pos_dndx me mmu rf x beta : cy_dndx RMath me mmu rf x beta = pos_dndx RMath me mmu rf x beta.
Proof.
  unfold cy_dndx, pos_dndx. rewrite port_pos_rest.
  unfold TWO_R, ONE_PLUS_R2, FOUR_R2, EIGHT_R2, NEG_THREE_MINUS_THREE_R2, THREE_PLUS_THREE_R2.
  change (cy_R RMath me mmu) with (c_R RMath me mmu). change (cy_R2 RMath me mmu) with (c_R2 RMath me mmu). runit.
  set (r := c_R RMath me mmu). set (r2 := c_R2 RMath me mmu).
  destruct (_ || _); [reflexivity|]. destruct (Rlt_dec beta (/ 2 ^ 52)); [reflexivity|].
  set (q := sqrt _). replace (- beta * q + x) with (x - beta * q) by ring.
  replace (beta * q + x) with (x + beta * q) by ring.
  set (xm := Rmax _ _). set (xp := Rmin _ _). rewrite orb_diag. destruct (Rlt_dec xp xm); [reflexivity|].
  replace (beta + beta) with (2 * beta) by ring. unfold Rdiv. ring.
Qed.
Lemma port_pos_muon me mmu rf e emu : cy_positron_muon RMath me mmu rf e emu = dnde_positron_muon RMath me mmu rf e emu.
Proof.
  unfold cy_positron_muon, dnde_positron_muon, TWO_OVER_MASS_MU. now rewrite port_pos_rest, port_pos_dndx, port_beta.
Qed.

Lemma port_pos_pion quad me mmu mpi rf br1 br2 e epi :
  cy_positron_charged_pion RMath quad me mmu mpi rf br1 br2 e epi
  = dnde_positron_charged_pion RMath quad me mmu mpi rf (emax_pi_rf RMath me mmu mpi) br1 br2 e epi.
Proof.
  unfold cy_positron_charged_pion, dnde_positron_charged_pion.
  replace (cy_pp_integrand RMath me mmu mpi rf) with (pp_integrand RMath me mmu mpi rf).
  2:{ apply functional_extensionality. intro x. unfold cy_pp_integrand, pp_integrand.
      change (eng_mu_pi_rf RMath mmu mpi) with (pp_ENG_MU_PI_RF RMath mmu mpi). now rewrite port_pos_muon. }
  rewrite port_beta, port_gamma, port_delta.
  change (eng_e_pi_rf RMath me mpi) with (pp_ENG_E_PI_RF RMath me mpi). runit.
  set (b := boost_beta RMath epi mpi). set (g := boost_gamma RMath epi mpi). set (k := sqrt _).
  replace (- b * k + e) with (e - b * k) by ring. replace (b * k + e) with (e + b * k) by ring. reflexivity.
Qed.

(** The endpoint of the positrons *)
Lemma emax_value me mmu mpi : 0 < me < mmu -> mmu < mpi ->
  emax_pi_rf RMath me mmu mpi = (mpi ^ 2 + me ^ 2) / (2 * mpi).
Proof.
  intros Hm Hp. unfold emax_pi_rf, gamma_mu, emax_mu_rf, beta_mu, eng_mu_pi_rf. runit. rewrite half_Q.
  assert (0 < mpi * mpi + mmu * mmu) by nra. assert (0 < me * me + mmu * mmu) by nra.
  replace (1 - mmu / (/ 2 * (mpi * mpi + mmu * mmu) / mpi) * (mmu / (/ 2 * (mpi * mpi + mmu * mmu) / mpi)))
    with (((mpi ^ 2 - mmu ^ 2) / (mpi * mpi + mmu * mmu)) * ((mpi ^ 2 - mmu ^ 2) / (mpi * mpi + mmu * mmu))) by (field; lra).
  replace (1 - me / ((me * me + mmu * mmu) / (2 * mmu)) * (me / ((me * me + mmu * mmu) / (2 * mmu))))
    with (((mmu ^ 2 - me ^ 2) / (me * me + mmu * mmu)) * ((mmu ^ 2 - me ^ 2) / (me * me + mmu * mmu))) by (field; lra).
  rewrite !sqrt_square.
  - field. lra.
  - apply Rlt_le, Rdiv_lt_0_compat; nra.
  - apply Rlt_le, Rdiv_lt_0_compat; nra.
Qed.

(** ** The boost integral of a table *)
(** The same number, or the error of the one for the error of the other. *)
Definition same_outcome (c : res R) (r : rr BoostError R) : Prop :=
  match c, r with
  | Ret a, Ok b => a = b
  | Raise AssertionError, Err BetaOutOfRange | Raise AssertionError, Err LengthMismatch => True
  | Raise IndexError, Err EmptyTable => True
  | _, _ => False
  end.

Lemma at_X (v : list R) (i : Z) : (0 <= i < Z.of_nat (length v))%Z -> at_ v i = Ret (X v (Z.to_nat i)).
Proof.
  intro H. unfold at_, X. destruct (Z.ltb_spec i 0); [lia|].
  destruct (nth_error v (Z.to_nat i)) as [a|] eqn:Ea.
  - now rewrite (nth_error_nth _ _ 0 Ea).
  - apply nth_error_None in Ea. lia.
Qed.
Lemma at_nat (v : list R) (i : nat) : (i < length v)%nat -> at_ v (Z.of_nat i) = Ret (X v i).
Proof. intro H. rewrite at_X by lia. now rewrite Nat2Z.id. Qed.

Lemma first_find {E} bound : forall (x : list R) k, (exists v, In v x /\ bound <= v) ->
  exists i, @find_from RMath E bound x k = Ok i /\ first_nonzero RMath bound x (Z.of_nat k) = Ret (Z.of_nat i)
    /\ (k <= i < k + length x)%nat /\ bound <= X x (i - k).
Proof.
  induction x as [|v x IH]; intros k (w & Hw & Hb); [destruct Hw|]. cbn [find_from first_nonzero].
  change (mnum RMath) with RNum. destruct (fle RNum bound v) eqn:Ev.
  - apply Rfle_true in Ev. exists k. cbn [length]. repeat split; try lia. now rewrite Nat.sub_diag.
  - apply Rfle_false in Ev. destruct (IH (S k)) as (i & F1 & F2 & Hi & Hv).
    + destruct Hw as [->|Hw]; [lra|]. exists w. auto.
    + exists i. split; [exact F1|]. replace (Z.of_nat k + 1)%Z with (Z.of_nat (S k)) by lia. split; [exact F2|].
      cbn [length]. split; [lia|]. replace (i - k)%nat with (S (i - S k)) by lia. exact Hv.
Qed.

Lemma divide_length (x y : list R) : length x = length y -> length (np_divide RMath y x) = length x.
Proof. intro H. unfold np_divide. rewrite map_length, combine_length. change (F RMath) with R. lia. Qed.
Lemma divide_X (x y : list R) i : length x = length y -> (i < length x)%nat -> X (np_divide RMath y x) i = V x y i.
Proof.
  revert y i. induction x as [|a x IH]; intros [|b y] i Hl Hi; cbn [length] in *; try lia.
  destruct i as [|i]; [reflexivity|]. exact (IH y i ltac:(lia) ltac:(lia)).
Qed.

Lemma trapz_from (xs : list R) : forall ys acc, length ys = length xs ->
  np_trapezoid_from RMath acc ys xs
  = acc + rsum (map (fun k => (X xs (S k) - X xs k) * (X ys k + X ys (S k)) / 2) (seq 0 (length xs - 1))).
Proof.
  induction xs as [|x0 xs IH]; intros [|y0 ys] acc Hl; cbn [length] in *; try lia.
  { exact (eq_sym (Rplus_0_r acc)). }
  destruct xs as [|x1 xs], ys as [|y1 ys]; cbn [length] in *; try lia.
  { exact (eq_sym (Rplus_0_r acc)). }
  change (np_trapezoid_from RMath acc (y0 :: y1 :: ys) (x0 :: x1 :: xs))
    with (np_trapezoid_from RMath (acc + (x1 - x0) * (y1 + y0) / Q2R 2) (y1 :: ys) (x1 :: xs)).
  rewrite Q2R_2, IH by (cbn [length]; lia). cbn [length].
  replace (S (S (length xs)) - 1)%nat with (S (length xs)) by lia. replace (S (length xs) - 1)%nat with (length xs) by lia.
  cbn [seq map rsum fold_right]. rewrite <- seq_shift, map_map. fold (rsum). 
  match goal with |- _ + ?a = _ + (_ + ?b) => change b with a; generalize a end. intro a.
  unfold X. cbn [nth]. lra.
Qed.
Lemma trapz_slice (x y : list R) (i n : nat) : length x = length y -> (1 <= n)%nat -> (i + n <= length x)%nat ->
  np_trapezoid RMath (firstn n (skipn i (np_divide RMath y x))) (firstn n (skipn i x)) = cells x y i (n - 1).
Proof.
  intros Hl Hn Hi. unfold np_trapezoid. pose proof (divide_length x y Hl) as DL.
  assert (L1 : length (firstn n (skipn i x)) = n) by (rewrite firstn_length, skipn_length; lia).
  rewrite trapz_from. 2:{ rewrite !firstn_length, !skipn_length. change (F RMath) with R in *. lia. }
  rmodel. rewrite Rplus_0_l, L1. unfold cells. f_equal.
  replace (seq i (n - 1)) with (map (Nat.add i) (seq 0 (n - 1))).
  - rewrite map_map. apply map_ext_in. intros k Hk. apply in_seq in Hk. unfold cell.
    change (F RMath) with R in *. rewrite !X_slice by lia.
    rewrite !divide_X by lia. replace (i + S k)%nat with (S (i + k)) by lia. reflexivity.
  - generalize (n - 1)%nat as m. clear. intro m.
    assert (K : forall k, map (Nat.add i) (seq k m) = seq (i + k) m).
    { induction m as [|m IH]; intro k; [reflexivity|]. cbn [seq map]. rewrite IH. now rewrite Nat.add_succ_r. }
    rewrite K. now rewrite Nat.add_0_r.
Qed.

Lemma port_table e beta (x y : list R) :
  same_outcome (cy_boost_integrate_linear_interp RMath e beta x y) (boost_integrate_linear_interp RMath e beta x y).
Proof.
  unfold cy_boost_integrate_linear_interp, boost_integrate_linear_interp.
  change (mnum RMath) with RNum in *. change (lit RNum) with Q2R. change (F RNum) with R in *.
  rewrite Q2R_1, Q2R_2, RMicromega.Q2R_0, Q2R_half, Q2R_micro.
  destruct (flt RNum 0 beta && flt RNum beta 1); [|exact I]. cbn [negb].
  destruct (Nat.eqb_spec (length x) (length y)) as [Hl|Hl].
  2:{ destruct (Z.eqb_spec (Z.of_nat (length x)) (Z.of_nat (length y))); [lia|exact I]. }
  destruct (Z.eqb_spec (Z.of_nat (length x)) (Z.of_nat (length y))); [|lia]. cbn [negb].
  destruct (Nat.eqb_spec (length x) 0) as [H0|H0].
  { destruct x; [|discriminate H0]. exact I. }
  rewrite !at_X by lia. cbn [bind]. rewrite !X_get by lia. cbn [rbind].
  replace (Z.to_nat (Z.of_nat (length x) - 1)) with (length x - 1)%nat by lia. change (Z.to_nat 0) with 0%nat.
  change (fma RNum) with (fun a b c : R => a * b + c). cbn beta.
  change (fneg RNum) with Ropp. change (fmul RNum) with Rmult. change (fdiv RNum) with Rdiv.
  change (fsub RNum) with Rminus. change (fadd RNum) with Rplus. change (fabs RNum) with Rabs.
  change (fsqrt RMath) with sqrt. change (is_nan RNum) with (fun _ : R => false). cbn beta. cbn [orb].
  replace (- beta * beta + 1) with (1 - beta * beta) by ring.
  set (g := 1 / sqrt (1 - beta * beta)). set (lb0 := e * g * (1 - beta)). set (ub0 := e * g * (1 + beta)).
  destruct (flt RNum (X x (length x - 1)) lb0) eqn:C1; [reflexivity|]. apply Rflt_false in C1.
  destruct (flt RNum ub0 (X x 0)) eqn:C2; [reflexivity|]. apply Rflt_false in C2.
  (* the upper end *)
  set (uz := if flt RNum (X x (length x - 1)) ub0 then (X x (length x - 1), (Z.of_nat (length x) - 1)%Z) else (ub0, (-1)%Z)).
  set (u := if flt RNum (X x (length x - 1)) ub0 then (X x (length x - 1), Some (length x - 1)%nat) else (ub0, None)).
  assert (Hu : fst uz = fst u /\ exists j, (j < length x)%nat /\ find_high RMath (fst u) x (snd u) = Ok j
    /\ (if (snd uz =? -1)%Z then bind (first_nonzero RMath (fst u) x 0%Z) (fun ihigh => bind (at_ x ihigh)
          (fun xh => Ret (if flt RNum (/ 10 ^ 6) (Rabs (xh - fst u)) then (ihigh - 1)%Z else ihigh)))
        else Ret (snd uz)) = Ret (Z.of_nat j)).
  { unfold u, uz. destruct (flt RNum (X x (length x - 1)) ub0) eqn:C3; cbn [fst snd find_high].
    - split; [reflexivity|]. exists (length x - 1)%nat. split; [lia|]. split; [reflexivity|].
      destruct (Z.eqb_spec (Z.of_nat (length x) - 1) (-1)); [lia|]. f_equal. lia.
    - apply Rflt_false in C3. split; [reflexivity|].
      destruct (@first_find BoostError ub0 x 0) as (i & F1 & F2 & Hi & Hv).
      { exists (X x (length x - 1)). split; [apply In_X; lia|exact C3]. }
      change (mnum RMath) with RNum in *. change (F RNum) with R in *. rewrite Nat.sub_0_r in Hv.
      rewrite F1. change (0%Z) with (Z.of_nat 0). rewrite F2. cbn [rbind bind]. rewrite X_get, at_nat by lia. cbn [rbind bind].
      change (lit RNum) with Q2R. rewrite Q2R_micro. change (fabs RNum) with Rabs. change (fsub RNum) with Rminus.
      destruct (flt RNum (/ 10 ^ 6) (Rabs (X x i - ub0))) eqn:C4.
      + apply Rflt_true in C4. assert (Hi0 : i <> 0%nat).
        { intros ->. replace (X x 0 - ub0) with 0 in C4 by lra. rewrite Rabs_R0 in C4.
          assert (0 < / 10 ^ 6) by (apply Rinv_0_lt_compat, pow_lt; lra). lra. }
        exists (i - 1)%nat. split; [lia|]. unfold csub. destruct (Nat.leb_spec 1 i); [|lia]. split; [reflexivity|].
        cbn. f_equal. lia.
      + exists i. split; [lia|]. split; reflexivity. }
  destruct u as [ub ih], uz as [ub' ihz]. cbn [fst snd] in Hu. destruct Hu as (-> & j & Hj & HJ & HJz).
  set (lz := if flt RNum lb0 (X x 0) then (0 + X y 0 * (1 - (1 - beta) * e * g / X x 0) / ((1 - beta) * e * g / X x 0), X x 0, 0%Z)
             else (0, lb0, (-1)%Z)).
  set (l := if flt RNum lb0 (X x 0) then (0 + X y 0 * (1 - (1 - beta) * e * g / X x 0) / ((1 - beta) * e * g / X x 0), X x 0, Some 0%nat)
             else (0, lb0, None)).
  assert (HL : fst lz = fst l /\ exists i, (i < length x)%nat /\ find_low RMath (snd (fst l)) x (snd l) = Ok i
    /\ (if (snd lz =? -1)%Z then first_nonzero RMath (snd (fst l)) x 0%Z else Ret (snd lz)) = Ret (Z.of_nat i)).
  { unfold l, lz. destruct (flt RNum lb0 (X x 0)) eqn:C3; cbn [fst snd find_low].
    - split; [reflexivity|]. exists 0%nat. split; [lia|]. split; reflexivity.
    - split; [reflexivity|]. destruct (@first_find BoostError lb0 x 0) as (i & F1 & F2 & Hi & Hv).
      { exists (X x (length x - 1)). split; [apply In_X; lia|exact C1]. }
      exists i. split; [lia|]. split; [exact F1|]. exact F2. }
  destruct l as [[s lb] il], lz as [[s' lb'] ilz]. cbn [fst snd] in HL. destruct HL as (E & i & Hi & HI & HIz).
  injection E as -> ->. rewrite HI, HIz. cbn [rbind bind]. rewrite HJ. cbn [rbind]. rewrite HJz. cbn [bind].
  pose proof (divide_length x y Hl) as DL. change (F RMath) with R in DL.
  set (yy := fun k : nat => rbind (get y k) (fun a => rbind (get x k) (fun b => Ok (a / b)))).
  assert (Hyy : forall k, (k < length x)%nat -> yy k = Ok (V x y k)).
  { intros k Hk. unfold yy. rewrite !X_get by lia. reflexivity. }
  set (yz := np_divide RMath y x) in *.
  assert (Hyz : forall k : Z, (0 <= k < Z.of_nat (length x))%Z -> at_ yz k = Ret (V x y (Z.to_nat k))).
  { intros k Hk. rewrite at_X by lia. unfold yz. rewrite divide_X by lia. reflexivity. }
  (* the interior *)
  set (s1 := if (Z.of_nat i <? Z.of_nat j)%Z then s + np_trapezoid RMath (slice yz (Z.of_nat i) (Z.of_nat j)) (slice x (Z.of_nat i) (Z.of_nat j)) else s).
  match goal with |- same_outcome _ (rbind ?t _) => assert (T1 : t = Ok s1) end.
  { unfold s1. destruct (Nat.ltb_spec i j), (Z.ltb_spec (Z.of_nat i) (Z.of_nat j)); try lia; [|reflexivity].
    rewrite (trapezoid_real x y yy Hyy) by lia. cbn [rbind]. unfold slice. rewrite !Nat2Z.id.
    unfold yz. rewrite trapz_slice by lia. reflexivity. }
  rewrite T1. clear T1. cbn [rbind].
  match goal with |- context [if (Z.of_nat i <? Z.of_nat j)%Z then ?t else ?u] =>
    change (if (Z.of_nat i <? Z.of_nat j)%Z then t else u) with s1 end. clearbody s1. rewrite X_get by lia. cbn [rbind].
  match goal with |- same_outcome (bind ?t _) (rbind ?r _) =>
    assert (T2 : exists v, t = Ret v /\ r = Ok v) end.
  { destruct (Nat.ltb_spec 0 i) as [Hp|Hp], (Z.ltb_spec 0 (Z.of_nat i)); try lia; cbn [andb]; [|eexists; split; reflexivity].
    rewrite at_nat by lia. cbn [bind]. destruct (flt RNum (/ 10 ^ 6) (Rabs (X x i - lb))); [|eexists; split; reflexivity].
    rewrite at_X by lia. cbn [bind]. rewrite !Hyz by lia. cbn [bind]. eexists. split; [reflexivity|].
    repeat (rewrite X_get by lia; cbn [rbind]). f_equal. unfold V, X.
    rewrite Nat2Z.id. replace (Z.to_nat (Z.of_nat i - 1)) with (i - 1)%nat by lia. ring. }
  destruct T2 as (s2 & -> & ->). cbn [rbind bind].
  match goal with |- same_outcome (bind ?t _) (rbind ?r _) =>
    assert (T3 : exists v, t = Ret v /\ r = Ok v) end.
  { destruct (Nat.ltb_spec j (length x - 1)) as [Hp|Hp], (Z.ltb_spec (Z.of_nat j) (Z.of_nat (length x) - 1)); try lia;
      [|eexists; split; reflexivity].
    rewrite at_nat by lia. cbn [bind]. rewrite X_get by lia. cbn [rbind].
    destruct (flt RNum (/ 10 ^ 6) (Rabs (ub - X x j))); [|eexists; split; reflexivity].
    rewrite at_X by lia. cbn [bind]. rewrite !Hyz by lia. cbn [bind]. eexists. split; [reflexivity|].
    repeat (rewrite X_get by lia; cbn [rbind]). f_equal. unfold V, X.
    rewrite Nat2Z.id. replace (Z.to_nat (Z.of_nat j + 1)) with (j + 1)%nat by lia. ring. }
  destruct T3 as (s3 & -> & ->). reflexivity.
Qed.

(** ** boost_eng and boost_jac *)
(** Energy, and cosine of the angle to the z-axis, of a particle of mass [m], energy [e] and direction cosine [z] after a
    boost with velocity [b] along the z-axis. *)
Definition rest_energy (b m e z : R) : R := lorentz b * (e + b * (z * momentum e m)).
Definition rest_cos (b m e z : R) : R := lorentz b * (z * momentum e m + b * e) / momentum (rest_energy b m e z) m.

Lemma kt_momentum md ed : 0 <= md < ed -> sqrt (1 - md / ed * (md / ed)) = momentum ed md / ed.
Proof.
  intro H. destruct (momentum_sq md ltac:(lra) ed ltac:(lra)) as (K & Q). apply sqrt_lem_1.
  - assert (0 <= md / ed < 1).
    { split; [apply Rmult_le_pos; [lra|apply Rlt_le, Rinv_0_lt_compat; lra]|].
      apply (Rmult_lt_reg_r ed); [lra|]. unfold Rdiv. rewrite Rmult_assoc, Rinv_l; lra. }
    nra.
  - apply Rmult_le_pos; [exact K|apply Rlt_le, Rinv_0_lt_compat; lra].
  - replace (momentum ed md / ed * (momentum ed md / ed)) with ((momentum ed md * momentum ed md) / (ed * ed)) by (field; lra).
    rewrite Q. field. lra.
Qed.
Lemma lorentz_of ep mp : 0 < mp < ep -> lorentz (velo ep mp) = ep / mp.
Proof. intro H. apply velo_facts; exact H. Qed.
Lemma eng_rest ep mp ed md z : 0 < mp < ep -> 0 <= md < ed ->
  boost_eng RMath ep mp ed md z = rest_energy (velo ep mp) md ed z.
Proof.
  intros Hp Hd. unfold boost_eng. rewrite port_beta, beta_velo. unfold cy_boost_gamma. rmodel.
  rewrite kt_momentum by exact Hd. unfold rest_energy. rewrite lorentz_of by exact Hp. field. lra.
Qed.
Lemma jac_rest ep mp ed md z : 0 < mp < ep -> 0 <= md < ed ->
  boost_jac RMath ep mp ed md z = momentum ed md / rest_energy (velo ep mp) md ed z.
Proof.
  intros Hp Hd. unfold boost_jac. rewrite port_beta, beta_velo. unfold cy_boost_gamma. rmodel.
  rewrite kt_momentum by exact Hd. unfold rest_energy. rewrite lorentz_of by exact Hp.
  set (v := velo ep mp). set (k := momentum ed md).
  destruct (Req_dec (ed + v * (z * k)) 0) as [Z|Z].
  - replace (1 + v * (k / ed) * z) with ((ed + v * (z * k)) / ed) by (field; lra). rewrite Z.
    unfold Rdiv. now rewrite ?Rmult_0_l, ?Rmult_0_r, ?Rinv_0, ?Rmult_0_r.
  - field. repeat split; lra.
Qed.

(** The matrix element: E_p E_d + p_p p_d z over m_p *)
Lemma eng_invariant ep mp ed md z : 0 < mp < ep -> 0 <= md < ed ->
  boost_eng RMath ep mp ed md z = (ep * ed + momentum ep mp * (momentum ed md * z)) / mp.
Proof.
  intros Hp Hd. rewrite eng_rest by assumption. unfold rest_energy. rewrite lorentz_of by exact Hp.
  assert (V : velo ep mp = momentum ep mp / ep).
  { unfold velo. replace ((mp / ep) ^ 2) with (mp / ep * (mp / ep)) by ring. apply kt_momentum. lra. }
  rewrite V. rmodel. field. lra.
Qed.

Section Jacobian.
Variables b m e z : R.
Hypothesis Hb : 0 < b < 1.
Hypothesis Hm : 0 <= m < e.
Hypothesis HE : m < rest_energy b m e z.
Let k := momentum e m.
Let ER := rest_energy b m e z.
Let P := momentum ER m.

Lemma k_pos : 0 < k.
Proof. now apply momentum_pos. Qed.
Lemma P_pos : 0 < P.
Proof. apply momentum_pos. unfold ER. lra. Qed.
Lemma d_k : derivable_pt_lim (fun t => momentum t m) e (e / k).
Proof.
  unfold momentum. eapply dl_val.
  - apply (dl_sqrt (fun t => t * t - m * m) e).
    + apply dl_minus; [apply dl_mult; apply dl_id|apply dl_const].
    + nra.
  - pose proof k_pos as K. unfold k, momentum in *. field. lra.
Qed.
Lemma d_E_e : derivable_pt_lim (fun t => rest_energy b m t z) e (lorentz b * (1 + b * (z * (e / k)))).
Proof.
  unfold rest_energy. eapply dl_val.
  - apply dl_mult; [apply dl_const|]. apply dl_plus; [apply dl_id|].
    apply dl_mult; [apply dl_const|]. apply dl_mult; [apply dl_const|apply d_k].
  - cbn beta. unfold Rdiv. ring.
Qed.
Lemma d_E_z : derivable_pt_lim (fun t => rest_energy b m e t) z (lorentz b * (b * k)).
Proof.
  unfold rest_energy. eapply dl_val.
  - apply dl_mult; [apply dl_const|]. apply dl_plus; [apply dl_const|].
    apply dl_mult; [apply dl_const|]. apply dl_mult; [apply dl_id|apply dl_const].
  - cbn beta. unfold k. ring.
Qed.
Lemma d_mom (f : R -> R) x d : f x = ER -> derivable_pt_lim f x d ->
  derivable_pt_lim (fun t => momentum (f t) m) x (ER * d / P).
Proof.
  intros Ef D. unfold momentum. eapply dl_val.
  - apply (dl_sqrt (fun t => f t * f t - m * m) x).
    + apply dl_minus; [apply dl_mult; exact D|apply dl_const].
    + rewrite Ef. unfold ER. nra.
  - pose proof P_pos as K. rewrite Ef. unfold P, momentum in *. field. lra.
Qed.
Lemma d_c_e : derivable_pt_lim (fun t => rest_cos b m t z) e
  ((lorentz b * (z * (e / k) + b) * P - lorentz b * (z * k + b * e) * (ER * (lorentz b * (1 + b * (z * (e / k)))) / P)) / P ^ 2).
Proof.
  unfold rest_cos. pose proof P_pos as K. eapply dl_val.
  - apply dl_div.
    + apply dl_mult; [apply dl_const|]. apply dl_plus; [apply dl_mult; [apply dl_const|apply d_k]|].
      apply dl_mult; [apply dl_const|apply dl_id].
    + apply (d_mom (fun t => rest_energy b m t z)); [reflexivity|apply d_E_e].
    + fold ER. fold P. lra.
  - cbn beta. fold k. fold ER. fold P. unfold Rsqr. pose proof k_pos. field. lra.
Qed.
Lemma d_c_z : derivable_pt_lim (fun t => rest_cos b m e t) z
  ((lorentz b * k * P - lorentz b * (z * k + b * e) * (ER * (lorentz b * (b * k)) / P)) / P ^ 2).
Proof.
  unfold rest_cos. pose proof P_pos as K. eapply dl_val.
  - apply dl_div.
    + apply dl_mult; [apply dl_const|]. apply dl_plus; [apply dl_mult; [apply dl_id|apply dl_const]|apply dl_const].
    + apply (d_mom (fun t => rest_energy b m e t)); [reflexivity|apply d_E_z].
    + fold ER. fold P. lra.
  - cbn beta. fold k. fold ER. fold P. unfold Rsqr. pose proof k_pos. field. lra.
Qed.

(** The determinant of the derivatives is the ratio of the momenta. *)
Lemma jacobian_value Ee Ez Ce Cz :
  derivable_pt_lim (fun t => rest_energy b m t z) e Ee -> derivable_pt_lim (fun t => rest_energy b m e t) z Ez ->
  derivable_pt_lim (fun t => rest_cos b m t z) e Ce -> derivable_pt_lim (fun t => rest_cos b m e t) z Cz ->
  Ee * Cz - Ez * Ce = momentum e m / momentum (rest_energy b m e z) m.
Proof.
  intros D1 D2 D3 D4.
  rewrite (uniqueness_limite _ _ _ _ D1 d_E_e), (uniqueness_limite _ _ _ _ D2 d_E_z),
    (uniqueness_limite _ _ _ _ D3 d_c_e), (uniqueness_limite _ _ _ _ D4 d_c_z).
  fold ER. fold P. fold k. pose proof P_pos. pose proof k_pos.
  pose proof (lorentz_pos b Hb) as L.
  assert (Q : lorentz b * lorentz b * (1 - b * b) = 1).
  { unfold lorentz. destruct (s_facts b Hb) as (S1 & S2). set (s := sqrt (1 - b * b)) in *. rewrite <- S2. field. lra. }
  transitivity ((lorentz b * lorentz b * (1 - b * b)) * k / P); [field; lra|rewrite Q; field; lra].
Qed.
End Jacobian.

(** ** Tables of constants *)
Definition value (t : list (string * Q)) (name : string) : option Q := dget t name.
Definition to_upper (c : Ascii.ascii) : Ascii.ascii :=
  let n := Ascii.nat_of_ascii c in if (Nat.leb 97 n && Nat.leb n 122)%bool then Ascii.ascii_of_nat (n - 32) else c.
Fixpoint upper (s : string) : string :=
  match s with EmptyString => EmptyString | String c s => String (to_upper c) (upper s) end.
(** The branching ratios of [parent], added up *)
Definition branching_total (t : list (string * Q)) (parent : string) : Q :=
  fold_right (fun p acc => if String.prefix ("BR_" ++ parent ++ "_TO_") (fst p) then snd p + acc else acc)%Q 0%Q t.
(** |a - b| <= eps *)
Definition near (a b eps : Q) : bool := Qle_bool (a - b) eps && Qle_bool (b - a) eps.

(** ** The largest photon energy of eng_gam_max *)
Local Open Scope R_scope.
Definition pyx_gam_max (epi : R) : R :=
  eng_gam_max RMath 139.57039 52.82795006985128 0.27138337509758564 1.0389919859434902 epi.

Lemma gam_max_muon spence alpha e epi cl : 139.57039 < epi -> -1 <= cl <= 1 -> pyx_gam_max epi < e ->
  cy_photon_muon RMath spence 0.5109989461 105.6583745 alpha
    (e * (epi / 139.57039) * (1 - velo epi 139.57039 * cl)) 109.77820123634007 = 0.
Proof.
  intros He Hc Hg. unfold pyx_gam_max, eng_gam_max in Hg. rewrite port_beta, beta_velo in Hg.
  unfold cy_boost_gamma in Hg. rmodel.
  destruct (velo_facts epi 139.57039 ltac:(lra)) as (B & Q & L).
  set (v := velo epi 139.57039) in *. set (g := epi / 139.57039) in *.
  assert (Gp : 0 < g) by (apply Rdiv_lt_0_compat; lra).
  assert (G2 : g * g * (1 - v * v) = 1).
  { rewrite Q. unfold g. field. lra. }
  set (c := 52.82795006985128 * 1.0389919859434902 * (1 + 0.27138337509758564)).
  assert (Hg' : c * (g * (1 + v)) < e) by (unfold c; lra).
  assert (Cp : 0 < c) by (unfold c; lra).
  assert (K : c < e * g * (1 - v * cl)).
  { assert (K1 : c < e * (g * (1 - v))).
    { replace c with (c * (g * (1 + v)) * (g * (1 - v))) by (transitivity (c * (g * g * (1 - v * v))); [ring|rewrite G2; ring]).
      apply Rmult_lt_compat_r; [|exact Hg']. apply Rmult_lt_0_compat; lra. }
    assert (0 < e) by (apply Rlt_trans with (c * (g * (1 + v))); [|exact Hg'];
      apply Rmult_lt_0_compat; [exact Cp|apply Rmult_lt_0_compat; lra]).
    apply Rlt_le_trans with (1 := K1). replace (e * g * (1 - v * cl)) with (e * (g * (1 - v * cl))) by ring.
    apply Rmult_le_compat_l; [lra|]. apply Rmult_le_compat_l; [lra|]. nra. }
  set (E := e * g * (1 - v * cl)) in *. clearbody E. clear - K Cp.
  unfold cy_photon_muon. runit. change (F RMath) with R.
  destruct (Rlt_dec 109.77820123634007 105.6583745) as [X|_]; [lra|].
  destruct (Rlt_dec (109.77820123634007 - 105.6583745) (/ 2 ^ 52)) as [X|_]; [lra|].
  set (b := sqrt (1 - 105.6583745 / 109.77820123634007 * (105.6583745 / 109.77820123634007))).
  assert (Hb : b <= 0.27138328).
  { unfold b. apply Rsqr_incr_0_var; [|lra]. rewrite Rsqr_sqrt; unfold Rsqr; lra. }
  set (x := 2 * E / 105.6583745 * (109.77820123634007 / 105.6583745)).
  set (r := 0.5109989461 / 105.6583745 * (0.5109989461 / 105.6583745)).
  assert (Hx : (1 - r) / (1 - b) <= x).
  { apply (Rmult_le_reg_r (1 - b)); [lra|]. unfold Rdiv. rewrite Rmult_assoc, Rinv_l, Rmult_1_r by lra.
    apply Rle_trans with (x * (1 - 0.27138328)).
    - unfold x, r. unfold c in K. lra.
    - apply Rmult_le_compat_l; [|lra]. unfold x. unfold c in K. lra. }
  destruct (Rle_dec ((1 - r) / (1 - b)) x) as [_|N]; [|contradiction].
  rewrite orb_true_r. reflexivity.
Qed.
