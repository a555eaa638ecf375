(** Lemmas for the old form factor tree: antiderivatives, partial fractions, and the connection to events
    and phase space. *)
From Coq Require Import ZArith Reals Bool Lra Lia Psatz List.
From Verif Require Import PyBase RamboModel RamboProofs KinModel KinProofs KinProps DalitzProofs Area Primitive SpecProofs MedSpecProofs RhnProofs VffModel VffProofs PionProofs OldModel.
Import ListNotations.
Local Open Scope R_scope.

(** * Areas *)
(** [x] and everything between the limits lie on one side of [z] *)
Definition one_side (z lb ub : R) : Prop := lb < ub /\ (z < lb \/ ub < z).
Lemma one_side_ne z lb ub x : one_side z lb ub -> lb <= x <= ub -> x - z <> 0.
Proof. intros [H [A|A]] B; lra. Qed.
Lemma one_side_ratio z lb ub x : one_side z lb ub -> lb <= x <= ub -> 0 < (x - z) / (lb - z).
Proof.
  intros [H [A|A]] B; [apply Rdiv_lt_0_compat; lra|].
  replace ((x - z) / (lb - z)) with ((z - x) / (z - lb)) by (field; lra). apply Rdiv_lt_0_compat; lra.
Qed.
Lemma area_log z lb ub : one_side z lb ub -> area (fun x => / (x - z)) lb ub (ln ((ub - z) / (lb - z))).
Proof.
  intros H. assert (N : lb - z <> 0) by (apply (one_side_ne z lb ub); [exact H|destruct H; lra]).
  eapply area_val; [|apply area_of_antiderivative with (G := fun x => ln ((x - z) / (lb - z)))].
  - replace ((lb - z) / (lb - z)) with 1 by (field; exact N). rewrite ln_1. lra.
  - intros x Hx. pose proof (one_side_ratio z lb ub x H Hx) as P. pose proof (one_side_ne z lb ub x H Hx) as Q.
    eapply dl_val; [apply (derivable_pt_lim_comp (fun x => (x - z) / (lb - z)) ln);
      [apply dl_div; [apply dl_minus; [apply dl_id|apply dl_const]|apply dl_const|exact N]|apply derivable_pt_lim_ln; exact P]|].
    cbn beta. unfold Rsqr. field. tauto.
Qed.
Lemma dl_zpow (k : Z) x : x <> 0 -> derivable_pt_lim (fun y => powerRZ y k) x (IZR k * powerRZ x (k - 1)).
Proof.
  intro H. destruct k as [|p|p].
  - cbn [powerRZ]. rewrite Rmult_0_l. apply (dl_const 1).
  - replace (Zpos p - 1)%Z with (Z.of_nat (pred (Pos.to_nat p))) by lia. rewrite <- pow_powerRZ.
    rewrite <- (positive_nat_Z p), <- INR_IZR_INZ.
    apply (derivable_pt_lim_ext (fun y => y ^ Pos.to_nat p)); [intro; now rewrite pow_powerRZ|]. apply derivable_pt_lim_pow.
  - set (n := Pos.to_nat p). assert (Ek : Zneg p = (- Z.of_nat n)%Z) by (unfold n; lia). rewrite Ek.
    apply (derivable_pt_lim_ext (fun y => / (y ^ n))).
    { intro y. rewrite powerRZ_neg', <- pow_powerRZ. reflexivity. }
    assert (Hn : x ^ n <> 0) by (apply pow_nonzero; exact H).
    eapply dl_val; [apply (derivable_pt_lim_ext (fun y => 1 / y ^ n)); [intro; unfold Rdiv; ring|];
      apply dl_div; [apply (dl_const 1)|apply dl_pow, dl_id|exact Hn]|].
    cbn beta. assert (Hp : (0 < n)%nat) by (unfold n; lia). destruct n as [|j]; [lia|].
    replace (- Z.of_nat (S j) - 1)%Z with (- Z.of_nat (S (S j)))%Z by lia. rewrite powerRZ_neg', <- pow_powerRZ.
    rewrite opp_IZR, <- INR_IZR_INZ. unfold Rsqr. cbn [pred pow]. assert (x ^ j <> 0) by (apply pow_nonzero; exact H). field. tauto.
Qed.
Lemma area_zpow z lb ub (k : Z) : one_side z lb ub -> k <> (-1)%Z ->
  area (fun x => powerRZ (x - z) k) lb ub ((powerRZ (ub - z) (k + 1) - powerRZ (lb - z) (k + 1)) / IZR (k + 1)).
Proof.
  intros H Hk. assert (N : IZR (k + 1) <> 0) by (apply not_0_IZR; lia).
  eapply area_val; [|apply area_of_antiderivative with (G := fun x => powerRZ (x - z) (k + 1) / IZR (k + 1))].
  - field. exact N.
  - intros x Hx. pose proof (one_side_ne z lb ub x H Hx) as Q.
    eapply dl_val; [apply dl_div; [apply (derivable_pt_lim_comp (fun x => x - z) (fun y => powerRZ y (k + 1)));
      [apply dl_minus; [apply dl_id|apply dl_const]|apply dl_zpow; exact Q]|apply dl_const|exact N]|].
    cbn beta. replace (k + 1 - 1)%Z with k by lia. unfold Rsqr. field. exact N.
Qed.

(** Sums of areas *)
Fixpoint rsum (l : list R) : R := match l with [] => 0 | a :: l => a + rsum l end.
Lemma area_sum {A} (f : A -> R -> R) (v : A -> R) lb ub l : (forall a, In a l -> area (f a) lb ub (v a)) ->
  area (fun x => rsum (map (fun a => f a x) l)) lb ub (rsum (map v l)).
Proof.
  induction l as [|a l IH]; intro H.
  - cbn. eapply area_val; [|apply (area_const 0)]. ring.
  - cbn [map rsum]. apply area_plus; [apply H; now left|apply IH; intros; apply H; now right].
Qed.
Lemma osum_some {A} (f : A -> onum) (v : A -> R) l : (forall a, In a l -> f a = Some (v a)) ->
  osum (map f l) = Some (rsum (map v l)).
Proof.
  induction l as [|a l IH]; intro H; [reflexivity|]. cbn [map osum rsum].
  rewrite (H a (or_introl eq_refl)). cbn [obind]. rewrite IH by (intros; apply H; now right). reflexivity.
Qed.
Lemma rsum_ext {A} (f g : A -> R) l : (forall a, In a l -> f a = g a) -> rsum (map f l) = rsum (map g l).
Proof. induction l as [|a l IH]; intro H; [reflexivity|]. cbn [map rsum]. rewrite (H a (or_introl eq_refl)), IH; [reflexivity|intros; apply H; now right]. Qed.
Lemma rsum_scale {A} c (f : A -> R) l : rsum (map (fun a => c * f a) l) = c * rsum (map f l).
Proof. induction l as [|a l IH]; cbn [map rsum]; [ring|rewrite IH; ring]. Qed.
Lemma rsum_plus {A} (f g : A -> R) l : rsum (map (fun a => f a + g a) l) = rsum (map f l) + rsum (map g l).
Proof. induction l as [|a l IH]; cbn [map rsum]; [ring|rewrite IH; ring]. Qed.
Lemma rsum_app l r : rsum (l ++ r) = rsum l + rsum r.
Proof. induction l as [|a l IH]; cbn [app rsum]; [ring|rewrite IH; ring]. Qed.
Lemma sum_f_rsum f n : sum_f_R0 f n = rsum (map f (seq 0 (n + 1))).
Proof.
  induction n as [|n IH]; [cbn; ring|]. cbn [sum_f_R0]. rewrite IH.
  replace (S n + 1)%nat with ((n + 1) + 1)%nat by lia. rewrite (seq_app (n + 1) 1), map_app, rsum_app.
  cbn [seq map rsum]. replace (0 + (n + 1))%nat with (S n) by lia. ring.
Qed.

(** The expansion of x^n around z *)
Lemma expand n x z : x ^ n = rsum (map (fun k => Binomial.C n k * z ^ (n - k) * (x - z) ^ k) (seq 0 (n + 1))).
Proof.
  replace x with ((x - z) + z) at 1 by ring. rewrite binomial, sum_f_rsum. apply rsum_ext. intros k _. ring.
Qed.
Lemma quotient_expand n m x z : x - z <> 0 ->
  x ^ n / (x - z) ^ m
  = rsum (map (fun k => Binomial.C n k * z ^ (n - k) * powerRZ (x - z) (Z.of_nat k - Z.of_nat m)) (seq 0 (n + 1))).
Proof.
  intro H. rewrite (expand n x z) at 1. unfold Rdiv. rewrite Rmult_comm, <- rsum_scale. apply rsum_ext. intros k _.
  unfold Z.sub. rewrite powerRZ_add by exact H. rewrite powerRZ_neg', <- !pow_powerRZ. ring.
Qed.
(** The integral of each term *)
Definition zarea (z lb ub : R) (k : Z) : R :=
  if Z.eqb k (-1) then ln ((ub - z) / (lb - z))
  else (powerRZ (ub - z) (k + 1) - powerRZ (lb - z) (k + 1)) / IZR (k + 1).
Lemma zarea_spec z lb ub k : one_side z lb ub -> area (fun x => powerRZ (x - z) k) lb ub (zarea z lb ub k).
Proof.
  intro H. unfold zarea. destruct (Z.eqb_spec k (-1)) as [->|N]; [|now apply area_zpow].
  refine (area_ext _ _ _ _ _ [] _ (area_log z lb ub H)). intros x Hx _. cbn [powerRZ].
  rewrite pow_1. reflexivity.
Qed.
Lemma quotient_area n m z lb ub : one_side z lb ub ->
  area (fun x => x ^ n / (x - z) ^ m) lb ub
    (rsum (map (fun k => Binomial.C n k * z ^ (n - k) * zarea z lb ub (Z.of_nat k - Z.of_nat m)) (seq 0 (n + 1)))).
Proof.
  intro H. refine (area_ext _ _ _ _ _ [] _ (area_sum
    (fun k x => Binomial.C n k * z ^ (n - k) * powerRZ (x - z) (Z.of_nat k - Z.of_nat m)) _ lb ub (seq 0 (n + 1)) _)).
  - intros x Hx _. symmetry. apply quotient_expand. apply (one_side_ne z lb ub); [exact H|lra].
  - intros k _. apply area_scale. now apply zarea_spec.
Qed.

(** * The integrals of utils.py *)
Lemma odiv_some x y : y <> 0 -> odiv x y = Some (x / y).
Proof. intro H. unfold odiv. destruct (Req_EM_T y 0); [contradiction|reflexivity]. Qed.
Lemma oln_some x : 0 < x -> oln x = Some (ln x).
Proof. intro H. unfold oln. destruct (Rlt_dec 0 x); [reflexivity|contradiction]. Qed.
Lemma ozpow_some x k : x <> 0 -> ozpow x k = Some (powerRZ x k).
Proof. intro H. unfold ozpow. destruct (Z.ltb k 0); [|reflexivity]. destruct (Req_EM_T x 0); [contradiction|reflexivity]. Qed.
Lemma one_side_ends z lb ub : one_side z lb ub -> lb - z <> 0 /\ ub - z <> 0 /\ 0 < (ub - z) / (lb - z).
Proof.
  intro H. assert (lb < ub) by (destruct H; lra). split; [|split].
  - apply (one_side_ne z lb ub); [exact H|lra].
  - apply (one_side_ne z lb ub); [exact H|lra].
  - apply (one_side_ratio z lb ub); [exact H|lra].
Qed.
Lemma C_n_0 n : Binomial.C n 0 = 1.
Proof. unfold Binomial.C. rewrite Nat.sub_0_r. cbn [fact INR]. field. apply INR_fact_neq_0. Qed.
Lemma simple_monomial_value n z lb ub : z <> 0 -> one_side z lb ub ->
  exists v, integral_power_div_simple_monomial n z lb ub = Some v /\ area (fun x => x ^ n / (x - z)) lb ub v.
Proof.
  intros Hz H. destruct (one_side_ends z lb ub H) as (Nl & Nu & P).
  unfold integral_power_div_simple_monomial. destruct (Req_EM_T z 0) as [C|_]; [contradiction|].
  rewrite (odiv_some (ub - z)) by exact Nl. cbn [obind]. rewrite oln_some by exact P. cbn [obind].
  rewrite (osum_some _ (fun k => Binomial.C n k * z ^ (n - k) * zarea z lb ub (Z.of_nat k - 1))).
  2:{ intros k Hk. apply in_seq in Hk. rewrite odiv_some by (apply not_0_INR; lia). f_equal.
      unfold zarea. destruct (Z.eqb_spec (Z.of_nat k - 1) (-1)); [lia|].
      replace (Z.of_nat k - 1 + 1)%Z with (Z.of_nat k) by lia. rewrite <- !pow_powerRZ, <- INR_IZR_INZ. field. apply not_0_INR. lia. }
  cbn [obind]. eexists. split; [reflexivity|].
  pose proof (quotient_area n 1 z lb ub H) as Q. replace (n + 1)%nat with (S n) in Q by lia.
  cbn [seq map rsum] in Q. eapply area_val; [|refine (area_ext _ _ _ _ _ [] _ Q)].
  - cbn [Z.of_nat Pos.of_succ_nat Z.sub Z.add Z.opp]. rewrite C_n_0, Nat.sub_0_r.
    replace (zarea z lb ub (-1)) with (ln ((ub - z) / (lb - z))) by reflexivity. ring.
  - intros x _ _. cbv beta. rewrite pow_1. reflexivity.
Qed.
Lemma simple_monomial_zero lb ub : one_side 0 lb ub ->
  exists v, integral_power_div_simple_monomial 0 0 lb ub = Some v /\ area (fun x => x ^ 0 / (x - 0)) lb ub v.
Proof.
  intros H. destruct (one_side_ends 0 lb ub H) as (Nl & Nu & P). rewrite !Rminus_0_r in *.
  unfold integral_power_div_simple_monomial. destruct (Req_EM_T 0 0) as [_|C]; [|congruence].
  rewrite odiv_some by exact Nl. cbn [obind]. rewrite oln_some by exact P. eexists. split; [reflexivity|].
  pose proof (area_log 0 lb ub H) as A. rewrite !Rminus_0_r in A.
  refine (area_ext _ _ _ _ _ [] _ A). intros x _ _. cbn [pow]. unfold Rdiv. ring.
Qed.

(** The term that integral_power_div_monomial gets wrong *)
Definition log_error (n m : nat) (z lb ub : R) : R :=
  if (1 <=? m)%nat && (m <=? n + 1)%nat then
    (z ^ n - Binomial.C n (m - 1) * z ^ (n - (m - 1))) * ln ((ub - z) / (lb - z))
  else 0.
Lemma rsum_single (P : nat -> bool) (e : nat -> R) a len j : (forall k, P k = Nat.eqb k j) ->
  rsum (map (fun k => if P k then e k else 0) (seq a len)) = if (a <=? j)%nat && (j <? a + len)%nat then e j else 0.
Proof.
  intro HP. revert a. induction len as [|len IH]; intro a.
  - cbn [seq map rsum]. destruct (Nat.leb_spec a j), (Nat.ltb_spec j (a + 0)); cbn; try reflexivity. lia.
  - cbn [seq map rsum]. rewrite IH, HP. destruct (Nat.eqb_spec a j) as [->|N].
    + replace (S j <=? j)%nat with false by (symmetry; apply Nat.leb_gt; lia). cbn [andb].
      replace (j <=? j)%nat with true by (symmetry; apply Nat.leb_le; lia).
      replace (j <? j + S len)%nat with true by (symmetry; apply Nat.ltb_lt; lia). cbn [andb]. ring.
    + destruct (Nat.leb_spec (S a) j), (Nat.leb_spec a j), (Nat.ltb_spec j (S a + len)), (Nat.ltb_spec j (a + S len));
        cbn [andb]; try ring; try lia.
Qed.
Lemma monomial_value n m z lb ub : z <> 0 -> one_side z lb ub ->
  exists v, integral_power_div_monomial n m z lb ub = Some v
    /\ area (fun x => x ^ n / (x - z) ^ m) lb ub (v - log_error n m z lb ub).
Proof.
  intros Hz H. destruct (one_side_ends z lb ub H) as (Nl & Nu & P).
  unfold integral_power_div_monomial. destruct (Req_EM_T z 0) as [C|_]; [contradiction|]. cbv zeta.
  set (isl := fun k : nat => Z.eqb (Z.of_nat k) (Z.of_nat m - 1)).
  set (good := fun k => Binomial.C n k * z ^ (n - k) * zarea z lb ub (Z.of_nat k - Z.of_nat m)).
  set (err := fun k : nat => (z ^ n - Binomial.C n k * z ^ (n - k)) * ln ((ub - z) / (lb - z))).
  rewrite (osum_some _ (fun k => good k + (if isl k then err k else 0))).
  2:{ intros k _. unfold isl, good, err. destruct (Z.eqb_spec (Z.of_nat k) (Z.of_nat m - 1)) as [E|E].
      - rewrite odiv_some by exact Nl. cbn [obind]. rewrite oln_some by exact P. cbn [obind]. f_equal.
        unfold zarea. destruct (Z.eqb_spec (Z.of_nat k - Z.of_nat m) (-1)); [|lia]. ring.
      - rewrite !ozpow_some by assumption. cbn [obind]. rewrite odiv_some by (apply not_0_IZR; lia). f_equal.
        unfold zarea. destruct (Z.eqb_spec (Z.of_nat k - Z.of_nat m) (-1)); [lia|]. field. apply not_0_IZR. lia. }
  eexists. split; [reflexivity|]. rewrite rsum_plus. eapply area_val; [|apply (quotient_area n m z lb ub H)].
  fold good. assert (E : rsum (map (fun k => if isl k then err k else 0) (seq 0 (n + 1))) = log_error n m z lb ub); [|rewrite E; ring].
  unfold log_error. destruct (Nat.leb_spec 1 m) as [Hm|Hm].
  - rewrite (rsum_single isl err 0 (n + 1) (m - 1)).
    2:{ intro k. unfold isl. destruct (Nat.eqb_spec k (m - 1)), (Z.eqb_spec (Z.of_nat k) (Z.of_nat m - 1)); try reflexivity; lia. }
    cbn [Nat.leb andb]. destruct (Nat.ltb_spec (m - 1) (0 + (n + 1))), (Nat.leb_spec m (n + 1)); try reflexivity; lia.
  - cbn [andb]. rewrite (rsum_ext _ (fun _ => 0)).
    + clear. induction (seq 0 (n + 1)) as [|a l IH]; cbn [map rsum]; [reflexivity|rewrite IH; ring].
    + intros k _. unfold isl. destruct (Z.eqb_spec (Z.of_nat k) (Z.of_nat m - 1)); [lia|reflexivity].
Qed.
Lemma monomial_value_zero n m lb ub : one_side 0 lb ub ->
  exists v, integral_power_div_monomial n m 0 lb ub = Some v /\ area (fun x => x ^ n / (x - 0) ^ m) lb ub v.
Proof.
  intros H. destruct (one_side_ends 0 lb ub H) as (Nl & Nu & P). rewrite !Rminus_0_r in *.
  unfold integral_power_div_monomial. destruct (Req_EM_T 0 0) as [_|C]; [|congruence].
  pose proof (zarea_spec 0 lb ub (Z.of_nat n - Z.of_nat m) H) as A. unfold zarea in A.
  assert (X : forall x, lb < x < ub -> powerRZ (x - 0) (Z.of_nat n - Z.of_nat m) = x ^ n / (x - 0) ^ m).
  { intros x Hx. assert (N : x - 0 <> 0) by (apply (one_side_ne 0 lb ub); [exact H|lra]). rewrite Rminus_0_r in *.
    unfold Z.sub. rewrite powerRZ_add by exact N. rewrite powerRZ_neg', <- !pow_powerRZ. reflexivity. }
  destruct (Z.eqb_spec (Z.of_nat n) (Z.of_nat m - 1)) as [E|E];
    destruct (Z.eqb_spec (Z.of_nat n - Z.of_nat m) (-1)) as [E'|E']; try lia; rewrite !Rminus_0_r in A.
  - rewrite odiv_some by exact Nl. cbn [obind]. rewrite oln_some by exact P. eexists. split; [reflexivity|].
    refine (area_ext _ _ _ _ _ [] _ A). intros x Hx _. now apply X.
  - rewrite !ozpow_some by assumption. cbn [obind]. rewrite odiv_some by (apply not_0_IZR; lia). eexists. split; [reflexivity|].
    refine (area_ext _ _ _ _ _ [] _ A). intros x Hx _. now apply X.
Qed.

(** ** Polynomials *)
Fixpoint poly (cs : list R) (x : R) : R := match cs with [] => 0 | c :: cs => c + x * poly cs x end.
Lemma poly_terms_value z lb ub : z <> 0 -> one_side z lb ub -> forall cs n,
  exists v, osum (poly_terms n cs z lb ub) = Some v /\ area (fun x => x ^ n * poly cs x / (x - z)) lb ub v.
Proof.
  intros Hz H cs. induction cs as [|c cs IH]; intro n.
  - exists 0. split; [reflexivity|]. cbn [poly]. refine (area_ext (fun _ => 0) _ _ _ _ [] _ _).
    + intros. unfold Rdiv. ring.
    + eapply area_val; [|apply (area_const 0)]. ring.
  - destruct (simple_monomial_value n z lb ub Hz H) as (v & E & A). destruct (IH (S n)) as (w & E' & A').
    exists (c * v + w). cbn [poly_terms osum]. rewrite E, E'. cbn [obind]. split; [reflexivity|].
    refine (area_ext _ _ _ _ _ [] _ (area_plus _ _ _ _ _ _ (area_scale c _ _ _ _ A) A')).
    intros x _ _. cbn [poly pow]. unfold Rdiv. ring.
Qed.
Lemma simple_factor_value cs z lb ub : z <> 0 -> one_side z lb ub ->
  exists v, integral_poly_div_simple_factor cs z lb ub = Some v /\ area (fun x => poly cs x / (x - z)) lb ub v.
Proof.
  intros Hz H. destruct (poly_terms_value z lb ub Hz H cs 0) as (v & E & A). exists v. split; [exact E|].
  refine (area_ext _ _ _ _ _ [] _ A). intros x _ _. cbn [pow]. now rewrite Rmult_1_l.
Qed.

(** The product of x - r over the roots, and the product over the other roots *)
Definition from_roots (zs : list R) (x : R) : R := fold_right (fun r v => (x - r) * v) 1 zs.
Lemma np_eval_poly p x : np_eval p x = poly p x.
Proof. induction p as [|c p IH]; [reflexivity|]. cbn. now rewrite IH. Qed.
Lemma np_add_eval p : forall q x, poly (np_add p q) x = poly p x + poly q x.
Proof.
  induction p as [|a p IH]; intros [|b q] x; cbn [np_add poly]; try ring. rewrite IH. ring.
Qed.
Lemma poly_scale c p x : poly (map (Rmult c) p) x = c * poly p x.
Proof. induction p as [|a p IH]; cbn [map poly]; [ring|rewrite IH; ring]. Qed.
Lemma fromroots_eval zs x : poly (np_fromroots zs) x = from_roots zs x.
Proof.
  induction zs as [|r zs IH]; cbn [np_fromroots fold_right from_roots poly]; [ring|].
  fold (np_fromroots zs). fold (from_roots zs x). rewrite np_add_eval, poly_scale. cbn [poly]. rewrite IH. ring.
Qed.
Lemma deriv_from k : forall p x, derivable_pt_lim (fun x => x ^ S k * poly p x) x
  (x ^ k * poly (map (fun kc => INR (fst kc) * snd kc) (combine (seq (S k) (length p)) p)) x).
Proof.
  intros p. revert k. induction p as [|c p IH]; intros k x.
  - cbn [poly length seq combine map]. rewrite Rmult_0_r. apply (derivable_pt_lim_ext (fun _ => 0)); [intro; ring|apply (dl_const 0)].
  - cbn [length seq combine map poly fst snd].
    apply (derivable_pt_lim_ext (fun x => c * x ^ S k + x ^ S (S k) * poly p x)); [intro; cbn [pow]; ring|].
    eapply dl_val; [apply dl_plus; [apply dl_mult; [apply (dl_const c)|apply dl_pow, dl_id]|apply IH]|].
    cbn [pred]. cbn [pow]. ring.
Qed.
Lemma np_deriv_spec p x : derivable_pt_lim (poly p) x (poly (np_deriv p) x).
Proof.
  unfold np_deriv. destruct p as [|c p].
  - cbn. apply (dl_const 0).
  - cbn [tl length]. replace (S (length p) - 1)%nat with (length p) by lia.
    apply (derivable_pt_lim_ext (fun x => c + x ^ 1 * poly p x)); [intro; cbn [poly pow]; ring|].
    eapply dl_val; [apply dl_plus; [apply (dl_const c)|apply (deriv_from 0 p x)]|]. cbn [pow]. ring.
Qed.
(** The derivative of the product at one of its points, by the product rule *)
Fixpoint roots_deriv (zs : list R) (x : R) : R :=
  match zs with [] => 0 | r :: zs => from_roots zs x + (x - r) * roots_deriv zs x end.
Lemma roots_deriv_spec zs x : derivable_pt_lim (from_roots zs) x (roots_deriv zs x).
Proof.
  induction zs as [|r zs IH]; [apply (dl_const 1)|]. cbn [roots_deriv].
  eapply dl_val; [apply (dl_mult (fun x => x - r) (from_roots zs)); [apply dl_minus; [apply dl_id|apply dl_const]|exact IH]|].
  cbn beta. ring.
Qed.
Lemma np_deriv_roots zs x : poly (np_deriv (np_fromroots zs)) x = roots_deriv zs x.
Proof.
  eapply uniqueness_limite; [apply np_deriv_spec|].
  apply (derivable_pt_lim_ext (from_roots zs)); [intro; now rewrite fromroots_eval|apply roots_deriv_spec].
Qed.
Lemma from_roots_in zs x : In x zs -> from_roots zs x = 0.
Proof.
  induction zs as [|r zs IH]; [intros []|]. intros [->|H]; cbn [from_roots fold_right]; fold (from_roots zs x).
  - ring.
  - rewrite IH by exact H. ring.
Qed.
Lemma from_roots_ne zs x : ~ In x zs -> from_roots zs x <> 0.
Proof.
  induction zs as [|r zs IH]; intro H; cbn [from_roots fold_right]; [lra|]. fold (from_roots zs x).
  apply Rmult_integral_contrapositive. split; [intro E; apply H; left; lra|apply IH; intro; apply H; now right].
Qed.
Lemma roots_deriv_ne zs z : NoDup zs -> In z zs -> roots_deriv zs z <> 0.
Proof.
  induction zs as [|r zs IH]; intros N H; [destruct H|]. inversion N as [|? ? N1 N2]; subst. cbn [roots_deriv].
  destruct H as [->|H].
  - replace (z - z) with 0 by ring. rewrite Rmult_0_l, Rplus_0_r. now apply from_roots_ne.
  - rewrite from_roots_in by exact H. rewrite Rplus_0_l. apply Rmult_integral_contrapositive.
    split; [intro E; apply N1; replace r with z by lra; exact H|now apply IH].
Qed.

(** Partial fractions *)
Lemma partial_one zs t : NoDup zs -> zs <> [] -> ~ In t zs ->
  / from_roots zs t = rsum (map (fun z => / roots_deriv zs z * / (t - z)) zs).
Proof.
  intros N. revert t. induction zs as [|r zs IH]; intros t Ne Ht; [congruence|]. inversion N as [|? ? N1 N2]; subst. clear Ne.
  assert (Htr : t - r <> 0) by (intro E; apply Ht; left; lra).
  assert (Htz : ~ In t zs) by (intro; apply Ht; now right).
  cbn [map rsum from_roots fold_right roots_deriv]. fold (from_roots zs t).
  replace (r - r) with 0 by ring. rewrite Rmult_0_l, Rplus_0_r. rewrite Rinv_mult.
  destruct zs as [|r2 zs'].
  - cbn. rewrite Rinv_1. ring.
  - set (zs := r2 :: zs') in *. rewrite (IH N2 t ltac:(unfold zs; congruence) Htz), (IH N2 r ltac:(unfold zs; congruence) N1).
    rewrite Rmult_comm. rewrite (Rmult_comm _ (/ (t - r))).
    rewrite <- rsum_scale. rewrite (Rmult_comm (rsum _) (/ (t - r))), <- rsum_scale, <- rsum_plus.
    apply rsum_ext. intros z Hz. rewrite (from_roots_in zs z Hz).
    assert (Hzr : z - r <> 0) by (intro E; apply N1; replace r with z by lra; exact Hz).
    assert (Htz' : t - z <> 0) by (intro E; apply Htz; replace t with z by lra; exact Hz).
    pose proof (roots_deriv_ne zs z N2 Hz) as Hd. field. repeat split; try assumption; try lra.
Qed.
(** Synthetic division *)
Fixpoint synth (cs : list R) (a : R) : list R := match cs with [] => [] | [_] => [] | _ :: r => poly r a :: synth r a end.
Lemma synth_length cs a : length (synth cs a) = pred (length cs).
Proof. induction cs as [|c [|d cs] IH]; [reflexivity|reflexivity|]. cbn [synth length pred] in *. f_equal. exact IH. Qed.
Lemma synth_eval cs a x : poly cs x = poly cs a + (x - a) * poly (synth cs a) x.
Proof.
  induction cs as [|c [|d cs] IH]; [cbn; ring|cbn; ring|].
  change (synth (c :: d :: cs) a) with (poly (d :: cs) a :: synth (d :: cs) a). cbn [poly] in *. set (q := poly (synth (d :: cs) a) x) in *.
  replace (c + x * (d + x * poly cs x)) with (c + a * (d + a * poly cs a) + (x * (d + x * poly cs x) - a * (d + a * poly cs a))) by ring.
  rewrite IH. ring.
Qed.
Lemma partial_fractions zs : NoDup zs -> forall cs t, (length cs <= length zs)%nat -> ~ In t zs ->
  poly cs t / from_roots zs t = rsum (map (fun z => poly cs z / roots_deriv zs z * / (t - z)) zs).
Proof.
  induction zs as [|r zs IH]; intros N cs t L Ht.
  - destruct cs; cbn in L; [|lia]. cbn. unfold Rdiv. ring.
  - pose proof (partial_one (r :: zs) t N ltac:(congruence) Ht) as P1. inversion N as [|? ? N1 N2]; subst.
    assert (Htr : t - r <> 0) by (intro E; apply Ht; left; lra).
    assert (Htz : ~ In t zs) by (intro; apply Ht; now right).
    assert (L' : (length (synth cs r) <= length zs)%nat) by (rewrite synth_length; cbn in L; lia).
    pose proof (IH N2 (synth cs r) t L' Htz) as P2.
    rewrite (synth_eval cs r t). unfold Rdiv. rewrite Rmult_plus_distr_r. rewrite P1 at 1.
    cbn [from_roots fold_right]. fold (from_roots zs t). pose proof (from_roots_ne zs t Htz) as Ft.
    replace ((t - r) * poly (synth cs r) t * / ((t - r) * from_roots zs t)) with (poly (synth cs r) t / from_roots zs t) by (field; tauto).
    rewrite P2. cbn [map rsum roots_deriv]. rewrite Rmult_plus_distr_l, Rplus_assoc. f_equal; [ring|].
    rewrite <- rsum_scale, <- rsum_plus. apply rsum_ext. intros z Hz. rewrite (from_roots_in zs z Hz), Rplus_0_l.
    assert (Hzr : z - r <> 0) by (intro E; apply N1; replace r with z by lra; exact Hz).
    pose proof (roots_deriv_ne zs z N2 Hz) as Hd. assert (Htz' : t - z <> 0) by (intro E; apply Htz; replace t with z by lra; exact Hz).
    rewrite (synth_eval cs r z). field. repeat split; assumption.
Qed.
(** What integral_poly_div_simple_factored computes, whatever the numerator *)
Lemma factored_value cs zs lb ub : cs <> [] -> NoDup zs -> (forall z, In z zs -> z <> 0 /\ one_side z lb ub) ->
  exists v, integral_poly_div_simple_factored cs zs lb ub = Some v
    /\ area (fun t => poly cs t * rsum (map (fun z => poly cs z / roots_deriv zs z * / (t - z)) zs)) lb ub v.
Proof.
  intros Hc N H. unfold integral_poly_div_simple_factored. destruct cs as [|c cs0] eqn:Ecs; [congruence|]. rewrite <- Ecs in *. clear Ecs c cs0 Hc.
  assert (X : forall z, In z zs -> exists v, integral_poly_div_simple_factor cs z lb ub = Some v /\ area (fun x => poly cs x / (x - z)) lb ub v).
  { intros z Hz. apply simple_factor_value; now apply H. }
  set (val := fun z => match integral_poly_div_simple_factor cs z lb ub with Some v => v | None => 0 end).
  assert (Y : forall z, In z zs -> integral_poly_div_simple_factor cs z lb ub = Some (val z) /\ area (fun x => poly cs x / (x - z)) lb ub (val z)).
  { intros z Hz. destruct (X z Hz) as (v & E & A). unfold val. rewrite E. auto. }
  cbv zeta. rewrite (osum_some _ (fun z => poly cs z / roots_deriv zs z * val z)).
  2:{ intros z Hz. rewrite !np_eval_poly, np_deriv_roots, odiv_some by (now apply roots_deriv_ne). cbn [obind].
      destruct (Y z Hz) as [-> _]. reflexivity. }
  eexists. split; [reflexivity|].
  refine (area_ext _ _ _ _ _ [] _ (area_sum (fun z x => poly cs z / roots_deriv zs z * (poly cs x / (x - z))) _ lb ub zs _)).
  - intros x _ _. rewrite <- rsum_scale. apply rsum_ext. intros z _. unfold Rdiv. ring.
  - intros z Hz. apply area_scale. now apply Y.
Qed.

(** * Lorentz structures *)
(** -g^{mu nu} J_mu J_nu, and the same summed over the polarisations of a vector of momentum [k] *)
Definition squared (J : Z -> R) : R := - sum4 (fun i => sum4 (fun j => metric i j * J i * J j)).
Definition squared_pol (k : vec) (w : R) (T : Z -> Z -> R) : R :=
  - sum4 (fun i => sum4 (fun j => metric i j *
      sum4 (fun a => sum4 (fun b => (- metric a b + w * comp k a * comp k b) * T i a * T j b)))).
Lemma squared_contracted q2 J : q2 <> 0 -> squared J = 3 * q2 * contracted q2 J.
Proof. intro H. unfold contracted. fold (squared J). field. exact H. Qed.
Lemma squared_pol_contracted q2 k w T : q2 <> 0 -> squared_pol k w T = 3 * q2 * contracted_pol q2 k w T.
Proof. intro H. unfold contracted_pol. fold (squared_pol k w T). field. exact H. Qed.
Lemma old_pp p1 p2 m1 m2 q : 0 < q -> mass_shell p1 m1 -> mass_shell p2 m2 -> mass_shell (vplus p1 p2) q ->
  msqrd_lorentz_p_p (q ^ 2) m1 m2 = squared (current_pp p1 p2).
Proof.
  intros Hq H1 H2 H. assert (q ^ 2 <> 0) by (apply pow_nonzero; lra).
  rewrite (squared_contracted (q ^ 2)), <- (pp_contracted p1 p2 m1 m2 q) by assumption.
  unfold msqrd_lorentz_p_p, lorentz_pp. field. lra.
Qed.
Lemma old_pv p k mp mv q : 0 < q -> 0 < mv -> mass_shell p mp -> mass_shell k mv -> mass_shell (vplus p k) q ->
  msqrd_lorentz_p_v (q ^ 2) mp mv = squared_pol k (1 / mv ^ 2) (current_pv (vplus p k) p).
Proof.
  intros Hq Hm H1 H2 H. assert (q ^ 2 <> 0) by (apply pow_nonzero; lra).
  rewrite (squared_pol_contracted (q ^ 2)), <- (pv_contracted p k mp mv q) by assumption.
  unfold msqrd_lorentz_p_v, lorentz_pv, kallen_lambda. replace 0.5 with (1 / 2) by lra. field. lra.
Qed.
Lemma old_ppp_new s t m m1 m2 m3 : m <> 0 -> msqrd_lorentz_p_p_p s t m m1 m2 m3 = 3 * m ^ 2 * lorentz_ppp m1 m2 m3 m s t.
Proof. intro H. unfold msqrd_lorentz_p_p_p, lorentz_ppp. cbv zeta. field. exact H. Qed.
Lemma old_ppp p1 p2 p3 m1 m2 m3 q : 0 < q -> event q [m1; m2; m3] [p1; p2; p3] ->
  msqrd_lorentz_p_p_p (lnorm_sqr (vplus p2 p3)) (lnorm_sqr (vplus p1 p3)) q m1 m2 m3 = squared (current_ppp p1 p2 p3).
Proof.
  intros Hq Ev. destruct (event3 _ _ _ _ _ _ _ Ev) as (S1 & S2 & S3 & St). assert (q ^ 2 <> 0) by (apply pow_nonzero; lra).
  rewrite (squared_contracted (q ^ 2)) by assumption.
  rewrite <- (ppp_contracted p1 p2 p3 m1 m2 m3 q (lnorm_sqr (vplus p2 p3)) (lnorm_sqr (vplus p1 p3)));
    try assumption; try (now apply shell_mass); try (now rewrite lnorm_mdot).
  - apply old_ppp_new. lra.
  - unfold mass_shell. rewrite St, mdot_eq. cbn [en px py pz]. ring.
Qed.
Lemma old_coeffs s t m m1 m2 m3 : poly (msqrd_lorentz_p_p_p_t_coeffs s m m1 m2 m3) t = msqrd_lorentz_p_p_p s t m m1 m2 m3.
Proof. unfold msqrd_lorentz_p_p_p_t_coeffs, msqrd_lorentz_p_p_p. cbn [poly]. field. Qed.
Lemma old_pikk s t m m1 m2 m3 : pikk_lorentz m1 m2 m3 s t m = msqrd_lorentz_p_p_p s t m m1 m2 m3.
Proof. unfold pikk_lorentz, msqrd_lorentz_p_p_p. field. Qed.
Lemma squared_nonneg q m1 m2 m3 p1 p2 p3 : event q [m1; m2; m3] [p1; p2; p3] -> 0 <= squared (current_ppp p1 p2 p3).
Proof.
  intro Ev. destruct (event3 _ _ _ _ _ _ _ Ev) as (_ & _ & _ & St).
  assert (Z0 : current_ppp p1 p2 p3 0 = 0).
  { pose proof (f_equal px St) as Ex. pose proof (f_equal py St) as Ey. pose proof (f_equal pz St) as Ez.
    cbn [vplus px py pz] in Ex, Ey, Ez.
    unfold current_ppp, sum4, comp. levi. replace (px p1) with (- px p2 - px p3) by lra. replace (py p1) with (- py p2 - py p3) by lra.
    replace (pz p1) with (- pz p2 - pz p3) by lra. ring. }
  unfold squared, sum4, metric. cbn [Z.eqb Pos.eqb]. rewrite Z0.
  pose proof (pow2_ge_0 (current_ppp p1 p2 p3 1)). pose proof (pow2_ge_0 (current_ppp p1 p2 p3 2)). pose proof (pow2_ge_0 (current_ppp p1 p2 p3 3)).
  nra.
Qed.
Lemma pi3_msqrd_value mpi0 mpi f2 q p1 p2 p3 : 0 < q -> event q [mpi0; mpi; mpi] [p1; p2; p3] ->
  pi3_msqrd mpi0 mpi f2 (q ^ 2) [p1; p2; p3]
  = Ret (f2 (q ^ 2) (lnorm_sqr (vplus p2 p3)) (lnorm_sqr (vplus p1 p3)) (lnorm_sqr (vplus p1 p2)) * (squared (current_ppp p1 p2 p3) / 3)).
Proof.
  intros Hq Ev. rewrite <- (old_ppp p1 p2 p3 mpi0 mpi mpi q Hq Ev). unfold pi3_msqrd, msqrd_lorentz_p_p_p. cbv zeta. f_equal. field.
Qed.

(** * Two-body widths *)
Definition mom (p : vec) : R := sqrt (px p ^ 2 + py p ^ 2 + pz p ^ 2).
(** The decay rate of a particle of mass [M] at rest: |p| / (8 pi M^2) times the squared matrix element *)
Definition two_body_rate (M : R) (p : vec) (msq : R) : R := mom p / (8 * PI * M ^ 2) * msq.
Lemma mom_kallen q m1 m2 p1 p2 : event q [m1; m2] [p1; p2] -> kallen_lambda (q ^ 2) (m1 ^ 2) (m2 ^ 2) = (2 * q * mom p1) ^ 2 /\ 0 <= mom p1.
Proof.
  intros Ev. apply event2 in Ev. destruct Ev as ([S1 _] & [S2 _] & E).
  pose proof (f_equal en E) as Ee. pose proof (f_equal px E) as Ex. pose proof (f_equal py E) as Ey. pose proof (f_equal pz E) as Ez.
  cbn [vplus en px py pz] in Ee, Ex, Ey, Ez. unfold mom.
  set (n := px p1 ^ 2 + py p1 ^ 2 + pz p1 ^ 2) in *.
  assert (Hn : 0 <= n) by (unfold n; pose proof (pow2_ge_0 (px p1)); pose proof (pow2_ge_0 (py p1)); pose proof (pow2_ge_0 (pz p1)); lra).
  assert (N2 : px p2 ^ 2 + py p2 ^ 2 + pz p2 ^ 2 = n).
  { replace (px p2) with (- px p1) by lra. replace (py p2) with (- py p1) by lra. replace (pz p2) with (- pz p1) by lra. unfold n. ring. }
  split; [|apply sqrt_pos].
  assert (E1 : en p1 ^ 2 = n + m1 ^ 2) by lra. assert (E2 : en p2 ^ 2 = n + m2 ^ 2) by lra.
  replace (m1 ^ 2) with (en p1 ^ 2 - n) by lra. replace (m2 ^ 2) with (en p2 ^ 2 - n) by lra.
  rewrite Rpow_mult_distr, pow2_sqrt by exact Hn. rewrite <- Ee. unfold kallen_lambda. ring.
Qed.
Lemma event2_shell q m1 m2 p1 p2 : event q [m1; m2] [p1; p2] -> mass_shell p1 m1 /\ mass_shell p2 m2 /\ mass_shell (vplus p1 p2) q.
Proof.
  intro Ev. apply event2 in Ev. destruct Ev as (A & B & E). split; [now apply shell_mass|]. split; [now apply shell_mass|].
  unfold mass_shell. rewrite E, mdot_eq. cbn [en px py pz]. ring.
Qed.
Lemma pow32_sq y : 0 <= y -> pow32 (y ^ 2) = Some (y ^ 3).
Proof.
  intro H. unfold pow32. destruct (Rlt_dec (y ^ 2) 0) as [C|_]; [pose proof (pow2_ge_0 y); lra|].
  rewrite sqrt_pow2 by exact H. f_equal. ring.
Qed.
Lemma osqrt_sq y : 0 <= y -> osqrt (y ^ 2) = Some y.
Proof.
  intro H. unfold osqrt. destruct (Rlt_dec (y ^ 2) 0) as [C|_]; [pose proof (pow2_ge_0 y); lra|]. now rewrite sqrt_pow2.
Qed.
(** A heavier pair than the parent leaves no event *)
Lemma event2_threshold q m1 m2 p1 p2 : 0 <= m1 -> 0 <= m2 -> event q [m1; m2] [p1; p2] -> m1 + m2 <= q.
Proof.
  intros H1 H2 Ev. apply event2 in Ev. destruct Ev as ([S1 P1] & [S2 P2] & E).
  pose proof (f_equal en E) as Ee. cbn [vplus en] in Ee.
  assert (m1 <= en p1) by (pose proof (pow2_ge_0 (px p1)); pose proof (pow2_ge_0 (py p1)); pose proof (pow2_ge_0 (pz p1)); nra).
  assert (m2 <= en p2) by (pose proof (pow2_ge_0 (px p2)); pose proof (pow2_ge_0 (py p2)); pose proof (pow2_ge_0 (pz p2)); nra).
  lra.
Qed.
Lemma width_pp_rate mv m ff2 sym p1 p2 : 0 < mv -> 0 <= m -> event mv [m; m] [p1; p2] ->
  width_v_to_p_p mv m ff2 sym = Some (sym * two_body_rate mv p1 (ff2 * (squared (current_pp p1 p2) / 3))).
Proof.
  intros Hv Hm Ev. pose proof (event2_threshold _ _ _ _ _ Hm Hm Ev) as T. destruct (mom_kallen _ _ _ _ _ Ev) as [K P].
  destruct (event2_shell _ _ _ _ _ Ev) as (A1 & A2 & A3). rewrite <- (old_pp p1 p2 m m mv) by assumption.
  unfold width_v_to_p_p. destruct (Rlt_dec mv (2 * m)) as [C|_]; [lra|].
  assert (E : mv ^ 2 - 4 * m ^ 2 = (2 * mom p1) ^ 2).
  { apply Rmult_eq_reg_l with (mv ^ 2); [|apply pow_nonzero; lra]. unfold kallen_lambda in K. nra. }
  replace (1 - 4 * (m / mv) ^ 2) with ((2 * mom p1 / mv) ^ 2).
  2:{ transitivity ((2 * mom p1) ^ 2 / mv ^ 2); [field; lra|]. rewrite <- E. field. lra. }
  rewrite pow32_sq by (apply Rmult_le_pos; [lra|left; now apply Rinv_0_lt_compat]). cbn [obind]. f_equal.
  unfold msqrd_lorentz_p_p, two_body_rate. replace (mv ^ 2 - 2 * (m ^ 2 + m ^ 2)) with ((2 * mom p1) ^ 2) by lra.
  pose proof PI_RGT_0. field. split; lra.
Qed.
Lemma width_pa_rate mv m ff2 p k : 0 < mv -> 0 <= m -> event mv [m; 0] [p; k] ->
  width_v_to_p_a mv m ff2 = Some (two_body_rate mv p (ff2 / mv ^ 2 * (squared_pol k 0 (current_pv (vplus p k) k) / 3))).
Proof.
  intros Hv Hm Ev. pose proof (event2_threshold _ _ _ _ _ Hm (Rle_refl 0) Ev) as T. destruct (mom_kallen _ _ _ _ _ Ev) as [K P].
  destruct (event2_shell _ _ _ _ _ Ev) as (A1 & A2 & A3). assert (M2 : mv ^ 2 <> 0) by (apply pow_nonzero; lra).
  rewrite (squared_pol_contracted (mv ^ 2)), <- (pa_contracted p k m mv 0) by assumption.
  unfold width_v_to_p_a. destruct (Rlt_dec mv m) as [C|_]; [lra|].
  replace (kallen_lambda 1 ((m / mv) ^ 2) 0) with ((2 * mom p / mv) ^ 2).
  2:{ transitivity ((2 * mv * mom p) ^ 2 / mv ^ 4); [field; lra|]. rewrite <- K. unfold kallen_lambda. field. lra. }
  rewrite osqrt_sq by (apply Rmult_le_pos; [lra|left; now apply Rinv_0_lt_compat]). cbn [obind]. f_equal.
  unfold lorentz_pa, two_body_rate. replace ((mv ^ 2 - m ^ 2) ^ 2) with ((2 * mv * mom p) ^ 2) by (rewrite <- K; unfold kallen_lambda; ring).
  pose proof PI_RGT_0. replace 0.5 with (1 / 2) by lra. field. split; lra.
Qed.
Lemma width_vp_rate mv mvec ms ff2 p k : 0 < mv -> 0 < mvec -> 0 <= ms -> event mv [ms; mvec] [p; k] ->
  width_v_to_v_p mv ff2 mvec ms = Some (two_body_rate mv p (ff2 / mv ^ 2 * (squared_pol k (1 / mvec ^ 2) (current_pv (vplus p k) p) / 3))).
Proof.
  intros Hv Hm Hs Ev. pose proof (event2_threshold mv ms mvec p k Hs ltac:(lra) Ev) as T. destruct (mom_kallen _ _ _ _ _ Ev) as [K P].
  destruct (event2_shell _ _ _ _ _ Ev) as (A1 & A2 & A3). rewrite <- (old_pv p k ms mvec mv) by assumption.
  unfold width_v_to_v_p. destruct (Rlt_dec mv (mvec + ms)) as [C|_]; [lra|].
  replace (kallen_lambda 1 ((mvec / mv) ^ 2) ((ms / mv) ^ 2)) with ((2 * mom p / mv) ^ 2).
  2:{ transitivity ((2 * mv * mom p) ^ 2 / mv ^ 4); [field; lra|]. rewrite <- K. unfold kallen_lambda. field. lra. }
  rewrite osqrt_sq by (apply Rmult_le_pos; [lra|left; now apply Rinv_0_lt_compat]). cbn [obind]. f_equal.
  unfold msqrd_lorentz_p_v, two_body_rate. rewrite K.
  pose proof PI_RGT_0. replace 0.5 with (1 / 2) by lra. field. split; lra.
Qed.

Ltac nz := repeat match goal with
  | |- _ * _ <> 0 => apply Rmult_integral_contrapositive; split
  | |- _ ^ _ <> 0 => apply pow_nonzero
  end; try lra.
(** * Cross sections *)
(** Fermions of mass [mx] annihilating through a vector of mass [mv] and width [wv] that couples to them with
    strength [g]: the factor between the decay rate of a vector of mass sqrt s and the cross section *)
Definition rate_to_cross_section (cme mx mv wv g : R) : R :=
  g ^ 2 * (cme ^ 2 + 2 * mx ^ 2) / (((cme ^ 2 - mv ^ 2) ^ 2 + (mv * wv) ^ 2) * sqrt (cme ^ 2 - 4 * mx ^ 2)).
(** Energies above the threshold of the initial state, away from a pole on the real axis *)
Definition regular (cme mx mv wv : R) : Prop :=
  0 < cme /\ 0 <= mx /\ 2 * mx < cme /\ (cme ^ 2 - mv ^ 2) ^ 2 + (mv * wv) ^ 2 <> 0.
Lemma regular_root cme mx mv wv : regular cme mx mv wv -> exists r, 0 < r /\ sqrt (cme ^ 2 - 4 * mx ^ 2) = r /\ r ^ 2 = cme ^ 2 - 4 * mx ^ 2.
Proof.
  intros (A & B & C & _). exists (sqrt (cme ^ 2 - 4 * mx ^ 2)). assert (0 < cme ^ 2 - 4 * mx ^ 2) by nra.
  split; [apply sqrt_lt_R0; assumption|]. split; [reflexivity|]. apply pow2_sqrt. lra.
Qed.
Lemma width_to_cs_value cme mx mv wv : regular cme mx mv wv -> width_to_cs cme mx mv wv = Some (rate_to_cross_section cme mx mv wv 1).
Proof.
  intros H. destruct (regular_root _ _ _ _ H) as (r & Hr & E & E2). destruct H as (A & B & C & D).
  unfold width_to_cs, rate_to_cross_section. cbv zeta. rewrite E.
  replace (1 - 4 * (mx / cme) ^ 2) with ((r / cme) ^ 2).
  2:{ transitivity (r ^ 2 / cme ^ 2); [field; lra|]. rewrite E2. field. lra. }
  rewrite osqrt_sq by (apply Rmult_le_pos; [lra|left; now apply Rinv_0_lt_compat]). cbn [obind].
  set (P := (cme ^ 2 - mv ^ 2) ^ 2 + (mv * wv) ^ 2) in *.
  assert (EP : 1 + ((wv / cme) ^ 2 - 2) * (mv / cme) ^ 2 + ((mv / cme) ^ 2) ^ 2 = P / cme ^ 4) by (unfold P; field; lra).
  rewrite EP. clearbody P. rewrite odiv_some.
  - f_equal. field. repeat split; lra.
  - replace (P / cme ^ 4 * (r / cme) * cme ^ 3) with (P * r / cme ^ 2) by (field; lra).
    apply Rmult_integral_contrapositive. split; [|apply Rinv_neq_0_compat, pow_nonzero; lra].
    apply Rmult_integral_contrapositive. split; lra.
Qed.
Lemma ff_cross_section_value width cme mx mv wv g : regular cme mx mv wv ->
  ff_cross_section width cme mx mv wv g = Some (rate_to_cross_section cme mx mv wv g * width cme).
Proof.
  intros H. destruct (regular_root _ _ _ _ H) as (r & Hr & E & E2). destruct H as (A & B & C & D).
  unfold ff_cross_section, rate_to_cross_section. cbv zeta. rewrite E.
  replace (1 - 4 * (mx / cme) ^ 2) with ((r / cme) ^ 2).
  2:{ transitivity (r ^ 2 / cme ^ 2); [field; lra|]. rewrite E2. field. lra. }
  rewrite osqrt_sq by (apply Rmult_le_pos; [lra|left; now apply Rinv_0_lt_compat]). cbn [obind].
  unfold pow32. destruct (Rlt_dec cme 0) as [X|_]; [lra|]. cbn [obind].
  set (P := (cme ^ 2 - mv ^ 2) ^ 2 + (mv * wv) ^ 2) in *.
  assert (EP : 1 + ((wv / cme) ^ 2 - 2) * (mv / cme) ^ 2 + ((mv / cme) ^ 2) ^ 2 = P / cme ^ 4) by (unfold P; field; lra).
  rewrite EP. clearbody P. assert (Hs : 0 < sqrt cme) by (apply sqrt_lt_R0; exact A).
  pose proof (pow2_sqrt cme (Rlt_le _ _ A)) as Es. set (q := sqrt cme) in *. clearbody q.
  assert (Nq : cme * q <> 0) by (apply Rmult_integral_contrapositive; split; lra).
  rewrite odiv_some.
  - cbn [obind]. rewrite odiv_some by exact Nq. cbn [obind]. f_equal. rewrite <- Es. field. rewrite <- Es in Nq. repeat split; lra.
  - apply Rmult_integral_contrapositive. split; [|exact Nq].
    apply Rmult_integral_contrapositive. split; apply Rmult_integral_contrapositive; split; try lra; apply Rinv_neq_0_compat; try lra. apply pow_nonzero. lra.
Qed.
Lemma cs_pp_value cme mx mp ff2 mv wv : regular cme mx mv wv -> 0 <= mp -> 2 * mp < cme ->
  exists w, width_v_to_p_p cme mp ff2 1 = Some w
    /\ cross_section_x_x_to_p_p (cme ^ 2) mx mp ff2 mv wv = Some (rate_to_cross_section cme mx mv wv 1 * w).
Proof.
  intros H Hp Ht. destruct (regular_root _ _ _ _ H) as (r & Hr & E & E2). destruct H as (A & B & C & D).
  assert (Hk : 0 < cme ^ 2 - 4 * mp ^ 2) by nra. set (y := sqrt (cme ^ 2 - 4 * mp ^ 2)).
  assert (Hy : 0 < y) by (apply sqrt_lt_R0; exact Hk). assert (Ey : y ^ 2 = cme ^ 2 - 4 * mp ^ 2) by (apply pow2_sqrt; lra). clearbody y.
  unfold width_v_to_p_p. destruct (Rlt_dec cme (2 * mp)) as [X|_]; [lra|].
  replace (1 - 4 * (mp / cme) ^ 2) with ((y / cme) ^ 2).
  2:{ transitivity (y ^ 2 / cme ^ 2); [field; lra|]. rewrite Ey. field. lra. }
  rewrite pow32_sq by (apply Rmult_le_pos; [lra|left; now apply Rinv_0_lt_compat]). cbn [obind]. eexists. split; [reflexivity|].
  unfold cross_section_x_x_to_p_p, rate_to_cross_section. cbv zeta. rewrite E. replace (-4 * mp ^ 2 + cme ^ 2) with (y ^ 2) by lra.
  replace (-4 * mx ^ 2 + cme ^ 2) with (r ^ 2) by lra. rewrite pow32_sq, osqrt_sq by lra. cbn [obind].
  set (P := (cme ^ 2 - mv ^ 2) ^ 2 + (mv * wv) ^ 2) in *. clearbody P. pose proof PI_RGT_0.
  rewrite odiv_some.
  - f_equal. field. repeat split; lra.
  - nz.
Qed.
Lemma cs_pa_value cme mx mp ff2 mv wv : regular cme mx mv wv -> 0 <= mp -> mp < cme ->
  exists w, width_v_to_p_a cme mp ff2 = Some w
    /\ cross_section_x_x_to_p_a (cme ^ 2) mx mp ff2 mv wv = Some (cme ^ 2 * (rate_to_cross_section cme mx mv wv 1 * w)).
Proof.
  intros H Hp Ht. destruct (regular_root _ _ _ _ H) as (r & Hr & E & E2). destruct H as (A & B & C & D).
  assert (Hk : 0 < cme ^ 2 - mp ^ 2) by nra.
  unfold width_v_to_p_a. destruct (Rlt_dec cme mp) as [X|_]; [lra|].
  replace (kallen_lambda 1 ((mp / cme) ^ 2) 0) with (((cme ^ 2 - mp ^ 2) / cme ^ 2) ^ 2) by (unfold kallen_lambda; field; lra).
  rewrite osqrt_sq by (apply Rmult_le_pos; [lra|left; apply Rinv_0_lt_compat, pow_lt; lra]). cbn [obind]. eexists. split; [reflexivity|].
  unfold cross_section_x_x_to_p_a, rate_to_cross_section. cbv zeta. rewrite E.
  replace (cme ^ 2 * (-4 * mx ^ 2 + cme ^ 2)) with ((cme * r) ^ 2) by (rewrite Rpow_mult_distr, E2; ring).
  rewrite osqrt_sq by nra. cbn [obind].
  replace ((cme ^ 2 - mv ^ 2) ^ 2 + mv ^ 2 * wv ^ 2) with ((cme ^ 2 - mv ^ 2) ^ 2 + (mv * wv) ^ 2) by ring.
  set (P := (cme ^ 2 - mv ^ 2) ^ 2 + (mv * wv) ^ 2) in *. clearbody P. pose proof PI_RGT_0.
  rewrite odiv_some.
  - f_equal. replace 0.5 with (1 / 2) by lra. field. repeat split; lra.
  - nz.
Qed.
Lemma cs_pv_value cme mx mp mvec ff2 mv wv : regular cme mx mv wv -> 0 <= mp -> 0 <= mvec -> mvec + mp < cme ->
  exists w, width_v_to_v_p cme ff2 mvec mp = Some w
    /\ cross_section_x_x_to_p_v (cme ^ 2) mx mp mvec ff2 mv wv = Some (rate_to_cross_section cme mx mv wv 1 * w).
Proof.
  intros H Hp Hm Ht. destruct (regular_root _ _ _ _ H) as (r & Hr & E & E2). destruct H as (A & B & C & D).
  assert (Hk : 0 < mp ^ 4 + (mvec ^ 2 - cme ^ 2) ^ 2 - 2 * mp ^ 2 * (mvec ^ 2 + cme ^ 2)).
  { replace (mp ^ 4 + (mvec ^ 2 - cme ^ 2) ^ 2 - 2 * mp ^ 2 * (mvec ^ 2 + cme ^ 2))
      with ((cme ^ 2 - (mvec + mp) ^ 2) * (cme ^ 2 - (mvec - mp) ^ 2)) by ring. apply Rmult_lt_0_compat; nra. }
  set (L := mp ^ 4 + _ - _) in *.
  set (y := sqrt L). assert (Hy : 0 < y) by (apply sqrt_lt_R0; exact Hk). assert (Ey : y ^ 2 = L) by (apply pow2_sqrt; lra).
  unfold width_v_to_v_p. destruct (Rlt_dec cme (mvec + mp)) as [X|_]; [lra|].
  replace (kallen_lambda 1 ((mvec / cme) ^ 2) ((mp / cme) ^ 2)) with ((y / cme ^ 2) ^ 2).
  2:{ transitivity (y ^ 2 / cme ^ 4); [field; lra|]. rewrite Ey. unfold L, kallen_lambda. field. lra. }
  assert (C2 : 0 < cme ^ 2) by (apply pow_lt; exact A).
  rewrite osqrt_sq by (apply Rmult_le_pos; [lra|left; now apply Rinv_0_lt_compat]). cbn [obind]. eexists. split; [reflexivity|].
  unfold cross_section_x_x_to_p_v, rate_to_cross_section. cbv zeta. fold L. rewrite E, odiv_some by lra. cbn [obind].
  replace (L / cme ^ 2) with ((y / cme) ^ 2) by (rewrite <- Ey; field; lra).
  rewrite pow32_sq by (apply Rmult_le_pos; [lra|left; now apply Rinv_0_lt_compat]). cbn [obind].
  replace (-4 * mx ^ 2 + cme ^ 2) with (r ^ 2) by lra. rewrite osqrt_sq by lra. cbn [obind].
  replace ((cme ^ 2 - mv ^ 2) ^ 2 + mv ^ 2 * wv ^ 2) with ((cme ^ 2 - mv ^ 2) ^ 2 + (mv * wv) ^ 2) by ring.
  set (P := (cme ^ 2 - mv ^ 2) ^ 2 + (mv * wv) ^ 2) in *. clearbody P y. pose proof PI_RGT_0.
  rewrite odiv_some.
  - f_equal. replace 0.5 with (1 / 2) by lra. field. repeat split; lra.
  - nz.
Qed.
Lemma cs_integrated_value cme mx mv wv ff : regular cme mx mv wv ->
  cross_section cme mx mv wv ff = Some (2 * (rate_to_cross_section cme mx mv wv 1 * (ff * cme / 2))).
Proof.
  intros H. destruct (regular_root _ _ _ _ H) as (r & Hr & E & E2). destruct H as (A & B & C & D).
  unfold cross_section, rate_to_cross_section. cbv zeta. rewrite E.
  replace (cme ^ 2 * (cme ^ 2 - 4 * mx ^ 2)) with ((cme * r) ^ 2) by (rewrite Rpow_mult_distr, E2; ring).
  rewrite osqrt_sq by nra. cbn [obind].
  replace ((cme ^ 2 - mv ^ 2) ^ 2 + mv ^ 2 * wv ^ 2) with ((cme ^ 2 - mv ^ 2) ^ 2 + (mv * wv) ^ 2) by ring.
  set (P := (cme ^ 2 - mv ^ 2) ^ 2 + (mv * wv) ^ 2) in *. clearbody P.
  rewrite odiv_some.
  - f_equal. field. repeat split; lra.
  - nz.
Qed.
Lemma four_pi_cs_value gen neutral cme mx mv wv : regular cme mx mv wv ->
  exists w, four_pi_width gen neutral cme = Some w
    /\ four_pi_cross_section gen neutral cme mx mv wv = Some (2 * (rate_to_cross_section cme mx mv wv 1 * w)).
Proof.
  intros H. destruct (regular_root _ _ _ _ H) as (r & Hr & E & E2). destruct H as (A & B & C & D).
  unfold four_pi_width, four_pi_cross_section. destruct (Rlt_dec cme (2 * mx)) as [X|_]; [lra|]. cbv zeta.
  assert (F : exists ff, four_pi_form_factor gen neutral (cme ^ 2) = Some ff).
  { unfold four_pi_form_factor. rewrite osqrt_sq by lra. cbn [obind]. destruct (Rlt_dec _ _); eauto. }
  destruct F as [ff ->]. cbn [obind]. eexists. split; [reflexivity|]. unfold rate_to_cross_section. rewrite E.
  replace (cme ^ 2 * (cme ^ 2 - 4 * mx ^ 2)) with ((cme * r) ^ 2) by (rewrite Rpow_mult_distr, E2; ring).
  rewrite osqrt_sq by nra. cbn [obind].
  replace ((cme ^ 2 - mv ^ 2) ^ 2 + mv ^ 2 * wv ^ 2) with ((cme ^ 2 - mv ^ 2) ^ 2 + (mv * wv) ^ 2) by ring.
  set (P := (cme ^ 2 - mv ^ 2) ^ 2 + (mv * wv) ^ 2) in *. clearbody P.
  rewrite odiv_some.
  - cbn [obind]. f_equal. field. repeat split; lra.
  - nz.
Qed.

(** * Three-body widths *)
Lemma gev_pos m : 0 <= m -> 0 <= gev m.
Proof. unfold gev. lra. Qed.
Lemma ppp_strip q m1 m2 m3 s g msqrd : 0 <= m1 -> 0 <= m2 -> 0 <= m3 -> 0 < q -> m1 + m2 + m3 < q -> (m2 + m3) ^ 2 < s < (q - m1) ^ 2 ->
  (forall p1 p2 p3, event q [m1; m2; m3] [p1; p2; p3] -> s = lnorm_sqr (vplus p2 p3) ->
     msqrd (lnorm_sqr (vplus p1 p3)) = g * squared (current_ppp p1 p2 p3)) ->
  let mid := dz_mid (q ^ 2) (m1 ^ 2) (m2 ^ 2) (m3 ^ 2) s in
  let half := dz_half (q ^ 2) (m1 ^ 2) (m2 ^ 2) (m3 ^ 2) s in
  0 <= half /\ (forall t, dalitz q m1 m2 m3 s t <-> mid - half <= t <= mid + half)
  /\ area msqrd (mid - half) (mid + half) (g * (s / 3 * half ^ 3)).
Proof.
  intros H1 H2 H3 Hq Ht [Sl Su] HM mid half.
  assert (Q2 : 0 < q ^ 2) by (apply pow_lt; exact Hq).
  assert (Hs : 0 < s) by (pose proof (pow2_ge_0 (m2 + m3)); lra).
  assert (HK : 0 < kallen_lambda s (q ^ 2) (m1 ^ 2) * kallen_lambda s (m2 ^ 2) (m3 ^ 2)).
  { apply Rmult_lt_0_compat; [apply kallen_pos_below; lra|apply kallen_pos_above; lra]. }
  assert (Hh : 0 <= half) by (apply half_nonneg; exact Hs).
  assert (D : forall t, dalitz q m1 m2 m3 s t <-> mid - half <= t <= mid + half) by (intro t; apply dalitz_strip; lra).
  split; [exact Hh|]. split; [exact D|].
  eapply area_val; [|refine (area_ext _ _ _ _ _ [] _ (parabola_area (g * s / 4) mid half Hh))]; [field|].
  intros t Hti _. assert (Dt : dalitz q m1 m2 m3 s t) by (apply D; lra).
  destruct Dt as (p1 & p2 & p3 & Ev & Es & Et). rewrite Et, (HM p1 p2 p3 Ev Es), <- (old_ppp p1 p2 p3 m1 m2 m3 q Hq Ev), <- Es, <- Et.
  rewrite old_ppp_new by lra. rewrite ppp_factor by lra. fold mid half. field. lra.
Qed.
Lemma pieta_width_phase quad meta f2 msqrd mv : 0 <= meta -> 2 * par_mpi + meta < mv ->
  let q := gev mv in let me := gev meta in let mp := gev par_mpi in
  area (pieta_integrand mp me f2 q) ((2 * mp) ^ 2) ((q - me) ^ 2)
    (quad (pieta_integrand mp me f2 q) ((2 * mp) ^ 2) ((q - me) ^ 2)) ->
  (forall p1 p2 p3, event q [me; mp; mp] [p1; p2; p3] ->
     let s := lnorm_sqr (vplus p2 p3) in msqrd s (lnorm_sqr (vplus p1 p3)) = f2 q s * (squared (current_ppp p1 p2 p3) / 3)) ->
  phase_space_width q me mp mp msqrd (gev (pieta_width quad meta f2 mv)).
Proof.
  intros He Ht q me mp A HM.
  assert (Hp : 0 < mp) by (unfold mp, gev, par_mpi; lra). assert (He' : 0 <= me) by (unfold me, gev; lra).
  assert (Hq : me + mp + mp < q) by (unfold me, mp, q, gev in *; lra). assert (Q0 : 0 < q) by lra.
  exists (fun s => dz_mid (q ^ 2) (me ^ 2) (mp ^ 2) (mp ^ 2) s - dz_half (q ^ 2) (me ^ 2) (mp ^ 2) (mp ^ 2) s),
    (fun s => dz_mid (q ^ 2) (me ^ 2) (mp ^ 2) (mp ^ 2) s + dz_half (q ^ 2) (me ^ 2) (mp ^ 2) (mp ^ 2) s),
    (fun s => f2 q s / 3 * (s / 3 * dz_half (q ^ 2) (me ^ 2) (mp ^ 2) (mp ^ 2) s ^ 3)).
  split.
  - intros s Hs. pose proof (ppp_strip q me mp mp s (f2 q s / 3) (msqrd s) He' ltac:(lra) ltac:(lra) Q0 Hq Hs) as P.
    destruct P as (P1 & P2 & P3).
    + intros p1 p2 p3 Ev Es. pose proof (HM p1 p2 p3 Ev) as E. cbv zeta in E. rewrite <- Es in E. rewrite E. field.
    + split; [lra|]. split; [exact P2|exact P3].
  - unfold pieta_width. destruct (Rlt_dec mv (2 * par_mpi + meta)) as [C|_]; [lra|].
    unfold pieta_integrated_gev. cbv zeta. fold (gev mv). fold q me mp.
    destruct (Rlt_dec q (2 * mp + me)) as [C|_]; [lra|].
    set (v := quad _ _ _) in *. clearbody v. pose proof PI_RGT_0.
    assert (Ev : mv = 1000 * q) by (unfold q, gev; lra).
    replace ((mp + mp) ^ 2) with ((2 * mp) ^ 2) by ring.
    eapply area_val; [|refine (area_ext _ _ _ _ _ [] _ A)].
    + rewrite Ev. unfold gev. field. lra.
    + intros s [Sl Su] _. assert (Hs : 0 < s) by (pose proof (pow2_ge_0 (2 * mp)); lra).
      unfold pieta_integrand, dz_half. cbv zeta.
      assert (HK : 0 < kallen_lambda s (q ^ 2) (me ^ 2) * kallen_lambda s (mp ^ 2) (mp ^ 2)).
      { apply Rmult_lt_0_compat; [apply kallen_pos_below; lra|apply kallen_pos_above; lra]. }
      pose proof (pow2_sqrt _ (Rlt_le _ _ HK)) as Sq. set (K := kallen_lambda s (q ^ 2) (me ^ 2) * _) in *.
      set (r := sqrt K) in *. rewrite <- Sq at 1. clearbody r. field. lra.
Qed.
Lemma piomega_width_phase quad f2 msqrd imode mv : 2 * par_mpi + par_momega < mv ->
  let q := gev mv in let mo := gev par_momega in let mp := gev par_mpi in
  let f := piomega_integrand (mp / q) (mo / q) (f2 q) in
  area f ((2 * (mp / q)) ^ 2) ((1 - mo / q) ^ 2) (quad f ((2 * (mp / q)) ^ 2) ((1 - mo / q) ^ 2)) ->
  (forall k p1 p2, event q [mo; mp; mp] [k; p1; p2] ->
     msqrd (lnorm_sqr (vplus p1 p2)) (lnorm_sqr (vplus k p2)) = q ^ 2 * (f2 q * ppv_msq q mo k)) ->
  phase_space_width q mo mp mp msqrd (gev (piomega_width quad f2 imode mv) * (if Z.eqb imode 0 then 2 else 1)).
Proof.
  intros Ht q mo mp f A HM.
  assert (Hp : 0 < mp) by (unfold mp, gev, par_mpi; lra). assert (Ho : 0 < mo) by (unfold mo, gev, par_momega; lra).
  assert (Hq : mo + mp + mp < q) by (unfold mo, mp, q, gev in *; lra). assert (Q0 : 0 < q) by lra.
  assert (Q2 : 0 < q ^ 2) by (apply pow_lt; exact Q0).
  exists (fun s => dz_mid (q ^ 2) (mo ^ 2) (mp ^ 2) (mp ^ 2) s - dz_half (q ^ 2) (mo ^ 2) (mp ^ 2) (mp ^ 2) s),
    (fun s => dz_mid (q ^ 2) (mo ^ 2) (mp ^ 2) (mp ^ 2) s + dz_half (q ^ 2) (mo ^ 2) (mp ^ 2) (mp ^ 2) s),
    (fun s => q ^ 2 * f2 q * ppv_of_s q mo s * (2 * dz_half (q ^ 2) (mo ^ 2) (mp ^ 2) (mp ^ 2) s)).
  split.
  - intros s [Sl Su].
    assert (Hs : 0 < s) by (pose proof (pow2_ge_0 (mp + mp)); lra).
    assert (HK : 0 < kallen_lambda s (q ^ 2) (mo ^ 2) * kallen_lambda s (mp ^ 2) (mp ^ 2)).
    { apply Rmult_lt_0_compat; [apply kallen_pos_below; lra|apply kallen_pos_above; lra]. }
    pose proof (half_nonneg (q ^ 2) (mo ^ 2) (mp ^ 2) (mp ^ 2) s Hs) as Hh.
    assert (D : forall t, dalitz q mo mp mp s t <->
      dz_mid (q ^ 2) (mo ^ 2) (mp ^ 2) (mp ^ 2) s - dz_half (q ^ 2) (mo ^ 2) (mp ^ 2) (mp ^ 2) s <= t
      <= dz_mid (q ^ 2) (mo ^ 2) (mp ^ 2) (mp ^ 2) s + dz_half (q ^ 2) (mo ^ 2) (mp ^ 2) (mp ^ 2) s)
      by (intro t; apply dalitz_strip; lra).
    split; [lra|]. split; [exact D|].
    eapply area_val; [|refine (area_ext (fun _ => q ^ 2 * f2 q * ppv_of_s q mo s) _ _ _ _ [] _ (area_const _ _ _))].
    + ring.
    + intros t Hti _. assert (Dt : dalitz q mo mp mp s t) by (apply D; lra).
      destruct Dt as (k & p1 & p2 & Ev & Es & Et).
      pose proof (HM k p1 p2 Ev) as E. rewrite <- Es, <- Et in E. rewrite E.
      rewrite (ppv_msq_of_s q mo mp mp k p1 p2 Q0 Ho Ev), <- Es. ring.
  - unfold piomega_width. destruct (Rlt_dec mv (2 * par_mpi + par_momega)) as [C|_]; [lra|].
    unfold piomega_form_factor, piomega_integrated. cbv zeta. fold (gev mv). fold q mo mp. fold f.
    set (v := quad _ _ _) in *. clearbody v. pose proof PI_RGT_0.
    assert (Ev : mv = 1000 * q) by (unfold q, gev; lra).
    replace ((2 * (mp / q)) ^ 2) with ((mp + mp) ^ 2 / q ^ 2) in A by (field; lra).
    replace ((1 - mo / q) ^ 2) with ((q - mo) ^ 2 / q ^ 2) in A by (field; lra).
    apply (area_shrink f _ _ _ _ Q2) in A. apply (area_scale (q ^ 2 / (12 * (mo / q) ^ 2))) in A.
    eapply area_val; [|refine (area_ext _ _ _ _ _ [] _ A)].
    + rewrite Ev. unfold gev. destruct (Z.eqb imode 0); field; lra.
    + intros s [Sl Su] _. assert (Hs : 0 < s) by (pose proof (pow2_ge_0 (mp + mp)); lra).
      unfold f, piomega_integrand, dz_half, ppv_of_s. cbv zeta.
      replace (kallen_lambda s (q ^ 2) (mo ^ 2) * kallen_lambda s (mp ^ 2) (mp ^ 2))
        with ((q ^ 4) ^ 2 * (kallen_lambda (s / q ^ 2) ((mp / q) ^ 2) ((mp / q) ^ 2) * kallen_lambda 1 (s / q ^ 2) ((mo / q) ^ 2)))
        by (unfold kallen_lambda; field; lra).
      rewrite (sqrt_mult_alt ((q ^ 4) ^ 2)) by apply pow2_ge_0. rewrite sqrt_pow2 by (apply pow_le; lra).
      set (r := sqrt _). clearbody r. field. repeat split; lra.
Qed.

(** * Energy distributions *)
(** [v] is the integral of [msq] over the final states in which the first particle has energy [e], in the
    squared mass of the first and the third *)
Definition energy_density3 (q m1 m2 m3 : R) (msq : vec -> vec -> vec -> R) (e v : R) : Prop :=
  exists lo hi F,
    lo <= hi
    /\ (forall t, lo <= t <= hi <->
          exists p1 p2 p3, event q [m1; m2; m3] [p1; p2; p3] /\ en p1 = e /\ lnorm_sqr (vplus p1 p3) = t)
    /\ (forall p1 p2 p3, event q [m1; m2; m3] [p1; p2; p3] -> en p1 = e -> F (lnorm_sqr (vplus p1 p3)) = msq p1 p2 p3)
    /\ area F lo hi v.
Definition sq3 (p1 p2 p3 : vec) : R := squared (current_ppp p1 p2 p3).
Definition e_max (q m1 m2 m3 : R) : R := (q ^ 2 + m1 ^ 2 - (m2 + m3) ^ 2) / (2 * q).
Lemma e_range q m1 m2 m3 e : 0 <= m1 -> 0 <= m2 -> 0 <= m3 -> m1 + m2 + m3 < q -> m1 < e < e_max q m1 m2 m3 ->
  0 < q /\ (m2 + m3) ^ 2 < q ^ 2 + m1 ^ 2 - 2 * q * e < (q - m1) ^ 2 /\ e < q.
Proof.
  intros H1 H2 H3 Hq [He Hm]. assert (Q0 : 0 < q) by lra.
  assert (E : 2 * q * e < q ^ 2 + m1 ^ 2 - (m2 + m3) ^ 2).
  { replace (q ^ 2 + m1 ^ 2 - (m2 + m3) ^ 2) with (2 * q * e_max q m1 m2 m3) by (unfold e_max; field; lra).
    apply Rmult_lt_compat_l; lra. }
  split; [exact Q0|]. split; [split; nra|]. pose proof (pow2_ge_0 (m2 + m3)). nra.
Qed.
Lemma pieta_edist_density q m1 m2 m3 e : 0 <= m1 -> 0 <= m2 -> 0 <= m3 -> m1 + m2 + m3 < q -> m1 < e < e_max q m1 m2 m3 ->
  0 < pieta_edist q e m1 m2 m3 /\ energy_density3 q m1 m2 m3 sq3 e (pieta_edist q e m1 m2 m3 / 24).
Proof.
  intros H1 H2 H3 Hq He. destruct (e_range q m1 m2 m3 e H1 H2 H3 Hq He) as (Q0 & Hs & Heq).
  unfold pieta_edist. cbv zeta. set (s := q ^ 2 + m1 ^ 2 - 2 * q * e) in *.
  destruct (Rle_dec s ((m2 + m3) ^ 2)) as [C|_]; [lra|]. destruct (Rle_dec ((q - m1) ^ 2) s) as [C|_]; [lra|].
  replace (kallen_lambda s (m1 ^ 2) (q ^ 2)) with (kallen_lambda s (q ^ 2) (m1 ^ 2)) by (unfold kallen_lambda; ring).
  assert (S0 : 0 < s) by (pose proof (pow2_ge_0 (m2 + m3)); lra).
  assert (HK : 0 < kallen_lambda s (q ^ 2) (m1 ^ 2) * kallen_lambda s (m2 ^ 2) (m3 ^ 2)).
  { apply Rmult_lt_0_compat; [apply kallen_pos_below; lra|apply kallen_pos_above; lra]. }
  split.
  { apply Rdiv_lt_0_compat; [|apply pow_lt; exact S0]. apply Rmult_lt_0_compat; [exact HK|]. now apply sqrt_lt_R0. }
  pose proof (ppp_strip q m1 m2 m3 s 1 (fun t => msqrd_lorentz_p_p_p s t q m1 m2 m3) H1 H2 H3 Q0 Hq Hs) as P. cbv zeta in P.
  destruct P as (P1 & _ & P3).
  { intros p1 p2 p3 Ev Es. rewrite Rmult_1_l, <- (old_ppp p1 p2 p3 m1 m2 m3 q Q0 Ev), <- Es. reflexivity. }
  eexists. eexists. exists (fun t => msqrd_lorentz_p_p_p s t q m1 m2 m3). split; [|split; [|split]].
  4:{ eapply area_val; [|exact P3]. unfold dz_half. pose proof (pow2_sqrt _ (Rlt_le _ _ HK)) as Sq.
      set (K := kallen_lambda s (q ^ 2) (m1 ^ 2) * _) in *. set (r := sqrt K) in *. rewrite <- Sq. clearbody r. field. lra. }
  - lra.
  - intro t. apply (strip_at_energy q m1 m2 m3 e t); unfold s in *; lra.
  - intros p1 p2 p3 Ev Ee. pose proof (pair_energy _ _ _ _ _ _ _ Ev) as Es. rewrite Ee in Es. fold s in Es.
    unfold sq3. rewrite <- (old_ppp p1 p2 p3 m1 m2 m3 q Q0 Ev), Es. reflexivity.
Qed.
Lemma e_max_above q m1 m2 m3 : 0 <= m1 -> 0 <= m2 -> 0 <= m3 -> m1 + m2 + m3 < q -> m1 < e_max q m1 m2 m3.
Proof.
  intros H1 H2 H3 Hq. unfold e_max. apply Rmult_lt_reg_r with (2 * q); [lra|].
  replace ((q ^ 2 + m1 ^ 2 - (m2 + m3) ^ 2) / (2 * q) * (2 * q)) with (q ^ 2 + m1 ^ 2 - (m2 + m3) ^ 2) by (field; lra). nra.
Qed.
(** pi_pi_etap.py uses the same densities *)
Lemma pietap_pi q e : pietap_edist_pi q e = pieta_edist q e par_mpi par_mpi par_metap.
Proof.
  unfold pietap_edist_pi, pieta_edist. cbv zeta. replace (2 * e * q) with (2 * q * e) by ring. reflexivity.
Qed.
Lemma pietap_eta q e : pietap_edist_eta q e = pieta_edist q e par_metap par_mpi par_mpi.
Proof.
  unfold pietap_edist_eta, pieta_edist. cbv zeta. replace (2 * e * q) with (2 * q * e) by ring.
  replace (4 * par_mpi ^ 2) with ((par_mpi + par_mpi) ^ 2) by ring. rewrite (Rmult_comm (kallen_lambda _ (par_mpi ^ 2) (par_mpi ^ 2))). reflexivity.
Qed.
(** Below threshold the density vanishes everywhere *)
Lemma pietap_below q e : par_mpi <= q -> q < 2 * par_mpi + par_metap -> pietap_edist_pi q e = 0.
Proof.
  intros H1 H2. unfold pietap_edist_pi. cbv zeta. set (s := q ^ 2 + _ - _). destruct (Rle_dec s ((par_mpi + par_metap) ^ 2)) as [_|A]; [reflexivity|].
  destruct (Rle_dec ((q - par_mpi) ^ 2) s) as [_|B]; [reflexivity|]. exfalso.
  assert ((q - par_mpi) ^ 2 <= (par_mpi + par_metap) ^ 2) by (apply pow_incr; lra). lra.
Qed.

(** * pi_pi_omega.py: the energy distributions *)
Lemma old_omega_density mp mw q e : 0 < q -> 0 < mw -> 1 - 2 * e / q + (mw / q) ^ 2 <> 0 ->
  piomega_dnde_omega (mp / q) (mw / q) q e = 256 * PI ^ 3 * djde1 (mw, mp, mp) 1 q e.
Proof.
  intros Hq Hw Hx. pose proof PI_RGT_0. unfold piomega_dnde_omega, djde1. cbv zeta.
  assert (Hu : 0 < mw / q) by now apply Rdiv_lt_0_compat.
  set (u := mp / q) in *. set (w := mw / q) in *. clearbody u w.
  replace (2 * e / q) with (1 + w ^ 2 - (1 - 2 * e / q + w ^ 2)) by lra. set (z := 1 - 2 * e / q + w ^ 2) in *.
  replace (1 - (1 + w ^ 2 - z) + w ^ 2) with z by ring.
  replace (kallen_lambda 1 (w ^ 2) z * kallen_lambda (u ^ 2) (u ^ 2) z)
    with (kallen_lambda z (u ^ 2) (u ^ 2) * kallen_lambda z (w ^ 2) 1) by (unfold kallen_lambda; ring).
  set (r := sqrt _). clearbody r z. field. repeat split; lra.
Qed.
Lemma old_pion_density mp mw q e : 0 < q -> 0 < mw -> 1 - 2 * e / q + (mp / q) ^ 2 <> 0 ->
  piomega_dnde_pi (mp / q) (mw / q) q e = 256 * PI ^ 3 * djde2 (mw, mp, mp) q e.
Proof.
  intros Hq Hw Hx. pose proof PI_RGT_0. unfold piomega_dnde_pi, djde2. cbv zeta.
  assert (Hu : 0 < mw / q) by now apply Rdiv_lt_0_compat.
  set (u := mp / q) in *. set (w := mw / q) in *. clearbody u w.
  replace (2 * e / q) with (1 + u ^ 2 - (1 - 2 * e / q + u ^ 2)) by lra. set (z := 1 - 2 * e / q + u ^ 2) in *.
  replace (1 - (1 + u ^ 2 - z) + u ^ 2) with z by ring.
  replace (kallen_lambda 1 (u ^ 2) z * kallen_lambda (u ^ 2) (w ^ 2) z)
    with (kallen_lambda z (u ^ 2) 1 * kallen_lambda z (u ^ 2) (w ^ 2)) by (unfold kallen_lambda; ring).
  set (r := sqrt _). clearbody r z. unfold kallen_lambda. field. repeat split; lra.
Qed.
Lemma trap_pos : forall xs ys, increasing xs -> (forall y, In y ys -> 0 < y) -> length xs = length ys -> (2 <= length xs)%nat -> 0 < trapezoid xs ys.
Proof.
  assert (G : forall xs ys, increasing xs -> (forall y, In y ys -> 0 < y) -> length xs = length ys -> 0 <= trapezoid xs ys /\ ((2 <= length xs)%nat -> 0 < trapezoid xs ys)).
  { induction xs as [|x0 [|x1 xs] IH]; intros ys I Y L.
    - cbn. split; [lra|intro; lia].
    - cbn. split; [lra|intro; lia].
    - destruct ys as [|y0 [|y1 ys]]; [discriminate|discriminate|].
      change (trapezoid (x0 :: x1 :: xs) (y0 :: y1 :: ys)) with ((x1 - x0) * (y0 + y1) / 2 + trapezoid (x1 :: xs) (y1 :: ys)).
      pose proof (I 0%nat x0 x1 eq_refl eq_refl) as D. pose proof (Y y0 ltac:(cbn; auto)). pose proof (Y y1 ltac:(cbn; auto)).
      destruct (IH (y1 :: ys)) as [A _].
      + intros i a b Ha Hb. exact (I (S i) a b Ha Hb).
      + intros y Hy. apply Y. now right.
      + cbn in *. lia.
      + assert (0 < (x1 - x0) * (y0 + y1)) by (apply Rmult_lt_0_compat; lra). split; [lra|intros _; lra]. }
  intros xs ys I Y L N. now apply (G xs ys I Y L).
Qed.
Lemma trap_scale c : forall xs ys, trapezoid xs (map (fun y => y / c) ys) = trapezoid xs ys / c.
Proof.
  induction xs as [|x0 [|x1 xs] IH]; intros ys.
  - cbn. unfold Rdiv. ring.
  - cbn. destruct ys as [|y0 [|y1 ys]]; cbn; unfold Rdiv; ring.
  - destruct ys as [|y0 [|y1 ys]]; [cbn; unfold Rdiv; ring|cbn; unfold Rdiv; ring|].
    pose proof (IH (y1 :: ys)) as E. cbn [map] in E |- *.
    change (trapezoid (x0 :: x1 :: xs) (y0 :: y1 :: ys)) with ((x1 - x0) * (y0 + y1) / 2 + trapezoid (x1 :: xs) (y1 :: ys)).
    change (trapezoid (x0 :: x1 :: xs) (y0 / c :: y1 / c :: map (fun y => y / c) ys))
      with ((x1 - x0) * (y0 / c + y1 / c) / 2 + trapezoid (x1 :: xs) (y1 / c :: map (fun y => y / c) ys)).
    rewrite E. unfold Rdiv. ring.
Qed.
Lemma centers_increasing xs : increasing xs -> increasing (bin_centers xs).
Proof.
  intros I i a b Ha Hb. rewrite nth_error_centers in Ha, Hb.
  destruct (nth_error xs i) as [x|] eqn:Ex; [|discriminate]. destruct (nth_error xs (S i)) as [y|] eqn:Ey; [|discriminate].
  destruct (nth_error xs (S (S i))) as [z|] eqn:Ez; [|discriminate]. pose proof (I i x y Ex Ey). pose proof (I (S i) y z Ey Ez).
  injection Ha as <-. injection Hb as <-. lra.
Qed.
Lemma linspace_scale c a b n : map (Rmult c) (linspace a b n) = linspace (c * a) (c * b) n.
Proof. unfold linspace. rewrite map_map. apply map_ext. intro i. unfold Rdiv. ring. Qed.
(** The energies [es] are the bin centres between [lo] and [hi]; the values [ds] are positive, are up to a
    common factor the density [rho], and integrate to 1 by the trapezoidal rule over [es] *)
Definition trap_samples (es : list R) (ds : list onum) (lo hi : R) (n : nat) (rho : R -> R -> Prop) : Prop :=
  es = bin_centers (linspace lo hi n)
  /\ exists ps c, ds = map Some ps /\ length ps = n /\ 0 < c /\ trapezoid es ps = 1
     /\ forall i p, nth_error ps i = Some p -> exists e, nth_error es i = Some e /\ lo < e < hi /\ 0 < p /\ rho e (c * p).
Lemma trap_of_density lo hi n f K (rho : R -> R -> Prop) : lo < hi -> (2 <= n)%nat -> 0 < K ->
  (forall e, lo < e < hi -> 0 < f e /\ rho e (K * f e)) ->
  trap_samples (bin_centers (linspace lo hi n))
    (piomega_normalized (bin_centers (linspace lo hi n)) (map f (bin_centers (linspace lo hi n)))) lo hi n rho.
Proof.
  intros H Hn HK Hf. split; [reflexivity|]. set (es := bin_centers (linspace lo hi n)).
  assert (Le : length es = n) by (unfold es; rewrite centers_length, linspace_length; lia).
  assert (P : forall y, In y (map f es) -> 0 < y).
  { intros y Hy. apply in_map_iff in Hy. destruct Hy as (e & <- & He). apply In_nth_error in He. destruct He as (i & He).
    apply Hf. refine (linspace_centers _ _ n i e H ltac:(lia) He). }
  assert (T : 0 < trapezoid es (map f es)).
  { apply trap_pos; [apply centers_increasing, linspace_increasing; [exact H|lia]|exact P|now rewrite map_length|lia]. }
  unfold piomega_normalized. set (t := trapezoid es (map f es)) in *.
  exists (map (fun y => y / t) (map f es)), (K * t). split.
  { rewrite (map_map (fun y => y / t) Some). apply map_ext. intro y. apply odiv_some. lra. }
  split; [now rewrite !map_length|]. split; [now apply Rmult_lt_0_compat|]. split.
  { rewrite trap_scale. fold t. field. lra. }
  intros i p Hp. rewrite map_map, nth_error_map in Hp. destruct (nth_error es i) as [e|] eqn:Ee; [|discriminate].
  cbn [option_map] in Hp. assert (Ep : p = f e / t) by congruence. exists e. split; [reflexivity|].
  pose proof (linspace_centers _ _ n i e H ltac:(lia) Ee) as He. split; [exact He|]. destruct (Hf e He) as [F1 F2]. rewrite Ep.
  split; [now apply Rdiv_lt_0_compat|]. replace (K * t * (f e / t)) with (K * f e) by (field; lra). exact F2.
Qed.
Definition mode_mass (imode : Z) : option R := if Z.eqb imode 1 then Some par_mpi else if Z.eqb imode 0 then Some par_mpi0 else None.
Lemma piomega_samples imode mp cme n : mode_mass imode = Some mp -> 2 * mp + par_momega < cme -> (2 <= n)%nat ->
  exists ep dp ew dw, piomega_distributions imode cme n = Ret [(ep, dp); (ep, dp); (ew, dw)]
  /\ trap_samples ep dp mp (e_max cme mp mp par_momega) n (energy_density cme par_momega mp mp 1 (ppv_msq cme par_momega))
  /\ trap_samples ew dw par_momega (e_max cme par_momega mp mp) n (energy_density cme par_momega mp mp 0 (ppv_msq cme par_momega)).
Proof.
  intros Hm Hc Hn. assert (Hp : 0 < mp).
  { unfold mode_mass in Hm. destruct (Z.eqb imode 1); [|destruct (Z.eqb imode 0); [|discriminate]]; injection Hm as <-; unfold par_mpi, par_mpi0; lra. }
  assert (Hw : 0 < par_momega) by (unfold par_momega; lra). assert (Q0 : 0 < cme) by lra. pose proof PI_RGT_0 as PP.
  assert (P3 : 0 < PI ^ 3) by now apply pow_lt.
  unfold piomega_distributions.
  replace (if Z.eqb imode 1 then Ret par_mpi else if Z.eqb imode 0 then Ret par_mpi0 else Raise ValueError) with (@Ret R mp)
    by (unfold mode_mass in Hm; destruct (Z.eqb imode 1); [|destruct (Z.eqb imode 0)]; congruence).
  cbn [bind]. cbv zeta. destruct (Rlt_dec cme (2 * mp + par_momega)) as [C|_]; [lra|].
  rewrite !linspace_scale.
  replace (cme * (mp / cme)) with mp by (field; lra). replace (cme * (par_momega / cme)) with par_momega by (field; lra).
  replace (cme * (0.5 * (1 + (mp / cme) ^ 2 - (mp / cme + par_momega / cme) ^ 2))) with (e_max cme mp mp par_momega)
    by (unfold e_max; replace 0.5 with (1 / 2) by lra; field; lra).
  replace (cme * (0.5 * (1 - 4 * (mp / cme) ^ 2 + (par_momega / cme) ^ 2))) with (e_max cme par_momega mp mp)
    by (unfold e_max; replace 0.5 with (1 / 2) by lra; field; lra).
  do 4 eexists. split; [reflexivity|]. split.
  - apply (trap_of_density mp (e_max cme mp mp par_momega) n _ (1 / 2)); [apply e_max_above; lra|exact Hn|lra|].
    intros e He. destruct (e_range cme mp mp par_momega e ltac:(lra) ltac:(lra) ltac:(lra) ltac:(lra) He) as (_ & [S1 _] & Eq).
    pose proof (xx_pos cme e Q0 mp (mp + par_momega) ltac:(lra) S1) as Hx.
    rewrite old_pion_density by lra. split.
    + pose proof (djde2_pos cme par_momega mp mp e Q0 Hw ltac:(lra) ltac:(lra) ltac:(lra) ltac:(rewrite (Rplus_comm par_momega mp); exact S1)) as D. nra.
    + replace (1 / 2 * (256 * PI ^ 3 * djde2 (par_momega, mp, mp) cme e)) with (128 * PI ^ 3 * djde2 (par_momega, mp, mp) cme e) by field.
      apply density_1; try lra; rewrite (Rplus_comm par_momega mp); exact S1.
  - apply (trap_of_density par_momega (e_max cme par_momega mp mp) n _ (1 / 2)); [apply e_max_above; lra|exact Hn|lra|].
    intros e He. destruct (e_range cme par_momega mp mp e ltac:(lra) ltac:(lra) ltac:(lra) ltac:(lra) He) as (_ & [S1 _] & Eq).
    pose proof (xx_pos cme e Q0 par_momega (mp + mp) ltac:(lra) S1) as Hx.
    rewrite old_omega_density by lra. split.
    + pose proof (djde1_pos cme par_momega mp mp e 1 ltac:(lra) Q0 Hw ltac:(lra) ltac:(lra) ltac:(lra) S1) as D. nra.
    + replace (1 / 2 * (256 * PI ^ 3 * djde1 (par_momega, mp, mp) 1 cme e)) with (128 * PI ^ 3 * djde1 (par_momega, mp, mp) 1 cme e) by field.
      apply density_0; try lra; exact S1.
Qed.
(** * pi_pi_etap.py: the samples and their norm *)
Lemma sample_dist_ret f norm es : norm <> 0 -> sample_dist f norm es = Ret (map (fun e => f e / norm) es).
Proof.
  intro N. induction es as [|e es IH]; [reflexivity|]. unfold sample_dist in *. cbn [fold_right map]. rewrite IH. cbn [bind].
  destruct (Req_EM_T norm 0); [contradiction|reflexivity].
Qed.
Lemma sample_dist_zero f es : es <> [] -> sample_dist f 0 es = Raise ZeroDivisionError.
Proof.
  induction es as [|e es IH]; intro N; [contradiction|]. unfold sample_dist in *. cbn [fold_right]. destruct es as [|e' es].
  - cbn. destruct (Req_EM_T 0 0); congruence.
  - rewrite IH by discriminate. reflexivity.
Qed.
(** The values [ds] at the energies [es] of the first particle are those of the exact distribution of the
    squared current: the density divided by its integral between [lo] and [hi] *)
Definition normalised_density (q m1 m2 m3 lo hi : R) (es ds : list R) : Prop :=
  exists g N, (forall e, m1 < e < e_max q m1 m2 m3 -> 0 < g e /\ energy_density3 q m1 m2 m3 sq3 e (g e))
    /\ 0 < N /\ area g lo hi N /\ ds = map (fun e => g e / N) es /\ forall e, In e es -> m1 < e < e_max q m1 m2 m3.
Lemma normalised_from quad q m1 m2 m3 lo hi es : 0 <= m1 -> 0 <= m2 -> 0 <= m3 -> m1 + m2 + m3 < q ->
  m1 <= lo < hi -> hi <= e_max q m1 m2 m3 ->
  (let f := fun e => pieta_edist q e m1 m2 m3 in area f lo hi (quad f lo hi)) ->
  (forall e, In e es -> m1 < e < e_max q m1 m2 m3) ->
  0 < quad (fun e => pieta_edist q e m1 m2 m3) lo hi
  /\ normalised_density q m1 m2 m3 lo hi es (map (fun e => pieta_edist q e m1 m2 m3 / quad (fun e => pieta_edist q e m1 m2 m3) lo hi) es).
Proof.
  intros H1 H2 H3 Hq [Hl Hlh] Hh A He. cbv zeta in A. set (n := quad _ lo hi) in *.
  assert (N : 0 < n) by (refine (area_pos _ _ _ _ Hlh _ A); intros e E; apply pieta_edist_density; lra).
  split; [exact N|]. exists (fun e => / 24 * pieta_edist q e m1 m2 m3), (/ 24 * n). split; [|split; [|split; [|split]]].
  - intros e E. destruct (pieta_edist_density q m1 m2 m3 e H1 H2 H3 Hq E) as [P D]. split; [lra|].
    replace (/ 24 * pieta_edist q e m1 m2 m3) with (pieta_edist q e m1 m2 m3 / 24) by lra. exact D.
  - lra.
  - now apply area_scale.
  - apply map_ext. intro e. field. lra.
  - exact He.
Qed.
Lemma make_dist_value quad q m1 m2 m3 n : 0 <= m1 -> 0 <= m2 -> 0 <= m3 -> m1 + m2 + m3 < q -> (0 < n)%nat ->
  (let f := fun e => pieta_edist q e m1 m2 m3 in area f m1 (e_max q m1 m2 m3) (quad f m1 (e_max q m1 m2 m3))) ->
  let es := bin_centers (linspace m1 (e_max q m1 m2 m3) n) in
  exists ds, pieta_make_dist quad q m1 m2 m3 n = (map Some ds, es) /\ length ds = n
    /\ normalised_density q m1 m2 m3 m1 (e_max q m1 m2 m3) es ds.
Proof.
  intros H1 H2 H3 Hq Hn A es. pose proof (e_max_above q m1 m2 m3 H1 H2 H3 Hq) as Hm.
  destruct (normalised_from quad q m1 m2 m3 m1 (e_max q m1 m2 m3) es H1 H2 H3 Hq ltac:(lra) ltac:(lra) A) as [N D].
  { intros e He. apply In_nth_error in He. destruct He as (i & He). exact (linspace_centers _ _ n i e Hm Hn He). }
  eexists. split; [|split; [|exact D]].
  - unfold pieta_make_dist. cbv zeta. fold (e_max q m1 m2 m3). fold es. f_equal.
    match goal with |- _ = map Some (map ?F es) => rewrite (map_map F Some) end.
    apply map_ext. intro e. apply odiv_some. lra.
  - rewrite map_length. unfold es. rewrite centers_length, linspace_length. lia.
Qed.
Lemma linspace_in lo hi n e : lo < hi -> In e (linspace lo hi n) -> lo <= e <= hi.
Proof.
  intros H He. apply In_nth_error in He. destruct He as (i & He).
  assert (Hi : (i <= n)%nat).
  { assert (X : nth_error (linspace lo hi n) i <> None) by congruence. apply nth_error_Some in X. rewrite linspace_length in X. lia. }
  rewrite nth_error_linspace in He by exact Hi. assert (E : e = lo + INR i * ((hi - lo) / INR n)) by congruence. subst e.
  destruct n as [|n].
  - replace i with 0%nat by lia. cbn [INR]. lra.
  - assert (Nn : 0 < INR (S n)) by (apply lt_0_INR; lia). pose proof (pos_INR i). pose proof (le_INR _ _ Hi) as Hle.
    assert (W : 0 < (hi - lo) / INR (S n)) by (apply Rdiv_lt_0_compat; lra).
    set (w := (hi - lo) / INR (S n)) in *. assert (Ew : hi = lo + INR (S n) * w) by (unfold w; field; lra). clearbody w. split; nra.
Qed.
Lemma area_quad_ext (quad : (R -> R) -> R -> R -> R) f g lo hi : (forall x, f x = g x) -> area f lo hi (quad f lo hi) -> area g lo hi (quad f lo hi).
Proof. intros E A. refine (area_ext _ _ _ _ _ [] _ A). intros x _ _. apply E. Qed.
Definition shrunk_range (q m1 m2 m3 : R) : R * R :=
  (m1 * (1 + 1 / 10 ^ 10), e_max q m1 m2 m3 * (1 - 1 / 10 ^ 10)).
Lemma one_sample quad f q m1 m2 m3 n : 0 < m1 -> 0 <= m2 -> 0 <= m3 -> m1 + m2 + m3 < q ->
  (forall e, f e = pieta_edist q e m1 m2 m3) ->
  let (lo, hi) := shrunk_range q m1 m2 m3 in
  lo < hi -> area f lo hi (quad f lo hi) ->
  exists ds, sample_dist f (quad f lo hi) (linspace lo hi n) = Ret ds /\ normalised_density q m1 m2 m3 lo hi (linspace lo hi n) ds.
Proof.
  intros H1 H2 H3 Hq Ef. unfold shrunk_range. set (lo := m1 * _). set (hi := e_max q m1 m2 m3 * _). intros Hlh A.
  pose proof (e_max_above q m1 m2 m3 ltac:(lra) H2 H3 Hq) as Hm.
  assert (L : m1 < lo) by (unfold lo; lra). assert (U : hi < e_max q m1 m2 m3) by (unfold hi; lra).
  pose proof (area_quad_ext quad f _ lo hi Ef A) as A'.
  destruct (normalised_from (fun _ _ _ => quad f lo hi) q m1 m2 m3 lo hi (linspace lo hi n) ltac:(lra) H2 H3 Hq ltac:(lra) ltac:(lra) A') as [N D].
  { intros e He. apply linspace_in in He; lra. }
  eexists. split; [apply sample_dist_ret; lra|].
  match goal with |- normalised_density _ _ _ _ _ _ _ ?l => match type of D with normalised_density _ _ _ _ _ _ _ ?l' => replace l with l'; [exact D|] end end.
  apply map_ext. intro e. now rewrite Ef.
Qed.
(** The integrals exist *)
Lemma area_32 P Q a b : a <= b -> (forall x, a <= x <= b -> continuity_pt P x /\ continuity_pt Q x /\ 0 <= P x /\ Q x <> 0) ->
  exists v, area (fun x => P x * sqrt (P x) / Q x ^ 2) a b v.
Proof.
  intros H C. apply area_exists; [exact H|]. intros x Hx. destruct (C x Hx) as (CP & CQ & HP & HQ).
  apply (continuity_pt_div (fun x => P x * sqrt (P x)) (fun x => Q x ^ 2)).
  - apply (continuity_pt_mult P (fun x => sqrt (P x))); [exact CP|]. apply (continuity_pt_comp P sqrt); [exact CP|now apply continuity_pt_sqrt].
  - apply (continuity_pt_mult Q (fun x => Q x * 1)); [exact CQ|]. apply (continuity_pt_mult Q (fun _ => 1)); [exact CQ|].
    apply derivable_continuous_pt. reg.
  - now apply pow_nonzero.
Qed.
Lemma edist_area q m1 m2 m3 : 0 <= m1 -> 0 <= m2 -> 0 <= m3 -> 0 < m2 + m3 -> m1 + m2 + m3 < q ->
  exists v, area (fun e => pieta_edist q e m1 m2 m3) m1 (e_max q m1 m2 m3) v.
Proof.
  intros H1 H2 H3 Hp Hq. pose proof (e_max_above q m1 m2 m3 H1 H2 H3 Hq) as Hm. assert (Q0 : 0 < q) by lra.
  set (sq := fun e => q ^ 2 + m1 ^ 2 - 2 * q * e).
  set (P := fun e => kallen_lambda (sq e) (m1 ^ 2) (q ^ 2) * kallen_lambda (sq e) (m2 ^ 2) (m3 ^ 2)).
  assert (Rg : forall e, m1 <= e <= e_max q m1 m2 m3 -> (m2 + m3) ^ 2 <= sq e <= (q - m1) ^ 2).
  { intros e [E1 E2]. unfold sq. split; [|nra].
    assert (2 * q * e <= 2 * q * e_max q m1 m2 m3) by (apply Rmult_le_compat_l; lra).
    replace (2 * q * e_max q m1 m2 m3) with (q ^ 2 + m1 ^ 2 - (m2 + m3) ^ 2) in H by (unfold e_max; field; lra). lra. }
  destruct (area_32 P sq m1 (e_max q m1 m2 m3)) as [v A]; [lra| |].
  { intros e He. destruct (Rg e He) as [A1 A2]. assert (0 < (m2 + m3) ^ 2) by now apply pow_lt. repeat split.
    - apply derivable_continuous_pt. unfold P, sq, kallen_lambda. reg.
    - apply derivable_continuous_pt. unfold sq. reg.
    - apply Rmult_le_pos; unfold kallen_lambda.
      + replace (sq e ^ 2 + (m1 ^ 2) ^ 2 + (q ^ 2) ^ 2 - 2 * sq e * m1 ^ 2 - 2 * sq e * q ^ 2 - 2 * m1 ^ 2 * q ^ 2)
          with (((q - m1) ^ 2 - sq e) * ((q + m1) ^ 2 - sq e)) by ring. apply Rmult_le_pos; nra.
      + replace (sq e ^ 2 + (m2 ^ 2) ^ 2 + (m3 ^ 2) ^ 2 - 2 * sq e * m2 ^ 2 - 2 * sq e * m3 ^ 2 - 2 * m2 ^ 2 * m3 ^ 2)
          with ((sq e - (m2 + m3) ^ 2) * (sq e - (m2 - m3) ^ 2)) by ring. apply Rmult_le_pos; nra.
    - lra. }
  exists v. refine (area_ext _ _ _ _ _ [] _ A). intros e He _. unfold pieta_edist, P. cbv zeta. fold (sq e).
  pose proof (e_range q m1 m2 m3 e H1 H2 H3 Hq He) as (_ & [S1 S2] & _). fold (sq e) in S1, S2.
  destruct (Rle_dec (sq e) ((m2 + m3) ^ 2)); [lra|]. destruct (Rle_dec ((q - m1) ^ 2) (sq e)); [lra|]. reflexivity.
Qed.
Lemma integrand_area q me mp : 0 <= me -> 0 < mp -> 2 * mp + me < q ->
  exists v, area (pieta_integrand mp me (fun _ _ => 1) q) ((2 * mp) ^ 2) ((q - me) ^ 2) v.
Proof.
  intros He Hp Hq. assert (Sq : 0 < (2 * mp) ^ 2) by (apply pow_lt; lra).
  set (P := fun s => kallen_lambda s (q ^ 2) (me ^ 2) * kallen_lambda s (mp ^ 2) (mp ^ 2)).
  destruct (area_32 P (fun s => s) ((2 * mp) ^ 2) ((q - me) ^ 2)) as [v A].
  - apply pow_incr. lra.
  - intros s Hs. repeat split.
    + apply derivable_continuous_pt. unfold P, kallen_lambda. reg.
    + apply derivable_continuous_pt. reg.
    + apply Rmult_le_pos; unfold kallen_lambda.
      * replace (s ^ 2 + (q ^ 2) ^ 2 + (me ^ 2) ^ 2 - 2 * s * q ^ 2 - 2 * s * me ^ 2 - 2 * q ^ 2 * me ^ 2)
          with (((q - me) ^ 2 - s) * ((q + me) ^ 2 - s)) by ring. apply Rmult_le_pos; nra.
      * replace (s ^ 2 + (mp ^ 2) ^ 2 + (mp ^ 2) ^ 2 - 2 * s * mp ^ 2 - 2 * s * mp ^ 2 - 2 * mp ^ 2 * mp ^ 2)
          with (s * (s - (2 * mp) ^ 2)) by ring. apply Rmult_le_pos; lra.
    + lra.
  - exists (/ 72 * v). apply (area_scale (/ 72)) in A. refine (area_ext _ _ _ _ _ [] _ A).
    intros s Hs _. unfold pieta_integrand. cbv zeta. fold (P s). set (r := sqrt (P s)). clearbody r. field. lra.
Qed.
Lemma omega_integrand_area u w c : 0 < u -> 0 < w -> 2 * u + w < 1 ->
  exists v, area (piomega_integrand u w c) ((2 * u) ^ 2) ((1 - w) ^ 2) v.
Proof.
  intros Hu Hw H1. assert (Sq : 0 < (2 * u) ^ 2) by (apply pow_lt; lra). apply area_exists; [apply pow_incr; lra|].
  intros z Hz. unfold piomega_integrand. cbv zeta.
  set (P := fun z => kallen_lambda z (u ^ 2) (u ^ 2) * kallen_lambda 1 z (w ^ 2)).
  set (p := fun z => (1 + 10 * w ^ 2 + w ^ 4 - 2 * (1 + w ^ 2) * z + z ^ 2)).
  apply (continuity_pt_mult (fun z => p z / z * sqrt (P z)) (fun _ => c)).
  - apply (continuity_pt_mult (fun z => p z / z) (fun z => sqrt (P z))).
    + apply (continuity_pt_div p (fun z => z)); [| |lra]; apply derivable_continuous_pt; unfold p; reg.
    + apply (continuity_pt_comp P sqrt); [apply derivable_continuous_pt; unfold P, kallen_lambda; reg|]. apply continuity_pt_sqrt.
      apply Rmult_le_pos; unfold kallen_lambda.
      * replace (z ^ 2 + (u ^ 2) ^ 2 + (u ^ 2) ^ 2 - 2 * z * u ^ 2 - 2 * z * u ^ 2 - 2 * u ^ 2 * u ^ 2)
          with (z * (z - (2 * u) ^ 2)) by ring. apply Rmult_le_pos; lra.
      * replace (1 ^ 2 + z ^ 2 + (w ^ 2) ^ 2 - 2 * 1 * z - 2 * 1 * w ^ 2 - 2 * z * w ^ 2)
          with (((1 - w) ^ 2 - z) * ((1 + w) ^ 2 - z)) by ring. apply Rmult_le_pos; nra.
  - apply derivable_continuous_pt. reg.
Qed.
Lemma nth_error_ext_old {A} : forall l l' : list A, (forall i, nth_error l i = nth_error l' i) -> l = l'.
Proof.
  induction l as [|a l IH]; intros [|b l'] H; [reflexivity|discriminate (H 0%nat)|discriminate (H 0%nat)|].
  pose proof (H 0%nat) as E. cbn in E. injection E as <-. f_equal. apply IH. intro i. exact (H (S i)).
Qed.
