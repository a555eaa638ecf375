(** Specification vocabulary and lemmas for the relic density. *)
From Coq Require Import List Arith Bool ZArith Reals Lra Lia.
From Verif Require Import RustBase RustMath Area Primitive SpecProofs PionProofs RelicModel.
Import ListNotations.
Local Open Scope R_scope.

(** * Specification *)
(** The derivative relation of the modified Bessel functions K1 and K2 (DLMF 10.29.4): (z^2 K2)' = - z^2 K1 *)
Definition bessel_pair (K1 K2 : R -> R) : Prop :=
  forall z, 0 < z -> derivable_pt_lim (fun z => z ^ 2 * K2 z) z (- (z ^ 2 * K1 z)).
(** An elementary pair in that relation, with the decay of the Bessel functions *)
Definition toyK1 (z : R) : R := exp (- z).
Definition toyK2 (z : R) : R := (1 + 2 / z + 2 / z ^ 2) * exp (- z).
Lemma dl_exp f x a : derivable_pt_lim f x a -> derivable_pt_lim (fun y => exp (f y)) x (exp (f x) * a).
Proof. intro H. apply (dl_comp f exp); [exact H|apply derivable_pt_lim_exp]. Qed.
Lemma pos_ext (f g : R -> R) x l : 0 < x -> (forall z, 0 < z -> f z = g z) -> derivable_pt_lim g x l -> derivable_pt_lim f x l.
Proof.
  intros X E. apply (derivable_pt_lim_locally_ext g f x 0 (x + 1)); [lra|]. intros z Hz. symmetry. apply E. lra.
Qed.
Lemma toy_pair : bessel_pair toyK1 toyK2.
Proof.
  intros z Z. apply (pos_ext _ (fun z => (z ^ 2 + 2 * z + 2) * exp (- z))); [exact Z| |].
  - intros y Y. unfold toyK2. field. lra.
  - eapply dl_val; [apply dl_mult; [dl|apply dl_exp, dl_opp, dl_id]|]. unfold toyK1. cbn [INR pred]. ring.
Qed.
Lemma toy_positive z : 0 < z -> 0 < toyK1 z /\ 0 < toyK2 z.
Proof.
  intro Z. pose proof (exp_pos (- z)). split; [exact H|]. unfold toyK2. apply Rmult_lt_0_compat; [|exact H].
  assert (0 < 2 / z) by (apply Rdiv_lt_0_compat; lra).
  assert (0 < 2 / z ^ 2) by (apply Rdiv_lt_0_compat; nra). lra.
Qed.

(** * Number densities *)
Lemma sum5_ext f g : (forall n, (1 <= n <= 5)%nat -> f n = g n) -> sum5 f = sum5 g.
Proof. intro H. unfold sum5. cbn [map fold_right]. rewrite !H by lia. reflexivity. Qed.
Lemma sum5_scale c f : sum5 (fun n => c * f n) = c * sum5 f.
Proof. unfold sum5. cbn [map fold_right]. ring. Qed.
Lemma sum5_pos f : (forall n, (1 <= n <= 5)%nat -> 0 < f n) -> 0 < sum5 f.
Proof.
  intro H. unfold sum5. cbn [map fold_right].
  pose proof (H 1%nat ltac:(lia)). pose proof (H 2%nat ltac:(lia)). pose proof (H 3%nat ltac:(lia)).
  pose proof (H 4%nat ltac:(lia)). pose proof (H 5%nat ltac:(lia)). lra.
Qed.
Lemma sum5_derivative (f : nat -> R -> R) (f' : nat -> R) x :
  (forall n, (1 <= n <= 5)%nat -> derivable_pt_lim (f n) x (f' n)) ->
  derivable_pt_lim (fun y => sum5 (fun n => f n y)) x (sum5 f').
Proof.
  intro H. unfold sum5. cbn [map fold_right].
  repeat (apply dl_plus; [apply H; lia|]). apply dl_const.
Qed.
(** Derivative of [nbar_massive] with respect to x, both statistics *)
Definition nbar_slope (K1 : R -> R) (x : R) (f : bool) : R :=
  - (x ^ 2 * sum5 (fun n => eta f ^ (n + 1) * K1 (INR n * x)) / (2 * PI ^ 2)).
Lemma INR_range n : (1 <= n <= 5)%nat -> 0 < INR n.
Proof. intro H. apply lt_0_INR. lia. Qed.
Lemma nbar_derivative K1 K2 x f : bessel_pair K1 K2 -> 0 < x ->
  derivable_pt_lim (fun x => nbar_massive K2 x f) x (nbar_slope K1 x f).
Proof.
  intros HK X. pose proof PI_RGT_0 as P.
  apply (derivable_pt_lim_ext (fun x => / (2 * PI ^ 2) * sum5 (fun n => eta f ^ (n + 1) / INR n ^ 3 * ((INR n * x) ^ 2 * K2 (INR n * x))))).
  { intro y. unfold nbar_massive.
    rewrite (sum5_ext _ (fun n => y ^ 2 * (eta f ^ (n + 1) / INR n * K2 (INR n * y)))).
    - rewrite sum5_scale. field. lra.
    - intros n Hn. pose proof (INR_range n Hn). field. lra. }
  eapply dl_val.
  - eapply dl_mult; [apply dl_const|].
    apply (sum5_derivative (fun n x => eta f ^ (n + 1) / INR n ^ 3 * ((INR n * x) ^ 2 * K2 (INR n * x)))
      (fun n => - (x ^ 2 * (eta f ^ (n + 1) * K1 (INR n * x))))).
    intros n Hn. pose proof (INR_range n Hn) as N. eapply dl_val.
    + eapply dl_mult; [apply dl_const|]. eapply (dl_comp (fun x => INR n * x) (fun z => z ^ 2 * K2 z)); [dl|].
      apply HK. apply Rmult_lt_0_compat; lra.
    + cbv beta. field. lra.
  - unfold nbar_slope. rewrite (sum5_ext (fun n => - (x ^ 2 * (eta f ^ (n + 1) * K1 (INR n * x)))) (fun n => - x ^ 2 * (eta f ^ (n + 1) * K1 (INR n * x)))) by (intros; ring).
    rewrite sum5_scale. field. lra.
Qed.
(** The derivative of the number density with respect to temperature *)
Definition neq_slope (K1 K2 : R -> R) (T mass g : R) (f : bool) : R :=
  g * T * (3 * T * nbar_massive K2 (mass / T) f - mass * nbar_slope K1 (mass / T) f).
Lemma neq_derivative_massive K1 K2 T mass g f : bessel_pair K1 K2 -> 0 < T -> 0 < mass ->
  derivable_pt_lim (fun T => neq K2 T mass g f) T (neq_slope K1 K2 T mass g f).
Proof.
  intros HK HT HM.
  apply (derivable_pt_lim_ext (fun T => g * nbar_massive K2 (mass / T) f * T ^ 3)).
  { intro t. unfold neq. destruct (Req_EM_T mass 0); [lra|reflexivity]. }
  eapply dl_val.
  - apply dl_mult; [|apply dl_pow, dl_id]. apply dl_mult; [apply dl_const|].
    apply (dl_comp (fun t => mass / t) (fun x => nbar_massive K2 x f)).
    + apply dl_div; [apply dl_const|apply dl_id|lra].
    + apply (nbar_derivative K1); [exact HK|apply Rdiv_lt_0_compat; lra].
  - unfold neq_slope. cbv beta. cbn [INR pred]. unfold Rsqr. set (a := nbar_massive _ _ _). set (b := nbar_slope _ _ _).
    clearbody a b. field. lra.
Qed.
Lemma neq_derivative_massless K2 T g f : derivable_pt_lim (fun T => neq K2 T 0 g f) T (g * T * (3 * T * nbar_massless f)).
Proof.
  apply (derivable_pt_lim_ext (fun T => g * nbar_massless f * T ^ 3)).
  { intro t. unfold neq. destruct (Req_EM_T 0 0); [reflexivity|lra]. }
  eapply dl_val; [dl|]. cbn [INR pred]. ring.
Qed.
(** What neq_deriv returns *)
Lemma neq_deriv_fermion K1 K2 T mass g : 0 < mass -> neq_deriv K1 K2 T mass g true = neq_slope K1 K2 T mass g true.
Proof.
  intro HM. unfold neq_deriv, neq_slope. destruct (Req_EM_T mass 0); [lra|]. unfold nbar_slope, eta. set (x := mass / T). clearbody x.
  replace (sum5 (fun n => (-1) ^ n * K1 (INR n * x))) with (- sum5 (fun n => (-1) ^ (n + 1) * K1 (INR n * x))).
  - field. apply PI_neq0.
  - unfold sum5. cbn [map fold_right]. cbn [pow Nat.add]. ring.
Qed.
Lemma neq_deriv_boson K1 K2 T mass g : 0 < mass -> neq_deriv K1 K2 T mass g false =
  neq_slope K1 K2 T mass g false + 2 * (g * T * mass * nbar_slope K1 (mass / T) false).
Proof.
  intro HM. unfold neq_deriv, neq_slope. destruct (Req_EM_T mass 0); [lra|]. unfold nbar_slope, eta. set (x := mass / T). clearbody x.
  replace (sum5 (fun n => 1 ^ n * K1 (INR n * x))) with (sum5 (fun n => 1 ^ (n + 1) * K1 (INR n * x))).
  - field. apply PI_neq0.
  - unfold sum5. cbn [map fold_right]. rewrite !pow1. reflexivity.
Qed.
Lemma nbar_slope_boson_negative K1 x : 0 < x -> (forall z, 0 < z -> 0 < K1 z) -> nbar_slope K1 x false < 0.
Proof.
  intros X P. unfold nbar_slope, eta. pose proof PI_RGT_0.
  assert (S : 0 < sum5 (fun n => 1 ^ (n + 1) * K1 (INR n * x))).
  { apply sum5_pos. intros n Hn. rewrite pow1, Rmult_1_l. apply P. apply Rmult_lt_0_compat; [now apply INR_range|exact X]. }
  assert (0 < x ^ 2 * sum5 (fun n => 1 ^ (n + 1) * K1 (INR n * x)) / (2 * PI ^ 2)); [|lra].
  apply Rdiv_lt_0_compat; [apply Rmult_lt_0_compat; [nra|exact S]|nra].
Qed.

(** * Substitution in an area *)
(** The squared energy s = (m z)^2 in place of z *)
Lemma area_square f m a b v : 0 < m -> 0 <= a <= b -> area f ((m * a) ^ 2) ((m * b) ^ 2) v ->
  area (fun z => f ((m * z) ^ 2) * (2 * m ^ 2 * z)) a b v.
Proof.
  intros M H (G & Gc & (l & Gd) & Gv). exists (fun z => G ((m * z) ^ 2)). split; [|split; [|exact Gv]].
  - intros x Hx. apply (continuity_pt_comp (fun z => (m * z) ^ 2) G).
    + apply derivable_continuous_pt. eexists. dl.
    + apply Gc. split; apply pow_incr; split; nra.
  - exists (map (fun s => sqrt s / m) l). intros x Hx Hn.
    assert (X : sqrt ((m * x) ^ 2) / m = x) by (rewrite sqrt_pow2 by nra; field; lra).
    eapply dl_val.
    + apply (dl_comp (fun z => (m * z) ^ 2) G); [dl|]. apply Gd.
      * split; [assert (m * a < m * x) by nra; assert (0 <= m * a) by nra; nra|assert (m * x < m * b) by nra; assert (0 <= m * x) by nra; nra].
      * intro K. apply Hn. rewrite <- X. now apply (in_map (fun s => sqrt s / m)).
    + cbn [INR pred]. ring.
Qed.
