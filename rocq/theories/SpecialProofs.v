(** Proofs about SpecialModel: the recurrence of the Bessel functions. *)
From Coq Require Import List Arith Bool ZArith QArith Reals Lra Lia Qreals.
From Verif Require Import RustBase RustBaseFacts RustMath Area BoostProofs SpecModel SpecProofs SpecialModel.
Import ListNotations.
Local Open Scope nat_scope.
Local Open Scope R_scope.

(** * Bessel functions *)
(** The three-term recurrence K(n+1) = K(n-1) + (2n/x) K(n) (DLMF 10.29.1), started from two values. *)
Definition bessel_sequence (x : R) (K : nat -> R) : Prop :=
  forall n, K (S (S n)) = K n + 2 * INR (S n) / x * K (S n).

Lemma kn_loop_seq (x : R) K : x <> 0 -> bessel_sequence x K -> forall n m,
  kn_loop RMath n (S m) x (K m) (K (S m)) = K (S m + n)%nat.
Proof.
  intros X H n. induction n as [|n IH]; intro m; cbn [kn_loop]; [f_equal; lia|].
  replace (fadd RMath (K m) _) with (K (S (S m))).
  - rewrite IH. f_equal. lia.
  - rewrite H. unfold inject_Z. rmodel. change 2%Q with (2 # 1)%Q. rewrite ?Q2R_int, <- INR_IZR_INZ. field. exact X.
Qed.
Lemma bessel_kn_seq (k0 k1 : R -> R) x K n : x <> 0 -> bessel_sequence x K -> K 0%nat = k0 x -> K 1%nat = k1 x ->
  bessel_kn RMath k0 k1 n x = K (Z.abs_nat n).
Proof.
  intros X H H0 H1. unfold bessel_kn.
  replace (feq RMath x (lit RMath 0)) with false.
  2:{ rmodel. cbn [feq RNum]. destruct (Req_EM_T x 0); [contradiction|reflexivity]. }
  destruct (Z.abs_nat n) as [|[|m]]; [now rewrite H0|now rewrite H1|].
  rewrite <- H0, <- H1. rewrite (kn_loop_seq x K X H). f_equal; lia.
Qed.
Fixpoint seq_pair (x a b : R) (n : nat) : R * R :=
  match n with
  | O => (a, b)
  | S n' => let '(l, c) := seq_pair x a b n' in (c, l + 2 * INR (S n') / x * c)
  end.
Lemma seq_exists x a b : exists K, bessel_sequence x K /\ K 0%nat = a /\ K 1%nat = b.
Proof.
  exists (fun n => fst (seq_pair x a b n)).
  assert (E : forall n, fst (seq_pair x a b (S n)) = snd (seq_pair x a b n)).
  { intro n. cbn [seq_pair]. now destruct (seq_pair x a b n). }
  split; [|split; reflexivity].
  intro n. rewrite (E (S n)). rewrite (E n). cbn [seq_pair]. now destruct (seq_pair x a b n).
Qed.

(** The sequence of values at every argument *)
Definition Kf (k0 k1 : R -> R) (n : nat) (z : R) : R := fst (seq_pair z (k0 z) (k1 z) n).
Lemma Kf_step k0 k1 n z : Kf k0 k1 (S (S n)) z = Kf k0 k1 n z + 2 * INR (S n) / z * Kf k0 k1 (S n) z.
Proof.
  unfold Kf. assert (E : forall n, fst (seq_pair z (k0 z) (k1 z) (S n)) = snd (seq_pair z (k0 z) (k1 z) n)).
  { intro m. cbn [seq_pair]. now destruct (seq_pair z (k0 z) (k1 z) m). }
  rewrite (E (S n)), (E n). cbn [seq_pair]. now destruct (seq_pair z (k0 z) (k1 z) n).
Qed.
Lemma Kf_bessel k0 k1 n z : z <> 0 -> bessel_kn RMath k0 k1 n z = Kf k0 k1 (Z.abs_nat n) z.
Proof.
  intro H. apply (bessel_kn_seq k0 k1 z (fun m => Kf k0 k1 m z)); [exact H| |reflexivity|reflexivity].
  intro m. apply Kf_step.
Qed.
Lemma Kf_derivative k0 k1 x : x <> 0 -> derivable_pt_lim k0 x (- k1 x) ->
  derivable_pt_lim k1 x (- k0 x - k1 x / x) -> forall n,
  derivable_pt_lim (Kf k0 k1 n) x (- Kf k0 k1 (S n) x + INR n / x * Kf k0 k1 n x).
Proof.
  intros X D0 D1.
  assert (P : forall n, derivable_pt_lim (Kf k0 k1 n) x (- Kf k0 k1 (S n) x + INR n / x * Kf k0 k1 n x)
    /\ derivable_pt_lim (Kf k0 k1 (S n)) x (- Kf k0 k1 (S (S n)) x + INR (S n) / x * Kf k0 k1 (S n) x)).
  { induction n as [|n [IH1 IH2]].
    - split; [apply (dl_val _ _ _ _ D0)|apply (dl_val _ _ _ _ D1)].
      + change (Kf k0 k1 1 x) with (k1 x). cbn [INR]. field. exact X.
      + rewrite Kf_step. change (Kf k0 k1 1 x) with (k1 x). change (Kf k0 k1 0 x) with (k0 x). cbn [INR]. field. exact X.
    - split; [exact IH2|].
      apply (derivable_pt_lim_ext (fun z => Kf k0 k1 n z + 2 * INR (S n) / z * Kf k0 k1 (S n) z)).
      { intro z. symmetry. apply Kf_step. }
      eapply dl_val.
      + apply dl_plus; [exact IH1|]. apply dl_mult; [|exact IH2]. apply dl_div; [apply dl_const|apply dl_id|exact X].
      + cbv beta. rewrite (Kf_step k0 k1 (S n)), (Kf_step k0 k1 n). unfold Rsqr. rewrite !S_INR. field. exact X. }
  intro n. apply P.
Qed.
Lemma near_nonzero (f g : R -> R) x l : x <> 0 -> (forall z, z <> 0 -> f z = g z) ->
  derivable_pt_lim g x l -> derivable_pt_lim f x l.
Proof.
  intros X E. destruct (Rlt_dec 0 x) as [P|P].
  - apply (derivable_pt_lim_locally_ext g f x 0 (x + 1)); [lra|]. intros z Hz. symmetry. apply E. lra.
  - apply (derivable_pt_lim_locally_ext g f x (x - 1) 0); [lra|]. intros z Hz. symmetry. apply E. lra.
Qed.

(** Growth with the order *)
Lemma sequence_grows x K : 0 < x -> bessel_sequence x K -> 0 < K 0%nat <= K 1%nat -> (1 - 2 / x) * K 1%nat < K 0%nat ->
  forall n, (1 <= n)%nat -> 0 < K n < K (S n).
Proof.
  intros X H P Q.
  assert (I : 0 < / x) by now apply Rinv_0_lt_compat.
  assert (A : forall n, 0 < K (S n) /\ K (S n) < K (S (S n)) <= (1 + 2 * INR (S n) / x) * K (S n)).
  { induction n as [|n (IH1 & IH2 & IH3)].
    - rewrite H. cbn [INR]. unfold Rdiv in *. split; [lra|]. split; nra.
    - split; [lra|]. rewrite (H (S n)). rewrite !S_INR in *. pose proof (pos_INR n) as N.
      set (a := K (S n)) in *. set (b := K (S (S n))) in *. set (u := INR n) in *. unfold Rdiv in *.
      set (i := / x) in *. clearbody a b u i. split; [|nra].
      assert (0 < i * b) by nra. assert (0 <= u * (i * (b - a))) by (apply Rmult_le_pos; [exact N|apply Rmult_le_pos; lra]).
      assert (0 < i * (b - a)) by (apply Rmult_lt_0_compat; lra).
      replace (2 * (u + 1 + 1) * i * b) with (2 * (u + 1) * i * a + 2 * (u * (i * (b - a))) + 2 * (i * (b - a)) + 2 * (i * b)) by ring.
      replace ((1 + 2 * (u + 1) * i) * a) with (a + 2 * (u + 1) * i * a) in IH3 by ring. lra. }
  intros [|n] L; [lia|]. destruct (A n) as (B & C & D). lra.
Qed.
