(** C176, C178: the spin sums used there are traces of the Dirac matrices, and cross sections from the
    matrices written out. *)
From Coq Require Import Reals Lra Lia List Arith.
From Verif Require Import PyBase Area MedModel DiracProofs ChanProofs ChanProps GammaProofs GammaIndex.
Import ListNotations.
Local Open Scope R_scope.

(** the factors as matrices, when every index has a direction *)
Definition assigned (d : nat -> vec) (l : list factor) : list (vec * R) :=
  map (fun f => match f with Spin p m => (p, m) | Vertex j => (d j, 0) end) l.
Definition set_dir (d : nat -> vec) (i : nat) (e : vec) : nat -> vec := fun j => if Nat.eqb j i then e else d j.
(** the sum over the directions of the indices, with the signs of the metric *)
Fixpoint over (js : list nat) (d : nat -> vec) (F : (nat -> vec) -> R) : R :=
  match js with
  | [] => F d
  | i :: r => dirs (fun e => over r (set_dir d i e) F)
  end.

Lemma over_ext : forall js d F G, (forall d', (forall k, ~ In k js -> d' k = d k) -> F d' = G d') -> over js d F = over js d G.
Proof.
  induction js as [|i r IH]; intros d F G H; [apply H; reflexivity|]. cbn [over]. apply dirs_ext. intro e. apply IH.
  intros d' Hd. apply H. intros k Hk. cbn [In] in Hk. rewrite Hd by tauto. unfold set_dir. destruct (Nat.eqb_spec k i); [subst; tauto|reflexivity].
Qed.
Lemma assigned_directed : forall i d l, assigned d (directed i (d i) l) = assigned d l.
Proof.
  intros. unfold assigned, directed. rewrite map_map. apply map_ext. intros [p m|j]; cbn [vertex_here]; [reflexivity|].
  destruct (Nat.eqb_spec i j) as [<-|]; reflexivity.
Qed.
Lemma vertices_directed : forall i j e l, vertices j (directed i e l) = if Nat.eqb j i then 0%nat else vertices j l.
Proof.
  intros i j e l. unfold vertices, directed. induction l as [|[p m|k] l IH]; cbn [map filter vertex_here length].
  - destruct (Nat.eqb j i); reflexivity.
  - exact IH.
  - destruct (Nat.eqb_spec i k) as [<-|N]; cbn [vertex_here].
    + rewrite IH. destruct (Nat.eqb j i); reflexivity.
    + destruct (Nat.eqb_spec j k) as [->|]; cbn [length]; rewrite IH; [|reflexivity]. destruct (Nat.eqb_spec k i); [congruence|reflexivity].
Qed.
Lemma no_vertices : forall d l, (forall j, vertices j l = 0%nat) -> l = as_factors (assigned d l).
Proof.
  intros d l. induction l as [|[p m|j] l IH]; intro H; [reflexivity| |].
  - cbn [assigned as_factors map fst snd]. f_equal. apply IH. exact H.
  - specialize (H j). unfold vertices in H. cbn [filter vertex_here] in H. rewrite Nat.eqb_refl in H. discriminate.
Qed.
Lemma tr_no_index : forall l, tr (as_factors l) = rtr (spins l).
Proof.
  intro l. unfold tr. change [] with (map Slash []) at 1. rewrite (expand_linear rtr rtr_lin).
  - change (prod []) with one. rewrite mul_one_l. reflexivity.
  - intro l'. rewrite (trace_matrices _ l' []); [cbn [fold_right]; ring|]. unfold steps. cbn [fold_right map]. rewrite map_length. lia.
Qed.
Lemma tr2_no_index : forall l l', tr2 (as_factors l) (as_factors l') = rtr (spins l) * rtr (spins l').
Proof.
  intros l l'. unfold tr2. change [] with (map Slash []) at 1.
  rewrite (expand_linear (fun a => rtr a * rtr (spins l'))).
  - change (prod []) with one. rewrite mul_one_l. reflexivity.
  - intros. rewrite rtr_lin. ring.
  - intro x. change [] with (map Slash []) at 1. rewrite (expand_linear (fun b => rtr (prod x) * rtr b)).
    + change (prod []) with one. rewrite mul_one_l. reflexivity.
    + intros. rewrite rtr_lin. ring.
    + intro y. rewrite (trace_matrices _ x [y]); [cbn [fold_right]; ring|]. unfold steps. cbn [fold_right map]. rewrite !map_length. lia.
Qed.

(** Spin sums with every index contracted twice are sums of traces of products of the Dirac matrices. *)
Theorem spin_sums_are_matrix_traces : forall js l l' d, NoDup js ->
  (forall j, In j js -> (vertices j l + vertices j l' = 2)%nat) -> (forall j, ~ In j js -> (vertices j l + vertices j l' = 0)%nat) ->
  tr2 l l' = over js d (fun d => rtr (spins (assigned d l)) * rtr (spins (assigned d l'))) /\
  (l' = [] -> tr l = over js d (fun d => rtr (spins (assigned d l)))) /\
  itr (spins (assigned d l)) = 0.
Proof.
  intros js l l' d N H1 H2. split; [|split].
  - revert l l' d H1 H2. induction N as [|i r Hi N IH]; intros l l' d H1 H2.
    + cbn [over]. rewrite (no_vertices d l) at 1 by (intro j; specialize (H2 j (fun x => x)); lia).
      rewrite (no_vertices d l') at 1 by (intro j; specialize (H2 j (fun x => x)); lia). apply tr2_no_index.
    + cbn [over]. rewrite (tr2_directions i).
      * apply dirs_ext. intro e. rewrite (IH _ _ (set_dir d i e)).
        -- apply over_ext. intros d' Hd.
           assert (E : d' i = e) by (rewrite Hd by exact Hi; unfold set_dir; rewrite Nat.eqb_refl; reflexivity).
           rewrite <- E, !assigned_directed. reflexivity.
        -- intros j Hj. rewrite !vertices_directed. destruct (Nat.eqb_spec j i); [subst; contradiction|]. apply H1. right. exact Hj.
        -- intros j Hj. rewrite !vertices_directed. destruct (Nat.eqb_spec j i); [reflexivity|]. apply H2. intros [E|E]; [congruence|contradiction].
      * apply H1. left. reflexivity.
      * intro j. destruct (in_dec Nat.eq_dec j (i :: r)) as [Hj|Hj]; [right; apply H1, Hj|left; apply H2, Hj].
  - intros ->. assert (V : forall j, vertices j [] = 0%nat) by reflexivity.
    revert l d H1 H2. induction N as [|i r Hi N IH]; intros l d H1 H2.
    + cbn [over]. rewrite (no_vertices d l) at 1 by (intro j; specialize (H2 j (fun x => x)); rewrite V in H2; lia). apply tr_no_index.
    + cbn [over]. rewrite (tr_directions i).
      * apply dirs_ext. intro e. rewrite (IH _ (set_dir d i e)).
        -- apply over_ext. intros d' Hd.
           assert (E : d' i = e) by (rewrite Hd by exact Hi; unfold set_dir; rewrite Nat.eqb_refl; reflexivity).
           rewrite <- E, !assigned_directed. reflexivity.
        -- intros j Hj. rewrite vertices_directed, V. destruct (Nat.eqb_spec j i); [subst; contradiction|].
           specialize (H1 j (or_intror Hj)). rewrite V in H1. lia.
        -- intros j Hj. rewrite vertices_directed, V. destruct (Nat.eqb_spec j i); [reflexivity|].
           specialize (H2 j). rewrite V in H2. apply H2. intros [E|E]; [congruence|contradiction].
      * specialize (H1 i (or_introl eq_refl)). rewrite V in H1. lia.
      * intro j. destruct (in_dec Nat.eq_dec j (i :: r)) as [Hj|Hj].
        -- specialize (H1 j Hj). rewrite V in H1. lia.
        -- specialize (H2 j Hj). rewrite V in H2. lia.
  - assert (E : expand (map Slash []) (fun _ => 0) (as_factors (assigned d l)) = itr (mul (prod []) (spins (assigned d l)))).
    { apply (expand_linear itr itr_lin). intro x. symmetry. apply (imaginary_part (S (length x))). lia. }
    change (prod []) with one in E. rewrite mul_one_l in E. rewrite <- E.
    generalize (map Slash []), (assigned d l). clear. intros acc l. revert acc. induction l as [|(p, m) l IH]; intro acc; [reflexivity|].
    cbn [as_factors map expand]. fold (as_factors l). rewrite !IH. ring.
Qed.
Print Assumptions spin_sums_are_matrix_traces.

Example spin_sums_are_matrix_traces_example :
  let l := [Spin (V4 5 0 0 4) (-3); Vertex 0; Spin (V4 5 0 0 4) 3; Vertex 1] in
  let l' := [Spin (V4 5 0 0 4) 3; Vertex 0; Spin (V4 5 0 0 4) (-3); Vertex 1] in
  NoDup [0; 1]%nat /\ (forall j, In j [0; 1]%nat -> (vertices j l + vertices j l' = 2)%nat) /\
  (forall j, ~ In j [0; 1]%nat -> (vertices j l + vertices j l' = 0)%nat).
Proof.
  cbv zeta. split; [repeat constructor; cbn; intuition discriminate|]. split.
  - intros j [<-|[<-|[]]]; reflexivity.
  - intros [|[|j]] H; cbn in H; tauto || reflexivity.
Qed.

(** The matrices satisfy the relations that define them, and the gamma matrices of space are antihermitian,
    that of time hermitian. *)
Theorem dirac_matrices : (forall a b, comb 1 (mul (slash a) (slash b)) 1 (mul (slash b) (slash a)) = comb (2 * mdot a b) one 0 one) /\
  (forall a i j, let c := mul gamma0 (mul (slash a) gamma0) in re c i j = re (slash a) j i /\ im c i j = - im (slash a) j i).
Proof.
  split.
  - intros a b. rewrite (clifford a b). set (X := mul (slash b) (slash a)). clearbody X.
    apply cm_ext; intros i j; unfold comb; cbn [re im]; ring.
  - intros a i j. destruct i, j; cbv [mul comb slash sum4 gamma0 gamma1 gamma2 gamma3 mat pick zero re im]; split; ring.
Qed.
Print Assumptions dirac_matrices.
Example dirac_matrices_example : mul (slash (V4 1 0 0 0)) (slash (V4 1 0 0 0)) = one /\ re gamma0 I2 I2 = -1.
Proof.
  split; [|reflexivity]. apply cm_ext; intros i j; destruct i, j;
    cbv [mul comb slash sum4 one gamma0 gamma1 gamma2 gamma3 mat pick zero re im v0 v1 v2 v3]; ring.
Qed.

(** The cross section into fermions through the vector, from the matrices. *)
Definition fermions_by_matrices (m u e z : R) : R :=
  dirs (fun a => dirs (fun b =>
    rtr (spins [(in_2 e m, - m); (a, 0); (in_1 e m, m); (b, 0)])
    * rtr (spins [(out_1 e u z, u); (a, 0); (out_2 e u z, - u); (b, 0)]))).
Theorem fermions_from_matrices : forall V e w u g, 0 < e -> 0 <= u -> 0 <= v_mx V -> 0 < v_mv V -> 0 < w -> 2 * v_mx V < e -> 2 * u < e ->
  channel_rule (v_mx V) (momentum e u) e (fun z => v_gvxx V ^ 2 * g ^ 2 *
    fermions_by_matrices (v_mx V) u e z / breit (v_mv V) w e / 4) (sigma_xx_to_v_to_ff V e w g u).
Proof.
  intros V e w u g H1 H2 H3 H4 H5 H6 H7.
  destruct (annihilation_through_mediators_golden_rule py_consts (MkS 0 0 0 0 0 0 0 0) V e w u g H1 H2) as (_ & G & _).
  destruct (G H3 H4 H5 H6 H7) as (I & A & E). exists I. split; [|exact E].
  eapply (area_ext _ _ _ _ _ []); [|exact A]. intros z _ _. cbn beta. f_equal. f_equal. f_equal.
  unfold fermion_sum, fermions_by_matrices.
  destruct (spin_sums_are_matrix_traces [0; 1]%nat
    [Spin (in_2 e (v_mx V)) (- v_mx V); Vertex 0; Spin (in_1 e (v_mx V)) (v_mx V); Vertex 1]
    [Spin (out_1 e u z) u; Vertex 0; Spin (out_2 e u z) (- u); Vertex 1] (fun _ => V4 0 0 0 0)) as (Q & _).
  - repeat constructor; cbn; intuition discriminate.
  - intros j [<-|[<-|[]]]; reflexivity.
  - intros [|[|j]] H; cbn in H; tauto || reflexivity.
  - rewrite Q. reflexivity.
Qed.
Print Assumptions fermions_from_matrices.
Example fermions_from_matrices_example : let V := MkV 200 300 1 1 0 0 0 0 in
  0 <= v_mx V /\ 0 < v_mv V /\ 2 * v_mx V < 700 /\ 2 * c_mmu py_consts < 700.
Proof. cbn. repeat split; lra. Qed.
