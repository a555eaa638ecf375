(** Vocabulary and lemmas for the queries to a black hole. *)
From Coq Require Import Bool String Reals Lra Lia Sorted List.
From Verif Require Import PyBase Area KinModel DistModel DistProofs TheoryModel SingleModel PbhModel PbhProofs PbhProps PbhDecModel.
Import ListNotations.
Local Open Scope string_scope.
Local Open Scope list_scope.
Local Open Scope R_scope.

(** ** Vocabulary *)

(** [F] is the broken line through the points (es, col), continued by zero *)
Definition broken_line (es col : list R) (F : R -> R) : Prop :=
  (forall i e d, nth_error es i = Some e -> nth_error col i = Some d -> F e = d) /\
  (forall i e e' d d' t, nth_error es i = Some e -> nth_error es (S i) = Some e' ->
     nth_error col i = Some d -> nth_error col (S i) = Some d' -> 0 <= t <= 1 ->
     F ((1 - t) * e + t * e') = (1 - t) * d + t * d') /\
  (forall x, (forall e, In e es -> x < e) \/ (forall e, In e es -> e < x) -> F x = 0).

(** ** Lemmas *)
Lemma rate_pieces : forall es ds, length es = length ds -> pieces 1 0 es ds = rate es ds.
Proof.
  induction es as [|e [|e' es] IH]; intros [|d [|d' ds]] H; try reflexivity; try discriminate.
  cbn [pieces rate]. cbn [pieces rate] in IH. rewrite (IH (d' :: ds)) by (cbn in *; lia). field.
Qed.

Lemma interp_broken_line es col : Sorted Rlt es -> length es = length col ->
  broken_line es col (fun x => np_interp_zero x es col).
Proof.
  intros Hs Hl.
  assert (Low : forall e, In e es -> np_interp_zero e es col = interp_from e es col).
  { intros e He. destruct es as [|a es]; [destruct He|]. unfold np_interp_zero. pose proof (sorted_first a es Hs e He).
    destruct (Rlt_dec e a); [lra|reflexivity]. }
  assert (Node : forall i e d, nth_error es i = Some e -> nth_error col i = Some d -> np_interp_zero e es col = d).
  { intros i e d He Hd. rewrite Low by (eapply nth_error_In; exact He). now apply (interp_node es col i). }
  split; [exact Node|]. split.
  - intros i e e' d d' t He He' Hd Hd' Ht.
    assert (Lt : e < e').
    { clear - Hs He He'. revert i He He'. induction es as [|a es IH]; intros i He He'; [destruct i; discriminate|].
      destruct es as [|b es]; [destruct i as [|[|]]; discriminate|]. apply sorted_cons in Hs. destruct Hs as [Hab Hs].
      destruct i as [|i]; [cbn in *; injection He as <-; injection He' as <-; exact Hab|]. now apply (IH Hs i). }
    destruct (Req_dec t 1) as [->|Nt].
    + replace ((1 - 1) * e + 1 * e') with e' by ring. rewrite (Node (S i) e' d' He' Hd'). ring.
    + set (x := (1 - t) * e + t * e').
      assert (Hx : e <= x < e').
      { unfold x. assert (P : 0 < (1 - t) * (e' - e)) by (apply Rmult_lt_0_compat; lra).
        assert (Q : 0 <= t * (e' - e)) by (apply Rmult_le_pos; lra). split; lra. }
      assert (E : np_interp_zero x es col = interp_from x es col).
      { destruct es as [|a es]; [destruct i; discriminate|]. unfold np_interp_zero.
        pose proof (sorted_first a es Hs e (nth_error_In _ _ He)). destruct (Rlt_dec x a); [lra|reflexivity]. }
      rewrite E, (interp_segment es col i e e' d d' x) by assumption. unfold x. field. lra.
  - intros x [H|H].
    + destruct es as [|a es]; [reflexivity|]. unfold np_interp_zero. specialize (H a (or_introl eq_refl)).
      destruct (Rlt_dec x a); [reflexivity|lra].
    + destruct es as [|a es]; [reflexivity|]. unfold np_interp_zero. destruct (Rlt_dec x a); [reflexivity|].
      now apply interp_above.
Qed.

(** The photon queries for one channel *)
Lemma dec_spectra f es col xs :
  d_spectra (pbh_theory f es col) (VA xs) =
    Ret [("all", VA (map (fun x => if Rlt_dec 0 f then np_interp_zero x es col else 0) xs));
         ("total", VA (map (fun x => if Rlt_dec 0 f then np_interp_zero x es col else 0) xs))].
Proof.
  unfold d_spectra, decay_branching_fractions, fractions_of, decay_widths, pbh_theory, d_widths, pbh_decay_widths, d_spectrum_funcs.
  cbn. destruct (Req_EM_T (0 + f) 0) as [E|E]; cbn; destruct (Rlt_dec 0 f) as [P|P]; try lra; cbn;
    rewrite ?map_map;
    match goal with |- Ret [(_, VA ?a); (_, VA ?b)] = Ret [(_, VA ?c); _] =>
      replace a with c by (apply map_ext; intro x; try ring; field; lra);
      replace b with c by (apply map_ext; intro x; try ring; field; lra) end; reflexivity.
Qed.
