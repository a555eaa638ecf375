(** The real-number instance of [Math], and the area under a curve: a specification of integrals
    that needs no measure theory.  [area f a b v] says that some continuous function whose
    derivative is [f] at all but finitely many points of (a,b) grows by [v] from a to b; the value
    is unique ([area_unique]). *)
From Coq Require Import List Reals Ranalysis5 Lra Lia Qreals QArith.
From Verif Require Import RustBase RustBaseFacts RustMath.
Import ListNotations.
Local Open Scope R_scope.

(** NaN and infinity have no counterpart in the reals; theorems about [RMath] must not depend on
    the value 0 used for them here. *)
Definition RMath : Math := {|
  mnum := RNum; fsqrt := sqrt; fln := ln; fexp := exp; fpi := PI; fnan := 0; finf := 0 |}.

Definition area (f : R -> R) (a b v : R) : Prop :=
  exists G : R -> R,
    (forall x, a <= x <= b -> continuity_pt G x)
    /\ (exists l : list R, forall x, a < x < b -> ~ In x l -> derivable_pt_lim G x (f x))
    /\ G b - G a = v.

(** ** Continuity by epsilon and delta *)
Lemma cont_eps f x : continuity_pt f x <->
  forall eps, 0 < eps -> exists d, 0 < d /\ forall y, Rabs (y - x) < d -> Rabs (f y - f x) < eps.
Proof.
  split.
  - intros H eps He. destruct (H eps He) as [d [Hd H']]. exists d. split; [exact Hd|].
    intros y Hy. destruct (Req_dec x y) as [->|Hne]; [rewrite Rminus_eq_0, Rabs_R0; exact He|].
    apply (H' y). split; [split; [exact I|exact Hne]|exact Hy].
  - intros H eps He. destruct (H eps He) as [d [Hd H']]. exists d. split; [exact Hd|].
    intros y [_ Hy]. apply (H' y Hy).
Qed.

(** ** Uniqueness and sign *)
Lemma mono_piece G g a b : a <= b -> (forall x, a <= x <= b -> continuity_pt G x) ->
  (forall x, a < x < b -> derivable_pt_lim G x (g x) /\ 0 <= g x) -> G a <= G b.
Proof.
  intros Hab Hc Hd. destruct (Rle_lt_or_eq_dec _ _ Hab) as [H|H]; [|subst; lra].
  assert (pr : forall c, a < c < b -> derivable_pt G c) by (intros c Hcc; exists (g c); apply Hd; exact Hcc).
  destruct (MVT G id a b pr (fun c _ => derivable_pt_id c) H Hc) as (c & P & E).
  { intros c _. apply derivable_continuous_pt, derivable_pt_id. }
  rewrite (derive_pt_eq_0 _ _ _ (pr c P) (proj1 (Hd c P))), derive_pt_id in E. unfold id in E.
  pose proof (proj2 (Hd c P)). nra.
Qed.
Lemma mono_except G g l : forall a b, a <= b -> (forall x, a <= x <= b -> continuity_pt G x) ->
  (forall x, a < x < b -> ~ In x l -> derivable_pt_lim G x (g x) /\ 0 <= g x) -> G a <= G b.
Proof.
  induction l as [|p l IH]; intros a b Hab Hc Hd.
  - apply (mono_piece G g); auto.
  - destruct (Rlt_dec a p) as [H1|H1]; [destruct (Rlt_dec p b) as [H2|H2]|].
    + apply Rle_trans with (G p); apply IH; try lra; intros x Hx.
      * apply Hc. lra.
      * intro Hn. apply Hd; [lra|]. intros [E|E]; [lra|now apply Hn].
      * apply Hc. lra.
      * intro Hn. apply Hd; [lra|]. intros [E|E]; [lra|now apply Hn].
    + apply IH; auto. intros x Hx Hn. apply Hd; auto. intros [E|E]; [lra|now apply Hn].
    + apply IH; auto. intros x Hx Hn. apply Hd; auto. intros [E|E]; [lra|now apply Hn].
Qed.

Lemma area_le f g a b v w : a <= b -> (forall x, a < x < b -> f x <= g x) ->
  area f a b v -> area g a b w -> v <= w.
Proof.
  intros Hab Hfg (G & Gc & (l & Gd) & Gv) (H & Hc & (m & Hd) & Hv).
  assert (E : (H - G)%F a <= (H - G)%F b).
  { apply (mono_except _ (fun x => g x - f x) (l ++ m)); [exact Hab| |].
    - intros x Hx. apply continuity_pt_minus; auto.
    - intros x Hx Hn. rewrite in_app_iff in Hn. split.
      + apply derivable_pt_lim_minus; [apply Hd|apply Gd]; tauto.
      + pose proof (Hfg x Hx). lra. }
  unfold minus_fct in E. lra.
Qed.
Lemma area_unique f a b v w : a <= b -> area f a b v -> area f a b w -> v = w.
Proof.
  intros Hab H1 H2. apply Rle_antisym; eapply area_le; eauto; intros; lra.
Qed.

(** ** Building areas *)
Lemma area_of_antiderivative G f a b : (forall x, a <= x <= b -> derivable_pt_lim G x (f x)) ->
  area f a b (G b - G a).
Proof.
  intro H. exists G. split; [|split; [|reflexivity]].
  - intros x Hx. apply derivable_continuous_pt. exists (f x). now apply H.
  - exists []. intros x Hx _. apply H. lra.
Qed.
Lemma area_ext f g a b v l : (forall x, a < x < b -> ~ In x l -> f x = g x) -> area f a b v -> area g a b v.
Proof.
  intros H (G & Gc & (m & Gd) & Gv). exists G. split; [exact Gc|]. split; [|exact Gv].
  exists (l ++ m). intros x Hx Hn. rewrite in_app_iff in Hn. rewrite <- H by tauto. apply Gd; tauto.
Qed.
Lemma area_val f a b v w : v = w -> area f a b v -> area f a b w.
Proof. now intros ->. Qed.
Lemma area_const c a b : area (fun _ => c) a b (c * (b - a)).
Proof.
  apply (area_val _ _ _ (c * b - c * a)); [ring|].
  apply (area_of_antiderivative (fun x => c * x)). intros x _.
  pose proof (derivable_pt_lim_scal id c x 1 (derivable_pt_lim_id x)) as H. rewrite Rmult_1_r in H. exact H.
Qed.
Lemma area_scale c f a b v : area f a b v -> area (fun x => c * f x) a b (c * v).
Proof.
  intros (G & Gc & (l & Gd) & Gv). exists (fun x => c * G x). split; [|split].
  - intros x Hx. apply (continuity_pt_scal G). now apply Gc.
  - exists l. intros x Hx Hn. apply (derivable_pt_lim_scal G). now apply Gd.
  - rewrite <- Gv. ring.
Qed.
Lemma area_plus f g a b v w : area f a b v -> area g a b w -> area (fun x => f x + g x) a b (v + w).
Proof.
  intros (G & Gc & (l & Gd) & Gv) (H & Hc & (m & Hd) & Hv). exists (fun x => G x + H x). split; [|split].
  - intros x Hx. apply (continuity_pt_plus G H); auto.
  - exists (l ++ m). intros x Hx Hn. rewrite in_app_iff in Hn.
    apply (derivable_pt_lim_plus G H); [apply Gd|apply Hd]; tauto.
  - lra.
Qed.
Lemma area_empty f a : area f a a 0.
Proof.
  exists (fun _ => 0). split; [|split].
  - intros x _. apply continuity_pt_const. now intros u v.
  - exists []. intros x Hx. lra.
  - ring.
Qed.
Lemma area_join f a b c v w : a <= b <= c -> area f a b v -> area f b c w -> area f a c (v + w).
Proof.
  intros Hb (G & Gc & (l & Gd) & Gv) (H & Hc & (m & Hd) & Hv).
  set (K := fun x => if Rle_dec x b then G x else H x - H b + G b).
  assert (Kl : forall x, x <= b -> K x = G x) by (intros x Hx; unfold K; destruct (Rle_dec x b); [reflexivity|lra]).
  assert (Kr : forall x, b <= x -> K x = H x - H b + G b).
  { intros x Hx. unfold K. destruct (Rle_dec x b); [|reflexivity]. replace x with b by lra. ring. }
  exists K. split; [|split].
  - intros x Hx. destruct (Rtotal_order x b) as [E|[E|E]].
    + apply (continuity_pt_locally_ext G K (b - x)); [lra| |apply Gc; lra].
      intros y Hy. unfold R_dist in Hy. apply Rabs_def2 in Hy. symmetry. apply Kl. lra.
    + subst x. apply cont_eps. intros eps He.
      destruct (proj1 (cont_eps G b) ltac:(apply Gc; lra) eps He) as (d1 & D1 & E1).
      destruct (proj1 (cont_eps H b) ltac:(apply Hc; lra) eps He) as (d2 & D2 & E2).
      exists (Rmin d1 d2). split; [now apply Rmin_glb_lt|]. intros y Hy.
      pose proof (Rmin_l d1 d2). pose proof (Rmin_r d1 d2). rewrite (Kl b) by lra.
      destruct (Rle_lt_dec y b) as [Hyb|Hyb].
      * rewrite Kl by lra. apply E1. lra.
      * rewrite Kr by lra. replace (H y - H b + G b - G b) with (H y - H b) by ring. apply E2. lra.
    + apply (continuity_pt_locally_ext (fun y => H y + (G b - H b)) K (x - b)); [lra| |].
      * intros y Hy. unfold R_dist in Hy. apply Rabs_def2 in Hy. rewrite Kr by lra. ring.
      * apply (continuity_pt_plus H (fun _ => G b - H b)); [apply Hc; lra|].
        apply continuity_pt_const. now intros u z.
  - exists (b :: l ++ m). intros x Hx Hn. cbn [In] in Hn. rewrite in_app_iff in Hn.
    destruct (Rtotal_order x b) as [E|[E|E]]; [| exfalso; apply Hn; left; lra |].
    + apply (derivable_pt_lim_locally_ext G K x a b); [lra| |apply Gd; [lra|tauto]].
      intros y Hy. symmetry. apply Kl. lra.
    + apply (derivable_pt_lim_locally_ext (fun y => H y + (G b - H b)) K x b c); [lra| |].
      * intros y Hy. rewrite Kr by lra. ring.
      * replace (f x) with (f x + 0) by ring. apply (derivable_pt_lim_plus H (fun _ => G b - H b)).
        -- apply Hd; [lra|tauto].
        -- apply derivable_pt_lim_const.
  - rewrite (Kl a), (Kr c) by lra. lra.
Qed.

(** A box: height [h] on (lo, hi), zero elsewhere. *)
Lemma area_box f a b lo hi h : a <= lo <= hi -> hi <= b ->
  (forall x, lo < x < hi -> f x = h) -> (forall x, a < x < lo \/ hi < x < b -> f x = 0) ->
  area f a b (h * (hi - lo)).
Proof.
  intros H1 H2 Hin Hout. apply (area_val _ _ _ (0 * (lo - a) + h * (hi - lo) + 0 * (b - hi))); [ring|].
  apply area_join with hi; [lra| |]; [apply area_join with lo; [lra| |]|].
  - apply (area_ext (fun _ => 0) _ _ _ _ []); [|apply area_const]. intros x Hx _. symmetry. apply Hout. lra.
  - apply (area_ext (fun _ => h) _ _ _ _ []); [|apply area_const]. intros x Hx _. symmetry. apply Hin. lra.
  - apply (area_ext (fun _ => 0) _ _ _ _ []); [|apply area_const]. intros x Hx _. symmetry. apply Hout. lra.
Qed.
