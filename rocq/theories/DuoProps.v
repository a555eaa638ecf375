(** Properties of the class TwoBody (C172). *)
From Coq Require Import String Reals Lra Psatz Lia Bool List.
From Verif Require Import PyBase RamboModel RamboProofs RamboProps KinModel KinProofs KinProps Area MedSpecProofs DuoModel.
Import ListNotations.
Local Open Scope R_scope.

(** * Specification *)

(** What has been asked for last *)
Fixpoint last_cme (q : R) (l : list assign2) : R :=
  match l with [] => q | Cme2 q' :: r => last_cme q' r | _ :: r => last_cme q r end.
Fixpoint last_masses (ms : list R) (l : list assign2) : list R :=
  match l with [] => ms | Masses2 ms' :: r => last_masses ms' r | _ :: r => last_masses ms r end.
Fixpoint last_function (g : option pyfn2) (l : list assign2) : option pyfn2 :=
  match l with [] => g | Msqrd2 g' :: r => last_function (Some g') r | _ :: r => last_function g r end.

(** Two particles back to back in the x-z plane with the momentum [p] and the cosine [z] *)
Definition back_to_back (p z : R) (p1 p2 : vec) : Prop :=
  px p1 = p * sqrt (1 - z ^ 2) /\ py p1 = 0 /\ pz p1 = p * z /\ px p2 = - px p1 /\ py p2 = 0 /\ pz p2 = - pz p1.

(** * C172 *)

(** Every assignment is followed, functions of momenta included *)
Theorem two_body_assignments_followed : forall q ms g sig o l o',
  duo_new q ms g sig = Ret o -> duo_run o l = Ret o' ->
  duo_new (last_cme q l) (last_masses ms l) (last_function g l) sig = Ret o'.
Proof.
  intros q ms g sig o l. revert q ms g o. induction l as [|a l IH]; intros q ms g o o' Hn Hr.
  - cbn in *. congruence.
  - cbn [duo_run] in Hr. destruct (duo_run1 o a) as [o1|] eqn:E1; [|discriminate]. cbn [bind] in Hr.
    unfold duo_new in Hn. destruct (two_masses ms) as [m|] eqn:Em; [|discriminate]. cbn [bind] in Hn.
    assert (Ho : exists zf, o = MkDuo q m (match g with Some g => g | None => Flat end) zf /\
      forall q' ms' m' g', two_masses ms' = Ret m' -> duo_new q' ms' g' sig = Ret (MkDuo q' m' (match g' with Some g => g | None => Flat end) zf)).
    { destruct sig as [s|]; [destruct (String.eqb s "momenta") eqn:C1; [|destruct (String.eqb s "z") eqn:C2]|]; try discriminate Hn;
        injection Hn as <-; eexists; (split; [reflexivity|]); intros q' ms' m' g' Em'; unfold duo_new; rewrite Em'; cbn [bind];
        try rewrite C1; try rewrite C2; reflexivity. }
    destruct Ho as (zf & -> & Ho).
    destruct a as [q'|ms'|g']; cbn [duo_run1 duo_cme duo_masses duo_msqrd duo_z] in E1; cbn [last_cme last_masses last_function].
    + injection E1 as <-. eapply IH; [|exact Hr]. now apply Ho.
    + destruct (two_masses ms') as [m'|] eqn:Em'; [|discriminate]. injection E1 as <-. eapply IH; [|exact Hr]. now apply Ho.
    + injection E1 as <-. eapply IH; [|exact Hr]. now rewrite (Ho q ms m (Some g') Em).
Qed.
Print Assumptions two_body_assignments_followed.

Example two_body_assignments_case : exists o o', duo_new 10 [1; 2] None (Some "momenta"%string) = Ret o /\
  duo_run o [Msqrd2 (OfPair (fun p1 p2 => en p1 * en p2)); Cme2 20; Masses2 [3; 4]] = Ret o' /\
  duo_cme o' = 20 /\ duo_masses o' = (3, 4).
Proof. eexists. eexists. split; [reflexivity|]. split; [reflexivity|]. split; reflexivity. Qed.

(** The momenta handed to the function are those of an event, with the momentum that shares the energy *)
Theorem two_body_momenta_event : forall q m1 m2 z p, 0 < q -> 0 <= m1 -> 0 <= m2 -> m1 + m2 <= q -> -1 <= z <= 1 ->
  0 <= p -> hypot p m1 + hypot p m2 = q ->
  event q [m1; m2] [fst (pair_momenta q m1 m2 z); snd (pair_momenta q m1 m2 z)] /\
  back_to_back p z (fst (pair_momenta q m1 m2 z)) (snd (pair_momenta q m1 m2 z)).
Proof.
  intros q m1 m2 z p Hq H1 H2 Ht Hz Hp E.
  destruct (two_body_momentum_exact q m1 m2 Hq H1 H2 Ht) as (_ & _ & U). specialize (U p Hp E).
  unfold pair_momenta. rewrite <- U. cbn [fst snd].
  assert (Hs : sqrt (1 - z ^ 2) ^ 2 = 1 - z ^ 2) by (apply pow2_sqrt; nra).
  set (s := sqrt (1 - z ^ 2)) in *.
  assert (Hh : forall m, hypot m p = hypot p m) by (intro m; unfold hypot; rewrite Rplus_comm; reflexivity).
  assert (Hsq : forall m, hypot m p ^ 2 = m ^ 2 + p ^ 2) by (intro m; unfold hypot; rewrite pow2_sqrt; [ring|nra]).
  assert (Hge : forall m, 0 <= m -> m <= hypot m p).
  { intros m Hm. unfold hypot. rewrite <- (sqrt_square m) at 1 by exact Hm. apply sqrt_le_1_alt. nra. }
  split.
  - split.
    + constructor; [|constructor; [|constructor]]; (split; cbn [en px py pz]; [rewrite Hsq; nra|now apply Hge]).
    + unfold vsum. cbn [fold_right vplus en px py pz]. rewrite !Hh. apply vec_eq; cbn [vplus en px py pz]; lra.
  - unfold back_to_back. cbn [en px py pz]. fold s. (repeat split); ring.
Qed.
Print Assumptions two_body_momenta_event.

Example two_body_momenta_case : 0 < 10 /\ 4 + 4 <= 10 /\ -1 <= 1 / 2 <= 1 /\ hypot 3 4 + hypot 3 4 = 10.
Proof.
  repeat split; try lra. unfold hypot. replace (3 * 3 + 4 * 4) with (5 * 5) by ring. rewrite sqrt_square; lra.
Qed.

(** Whether the function takes the cosine or the momenta, the integral is p / (8 pi cme) times the integral over the
    cosine *)
Theorem two_body_integral_exact : forall integ o m1 m2 p M v, exact_rule integ ->
  0 < duo_cme o -> 0 <= m1 -> 0 <= m2 -> m1 + m2 <= duo_cme o -> duo_masses o = (m1, m2) ->
  0 <= p -> hypot p m1 + hypot p m2 = duo_cme o ->
  (duo_z o = true /\ (duo_msqrd o = OfAngle M \/ (duo_msqrd o = Flat /\ forall z, M z = 1)) \/
   duo_z o = false /\ exists f, duo_msqrd o = OfPair f /\
     forall z p1 p2, event (duo_cme o) [m1; m2] [p1; p2] -> back_to_back p z p1 p2 -> f p1 p2 = M z) ->
  area M (-1) 1 v ->
  duo_integrate integ o = Some (p / (8 * PI * duo_cme o) * v).
Proof.
  intros integ o m1 m2 p M v Hx Hq H1 H2 Ht Hm Hp E Hg A. pose proof PI_RGT_0 as Pp.
  destruct (two_body_momentum_exact (duo_cme o) m1 m2 Hq H1 H2 Ht) as (_ & _ & U). specialize (U p Hp E).
  unfold duo_integrate. rewrite Hm. unfold two_body_pre. rewrite <- U.
  assert (K : forall w, w = v -> w * (1 / (8 * PI) * p / duo_cme o) = p / (8 * PI * duo_cme o) * v).
  { intros w ->. field. split; apply Rgt_not_eq; assumption. }
  destruct Hg as [[-> [->|[-> HM]]]|[-> (f & -> & Hf)]]; f_equal; apply K; apply Hx; try lra; [exact A| |].
  - refine (area_ext _ _ _ _ _ [] _ A). intros z _ _. apply HM.
  - refine (area_ext _ _ _ _ _ [] _ A). intros z Hz _.
    pose proof (two_body_momenta_event (duo_cme o) m1 m2 z p Hq H1 H2 Ht ltac:(lra) Hp E) as [Ev Bb].
    destruct (pair_momenta (duo_cme o) m1 m2 z) as [p1 p2]. cbn [fst snd] in *. symmetry. now apply Hf.
Qed.
Print Assumptions two_body_integral_exact.

(** The invariant of a beam along z with the first particle: a function of momenta that depends on the cosine *)
Example two_body_integral_case : let o := MkDuo 10 (4, 4) (OfPair (fun p1 _ => (5 * en p1 - 5 * pz p1))) false in
  (exists f, duo_msqrd o = OfPair f /\ forall z p1 p2, event (duo_cme o) [4; 4] [p1; p2] -> back_to_back 3 z p1 p2 -> f p1 p2 = 25 - 15 * z) /\
  area (fun z => 25 - 15 * z) (-1) 1 50 /\ hypot 3 4 + hypot 3 4 = duo_cme o.
Proof.
  cbn zeta. split; [|split].
  - eexists. split; [reflexivity|]. intros z p1 p2 [Ev Et] (A1 & A2 & A3 & B1 & B2 & B3). cbn [duo_cme] in *.
    inversion Ev as [|? ? ? ? [S1 G1] Ev']; subst. inversion Ev' as [|? ? ? ? [S2 G2] _]; subst.
    unfold vsum in Et. cbn [fold_right] in Et. apply (f_equal en) in Et. cbn [vplus en] in Et.
    assert (E12 : en p1 ^ 2 = en p2 ^ 2) by (rewrite S1, S2, B1, B2, B3, A2; ring).
    assert (en p1 = 5) by nra. rewrite H, A3. ring.
  - refine (area_val _ _ _ _ _ _ (area_of_antiderivative (fun z => 25 * z - 15 / 2 * z ^ 2) _ (-1) 1 _)).
    + cbn. lra.
    + intros x Hx. pose proof (derivable_pt_lim_minus (fun z => 25 * z) (fun z => 15 / 2 * z ^ 2) x (25 * 1) (15 / 2 * (INR 2 * x ^ 1))
        (derivable_pt_lim_scal id 25 x 1 (derivable_pt_lim_id x)) (derivable_pt_lim_scal (fun z => z ^ 2) (15 / 2) x _ (derivable_pt_lim_pow x 2))) as D.
      replace (25 - 15 * x) with (25 * 1 - 15 / 2 * (INR 2 * x ^ 1)) by (cbn; field). exact D.
  - cbn [duo_cme]. unfold hypot. replace (3 * 3 + 4 * 4) with (5 * 5) by ring. rewrite sqrt_square; lra.
Qed.

(** Without a function the integral is the volume of phase space: false with the signature for momenta, where there is
    none, while the signature for the cosine gives 3 / (40 pi) *)
Theorem two_body_volume_refuted : exists q ms o o',
  duo_new q ms None (Some "momenta"%string) = Ret o /\ duo_new q ms None (Some "z"%string) = Ret o' /\
  forall integ, exact_rule integ -> duo_integrate integ o = None /\ duo_integrate integ o' = Some (3 / (40 * PI)).
Proof.
  exists 10, [4; 4]. eexists. eexists. split; [reflexivity|]. split; [reflexivity|]. intros integ Hx. split; [reflexivity|].
  rewrite (two_body_integral_exact integ _ 4 4 3 (fun _ => 1) 2 Hx); cbn [duo_cme duo_masses duo_z duo_msqrd]; try lra; try reflexivity.
  - f_equal. field. apply Rgt_not_eq, PI_RGT_0.
  - unfold hypot. replace (3 * 3 + 4 * 4) with (5 * 5) by ring. rewrite sqrt_square; lra.
  - left. split; [reflexivity|]. right. split; [reflexivity|]. reflexivity.
  - refine (area_val _ _ _ _ _ _ (area_const 1 (-1) 1)). lra.
Qed.
Print Assumptions two_body_volume_refuted.
