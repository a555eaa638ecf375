(** Lemmas about tabulated spectra: the linear spline, its integral, and boosts of tables. *)
From Coq Require Import Reals Lra Lia ZArith List.
From Verif Require Import PyBase Area Primitive SpecProofs PionProofs ConserveProofs TableModel.
Import ListNotations.
Local Open Scope R_scope.

(** * Specification *)
(** [g] between [lo] and [hi], zero elsewhere *)
Definition within (lo hi : R) (g : R -> R) (x : R) : R := if Rle_dec lo x then if Rle_dec x hi then g x else 0 else 0.
(** What a spline over the data range from [lo] to [hi] is: a continuous curve, whose integral is the area under its
    part inside the range. *)
Definition spline_over (lo hi : R) (s : spline) : Prop :=
  lo < hi /\ (forall x, continuity_pt (ev s) x) /\ (forall a b, a <= b -> area (within lo hi (ev s)) a b (integral s a b)).
Definition passes_through (s : spline) (pts : list (R * R)) : Prop := forall x y, In (x, y) pts -> ev s x = y.
(** strictly increasing abscissae, at least two *)
Fixpoint rising {A} (pts : list (R * A)) : Prop :=
  match pts with
  | p :: ((q :: _) as tl) => fst p < fst q /\ rising tl
  | _ => True
  end.
Definition first {A} (pts : list (R * A)) : R := match pts with p :: _ => fst p | [] => 0 end.
Fixpoint final {A} (pts : list (R * A)) : R := match pts with [p] => fst p | _ :: tl => final tl | [] => 0 end.

(** * Curves in pieces *)
Lemma cont_glue f g c x : (forall y, continuity_pt f y) -> (forall y, continuity_pt g y) -> f c = g c ->
  continuity_pt (fun y => if Rlt_dec y c then f y else g y) x.
Proof.
  intros Cf Cg E. destruct (total_order_T x c) as [[L|L]|L].
  - apply (cont_local f _ x (c - x)); [lra| |apply Cf]. intros y Hy. apply Rabs_def2 in Hy. destruct (Rlt_dec y c); [reflexivity|lra].
  - subst x. apply cont_eps. intros e He.
    destruct (proj1 (cont_eps f c) (Cf c) e He) as (d1 & D1 & E1). destruct (proj1 (cont_eps g c) (Cg c) e He) as (d2 & D2 & E2).
    exists (Rmin d1 d2). split; [apply Rmin_pos; assumption|]. intros y Hy. pose proof (Rmin_l d1 d2). pose proof (Rmin_r d1 d2).
    destruct (Rlt_dec c c); [lra|]. destruct (Rlt_dec y c).
    + rewrite <- E. apply E1. lra.
    + apply E2. lra.
  - apply (cont_local g _ x (x - c)); [lra| |apply Cg]. intros y Hy. apply Rabs_def2 in Hy. destruct (Rlt_dec y c); [lra|reflexivity].
Qed.

(** * The linear spline *)
Lemma line_left p q : line p q (fst p) = snd p.
Proof. unfold line. rewrite Rminus_eq_0. ring. Qed.
Lemma line_right p q : fst p < fst q -> line p q (fst q) = snd q.
Proof. intro H. unfold line. field. lra. Qed.
Lemma line_dl p q x : derivable_pt_lim (fun u => snd p * u + (snd q - snd p) / (fst q - fst p) * (u * (u / 2 - fst p))) x (line p q x).
Proof. eapply dl_val; [dlp; exact (Rgt_not_eq 2 0 Rlt_0_2)|]. cbv beta. unfold line. set (s := (snd q - snd p) / (fst q - fst p)). unfold Rsqr. field. Qed.
Lemma line_cont p q x : continuity_pt (line p q) x.
Proof. apply derivable_continuous_pt. unfold line. set (s := (snd q - snd p) / (fst q - fst p)). eexists. dlp. Qed.
Lemma lin_ev_first p q tl : rising (p :: q :: tl) -> lin_ev (p :: q :: tl) (fst p) = snd p.
Proof.
  intros [H _]. cbn [lin_ev]. destruct tl as [|r tl]; [apply line_left|]. destruct (Rlt_dec _ _); [apply line_left|lra].
Qed.
Lemma lin_ev_cont pts x : rising pts -> continuity_pt (lin_ev pts) x.
Proof.
  revert x. induction pts as [|p pts IH]; intros x H; [apply continuity_pt_const; now intros u v|].
  destruct pts as [|q pts]; [apply continuity_pt_const; now intros u v|]. destruct pts as [|r pts].
  - apply line_cont.
  - apply (cont_glue (line p q) (lin_ev (q :: r :: pts))).
    + intro y. apply line_cont.
    + intro y. apply IH. apply H.
    + destruct H as [H1 H2]. rewrite line_right by exact H1. symmetry. now apply lin_ev_first.
Qed.
Lemma segment_area p q a b : fst p < fst q -> a <= b -> area (within (fst p) (fst q) (line p q)) a b (segment p q a b).
Proof.
  intros Hpq Hab. unfold segment. set (l := Rmax a (fst p)). set (h := Rmin b (fst q)).
  assert (L : a <= l /\ fst p <= l) by (split; [apply Rmax_l|apply Rmax_r]).
  assert (H : h <= b /\ h <= fst q) by (split; [apply Rmin_l|apply Rmin_r]).
  assert (L' : l = a \/ l = fst p) by (unfold l, Rmax; destruct (Rle_dec _ _); auto).
  assert (H' : h = b \/ h = fst q) by (unfold h, Rmin; destruct (Rle_dec _ _); auto).
  clearbody l h. unfold within. destruct (Rlt_dec l h) as [C|C].
  - set (G := fun u => snd p * u + (snd q - snd p) / (fst q - fst p) * (u * (u / 2 - fst p))).
    apply (area_val _ _ _ (0 + (G h - G l) + 0)).
    { unfold G, line. set (s := (snd q - snd p) / (fst q - fst p)). field. }
    apply (area_join _ a h b); [lra| |].
    + apply (area_join _ a l h); [lra| |].
      * apply area_zero. intros x Hx. destruct (Rle_dec (fst p) x); [lra|reflexivity].
      * apply (area_anti (line p q)); [intros x _; apply line_dl|]. intros x Hx.
        destruct (Rle_dec (fst p) x); [|lra]. destruct (Rle_dec x (fst q)); [reflexivity|lra].
    + apply area_zero. intros x Hx. destruct (Rle_dec (fst p) x); [|reflexivity]. destruct (Rle_dec x (fst q)); [lra|reflexivity].
  - apply area_zero. intros x Hx. destruct (Rle_dec (fst p) x); [|reflexivity]. destruct (Rle_dec x (fst q)); [lra|reflexivity].
Qed.
Lemma final_ge {A} (p : R * A) pts : rising (p :: pts) -> fst p <= final (p :: pts).
Proof.
  revert p. induction pts as [|q pts IH]; intros p H; [apply Rle_refl|]. destruct H as [H1 H2].
  change (final (p :: q :: pts)) with (final (q :: pts)). specialize (IH q H2). lra.
Qed.
Lemma lin_area pts a b : rising pts -> (2 <= length pts)%nat -> a <= b ->
  area (within (first pts) (final pts) (lin_ev pts)) a b (lin_int pts a b).
Proof.
  intros H Hl Hab. induction pts as [|p pts IH]; [cbn in Hl; lia|]. destruct pts as [|q pts]; [cbn in Hl; lia|].
  destruct pts as [|r pts].
  - cbn [lin_int]. apply (area_val _ _ _ (segment p q a b)); [ring|]. destruct H as [H _]. exact (segment_area p q a b H Hab).
  - destruct H as [H1 H2]. specialize (IH H2 ltac:(cbn; lia)). change (lin_int (p :: q :: r :: pts) a b) with (segment p q a b + lin_int (q :: r :: pts) a b).
    pose proof (final_ge q (r :: pts) H2) as F.
    change (final (p :: q :: r :: pts)) with (final (q :: r :: pts)). set (hi := final (q :: r :: pts)) in *.
    refine (area_ext _ _ _ _ _ [fst q] _ (area_plus _ _ _ _ _ _ (segment_area p q a b H1 Hab) IH)).
    intros x Hx Hn. assert (x <> fst q) by (intro E; apply Hn; left; now symmetry).
    change (first (p :: q :: r :: pts)) with (fst p). change (first (q :: r :: pts)) with (fst q). unfold within.
    change (lin_ev (p :: q :: r :: pts) x) with (if Rlt_dec x (fst q) then line p q x else lin_ev (q :: r :: pts) x).
    repeat match goal with |- context [Rle_dec ?u ?v] => destruct (Rle_dec u v) end;
      repeat match goal with |- context [Rlt_dec ?u ?v] => destruct (Rlt_dec u v) end; try lra.
Qed.
Lemma first_lt_final pts : rising pts -> (2 <= length pts)%nat -> first pts < @final R pts.
Proof.
  intros H Hl. destruct pts as [|p [|q pts]]; cbn in Hl; try lia. destruct H as [H1 H2].
  change (first (p :: q :: pts)) with (fst p). change (final (p :: q :: pts)) with (final (q :: pts)). pose proof (final_ge q pts H2). lra.
Qed.
Lemma spline1_over pts : rising pts -> (2 <= length pts)%nat -> spline_over (first pts) (final pts) (spline1 pts).
Proof.
  intros H Hl. split; [now apply first_lt_final|]. split; [intro x; now apply lin_ev_cont|]. intros a b Hab. now apply lin_area.
Qed.
Lemma rising_in {A} (p : R * A) pts x : rising (p :: pts) -> In x pts -> fst p < fst x.
Proof.
  revert p. induction pts as [|q pts IH]; intros p H Hi; [destruct Hi|]. destruct H as [H1 H2]. destruct Hi as [<-|Hi]; [exact H1|].
  specialize (IH q H2 Hi). lra.
Qed.
Lemma spline1_through pts : rising pts -> (2 <= length pts)%nat -> passes_through (spline1 pts) pts.
Proof.
  intros H Hl x y. cbn [ev spline1]. induction pts as [|p pts IH]; intro Hi; [cbn in Hl; lia|].
  destruct pts as [|q pts]; [cbn in Hl; lia|]. destruct pts as [|r pts].
  - destruct H as [H _]. destruct Hi as [->|[->|[]]]; [apply (line_left (x, y))|apply (line_right p (x, y) H)].
  - destruct H as [H1 H2]. change (lin_ev (p :: q :: r :: pts) x) with (if Rlt_dec x (fst q) then line p q x else lin_ev (q :: r :: pts) x).
    destruct Hi as [->|Hi].
    + destruct (Rlt_dec _ _) as [L|L]; [apply (line_left (x, y))|]. cbn in H1. contradiction.
    + destruct (Rlt_dec _ _) as [L|L].
      * exfalso. destruct Hi as [->|Hi]; [cbn in L; lra|]. pose proof (rising_in q (r :: pts) (x, y) H2 Hi) as Q. cbn in Q. lra.
      * apply IH; [exact H2|cbn; lia|exact Hi].
Qed.

(** * Positrons *)
Lemma me_pos : 0 < me.
Proof. unfold me. lra. Qed.
Lemma momentum_pm e : sqrt (e ^ 2 - me ^ 2) = pm me e.
Proof. unfold pm. f_equal. ring. Qed.
Lemma beta_velo_inv parent mass : 0 < mass < parent -> sqrt (1 - / (parent / mass) ^ 2) = velo parent mass.
Proof. intro H. unfold velo. f_equal. f_equal. field. lra. Qed.
Lemma eps_pos : 0 < eps.
Proof. unfold eps. apply Rinv_0_lt_compat. apply pow_lt. lra. Qed.
Lemma frame parent mass : 0 < mass < parent ->
  0 < velo parent mass < 1 /\ 0 < parent / mass /\ parent / mass * (parent / mass) * (1 - velo parent mass * velo parent mass) = 1.
Proof.
  intro H. destruct (velo_facts parent mass H) as (B & E & _). split; [exact B|]. split; [apply Rdiv_lt_0_compat; lra|].
  rewrite E. field. lra.
Qed.

(** the spectrum at rest that a spline over [lo, hi] describes, for particles of mass [m] *)
Definition tabulated (m lo hi : R) (s : spline) (e : R) : R := within lo hi (ev s) e * pm m e.
Lemma tabulated_end m lo hi s u : hi < u -> tabulated m lo hi s u = 0.
Proof. intro H. unfold tabulated, within. destruct (Rle_dec lo u); [|ring]. destruct (Rle_dec u hi); [lra|ring]. Qed.
Lemma tabulated_area m lo hi s : 0 <= m <= lo -> spline_over lo hi s -> exists n, area (tabulated m lo hi s) m hi n.
Proof.
  intros Hm (Hl & C & _). destruct (area_exists (fun u => ev s u * pm m u) lo hi ltac:(lra)) as [n A].
  { intros x Hx. apply (continuity_pt_mult (ev s) (pm m)); [apply C|apply pm_cont; lra]. }
  exists (0 + n). apply (area_join _ m lo hi); [lra| |].
  - apply area_zero. intros x Hx. unfold tabulated, within. destruct (Rle_dec lo x); [lra|ring].
  - refine (area_ext _ _ _ _ _ [] _ A). intros x Hx _. unfold tabulated, within.
    destruct (Rle_dec lo x); [|lra]. destruct (Rle_dec x hi); [reflexivity|lra].
Qed.
Lemma tabulated_momentum m lo hi s : 0 <= m <= lo -> spline_over lo hi s ->
  area (fun u => tabulated m lo hi s u / pm m u) m hi (integral s m hi).
Proof.
  intros Hm (Hl & C & I). refine (area_ext _ _ _ _ _ [] _ (I m hi ltac:(lra))). intros x Hx _.
  unfold tabulated. pose proof (pm_pos m ltac:(lra) x ltac:(lra)). field. lra.
Qed.
Lemma tabulated_boost m lo hi s beta gamma : 0 <= m <= lo -> spline_over lo hi s -> 0 < beta < 1 -> 0 < gamma ->
  gamma * gamma * (1 - beta * beta) = 1 ->
  boost_of m beta gamma (tabulated m lo hi s)
    (fun e => integral s (gamma * (e - beta * pm m e)) (gamma * (e + beta * pm m e)) / (2 * beta * gamma)).
Proof.
  intros Hm (Hl & C & I) Hb Hg Hgb e He.
  pose proof (um_ge m beta gamma ltac:(lra) Hb Hg Hgb e ltac:(lra)) as U1. pose proof (um_le_up m beta gamma Hb Hg e) as U2. unfold um, up in *.
  apply (area_val _ _ _ (/ (2 * beta * gamma) * integral s (gamma * (e - beta * pm m e)) (gamma * (e + beta * pm m e)))).
  { unfold Rdiv. ring. }
  refine (area_ext _ _ _ _ _ [] _ (area_scale _ _ _ _ _ (I _ _ U2))). intros x Hx _. unfold tabulated.
  pose proof (pm_pos m ltac:(lra) x ltac:(lra)). field. lra.
Qed.
Lemma positron_flight e parent mass s : 0 < mass -> mass + eps <= parent -> me < e ->
  positron_point e parent mass s
  = integral s (parent / mass * (e - velo parent mass * pm me e)) (parent / mass * (e + velo parent mass * pm me e)) / (2 * velo parent mass * (parent / mass)).
Proof.
  intros Hm Hp He. pose proof eps_pos. unfold positron_point. destruct (Rlt_dec parent mass); [lra|]. destruct (Rlt_dec e me); [lra|].
  destruct (Rlt_dec (parent - mass) eps); [lra|]. cbv zeta. rewrite momentum_pm, beta_velo_inv by lra. reflexivity.
Qed.
Lemma neutrino_flight e parent mass s : 0 < mass -> mass + eps <= parent -> 0 < e ->
  neutrino_point e parent mass s
  = integral s (parent / mass * (e - velo parent mass * pm 0 e)) (parent / mass * (e + velo parent mass * pm 0 e)) / (2 * velo parent mass * (parent / mass)).
Proof.
  intros Hm Hp He. pose proof eps_pos. unfold neutrino_point. destruct (Rlt_dec parent mass); [lra|].
  destruct (Rlt_dec (parent - mass) eps); [lra|]. cbv zeta. rewrite pm_0, beta_velo_inv by lra. reflexivity.
Qed.

(** * Counting particles of a table from below *)
Fixpoint low (m : R) (pts : list (R * R)) : R :=
  match pts with
  | p :: ((q :: _) as tl) => pm m (fst p) * ((fst q - fst p) * (snd p + snd q) / 2) + low m tl
  | _ => 0
  end.
Lemma line_nonneg p q x : fst p < fst q -> 0 <= snd p -> 0 <= snd q -> fst p <= x <= fst q -> 0 <= line p q x.
Proof.
  intros H Hp Hq Hx. unfold line.
  replace (snd p + _) with ((snd p * (fst q - x) + snd q * (x - fst p)) / (fst q - fst p)) by (field; lra).
  apply Rmult_le_pos; [|left; apply Rinv_0_lt_compat; lra].
  assert (0 <= snd p * (fst q - x)) by (apply Rmult_le_pos; lra). assert (0 <= snd q * (x - fst p)) by (apply Rmult_le_pos; lra). lra.
Qed.
Lemma low_area m pts n : 0 <= m <= first pts -> rising pts -> (forall p, In p pts -> 0 <= snd p) -> (2 <= length pts)%nat ->
  area (fun u => lin_ev pts u * pm m u) (first pts) (final pts) n -> low m pts <= n.
Proof.
  revert n. induction pts as [|p pts IH]; intros n Hm H P Hl A; [cbn in Hl; lia|]. destruct pts as [|q pts]; [cbn in Hl; lia|].
  destruct H as [H1 H2]. pose proof (final_ge q pts H2) as Fi. change (final (p :: q :: pts)) with (final (q :: pts)) in A.
  change (first (p :: q :: pts)) with (fst p) in *.
  assert (Seg : forall v, area (fun u => line p q u * pm m u) (fst p) (fst q) v ->
    pm m (fst p) * ((fst q - fst p) * (snd p + snd q) / 2) <= v).
  { intros v V. refine (area_le (fun u => pm m (fst p) * line p q u) _ _ _ _ _ (Rlt_le _ _ H1) _ _ V).
    - intros x Hx. rewrite Rmult_comm. apply Rmult_le_compat_l.
      + apply line_nonneg; [exact H1|apply P; now left|apply P; right; now left|lra].
      + apply pm_mono; lra.
    - pose proof (area_scale (pm m (fst p)) _ _ _ _ (area_of_antiderivative _ _ (fst p) (fst q) (fun x _ => line_dl p q x))) as S.
      cbv beta in S. refine (area_val _ _ _ _ _ _ S). f_equal. set (s := (snd q - snd p) / (fst q - fst p)).
      replace (snd q) with (snd p + s * (fst q - fst p)) by (unfold s; field; lra). field. }
  destruct pts as [|r pts].
  - cbn [low]. specialize (Seg n A). lra.
  - destruct (area_sub _ _ _ _ (fst p) (fst q) A ltac:(lra) ltac:(lra)) as [v V].
    destruct (area_sub _ _ _ _ (fst q) (final (q :: r :: pts)) A ltac:(lra) ltac:(lra)) as [w W].
    rewrite (area_unique _ _ _ _ _ (Rle_trans _ _ _ (Rlt_le _ _ H1) Fi) A (area_join _ _ _ _ _ _ (conj (Rlt_le _ _ H1) Fi) V W)).
    change (low m (p :: q :: r :: pts)) with (pm m (fst p) * ((fst q - fst p) * (snd p + snd q) / 2) + low m (q :: r :: pts)).
    apply Rplus_le_compat.
    + apply Seg. refine (area_ext _ _ _ _ _ [] _ V). intros x Hx _. cbn [lin_ev]. destruct (Rlt_dec x (fst q)); [reflexivity|lra].
    + apply IH; [cbn; lra|exact H2|intros z Hz; apply P; now right|cbn; lia|].
      refine (area_ext _ _ _ _ _ [] _ W). intros x Hx _. cbn [lin_ev]. destruct (Rlt_dec x (fst q)); [lra|reflexivity].
Qed.
Lemma lin_ev_last f p q x : rising (f ++ [p; q]) -> fst q <= x -> lin_ev (f ++ [p; q]) x = line p q x.
Proof.
  intros H Hx. induction f as [|a f IH]; [reflexivity|]. rewrite <- app_comm_cons in *.
  destruct (f ++ [p; q]) as [|b [|c tl]] eqn:E; [now destruct f|destruct f as [|? [|? ?]]; discriminate|].
  destruct H as [H1 H2]. change (lin_ev (a :: b :: c :: tl) x) with (if Rlt_dec x (fst b) then line a b x else lin_ev (b :: c :: tl) x).
  assert (B : fst b <= fst q).
  { destruct f as [|d f]; cbn in E; inversion E; subst; [destruct H2; lra|].
    left. apply (rising_in b (c :: tl) q H2). rewrite <- H3. apply in_or_app. right. right. now left. }
  destruct (Rlt_dec x (fst b)); [lra|]. now apply IH.
Qed.

(** * The same with integers *)
Definition ME : Z := 51099894610000000.
Fixpoint zrising (l : list (Z * Z)) : bool :=
  match l with
  | p :: ((q :: _) as tl) => andb (fst p <? fst q)%Z (zrising tl)
  | _ => true
  end.
Fixpoint zlow (l : list (Z * Z)) : Z :=
  match l with
  | p :: ((q :: _) as tl) =>
      let a := (fst p * fst p - ME * ME)%Z in
      let b := (fst q * fst q - ME * ME)%Z in
      ((fst q - fst p) * (10 ^ 6 * snd p + Z.sqrt (10 ^ 12 * a / b) * snd q) + zlow tl)%Z
  | _ => 0%Z
  end.
Lemma in_MeV_lt a b : (a < b)%Z -> in_MeV a < in_MeV b.
Proof. intro H. apply IZR_lt in H. unfold in_MeV, Rdiv. apply Rmult_lt_compat_r; [apply Rinv_0_lt_compat, pow_lt; lra|exact H]. Qed.
Lemma per_MeV_nonneg c : (0 <= c)%Z -> 0 <= per_MeV c.
Proof. intro H. apply IZR_le in H. unfold per_MeV, Rdiv. apply Rmult_le_pos; [exact H|left; apply Rinv_0_lt_compat, pow_lt; lra]. Qed.
Lemma ME_me : in_MeV ME = me.
Proof. unfold in_MeV, ME, me. lra. Qed.
Lemma zrising_sound {A} (g : Z * Z -> R * A) l : zrising l = true -> (forall p, fst (g p) = in_MeV (fst p)) -> rising (map g l).
Proof.
  intros H G. induction l as [|p l IH]; [exact I|]. destruct l as [|q l]; [exact I|]. cbn [zrising] in H.
  apply andb_prop in H. destruct H as [H1 H2]. cbn [map rising]. split; [|now apply IH]. rewrite !G. apply in_MeV_lt. now apply Z.ltb_lt.
Qed.
Definition loaded (p : Z * Z) : R * R := (in_MeV (fst p), per_MeV (snd p) / pm me (in_MeV (fst p))).
Lemma pm_in_MeV e : (ME < e)%Z -> 0 < pm me (in_MeV e) /\ pm me (in_MeV e) * pm me (in_MeV e) = IZR (e * e - ME * ME) / 10 ^ 34.
Proof.
  intro H. pose proof (in_MeV_lt _ _ H) as L. rewrite ME_me in L. pose proof me_pos. split; [apply pm_pos; lra|].
  rewrite pm_sq by lra. rewrite <- ME_me. unfold in_MeV. rewrite minus_IZR, !mult_IZR. field.
Qed.
Lemma zratio a b : (0 <= a)%Z -> (0 < b)%Z -> (Z.sqrt (10 ^ 12 * a / b) * Z.sqrt (10 ^ 12 * a / b) * b <= 10 ^ 12 * a)%Z.
Proof.
  intros Ha Hb. assert (Q : (0 <= 10 ^ 12 * a / b)%Z) by (apply Z.div_pos; lia). destruct (Z.sqrt_spec _ Q) as [S _].
  pose proof (Z.mul_div_le (10 ^ 12 * a) b Hb). nia.
Qed.
Lemma zlow_sound l : zrising l = true -> (forall p, In p l -> (ME < fst p)%Z /\ (0 <= snd p)%Z) ->
  IZR (zlow l) / (2 * 10 ^ 58) <= low me (map loaded l).
Proof.
  intros H P. induction l as [|p l IH]; [cbn; lra|]. destruct l as [|q l]; [cbn; lra|].
  cbn [zrising] in H. apply andb_prop in H. destruct H as [H1 H2]. apply Z.ltb_lt in H1.
  specialize (IH H2 ltac:(intros z Hz; apply P; now right)).
  destruct (P p (or_introl eq_refl)) as [Ep Cp]. destruct (P q (or_intror (or_introl eq_refl))) as [Eq Cq].
  destruct (pm_in_MeV _ Ep) as [Pp Sp]. destruct (pm_in_MeV _ Eq) as [Pq Sq].
  change (zlow (p :: q :: l)) with ((fst q - fst p) * (10 ^ 6 * snd p + Z.sqrt (10 ^ 12 * (fst p * fst p - ME * ME) / (fst q * fst q - ME * ME)) * snd q) + zlow (q :: l))%Z.
  change (low me (map loaded (p :: q :: l))) with
    (pm me (in_MeV (fst p)) * ((in_MeV (fst q) - in_MeV (fst p)) * (per_MeV (snd p) / pm me (in_MeV (fst p)) + per_MeV (snd q) / pm me (in_MeV (fst q))) / 2) + low me (map loaded (q :: l))).
  assert (M0 : (0 < ME)%Z) by reflexivity.
  assert (Ha : (0 <= fst p * fst p - ME * ME)%Z) by nia. assert (Hb : (0 < fst q * fst q - ME * ME)%Z) by nia.
  pose proof (zratio _ _ Ha Hb) as Z0. set (s := Z.sqrt _) in *. assert (Hs : (0 <= s)%Z) by apply Z.sqrt_nonneg.
  apply IZR_le in Z0. rewrite !mult_IZR in Z0. set (a := IZR (fst p * fst p - ME * ME)) in *. set (b := IZR (fst q * fst q - ME * ME)) in *.
  set (x := pm me (in_MeV (fst p))) in *. set (y := pm me (in_MeV (fst q))) in *.
  assert (R0 : IZR s * y <= 10 ^ 6 * x).
  { apply Rsqr_incr_0_var; [|apply Rmult_le_pos; lra]. unfold Rsqr.
    replace (IZR s * y * (IZR s * y)) with (IZR s * IZR s * (y * y)) by ring. replace (10 ^ 6 * x * (10 ^ 6 * x)) with (10 ^ 12 * (x * x)) by ring.
    rewrite Sp, Sq. replace (IZR (10 ^ 12)) with (10 ^ 12) in Z0 by exact (pow_IZR 10 12). unfold Rdiv.
    replace (IZR s * IZR s * (b * / 10 ^ 34)) with (IZR s * IZR s * b * / 10 ^ 34) by ring. replace (10 ^ 12 * (a * / 10 ^ 34)) with (10 ^ 12 * a * / 10 ^ 34) by ring.
    apply Rmult_le_compat_r; [left; apply Rinv_0_lt_compat, pow_lt; lra|exact Z0]. }
  replace (IZR (_ + zlow (q :: l))) with ((IZR (fst q) - IZR (fst p)) * (10 ^ 6 * IZR (snd p) + IZR s * IZR (snd q)) + IZR (zlow (q :: l))).
  2:{ rewrite plus_IZR, mult_IZR, minus_IZR, plus_IZR, !mult_IZR. replace (IZR (10 ^ 6)) with (10 ^ 6) by exact (pow_IZR 10 6). reflexivity. }
  unfold Rdiv at 1. rewrite Rmult_plus_distr_r. apply Rplus_le_compat; [|exact IH].
  apply IZR_lt in H1. apply IZR_le in Cp. apply IZR_le in Cq.
  unfold in_MeV, per_MeV.
  replace (x * _) with ((IZR (fst q) - IZR (fst p)) * (10 ^ 6 * IZR (snd p) + (10 ^ 6 * x / y) * IZR (snd q)) * / (2 * 10 ^ 58)) by (field; lra).
  apply Rmult_le_compat_r; [left; apply Rinv_0_lt_compat; apply Rmult_lt_0_compat; [lra|apply pow_lt; lra]|].
  apply Rmult_le_compat_l; [lra|]. apply Rplus_le_compat_l. apply Rmult_le_compat_r; [exact Cq|].
  apply (Rmult_le_reg_r y); [exact Pq|]. replace (10 ^ 6 * x / y * y) with (10 ^ 6 * x) by (field; lra). exact R0.
Qed.
