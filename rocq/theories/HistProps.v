(** Properties of the distributions, integrals, widths and cross sections made from events of RAMBO (C173, C174). *)
From Coq Require Import Reals Lra Psatz Lia ZArith Bool FinFun List.
From Verif Require Import PyBase RamboModel RamboProofs RamboProps KinModel KinProofs DalitzProofs KinProps VffModel VffProofs TriModel TriProofs HistModel HistProofs.
Import ListNotations.
Local Open Scope nat_scope.
Local Open Scope R_scope.

(** * C173 *)

Lemma histograms_exact all batches axes nbins n b : (b = None \/ b = Some n) -> (0 < nbins)%nat -> 0 < total (map snd all) ->
  Forall (fun a => fst (snd a) < snd (snd a) /\ forall pw, In pw all -> fst (snd a) <= fst a (fst pw) <= snd (snd a)) axes ->
  exists ds, histograms all batches axes nbins n b = Ret ds /\
    Forall2 (fun a d => shares d (fst (snd a)) (snd (snd a)) nbins (map (fun pw => (fst a (fst pw), snd pw)) all)) axes ds.
Proof.
  intros Hb Hn Hw Ha. unfold histograms.
  assert (Bf : batched n b = false) by (destruct Hb as [->| ->]; [reflexivity|]; unfold batched; now rewrite Z.eqb_refl).
  rewrite Bf. cbn [bind]. induction Ha as [|a axes [Hl Hi] Ha IH].
  - exists []. split; [reflexivity|constructor].
  - cbn [map combine mapM fst snd numbers]. unfold fill.
    destruct (shares_of_histogram (map (fun pw => (fst a (fst pw), snd pw)) all) (fst (snd a)) (snd (snd a)) nbins Hl Hn) as (d & Ed & Sd).
    + intros x v Hx. apply in_map_iff in Hx. destruct Hx as (pw & E & Hp). injection E as <- <-. now apply Hi.
    + rewrite map_map. exact Hw.
    + rewrite Ed. cbn [bind]. destruct IH as (ds & Eds & Fds). unfold fill in Eds. rewrite Eds. cbn [bind].
      exists (d :: ds). split; [reflexivity|]. now constructor.
Qed.

Lemma energy_room q ms m : 0 < q -> nonneg ms -> In m ms -> total ms < q ->
  m < (q ^ 2 + m ^ 2 - (total ms - m) ^ 2) / (2 * q).
Proof.
  intros Hq Hn Hm Ht. assert (0 <= m) by now apply Hn.
  assert (m <= total ms).
  { clear Ht. induction ms as [|x ms IH]; [destruct Hm|]. apply nonneg_tail in Hn. destruct Hn as [Hx Hn]. rewrite total_cons.
    assert (0 <= total ms). { clear -Hn. induction ms as [|y ms IH]; [cbn; lra|]. apply nonneg_tail in Hn. destruct Hn. rewrite total_cons. specialize (IH H0). lra. }
    destruct Hm as [->|Hm]; [lra|]. specialize (IH Hn Hm). lra. }
  apply (Rmult_lt_reg_r (2 * q)); [lra|]. unfold Rdiv. rewrite Rmult_assoc, Rinv_l, Rmult_1_r by lra. nra.
Qed.

(** In one go, the distribution of each particle gives each of [nbins] equal bins between its kinematic limits the share
    of the weight of the events whose energy is in the bin, and no event is lost *)
Theorem rambo_energy_distributions_exact : forall all batches q ms nbins n b,
  0 < q -> nonneg ms -> total ms < q -> (2 <= length ms)%nat -> (0 < nbins)%nat -> (b = None \/ b = Some n) ->
  (forall pw, In pw all -> event q ms (fst pw)) -> 0 < total (map snd all) ->
  exists ds, rambo_energy_distributions all batches q ms nbins n b = Ret ds /\ length ds = length ms /\
    forall i m d, nth_error ms i = Some m -> nth_error ds i = Some d ->
      shares d m ((q ^ 2 + m ^ 2 - (total ms - m) ^ 2) / (2 * q)) nbins
        (map (fun pw => (en (nth i (fst pw) (V4 0 0 0 0)), snd pw)) all).
Proof.
  intros all batches q ms nbins n b Hq Hn Ht Hl Hb Hbs Hev Hw. unfold rambo_energy_distributions.
  set (axes := combine (map energy_of (seq 0 (length ms))) (energy_limits q ms)).
  assert (La : length axes = length ms).
  { unfold axes, energy_limits. rewrite combine_length, !map_length, seq_length. lia. }
  assert (Na : forall i m, nth_error ms i = Some m ->
    nth_error axes i = Some (energy_of i, (m, (q ^ 2 + m ^ 2 - (total ms - m) ^ 2) / (2 * q)))).
  { intros i m Hi. assert (Hil : (i < length ms)%nat) by (apply nth_error_Some; congruence).
    unfold axes. rewrite (nth_error_nth' _ (energy_of 0, (0, 0))) by (fold axes; lia). f_equal.
    rewrite combine_nth by (unfold energy_limits; rewrite !map_length, seq_length; reflexivity). f_equal.
    - rewrite (map_nth energy_of). now rewrite seq_nth.
    - apply nth_error_nth. now rewrite energy_limits_nth, Hi. }
  destruct (histograms_exact all batches axes nbins n b Hbs Hb Hw) as (ds & Ed & Fd).
  - apply Forall_forall. intros a Ha. apply In_nth_error in Ha. destruct Ha as [i Hi].
    destruct (nth_error ms i) as [m|] eqn:Em.
    2: { apply nth_error_None in Em. assert ((i < length axes)%nat) by (apply nth_error_Some; congruence). lia. }
    rewrite (Na i m Em) in Hi. injection Hi as <-. cbn [fst snd]. split.
    + apply energy_room; try assumption. now apply nth_error_In in Em.
    + intros pw Hp. pose proof (Hev pw Hp) as Ev. destruct (nth_error (fst pw) i) as [p|] eqn:Ep.
      * unfold energy_of. rewrite (nth_error_nth _ _ _ Ep).
        exact (energy_bounds q ms (fst pw) i m p Hq Hn Ev Em Ep).
      * apply nth_error_None in Ep. destruct Ev as [F _]. apply Forall2_len in F.
        assert ((i < length ms)%nat) by (apply nth_error_Some; congruence). lia.
  - exists ds. split; [exact Ed|]. split; [apply Forall2_len in Fd; lia|]. intros i m d Hi Hd.
    assert (G : forall A B (P : A -> B -> Prop) l l' i a b, Forall2 P l l' -> nth_error l i = Some a -> nth_error l' i = Some b -> P a b).
    { clear. intros A B P l l' i a b F. revert i. induction F; intros [|i] Ha Hb; try discriminate; cbn in *; [congruence|eauto]. }
    specialize (G _ _ _ _ _ i _ d Fd (Na i m Hi) Hd). exact G.
Qed.
Print Assumptions rambo_energy_distributions_exact.

(** A pair of particles with mass 4 at the energy 10 *)
Example rambo_energy_distributions_case : nonneg [4; 4] /\ total [4; 4] < 10 /\
  event 10 [4; 4] [V4 5 0 0 3; V4 5 0 0 (-3)] /\ 0 < total (map snd [([V4 5 0 0 3; V4 5 0 0 (-3)], 1 / 2)]).
Proof.
  split; [intros m [<-|[<-|[]]]; lra|]. split; [cbn; lra|]. split; [|cbn; lra]. split.
  - repeat constructor; cbn; lra.
  - unfold vsum. cbn. apply vec_eq; cbn; lra.
Qed.

Lemma index_pairs_nodup n : NoDup (index_pairs n).
Proof.
  unfold index_pairs. assert (G : forall l, NoDup l -> NoDup (flat_map (fun i => map (fun j => (i, j)) (seq (S i) (n - S i))) l)).
  { induction 1 as [|i l Hi Hl IH]; [constructor|]. cbn [flat_map].
    assert (A : forall (u v : list (nat * nat)), NoDup u -> NoDup v -> (forall x, In x u -> ~ In x v) -> NoDup (u ++ v)).
    { clear. intros u v Hu Hv D. induction Hu as [|x u Hx Hu IH]; [exact Hv|]. cbn. constructor.
      - rewrite in_app_iff. intros [K|K]; [now apply Hx|]. exact (D x (or_introl eq_refl) K).
      - apply IH. intros y Hy. apply D. now right. }
    apply A; [|exact IH|].
    - apply FinFun.Injective_map_NoDup; [intros a b E; congruence|apply seq_NoDup].
    - intros x Hx Hx'. apply in_map_iff in Hx. destruct Hx as (j & <- & _). apply in_flat_map in Hx'.
      destruct Hx' as (i' & Hi' & Hx'). apply in_map_iff in Hx'. destruct Hx' as (j' & E & _). injection E as -> _. now apply Hi. }
  apply G, seq_NoDup.
Qed.

(** The invariant mass of two of the momenta *)
Definition pair_mass (i j : nat) (ps : list vec) : R :=
  let p := nth i ps (V4 0 0 0 0) in let r := nth j ps (V4 0 0 0 0) in
  sqrt ((en p + en r) ^ 2 - (px p + px r) ^ 2 - (py p + py r) ^ 2 - (pz p + pz r) ^ 2).

(** The same for the invariant masses, one distribution for each pair *)
Theorem rambo_invariant_mass_distributions_exact : forall all batches q ms nbins n b,
  0 < q -> nonneg ms -> total ms < q -> (0 < nbins)%nat -> (b = None \/ b = Some n) ->
  (forall pw, In pw all -> event q ms (fst pw)) -> 0 < total (map snd all) ->
  exists ds, rambo_invariant_mass_distributions all batches q ms nbins n b = Ret ds /\
    NoDup (map fst ds) /\
    (forall i j, (i < j < length ms)%nat <-> exists d, In ((i, j), d) ds) /\
    forall i j d, In ((i, j), d) ds ->
      shares d (nth i ms 0 + nth j ms 0) (q - (total ms - nth i ms 0 - nth j ms 0)) nbins
        (map (fun pw => (pair_mass i j (fst pw), snd pw)) all).
Proof.
  intros all batches q ms nbins n b Hq Hn Ht Hb Hbs Hev Hw. unfold rambo_invariant_mass_distributions.
  set (bounds := invariant_mass_limits q ms).
  set (g := fun pl : (nat * nat) * (R * R) => (inv_mass (fst pl), snd pl)).
  destruct (invariant_mass_limits_true q ms Hq Hn ltac:(lra)) as [_ Lim].
  assert (Sh : forall i j ps, (i < j < length ms)%nat -> event q ms ps -> exists pi pj,
    nth_error ps i = Some pi /\ nth_error ps j = Some pj /\ inv_mass (i, j) ps = sqrt (lnorm_sqr (vplus pi pj)) /\
    pair_mass i j ps = sqrt (lnorm_sqr (vplus pi pj))).
  { intros i j ps Hij [Fs _]. pose proof (Forall2_len _ _ _ Fs) as Lp.
    assert (G : forall i, (i < length ms)%nat -> exists m p, nth_error ms i = Some m /\ nth_error ps i = Some p /\ on_shell m p).
    { clear -Fs. induction Fs as [|m p ms ps Hm Fs IH]; intros i Hi; [cbn in Hi; lia|]. destruct i as [|i]; [exists m, p; auto|].
      destruct (IH i) as (m' & p' & A); [cbn in Hi; lia|]. exists m', p'. exact A. }
    destruct (G i ltac:(lia)) as (mi & pi & Emi & Epi & Si). destruct (G j ltac:(lia)) as (mj & pj & Emj & Epj & Sj).
    exists pi, pj. split; [exact Epi|]. split; [exact Epj|].
    assert (Nmi : 0 <= mi) by (apply Hn; now apply nth_error_In in Emi).
    assert (Nmj : 0 <= mj) by (apply Hn; now apply nth_error_In in Emj).
    destruct (heavy_plus mi mj pi pj Nmi Nmj (heavy_shell _ _ Si) (heavy_shell _ _ Sj)) as [_ Hv].
    unfold inv_mass, pair_mass. cbn [fst snd]. rewrite (nth_error_nth _ _ _ Epi), (nth_error_nth _ _ _ Epj). split.
    - rewrite Rabs_pos_eq; [reflexivity|]. unfold lnorm_sqr. nra.
    - reflexivity. }
  destruct (histograms_exact all batches (map g bounds) nbins n b Hbs Hb Hw) as (ds & Ed & Fd).
  - apply Forall_forall. intros a Ha. apply in_map_iff in Ha. destruct Ha as ([[i j] [lo hi]] & <- & Hi).
    pose proof Hi as Hi'. apply invariant_limits_in in Hi'. destruct Hi' as (Hij & -> & ->). unfold g. cbn [fst snd]. split; [lra|].
    intros pw Hp. destruct (Sh i j (fst pw) Hij (Hev pw Hp)) as (pi & pj & Epi & Epj & -> & _).
    destruct (Lim _ _ _ _ Hi) as [K _]. exact (K (fst pw) pi pj (Hev pw Hp) Epi Epj).
  - rewrite Ed. cbn [bind]. exists (combine (map fst bounds) ds). split; [reflexivity|].
    assert (Lb : length (map fst bounds) = length ds) by (apply Forall2_len in Fd; rewrite map_length in *; exact Fd).
    assert (I1 : forall k d, In (k, d) (combine (map fst bounds) ds) -> exists lim, In (k, lim) bounds /\
      shares d (fst lim) (snd lim) nbins (map (fun pw => (inv_mass k (fst pw), snd pw)) all)).
    { clear -Fd. revert ds Fd. induction bounds as [|[k lim] bounds IH]; intros ds Fd k' d Hk; [destruct Hk|].
      cbn [map] in Fd. inversion Fd as [|? d' ? ds' Hd Fd']; subst. cbn [map fst combine] in Hk. destruct Hk as [E|Hk].
      - injection E as <- <-. exists lim. split; [now left|exact Hd].
      - destruct (IH _ Fd' _ _ Hk) as (lim' & A & B). exists lim'. split; [now right|exact B]. }
    assert (I2 : forall k lim, In (k, lim) bounds -> exists d, In (k, d) (combine (map fst bounds) ds)).
    { clear -Lb. revert ds Lb. induction bounds as [|[k lim] bounds IH]; intros ds Lb k' lim' Hk; [destruct Hk|].
      destruct ds as [|d ds]; [discriminate|]. cbn [map fst combine]. destruct Hk as [E|Hk].
      - injection E as <- <-. exists d. now left.
      - destruct (IH ds ltac:(cbn in Lb; lia) _ _ Hk) as (d' & A). exists d'. now right. }
    split; [|split].
    + assert (E : map fst (combine (map fst bounds) ds) = map fst bounds).
      { clear -Lb. revert ds Lb. induction (map fst bounds) as [|k l IH]; intros [|d ds] Lb; try discriminate; [reflexivity|]. cbn. f_equal. apply IH. now apply Nat.succ_inj in Lb. }
      rewrite E. unfold bounds, invariant_mass_limits. rewrite map_map.
      rewrite (map_ext _ (fun ij => ij)) by (now intros [i j]). rewrite map_id. apply index_pairs_nodup.
    + intros i j. split.
      * intro Hij. apply (I2 (i, j) (nth i ms 0 + nth j ms 0, q - (total ms - nth i ms 0 - nth j ms 0))).
        apply invariant_limits_in. auto.
      * intros (d & Hd). destruct (I1 _ _ Hd) as ([lo hi] & Hl & _). apply invariant_limits_in in Hl. tauto.
    + intros i j d Hd. destruct (I1 _ _ Hd) as ([lo hi] & Hl & Hs). apply invariant_limits_in in Hl. destruct Hl as (Hij & -> & ->).
      cbn [fst snd] in Hs.
      replace (map (fun pw => (pair_mass i j (fst pw), snd pw)) all) with (map (fun pw => (inv_mass (i, j) (fst pw), snd pw)) all); [exact Hs|].
      apply map_ext_in. intros pw Hp. destruct (Sh i j (fst pw) Hij (Hev pw Hp)) as (pi & pj & _ & _ & -> & ->). reflexivity.
Qed.
Print Assumptions rambo_invariant_mass_distributions_exact.

Example rambo_invariant_mass_distributions_case : nonneg [0; 0; 0] /\ total [0; 0; 0] < 6 /\
  event 6 [0; 0; 0] [V4 2 2 0 0; V4 2 (-1) (sqrt 3) 0; V4 2 (-1) (- sqrt 3) 0].
Proof.
  split; [intros m [<-|[<-|[<-|[]]]]; lra|]. split; [cbn; lra|]. pose proof (pow2_sqrt 3 ltac:(lra)) as S3. split.
  - repeat constructor; cbn [en px py pz]; try lra; nra.
  - unfold vsum. cbn. apply vec_eq; cbn; lra.
Qed.

(** In batches there are no distributions: whole numbers were made to hold them, and the first batch does not fit *)
Theorem rambo_batches_raise : forall all batches q ms nbins n b, b <> n -> batches <> [] ->
  (ms <> [] -> rambo_energy_distributions all batches q ms nbins n (Some b) = Raise TypeError) /\
  ((2 <= length ms)%nat -> rambo_invariant_mass_distributions all batches q ms nbins n (Some b) = Raise TypeError).
Proof.
  intros all batches q ms nbins n b Hb Hbs.
  assert (G : forall axes, axes <> [] -> histograms all batches axes nbins n (Some b) = Raise TypeError).
  { intros axes Ha. unfold histograms. replace (batched n (Some b)) with true by (unfold batched; now rewrite (proj2 (Z.eqb_neq b n) Hb)).
    destruct batches as [|s r]; [now destruct Hbs|]. destruct axes as [|a axes]; [now destruct Ha|]. reflexivity. }
  split.
  - intro Hm. unfold rambo_energy_distributions. apply G. destruct ms as [|m ms]; [now destruct Hm|]. discriminate.
  - intro Hm. unfold rambo_invariant_mass_distributions. rewrite G; [reflexivity|].
    destruct ms as [|m1 [|m2 ms]]; [cbn in Hm; lia|cbn in Hm; lia|]. discriminate.
Qed.
Print Assumptions rambo_batches_raise.

(** Batches give what one go gives: false, the same events have distributions in one go and none in two batches *)
Theorem rambo_batches_agree_refuted : exists (s1 s2 : sample) q ms nbins ds,
  (forall pw, In pw (s1 ++ s2) -> event q ms (fst pw) /\ 0 < snd pw) /\
  rambo_energy_distributions (s1 ++ s2) [s1; s2] q ms nbins 2 None = Ret ds /\
  rambo_energy_distributions (s1 ++ s2) [s1; s2] q ms nbins 2 (Some 1%Z) = Raise TypeError.
Proof.
  set (s1 := [([V4 5 0 0 3; V4 5 0 0 (-3)], 1 / 2)] : sample).
  assert (Ev : forall pw, In pw (s1 ++ s1) -> event 10 [4; 4] (fst pw) /\ 0 < snd pw).
  { destruct rambo_energy_distributions_case as (_ & _ & E & _). intros pw [<-|[<-|[]]]; (split; [exact E|cbn; lra]). }
  destruct (rambo_energy_distributions_exact (s1 ++ s1) [s1; s1] 10 [4; 4] 3 2 None) as (ds & Ed & _).
  - lra.
  - apply rambo_energy_distributions_case.
  - apply rambo_energy_distributions_case.
  - cbn. lia.
  - lia.
  - now left.
  - intros pw Hp. now apply Ev.
  - cbn. lra.
  - exists s1, s1, 10, [4; 4], 3%nat, ds. split; [exact Ev|]. split; [exact Ed|].
    apply rambo_batches_raise; discriminate.
Qed.
Print Assumptions rambo_batches_agree_refuted.

(** * C174 *)

(** The average of the weights, and [v] their sample variance *)
Definition average (ws : list R) (a : R) : Prop := a * INR (length ws) = total ws.
Definition variance (ws : list R) (v : R) : Prop :=
  (2 <= length ws)%nat /\ exists a, average ws a /\ v * (INR (length ws) - 1) = total (map (fun w => (w - a) ^ 2) ws).

Lemma mean_average ws : ws <> [] -> average ws (mean ws).
Proof.
  intro H. unfold average, mean. field. apply Rgt_not_eq. apply lt_0_INR. destruct ws; [now destruct H|cbn; lia].
Qed.
Lemma average_unique ws a a' : ws <> [] -> average ws a -> average ws a' -> a = a'.
Proof.
  unfold average. intros H A B. apply (Rmult_eq_reg_r (INR (length ws))); [congruence|]. apply Rgt_not_eq. apply lt_0_INR.
  destruct ws; [now destruct H|cbn; lia].
Qed.
Lemma total_nonneg l : (forall x, In x l -> 0 <= x) -> 0 <= total l.
Proof. induction l as [|x l IH]; intro H; [cbn; lra|]. rewrite total_cons. assert (0 <= x) by (apply H; now left). specialize (IH (fun y Hy => H y (or_intror Hy))). lra. Qed.
Lemma nanstd_variance ws v : variance ws v -> 0 <= v /\ nanstd ws = Some (sqrt v).
Proof.
  intros (Hl & a & Ha & Hv). assert (Hne : ws <> []) by (intros ->; cbn in Hl; lia).
  rewrite (average_unique ws a (mean ws) Hne Ha (mean_average ws Hne)) in Hv.
  assert (L : 0 < INR (length ws) - 1).
  { assert (1 < INR (length ws)); [|lra]. change 1 with (INR 1). apply lt_INR. lia. }
  assert (N : 0 <= total (map (fun w => (w - mean ws) ^ 2) ws)).
  { apply total_nonneg. intros x Hx. apply in_map_iff in Hx. destruct Hx as (w & <- & _). apply pow2_ge_0. }
  split.
  - assert (0 <= v * (INR (length ws) - 1)) by lra. nra.
  - unfold nanstd. destruct (Nat.leb_spec (length ws) 1); [lia|]. do 2 f_equal. rewrite minus_INR by lia. change (INR 1) with 1.
    rewrite <- Hv. field. lra.
Qed.

(** In one go the integral is the average of the weights, and the square of the error their variance over their number *)
Theorem rambo_integral_one_go : forall all batches n b, all <> [] -> n = Z.of_nat (length all) -> (b = None \/ b = Some n) ->
  average (map snd all) (fst (rambo_integrate all batches n b)) /\
  forall v, variance (map snd all) v -> exists e, snd (rambo_integrate all batches n b) = Some e /\ 0 <= e /\
    e ^ 2 * INR (length all) = v.
Proof.
  intros all batches n b Hne Hn Hb. unfold rambo_integrate.
  assert (Bf : batched n b = false) by (destruct Hb as [->| ->]; [reflexivity|]; unfold batched; now rewrite Z.eqb_refl).
  rewrite Bf. cbn [fst snd]. split; [apply mean_average; destruct all; [now destruct Hne|discriminate]|].
  intros v Hv. destruct (nanstd_variance _ _ Hv) as [Hv0 ->]. cbn [option_map]. eexists. split; [reflexivity|].
  assert (L : 0 < INR (length all)) by (apply lt_0_INR; destruct all; [now destruct Hne|cbn; lia]).
  rewrite Hn, <- INR_IZR_INZ. pose proof (sqrt_lt_R0 _ L) as Sl. split.
  - apply Rmult_le_pos; [apply sqrt_pos|]. apply Rlt_le. now apply Rinv_0_lt_compat.
  - unfold Rdiv. rewrite Rpow_mult_distr, pow2_sqrt by exact Hv0. rewrite pow_inv, pow2_sqrt by lra. field. lra.
Qed.
Print Assumptions rambo_integral_one_go.

Example rambo_integral_one_go_case : variance (map snd ([([], 1); ([], 3)] : sample)) 2.
Proof. split; [cbn; lia|]. exists 2. split; [unfold average; cbn; lra|cbn; lra]. Qed.

Lemma concat_total (bs : list sample) (b : nat) : (forall s, In s bs -> length s = b) ->
  INR b * total (map (fun s => mean (map snd s)) bs) = total (map snd (concat bs)) /\ length (concat bs) = (length bs * b)%nat.
Proof.
  induction bs as [|s bs IH]; intro H; [cbn; split; [lra|reflexivity]|].
  destruct IH as [IH1 IH2]; [intros; apply H; now right|]. cbn [map concat]. rewrite map_app, total_app, total_cons, app_length, IH2.
  assert (Ls : length s = b) by (apply H; now left). split; [|rewrite Ls; cbn; lia].
  rewrite Rmult_plus_distr_l, IH1. f_equal. destruct s as [|x s].
  - cbn in Ls. subst b. cbn. lra.
  - pose proof (mean_average (map snd (x :: s)) ltac:(discriminate)) as M. unfold average in M. rewrite map_length, Ls in M. lra.
Qed.

(** In batches of [k] events, the integral is the average over all events, and the square of the error the average of the
    variances over the number of events *)
Theorem rambo_integral_batches : forall all batches n k, (0 < k)%nat -> batches <> [] -> Z.of_nat k <> n ->
  (forall s, In s batches -> length s = k) ->
  average (map snd (concat batches)) (fst (rambo_integrate all batches n (Some (Z.of_nat k)))) /\
  forall vs, Forall2 (fun s v => variance (map snd s) v) batches vs ->
    exists e, snd (rambo_integrate all batches n (Some (Z.of_nat k))) = Some e /\ 0 <= e /\
      exists a, average vs a /\ e ^ 2 * INR (length (concat batches)) = a.
Proof.
  intros all batches n k Hk Hne Hn Hl. unfold rambo_integrate.
  replace (batched n (Some (Z.of_nat k))) with true by (unfold batched; now rewrite (proj2 (Z.eqb_neq _ _) Hn)).
  cbn [fst snd]. destruct (concat_total batches k Hl) as [Ct Cl].
  assert (Lb : 0 < INR (length batches)) by (apply lt_0_INR; destruct batches; [now destruct Hne|cbn; lia]).
  assert (Lk : 0 < INR k) by (now apply lt_0_INR). split.
  - unfold average. rewrite map_length, Cl, mult_INR, <- Ct.
    unfold sample in *. match goal with |- mean ?l * _ = _ => change (mean l) with (total l / INR (length l)); rewrite map_length; set (T := total l) end.
    field. lra.
  - intros vs Hvs. eexists. split; [reflexivity|]. rewrite map_length, <- INR_IZR_INZ.
    assert (T : total (map nan_square (map (fun s => option_map (fun d => d / sqrt (INR k)) (nanstd (map snd s))) batches)) = total vs / INR k /\ 0 <= total vs).
    { clear -Hvs Lk. induction Hvs as [|s v bs vs Hv Hvs IH]; [cbn; lra|]. cbn [map]. rewrite !total_cons.
      destruct IH as [-> IH]. destruct (nanstd_variance _ _ Hv) as [Hv0 ->]. cbn [option_map nan_square].
      unfold Rdiv. rewrite Rpow_mult_distr, pow2_sqrt, pow_inv, pow2_sqrt by lra. split; [ring|lra]. }
    destruct T as [-> Tp]. split.
    + apply Rmult_le_pos; [apply sqrt_pos|]. apply Rlt_le. now apply Rinv_0_lt_compat.
    + exists (total vs / INR (length batches)). unfold sample in *. split.
      * unfold average. rewrite <- (Forall2_len _ _ _ Hvs). field. lra.
      * rewrite Cl, mult_INR. unfold Rdiv at 1. rewrite Rpow_mult_distr, pow2_sqrt, pow_inv.
        -- field. lra.
        -- apply Rmult_le_pos; [exact Tp|]. apply Rlt_le. now apply Rinv_0_lt_compat.
Qed.
Print Assumptions rambo_integral_batches.

Example rambo_integral_batches_case : let s := ([([], 1); ([], 3)] : sample) in
  (forall t, In t [s; s] -> length t = 2%nat) /\ Forall2 (fun s v => variance (map snd s) v) [s; s] [2; 2].
Proof. cbn zeta. split; [intros t [<-|[<-|[]]]; reflexivity|]. constructor; [exact rambo_integral_one_go_case|constructor; [exact rambo_integral_one_go_case|constructor]]. Qed.

Lemma two_body_flat_weight q m1 m2 o p ps : rambo_new q [m1; m2] = Ret o -> 0 < q -> 0 <= m1 -> 0 <= m2 -> 0 < p ->
  hypot p m1 + hypot p m2 = q -> event q [m1; m2] ps -> weight o ps = p / (4 * PI * q).
Proof.
  intros Ho Hq H1 H2 Hp E [Fs Vs]. revert E. inversion Fs as [|? p1 ? r1 [S1 G1] Fs']; subst. inversion Fs' as [|? p2 ? r2 [S2 G2] Fs'']; subst.
  inversion Fs''; subst. intro E. unfold vsum in Vs. cbn [fold_right] in Vs.
  pose proof (f_equal en Vs) as Ve. pose proof (f_equal px Vs) as Vx. pose proof (f_equal py Vs) as Vy. pose proof (f_equal pz Vs) as Vz.
  cbn [vplus en px py pz] in Ve, Vx, Vy, Vz. clear Vs Fs Fs' Fs''.
  assert (Hth : m1 + m2 < q).
  { assert (forall m, 0 <= m -> m < hypot p m). { intros m Hm. unfold hypot. rewrite <- (sqrt_square m) at 1 by exact Hm. apply sqrt_lt_1; nra. }
    pose proof (H m1 H1). pose proof (H m2 H2). lra. }
  set (k := sqrt (modsqr p1)). assert (Hk : 0 <= k) by apply sqrt_pos.
  assert (Mk : k ^ 2 = modsqr p1) by (unfold k; apply pow2_sqrt; unfold modsqr; nra).
  assert (E1 : hypot k m1 = en p1). { unfold hypot. rewrite <- (sqrt_square (en p1)) by lra. f_equal. unfold modsqr in Mk. nra. }
  assert (E2 : hypot k m2 = en p2).
  { unfold hypot. rewrite <- (sqrt_square (en p2)) by lra. f_equal. unfold modsqr in Mk.
    replace (px p2) with (- px p1) in S2 by lra. replace (py p2) with (- py p1) in S2 by lra. replace (pz p2) with (- pz p1) in S2 by lra. nra. }
  destruct (two_body_momentum_exact q m1 m2 Hq H1 H2 ltac:(lra)) as (_ & _ & U).
  pose proof (U p ltac:(lra) E) as Up. pose proof (U k Hk ltac:(lra)) as Uk. assert (Ek : k = p) by congruence.
  assert (Pe : forall m, 0 <= m -> 0 < hypot k m). { intros m Hm. unfold hypot. apply sqrt_lt_R0. nra. }
  pose proof (Pe m1 H1). pose proof (Pe m2 H2).
  pose proof (rambo_two_body_weight q m1 m2 o p1 (en p1) (en p2) Ho Hq ltac:(lra) ltac:(lra) ltac:(nra)) as W.
  replace (V4 (en p1) (px p1) (py p1) (pz p1)) with p1 in W by (now destruct p1).
  replace (V4 (en p2) (- px p1) (- py p1) (- pz p1)) with p2 in W by (apply vec_eq; cbn [en px py pz]; lra).
  rewrite W. fold k. rewrite Ek. f_equal. f_equal. lra.
Qed.

(** For two particles and no matrix element the width and the cross section of incoming masses [a] and [b] are exact *)
Theorem rambo_two_body_rates : forall q m1 m2 o p a b k (all : sample) batches n,
  rambo_new q [m1; m2] = Ret o -> 0 < q -> 0 <= m1 -> 0 <= m2 -> 0 < p -> hypot p m1 + hypot p m2 = q ->
  0 <= a -> 0 <= b -> 0 < k -> hypot k a + hypot k b = q ->
  (2 <= length all)%nat -> n = Z.of_nat (length all) ->
  (forall pw, In pw all -> event q [m1; m2] (fst pw) /\ snd pw = weight o (fst pw)) ->
  rambo_width q (rambo_integrate all batches n None) = (p / (8 * PI * q ^ 2), Some 0) /\
  rambo_cross_section q a b (rambo_integrate all batches n None) = (p / (16 * PI * q ^ 2 * k), Some 0).
Proof.
  intros q m1 m2 o p a b k all batches n Ho Hq H1 H2 Hp E Ha Hb Hk Ek Hl Hn Hev. pose proof PI_RGT_0 as Pp.
  set (c := p / (4 * PI * q)).
  assert (Hc : forall w, In w (map snd all) -> w = c).
  { intros w Hw. apply in_map_iff in Hw. destruct Hw as (pw & <- & Hi). destruct (Hev pw Hi) as [Ev ->].
    exact (two_body_flat_weight q m1 m2 o p (fst pw) Ho Hq H1 H2 Hp E Ev). }
  assert (T : forall l, (forall w, In w l -> w = c) -> total l = c * INR (length l)).
  { clear. induction l as [|x l IH]; intro H; [cbn; ring|]. rewrite total_cons, IH by (intros; apply H; now right).
    rewrite (H x (or_introl eq_refl)). cbn [length]. rewrite S_INR. ring. }
  assert (Ln : 0 < INR (length all)) by (apply lt_0_INR; lia).
  assert (Mc : mean (map snd all) = c) by (unfold mean; rewrite (T _ Hc), map_length; field; lra).
  assert (V : variance (map snd all) 0).
  { split; [now rewrite map_length|]. exists c. split; [unfold average; symmetry; now apply T|].
    rewrite total_zero; [ring|]. intros w Hw. rewrite (Hc w Hw). ring. }
  destruct (nanstd_variance _ _ V) as [_ St].
  destruct (two_body_momentum_exact q a b Hq Ha Hb) as (_ & _ & U).
  { assert (K : forall m, 0 <= m -> m <= hypot k m). { intros m Hm. unfold hypot. rewrite <- (sqrt_square m) at 1 by exact Hm. apply sqrt_le_1_alt. nra. }
    pose proof (K a Ha). pose proof (K b Hb). lra. }
  specialize (U k ltac:(lra) Ek).
  unfold rambo_integrate, rambo_width, rambo_cross_section, batched, cross_section_prefactor. rewrite <- U, Mc, St. cbn [fst snd option_map].
  rewrite sqrt_0. unfold c. split; f_equal.
  - field. split; apply Rgt_not_eq; assumption.
  - f_equal. unfold Rdiv. ring.
  - field. repeat split; apply Rgt_not_eq; assumption.
  - f_equal. unfold Rdiv. ring.
Qed.
Print Assumptions rambo_two_body_rates.

Example rambo_two_body_rates_case : (exists o, rambo_new 10 [4; 4] = Ret o) /\ hypot 3 4 + hypot 3 4 = 10 /\ hypot 4 3 + hypot 4 3 = 10.
Proof.
  split; [eexists; reflexivity|]. unfold hypot. replace (3 * 3 + 4 * 4) with (5 * 5) by ring. replace (4 * 4 + 3 * 3) with (5 * 5) by ring.
  rewrite sqrt_square; lra.
Qed.

(** The error vanishes only if the weights are equal: false in batches of one event, whose variances are not numbers and
    are left out of the sum; in one go the same two events have an error *)
Theorem rambo_error_refuted : exists q ms o msqrd (s1 s2 : sample),
  rambo_new q ms = Ret o /\
  (forall pw, In pw (s1 ++ s2) -> event q ms (fst pw) /\ snd pw = weight o (fst pw) * msqrd (fst pw)) /\
  snd (rambo_integrate (s1 ++ s2) [s1; s2] 2 (Some 1%Z)) = Some 0 /\
  exists e, snd (rambo_integrate (s1 ++ s2) [s1; s2] 2 None) = Some e /\ 0 < e.
Proof.
  set (e1 := [V4 5 0 0 3; V4 5 0 0 (-3)]). set (e2 := [V4 5 3 0 0; V4 5 (-3) 0 0]).
  set (f := fun ps : list vec => 1 + pz (nth 0 ps (V4 0 0 0 0)) ^ 2).
  assert (Ho : exists o, rambo_new 10 [4; 4] = Ret o) by (eexists; reflexivity). destruct Ho as [o Ho].
  assert (V1 : event 10 [4; 4] e1) by apply rambo_energy_distributions_case.
  assert (V2 : event 10 [4; 4] e2).
  { split; [repeat constructor; cbn; lra|]. unfold vsum. cbn. apply vec_eq; cbn; lra. }
  assert (W : forall ps, event 10 [4; 4] ps -> weight o ps = 3 / (4 * PI * 10)).
  { intros ps Ev. apply (two_body_flat_weight 10 4 4 o 3 ps Ho); try lra; [|exact Ev]. apply rambo_two_body_rates_case. }
  set (s1 := [(e1, weight o e1 * f e1)] : sample). set (s2 := [(e2, weight o e2 * f e2)] : sample).
  exists 10, [4; 4], o, f, s1, s2. split; [exact Ho|]. split.
  { intros pw [<-|[<-|[]]]; (split; [assumption|reflexivity]). }
  split.
  - unfold rambo_integrate. change (batched 2 (Some 1%Z)) with true. cbv iota. cbn [snd].
    match goal with |- Some (sqrt ?t / _) = _ => replace t with 0 by (cbn; ring) end. rewrite sqrt_0. f_equal. unfold Rdiv. ring.
  - pose proof PI_RGT_0 as Pp. set (c := 3 / (4 * PI * 10)) in *.
    assert (Hc : 0 < c) by (unfold c; apply Rdiv_lt_0_compat; lra).
    assert (Va : variance (map snd (s1 ++ s2)) (81 / 2 * c ^ 2)).
    { split; [cbn; lia|]. exists (11 / 2 * c). unfold s1, s2. cbn [app map snd]. rewrite (W e1 V1), (W e2 V2).
      replace (f e1) with 10 by (unfold f, e1; cbn; ring). replace (f e2) with 1 by (unfold f, e2; cbn; ring).
      split; [unfold average; cbn; field|cbn; field]. }
    destruct (rambo_integral_one_go (s1 ++ s2) [s1; s2] 2 None ltac:(discriminate) eq_refl (or_introl eq_refl)) as [_ G].
    destruct (G _ Va) as (e & Ee & E0 & Es). exists e. split; [exact Ee|].
    destruct (Rle_lt_or_eq_dec _ _ E0) as [L|L]; [exact L|]. exfalso. subst e.
    rewrite pow_ne_zero in Es by lia. assert (0 < c ^ 2) by nra. lra.
Qed.
Print Assumptions rambo_error_refuted.
