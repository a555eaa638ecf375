(** Dark-matter fluxes and gamma-ray limits: theorems. *)
From Coq Require Import String Reals Lra Lia Bool List.
From Verif Require Import PyBase PyBaseFacts VffModel LimitsModel LimitsProofs RustBase RustMath Area Primitive
  Gauss SpecProofs RelicProofs SpenceProofs FluxModel FluxProofs.
Import ListNotations.
Local Open Scope string_scope.
Local Open Scope list_scope.
Local Open Scope R_scope.

Ltac each_of H := cbn in H; repeat (destruct H as [<-|H]); try contradiction.

(** * C108: fluxes *)

(** C108.  For dark matter of particles and antiparticles the predicted fluxes, multiplied by the cross
    section or the decay width, are the photons per area and time that reach the observer in every bin. *)
Theorem expected_fluxes h w t mx conv bins :
  mx <> 0 -> off_observer h -> seen_as h w t ->
  (exists fl, compute_fluxes "ann" mx t conv bins = Ret fl /\ length fl = length bins
     /\ forall i a b phi sv, nth_error bins i = Some (a, b) -> nth_error fl i = Some phi ->
          sv * phi = ann_flux particle_antiparticle mx sv w (conv a b) h)
  /\ (exists fl, compute_fluxes "dec" mx t conv bins = Ret fl /\ length fl = length bins
     /\ forall i a b phi gamma, nth_error bins i = Some (a, b) -> nth_error fl i = Some phi ->
          gamma * phi = dec_flux mx gamma w (conv a b) h).
Proof.
  intros Hm Ho (HJ & HD & Hw). pose proof PI_RGT_0 as P.
  split; unfold compute_fluxes, flux_factor; rewrite Hw, ?HJ, ?HD; cbn; eexists; (split; [reflexivity|split; [apply map_length|]]).
  - intros i a b phi sv Hb. rewrite nth_error_map, Hb. cbn. intros X. injection X as <-.
    rewrite ann_flux_val by assumption. field. lra.
  - intros i a b phi g Hb. rewrite nth_error_map, Hb. cbn. intros X. injection X as <-.
    rewrite dec_flux_val by assumption. field. lra.
Qed.
Print Assumptions expected_fluxes.

Definition ex_halo : list cell :=
  [{| c_dist := 2; c_len := 3; c_rho := 5 |}; {| c_dist := 5; c_len := 1; c_rho := 2 |}].
Definition ex_target : target := {| t_J := Some 79; t_D := Some 17; t_dOmega := Some (1 / 2); t_vx := 1 / 1000 |}.
Example ex_seen : off_observer ex_halo /\ seen_as ex_halo (1 / 2) ex_target.
Proof.
  split.
  - intros c H. each_of H; cbn; lra.
  - unfold seen_as, J_of, D_of. cbn. repeat split; f_equal; ring.
Qed.

(** C108.  The prefactor of the signal flux, with both kinds of dark matter. *)
Theorem signal_flux_photons h w t mx scale dnde e :
  mx <> 0 -> off_observer h -> seen_as h w t ->
  (forall self : bool, signal_flux "ann" mx t self (Some scale) dnde e
     = Ret (ann_flux (if self then own_antiparticle else particle_antiparticle) mx scale w (dnde e) h))
  /\ (forall self : bool, signal_flux "dec" mx t self (Some scale) dnde e = Ret (dec_flux mx scale w (dnde e) h))
  /\ (forall self, signal_flux "ann" mx t self None dnde e = signal_flux "ann" mx t self (Some 1) dnde e).
Proof.
  intros Hm Ho (HJ & HD & Hw). pose proof PI_RGT_0 as P.
  unfold signal_flux, signal_prefactor. cbn. rewrite Hw, HJ, HD. cbn.
  split; [|split].
  - intros self. rewrite ann_flux_val by assumption. destruct self; f_equal; field; lra.
  - intros _. rewrite dec_flux_val by assumption. f_equal. field. lra.
  - intros self. reflexivity.
Qed.
Print Assumptions signal_flux_photons.

(** C108.  A missing quantity or an unknown kind of model is an error, never a number. *)
Theorem flux_errors mx t conv bins self scale dnde e kind :
  (kind <> "ann" -> kind <> "dec" -> t_dOmega t <> None ->
     compute_fluxes kind mx t conv bins = Raise ValueError /\ signal_flux kind mx t self scale dnde e = Raise ValueError)
  /\ (t_dOmega t = None ->
     compute_fluxes "ann" mx t conv bins = Raise TypeError /\ compute_fluxes "dec" mx t conv bins = Raise TypeError
     /\ signal_flux "ann" mx t self scale dnde e = Raise AssertionError
     /\ signal_flux "dec" mx t self scale dnde e = Raise AssertionError)
  /\ (t_dOmega t <> None -> t_J t = None ->
     compute_fluxes "ann" mx t conv bins = Raise TypeError /\ signal_flux "ann" mx t self scale dnde e = Raise AssertionError)
  /\ (t_dOmega t <> None -> t_D t = None ->
     compute_fluxes "dec" mx t conv bins = Raise TypeError /\ signal_flux "dec" mx t self scale dnde e = Raise AssertionError).
Proof.
  unfold compute_fluxes, flux_factor, signal_flux, signal_prefactor.
  repeat split; intros;
    repeat match goal with
    | H : kind <> ?k |- _ => apply String.eqb_neq in H; rewrite H in *; clear H
    end; destruct (t_dOmega t); try congruence; cbn;
    repeat match goal with H : _ = None |- _ => rewrite H; clear H end; reflexivity.
Qed.
Print Assumptions flux_errors.
Example ex_flux_errors : "annihilation" <> "ann" /\ "annihilation" <> "dec" /\ t_dOmega ex_target <> None
  /\ t_J {| t_J := None; t_D := Some 1; t_dOmega := Some 1; t_vx := 0 |} = None.
Proof. repeat split; discriminate. Qed.

(** The photons counted in a window during T: signal with effective area in the spectrum, and background *)
Definition signal_count (T flux : R) : R := T * flux.
Definition background_count (T w per_angle : R) : R := T * w * per_angle.

(** C108.  At the unbinned limit the signal exceeds the background fluctuation n_sigma times in the best
    window and in none by more; above the limit some window shows it. *)
Theorem unbinned_limit_detectable h w t mx T I_S I_B grid n_sigma L :
  0 < mx -> off_observer h -> seen_as h w t -> 0 < w -> 0 < T -> 0 <= n_sigma ->
  (forall i j a b, (i < j)%nat -> nth_error grid i = Some a -> nth_error grid j = Some b -> 0 < I_S a b /\ 0 < I_B a b) ->
  (0 < J_of h -> unbinned_limit "ann" mx T t I_S I_B grid n_sigma = Ret L ->
     let count s a b := signal_count T (ann_flux particle_antiparticle mx s w (I_S a b) h) in
     let noise a b := sqrt (background_count T w (I_B a b)) in
     (exists i j a b, (i < j)%nat /\ nth_error grid i = Some a /\ nth_error grid j = Some b
        /\ count L a b = n_sigma * noise a b /\ forall s, L < s -> n_sigma * noise a b < count s a b)
     /\ forall i j a b, (i < j)%nat -> nth_error grid i = Some a -> nth_error grid j = Some b ->
        forall s, s <= L -> count s a b <= n_sigma * noise a b)
  /\ (0 < D_of h -> unbinned_limit "dec" mx T t I_S I_B grid n_sigma = Ret L ->
     let count s a b := signal_count T (dec_flux mx s w (I_S a b) h) in
     let noise a b := sqrt (background_count T w (I_B a b)) in
     (exists i j a b, (i < j)%nat /\ nth_error grid i = Some a /\ nth_error grid j = Some b
        /\ count L a b = n_sigma * noise a b /\ forall s, L < s -> n_sigma * noise a b < count s a b)
     /\ forall i j a b, (i < j)%nat -> nth_error grid i = Some a -> nth_error grid j = Some b ->
        forall s, s <= L -> count s a b <= n_sigma * noise a b).
Proof.
  intros Hm Ho (HJ & HD & Hw) Pw PT Hn Hpos. pose proof PI_RGT_0 as P.
  assert (gen : forall pf slope flux,
    0 < slope -> 0 < pf -> pf * (T * slope) = sqrt (T * w) ->
    (forall s N, flux s N = slope * s * N) ->
    unbinned_bound pf n_sigma I_S I_B grid = Ret L ->
    let count s a b := signal_count T (flux s (I_S a b)) in
    let noise a b := sqrt (background_count T w (I_B a b)) in
     (exists i j a b, (i < j)%nat /\ nth_error grid i = Some a /\ nth_error grid j = Some b
        /\ count L a b = n_sigma * noise a b /\ forall s, L < s -> n_sigma * noise a b < count s a b)
     /\ forall i j a b, (i < j)%nat -> nth_error grid i = Some a -> nth_error grid j = Some b ->
        forall s, s <= L -> count s a b <= n_sigma * noise a b).
  { intros pf slope flux Ps Ppf Hpf Hfl HL count noise.
    destruct (unbinned_best pf n_sigma I_S I_B grid L (Rlt_le _ _ Ppf) Hn Hpos HL) as [(i & j & a & b & Hij & Ha & Hb & EL) HU].
    assert (key : forall a b, 0 < I_S a b -> 0 < I_B a b ->
              count (window_bound pf n_sigma I_S I_B a b) a b = n_sigma * noise a b
              /\ forall s s', s < s' -> count s a b < count s' a b).
    { intros a' b' PS PB. unfold count, noise, signal_count, background_count, window_bound. split.
      - rewrite Hfl, (sqrt_mult (T * w)) by nra. rewrite <- Hpf. field. lra.
      - intros s s' Hs. rewrite !Hfl. apply Rmult_lt_compat_l; [exact PT|]. apply Rmult_lt_compat_r; [exact PS|].
        now apply Rmult_lt_compat_l. }
    split.
    - exists i, j, a, b. destruct (Hpos i j a b Hij Ha Hb) as [PS PB]. destruct (key a b PS PB) as [K1 K2].
      rewrite <- EL in K1. repeat split; [exact Hij|exact Ha|exact Hb|exact K1|]. intros s Hs. rewrite <- K1. now apply K2.
    - intros i' j' a' b' Hij' Ha' Hb' s Hs. destruct (Hpos i' j' a' b' Hij' Ha' Hb') as [PS PB].
      destruct (key a' b' PS PB) as [K1 K2]. rewrite <- K1. pose proof (HU i' j' a' b' Hij' Ha' Hb') as Le.
      destruct (Rle_lt_or_eq_dec s (window_bound pf n_sigma I_S I_B a' b') ltac:(lra)) as [X| ->]; [left; now apply K2|right; reflexivity]. }
  assert (PTw : 0 < T * w) by nra. pose proof (sqrt_lt_R0 _ PTw) as Q.
  assert (QQ : sqrt (T * w) * sqrt (T * w) = T * w) by (apply sqrt_sqrt; lra).
  split.
  - intros PJ. unfold unbinned_limit, unbinned_prefactor. rewrite Hw, HJ. cbn [asserted num bind String.eqb Ascii.eqb Bool.eqb].
    intros HL. cbn in HL. revert HL.
    apply (gen _ (w / (4 * PI * mx ^ 2) * J_of h * (1 / (2 * 2)))
             (fun s N => ann_flux particle_antiparticle mx s w N h)).
    + apply Rmult_lt_0_compat; [|lra]. apply Rmult_lt_0_compat; [|exact PJ]. apply Rdiv_lt_0_compat; [exact Pw|].
      apply Rmult_lt_0_compat; nra.
    + apply Rmult_lt_0_compat; [nra|]. apply Rdiv_lt_0_compat; [lra|]. now apply Rmult_lt_0_compat.
    + transitivity (T * w / sqrt (T * w)); [field; repeat split; lra|]. rewrite <- QQ at 1. field. lra.
    + intros s N. rewrite ann_flux_val by (assumption || lra). ring.
  - intros PJ. unfold unbinned_limit, unbinned_prefactor. rewrite Hw, HD. cbn [asserted num bind String.eqb Ascii.eqb Bool.eqb].
    intros HL. cbn in HL. revert HL.
    apply (gen _ (w / (4 * PI * mx) * D_of h) (fun s N => dec_flux mx s w N h)).
    + apply Rmult_lt_0_compat; [|exact PJ]. apply Rdiv_lt_0_compat; [exact Pw|]. apply Rmult_lt_0_compat; nra.
    + apply Rmult_lt_0_compat; [exact Hm|]. apply Rdiv_lt_0_compat; [lra|]. now apply Rmult_lt_0_compat.
    + transitivity (T * w / sqrt (T * w)); [field; repeat split; lra|]. rewrite <- QQ at 1. field. lra.
    + intros s N. rewrite dec_flux_val by (assumption || lra). ring.
Qed.
Print Assumptions unbinned_limit_detectable.
Example ex_unbinned_flux : 0 < J_of ex_halo /\ 0 < D_of ex_halo
  /\ (forall i j a b, (i < j)%nat -> nth_error [1; 2; 4] i = Some a -> nth_error [1; 2; 4] j = Some b ->
        0 < (fun a b => b - a) a b /\ 0 < (fun a b => / a - / b) a b)
  /\ exists L, unbinned_limit "ann" 3 100 ex_target (fun a b => b - a) (fun a b => / a - / b) [1; 2; 4] 5 = Ret L.
Proof.
  unfold J_of, D_of; cbn [total ex_halo c_rho c_len]. repeat split; try lra.
  - destruct i as [|[|[|i]]], j as [|[|[|j]]]; cbn in *; try lia; try discriminate; try (destruct i; discriminate);
      try (destruct j; discriminate); repeat match goal with H : Some _ = Some _ |- _ => injection H as <- end; lra.
  - destruct i as [|[|[|i]]], j as [|[|[|j]]]; cbn in *; try lia; try discriminate; try (destruct i; discriminate);
      try (destruct j; discriminate); repeat match goal with H : Some _ = Some _ |- _ => injection H as <- end; lra.
  - eexists. reflexivity.
Qed.

(** The flux a measurement allows in a bin *)
Definition allowed (w n_sigma : R) (b : mbin) : R := w * (mb_high b - mb_low b) * (mb_flux b + n_sigma * mb_err b).

(** C108.  The binned limit: up to it, and not beyond, the flux of the halo is allowed in every bin. *)
Theorem binned_limit_allowed h w t mx conv m n_sigma L crit :
  0 < mx -> off_observer h -> seen_as h w t -> 0 < w -> 0 < J_of h ->
  (forall b, In b m -> 0 < conv (mb_low b) (mb_high b)) ->
  binned_limit "ann" mx t conv m n_sigma "1bin" crit = Ret (Fin L) ->
  forall s, s <= L <-> forall b, In b m ->
    ann_flux particle_antiparticle mx s w (conv (mb_low b) (mb_high b)) h <= allowed w n_sigma b.
Proof.
  intros Hm Ho Hs Pw PJ Pc HL s. pose proof PI_RGT_0 as P.
  destruct Hs as (HJ & HD & Hw).
  set (f := w / (4 * PI * mx) * (J_of h / (2 * 2 * mx))).
  assert (Pf : 0 < f).
  { unfold f. apply Rmult_lt_0_compat; (apply Rdiv_lt_0_compat; [assumption|nra]). }
  assert (HB : constrain_one_bin w n_sigma (map (fun b => fill (f * conv (mb_low b) (mb_high b)) b) m) = Ret (Fin L)).
  { rewrite <- HL. unfold binned_limit, compute_fluxes, flux_factor. rewrite Hw, HJ. cbn. fold f. f_equal.
    rewrite map_map. cbn. clear. induction m as [|b r IH]; [reflexivity|]. cbn. now rewrite IH. }
  destruct (one_bin_finite _ _ _ _ HB) as [_ HU]. rewrite (HU s).
  assert (flux : forall b, ann_flux particle_antiparticle mx s w (conv (mb_low b) (mb_high b)) h
                  = s * (f * conv (mb_low b) (mb_high b))).
  { intros b. rewrite ann_flux_val by (assumption || lra). unfold f. field. lra. }
  split.
  - intros H b Hb. rewrite flux. unfold allowed.
    pose proof (H (fill (f * conv (mb_low b) (mb_high b)) b) ltac:(apply in_map_iff; now exists b)) as X.
    unfold compatible in X. cbn in X. apply X. apply Rmult_lt_0_compat; [exact Pf|now apply Pc].
  - intros H b' Hb' _. apply in_map_iff in Hb' as [b [<- Hb]]. unfold compatible. cbn.
    specialize (H b Hb). rewrite flux in H. exact H.
Qed.
Print Assumptions binned_limit_allowed.

Definition ex_meas : list mbin := [{| mb_low := 1; mb_high := 2; mb_flux := 3; mb_err := 1 |}].
Example ex_binned_allowed : (forall b, In b ex_meas -> 0 < (fun a b => b - a) (mb_low b) (mb_high b))
  /\ exists L, binned_limit "ann" 3 ex_target (fun a b => b - a) ex_meas 2 "1bin" 0 = Ret (Fin L).
Proof.
  split; [intros b H; each_of H; cbn; lra|]. pose proof PI_RGT_0 as P.
  unfold binned_limit, compute_fluxes, flux_factor. cbn. unfold constrain_one_bin. cbn. unfold sv_lim. cbn.
  destruct (Rlt_dec _ _) as [r|r]; [eexists; reflexivity|]. exfalso. apply r.
  assert (0 < / (4 * PI * 3)) by (apply Rinv_0_lt_compat; lra). unfold Rdiv. nra.
Qed.

(** C108.  The image of [constrain_binned_gamma] is non-negative where the number of the cross section in
    MeV^-2 times the velocity, taken as if it were cm^3/s, is below the binned limit.  Partial: in the
    units of the limit the statement is false, see below. *)
Theorem image_agrees_with_limit_partial h w t mx sigma conv m n_sigma L crit v :
  0 < mx -> off_observer h -> seen_as h w t -> 0 < w -> 0 < J_of h -> 0 < sigma * t_vx t ->
  (forall b, In b m -> 0 < conv (mb_low b) (mb_high b)) ->
  binned_limit "ann" mx t conv m n_sigma "1bin" crit = Ret (Fin L) ->
  image_value "ann" mx sigma t conv m n_sigma = Ret v ->
  (ext_le (Fin 0) v <-> sigma * t_vx t <= L).
Proof.
  intros Hm Ho Hs Pw PJ Psv Pc HL HI. pose proof PI_RGT_0 as P.
  rewrite (binned_limit_allowed h w t mx conv m n_sigma L crit Hm Ho Hs Pw PJ Pc HL (sigma * t_vx t)).
  destruct Hs as (HJ & HD & Hw). unfold image_value, image_flux_factor in HI. rewrite HJ, Hw in HI. cbn in HI.
  set (sv := sigma * t_vx t) in *.
  set (f := sv * J_of h * w / (2 * 2 * mx ^ 2 * 4 * PI)) in *.
  assert (Ef : f = sv * (w / (4 * PI * mx) * (J_of h / (2 * 2 * mx)))) by (unfold f; field; lra).
  assert (Pf : 0 < f).
  { rewrite Ef. apply Rmult_lt_0_compat; [exact Psv|]. apply Rmult_lt_0_compat; (apply Rdiv_lt_0_compat; [assumption|nra]). }
  rewrite (helper_nonneg _ _ _ _ HI).
  assert (flux : forall b, ann_flux particle_antiparticle mx sv w (conv (mb_low b) (mb_high b)) h
                  = f * conv (mb_low b) (mb_high b)).
  { intros b. rewrite ann_flux_val by (assumption || lra). rewrite Ef. field. lra. }
  split.
  - intros H b Hb. rewrite flux. unfold allowed.
    pose proof (H (fill (f * conv (mb_low b) (mb_high b)) b) ltac:(apply in_map_iff; now exists b)) as X.
    unfold compatible in X. cbn in X. rewrite Rmult_1_l in X. apply X. apply Rmult_lt_0_compat; [exact Pf|now apply Pc].
  - intros H b' Hb' _. apply in_map_iff in Hb' as [b [<- Hb]]. unfold compatible. cbn.
    specialize (H b Hb). rewrite flux in H. rewrite Rmult_1_l. exact H.
Qed.
Print Assumptions image_agrees_with_limit_partial.

(** C108 is false for the image: it excludes a model whose cross section, in cm^3/s, is below the limit. *)
Theorem image_units_refuted : exists h w t mx sigma conv m L v,
  0 < mx /\ off_observer h /\ seen_as h w t /\ 0 < w /\ 0 < J_of h
  /\ (forall b, In b m -> 0 < conv (mb_low b) (mb_high b))
  /\ binned_limit "ann" mx t conv m 2 "1bin" 0 = Ret (Fin L)
  /\ image_value "ann" mx sigma t conv m 2 = Ret (Fin v)
  /\ sigma * t_vx t * hbar2_c3 < L /\ v < 0.
Proof.
  pose proof PI_RGT_0 as P. pose proof PI_4 as P4.
  exists ex_halo, (1 / 2), ex_target, 3, (10 ^ 9), (fun a b => b - a), ex_meas.
  assert (X : 0 < 1 / 2 / (4 * PI * 3) * (79 / (2 * 2 * 3))).
  { apply Rmult_lt_0_compat; apply Rdiv_lt_0_compat; lra. }
  do 2 eexists. destruct ex_seen as [Ho Hs].
  assert (IP : / 4 <= / PI) by (apply Rinv_le_contravar; lra).
  repeat split; try exact Ho; try apply Hs; try lra.
  - unfold J_of; cbn; lra.
  - intros b H; each_of H; cbn; lra.
  - unfold binned_limit, compute_fluxes, flux_factor. cbn -[pow]. unfold constrain_one_bin. cbn -[pow]. unfold sv_lim. cbn -[pow].
    destruct (Rlt_dec _ _) as [r|r]; [reflexivity|]. exfalso. apply r.
    apply Rmult_lt_0_compat; [exact X|lra].
  - unfold image_value, image_flux_factor. cbn -[pow]. unfold binned_gamma_helper. cbn -[pow]. unfold bin_constraint. cbn -[pow].
    destruct (Rlt_dec _ _) as [r|r]; [|exfalso; apply r; apply Rmult_lt_0_compat; [|lra]; apply Rdiv_lt_0_compat; [lra|nra]].
    destruct (Rlt_dec _ _) as [r'|r']; [reflexivity|exfalso; apply r'; lra].
  - unfold phi_max. cbn -[pow]. unfold hbar2_c3.
    replace (1 / 2 * (2 - 1) * (3 + 2 * 1) / (1 / 2 / (4 * PI * 3) * (79 / (2 * 2 * 3)) * (2 - 1))) with (5 * 144 / 79 * PI) by (field; lra).
    apply Rlt_trans with 1; [lra|]. pose proof PI2_3_2. lra.
  - replace (10 ^ 9 * (1 / 1000) * 79 * (1 / 2) / (2 * 2 * 3 ^ 2 * 4 * PI)) with (10 ^ 6 * 79 / 288 * / PI) by (field; lra). lra.
Qed.
Print Assumptions image_units_refuted.

(** * C109: the Fisher matrix *)

(** C109.  The matrix has one row and column for the rate and one for every background parameter, is
    symmetric, and its quadratic form is never negative. *)
Theorem fisher_symmetric_nonnegative phi_s bg bgf deriv aeff tobs w energies :
  ~ In "rate" (dkeys bg) -> ascending energies -> 0 <= tobs ->
  (forall e, In e energies -> 0 < bgf e * w /\ 0 <= aeff e) ->
  exists m, fisher_matrix phi_s bg bgf deriv aeff tobs w energies = Ret m
    /\ length m = S (length bg)
    /\ (forall i j, (i < length m)%nat -> (j < length m)%nat -> entry m i j = entry m j i)
    /\ forall x : nat -> R, 0 <= total (fun i => total (fun j => x i * x j * entry m i j) (seq 0 (length m))) (seq 0 (length m)).
Proof.
  intros NR S T W. rewrite (matrix_val phi_s bg bgf deriv aeff tobs w energies NR). eexists. split; [reflexivity|].
  set (mv := moves phi_s bg deriv). set (fm := form bgf aeff tobs w energies).
  set (m := map (fun d2 => map (fun d1 => fm d1 d2) mv) mv).
  assert (HM : fisher_matrix phi_s bg bgf deriv aeff tobs w energies = Ret m) by now apply matrix_val.
  assert (EV : forall i j, (i < length m)%nat -> (j < length m)%nat -> entry m i j = fm (nth j mv (fun _ => 0)) (nth i mv (fun _ => 0)))
    by (intros; now apply entry_val).
  split; [now apply (matrix_len phi_s bg bgf deriv aeff tobs w energies)|]. split.
  - intros i j Hi Hj. rewrite !EV by assumption. apply form_sym.
  - intros x. assert (LM : length mv = length m) by (unfold m; now rewrite map_length).
    replace (total _ _) with (fm (comb (map x (seq 0 (length mv))) mv) (comb (map x (seq 0 (length mv))) mv));
      [apply form_nonneg; assumption|].
    unfold fm at 1. rewrite form_comb. fold fm.
    rewrite (total_seq (fun y d => y * fm d (comb (map x (seq 0 (length mv))) mv)) x). rewrite LM.
    apply total_ext. intros i Hi. apply in_seq in Hi. rewrite Nat.sub_0_r. unfold fm at 1. rewrite form_sym, form_comb. fold fm.
    rewrite <- LM. rewrite (total_seq (fun y d => y * fm d (nth i mv (fun _ => 0))) x). rewrite LM, <- total_scale.
    apply total_ext. intros j Hj. apply in_seq in Hj. rewrite Nat.sub_0_r, EV by lia. ring.
Qed.
Print Assumptions fisher_symmetric_nonnegative.

(** The squared deviation, in units of the Poisson fluctuation of the background [phi_b], of a signal of
    strength L together with a shift of the background along its derivatives [dtrue] *)
Definition shift (phi_s : R -> R) (keys : list string) (dtrue : string -> R -> R) (L : R) (bs : list R) (e : R) : R :=
  L * phi_s e + total (fun p => fst p * dtrue (snd p) e) (combine bs keys).
Definition deviation (phi_s : R -> R) (keys : list string) (dtrue : string -> R -> R) (phi_b aeff : R -> R) (T : R)
    (energies : list R) (L : R) (bs : list R) : R :=
  trapezoid (fun e => T * aeff e * shift phi_s keys dtrue L bs e ^ 2 / phi_b e) energies.

Lemma shift_comb phi_s bg deriv dtrue c L bs e :
  (forall k x, In k (dkeys bg) -> dtrue k x = c k * deriv k x) ->
  shift phi_s (dkeys bg) dtrue L bs e
  = comb (L :: map (fun p => fst p * c (snd p)) (combine bs (dkeys bg))) (moves phi_s bg deriv) e.
Proof.
  intros H. unfold shift, comb, moves. cbn [combine total fst snd]. f_equal.
  revert bs H. generalize (dkeys bg). induction l as [|k r IH]; intros bs H; destruct bs as [|b bs]; try reflexivity.
  cbn. rewrite (H k e (or_introl eq_refl)), IH by (intros; apply H; now right). ring.
Qed.

(** The coefficients that make the background shift equal to a given combination of the code's derivatives *)
Lemma shift_solve (c : string -> R) keys ys : (forall k, In k keys -> c k <> 0) -> length ys = length keys ->
  exists bs, length bs = length keys /\ map (fun p => fst p * c (snd p)) (combine bs keys) = ys.
Proof.
  revert ys. induction keys as [|k r IH]; intros [|y ys] H E; try discriminate.
  - exists []. auto.
  - destruct (IH ys) as [bs [B1 B2]]; [intros; apply H; now right|now injection E|].
    exists (y / c k :: bs). cbn. rewrite B1, B2. split; [reflexivity|]. f_equal. field. apply H. now left.
Qed.

(** C109.  The limit on the rate: whatever the background parameters do, a signal of that strength is z
    standard deviations away from no signal, z = ppf(cdf(sigma)), and there is a background for which it is
    no more.  [dtrue] are the derivatives of the background flux; the code may use them up to factors, as
    it does. *)
Theorem fisher_rate_limit phi_s bg bgf deriv dtrue c aeff tobs w energies inv ppf cdf sigma m g :
  ~ In "rate" (dkeys bg) -> ascending energies -> 0 <= tobs ->
  (forall e, In e energies -> 0 < bgf e * w /\ 0 <= aeff e) ->
  (forall k, In k (dkeys bg) -> c k <> 0) ->
  (forall k x, In k (dkeys bg) -> dtrue k x = c k * deriv k x) ->
  fisher_matrix phi_s bg bgf deriv aeff tobs w energies = Ret m -> inv m = Some g -> inverts m g ->
  let chi2 := deviation phi_s (dkeys bg) dtrue (fun e => bgf e * w) aeff tobs energies in
  exists L, fisher_limit inv ppf cdf m (fisher_params bg) "rate" sigma = Ret (Some L)
    /\ (forall bs, ppf (cdf sigma) ^ 2 <= chi2 L bs)
    /\ exists bs, length bs = length bg /\ chi2 L bs = ppf (cdf sigma) ^ 2.
Proof.
  intros NR S T W C0 C1 HM HI HG chi2.
  set (fm := form bgf aeff tobs w energies). set (mv := moves phi_s bg deriv).
  assert (CH : forall L bs, chi2 L bs = fm (comb (L :: map (fun p => fst p * c (snd p)) (combine bs (dkeys bg))) mv)
                                            (comb (L :: map (fun p => fst p * c (snd p)) (combine bs (dkeys bg))) mv)).
  { intros L bs. unfold chi2, deviation, fm, form, fisher_element. apply trap_ext. intros e He.
    rewrite (shift_comb phi_s bg deriv dtrue c) by exact C1. fold mv. unfold Rdiv. ring. }
  pose proof (corner_pos phi_s bg bgf deriv aeff tobs w energies NR S W T m g HM HG) as G0.
  set (z := ppf (cdf sigma)). exists (z * sqrt (entry g 0 0)).
  pose proof (sqrt_lt_R0 _ G0) as Q. assert (QQ : sqrt (entry g 0 0) * sqrt (entry g 0 0) = entry g 0 0) by (apply sqrt_sqrt; lra).
  split; [|split].
  - unfold fisher_limit. rewrite params_keys by exact NR. cbn. rewrite HI. unfold osqrt. change (nth 0 (nth 0 g []) 0) with (entry g 0 0).
    destruct (Rlt_dec _ _); [lra|]. reflexivity.
  - intros bs. rewrite CH.
    pose proof (comb_bound phi_s bg bgf deriv aeff tobs w energies NR S W T m g HM HG (z * sqrt (entry g 0 0))
                  (map (fun p => fst p * c (snd p)) (combine bs (dkeys bg)))) as B. fold fm mv in B.
    set (q := fm _ _) in *. clearbody q. replace ((z * sqrt (entry g 0 0)) ^ 2) with (z ^ 2 * entry g 0 0) in B by (rewrite <- QQ at 1; ring).
    nra.
  - destruct (column_head phi_s bg deriv g) as [ys [HY LY]].
    set (lam := z / sqrt (entry g 0 0)).
    destruct (shift_solve c (dkeys bg) (map (fun y => lam * y) ys) C0) as [bs [B1 B2]];
      [rewrite map_length, LY; unfold dkeys; now rewrite map_length|].
    exists bs. split; [rewrite B1; unfold dkeys; apply map_length|]. rewrite CH, B2.
    assert (EC : forall e, comb (z * sqrt (entry g 0 0) :: map (fun y => lam * y) ys) mv e = lam * best phi_s bg deriv g e).
    { intros e. unfold best. rewrite HY.
      replace (z * sqrt (entry g 0 0)) with (lam * entry g 0 0).
      2:{ unfold lam. rewrite <- QQ at 2. field. lra. }
      unfold comb. fold mv.
      change (lam * entry g 0 0 :: map (fun y => lam * y) ys) with (map (fun y => lam * y) (entry g 0 0 :: ys)).
      rewrite <- total_scale. generalize (entry g 0 0 :: ys) mv. clear.
      induction l as [|y r IH]; intros [|d ds]; try reflexivity. cbn. rewrite IH. ring. }
    transitivity (fm (fun e => lam * best phi_s bg deriv g e) (fun e => lam * best phi_s bg deriv g e)).
    { unfold fm, form, fisher_element. apply trap_ext. intros e _. now rewrite !EC. }
    unfold fm. rewrite form_scale2. rewrite (best_norm phi_s bg bgf deriv aeff tobs w energies NR m g HM HG).
    unfold lam. rewrite <- QQ at 2. field. lra.
Qed.
Print Assumptions fisher_rate_limit.

(** C109.  Without an inverse the limit is NaN, and a parameter that is not there is an error. *)
Theorem fisher_limit_errors inv ppf cdf m bg sigma key :
  (In key (dkeys (fisher_params bg)) -> inv m = None -> fisher_limit inv ppf cdf m (fisher_params bg) key sigma = Ret None)
  /\ (~ In key (dkeys (fisher_params bg)) -> fisher_limit inv ppf cdf m (fisher_params bg) key sigma = Raise (KeyError key)).
Proof.
  assert (I1 : forall ks, In key ks -> exists i, key_index ks key = Ret i).
  { induction ks as [|k r IH]; intros []; cbn.
    - subst. rewrite String.eqb_refl. now eexists.
    - destruct (k =? key); [now eexists|]. destruct (IH H) as [i ->]. now eexists. }
  assert (I2 : forall ks, ~ In key ks -> key_index ks key = Raise (KeyError key)).
  { induction ks as [|k r IH]; intros H; cbn; [reflexivity|]. destruct (String.eqb_spec k key) as [->|N]; [exfalso; apply H; now left|].
    rewrite IH; [reflexivity|]. intros X. apply H. now right. }
  split.
  - intros H N. unfold fisher_limit. destruct (I1 _ H) as [i ->]. cbn. now rewrite N.
  - intros H. unfold fisher_limit. now rewrite (I2 _ H).
Qed.
Print Assumptions fisher_limit_errors.

(** An example: one background parameter, two energies *)
Definition ex_phi_s (e : R) : R := if Rlt_dec e (1 / 2) then 1 else 0.
Definition ex_m : list (list R) := [[2; 2]; [2; 4]].
Definition ex_g : list (list R) := [[1; - 1 / 2]; [- 1 / 2; 1 / 2]].
Lemma ex_fisher_matrix :
  fisher_matrix ex_phi_s [("amplitude", 1)] (fun _ => 1) (fun _ _ => 1) (fun _ => 1) 1 (1 / 4) [0; 1] = Ret ex_m.
Proof.
  unfold fisher_matrix. cbn. unfold fisher_element. cbn. unfold ex_phi_s.
  destruct (Rlt_dec 0 (1 / 2)); [|lra]. destruct (Rlt_dec 1 (1 / 2)); [lra|].
  unfold ex_m. repeat f_equal; field.
Qed.
Lemma ex_inverts : inverts ex_m ex_g.
Proof. intros i j Hi Hj. cbn in Hi, Hj. destruct i as [|[|i]]; try lia; destruct j as [|[|j]]; try lia; unfold entry, ex_m, ex_g; cbn; field. Qed.
Example ex_fisher : ~ In "rate" (dkeys [("amplitude", 1)]) /\ ascending [0; 1]
  /\ (forall e, In e [0; 1] -> 0 < (fun _ => 1) e * (1 / 4) /\ 0 <= (fun _ => 1) e)
  /\ (forall k : string, In k (dkeys [("amplitude", 1)]) -> (1 / 4) <> 0)
  /\ inverts ex_m ex_g.
Proof.
  split; [cbn; intuition discriminate|]. split; [cbn; lra|]. split; [intros; lra|]. split; [intros; lra|exact ex_inverts].
Qed.

(** C109 is false for the background parameters: their derivatives lack the solid angle, so the limit on an
    amplitude is not the shift that is z standard deviations away. *)
Theorem fisher_background_refuted : exists phi_s bg bgf deriv aeff tobs w energies inv ppf cdf m L r,
  ~ In "rate" (dkeys bg) /\ ascending energies /\ 0 < tobs /\ 0 < w
  /\ (forall e, In e energies -> 0 < bgf e * w /\ 0 < aeff e)
  (* the background flux is the amplitude times a constant, and deriv is its derivative per solid angle *)
  /\ bg = [("amplitude", 1)] /\ (forall e, bgf e = 1) /\ (forall k e, deriv k e = 1)
  /\ fisher_matrix phi_s bg bgf deriv aeff tobs w energies = Ret m
  /\ (exists g, inv m = Some g /\ inverts m g)
  /\ ppf (cdf 1) = 1
  /\ fisher_limit inv ppf cdf m (fisher_params bg) "amplitude" 1 = Ret (Some L)
  /\ deviation phi_s (dkeys bg) (fun k e => w * deriv k e) (fun e => bgf e * w) aeff tobs energies r [L] < 1.
Proof.
  exists ex_phi_s, [("amplitude", 1)], (fun _ => 1), (fun _ _ => 1), (fun _ => 1), 1, (1 / 4), [0; 1],
    (fun _ => Some ex_g), (fun x => x), (fun x => x), ex_m, (1 * sqrt (1 / 2)), (- sqrt (1 / 2) / 4).
  destruct ex_fisher as (A & B & C & _ & D). repeat split; try assumption; try lra; try apply C; try (intros; apply C; assumption).
  - exact ex_fisher_matrix.
  - exists ex_g. split; [reflexivity|exact D].
  - unfold fisher_limit. cbn. unfold osqrt. destruct (Rlt_dec _ _); [lra|]. reflexivity.
  - unfold deviation, shift. cbn. unfold ex_phi_s. destruct (Rlt_dec 0 (1 / 2)); [|lra]. destruct (Rlt_dec 1 (1 / 2)); [lra|].
    pose proof (sqrt_sqrt (1 / 2) ltac:(lra)) as Q. set (s := sqrt (1 / 2)) in *. clearbody s. nra.
Qed.
Print Assumptions fisher_background_refuted.

(** * C110: parametric backgrounds *)

(** The model with one parameter, called by its name in the constructor, changed to p *)
Definition vary (b : galactic) (k : string) (p : R) : galactic :=
  {| g_amp := if k =? "galactic_amplitude" then p else g_amp b;
     g_index := if k =? "galactic_power_law_index" then p else g_index b;
     g_cutoff := if k =? "galactic_exponential_cutoff" then p else g_cutoff b;
     g_exp := if k =? "galactic_exponential_index" then p else g_exp b;
     eg_amp := if k =? "extra_galactic_amplitude" then p else eg_amp b;
     eg_index := if k =? "extra_galactic_power_law_index" then p else eg_index b |}.
Definition galactic_names : list string :=
  ["galactic_amplitude"; "galactic_power_law_index"; "galactic_exponential_cutoff"; "galactic_exponential_index";
   "extra_galactic_amplitude"; "extra_galactic_power_law_index"].
(** [k] has the value p in the model b *)
Definition has (b : galactic) (k : string) (p : R) : Prop := vary b k p = b.

Lemma dl_exp' f x a : derivable_pt_lim f x a -> derivable_pt_lim (fun y => exp (f y)) x (exp (f x) * a).
Proof. intros H. exact (dl_exp f x a H). Qed.
Ltac dle := first
  [ apply dl_const | apply dl_id
  | eapply dl_plus; dle | eapply dl_minus; dle | eapply dl_opp; dle
  | eapply dl_exp'; dle | eapply dl_ln; [dle|] 
  | eapply dl_mult; dle | eapply dl_div; [dle|dle|] ].

(** C110.  Every entry of [derivatives] is the partial derivative of the flux with respect to the parameter
    of that name. *)
Theorem galactic_partial_derivatives b e k p :
  0 < e -> 0 < g_cutoff b -> g_amp b <> 0 -> eg_amp b <> 0 -> In k galactic_names -> has b k p ->
  exists d, dget (galactic_derivatives b e) k = Some (Some d)
    /\ derivable_pt_lim (fun q => galactic_flux (vary b k q) e) p d.
Proof.
  intros He Hc Ha Hb Hk Hp.
  assert (odivn : forall x y, y <> 0 -> odiv x y = Some (x / y)) by (intros x y H; unfold odiv; now destruct (Req_EM_T y 0)).
  unfold has in Hp. destruct b as [A al Ec ga B be]. cbn [g_amp g_index g_cutoff g_exp eg_amp eg_index] in *.
  each_of Hk; cbn [vary String.eqb Ascii.eqb Bool.eqb] in Hp; cbn in Hp; injection Hp as Hp; subst p;
    unfold galactic_derivatives, galactic_flux; cbn -[Rpower odiv]; rewrite ?odivn by assumption;
    (eexists; split; [reflexivity|]); unfold Rpower;
    (eapply dl_val; [dle|]); try (assert (0 < e / Ec) by (now apply Rdiv_lt_0_compat); lra); try lra;
    assert (0 < e / Ec) by (now apply Rdiv_lt_0_compat); cbn beta; unfold Rsqr;
    field; repeat split; lra || assumption.
Qed.
Print Assumptions galactic_partial_derivatives.
Example ex_galactic : 0 < g_cutoff galactic_default /\ g_amp galactic_default <> 0 /\ eg_amp galactic_default <> 0
  /\ has galactic_default "galactic_exponential_index" 2.
Proof. repeat split; cbn; lra. Qed.

(** C110 is false for a vanishing amplitude: the derivative exists but the code divides zero by zero. *)
Theorem galactic_zero_amplitude_refuted : exists b e,
  0 < e /\ 0 < g_cutoff b /\ has b "galactic_amplitude" 0
  /\ dget (galactic_derivatives b e) "galactic_amplitude" = Some None
  /\ exists d, derivable_pt_lim (fun q => galactic_flux (vary b "galactic_amplitude" q) e) 0 d.
Proof.
  exists {| g_amp := 0; g_index := 1; g_cutoff := 1; g_exp := 1; eg_amp := 1; eg_index := 1 |}, 1.
  repeat split; cbn; try lra.
  - unfold odiv. destruct (Req_EM_T 0 0); [reflexivity|contradiction].
  - eexists. unfold galactic_flux. cbn. dle.
Qed.
Print Assumptions galactic_zero_amplitude_refuted.

(** C110.  The derivatives and the parameters have the same names, which the Fisher matrix needs. *)
Theorem background_names b e k e' :
  dkeys (galactic_derivatives b e) = galactic_names /\ dkeys (galactic_params b) = galactic_names
  /\ dkeys (gecco_derivatives k e') = dkeys (gecco_params k).
Proof. repeat split. Qed.
Print Assumptions background_names.

(** C110.  The reported parameters are those of the model, partial: not the exponential index. *)
Theorem galactic_params_partial b k p :
  k <> "galactic_exponential_index" -> In k galactic_names -> (has b k p <-> dget (galactic_params b) k = Some p).
Proof.
  intros Hn Hk. unfold has. destruct b as [A al Ec ga B be]. unfold galactic_params, vary.
  each_of Hk; cbn; try congruence; (split; intros X; [injection X as X; congruence|injection X as X; congruence]).
Qed.
Print Assumptions galactic_params_partial.

(** C110 is false for the exponential index: [params] reports the cutoff energy in its place. *)
Theorem galactic_params_refuted : exists b p q,
  has b "galactic_exponential_index" p /\ dget (galactic_params b) "galactic_exponential_index" = Some q /\ p <> q.
Proof.
  exists {| g_amp := 1; g_index := 1; g_cutoff := 2; g_exp := 3; eg_amp := 1; eg_index := 1 |}, 3, 2.
  repeat split; lra.
Qed.
Print Assumptions galactic_params_refuted.

Definition vary_gecco (b : gecco) (k : string) (p : R) : gecco :=
  {| k_amp := if k =? "amplitude" then p else k_amp b; k_index := if k =? "power_law_index" then p else k_index b |}.

(** C110.  GECCO: the derivative with respect to the amplitude is right, the one with respect to the index
    has the wrong sign.  Partial: the claim for the index is false, see below. *)
Theorem gecco_derivatives_partial b e : 0 < e ->
  (exists d, dget (gecco_derivatives b e) "amplitude" = Some d
     /\ derivable_pt_lim (fun q => gecco_flux (vary_gecco b "amplitude" q) e) (k_amp b) d)
  /\ (exists d, dget (gecco_derivatives b e) "power_law_index" = Some d
     /\ derivable_pt_lim (fun q => gecco_flux (vary_gecco b "power_law_index" q) e) (k_index b) (- d))
  /\ dget (gecco_params b) "amplitude" = Some (k_amp b) /\ dget (gecco_params b) "power_law_index" = Some (k_index b).
Proof.
  intros He. destruct b as [A al]. unfold gecco_derivatives, gecco_flux. cbn -[Rpower]. unfold Rpower. repeat split.
  - eexists. split; [reflexivity|]. eapply dl_val; [dle|]. cbn. ring.
  - eexists. split; [reflexivity|]. eapply dl_val; [dle|]. cbn. ring.
Qed.
Print Assumptions gecco_derivatives_partial.

Theorem gecco_index_refuted : exists b e d,
  0 < e /\ dget (gecco_derivatives b e) "power_law_index" = Some d
  /\ ~ derivable_pt_lim (fun q => gecco_flux (vary_gecco b "power_law_index" q) e) (k_index b) d.
Proof.
  exists {| k_amp := 1; k_index := 2 |}, 3, (1 * Rpower 3 (- 2) * ln 3).
  split; [lra|]. split; [reflexivity|]. intros H.
  destruct (gecco_derivatives_partial {| k_amp := 1; k_index := 2 |} 3 ltac:(lra)) as [_ [[d [E D]] _]].
  change (Some (1 * Rpower 3 (- 2) * ln 3) = Some d) in E.
  assert (d = 1 * Rpower 3 (- 2) * ln 3) by congruence. subst d.
  pose proof (uniqueness_limite _ _ _ _ H D) as U.
  assert (0 < ln 3) by (rewrite <- ln_1; apply ln_increasing; lra).
  assert (0 < Rpower 3 (- 2)) by apply exp_pos. set (q := Rpower 3 (- 2)) in *. clearbody q. nra.
Qed.
Print Assumptions gecco_index_refuted.

(** * C111: level sets *)

(** the value at a fractional pixel of an evenly spaced axis of n values *)
Definition on_axis (vals : list R) (x : R) : R :=
  hd 0 vals + x / (INR (length vals) - 1) * (last vals 0 - hd 0 vals).

(** C111.  Contours start at the right corner, partial: they are shrunk by (n - 1)/n along both axes. *)
Theorem level_sets_partial p1 p2 r c :
  (2 <= length p1)%nat -> (2 <= length p2)%nat ->
  contour_point p1 p2 (0, 0) = (hd 0 p1, hd 0 p2)
  /\ fst (contour_point p1 p2 (r, c)) - hd 0 p1
     = (INR (length p1) - 1) / INR (length p1) * (on_axis p1 c - hd 0 p1)
  /\ snd (contour_point p1 p2 (r, c)) - hd 0 p2
     = (INR (length p2) - 1) / INR (length p2) * (on_axis p2 r - hd 0 p2).
Proof.
  intros H1 H2. apply le_INR in H1, H2. cbn in H1, H2. unfold contour_point, on_axis. cbn [fst snd].
  split; [f_equal; field; lra|]. split; field; lra.
Qed.
Print Assumptions level_sets_partial.
Example ex_level_sets : (2 <= length [1; 2; 3])%nat. Proof. cbn; lia. Qed.

(** C111 is false: the last pixel is not put at the last value. *)
Theorem level_sets_refuted : exists p1 p2,
  on_axis p1 2 = last p1 0 /\ fst (contour_point p1 p2 (0, 2)) <> last p1 0.
Proof. exists [0; 1; 2], [0; 1; 2]. unfold contour_point, on_axis. cbn. split; lra. Qed.
Print Assumptions level_sets_refuted.

(** * C112: the relic-density limit *)

(** C112.  A limit is the cross section, in the units of the conversion factor, of the model whose property
    has some value between the given bounds at which the relic density is the observed one. *)
Theorem relic_limit_observed (M : Type) set relic mass xsec root sv_conv (log : bool) prop lo hi vx (m : M) s :
  (forall f a b r, root f a b = Some r -> a <= r <= b /\ f r = 0) ->
  (log = true -> 0 < lo /\ 0 < hi) ->
  relic_limit M set relic mass xsec root sv_conv log prop lo hi vx m = Some s ->
  exists p, lo <= p <= hi /\ relic (set prop p m) = 0.1198
    /\ s = xsec (set prop p m) (2 * mass (set prop p m) * (1 + vx ^ 2 / 2)) * vx * sv_conv.
Proof.
  intros Hroot Hpos. unfold relic_limit, setprop, relic_sigmav, omega_h2_cdm.
  destruct log.
  - destruct (Hpos eq_refl) as [Hlo Hhi].
    assert (L10 : 0 < ln 10) by (rewrite <- ln_1; apply ln_increasing; lra).
    destruct (root _ _ _) as [r|] eqn:E; [|discriminate]. intros X. injection X as <-.
    destruct (Hroot _ _ _ _ E) as [[B1 B2] F]. exists (Rpower 10 r). split; [|split].
    + assert (P : forall x, 0 < x -> Rpower 10 (ln x / ln 10) = x).
      { intros x Hx. unfold Rpower. replace (ln x / ln 10 * ln 10) with (ln x) by (field; lra). now apply exp_ln. }
      rewrite <- (P lo Hlo) at 1. rewrite <- (P hi Hhi). unfold Rpower. split; apply exp_le; nra.
    + lra.
    + f_equal. f_equal. f_equal. f_equal. lra.
  - destruct (root _ _ _) as [r|] eqn:E; [|discriminate]. intros X. injection X as <-.
    destruct (Hroot _ _ _ _ E) as [B F]. exists r. split; [exact B|]. split; [lra|]. f_equal. f_equal. f_equal. f_equal. lra.
Qed.
Print Assumptions relic_limit_observed.

(** C112.  Without a root the limit is NaN. *)
Theorem relic_limit_nan (M : Type) set relic mass xsec root sv_conv (log : bool) prop lo hi vx (m : M) :
  (forall f a b, f a * f b > 0 -> root f a b = None) ->
  (log = true -> 0 < lo /\ 0 < hi) ->
  0.1198 < relic (set prop lo m) -> 0.1198 < relic (set prop hi m) ->
  relic_limit M set relic mass xsec root sv_conv log prop lo hi vx m = None.
Proof.
  intros Hroot Hpos H1 H2. unfold relic_limit, setprop, omega_h2_cdm. rewrite Hroot; [reflexivity|]. cbn beta.
  destruct log; [|nra]. destruct (Hpos eq_refl) as [Hlo Hhi].
  assert (L10 : 0 < ln 10) by (rewrite <- ln_1; apply ln_increasing; lra).
  assert (P : forall x, 0 < x -> Rpower 10 (ln x / ln 10) = x).
  { intros x Hx. unfold Rpower. replace (ln x / ln 10 * ln 10) with (ln x) by (field; lra). now apply exp_ln. }
  rewrite !P by assumption. nra.
Qed.
Print Assumptions relic_limit_nan.

(** A density falling with the property, and the root found exactly *)
Example ex_relic :
  let relic := fun m : R => 0.1198 / m in
  let root := fun (f : R -> R) a b => if Req_EM_T (f 0) 0 then (if Rle_dec a 0 then (if Rle_dec 0 b then Some 0 else None) else None) else None in
  (forall f a b r, root f a b = Some r -> a <= r <= b /\ f r = 0)
  /\ relic_limit R (fun _ p _ => p) relic (fun _ => 1) (fun _ _ => 1) root 1 true "gsxx" (1 / 10) 10 (1 / 1000) 5 = Some (1 * (1 / 1000) * 1).
Proof.
  cbn zeta. split.
  - intros f a b r. destruct (Req_EM_T (f 0) 0); [|discriminate]. destruct (Rle_dec a 0); [|discriminate].
    destruct (Rle_dec 0 b); [|discriminate]. intros X. injection X as <-. split; [lra|assumption].
  - assert (L10 : 0 < ln 10) by (rewrite <- ln_1; apply ln_increasing; lra).
    unfold relic_limit, setprop, omega_h2_cdm, relic_sigmav.
    replace (Rpower 10 0) with 1 by (unfold Rpower; rewrite Rmult_0_l, exp_0; reflexivity).
    replace (ln (1 / 10)) with (- ln 10) by (unfold Rdiv; rewrite Rmult_1_l, ln_Rinv by lra; reflexivity).
    destruct (Req_EM_T _ 0) as [_|N]; [|exfalso; apply N; lra].
    destruct (Rle_dec _ 0) as [_|N]; [|exfalso; apply N; replace (- ln 10 / ln 10) with (-1) by (field; lra); lra].
    destruct (Rle_dec 0 _) as [_|N]; [|exfalso; apply N; replace (ln 10 / ln 10) with 1 by (field; lra); lra].
    reflexivity.
Qed.

(** * C113: detector response *)

(** C113.  A photon is reconstructed somewhere: the response has area one over all reconstructed energies. *)
Theorem response_normalised e energy_res : 0 < e * energy_res e -> whole (fun ep => spec_res_fn ep e energy_res) 1.
Proof.
  intros H. apply (whole_ext (normal e (e * energy_res e))); [|now apply normal_whole].
  intros x. symmetry. now apply response_normal.
Qed.
Print Assumptions response_normalised.
Example ex_response : 0 < 2 * (fun _ : R => 1 / 10) 2. Proof. lra. Qed.

(** C113.  A published resolution (full width at half maximum over energy) times [fwhm_factor] gives a response
    whose full width at half maximum is that resolution times the energy. *)
Theorem response_width e W ep : 0 < e -> 0 < W -> ep = e - e * W / 2 \/ ep = e + e * W / 2 ->
  spec_res_fn ep e (fun _ => W * fwhm_factor) = spec_res_fn e e (fun _ => W * fwhm_factor) / 2.
Proof.
  intros He HW Hep.
  assert (L2 : 0 < ln 2) by (rewrite <- ln_1; apply ln_increasing; lra).
  assert (HF : 0 < fwhm_factor).
  { unfold fwhm_factor. apply Rdiv_lt_0_compat; [lra|]. apply Rmult_lt_0_compat; [lra|]. apply sqrt_lt_R0. lra. }
  assert (F2 : fwhm_factor ^ 2 * (8 * ln 2) = 1).
  { unfold fwhm_factor. assert (Q : sqrt (2 * ln 2) ^ 2 = 2 * ln 2) by (apply pow2_sqrt; lra).
    assert (0 < sqrt (2 * ln 2)) by (apply sqrt_lt_R0; lra). set (q := sqrt (2 * ln 2)) in *. clearbody q.
    replace (8 * ln 2) with (4 * q ^ 2) by lra. field. lra. }
  assert (Hs : 0 < e * (W * fwhm_factor)) by (apply Rmult_lt_0_compat; [lra|]; now apply Rmult_lt_0_compat).
  rewrite !response_normal by exact Hs. unfold normal.
  assert (X : exp (- ((ep - e) / (e * (W * fwhm_factor))) ^ 2 / 2) = / 2).
  { replace (- ((ep - e) / (e * (W * fwhm_factor))) ^ 2 / 2) with (- ln 2).
    - now rewrite exp_Ropp, exp_ln by lra.
    - destruct Hep as [-> | ->]; clear Hs; set (F := fwhm_factor) in *; clearbody F;
        (replace (ln 2) with (1 / (F ^ 2 * 8)) by (apply (Rmult_eq_reg_l (F ^ 2 * 8)); [|nra]; rewrite <- F2 at 1 || idtac; field_simplify; nra)); field; lra. }
  rewrite X. replace (- ((e - e) / (e * (W * fwhm_factor))) ^ 2 / 2) with 0.
  - rewrite exp_0. field. split; [|lra].
    apply Rgt_not_eq, sqrt_lt_R0. pose proof PI_RGT_0. lra.
  - replace (e - e) with 0 by ring. unfold Rdiv. rewrite Rmult_0_l. ring.
Qed.
Print Assumptions response_width.
Example ex_width : 0 < 1 /\ 0 < 1 / 100. Proof. lra. Qed.

(** C113.  Convolution keeps the number of photons, those of the spectrum on the grid plus those of the lines
    (two for a pair of photons), over all reconstructed energies. *)
Theorem convolution_keeps_photons energy_res s grid lines :
  (forall e, In e grid -> 0 < e * energy_res e) ->
  (forall l, In l lines -> 0 < fst (snd l) * energy_res (fst (snd l))) ->
  whole (convolved energy_res (Some s) grid lines) (trapezoid s grid + total line_photons lines)
  /\ whole (convolved energy_res None grid lines) (total line_photons lines).
Proof.
  intros Hg Hl. split.
  - unfold convolved. apply whole_plus; [|now apply whole_lines].
    apply (whole_trapezoid s (fun x e => spec_res_fn x e energy_res)). intros e He. now apply response_normalised, Hg.
  - apply (whole_ext (fun x => 0 + fold_right (fun l acc => snd (snd l) * spec_res_fn x (fst (snd l)) energy_res
       * (if fst l =? "g g" then 2 else 1) + acc) 0 lines)); [reflexivity|].
    replace (total line_photons lines) with (0 + total line_photons lines) by ring.
    apply whole_plus; [exact whole_zero|now apply whole_lines].
Qed.
Print Assumptions convolution_keeps_photons.
Example ex_convolution :
  (forall e, In e [1; 2; 3] -> 0 < e * (fun _ : R => 1 / 10) e)
  /\ trapezoid (fun e => e) [1; 2; 3] + total line_photons [("g g", (2, 1 / 2)); ("pi0 g", (1, 1 / 4))] = 4 + (1 + 1 / 4).
Proof. split; [intros e H; each_of H; lra|]. unfold line_photons. cbn. lra. Qed.

(** C113 is false for a perfect resolution: the photons of the line are lost. *)
Theorem perfect_resolution_refuted : exists energy_res grid lines,
  total line_photons lines = 2 /\ (forall e, energy_res e = 0)
  /\ forall ep, convolved energy_res None grid lines ep = 0.
Proof.
  exists (fun _ => 0), [1], [("g g", (1, 1))]. split; [unfold line_photons; cbn; lra|]. split; [reflexivity|].
  intros ep. unfold convolved. cbn [fold_right fst snd].
  assert (Z : spec_res_fn ep 1 (fun _ => 0) = 0).
  { unfold spec_res_fn. destruct (Req_EM_T _ 0) as [_|N]; [reflexivity|exfalso; apply N; ring]. }
  rewrite Z. ring.
Qed.
Print Assumptions perfect_resolution_refuted.

(** C113.  The marginal spectrum is an average over the centre-of-mass energies: linear in the probabilities,
    equal to the spectrum when that does not depend on the energy and within its bounds otherwise. *)
Theorem marginal_average simpson dnde prob cmes e lo hi :
  ascending cmes -> (forall c, In c cmes -> 0 <= prob c) -> trapezoid prob cmes = 1 ->
  (forall c, In c cmes -> lo <= dnde e c <= hi) ->
  exists v, marginal simpson dnde prob cmes "trapz" e = Ret v /\ lo <= v <= hi.
Proof.
  intros Ha Hp H1 Hb. unfold marginal. cbn -[trapezoid]. eexists. split; [reflexivity|].
  assert (L : forall k, trapezoid (fun c => k * prob c) cmes = k) by (intros k; rewrite trap_scale, H1; ring).
  split.
  - assert (P : 0 <= trapezoid (fun c => prob c * dnde e c + - lo * prob c) cmes).
    { apply trap_nonneg; [exact Ha|]. intros c Hc. specialize (Hp c Hc). specialize (Hb c Hc). nra. }
    rewrite trap_plus, L in P. lra.
  - assert (P : 0 <= trapezoid (fun c => hi * prob c + -1 * (prob c * dnde e c)) cmes).
    { apply trap_nonneg; [exact Ha|]. intros c Hc. specialize (Hp c Hc). specialize (Hb c Hc). nra. }
    rewrite trap_plus, L, trap_scale in P. lra.
Qed.
Print Assumptions marginal_average.
Example ex_marginal : trapezoid (fun _ => 1 / 2) [1; 2; 3] = 1 /\ ascending [1; 2; 3].
Proof. split; cbn; repeat split; lra. Qed.

(** C113 is false for the method named in the documentation. *)
Theorem marginal_method_refuted simpson dnde prob cmes e :
  marginal simpson dnde prob cmes "trapezoid" e = Raise AssertionError.
Proof. reflexivity. Qed.
Print Assumptions marginal_method_refuted.

(** * C114: target tables *)
Definition deg (x : R) : R := x * PI / 180.

(** C114.  [solid_angle_cone] is the part of the sphere within the angle of its axis. *)
Theorem cone_is_area radius :
  area (fun theta => 2 * PI * sin theta) 0 (deg radius) (solid_angle_cone radius).
Proof.
  assert (V : (fun x => - (2 * PI) * cos x) (deg radius) - (fun x => - (2 * PI) * cos x) 0 = solid_angle_cone radius).
  { cbn beta. unfold solid_angle_cone, deg. rewrite cos_0. replace (radius * PI / 180) with (2 * (radius * PI / 180 / 2)) at 1 by lra.
    rewrite cos_2a_sin. ring. }
  rewrite <- V. apply (area_of_antiderivative (fun x => - (2 * PI) * cos x)). intros x _.
  pose proof (derivable_pt_lim_scal _ (- (2 * PI)) _ _ (derivable_pt_lim_cos x)) as D.
  replace (2 * PI * sin x) with (- (2 * PI) * - sin x) by ring. exact D.
Qed.
Print Assumptions cone_is_area.

(** Solid angle of a box in galactic coordinates around the origin: longitude within l, latitude within b *)
Definition box_solid_angle (l b w : R) : Prop := area (fun x => 2 * deg l * cos x) (- deg b) (deg b) w.

Definition cone_radius (name : string) : option R :=
  if name =? "1 arcmin cone" then Some (1 / 60) else if name =? "2 deg cone" then Some 2
  else if name =? "5 deg cone" then Some 5 else if name =? "10 deg cone" then Some 10 else None.
Definition halo_tables : list (dict target) :=
  map snd gc_targets ++ map snd gc_targets_optimistic ++ [draco_targets; m31_targets; fornax_targets].

Lemma sin_two x : 0 <= x <= 1 -> x - x ^ 3 / 6 <= sin x <= x.
Proof.
  intros [H0 H1]. assert (3 < PI) by (pose proof PI2_3_2; lra).
  split.
  - pose proof (sin_bound x 0 ltac:(lra) ltac:(lra)) as [B _].
    replace (x - x ^ 3 / 6) with (sin_approx x (2 * 0 + 1)); [exact B|].
    unfold sin_approx, sum_f_R0, sin_term. cbn [Nat.mul Nat.add fact INR pow]. cbn. field.
  - destruct (Req_dec x 0) as [->|N]; [rewrite sin_0; lra|]. apply Rlt_le, sin_lt_x. lra.
Qed.

Lemma cone_bounds radius : 0 <= radius <= 20 ->
  4 * PI * ((radius * PI / 360) * (1 - (radius * PI / 360) ^ 2 / 6)) ^ 2 <= solid_angle_cone radius <= 4 * PI * (radius * PI / 360) ^ 2.
Proof.
  intros H. pose proof PI_digits as P. unfold solid_angle_cone. set (x := radius * PI / 180 / 2).
  replace (radius * PI / 360) with x by (unfold x; lra).
  assert (X : 0 <= x <= 1).
  { unfold x. split; [|nra]. assert (0 <= radius * PI) by (apply Rmult_le_pos; lra). lra. }
  destruct (sin_two x X) as [A B]. assert (0 <= x - x ^ 3 / 6) by nra.
  replace (x * (1 - x ^ 2 / 6)) with (x - x ^ 3 / 6) by lra.
  split; (apply Rmult_le_compat_l; [lra|]); apply pow_incr; lra.
Qed.

(** C114.  Each solid angle of a cone in the tables is that of the cone of its name to half a percent. *)
Theorem table_solid_angles tbl name t r w :
  In tbl halo_tables -> In (name, t) tbl -> cone_radius name = Some r -> t_dOmega t = Some w ->
  Rabs (w - solid_angle_cone r) <= w / 200.
Proof.
  intros HT HN HR HW.
  assert (C : (name = "1 arcmin cone" /\ w = 2.66 / 10 ^ 7) \/ (name = "2 deg cone" /\ w = 0.00383)
            \/ (name = "5 deg cone" /\ w = 0.0239) \/ (name = "10 deg cone" /\ w = 0.0955)).
  { each_of HT; cbn in HN; repeat (destruct HN as [HN|HN]); try contradiction; injection HN as <- <-; cbn in HR; try discriminate HR;
      cbn in HW; injection HW as <-; auto. }
  clear HT HN HW.
  assert (P : 3.14159 <= PI <= 3.1416) by (pose proof PI_digits; lra).
  assert (B : forall q, 0 <= q -> 0.008726638 * q <= q * PI / 360 <= 0.0087266667 * q) by (intros q Hq; split; nra).
  destruct C as [[-> ->]|[[-> ->]|[[-> ->]|[-> ->]]]]; injection HR as <-;
    (match goal with |- context [solid_angle_cone ?q] => pose proof (cone_bounds q ltac:(lra)) as [L U]; pose proof (B q ltac:(lra)) as [BL BU]; set (x := q * PI / 360) in *; clearbody x end);
    (match type of BL with ?a <= _ => assert (S1 : a ^ 2 <= x ^ 2) by (apply pow_incr; lra) end);
    (match type of BU with _ <= ?a => assert (S2 : x ^ 2 <= a ^ 2) by (apply pow_incr; lra) end);
    (assert (Q : 0.9974 * x ^ 2 <= (x * (1 - x ^ 2 / 6)) ^ 2)
       by (replace ((x * (1 - x ^ 2 / 6)) ^ 2) with ((1 - x ^ 2 / 6) ^ 2 * x ^ 2) by ring; apply Rmult_le_compat_r; [apply pow2_ge_0|];
           assert (x ^ 2 <= 0.0077) by lra; assert (0 <= x ^ 2) by apply pow2_ge_0; nra));
    (assert (LL : 4 * 3.14159 * (0.9974 * x ^ 2) <= 4 * PI * (x * (1 - x ^ 2 / 6)) ^ 2)
       by (apply Rmult_le_compat; [lra| |lra|exact Q]; assert (0 <= x ^ 2) by apply pow2_ge_0; lra));
    (assert (UU : 4 * PI * x ^ 2 <= 4 * 3.1416 * x ^ 2) by (apply Rmult_le_compat_r; [apply pow2_ge_0|lra]));
    apply Rabs_le; split; lra.
Qed.
Print Assumptions table_solid_angles.
Example ex_table : exists t w, In ("5 deg cone", t) m31_targets /\ t_dOmega t = Some w.
Proof. do 2 eexists. split; [right; left; reflexivity|reflexivity]. Qed.

(** C114.  The solid angle of the box is that of 10 by 10 degrees to a fifth of a percent. *)
Theorem table_box tbl t w :
  In tbl halo_tables -> In ("10x10 deg box", t) tbl -> t_dOmega t = Some w ->
  exists w0, box_solid_angle 5 5 w0 /\ Rabs (w - w0) <= w / 500.
Proof.
  intros HT HN HW. exists (4 * deg 5 * sin (deg 5)). split.
  - unfold box_solid_angle.
    replace (4 * deg 5 * sin (deg 5)) with ((fun x => 2 * deg 5 * sin x) (deg 5) - (fun x => 2 * deg 5 * sin x) (- deg 5))
      by (cbn beta; rewrite sin_neg; ring).
    apply (area_of_antiderivative (fun x => 2 * deg 5 * sin x)). intros x _.
    exact (derivable_pt_lim_scal _ (2 * deg 5) _ _ (derivable_pt_lim_sin x)).
  - assert (w = 0.03042).
    { each_of HT; cbn in HN; repeat (destruct HN as [HN|HN]); try contradiction; try discriminate HN; injection HN as <-;
        cbn in HW; injection HW as <-; reflexivity. }
    subst w. clear HT HN HW.
    assert (X : 0.087266 <= deg 5 <= 0.087267) by (unfold deg; pose proof PI_digits; lra).
    destruct (sin_two (deg 5) ltac:(lra)) as [A B]. set (x := deg 5) in *. set (y := sin x) in *. clearbody y. clearbody x.
    assert (x ^ 3 <= 0.087267 ^ 3) by (apply pow_incr; lra).
    assert (0.087154 <= y <= 0.087267) by lra. apply Rabs_le. split; nra.
Qed.
Print Assumptions table_box.

(** Regions around the same direction: the cone of 10 degrees contains the box, which contains the cone of 5
    degrees (its inscribed circle), which contains the cone of one minute of arc. *)
Definition within_cone (tx ty r : R) : Prop := tx ^ 2 + ty ^ 2 <= r ^ 2.
Definition region_of (name : string) (x y : R) : Prop :=
  if name =? "10x10 deg box" then Rabs x <= 5 /\ Rabs y <= 5
  else match cone_radius name with Some r => within_cone x y r | None => False end.
(** What a region receives grows with the region, for densities that are never negative. *)
Definition consistent (tbl : dict target) (names : list string) : Prop :=
  forall a b ta tb Ja Da wa Jb Db wb,
    In a names -> In b names -> (forall x y, region_of a x y -> region_of b x y) ->
    dget tbl a = Some ta -> dget tbl b = Some tb ->
    t_J ta = Some Ja -> t_D ta = Some Da -> t_dOmega ta = Some wa ->
    t_J tb = Some Jb -> t_D tb = Some Db -> t_dOmega tb = Some wb ->
    Ja * wa <= Jb * wb /\ Da * wa <= Db * wb.
Definition cones : list string := ["1 arcmin cone"; "2 deg cone"; "5 deg cone"; "10 deg cone"].

(** C114.  Regions inside one another are consistent: all tables for the cones, the optimistic tables also for
    the box.  Partial: the nominal tables with the box are not, see below. *)
Theorem tables_consistent_partial :
  (forall tbl, In tbl halo_tables -> consistent tbl cones)
  /\ (forall tbl, In tbl (map snd gc_targets_optimistic) -> consistent tbl ("10x10 deg box" :: cones)).
Proof.
  assert (K : forall (r s : R), 0 < r -> 0 < s -> (forall x y, within_cone x y r -> within_cone x y s) -> r <= s).
  { intros r s Hr Hs H. specialize (H r 0). unfold within_cone in H. nra. }
  assert (KB : forall r, 0 < r -> (forall x y, Rabs x <= 5 /\ Rabs y <= 5 -> within_cone x y r) -> 7 <= r).
  { intros r Hr H. specialize (H 5 5). rewrite !Rabs_right in H by lra. unfold within_cone in H. nra. }
  assert (KC : forall r, 0 < r -> (forall x y, within_cone x y r -> Rabs x <= 5 /\ Rabs y <= 5) -> r <= 5).
  { intros r Hr H. specialize (H r 0). rewrite (Rabs_right r) in H by lra. unfold within_cone in H. destruct H; [nra|lra]. }
  split; intros tbl HT a b ta tb Ja Da wa Jb Db wb HA HB HI; each_of HT; each_of HA; each_of HB; cbn;
    intros A1 A2 A3 A4 A5 A6 A7 A8; try discriminate A1; try discriminate A2;
    injection A1 as <-; injection A2 as <-; cbn in A3, A4, A5, A6, A7, A8;
    injection A3 as <-; injection A4 as <-; injection A5 as <-; injection A6 as <-; injection A7 as <-; injection A8 as <-;
    try (split; lra); exfalso; unfold region_of in HI; cbn in HI;
    first [ apply K in HI; lra | apply KB in HI; lra | apply KC in HI; lra ].
Qed.
Print Assumptions tables_consistent_partial.

(** C114 is false for the box of the nominal tables, which has the optimistic values: less reaches the
    observer from the cone of 10 degrees than from the box inside it. *)
Theorem nominal_box_refuted profile : profile = "nfw" \/ profile = "ein" ->
  exists tbl box cone Jb wb Jc wc,
    dget gc_targets profile = Some tbl /\ dget tbl "10x10 deg box" = Some box /\ dget tbl "10 deg cone" = Some cone
    /\ (forall x y, region_of "10x10 deg box" x y -> region_of "10 deg cone" x y)
    /\ t_J box = Some Jb /\ t_dOmega box = Some wb /\ t_J cone = Some Jc /\ t_dOmega cone = Some wc
    /\ Jc * wc < Jb * wb
    /\ exists opt, dget gc_targets_optimistic profile = Some opt /\ dget opt "10x10 deg box" = Some box.
Proof.
  assert (I : forall x y, region_of "10x10 deg box" x y -> region_of "10 deg cone" x y).
  { intros x y. unfold region_of, within_cone. cbn. intros [A B].
    assert (x ^ 2 <= 25) by (rewrite <- (pow2_abs x); pose proof (Rabs_pos x); nra).
    assert (y ^ 2 <= 25) by (rewrite <- (pow2_abs y); pose proof (Rabs_pos y); nra). lra. }
  intros [-> | ->]; do 7 eexists; (split; [reflexivity|]); (split; [reflexivity|]); (split; [reflexivity|]); (split; [exact I|]);
    (split; [reflexivity|]); (split; [reflexivity|]); (split; [reflexivity|]); (split; [reflexivity|]); (split; [lra|]);
    eexists; split; reflexivity.
Qed.
Print Assumptions nominal_box_refuted.

(** C114.  The targets kept for backwards compatibility are those of the "nfw" tables, partial: for COMPTEL and
    INTEGRAL. *)
Theorem old_targets_partial k t : k = "comptel" \/ k = "integral" ->
  dget old_targets (k ++ "_diffuse_target") = Some t ->
  exists tbl, dget diffuse_targets k = Some tbl /\ dget tbl "nfw" = Some t.
Proof. intros [-> | ->] H; cbn in H; injection H as <-; eexists; split; reflexivity. Qed.
Print Assumptions old_targets_partial.

(** C114 is false for EGRET and Fermi, whose old values, used by the measurements, are twice the new ones to
    a tenth of a percent, and for the optimistic target of COMPTEL, which is the nominal "ein" entry. *)
Theorem old_targets_refuted :
  (forall k, k = "egret" \/ k = "fermi" -> exists t tbl n J D J' D',
     dget old_targets (k ++ "_diffuse_target") = Some t /\ dget diffuse_targets k = Some tbl /\ dget tbl "nfw" = Some n
     /\ t_J t = Some J /\ t_D t = Some D /\ t_J n = Some J' /\ t_D n = Some D' /\ t_dOmega t = t_dOmega n
     /\ Rabs (J - 2 * J') <= J / 1000 /\ Rabs (D - 2 * D') <= D / 1000)
  /\ exists t tbl opt n,
     dget old_targets "comptel_diffuse_target_optimistic" = Some t /\ dget diffuse_targets "comptel" = Some tbl
     /\ dget tbl "ein" = Some t /\ dget diffuse_targets_optimistic "comptel" = Some opt /\ dget opt "nfw" = Some n
     /\ t_J t <> t_J n.
Proof.
  split.
  - intros k [-> | ->]; do 7 eexists; repeat (split; [reflexivity|]); split; apply Rabs_le; split; lra.
  - do 4 eexists. repeat (split; [reflexivity|]). cbn. intros X. injection X as X. lra.
Qed.
Print Assumptions old_targets_refuted.

(** C114.  Optimistic annihilation factors of the galactic centre exceed the nominal ones in every region but
    the box, where the two tables agree. *)
Theorem optimistic_exceeds profile tbl opt name t o J J' :
  dget gc_targets profile = Some tbl -> dget gc_targets_optimistic profile = Some opt ->
  dget tbl name = Some t -> dget opt name = Some o -> t_J t = Some J -> t_J o = Some J' ->
  In profile ["nfw"; "ein"] -> In name ("10x10 deg box" :: cones) ->
  (name <> "10x10 deg box" -> 1.8 * J < J') /\ (name = "10x10 deg box" -> J = J').
Proof.
  intros H1 H2 H3 H4 H5 H6 HP HN. each_of HP; cbn in H1, H2; injection H1 as <-; injection H2 as <-;
    each_of HN; cbn in H3, H4; try discriminate H3; injection H3 as <-; injection H4 as <-; cbn in H5, H6; injection H5 as <-; injection H6 as <-;
    (split; intros Q; try congruence; try discriminate Q; lra).
Qed.
Print Assumptions optimistic_exceeds.
