(** Property theorems for limit setting (C08, C09, C10, C13, C60, C61, C62, C65, C66). *)
From Coq Require Import String Bool Reals Lra Lia List.
From Verif Require Import PyBase PyBaseFacts LimitsModel TheoryProofs LimitsProofs.
Import ListNotations.
Local Open Scope string_scope.
Local Open Scope list_scope.
Local Open Scope R_scope.

(** C08 for the strings the code recognises: conversion there and back is the identity and keeps
positive values positive.  Missing: the documented spelling "cm^3/s", see the refutation. *)

Theorem sigmav_round_trip_partial (sv : R) :
  exists y z, convert_sigmav sv "cm^3 / s" = Some y /\ convert_sigmav y "MeV^-2" = Some sv
    /\ convert_sigmav sv "MeV^-2" = Some z /\ convert_sigmav z "cm^3 / s" = Some sv
    /\ (0 < sv -> 0 < y /\ 0 < z).
Proof. exact (convert_there_and_back sv). Qed.
Print Assumptions sigmav_round_trip_partial.

(** C08.  The factor is hbar^2 c^3 in MeV^2 cm^3 / s. *)

Theorem sigmav_factor :
  1.16 / 10 ^ 11 < hbar2_c3 < 1.18 / 10 ^ 11.
Proof. exact hbar2_c3_value. Qed.
Print Assumptions sigmav_factor.

(** C08 as documented is false: the documented target string yields None. *)
Theorem sigmav_documented_units_refuted :
  exists sv, 0 < sv /\ convert_sigmav sv "cm^3/s" = None.
Proof. exact (ex_intro _ 1 (conj Rlt_0_1 (convert_documented_none 1))). Qed.
Print Assumptions sigmav_documented_units_refuted.

(** C09.  The limit saturates f_eff <sv> / m = p_ann. *)

Theorem cmb_limit_saturates_bound env th x_kd p_ann :
  c_mx th <> 0 -> f_eff env th x_kd <> 0 ->
  f_eff env th x_kd * cmb_limit env th x_kd p_ann / c_mx th = p_ann.
Proof. exact (cmb_limit_saturates env th x_kd p_ann). Qed.
Print Assumptions cmb_limit_saturates_bound.

(** C09.  f_eff is the sum of both continua and of one deposit per line, lines below the efficiency
table counting zero, pairs counting two particles. *)

Theorem cmb_efficiency_is_sum env th x_kd :
  f_eff env th x_kd =
    continuum_g env th x_kd + continuum_ep env th x_kd
    + Rsum (map (line_deposit "g g" (e_cmb env th x_kd) (e_min_g env) (f_g env))
                (c_lines th (e_cmb env th x_kd)))
    + Rsum (map (line_deposit "e e" (e_cmb env th x_kd) (e_min_ep env) (f_ep env))
                (c_pos_lines th (e_cmb env th x_kd))).
Proof. exact (f_eff_sum env th x_kd). Qed.
Print Assumptions cmb_efficiency_is_sum.

(** C09.  Larger efficiencies never weaken the limit. *)

Theorem cmb_limit_decreases_with_efficiency env th x_kd p_ann fg fe :
  quad_monotone (quad env) -> physical_theory th (e_cmb env th x_kd) ->
  0 <= c_mx th -> 0 <= p_ann -> 0 < f_eff env th x_kd ->
  (forall e, f_g env e <= fg e) -> (forall e, f_ep env e <= fe e) ->
  cmb_limit (with_eff env fg fe) th x_kd p_ann <= cmb_limit env th x_kd p_ann.
Proof. exact (cmb_limit_antitone env th x_kd p_ann fg fe). Qed.
Print Assumptions cmb_limit_decreases_with_efficiency.

(** C09.  A theory annihilating only to two photons has the efficiency of the photon energy: all
its energy is counted once. *)

Theorem cmb_photon_pair_efficiency env th x_kd :
  (forall a b, quad env (fun _ => 0) a b = 0) ->
  (forall f g a b, (forall x, f x = g x) -> quad env f a b = quad env g a b) ->
  (forall e Q, c_spec th e Q = 0) -> (forall e Q, c_pos_spec th e Q = 0) ->
  (forall Q, c_lines th Q = [("g g", (Q / 2, 1))]) -> (forall Q, c_pos_lines th Q = []) ->
  e_cmb env th x_kd <> 0 -> e_min_g env < e_cmb env th x_kd / 2 ->
  f_eff env th x_kd = f_g env (e_cmb env th x_kd / 2).
Proof. exact (f_eff_photon_pair env th x_kd). Qed.
Print Assumptions cmb_photon_pair_efficiency.

(** A theory of mass 100 with a two-photon line of half the annihilations and a flat spectrum. *)
Definition ex_env : cmb_env :=
  {| f_g := fun _ => 1/2; e_min_g := 1; f_ep := fun _ => 1/4; e_min_ep := 1;
     vx_cmb := fun _ _ => 0; quad := fun f a b => (f a + f b) / 2 |}.
Definition ex_th : cmb_theory :=
  {| c_mx := 100; c_lines := fun Q => [("g g", (Q / 2, 1/2))]; c_pos_lines := fun _ => [];
     c_spec := fun e _ => if Rlt_dec 0 e then 1 / e else 0;
     c_pos_spec := fun _ _ => 0 |}.

Example ex_cmb_physical :
  quad_monotone (quad ex_env) /\ physical_theory ex_th (e_cmb ex_env ex_th 0)
  /\ 0 < f_eff ex_env ex_th 0 /\ c_mx ex_th <> 0.
Proof.
  assert (EQ : e_cmb ex_env ex_th 0 = 200) by (unfold e_cmb; simpl; lra).
  assert (Ein : forall e, 0 <= e * (if Rlt_dec 0 e then 1 / e else 0)).
  { intro e. destruct (Rlt_dec 0 e); [|lra].
    replace (e * (1 / e)) with 1 by (field; lra). lra. }
  rewrite f_eff_sum. unfold continuum_g, continuum_ep, physical_theory. rewrite EQ.
  repeat split; try (simpl; lra).
  - intros f g a b H. simpl. specialize (H a) as Ha. specialize (H b). lra.
  - exact Ein.
  - simpl; intro; lra.
  - simpl in H. destruct H as [<-|[]]; simpl; lra.
  - simpl in H. destruct H as [<-|[]]; simpl; lra.
  - simpl in H; contradiction.
  - simpl in H; contradiction.
  - cbn -[Rlt_dec]. unfold line_deposit; cbn -[Rlt_dec].
    destruct (Rlt_dec 0 1), (Rlt_dec 0 (200 / 2)), (Rlt_dec 1 (200 / 2)); try lra.
Qed.

(** C10 is false for every model: constraining raises AttributeError. *)

Theorem cmb_constrainer_always_raises env x_kd p_ann model :
  cmb_limit_constrain env x_kd p_ann model = Raise (AttributeError "mx").
Proof. exact (cmb_constrainer_raises env x_kd p_ann model). Qed.
Print Assumptions cmb_constrainer_always_raises.

(** C10 as stated is false. *)
Theorem cmb_constrainer_refuted :
  exists env x_kd p_ann th, f_eff env th x_kd <> 0 /\
    cmb_limit_constrain env x_kd p_ann (PModel th) <> Ret (cmb_limit env th x_kd p_ann).
Proof.
  exact (ex_intro _ ex_env (ex_intro _ 0 (ex_intro _ 1 (ex_intro _ ex_th
    (conj (Rgt_not_eq _ _ (proj1 (proj2 (proj2 ex_cmb_physical))))
          (fun H : Raise (AttributeError "mx") = Ret _ => eq_ind (Raise (AttributeError "mx"))
             (fun r => match r with Raise _ => True | Ret _ => False end) I _ H)))))).
Qed.
Print Assumptions cmb_constrainer_refuted.

(** C10.  Called with a model, the constrainer's f_eff is the theory's f_eff with the dark matter
velocity replaced by its square. *)

Theorem cmb_constrainer_efficiency env x_kd th :
  limit_f_eff env x_kd (PModel th) = Ret (f_eff (slowed env) th x_kd).
Proof. exact (limit_f_eff_slowed env x_kd th). Qed.
Print Assumptions cmb_constrainer_efficiency.

(** C62.  One value per model, in order, equal to constraining that model alone. *)

Theorem constrainers_are_elementwise (Model : Type) (c : Model -> res R) ms vs :
  abstract_constrain Model c ms = Ret vs ->
  length vs = length ms /\
  forall i m, nth_error ms i = Some m ->
    exists v, nth_error vs i = Some v /\ c m = Ret v /\ abstract_constrain Model c [m] = Ret [v].
Proof. exact (abstract_constrain_elementwise Model c ms vs). Qed.
Print Assumptions constrainers_are_elementwise.

(** C62.  If every model can be constrained then so can the sequence. *)

Theorem constrainers_are_total (Model : Type) (c : Model -> res R) ms :
  (forall m, In m ms -> exists v, c m = Ret v) -> exists vs, abstract_constrain Model c ms = Ret vs.
Proof. exact (abstract_constrain_total Model c ms). Qed.
Print Assumptions constrainers_are_total.

Example ex_constrainer :
  abstract_constrain nat (fun n => if Nat.eqb n 5 then Raise ValueError else Ret (INR n)) [3%nat; 1%nat]
  = Ret [INR 3; INR 1].
Proof. reflexivity. Qed.

(** C13 is false: two composites built without arguments share their list. *)

Theorem composite_shares_state_refuted :
  exists ops k c j, j <> k
    /\ contents (crun ops) j <> contents (crun (ops ++ [Add k c])) j.
Proof. exact composite_add_shared. Qed.
Print Assumptions composite_shares_state_refuted.

(** C13 when every composite is given its own list: the objects behave as independent lists.
Missing: composites created with the default argument, for which it is false. *)

Theorem composite_explicit_lists_partial ops k :
  forallb (fun o => negb (uses_default o)) ops = true ->
  contents (crun ops) k = nth_error (spec_run ops) k.
Proof. exact (composite_explicit_independent ops k). Qed.
Print Assumptions composite_explicit_lists_partial.

Example ex_composite :
  contents (crun [NewWith ["a"]; NewWith []; Add 0 "b"; Add 1 "c"; Reset 0; Add 0 "d"]) 0 = Some ["d"]
  /\ contents (crun [NewWith ["a"]; NewWith []; Add 0 "b"; Add 1 "c"; Reset 0; Add 0 "d"]) 1 = Some ["c"].
Proof. split; reflexivity. Qed.

(** C60.  A finite limit is attained in some bin, and the rates up to it are exactly those compatible
with every bin that receives signal. *)

Theorem one_bin_limit_is_tight dw n_sigma bins L :
  constrain_one_bin dw n_sigma bins = Ret (Fin L) ->
  (exists b, In b bins /\ 0 < b_phi b
      /\ L * b_phi b = dw * (b_high b - b_low b) * (b_flux b + n_sigma * b_err b))
  /\ forall s, s <= L <-> (forall b, In b bins -> 0 < b_phi b -> compatible dw n_sigma s b).
Proof. exact (one_bin_finite dw n_sigma bins L). Qed.
Print Assumptions one_bin_limit_is_tight.

(** C60.  The limit is infinite exactly when no bin receives signal. *)

Theorem one_bin_limit_infinite dw n_sigma bins :
  bins <> [] ->
  (constrain_one_bin dw n_sigma bins = Ret Inf <-> forall b, In b bins -> b_phi b <= 0).
Proof. exact (one_bin_infinite dw n_sigma bins). Qed.
Print Assumptions one_bin_limit_infinite.

(** C60.  More signal never weakens the limit (bins with non-negative allowance). *)

Theorem one_bin_limit_decreases dw n_sigma (bins : list bin) (boost : bin -> R) m1 m2 :
  (forall b, In b bins -> 0 <= phi_max dw n_sigma b) ->
  (forall b, In b bins -> b_phi b <= boost b) ->
  constrain_one_bin dw n_sigma bins = Ret m1 ->
  constrain_one_bin dw n_sigma (map (fun b => with_phi b (boost b)) bins) = Ret m2 ->
  ext_le m2 m1.
Proof. exact (one_bin_antitone dw n_sigma bins boost m1 m2). Qed.
Print Assumptions one_bin_limit_decreases.

(** C60.  The constraint image is non-negative exactly at points compatible with every bin. *)

Theorem one_bin_image_sign dw n_sigma bins m :
  binned_gamma_helper dw n_sigma bins = Ret m ->
  (ext_le (Fin 0) m <-> forall b, In b bins -> 0 < b_phi b -> compatible dw n_sigma 1 b).
Proof. exact (helper_nonneg dw n_sigma bins m). Qed.
Print Assumptions one_bin_image_sign.

Definition ex_bins : list bin :=
  [ {| b_low := 1; b_high := 2; b_flux := 3; b_err := 1; b_phi := 2 |};
    {| b_low := 2; b_high := 4; b_flux := 1; b_err := 1; b_phi := 0 |} ].
Example ex_one_bin : exists L, constrain_one_bin 1 2 ex_bins = Ret (Fin L) /\ L = 5 / 2.
Proof.
  unfold constrain_one_bin, sv_lim, phi_max; simpl.
  destruct (Rlt_dec 0 2), (Rlt_dec 0 0); try lra. simpl. eexists; split; [reflexivity|lra].
Qed.
Example ex_one_bin_boost :
  (forall b, In b ex_bins -> 0 <= phi_max 1 2 b) /\ (forall b, In b ex_bins -> b_phi b <= b_phi b + 1).
Proof. split; intros b [<-|[<-|[]]]; unfold phi_max; simpl; lra. Qed.

(** C65 is false: at the returned rate the chi-squared exceeds the critical value. *)

Theorem chi_squared_limit_refuted :
  exists dw crit bins L, (forall b, In b bins -> 0 < b_phi b /\ 0 < b_err b /\ 0 <= b_flux b)
    /\ constrain_chi_squared dw crit bins = Fin L
    /\ 0 < crit < chi2_obs dw (map (scale_bin L) bins).
Proof. exact chi2_limit_refutation. Qed.
Print Assumptions chi_squared_limit_refuted.

(** C65 is false also in that an infinite limit is returned although some rate is excluded. *)

Theorem chi_squared_limit_infinite_refuted :
  exists dw crit bins s, (forall b, In b bins -> 0 < b_phi b /\ 0 < b_err b /\ 0 <= b_flux b)
    /\ constrain_chi_squared dw crit bins = Inf
    /\ 0 < crit < chi2_obs dw (map (scale_bin s) bins).
Proof. exact chi2_limit_infinite_refutation. Qed.
Print Assumptions chi_squared_limit_infinite_refuted.

(** C65 when no flux was observed: the returned rate has exactly the critical chi-squared.
Missing: measurements with non-zero flux, for which it is false. *)

Theorem chi_squared_limit_zero_flux_partial dw crit bins L :
  0 <= crit -> (forall b, In b bins -> b_flux b = 0) ->
  0 < chi2_obs dw bins ->
  constrain_chi_squared dw crit bins = Fin L ->
  chi2_obs dw (map (scale_bin L) bins) = crit.
Proof. exact (chi2_limit_zero_flux dw crit bins L). Qed.
Print Assumptions chi_squared_limit_zero_flux_partial.

Definition ex_bin0 : bin := {| b_low := 0; b_high := 1; b_flux := 0; b_err := 1; b_phi := 2 |}.
Example ex_chi2_zero_flux :
  (forall b, In b [ex_bin0] -> b_flux b = 0) /\ 0 < chi2_obs 1 [ex_bin0]
  /\ exists L, constrain_chi_squared 1 4 [ex_bin0] = Fin L.
Proof.
  assert (E : chi2_obs 1 [ex_bin0] = 4).
  { unfold chi2_obs; simpl. replace (2 - 1 * (1 - 0) * 0) with 2 by ring.
    unfold Rmax. destruct (Rle_dec 2 0); [lra|field]. }
  split; [|split].
  - intros b [<-|[]]; reflexivity.
  - rewrite E; lra.
  - unfold constrain_chi_squared. rewrite E. destruct (Req_EM_T 4 0); [lra|eauto].
Qed.

(** C66.  The unbinned limit is the strongest single-window limit over all ordered pairs of grid
energies. *)

Theorem unbinned_limit_is_best_window prefactor n_sigma I_S I_B grid L :
  0 <= prefactor -> 0 <= n_sigma ->
  (forall i j a b, (i < j)%nat -> nth_error grid i = Some a -> nth_error grid j = Some b ->
     0 < I_S a b /\ 0 < I_B a b) ->
  unbinned_bound prefactor n_sigma I_S I_B grid = Ret L ->
  (exists i j a b, (i < j)%nat /\ nth_error grid i = Some a /\ nth_error grid j = Some b
      /\ L = window_bound prefactor n_sigma I_S I_B a b)
  /\ forall i j a b, (i < j)%nat -> nth_error grid i = Some a -> nth_error grid j = Some b ->
      L <= window_bound prefactor n_sigma I_S I_B a b.
Proof. exact (unbinned_best prefactor n_sigma I_S I_B grid L). Qed.
Print Assumptions unbinned_limit_is_best_window.

(** C66.  Two grid energies are enough. *)

Theorem unbinned_limit_exists prefactor n_sigma I_S I_B grid :
  (2 <= length grid)%nat -> exists L, unbinned_bound prefactor n_sigma I_S I_B grid = Ret L.
Proof. exact (unbinned_total prefactor n_sigma I_S I_B grid). Qed.
Print Assumptions unbinned_limit_exists.

(** C66.  Fewer than two grid energies raise ValueError. *)

Theorem unbinned_limit_short_grid prefactor n_sigma I_S I_B grid :
  (length grid <= 1)%nat -> unbinned_bound prefactor n_sigma I_S I_B grid = Raise ValueError.
Proof. exact (unbinned_short prefactor n_sigma I_S I_B grid). Qed.
Print Assumptions unbinned_limit_short_grid.

Example ex_unbinned : forall i j a b, (i < j)%nat ->
  nth_error [1; 2; 4] i = Some a -> nth_error [1; 2; 4] j = Some b -> 0 < b - a /\ 0 < (b - a) * 2.
Proof.
  intros i j a b Hij Ha Hb.
  destruct i as [|[|[|i]]], j as [|[|[|j]]]; simpl in *; try lia;
    inversion Ha; inversion Hb; subst; try lra; destruct j; discriminate || (destruct i; discriminate).
Qed.

(** C61 is false: the caller's flux array is overwritten, and building the measurement again from
the same arrays gives different error bars. *)

Theorem flux_measurement_mutates_refuted :
  exists h lows highs flux upper lower power,
    let '(h', m) := fm_init h lows highs flux upper lower power in
    deref h' flux <> deref h flux
    /\ deref (fst (fm_init h' lows highs flux upper lower power)) (m_upper (snd (fm_init h' lows highs flux upper lower power)))
       <> deref h' (m_upper m).
Proof. exact fm_mutates. Qed.
Print Assumptions flux_measurement_mutates_refuted.

(** C61, what holds: built from distinct arrays, a measurement holds the converted flux and error
bars (at the values the arrays had on entry). *)

Theorem flux_measurement_values_partial h lows highs flux upper lower power h' m i el eh f u l :
  fm_init h lows highs flux upper lower power = (h', m) ->
  (flux < length h)%nat -> (upper < length h)%nat -> (lower < length h)%nat ->
  flux <> upper -> flux <> lower ->
  nth_error (deref h lows) i = Some el -> nth_error (deref h highs) i = Some eh ->
  nth_error (deref h flux) i = Some f -> nth_error (deref h upper) i = Some u ->
  nth_error (deref h lower) i = Some l ->
  let w := ((el + eh) / 2) ^ power in
  nth_error (deref h' (m_flux m)) i = Some (f / w)
  /\ nth_error (deref h' (m_upper m)) i = Some (u / w - f / w)
  /\ nth_error (deref h' (m_lower m)) i = Some (f / w - l / w).
Proof. exact (fm_values h lows highs flux upper lower power h' m i el eh f u l). Qed.
Print Assumptions flux_measurement_values_partial.

(** C61, what holds: no array other than the flux array is written to. *)

Theorem flux_measurement_frame_partial h lows highs flux upper lower power h' m r :
  fm_init h lows highs flux upper lower power = (h', m) ->
  (r < length h)%nat -> r <> flux -> deref h' r = deref h r.
Proof. exact (fm_frame h lows highs flux upper lower power h' m r). Qed.
Print Assumptions flux_measurement_frame_partial.

Example ex_fm :
  exists h' m, fm_init [[1]; [3]; [8]; [12]; [4]] 0 1 2 3 4 2 = (h', m)
    /\ nth_error (deref [[1]; [3]; [8]; [12]; [4]] 2) 0 = Some 8.
Proof. do 2 eexists. split; reflexivity. Qed.
