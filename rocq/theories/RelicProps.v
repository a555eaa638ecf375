(** Theorems about RelicModel. *)
From Coq Require Import List Arith Bool ZArith Reals Lra Lia.
From Verif Require Import RustBase RustMath Area Primitive SpecProofs PionProofs RelicModel RelicProofs.
Import ListNotations.
Local Open Scope R_scope.

(** * C49: the Boltzmann equation *)
Theorem boltzmann_jacobian : forall K1 K2 heff sqrt_gstar quad (model : theory) (logx w : R),
  derivable_pt_lim (boltzmann_eqn K1 K2 heff sqrt_gstar quad model logx) w
    (jacobian_boltzmann_eqn K1 K2 heff sqrt_gstar quad model logx w).
Proof.
  intros. unfold jacobian_boltzmann_eqn. set (k := _ * thermal_cross_section _ _ _ _ _).
  apply (derivable_pt_lim_ext (fun w => k * (exp w - exp_eq (weq K2 heff (mx model / exp logx) (mx model) 2 true) w)));
    [reflexivity|].
  eapply dl_val; [eapply dl_mult; [apply dl_const|apply (dl_minus exp _ _ (exp w) (- exp_eq (weq K2 heff (mx model / exp logx) (mx model) 2 true) w));
    [apply derivable_pt_lim_exp|]]|].
  - destruct (weq _ _ _ _ _ _) as [v|]; cbn [exp_eq].
    + eapply dl_val; [apply dl_exp; dl|]. ring.
    + eapply dl_val; [apply (dl_const 0)|]. ring.
  - cbv beta. ring.
Qed.
Print Assumptions boltzmann_jacobian.
Example boltzmann_jacobian_ex : let m := Theory 1 (fun _ => 1) (Some (fun _ => 1)) in
  jacobian_boltzmann_eqn toyK1 toyK2 (fun _ => 10) (fun _ => 3) (fun _ _ _ => 0) m 0 0 < 0.
Proof.
  intro m. unfold jacobian_boltzmann_eqn, m. cbn [mx thermal_cross_section own_thermal]. rewrite exp_0.
  assert (S : 0 < sqrt (PI / 45)) by (apply sqrt_lt_R0; pose proof PI_RGT_0; lra).
  assert (E : 0 <= exp_eq (weq toyK2 (fun _ => 10) (1 / 1) 1 2 true) 0).
  { destruct (weq _ _ _ _ _ _); cbn [exp_eq]; [left; apply exp_pos|lra]. }
  unfold plank_mass. set (e := exp_eq _ _) in *. clearbody e. set (s := sqrt _) in *. clearbody s. nra.
Qed.

(** At the equilibrium abundance nothing changes; above it the abundance falls and below it rises. *)
Theorem boltzmann_restores : forall K1 K2 heff sqrt_gstar quad (model : theory) (logx w v : R),
  let T := mx model / exp logx in
  weq K2 heff T (mx model) 2 true = Some v ->
  0 < mx model -> 0 < sqrt_gstar T -> 0 < thermal_cross_section K1 K2 quad (exp logx) model ->
  let rhs := boltzmann_eqn K1 K2 heff sqrt_gstar quad model logx w in
  (w = v -> rhs = 0) /\ (v < w -> rhs < 0) /\ (w < v -> 0 < rhs).
Proof.
  intros K1 K2 heff sqrt_gstar quad model logx w v T W M G S rhs. unfold rhs, boltzmann_eqn. fold T. rewrite W. cbn [exp_eq].
  assert (Q : 0 < sqrt (PI / 45)) by (apply sqrt_lt_R0; pose proof PI_RGT_0; lra).
  assert (P : 0 < plank_mass) by (unfold plank_mass; lra).
  pose proof (exp_pos logx) as X.
  assert (K : - sqrt (PI / 45) * plank_mass * mx model * sqrt_gstar T / exp logx * thermal_cross_section K1 K2 quad (exp logx) model < 0).
  { assert (0 < sqrt (PI / 45) * plank_mass * mx model * sqrt_gstar T / exp logx * thermal_cross_section K1 K2 quad (exp logx) model); [|lra].
    repeat (apply Rmult_lt_0_compat; [|try assumption]); try assumption. now apply Rinv_0_lt_compat. }
  set (k := _ * thermal_cross_section _ _ _ _ _) in *. clearbody k. repeat split; intro H.
  - subst w. replace (2 * v - v) with v by ring. ring.
  - assert (exp (2 * v - w) < exp w) by (apply exp_increasing; lra). nra.
  - assert (exp w < exp (2 * v - w)) by (apply exp_increasing; lra). nra.
Qed.
Print Assumptions boltzmann_restores.
Lemma neq_one : 0 < neq (fun _ => 1) 1 1 2 true.
Proof.
  unfold neq. destruct (Req_EM_T 1 0); [lra|]. unfold nbar_massive, sum5, eta. cbn [map fold_right pow Nat.add INR].
  pose proof PI_RGT_0.
  match goal with |- 0 < 2 * (?a / ?b) * ?c => replace (2 * (a / b) * c) with (2 * (a * c) * / b) by (unfold Rdiv; ring) end.
  apply Rmult_lt_0_compat; [lra|]. apply Rinv_0_lt_compat. nra.
Qed.
Example boltzmann_restores_ex : exists v,
  weq (fun _ => 1) (fun _ => 10) (1 / exp 0) 1 2 true = Some v.
Proof.
  unfold weq. destruct (Rlt_dec 0 _) as [H|H]; [now eexists|]. exfalso. apply H. rewrite exp_0.
  replace (1 / 1) with 1 by field. exact neq_one.
Qed.

(** The equation is the one of a species that annihilates in the expanding plasma. Let the number density n and
    the temperature T depend on time; let n' = - 3 H n - <sigma v> (n^2 - neq^2), let the comoving entropy be
    conserved, s' = - 3 H s, and let H be the expansion rate of a radiation bath with geff degrees of freedom,
    H^2 = 8 pi / (3 Mpl^2) (pi^2/30) geff T^4. If the table of sqrt(g_star) holds heff / sqrt(geff) (1 + T heff' / (3 heff)),
    then log (n/s) changes with log (m/T) as the function returns. *)
Theorem boltzmann_from_expansion : forall K1 K2 heff dheff sqrt_gstar quad (model : theory) (n T : R -> R) (t geff n' T' : R),
  0 < mx model -> 0 < T t -> 0 < n t -> 0 < geff -> 0 < heff (T t) -> 0 < dheff (T t) * T t + 3 * heff (T t) ->
  let s u := sm_entropy_density heff (T u) in
  let H := sqrt (8 * PI / 3 * (PI ^ 2 / 30 * geff * T t ^ 4)) / plank_mass in
  let n_eq := neq K2 (T t) (mx model) 2 true in
  let sv := thermal_cross_section K1 K2 quad (mx model / T t) model in
  0 <= n_eq ->
  sqrt_gstar (T t) = heff (T t) / sqrt geff * (1 + T t * dheff (T t) / (3 * heff (T t))) ->
  derivable_pt_lim heff (T t) (dheff (T t)) ->
  derivable_pt_lim T t T' -> derivable_pt_lim n t n' ->
  n' = - 3 * H * n t - sv * (n t ^ 2 - n_eq ^ 2) ->
  derivable_pt_lim s t (- 3 * H * s t) ->
  exists W' L', derivable_pt_lim (fun u => ln (n u / s u)) t W' /\ derivable_pt_lim (fun u => ln (mx model / T u)) t L'
  /\ 0 < L' /\ W' = boltzmann_eqn K1 K2 heff sqrt_gstar quad model (ln (mx model / T t)) (ln (n t / s t)) * L'.
Proof.
  intros K1 K2 heff dheff sqrt_gstar quad model n T t geff n' T' M HT Hn Hg Hh Hd s H n_eq sv Neq Gs Dh DT Dn En Ds.
  pose proof PI_RGT_0 as P.
  assert (MP : 0 < plank_mass) by (unfold plank_mass; lra).
  assert (S0 : 0 < s t).
  { unfold s, sm_entropy_density. apply Rmult_lt_0_compat; [apply Rmult_lt_0_compat; [|exact Hh]|apply pow_lt; lra].
    apply Rdiv_lt_0_compat; nra. }
  assert (HP : 0 < H).
  { unfold H. apply Rdiv_lt_0_compat; [|exact MP]. apply sqrt_lt_R0.
    apply Rmult_lt_0_compat; [lra|]. apply Rmult_lt_0_compat; [apply Rmult_lt_0_compat; [nra|exact Hg]|apply pow_lt; lra]. }
  assert (X : exp (ln (mx model / T t)) = mx model / T t) by (apply exp_ln, Rdiv_lt_0_compat; lra).
  assert (XT : mx model / (mx model / T t) = T t) by (field; lra).
  set (ds := sm_entropy_density_deriv heff dheff (T t)).
  assert (DS : 0 < ds).
  { unfold ds, sm_entropy_density_deriv. apply Rmult_lt_0_compat; [apply Rmult_lt_0_compat; [|exact Hd]|apply pow_lt; lra].
    apply Rdiv_lt_0_compat; nra. }
  (* the temperature falls as the entropy density says *)
  assert (DS2 : derivable_pt_lim s t (ds * T')).
  { unfold s, sm_entropy_density. eapply dl_val.
    - apply dl_mult; [apply dl_mult; [apply dl_const|apply (dl_comp T heff); [exact DT|exact Dh]]|apply dl_pow, DT].
    - cbv beta. unfold ds, sm_entropy_density_deriv. cbn [INR pred]. field. }
  assert (ET : ds * T' = - 3 * H * s t) by (exact (uniqueness_limite s t _ _ DS2 Ds)).
  assert (T'v : T' = - 3 * H * s t / ds) by (rewrite <- ET; field; lra).
  exists (n' / n t - (- 3 * H)), (- T' / T t).
  assert (DW : derivable_pt_lim (fun u => ln (n u / s u)) t (n' / n t - - 3 * H)).
  { eapply dl_val; [apply dl_ln; [apply dl_div; [exact Dn|exact Ds|lra]|apply Rdiv_lt_0_compat; lra]|]. unfold Rsqr. field. lra. }
  split; [exact DW|]. split.
  { eapply dl_val; [apply dl_ln; [apply dl_div; [apply dl_const|exact DT|lra]|apply Rdiv_lt_0_compat; lra]|]. unfold Rsqr. field. lra. }
  split.
  { rewrite T'v. replace (- (- 3 * H * s t / ds) / T t) with (3 * (H * s t) / (ds * T t)) by (field; lra).
    apply Rdiv_lt_0_compat; nra. }
  unfold boltzmann_eqn. rewrite X, XT. fold sv.
  assert (EY : exp (ln (n t / s t)) = n t / s t) by (apply exp_ln, Rdiv_lt_0_compat; lra).
  assert (EQ : exp_eq (weq K2 heff (T t) (mx model) 2 true) (ln (n t / s t)) = (n_eq / s t) ^ 2 / (n t / s t)).
  { unfold weq. fold n_eq. destruct (Rlt_dec 0 n_eq) as [Q|Q]; cbn [exp_eq].
    - unfold Rminus. rewrite exp_plus, exp_Ropp, EY. change (sm_entropy_density heff (T t)) with (s t).
      replace (2 * ln (n_eq / s t)) with (ln (n_eq / s t) + ln (n_eq / s t)) by ring.
      rewrite exp_plus, exp_ln by (apply Rdiv_lt_0_compat; lra). unfold Rdiv. ring.
    - replace n_eq with 0 by lra. unfold Rdiv. ring. }
  rewrite EY, EQ.
  (* the prefactor *)
  assert (PF : 3 * H * (sqrt (PI / 45) * plank_mass * sqrt_gstar (T t)) = ds).
  { assert (E1 : sqrt (PI / 45) * sqrt (8 * PI / 3 * (PI ^ 2 / 30 * geff * T t ^ 4)) = 2 * PI ^ 2 / 45 * T t ^ 2 * sqrt geff).
    { rewrite <- sqrt_mult_alt by lra.
      replace (PI / 45 * (8 * PI / 3 * (PI ^ 2 / 30 * geff * T t ^ 4))) with ((2 * PI ^ 2 / 45 * T t ^ 2) ^ 2 * geff) by field.
      rewrite sqrt_mult_alt by apply pow2_ge_0. rewrite sqrt_pow2; [reflexivity|].
      pose proof (pow2_ge_0 PI). pose proof (pow2_ge_0 (T t)). apply Rmult_le_pos; lra. }
    unfold H. rewrite Gs.
    assert (SG : 0 < sqrt geff) by now apply sqrt_lt_R0.
    transitivity (3 * (sqrt (PI / 45) * sqrt (8 * PI / 3 * (PI ^ 2 / 30 * geff * T t ^ 4))) *
      (heff (T t) / sqrt geff * (1 + T t * dheff (T t) / (3 * heff (T t))))); [field; lra|].
    rewrite E1. unfold ds, sm_entropy_density_deriv. field. lra. }
  rewrite T'v, En.
  set (k := sqrt (PI / 45) * plank_mass * sqrt_gstar (T t)) in *.
  replace (- sqrt (PI / 45) * plank_mass * mx model * sqrt_gstar (T t) / (mx model / T t)) with (- (k * T t)) by (unfold k; field; lra).
  rewrite <- PF. assert (K : 0 < k) by (assert (0 < 3 * H * k) by lra; nra).
  clearbody k H sv n_eq. field. repeat split; lra.
Qed.
Print Assumptions boltzmann_from_expansion.
Lemma lin1 h : derivable_pt_lim (fun u => 1 - h * u) 0 (- h).
Proof. eapply dl_val; [dl|]. cbv beta. ring. Qed.
Lemma lin2 h : derivable_pt_lim (fun u => 1 + h * u) 0 h.
Proof. eapply dl_val; [dl|]. cbv beta. ring. Qed.
Lemma lin3 h : derivable_pt_lim (fun u => sm_entropy_density (fun _ => 1) (1 - h * u)) 0 (- 3 * h * sm_entropy_density (fun _ => 1) 1).
Proof.
  unfold sm_entropy_density. eapply dl_val; [eapply dl_mult; [apply dl_const|apply dl_pow, lin1]|].
  cbn [INR pred]. field.
Qed.
Example boltzmann_from_expansion_ex : let H := sqrt (8 * PI / 3 * (PI ^ 2 / 30 * 1 * (1 + - 0) ^ 4)) / plank_mass in
  let m := Theory 1 (fun _ => 1) (Some (fun _ => 1)) in let n_eq := neq (fun _ => 1) 1 1 2 true in
  let T u := 1 - H * u in let n' := - 3 * H - (1 - n_eq ^ 2) in let n u := 1 + n' * u in
  exists W' L', derivable_pt_lim (fun u => ln (n u / sm_entropy_density (fun _ => 1) (T u))) 0 W'
  /\ derivable_pt_lim (fun u => ln (1 / T u)) 0 L' /\ 0 < L'.
Proof.
  intros H m n_eq T n' n.
  assert (T0 : T 0 = 1) by (unfold T; ring).
  assert (H0 : sqrt (8 * PI / 3 * (PI ^ 2 / 30 * 1 * T 0 ^ 4)) / plank_mass = H) by (unfold H; rewrite T0; do 4 f_equal; ring).
  destruct (boltzmann_from_expansion (fun _ => 1) (fun _ => 1) (fun _ => 1) (fun _ => 0) (fun _ => 1) (fun _ _ _ => 0) m
    n T 0 1 n' (- H)) as (W' & L' & A & B & C & _); cbv zeta; rewrite ?H0, ?T0; cbn [mx thermal_cross_section own_thermal m]; try lra.
  - unfold n. lra.
  - pose proof neq_one. lra.
  - rewrite sqrt_1. field.
  - apply (dl_const 1).
  - apply lin1.
  - apply lin2.
  - unfold n'. fold n_eq. unfold n. ring.
  - apply lin3.
  - exists W', L'. now repeat split.
Qed.

(** * C50: derivatives of the equilibrium densities *)
(** For fermions, and for massless particles of either kind. *)
Theorem neq_derivative_partial : forall K1 K2 (T mass g : R) (is_fermion : bool),
  bessel_pair K1 K2 -> 0 < T -> (0 < mass /\ is_fermion = true \/ mass = 0) ->
  derivable_pt_lim (fun T => neq K2 T mass g is_fermion) T (neq_deriv K1 K2 T mass g is_fermion).
Proof.
  intros K1 K2 T mass g f HK HT [[HM ->] | ->].
  - rewrite neq_deriv_fermion by exact HM. now apply neq_derivative_massive.
  - eapply dl_val; [apply neq_derivative_massless|]. unfold neq_deriv. destruct (Req_EM_T 0 0); [ring|lra].
Qed.
Print Assumptions neq_derivative_partial.
Example neq_derivative_ex : derivable_pt_lim (fun T => neq toyK2 T 3 2 true) 1 (neq_deriv toyK1 toyK2 1 3 2 true).
Proof. apply neq_derivative_partial; [exact toy_pair|lra|left; split; [lra|reflexivity]]. Qed.

(** For massive bosons the returned value is smaller than the derivative, always. *)
Theorem neq_derivative_boson : forall K1 K2 (T mass g : R),
  bessel_pair K1 K2 -> (forall z, 0 < z -> 0 < K1 z) -> 0 < T -> 0 < mass -> 0 < g ->
  exists d, derivable_pt_lim (fun T => neq K2 T mass g false) T d /\ neq_deriv K1 K2 T mass g false < d.
Proof.
  intros K1 K2 T mass g HK P HT HM Hg. exists (neq_slope K1 K2 T mass g false). split; [now apply neq_derivative_massive|].
  rewrite neq_deriv_boson by exact HM.
  pose proof (nbar_slope_boson_negative K1 (mass / T) ltac:(apply Rdiv_lt_0_compat; lra) P).
  assert (0 < g * T * mass) by (repeat apply Rmult_lt_0_compat; lra). nra.
Qed.
Print Assumptions neq_derivative_boson.
Example neq_derivative_boson_ex : exists d, derivable_pt_lim (fun T => neq toyK2 T 3 1 false) 1 d /\ neq_deriv toyK1 toyK2 1 3 1 false < d.
Proof. apply neq_derivative_boson; [exact toy_pair|intros; now apply toy_positive|lra|lra|lra]. Qed.

Theorem neq_derivative_refuted : exists K1 K2 (T mass g : R),
  bessel_pair K1 K2 /\ (forall z, 0 < z -> 0 < K1 z) /\ 0 < T /\ 0 < mass /\ 0 < g /\
  ~ derivable_pt_lim (fun T => neq K2 T mass g false) T (neq_deriv K1 K2 T mass g false).
Proof.
  exists toyK1, toyK2, 1, 3, 1. split; [exact toy_pair|]. split; [intros; now apply toy_positive|]. do 3 (split; [lra|]).
  destruct neq_derivative_boson_ex as [d [D L]]. intro H. pose proof (uniqueness_limite _ _ _ _ D H). lra.
Qed.
Print Assumptions neq_derivative_refuted.

(** The entropy density and, for fermions, the comoving density with respect to T and to x = m/T *)
Theorem yeq_derivatives : forall K1 K2 heff dheff (T mass g : R),
  bessel_pair K1 K2 -> 0 < T -> 0 < mass -> heff T <> 0 -> derivable_pt_lim heff T (dheff T) ->
  derivable_pt_lim (sm_entropy_density heff) T (sm_entropy_density_deriv heff dheff T) /\
  derivable_pt_lim (fun T => yeq K2 heff T mass g true) T (yeq_deriv K1 K2 heff dheff T mass g true) /\
  (forall x, 0 < x -> mass / x = T ->
    derivable_pt_lim (fun x => yeq K2 heff (mass / x) mass g true) x (yeq_derivx K1 K2 heff dheff x mass g true)).
Proof.
  intros K1 K2 heff dheff T mass g HK HT HM Hh Dh.
  assert (DS : derivable_pt_lim (sm_entropy_density heff) T (sm_entropy_density_deriv heff dheff T)).
  { unfold sm_entropy_density. eapply dl_val.
    - apply dl_mult; [apply dl_mult; [apply dl_const|exact Dh]|apply dl_pow, dl_id].
    - unfold sm_entropy_density_deriv. cbn [INR pred]. cbv beta. field. }
  assert (SN : sm_entropy_density heff T <> 0).
  { unfold sm_entropy_density. pose proof PI_RGT_0. apply Rmult_integral_contrapositive_currified.
    - apply Rmult_integral_contrapositive_currified; [|exact Hh]. assert (0 < 2 * PI ^ 2 / 45); [|lra]. apply Rdiv_lt_0_compat; nra.
    - apply pow_nonzero. lra. }
  assert (DY : derivable_pt_lim (fun T => yeq K2 heff T mass g true) T (yeq_deriv K1 K2 heff dheff T mass g true)).
  { unfold yeq. eapply dl_val.
    - apply dl_div; [apply (neq_derivative_partial K1 K2 T mass g true HK HT); left; now split|exact DS|exact SN].
    - unfold yeq_deriv, Rsqr. field. exact SN. }
  split; [exact DS|]. split; [exact DY|]. intros x X E. subst T.
  eapply dl_val.
  - apply (dl_comp (fun x => mass / x) (fun T => yeq K2 heff T mass g true)); [apply dl_div; [apply dl_const|apply dl_id|lra]|exact DY].
  - unfold yeq_derivx, Rsqr. set (d := yeq_deriv _ _ _ _ _ _ _ _). clearbody d. field. lra.
Qed.
Print Assumptions yeq_derivatives.
Example yeq_derivatives_ex : derivable_pt_lim (fun x => yeq toyK2 (fun _ => 10) (3 / x) 3 2 true) 1 (yeq_derivx toyK1 toyK2 (fun _ => 10) (fun _ => 0) 1 3 2 true).
Proof.
  apply (proj2 (proj2 (yeq_derivatives toyK1 toyK2 (fun _ => 10) (fun _ => 0) 3 3 2 toy_pair ltac:(lra) ltac:(lra) ltac:(lra) (dl_const 10 3))));
    [lra|field].
Qed.

(** * C51: the thermal average *)
(** A cross section with a threshold at twice the mass, positive above it *)
Definition opens_at (sig : R -> R) (m : R) : Prop := (forall e, e < 2 * m -> sig e = 0) /\ (forall e, 2 * m < e -> 0 < sig e).
(** Gondolo and Gelmini, eq. 3.8, with the integral over the squared energy stopped at [smax] *)
Definition gg_integrand (K1 sig : R -> R) (m T s : R) : R := sig (sqrt s) * (s - 4 * m ^ 2) * sqrt s * K1 (sqrt s / T).
Definition gg_average (K1 K2 sig : R -> R) (m T smax v : R) : Prop :=
  exists i, area (gg_integrand K1 sig m T) (4 * m ^ 2) smax i /\ v = i / (8 * m ^ 4 * T * K2 (m / T) ^ 2).
Lemma gg_window K1 sig m T b i : 0 < m -> 0 < T -> 2 <= b -> area (gg_integrand K1 sig m T) (4 * m ^ 2) ((m * b) ^ 2) i ->
  area (fun z => sig (m * z) * (z ^ 2 * (z ^ 2 - 4) * K1 (m / T * z))) 2 b (i / (2 * m ^ 5)).
Proof.
  intros M HT B A. replace (4 * m ^ 2) with ((m * 2) ^ 2) in A by ring.
  pose proof (area_square _ m 2 b i M ltac:(lra) A) as S.
  apply (area_val _ _ _ (/ (2 * m ^ 5) * i)); [unfold Rdiv; ring|].
  refine (area_ext _ _ _ _ _ [] _ (area_scale (/ (2 * m ^ 5)) _ _ _ _ S)). intros z Hz _. cbv beta. unfold gg_integrand.
  rewrite sqrt_pow2 by nra. replace (m * z / T) with (m / T * z) by (field; lra).
  set (k := K1 _). set (q := sig _). clearbody k q. field. lra.
Qed.

(** Below x = 25, with an exact quadrature, the function is the average over energies up to 50 T, and positive. *)
Theorem thermal_average_partial : forall K1 K2 quad (model : theory) (x i : R),
  exact_oriented quad -> own_thermal model = None -> 0 < mx model -> 0 < x < 25 -> 0 < K2 x ->
  area (gg_integrand K1 (sigma model) (mx model) (mx model / x)) (4 * mx model ^ 2) ((mx model * (50 / x)) ^ 2) i ->
  gg_average K1 K2 (sigma model) (mx model) (mx model / x) ((50 * (mx model / x)) ^ 2) (thermal_cross_section K1 K2 quad x model) /\
  (opens_at (sigma model) (mx model) -> (forall z, 0 < z -> 0 < K1 z) -> 0 < thermal_cross_section K1 K2 quad x model).
Proof.
  intros K1 K2 quad model x i [Q _] Own M X K A.
  assert (B : 2 < 50 / x) by (apply Rmult_lt_reg_r with x; [lra|]; replace (50 / x * x) with 50 by (field; lra); lra).
  assert (HT : 0 < mx model / x) by (apply Rdiv_lt_0_compat; lra).
  pose proof (gg_window K1 (sigma model) (mx model) (mx model / x) (50 / x) i M HT ltac:(lra) A) as G.
  replace (mx model / (mx model / x)) with x in G by (field; lra).
  unfold thermal_cross_section. rewrite Own. destruct (Rlt_dec 300 x); [lra|].
  rewrite (Q (thermal_cross_section_integrand K1 model x) 2 (50 / x) _ ltac:(lra) G). split.
  - exists i. split; [replace ((50 * (mx model / x)) ^ 2) with ((mx model * (50 / x)) ^ 2) by (field; lra); exact A|].
    replace (mx model / (mx model / x)) with x by (field; lra). field. lra.
  - intros [_ Op] P. apply Rmult_lt_0_compat; [apply Rdiv_lt_0_compat; [lra|apply pow_lt; lra]|].
    apply (area_pos _ 2 (50 / x) _ B) in G; [exact G|]. intros z Hz.
    apply Rmult_lt_0_compat; [apply Op; nra|]. apply Rmult_lt_0_compat; [apply Rmult_lt_0_compat; nra|]. apply P. nra.
Qed.
Print Assumptions thermal_average_partial.
(** A cross section for the examples: constant above threshold *)
Definition step_sigma (e : R) : R := if Rlt_dec e 2 then 0 else 1.
Lemma step_opens : opens_at step_sigma 1.
Proof. split; intros e H; unfold step_sigma; destruct (Rlt_dec e 2); lra. Qed.
Example thermal_average_ex : exists i, area (gg_integrand toyK1 step_sigma 1 1) (4 * 1 ^ 2) ((1 * (50 / 1)) ^ 2) i.
Proof.
  destruct (area_exists (fun s => 1 * (s - 4 * 1 ^ 2) * sqrt s * toyK1 (sqrt s / 1)) (4 * 1 ^ 2) ((1 * (50 / 1)) ^ 2)) as [i Hi].
  - lra.
  - intros s Hs. apply derivable_continuous_pt. eexists. unfold toyK1.
    apply dl_mult; [apply dl_mult; [dl|apply dl_sqrt; [apply dl_id|lra]]|].
    apply dl_exp, dl_opp. apply dl_div; [apply dl_sqrt; [apply dl_id|lra]|apply dl_const|lra].
  - exists i. refine (area_ext _ _ _ _ _ [] _ Hi). intros s Hs _. unfold gg_integrand, step_sigma.
    destruct (Rlt_dec (sqrt s) 2) as [L|L]; [|reflexivity]. exfalso.
    assert (sqrt (2 * 2) <= sqrt s) by (apply sqrt_le_1_alt; lra). rewrite sqrt_square in H by lra. lra.
Qed.

(** From x = 25 on the window 2 .. 50/x is empty or reversed and, for a model without its own average, the
    function returns zero whatever the cross section is. *)
Theorem thermal_average_vanishes : forall K1 K2 quad (model : theory) (x : R),
  exact_oriented quad -> own_thermal model = None -> 0 < mx model -> (forall e, e < 2 * mx model -> sigma model e = 0) ->
  25 <= x -> thermal_cross_section K1 K2 quad x model = 0.
Proof.
  intros K1 K2 quad model x [Q1 Q2] Own M Z X. unfold thermal_cross_section. rewrite Own.
  destruct (Rlt_dec 300 x) as [|N]; [reflexivity|].
  assert (B : 50 / x <= 2) by (apply Rmult_le_reg_r with x; [lra|]; replace (50 / x * x) with 50 by (field; lra); lra).
  destruct (Req_dec (50 / x) 2) as [E|E].
  - rewrite E, (Q1 _ 2 2 0); [ring|lra|]. apply area_zero_on. intros; lra.
  - rewrite (Q2 _ 2 (50 / x) 0); [ring|lra|]. apply area_zero_on. intros z Hz. unfold thermal_cross_section_integrand.
    rewrite Z by nra. ring.
Qed.
Print Assumptions thermal_average_vanishes.
(** So the average is not positive for every x up to the cut-off. *)
Theorem thermal_average_refuted : exists K1 K2 quad (model : theory) (x : R),
  exact_oriented quad /\ own_thermal model = None /\ opens_at (sigma model) (mx model) /\ bessel_pair K1 K2 /\
  (forall z, 0 < z -> 0 < K1 z) /\ 0 < x <= 300 /\ thermal_cross_section K1 K2 quad x model = 0.
Proof.
  destruct exact_oriented_exists as [quad Q]. exists toyK1, toyK2, quad, (Theory 1 step_sigma None), 30.
  split; [exact Q|]. split; [reflexivity|]. split; [exact step_opens|]. split; [exact toy_pair|].
  split; [intros; now apply toy_positive|]. split; [lra|].
  apply thermal_average_vanishes; [exact Q|reflexivity|cbn; lra| |lra]. intros e He. apply step_opens. exact He.
Qed.
Print Assumptions thermal_average_refuted.
Theorem thermal_average_nonnegative : forall K1 K2 quad (model : theory) (x : R),
  exact_oriented quad -> own_thermal model = None -> 0 < mx model -> 0 < x ->
  (forall e, e < 2 * mx model -> sigma model e = 0) -> (forall e, 0 <= sigma model e) -> (forall z, 0 < z -> 0 < K1 z) ->
  (exists i, area (thermal_cross_section_integrand K1 model x) 2 (50 / x) i) ->
  0 <= thermal_cross_section K1 K2 quad x model.
Proof.
  intros K1 K2 quad model x Q Own M X Z P PK [i A]. destruct (Rle_dec 25 x) as [B|B].
  - right. symmetry. now apply thermal_average_vanishes.
  - destruct Q as [Q _]. unfold thermal_cross_section. rewrite Own. destruct (Rlt_dec 300 x); [lra|].
    assert (W : 2 < 50 / x) by (apply Rmult_lt_reg_r with x; [lra|]; replace (50 / x * x) with 50 by (field; lra); lra).
    rewrite (Q _ 2 (50 / x) i ltac:(lra) A).
    apply Rmult_le_pos.
    + apply Rmult_le_pos; [lra|]. destruct (Req_dec ((2 * K2 x) ^ 2) 0) as [E|E]; [rewrite E, Rinv_0; lra|].
      left. apply Rinv_0_lt_compat. pose proof (pow2_ge_0 (2 * K2 x)). lra.
    + assert (L : 0 * (50 / x - 2) <= i); [|lra].
      apply (area_le (fun _ => 0) (thermal_cross_section_integrand K1 model x) 2 (50 / x)); [lra| |apply area_const|exact A].
      intros z Hz. unfold thermal_cross_section_integrand. apply Rmult_le_pos; [apply P|].
      apply Rmult_le_pos; [apply Rmult_le_pos; nra|]. left. apply PK. nra.
Qed.
Print Assumptions thermal_average_nonnegative.
Example thermal_average_nonnegative_ex : exists i, area (thermal_cross_section_integrand toyK1 (Theory 1 step_sigma None) 1) 2 (50 / 1) i.
Proof.
  destruct thermal_average_ex as [i Hi]. exists (i / (2 * 1 ^ 5)).
  pose proof (gg_window toyK1 step_sigma 1 1 (50 / 1) i ltac:(lra) ltac:(lra) ltac:(lra) Hi) as G.
  refine (area_ext _ _ _ _ _ [] _ G). intros z Hz _. unfold thermal_cross_section_integrand. cbn [sigma mx].
  now replace (1 / 1 * z) with (1 * z) by field.
Qed.

(** Consequence: without its own average a model freezes out at x = 25 at the latest, whatever it annihilates
    into: the right-hand side is zero from there on, and a freeze-out point beyond 25 gives alpha = 0 and the
    equilibrium abundance. *)
Theorem thermal_average_freezes : forall K1 K2 heff sqrt_gstar quad (model : theory),
  exact_oriented quad -> own_thermal model = None -> 0 < mx model -> (forall e, e < 2 * mx model -> sigma model e = 0) ->
  (forall logx w, ln 25 <= logx -> boltzmann_eqn K1 K2 heff sqrt_gstar quad model logx w = 0) /\
  (forall xstar, 25 <= xstar -> compute_alpha K1 K2 sqrt_gstar quad model xstar = 0 /\
    relic_density_semi_analytic K1 K2 heff sqrt_gstar quad model xstar =
    mx model * (28912 / 10 * yeq K2 heff (mx model / xstar) (mx model) 2 true) / (105375 / 10 ^ 7)).
Proof.
  intros K1 K2 heff sqrt_gstar quad model Q Own M Z. split.
  - intros logx w L. unfold boltzmann_eqn. rewrite thermal_average_vanishes; try assumption; [ring|].
    rewrite <- (exp_ln 25) by lra. destruct L as [L|L]; [left; now apply exp_increasing|right; now rewrite L].
  - intros xstar X.
    assert (A : compute_alpha K1 K2 sqrt_gstar quad model xstar = 0).
    { unfold compute_alpha. destruct Q as [Q1 Q2] eqn:EQ.
      rewrite (Q1 _ xstar (100 * xstar) 0); [ring|lra|]. apply area_zero_on. intros y Hy.
      rewrite (thermal_average_vanishes K1 K2 quad model y); try assumption; [|lra]. unfold Rdiv. ring. }
    split; [exact A|]. unfold relic_density_semi_analytic, comoving_semi_analytic. rewrite A. cbv zeta.
    rewrite Rmult_0_r, Rplus_0_r. set (y := yeq _ _ _ _ _ _). clearbody y. unfold omega, rho_crit, sm_entropy_density_today. field.
Qed.
Print Assumptions thermal_average_freezes.
Example thermal_average_freezes_ex : let m := Theory 1 step_sigma None in
  own_thermal m = None /\ 0 < mx m /\ (forall e, e < 2 * mx m -> sigma m e = 0).
Proof. cbn. split; [reflexivity|]. split; [lra|]. apply step_opens. Qed.

(** ** The averages of the compiled mediator theories *)
Definition exact_with_points (q : (R -> R) -> R -> R -> list R -> R) : Prop :=
  forall f a b pts v, a <= b -> area f a b v -> q f a b pts = v.
Lemma exact_with_points_exists : exists q, exact_with_points q.
Proof. exists (fun f a b _ => the_area f a b). intros f a b pts v H A. now apply the_area_val. Qed.
Lemma gg_positive K1 (sig : R -> R) m x b v : 0 < m -> 0 < x -> 2 < b -> opens_at sig m -> (forall z, 0 < z -> 0 < K1 z) ->
  area (fun z => sig (m * z) * (z ^ 2 * (z ^ 2 - 4) * K1 (x * z))) 2 b v -> 0 < v.
Proof.
  intros M X B [_ Op] P A. apply (area_pos _ 2 b _ B) in A; [exact A|]. intros z Hz.
  apply Rmult_lt_0_compat; [apply Op; nra|]. apply Rmult_lt_0_compat; [apply Rmult_lt_0_compat; nra|]. apply P. nra.
Qed.

(** The scalar mediator: the average over energies up to max(50 T, 100 m), positive for every x up to 300 and
    zero beyond. *)
Theorem scalar_thermal_average : forall K1 K2 quad_points (sig : R -> R) (m ms x i : R),
  exact_with_points quad_points -> 0 < m -> 0 < x <= 300 -> 0 < K2 x ->
  area (gg_integrand K1 sig m (m / x)) (4 * m ^ 2) ((m * Rmax (50 / x) 100) ^ 2) i ->
  gg_average K1 K2 sig m (m / x) ((m * Rmax (50 / x) 100) ^ 2) (thermal_scalar K1 K2 quad_points sig m ms x) /\
  (opens_at sig m -> (forall z, 0 < z -> 0 < K1 z) -> 0 < thermal_scalar K1 K2 quad_points sig m ms x).
Proof.
  intros K1 K2 q sig m ms x i Q M X K A.
  assert (HT : 0 < m / x) by (apply Rdiv_lt_0_compat; lra).
  pose proof (Rmax_r (50 / x) 100) as B.
  pose proof (gg_window K1 sig m (m / x) (Rmax (50 / x) 100) i M HT ltac:(lra) A) as G.
  replace (m / (m / x)) with x in G by (field; lra).
  unfold thermal_scalar. destruct (Rlt_dec 300 x); [lra|]. cbv zeta.
  replace (if Rlt_dec (50 / x) 100 then 100 else 50 / x) with (Rmax (50 / x) 100).
  2:{ unfold Rmax. destruct (Rle_dec (50 / x) 100), (Rlt_dec (50 / x) 100); lra. }
  rewrite (Q _ 2 (Rmax (50 / x) 100) _ (i / (2 * m ^ 5)) ltac:(lra)).
  2:{ refine (area_ext _ _ _ _ _ [] _ G). intros z Hz _. cbv beta. ring. }
  split.
  - exists i. split; [exact A|]. replace (m / (m / x)) with x by (field; lra). field. lra.
  - intros Op P. apply Rmult_lt_0_compat; [apply Rdiv_lt_0_compat; [lra|apply Rmult_lt_0_compat; lra]|].
    apply (gg_positive K1 sig m x (Rmax (50 / x) 100)); try assumption; lra.
Qed.
Print Assumptions scalar_thermal_average.
Theorem scalar_thermal_cut : forall K1 K2 quad_points (sig : R -> R) (m ms x : R),
  300 < x -> thermal_scalar K1 K2 quad_points sig m ms x = 0.
Proof. intros. unfold thermal_scalar. destruct (Rlt_dec 300 x); [reflexivity|lra]. Qed.
Print Assumptions scalar_thermal_cut.

(** The vector mediator: the average at min(x, 300) over energies up to max(50 T, 150 m) — so positive at
    every x, and frozen at the value at x = 300 beyond it. *)
Theorem vector_thermal_average : forall K1 K2 quad_points (sig : R -> R) (m mv x i : R),
  let x' := Rmin x 300 in
  exact_with_points quad_points -> 0 < m -> 0 < x -> 0 < K2 x' ->
  area (gg_integrand K1 sig m (m / x')) (4 * m ^ 2) ((m * Rmax (50 / x') 150) ^ 2) i ->
  gg_average K1 K2 sig m (m / x') ((m * Rmax (50 / x') 150) ^ 2) (thermal_vector K1 K2 quad_points sig m mv x) /\
  (opens_at sig m -> (forall z, 0 < z -> 0 < K1 z) -> 0 < thermal_vector K1 K2 quad_points sig m mv x).
Proof.
  intros K1 K2 q sig m mv x i x' Q M X K A.
  assert (X' : 0 < x') by (unfold x'; apply Rmin_pos; lra).
  assert (HT : 0 < m / x') by (apply Rdiv_lt_0_compat; lra).
  pose proof (Rmax_r (50 / x') 150) as B.
  pose proof (gg_window K1 sig m (m / x') (Rmax (50 / x') 150) i M HT ltac:(lra) A) as G.
  replace (m / (m / x')) with x' in G by (field; lra).
  unfold thermal_vector.
  replace (if Rlt_dec x 300 then x else 300) with x'.
  2:{ unfold x', Rmin. destruct (Rle_dec x 300), (Rlt_dec x 300); lra. }
  cbv zeta.
  replace (if Rlt_dec (50 / x') 150 then 150 else 50 / x') with (Rmax (50 / x') 150).
  2:{ unfold Rmax. destruct (Rle_dec (50 / x') 150), (Rlt_dec (50 / x') 150); lra. }
  rewrite (Q _ 2 (Rmax (50 / x') 150) _ (i / (2 * m ^ 5)) ltac:(lra)).
  2:{ refine (area_ext _ _ _ _ _ [] _ G). intros z Hz _. cbv beta. ring. }
  split.
  - exists i. split; [exact A|]. replace (m / (m / x')) with x' by (field; lra). field. lra.
  - intros Op P. apply Rmult_lt_0_compat; [apply Rdiv_lt_0_compat; [lra|apply Rmult_lt_0_compat; lra]|].
    apply (gg_positive K1 sig m x' (Rmax (50 / x') 150)); try assumption; lra.
Qed.
Print Assumptions vector_thermal_average.
Lemma step_area b : 2 <= b -> exists i, area (gg_integrand toyK1 step_sigma 1 (1 / 1)) (4 * 1 ^ 2) ((1 * b) ^ 2) i.
Proof.
  intro B.
  destruct (area_exists (fun s => 1 * (s - 4 * 1 ^ 2) * sqrt s * toyK1 (sqrt s / (1 / 1))) (4 * 1 ^ 2) ((1 * b) ^ 2)) as [i Hi].
  - nra.
  - intros s Hs. apply derivable_continuous_pt. eexists. unfold toyK1.
    apply dl_mult; [apply dl_mult; [dl|apply dl_sqrt; [apply dl_id|lra]]|].
    apply dl_exp, dl_opp. apply dl_div; [apply dl_sqrt; [apply dl_id|lra]|apply dl_const|lra].
  - exists i. refine (area_ext _ _ _ _ _ [] _ Hi). intros s Hs _. unfold gg_integrand, step_sigma.
    destruct (Rlt_dec (sqrt s) 2) as [L|L]; [|reflexivity]. exfalso.
    assert (sqrt (2 * 2) <= sqrt s) by (apply sqrt_le_1_alt; lra). rewrite sqrt_square in H by lra. lra.
Qed.
Example mediator_thermal_ex : exists q i j,
  exact_with_points q /\ opens_at step_sigma 1 /\
  area (gg_integrand toyK1 step_sigma 1 (1 / 1)) (4 * 1 ^ 2) ((1 * Rmax (50 / 1) 100) ^ 2) i /\
  area (gg_integrand toyK1 step_sigma 1 (1 / 1)) (4 * 1 ^ 2) ((1 * Rmax (50 / 1) 150) ^ 2) j.
Proof.
  destruct exact_with_points_exists as [q Q].
  destruct (step_area (Rmax (50 / 1) 100)) as [i Hi]; [pose proof (Rmax_r (50 / 1) 100); lra|].
  destruct (step_area (Rmax (50 / 1) 150)) as [j Hj]; [pose proof (Rmax_r (50 / 1) 150); lra|].
  exists q, i, j. repeat split; try assumption; apply step_opens.
Qed.

(** * C79: the semi-analytic solution *)
(** The Boltzmann equation in x, with the equilibrium abundance as the second argument *)
Definition boltzmann_x (sqrt_gstar tcs : R -> R) (m x Y Yeq : R) : R :=
  - (sqrt (PI / 45) * m * plank_mass * sqrt_gstar (m / x) * tcs x / x ^ 2) * (Y ^ 2 - Yeq ^ 2).

(** The root that is searched for is where (1 + delta) times the equilibrium abundance solves the Boltzmann
    equation, and leaving delta out is taking it to be (sqrt 5 - 1)/2. *)
Theorem xstar_matches : forall K1 K2 heff dheff sqrt_gstar quad (model : theory) (xstar delta : R),
  bessel_pair K1 K2 -> 0 < mx model -> 0 < xstar -> 0 <= delta ->
  let T := mx model / xstar in heff T <> 0 -> derivable_pt_lim heff T (dheff T) ->
  (xstar_root_eqn K1 K2 heff dheff sqrt_gstar quad xstar model (Some delta) = 0 <->
   derivable_pt_lim (fun x => (1 + delta) * yeq K2 heff (mx model / x) (mx model) 2 true) xstar
     (boltzmann_x sqrt_gstar (fun x => thermal_cross_section K1 K2 quad x model) (mx model) xstar
       ((1 + delta) * yeq K2 heff T (mx model) 2 true) (yeq K2 heff T (mx model) 2 true))) /\
  xstar_root_eqn K1 K2 heff dheff sqrt_gstar quad xstar model None =
  xstar_root_eqn K1 K2 heff dheff sqrt_gstar quad xstar model (Some ((sqrt 5 - 1) / 2)).
Proof.
  intros K1 K2 heff dheff sqrt_gstar quad model xs d HK M X D T Hh Dh. split.
  - destruct (yeq_derivatives K1 K2 heff dheff T (mx model) 2 HK ltac:(apply Rdiv_lt_0_compat; lra) M Hh Dh) as (_ & _ & DX).
    specialize (DX xs X eq_refl).
    assert (DE : derivable_pt_lim (fun x => (1 + d) * yeq K2 heff (mx model / x) (mx model) 2 true) xs
      ((1 + d) * yeq_derivx K1 K2 heff dheff xs (mx model) 2 true)).
    { eapply dl_val; [apply dl_mult; [apply (dl_const (1 + d))|exact DX]|]. cbv beta. ring. }
    unfold xstar_root_eqn, deltabar, boltzmann_x. cbv zeta. fold T.
    set (y' := yeq_derivx _ _ _ _ _ _ _ _) in *. set (y := yeq _ _ T _ _ _) in *. set (s := thermal_cross_section _ _ _ _ _).
    set (l := sqrt (PI / 45) * mx model * plank_mass * sqrt_gstar T). clearbody y' y s l. split; intro H.
    + eapply dl_val; [exact DE|]. assert (E : y' = - (l * (d * (2 + d) / (1 + d)) * s * y ^ 2) / xs ^ 2).
      { apply Rmult_eq_reg_r with (xs ^ 2); [|nra].
        replace (- (l * (d * (2 + d) / (1 + d)) * s * y ^ 2) / xs ^ 2 * xs ^ 2) with (- (l * (d * (2 + d) / (1 + d)) * s * y ^ 2)) by (field; lra).
        rewrite Rmult_comm. lra. }
      rewrite E. field. lra.
    + pose proof (uniqueness_limite _ _ _ _ DE H) as U.
      assert (E : y' = - (l * s / xs ^ 2) * (((1 + d) * y) ^ 2 - y ^ 2) / (1 + d)) by (rewrite <- U; field; lra).
      rewrite E. field. lra.
  - unfold xstar_root_eqn. do 4 f_equal. unfold deltabar.
    pose proof (sqrt_lt_R0 5 ltac:(lra)) as P. pose proof (sqrt_sqrt 5 ltac:(lra)) as Q. set (s := sqrt 5) in *. clearbody s.
    apply Rmult_eq_reg_r with (1 + (s - 1) / 2); [|lra]. field_simplify; [|lra]. nra.
Qed.
Print Assumptions xstar_matches.
Example xstar_matches_ex : let T := 3 / 2 in (fun _ : R => 10) T <> 0 /\ derivable_pt_lim (fun _ => 10) T ((fun _ => 0) T).
Proof. split; [lra|apply (dl_const 10)]. Qed.

Lemma alpha_value K1 K2 sqrt_gstar quad (model : theory) (xs : R) (Y : R -> R) :
  exact_oriented quad -> 0 < mx model -> 0 < xs ->
  (forall x, xs <= x <= 100 * xs -> 0 < Y x /\
    derivable_pt_lim Y x (boltzmann_x sqrt_gstar (fun x => thermal_cross_section K1 K2 quad x model) (mx model) x (Y x) 0)) ->
  compute_alpha K1 K2 sqrt_gstar quad model xs = / Y (100 * xs) - / Y xs.
Proof.
  intros [Q _] M X S.
  assert (PF : 0 < sqrt (PI / 45) * mx model * plank_mass).
  { apply Rmult_lt_0_compat; [apply Rmult_lt_0_compat; [apply sqrt_lt_R0; pose proof PI_RGT_0; lra|lra]|unfold plank_mass; lra]. }
  unfold compute_alpha. set (pf := sqrt (PI / 45) * mx model * plank_mass) in *.
    rewrite (Q _ xs (100 * xs) (/ pf * (/ Y (100 * xs)) - / pf * (/ Y xs))); [field|lra|].
    - destruct (S xs ltac:(lra)), (S (100 * xs) ltac:(lra)). repeat split; lra.
    - apply (area_of_antiderivative (fun x => / pf * (/ Y x))). intros x Hx. destruct (S x Hx) as [P D].
      eapply dl_val; [apply dl_mult; [apply (dl_const (/ pf))|]|].
      + apply (derivable_pt_lim_ext (fun x => 1 / Y x)); [intro; unfold Rdiv; ring|].
        apply dl_div; [apply (dl_const 1)|exact D|lra].
      + unfold boltzmann_x, Rsqr. fold pf. cbv beta. set (y := Y x) in *. set (t := thermal_cross_section _ _ _ _ _).
        set (g := sqrt_gstar _). clearbody y t g pf. field. repeat split; lra.
Qed.
(** The abundance reported is the one at 100 x* of the solution of the equation without its equilibrium term
    that starts at the equilibrium abundance at x*; the density parameter is its mass density for an entropy density
    of 2891.2 / cm^3 over the critical density of 0.0105375 h^2 MeV / cm^3. The same holds for the abundance exp w of
    the numerical solution. *)
Theorem semi_analytic_solves : forall K1 K2 heff sqrt_gstar quad (model : theory) (xstar : R) (Y : R -> R),
  exact_oriented quad -> 0 < mx model -> 0 < xstar ->
  (forall x, xstar <= x <= 100 * xstar -> 0 < Y x /\
    derivable_pt_lim Y x (boltzmann_x sqrt_gstar (fun x => thermal_cross_section K1 K2 quad x model) (mx model) x (Y x) 0)) ->
  Y xstar = yeq K2 heff (mx model / xstar) (mx model) 2 true ->
  comoving_semi_analytic K1 K2 heff sqrt_gstar quad model xstar = Y (100 * xstar)
  /\ relic_density_semi_analytic K1 K2 heff sqrt_gstar quad model xstar = mx model * (28912 / 10 * Y (100 * xstar)) / (105375 / 10 ^ 7)
  /\ forall w, Y (100 * xstar) = exp w ->
     relic_density_solved model w = mx model * (28912 / 10 * Y (100 * xstar)) / (105375 / 10 ^ 7).
Proof.
  intros K1 K2 heff sqrt_gstar quad model xs Y Q M X S I.
  assert (C : comoving_semi_analytic K1 K2 heff sqrt_gstar quad model xs = Y (100 * xs)); cycle 1.
  { split; [exact C|]. unfold relic_density_semi_analytic, relic_density_solved, omega, rho_crit, sm_entropy_density_today. rewrite C.
    split; [field|]. intros w <-. field. }
  pose proof (alpha_value K1 K2 sqrt_gstar quad model xs Y Q M X S) as Al.
  unfold comoving_semi_analytic. cbv zeta. rewrite <- I, Al.
  destruct (S xs ltac:(lra)), (S (100 * xs) ltac:(lra)). set (a := Y xs) in *. set (b := Y (100 * xs)) in *. clearbody a b.
  assert (N : 1 + a * (/ b - / a) = a / b) by (field; lra). rewrite N. field. lra.
Qed.
Print Assumptions semi_analytic_solves.

(** The freeze-out point is where the abundance is (1 + delta) times equilibrium. Starting the solution there
    would leave strictly more dark matter than the function reports. *)
Theorem semi_analytic_underestimates : forall K1 K2 heff sqrt_gstar quad (model : theory) (xstar delta : R) (Y : R -> R),
  exact_oriented quad -> 0 < mx model -> 0 < xstar -> 0 < delta ->
  0 <= compute_alpha K1 K2 sqrt_gstar quad model xstar ->
  (forall x, xstar <= x <= 100 * xstar -> 0 < Y x /\
    derivable_pt_lim Y x (boltzmann_x sqrt_gstar (fun x => thermal_cross_section K1 K2 quad x model) (mx model) x (Y x) 0)) ->
  Y xstar = (1 + delta) * yeq K2 heff (mx model / xstar) (mx model) 2 true ->
  comoving_semi_analytic K1 K2 heff sqrt_gstar quad model xstar < Y (100 * xstar).
Proof.
  intros K1 K2 heff sqrt_gstar quad model xs d Y Q M X D AP S I.
  pose proof (alpha_value K1 K2 sqrt_gstar quad model xs Y Q M X S) as Al.
  unfold comoving_semi_analytic. cbv zeta.
  destruct (S xs ltac:(lra)) as [Pa _], (S (100 * xs) ltac:(lra)) as [Pb _].
  set (e := yeq _ _ _ _ _ _) in *. rewrite I in Al, Pa. assert (E : 0 < e) by nra.
  set (al := compute_alpha _ _ _ _ _ _) in *. set (b := Y (100 * xs)) in *. clearbody e al b.
  assert (B : b = (1 + d) * e / (1 + (1 + d) * e * al)).
  { replace (1 + (1 + d) * e * al) with ((1 + d) * e / b) by (rewrite Al; field; lra). field. lra. }
  assert (N1 : 0 < 1 + e * al) by nra. assert (N2 : 0 < 1 + (1 + d) * e * al) by (assert (0 < (1 + d) * e) by nra; nra).
  rewrite B. apply Rmult_lt_reg_r with ((1 + e * al) * (1 + (1 + d) * e * al)); [nra|].
  replace (e / (1 + e * al) * ((1 + e * al) * (1 + (1 + d) * e * al))) with (e * (1 + (1 + d) * e * al)) by (field; lra).
  replace ((1 + d) * e / (1 + (1 + d) * e * al) * ((1 + e * al) * (1 + (1 + d) * e * al))) with ((1 + d) * e * (1 + e * al)) by (field; lra).
  nra.
Qed.
Print Assumptions semi_analytic_underestimates.
(** Such solutions exist: with constant average and degrees of freedom, 1/Y is linear in 1/x. *)
Definition flat_theory : theory := Theory 1 (fun _ => 0) (Some (fun _ => 1)).
Lemma flat_solution y0 : 0 < y0 -> exists Y : R -> R, Y 1 = y0 /\ forall x, 1 <= x <= 100 * 1 -> 0 < Y x /\
  derivable_pt_lim Y x (boltzmann_x (fun _ => 1) (fun x => thermal_cross_section toyK1 (fun _ => 1) (fun _ _ _ => 0) x flat_theory) (mx flat_theory) x (Y x) 0).
Proof.
  intro P. set (k := sqrt (PI / 45) * 1 * plank_mass).
  assert (K : 0 < k).
  { apply Rmult_lt_0_compat; [|unfold plank_mass; lra]. rewrite Rmult_1_r. apply sqrt_lt_R0. pose proof PI_RGT_0. lra. }
  pose proof (Rinv_0_lt_compat y0 P) as I.
  exists (fun x => 1 / (/ y0 + k * (1 - 1 / x))). split; [field; lra|].
  intros x Hx. assert (1 / x <= 1) by (apply Rmult_le_reg_r with x; [lra|]; replace (1 / x * x) with 1 by (field; lra); lra).
  assert (N : 0 < / y0 + k * (1 - 1 / x)) by nra. split; [apply Rdiv_lt_0_compat; lra|].
  eapply dl_val.
  - apply dl_div; [apply (dl_const 1)|apply dl_plus; [apply (dl_const (/ y0))|apply dl_mult; [apply (dl_const k)|apply dl_minus; [apply (dl_const 1)|apply dl_div; [apply (dl_const 1)|apply dl_id|lra]]]]|lra].
  - unfold boltzmann_x, Rsqr. cbn [mx flat_theory thermal_cross_section own_thermal]. fold k. cbv beta.
    assert (Z : / y0 + k * (1 - 1 / x) <> 0) by lra. set (n := / y0 + k * (1 - 1 / x)) in *. clearbody n k.
    change (thermal_cross_section toyK1 (fun _ => 1) (fun _ _ _ => 0) x flat_theory) with 1. field. lra.
Qed.
Example semi_analytic_ex : let y := yeq (fun _ => 1) (fun _ => 10) (1 / 1) 1 2 true in
  exists Y1 Y2 : R -> R, Y1 1 = y /\ Y2 1 = (1 + 1 / 2) * y /\ forall Y, Y = Y1 \/ Y = Y2 -> forall x, 1 <= x <= 100 * 1 -> 0 < Y x /\
  derivable_pt_lim Y x (boltzmann_x (fun _ => 1) (fun x => thermal_cross_section toyK1 (fun _ => 1) (fun _ _ _ => 0) x flat_theory) (mx flat_theory) x (Y x) 0).
Proof.
  intro y. assert (P : 0 < y).
  { unfold y, yeq. replace (1 / 1) with 1 by field. apply Rdiv_lt_0_compat; [exact neq_one|]. unfold sm_entropy_density.
    pose proof PI_RGT_0. assert (0 < 2 * PI ^ 2 / 45) by nra. lra. }
  destruct (flat_solution y P) as [Y1 [A1 B1]]. destruct (flat_solution ((1 + 1 / 2) * y) ltac:(lra)) as [Y2 [A2 B2]].
  exists Y1, Y2. split; [exact A1|]. split; [exact A2|]. intros Y [-> | ->]; assumption.
Qed.
