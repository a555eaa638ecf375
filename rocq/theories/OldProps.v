(** Properties of the form factor classes that VectorMediatorGeVBase builds on: C148 to C153. *)
From Coq Require Import String ZArith Reals Bool Lra Lia Psatz List.
From Verif Require Import PyBase RamboModel RamboProofs KinModel KinProofs KinProps DalitzProofs Area Primitive SpecProofs RhnProofs VffModel VffProofs VffProps PionProofs OldModel OldProofs.
Import ListNotations.
Local Open Scope R_scope.

(** * C148: integrals of rational functions *)
(** x^n / (x - z) over an interval that does not reach the pole *)
Theorem power_over_factor : forall n z lb ub, (z <> 0 \/ n = 0%nat) -> one_side z lb ub ->
  exists v, integral_power_div_simple_monomial n z lb ub = Some v /\ area (fun x => x ^ n / (x - z)) lb ub v.
Proof.
  intros n z lb ub H O. destruct (Req_dec z 0) as [Z|Z]; [|now apply simple_monomial_value].
  destruct H as [H| ->]; [contradiction|]. subst z. now apply simple_monomial_zero.
Qed.
Example power_over_factor_case : one_side 5 1 2 /\ one_side (-1) 1 2 /\ one_side 0 1 2.
Proof. unfold one_side. repeat split; lra. Qed.
Print Assumptions power_over_factor.
(** Refuted at z = 0: x^2 / x over [1, 2] has the integral 3/2, and for n = 1 there is no value at all *)
Theorem power_over_x_refuted : exists n lb ub v, one_side 0 lb ub /\ integral_power_div_simple_monomial n 0 lb ub = Some v
  /\ ~ area (fun x => x ^ n / (x - 0)) lb ub v /\ integral_power_div_simple_monomial 1 0 lb ub = None.
Proof.
  exists 2%nat, 1, 2, 1. assert (O : one_side 0 1 2) by (unfold one_side; lra). split; [exact O|]. unfold integral_power_div_simple_monomial.
  destruct (Req_EM_T 0 0) as [_|C]; [|contradiction]. split; [|split].
  - rewrite odiv_some by (cbn; lra). f_equal. cbn. field.
  - intro A. destruct (monomial_value_zero 2 1 1 2 O) as (v & E & A').
    assert (v = 3 / 2).
    { unfold integral_power_div_monomial in E. destruct (Req_EM_T 0 0) as [_|C]; [|contradiction]. cbn in E.
      rewrite odiv_some in E by lra. injection E as <-. field. }
    assert (X : 1 = v).
    { refine (area_unique _ 1 2 1 v _ A _); [lra|]. refine (area_ext _ _ _ _ _ [] _ A'). intros x _ _. now rewrite pow_1. }
    lra.
  - cbn. unfold odiv. destruct (Req_EM_T 0 0) as [_|C]; [reflexivity|contradiction].
Qed.
Print Assumptions power_over_x_refuted.
(** x^n / (x - z)^m: exact up to the coefficient of the logarithm, so right when there is no logarithm (m = 0
    or m > n + 1), for m = 1 and for z = 0.  Full claim: the returned value is the integral. *)
Theorem power_over_power_partial : forall n m z lb ub, one_side z lb ub ->
  exists v, integral_power_div_monomial n m z lb ub = Some v
    /\ (z <> 0 -> area (fun x => x ^ n / (x - z) ^ m) lb ub (v - log_error n m z lb ub))
    /\ (z = 0 \/ (m <= 1)%nat \/ (n + 2 <= m)%nat -> area (fun x => x ^ n / (x - z) ^ m) lb ub v).
Proof.
  intros n m z lb ub O. destruct (Req_dec z 0) as [->|Z].
  - destruct (monomial_value_zero n m lb ub O) as (v & E & A). exists v. split; [exact E|]. split; [intro; lra|intro; exact A].
  - destruct (monomial_value n m z lb ub Z O) as (v & E & A). exists v. split; [exact E|]. split; [intro; exact A|].
    intros [C|C]; [contradiction|]. replace v with (v - log_error n m z lb ub); [exact A|]. replace (log_error n m z lb ub) with 0; [lra|].
    unfold log_error. destruct (Nat.leb_spec 1 m); [|reflexivity]. destruct (Nat.leb_spec m (n + 1)); [|reflexivity]. cbn [andb].
    assert (m = 1%nat) by lia. subst m. replace (1 - 1)%nat with 0%nat by lia. rewrite C_n_0, Nat.sub_0_r. ring.
Qed.
Example power_over_power_case : log_error 2 3 3 1 2 <> 0 /\ log_error 2 1 3 1 2 = 0 /\ log_error 2 4 3 1 2 = 0.
Proof.
  split; [|split].
  - unfold log_error. cbn. unfold Binomial.C. cbn. replace ((2 - 3) / (1 - 3)) with (/ 2) by lra. rewrite ln_Rinv by lra.
    pose proof ln_lt_2. lra.
  - unfold log_error. cbn. unfold Binomial.C. cbn. field_simplify. lra.
  - reflexivity.
Qed.
Print Assumptions power_over_power_partial.
(** Refuted: x / (x - 3)^2 over [1, 2] *)
Theorem power_over_power_refuted : exists n m z lb ub v, one_side z lb ub /\ integral_power_div_monomial n m z lb ub = Some v
  /\ ~ area (fun x => x ^ n / (x - z) ^ m) lb ub v.
Proof.
  assert (O : one_side 3 1 2) by (unfold one_side; lra).
  destruct (power_over_power_partial 1 2 3 1 2 O) as (v & E & A & _). exists 1%nat, 2%nat, 3, 1, 2, v. split; [exact O|]. split; [exact E|].
  intro B. specialize (A ltac:(lra)). pose proof (area_unique _ 1 2 _ _ ltac:(lra) A B) as X.
  assert (L : log_error 1 2 3 1 2 = 0) by lra. unfold log_error in L. cbn in L. unfold Binomial.C in L. cbn in L.
  replace ((2 - 3) / (1 - 3)) with (/ 2) in L by lra. rewrite ln_Rinv in L by lra. pose proof ln_lt_2.
  assert (Y : (3 - 1) * ln 2 = 0) by lra. lra.
Qed.
Print Assumptions power_over_power_refuted.
(** A polynomial over x - z *)
Theorem polynomial_over_factor : forall cs z lb ub, z <> 0 -> one_side z lb ub ->
  exists v, integral_poly_div_simple_factor cs z lb ub = Some v /\ area (fun x => poly cs x / (x - z)) lb ub v.
Proof. intros. now apply simple_factor_value. Qed.
Example polynomial_over_factor_case : poly [1; 2; 3] 2 = 17 /\ one_side 5 1 2.
Proof. unfold one_side. cbn. split; lra. Qed.
Print Assumptions polynomial_over_factor.
(** A polynomial over a product of different factors.  Full claim: the returned value is the integral of the
    polynomial over the product.  Proved: it is the integral of the squared polynomial over the product, so
    it is the one asked for only if the polynomial is 1 at all the poles. *)
Theorem polynomial_over_product_partial : forall cs zs lb ub, cs <> [] -> zs <> [] -> (length cs <= length zs)%nat -> NoDup zs ->
  (forall z, In z zs -> z <> 0 /\ one_side z lb ub) ->
  exists v, integral_poly_div_simple_factored cs zs lb ub = Some v
    /\ area (fun x => poly cs x ^ 2 / from_roots zs x) lb ub v
    /\ ((forall z, In z zs -> poly cs z = 1) -> area (fun x => poly cs x / from_roots zs x) lb ub v).
Proof.
  intros cs zs lb ub Hc Hz Hl Hn Ho. destruct (factored_value cs zs lb ub Hc Hn Ho) as (v & E & A). exists v. split; [exact E|].
  assert (N : forall t, lb < t < ub -> ~ In t zs).
  { intros t Ht Hin. destruct (Ho t Hin) as [_ [_ [C|C]]]; lra. }
  split.
  - refine (area_ext _ _ _ _ _ [] _ A). intros t Ht _. rewrite <- (partial_fractions zs Hn cs t Hl (N t Ht)). unfold Rdiv. ring.
  - intro H1. refine (area_ext _ _ _ _ _ [] _ A). intros t Ht _. 
    replace (rsum (map (fun z => poly cs z / roots_deriv zs z * / (t - z)) zs)) with (rsum (map (fun z => poly [1] z / roots_deriv zs z * / (t - z)) zs)).
    + rewrite <- (partial_fractions zs Hn [1] t).
      * cbn [poly]. unfold Rdiv. ring.
      * destruct zs; [contradiction|cbn; lia].
      * now apply N.
    + apply rsum_ext. intros z Hin. rewrite (H1 z Hin). cbn [poly]. f_equal. f_equal. ring.
Qed.
Example polynomial_over_product_case :
  NoDup [3; 4] /\ (forall z, In z [3; 4] -> z <> 0 /\ one_side z 1 2) /\ poly [2; 5] 3 = 17 /\ from_roots [3; 4] 1 = 6.
Proof.
  split; [|split].
  - constructor; [cbn; lra|]. constructor; [cbn; tauto|constructor].
  - intros z [<-|[<-|[]]]; unfold one_side; lra.
  - cbn. lra.
Qed.
Print Assumptions polynomial_over_product_partial.
Theorem polynomial_over_product_refuted : exists cs zs lb ub v, (length cs <= length zs)%nat /\ NoDup zs
  /\ (forall z, In z zs -> z <> 0 /\ one_side z lb ub) /\ integral_poly_div_simple_factored cs zs lb ub = Some v
  /\ ~ area (fun x => poly cs x / from_roots zs x) lb ub v.
Proof.
  assert (Ho : forall z, In z [3] -> z <> 0 /\ one_side z 1 2) by (intros z [<-|[]]; unfold one_side; lra).
  assert (Nd : NoDup [3]) by (constructor; [cbn; tauto|constructor]).
  destruct (polynomial_over_product_partial [2] [3] 1 2 ltac:(discriminate) ltac:(discriminate) ltac:(cbn; lia) Nd Ho) as (v & E & A & _).
  exists [2], [3], 1, 2, v. split; [cbn; lia|]. split; [exact Nd|]. split; [exact Ho|]. split; [exact E|]. intro B.
  apply (area_scale 2) in B. assert (X : v = 2 * v).
  { refine (area_unique _ 1 2 v (2 * v) _ A _); [lra|]. refine (area_ext _ _ _ _ _ [] _ B). intros x Hx _. cbn. field. lra. }
  assert (V : v = 0) by lra. subst v.
  pose proof (area_log 3 1 2 ltac:(unfold one_side; lra)) as L. apply (area_scale 4) in L.
  assert (Z : 2 * 0 = 4 * ln ((2 - 3) / (1 - 3))).
  { refine (area_unique _ 1 2 _ _ _ B _); [lra|]. refine (area_ext _ _ _ _ _ [] _ L). intros x Hx _. cbn. field. lra. }
  replace ((2 - 3) / (1 - 3)) with (/ 2) in Z by lra. rewrite ln_Rinv in Z by lra. pose proof ln_lt_2. lra.
Qed.
Print Assumptions polynomial_over_product_refuted.

(** * C149: Lorentz structures *)
(** The squared currents of two, three pseudoscalars and of a pseudoscalar with a vector *)
Theorem old_two_pseudoscalars : forall p1 p2 m1 m2 q, 0 < q -> event q [m1; m2] [p1; p2] ->
  msqrd_lorentz_p_p (q ^ 2) m1 m2 = squared (current_pp p1 p2).
Proof. intros p1 p2 m1 m2 q Hq Ev. apply event2_shell in Ev. now apply old_pp. Qed.
Theorem old_pseudoscalar_vector : forall p k mp mv q, 0 < q -> 0 < mv -> event q [mp; mv] [p; k] ->
  msqrd_lorentz_p_v (q ^ 2) mp mv = squared_pol k (1 / mv ^ 2) (current_pv (vplus p k) p).
Proof. intros p k mp mv q Hq Hm Ev. apply event2_shell in Ev. now apply old_pv. Qed.
Theorem old_three_pseudoscalars : forall p1 p2 p3 m1 m2 m3 q, 0 < q -> event q [m1; m2; m3] [p1; p2; p3] ->
  let s := lnorm_sqr (vplus p2 p3) in let t := lnorm_sqr (vplus p1 p3) in
  msqrd_lorentz_p_p_p s t q m1 m2 m3 = squared (current_ppp p1 p2 p3)
  /\ poly (msqrd_lorentz_p_p_p_t_coeffs s q m1 m2 m3) t = squared (current_ppp p1 p2 p3)
  /\ pikk_lorentz m1 m2 m3 s t q = squared (current_ppp p1 p2 p3)
  /\ 0 <= squared (current_ppp p1 p2 p3)
  /\ (m2 = m3 -> forall f2, pi3_msqrd m1 m2 f2 (q ^ 2) [p1; p2; p3]
        = Ret (f2 (q ^ 2) s t (lnorm_sqr (vplus p1 p2)) * (squared (current_ppp p1 p2 p3) / 3))).
Proof.
  intros p1 p2 p3 m1 m2 m3 q Hq Ev s t. pose proof (old_ppp p1 p2 p3 m1 m2 m3 q Hq Ev) as E. fold s t in E.
  split; [exact E|]. split; [rewrite old_coeffs; exact E|]. split; [rewrite old_pikk; exact E|]. split; [eapply squared_nonneg; exact Ev|].
  intros <- f2. now apply pi3_msqrd_value.
Qed.
Lemma event_33 : event 10 [3; 3] [V4 5 4 0 0; V4 5 (-4) 0 0].
Proof.
  split; [repeat (apply Forall2_cons; [split; cbn [en px py pz]; lra|]); apply Forall2_nil|].
  unfold vsum. cbn. apply vec_eq; cbn; ring.
Qed.
Lemma event_30 : event 9 [3; 0] [V4 5 4 0 0; V4 4 (-4) 0 0].
Proof.
  split; [repeat (apply Forall2_cons; [split; cbn [en px py pz]; lra|]); apply Forall2_nil|].
  unfold vsum. cbn. apply vec_eq; cbn; ring.
Qed.
Example old_two_pseudoscalars_case : msqrd_lorentz_p_p (10 ^ 2) 3 3 = 64
  /\ squared (current_pp (V4 5 4 0 0) (V4 5 (-4) 0 0)) = 64.
Proof. rewrite <- (old_two_pseudoscalars _ _ 3 3 10 ltac:(lra) event_33). unfold msqrd_lorentz_p_p. lra. Qed.
Example old_pseudoscalar_vector_case : msqrd_lorentz_p_v (10 ^ 2) 3 3 = 3200
  /\ squared_pol (V4 5 (-4) 0 0) (1 / 3 ^ 2) (current_pv (V4 10 0 0 0) (V4 5 4 0 0)) = 3200.
Proof.
  pose proof (old_pseudoscalar_vector _ _ 3 3 10 ltac:(lra) ltac:(lra) event_33) as E.
  replace (vplus (V4 5 4 0 0) (V4 5 (-4) 0 0)) with (V4 10 0 0 0) in E by (apply vec_eq; cbn; ring).
  rewrite <- E. unfold msqrd_lorentz_p_v, kallen_lambda. lra.
Qed.
Example old_three_pseudoscalars_case : exists v, 0 < v /\
  squared (current_ppp (V4 3 2 2 0) (V4 3 (-2) 2 0) (V4 5 0 (-4) 0)) = v.
Proof.
  destruct (old_three_pseudoscalars _ _ _ 1 1 3 11 ltac:(lra) VffProps.event_113) as (E & _). rewrite <- E.
  eexists. split; [|reflexivity]. unfold msqrd_lorentz_p_p_p, lnorm_sqr. cbn [vplus en px py pz]. lra.
Qed.
Print Assumptions old_two_pseudoscalars.
Print Assumptions old_pseudoscalar_vector.
Print Assumptions old_three_pseudoscalars.

(** * C150: two-body widths and cross sections *)
(** The rate of a decay at rest: momentum over 8 pi M^2 times the squared matrix element averaged over the
    three polarisations *)
Theorem old_width_two_pseudoscalars : forall mv m ff2 sym p1 p2, 0 < mv -> 0 <= m -> event mv [m; m] [p1; p2] ->
  width_v_to_p_p mv m ff2 sym = Some (sym * two_body_rate mv p1 (ff2 * (squared (current_pp p1 p2) / 3))).
Proof. intros. now apply width_pp_rate. Qed.
Theorem old_width_photon : forall mv m ff2 p k, 0 < mv -> 0 <= m -> event mv [m; 0] [p; k] ->
  width_v_to_p_a mv m ff2 = Some (two_body_rate mv p (ff2 / mv ^ 2 * (squared_pol k 0 (current_pv (vplus p k) k) / 3))).
Proof. intros. now apply width_pa_rate. Qed.
Theorem old_width_vector : forall mv mvec ms ff2 p k, 0 < mv -> 0 < mvec -> 0 <= ms -> event mv [ms; mvec] [p; k] ->
  width_v_to_v_p mv ff2 mvec ms = Some (two_body_rate mv p (ff2 / mv ^ 2 * (squared_pol k (1 / mvec ^ 2) (current_pv (vplus p k) p) / 3))).
Proof. intros. now apply width_vp_rate. Qed.
Theorem old_widths_closed : forall mv m mvec ff2 sym, mv < m + mvec ->
  (m = mvec -> width_v_to_p_p mv m ff2 sym = Some 0) /\ (mvec = 0 -> width_v_to_p_a mv m ff2 = Some 0)
  /\ width_v_to_v_p mv ff2 mvec m = Some 0.
Proof.
  intros mv m mvec ff2 sym H. split; [|split].
  - intros <-. unfold width_v_to_p_p. destruct (Rlt_dec mv (2 * m)); [reflexivity|lra].
  - intros ->. unfold width_v_to_p_a. destruct (Rlt_dec mv m); [reflexivity|lra].
  - unfold width_v_to_v_p. destruct (Rlt_dec mv (mvec + m)); [reflexivity|lra].
Qed.
Example old_widths_case : event 10 [3; 3] [V4 5 4 0 0; V4 5 (-4) 0 0] /\ event 9 [3; 0] [V4 5 4 0 0; V4 4 (-4) 0 0]
  /\ two_body_rate 10 (V4 5 4 0 0) 200 = 1 / PI /\ 5 < 3 + 3.
Proof.
  split; [exact event_33|]. split; [exact event_30|]. split; [|lra]. unfold two_body_rate, mom. cbn [px py pz].
  replace (4 ^ 2 + 0 ^ 2 + 0 ^ 2) with (4 ^ 2) by ring. rewrite sqrt_pow2 by lra. field. apply PI_neq0.
Qed.
Print Assumptions old_width_two_pseudoscalars.
Print Assumptions old_width_photon.
Print Assumptions old_width_vector.
Print Assumptions old_widths_closed.
(** Cross sections: the width of a vector of mass sqrt s times the propagator and the flux.  Full claim: each
    function gives g^2 times this with the coupling g of the dark matter.  FormFactor.cross_section does; the
    functions of cross_sections.py take no coupling and give it for g = 1. *)
Theorem old_cross_sections_partial : forall cme mx mv wv, regular cme mx mv wv ->
  (forall width g, ff_cross_section width cme mx mv wv g = Some (rate_to_cross_section cme mx mv wv g * width cme))
  /\ width_to_cs cme mx mv wv = Some (rate_to_cross_section cme mx mv wv 1)
  /\ (forall mp ff2, 0 <= mp -> 2 * mp < cme -> exists w, width_v_to_p_p cme mp ff2 1 = Some w
        /\ cross_section_x_x_to_p_p (cme ^ 2) mx mp ff2 mv wv = Some (rate_to_cross_section cme mx mv wv 1 * w))
  /\ (forall mp mvec ff2, 0 <= mp -> 0 <= mvec -> mvec + mp < cme -> exists w, width_v_to_v_p cme ff2 mvec mp = Some w
        /\ cross_section_x_x_to_p_v (cme ^ 2) mx mp mvec ff2 mv wv = Some (rate_to_cross_section cme mx mv wv 1 * w)).
Proof.
  intros cme mx mv wv H. split; [intros; now apply ff_cross_section_value|]. split; [now apply width_to_cs_value|].
  split; intros; [now apply cs_pp_value|now apply cs_pv_value].
Qed.
Example old_cross_sections_case : regular 10 4 2 1 /\ rate_to_cross_section 10 4 2 1 3 = 297 / 13830.
Proof.
  split; [unfold regular; repeat split; lra|]. unfold rate_to_cross_section.
  replace (10 ^ 2 - 4 * 4 ^ 2) with (6 ^ 2) by ring. rewrite sqrt_pow2 by lra. lra.
Qed.
Print Assumptions old_cross_sections_partial.
(** Refuted: the docstring of width_to_cs has the factor gvxx^2 *)
Theorem width_to_cs_coupling_refuted : exists cme mx mv wv g f, regular cme mx mv wv /\ width_to_cs cme mx mv wv = Some f
  /\ f <> rate_to_cross_section cme mx mv wv g.
Proof.
  exists 10, 4, 2, 1, 3, (rate_to_cross_section 10 4 2 1 1). destruct old_cross_sections_case as [H E]. split; [exact H|].
  split; [now apply width_to_cs_value|]. rewrite E. unfold rate_to_cross_section.
  replace (10 ^ 2 - 4 * 4 ^ 2) with (6 ^ 2) by ring. rewrite sqrt_pow2 by lra. lra.
Qed.
Print Assumptions width_to_cs_coupling_refuted.
(** Refuted: with the form factor of the width, the function for a photon is larger by s, and the functions for
    integrated form factors are twice what the width demands *)
Theorem old_cross_sections_refuted : exists cme mx mv wv, regular cme mx mv wv
  /\ (exists mp ff2 w x, width_v_to_p_a cme mp ff2 = Some w /\ cross_section_x_x_to_p_a (cme ^ 2) mx mp ff2 mv wv = Some x
        /\ x = 100 * (rate_to_cross_section cme mx mv wv 1 * w) /\ 0 < w)
  /\ (forall ff, cross_section cme mx mv wv ff = Some (2 * (rate_to_cross_section cme mx mv wv 1 * (ff * cme / 2))))
  /\ (forall generate neutral, exists w, four_pi_width generate neutral cme = Some w
        /\ four_pi_cross_section generate neutral cme mx mv wv = Some (2 * (rate_to_cross_section cme mx mv wv 1 * w))).
Proof.
  exists 10, 4, 2, 1. destruct old_cross_sections_case as [H E]. split; [exact H|]. split; [|split].
  - destruct (cs_pa_value 10 4 0 1 2 1 H ltac:(lra) ltac:(lra)) as (w & Ew & Ex). exists 0, 1, w.
    eexists. split; [exact Ew|]. split; [exact Ex|]. split; [ring|]. pose proof PI_RGT_0 as PP. unfold width_v_to_p_a in Ew.
    destruct (Rlt_dec 10 0); [lra|]. replace (kallen_lambda 1 ((0 / 10) ^ 2) 0) with (1 ^ 2) in Ew by (unfold kallen_lambda; field).
    rewrite osqrt_sq in Ew by lra. injection Ew as <-. apply Rdiv_lt_0_compat; lra.
  - intro ff. now apply cs_integrated_value.
  - intros. now apply four_pi_cs_value.
Qed.
Print Assumptions old_cross_sections_refuted.

(** * C151: three-body widths *)
(** pi pi eta and pi pi eta': the golden rule, in GeV, for an exact [quad] *)
Theorem old_width_pi_pi_eta : forall quad meta f2 msqrd mv, 0 <= meta -> 2 * par_mpi + meta < mv ->
  let q := gev mv in let me := gev meta in let mp := gev par_mpi in
  area (pieta_integrand mp me f2 q) ((2 * mp) ^ 2) ((q - me) ^ 2)
    (quad (pieta_integrand mp me f2 q) ((2 * mp) ^ 2) ((q - me) ^ 2)) ->
  (forall p1 p2 p3, event q [me; mp; mp] [p1; p2; p3] ->
     let s := lnorm_sqr (vplus p2 p3) in msqrd s (lnorm_sqr (vplus p1 p3)) = f2 q s * (squared (current_ppp p1 p2 p3) / 3)) ->
  phase_space_width q me mp mp msqrd (gev (pieta_width quad meta f2 mv)).
Proof. intros quad meta f2 msqrd mv. apply pieta_width_phase. Qed.
Theorem old_width_pi_pi_eta_closed : forall quad meta f2 mv, mv < 2 * par_mpi + meta -> pieta_width quad meta f2 mv = 0.
Proof. intros. unfold pieta_width. destruct (Rlt_dec mv (2 * par_mpi + meta)); [reflexivity|contradiction]. Qed.
Example old_width_pi_pi_eta_case : 2 * par_mpi + par_meta < 1000 /\ 0 <= par_meta
  /\ exists quad : (R -> R) -> R -> R -> R,
      let f := pieta_integrand (gev par_mpi) (gev par_meta) (fun _ _ => 1) (gev 1000) in
      area f ((2 * gev par_mpi) ^ 2) ((gev 1000 - gev par_meta) ^ 2) (quad f ((2 * gev par_mpi) ^ 2) ((gev 1000 - gev par_meta) ^ 2)).
Proof.
  split; [unfold par_mpi, par_meta; lra|]. split; [unfold par_meta; lra|].
  destruct (integrand_area (gev 1000) (gev par_meta) (gev par_mpi)) as [v A]; [unfold gev, par_meta; lra|unfold gev, par_mpi; lra|unfold gev, par_mpi, par_meta; lra|].
  exists (fun _ _ _ => v). exact A.
Qed.
Print Assumptions old_width_pi_pi_eta.
Print Assumptions old_width_pi_pi_eta_closed.
(** pi pi omega; half of it for two neutral pions *)
Theorem old_width_pi_pi_omega : forall quad f2 msqrd imode mv, 2 * par_mpi + par_momega < mv ->
  let q := gev mv in let mo := gev par_momega in let mp := gev par_mpi in
  let f := piomega_integrand (mp / q) (mo / q) (f2 q) in
  area f ((2 * (mp / q)) ^ 2) ((1 - mo / q) ^ 2) (quad f ((2 * (mp / q)) ^ 2) ((1 - mo / q) ^ 2)) ->
  (forall k p1 p2, event q [mo; mp; mp] [k; p1; p2] ->
     msqrd (lnorm_sqr (vplus p1 p2)) (lnorm_sqr (vplus k p2)) = q ^ 2 * (f2 q * ppv_msq q mo k)) ->
  phase_space_width q mo mp mp msqrd (gev (piomega_width quad f2 imode mv) * (if Z.eqb imode 0 then 2 else 1)).
Proof. intros quad f2 msqrd imode mv. apply piomega_width_phase. Qed.
Example old_width_pi_pi_omega_case : 2 * par_mpi + par_momega < 2000
  /\ exists quad : (R -> R) -> R -> R -> R,
      let f := piomega_integrand (gev par_mpi / gev 2000) (gev par_momega / gev 2000) 1 in
      area f ((2 * (gev par_mpi / gev 2000)) ^ 2) ((1 - gev par_momega / gev 2000) ^ 2)
        (quad f ((2 * (gev par_mpi / gev 2000)) ^ 2) ((1 - gev par_momega / gev 2000) ^ 2)).
Proof.
  split; [unfold par_mpi, par_momega; lra|].
  destruct (omega_integrand_area (gev par_mpi / gev 2000) (gev par_momega / gev 2000) 1) as [v A];
    [unfold gev, par_mpi; lra|unfold gev, par_momega; lra|unfold gev, par_mpi, par_momega; lra|].
  exists (fun _ _ _ => v). exact A.
Qed.
Print Assumptions old_width_pi_pi_omega.
(** Refuted: with two neutral pions the channel opens at 2 m(pi0) + m(omega), but the threshold of the charged
    pions is used, so that the width is zero in an open channel *)
Theorem old_width_omega_neutral_refuted : exists mv, 2 * par_mpi0 + par_momega < mv
  /\ (exists k p1 p2, event mv [par_momega; par_mpi0; par_mpi0] [k; p1; p2] /\ 0 < ppv_msq mv par_momega k)
  /\ forall quad f2, piomega_width quad f2 0 mv = 0.
Proof.
  set (mv := 2 * par_mpi0 + par_momega + 1). exists mv. split; [unfold mv; lra|]. split.
  - set (e := (mv - par_momega) / 2). assert (He : par_mpi0 < e) by (unfold e, mv; lra). assert (H0 : 0 < par_mpi0) by (unfold par_mpi0; lra).
    set (p := sqrt (e ^ 2 - par_mpi0 ^ 2)). assert (Hp : p ^ 2 = e ^ 2 - par_mpi0 ^ 2) by (unfold p; rewrite pow2_sqrt; [reflexivity|nra]).
    assert (Hm : 0 < par_momega) by (unfold par_momega; lra). assert (Hv : 0 < mv) by (unfold mv; lra).
    set (k := V4 par_momega 0 0 0). set (p1 := V4 e p 0 0). set (p2 := V4 e (- p) 0 0).
    assert (Ev : event mv [par_momega; par_mpi0; par_mpi0] [k; p1; p2]).
    { apply event3_intro.
      - split; cbn [k en px py pz]; [ring|lra].
      - split; cbn [p1 en px py pz]; lra.
      - split; cbn [p2 en px py pz]; lra.
      - apply vec_eq; cbn [k p1 p2 vplus en px py pz]; unfold e; lra. }
    exists k, p1, p2. split; [exact Ev|]. rewrite (ppv_msq_of_s mv par_momega par_mpi0 par_mpi0 k p1 p2 Hv Hm Ev). unfold ppv_of_s.
    apply Rdiv_lt_0_compat.
    + set (x := (mv ^ 2 + _ - _) / 2). pose proof (pow2_ge_0 x). assert (0 < par_momega ^ 2) by now apply pow_lt.
      assert (0 < mv ^ 2) by now apply pow_lt. assert (0 < 2 * par_momega ^ 2 * mv ^ 2) by (apply Rmult_lt_0_compat; lra). lra.
    + assert (0 < par_momega ^ 2) by now apply pow_lt. assert (0 < mv ^ 4) by now apply pow_lt. apply Rmult_lt_0_compat; lra.
  - intros quad f2. unfold piomega_width. destruct (Rlt_dec mv (2 * par_mpi + par_momega)) as [_|C]; [reflexivity|].
    exfalso. apply C. unfold mv, par_mpi, par_mpi0. lra.
Qed.
Print Assumptions old_width_omega_neutral_refuted.
(** Three pions and pion with two kaons: the average of weight times squared matrix element over 2 M, the
    average over polarisations included in the matrix element of the first and in the 6 of the second.
    Full claim for three pions: for every mass above threshold.  Proved: if the mass squared in GeV^2 is
    above the threshold in GeV. *)
Theorem old_width_three_pions_partial : forall avg mv,
  (2 * par_mpi + par_mpi0 <= mv -> 2 * gev par_mpi + gev par_mpi0 <= gev mv ^ 2 -> gev (pi3_width avg mv) = avg (gev mv) / (2 * gev mv))
  /\ (mv < 2 * par_mpi + par_mpi0 -> pi3_width avg mv = 0).
Proof.
  intros avg mv. unfold pi3_width. split.
  - intros H1 H2. destruct (Rlt_dec mv (2 * par_mpi + par_mpi0)) as [C|_]; [lra|]. unfold pi3_integrated, pi3_integrated_gev.
    assert (M : 0 < mv) by (unfold par_mpi, par_mpi0 in H1; lra).
    replace (mv ^ 2 * (1 / 10 ^ 6)) with (gev mv ^ 2) by (unfold gev; field). destruct (Rlt_dec _ _) as [C|_]; [lra|].
    rewrite sqrt_pow2 by (unfold gev; lra). set (a := avg (gev mv)). clearbody a. unfold gev. field. lra.
  - intro H. destruct (Rlt_dec mv (2 * par_mpi + par_mpi0)); [reflexivity|contradiction].
Qed.
Theorem old_width_pi_k_k : forall m1 m2 m3 avg m, 0 <= m1 -> 0 <= m2 -> 0 <= m3 -> 0 < m ->
  (m1 + m2 + m3 <= gev m -> gev (pikk_width (m1, m2, m3) avg m) = avg (gev m) / (2 * gev m) / 3)
  /\ (gev m < m1 + m2 + m3 -> pikk_width (m1, m2, m3) avg m = 0).
Proof.
  intros m1 m2 m3 avg m H1 H2 H3 Hm. unfold pikk_width, pikk_integrated, pikk_integrated_gev. fold (gev m). split; intro H.
  - destruct (Rlt_dec m (m1 + m2 + m3)) as [C|_]; [unfold gev in H; lra|]. destruct (Rlt_dec (gev m) (m1 + m2 + m3)) as [C|_]; [lra|].
    set (a := avg (gev m)). clearbody a. unfold gev. field. lra.
  - destruct (Rlt_dec m (m1 + m2 + m3)) as [C|_]; [unfold Rdiv; ring|]. destruct (Rlt_dec (gev m) (m1 + m2 + m3)) as [_|C]; [unfold Rdiv; ring|lra].
Qed.
Example old_width_three_pions_case : 2 * par_mpi + par_mpi0 <= 782 /\ 2 * gev par_mpi + gev par_mpi0 <= gev 782 ^ 2
  /\ 0.494 + 0.494 + 0.135 <= gev 1500 /\ gev 1000 < 0.494 + 0.494 + 0.135.
Proof. unfold gev, par_mpi, par_mpi0. lra. Qed.
Print Assumptions old_width_three_pions_partial.
Print Assumptions old_width_pi_k_k.
(** Refuted: the squared energy is compared with the sum of the masses, so that at 500 MeV, in an open channel
    with a non-vanishing current, the width is zero *)
Theorem old_width_three_pions_refuted : exists mv p1 p2 p3,
  event (gev mv) [gev par_mpi0; gev par_mpi; gev par_mpi] [p1; p2; p3] /\ 0 < squared (current_ppp p1 p2 p3)
  /\ forall avg, pi3_width avg mv = 0.
Proof.
  assert (G : forall q m0 mp s, q = 0.5 -> m0 = 0.1349768 -> mp = 0.13957039 -> s = 0.1 ->
    exists p1 p2 p3, event q [m0; mp; mp] [p1; p2; p3] /\ 0 < squared (current_ppp p1 p2 p3)).
  { intros q m0 mp s Hq H0 Hp Hs0.
    assert (Hs : (mp + mp) ^ 2 < s < (q - m0) ^ 2) by (rewrite H0, Hp, Hq, Hs0; lra).
    assert (K1 : 0 < kallen_lambda s (q ^ 2) (m0 ^ 2)) by (apply kallen_pos_below; lra).
    assert (K2 : 0 < kallen_lambda s (mp ^ 2) (mp ^ 2)) by (apply kallen_pos_above; lra).
    assert (HK : 0 < kallen_lambda s (q ^ 2) (m0 ^ 2) * kallen_lambda s (mp ^ 2) (mp ^ 2)) by now apply Rmult_lt_0_compat.
    assert (S0 : 0 < s) by lra.
    assert (D : dalitz q m0 mp mp s (dz_mid (q ^ 2) (m0 ^ 2) (mp ^ 2) (mp ^ 2) s)).
    { pose proof (half_nonneg (q ^ 2) (m0 ^ 2) (mp ^ 2) (mp ^ 2) s S0). apply dalitz_strip; lra. }
    destruct D as (p1 & p2 & p3 & Ev & Es & Et). exists p1, p2, p3. split; [exact Ev|].
    rewrite <- (old_ppp p1 p2 p3 m0 mp mp q ltac:(lra) Ev), <- Es, <- Et, old_ppp_new by lra. rewrite ppp_factor by lra.
    set (mid := dz_mid _ _ _ _ _). replace (mid - mid) with 0 by ring.
    assert (Hh : 0 < dz_half (q ^ 2) (m0 ^ 2) (mp ^ 2) (mp ^ 2) s).
    { unfold dz_half. apply Rdiv_lt_0_compat; [now apply sqrt_lt_R0|lra]. }
    set (h := dz_half _ _ _ _ _) in *. clearbody h. replace (3 * q ^ 2 * (s * (h ^ 2 - 0 ^ 2) / (12 * q ^ 2))) with (s * h ^ 2 / 4) by (field; lra).
    assert (0 < h ^ 2) by now apply pow_lt. apply Rdiv_lt_0_compat; [now apply Rmult_lt_0_compat|lra]. }
  destruct (G (gev 500) (gev par_mpi0) (gev par_mpi) 0.1) as (p1 & p2 & p3 & Ev & P);
    [unfold gev; lra|unfold gev, par_mpi0; lra|unfold gev, par_mpi; lra|reflexivity|].
  exists 500, p1, p2, p3. split; [exact Ev|]. split; [exact P|].
  intro avg. unfold pi3_width. destruct (Rlt_dec _ _); [reflexivity|]. unfold pi3_integrated, pi3_integrated_gev.
  destruct (Rlt_dec _ _) as [_|C]; [unfold Rdiv; ring|]. exfalso. apply C. unfold gev, par_mpi, par_mpi0. lra.
Qed.
Print Assumptions old_width_three_pions_refuted.

(** * C152: energy distributions *)
(** pi pi eta: the exact distributions of the squared current, for both pions and the eta *)
Theorem old_distributions_eta : forall quad cme n, 2 * par_mpi + par_meta < cme -> (0 < n)%nat ->
  (forall m1 m2 m3, (m1, m2, m3) = (par_mpi, par_mpi, par_meta) \/ (m1, m2, m3) = (par_meta, par_mpi, par_mpi) ->
     let f := fun e => pieta_edist cme e m1 m2 m3 in area f m1 (e_max cme m1 m2 m3) (quad f m1 (e_max cme m1 m2 m3))) ->
  let ep := bin_centers (linspace par_mpi (e_max cme par_mpi par_mpi par_meta) n) in
  let ee := bin_centers (linspace par_meta (e_max cme par_meta par_mpi par_mpi) n) in
  exists dp de, pieta_distributions quad cme n = [(map Some dp, ep); (map Some dp, ep); (map Some de, ee)]
    /\ length dp = n /\ length de = n
    /\ normalised_density cme par_mpi par_mpi par_meta par_mpi (e_max cme par_mpi par_mpi par_meta) ep dp
    /\ normalised_density cme par_meta par_mpi par_mpi par_meta (e_max cme par_meta par_mpi par_mpi) ee de.
Proof.
  intros quad cme n Hc Hn A ep ee. unfold pieta_distributions. destruct (Rlt_dec cme (2 * par_mpi + par_meta)) as [C|_]; [lra|].
  assert (Hp : 0 < par_mpi) by (unfold par_mpi; lra). assert (He : 0 < par_meta) by (unfold par_meta; lra).
  destruct (make_dist_value quad cme par_mpi par_mpi par_meta n ltac:(lra) ltac:(lra) ltac:(lra) ltac:(lra) Hn) as (dp & Ep & Lp & Dp);
    [apply A; now left|].
  destruct (make_dist_value quad cme par_meta par_mpi par_mpi n ltac:(lra) ltac:(lra) ltac:(lra) ltac:(lra) Hn) as (de & Ee & Le & De);
    [apply A; now right|].
  exists dp, de. cbv zeta. rewrite Ep, Ee. now repeat split.
Qed.
Example old_distributions_eta_case : 2 * par_mpi + par_meta < 1000
  /\ (exists v, area (fun e => pieta_edist 1000 e par_mpi par_mpi par_meta) par_mpi (e_max 1000 par_mpi par_mpi par_meta) v)
  /\ (exists v, area (fun e => pieta_edist 1000 e par_meta par_mpi par_mpi) par_meta (e_max 1000 par_meta par_mpi par_mpi) v).
Proof. unfold par_mpi, par_meta. split; [lra|]. split; apply edist_area; lra. Qed.
Print Assumptions old_distributions_eta.
(** pi pi eta': the same over a range narrowed by 1e-10 at both ends, with the end points among the samples *)
Theorem old_distributions_etap : forall quad cme n, 2 * par_mpi + par_metap < cme ->
  let '(lp, hp) := shrunk_range cme par_mpi par_mpi par_metap in
  let '(le, he) := shrunk_range cme par_metap par_mpi par_mpi in
  lp < hp -> le < he -> area (pietap_edist_pi cme) lp hp (quad (pietap_edist_pi cme) lp hp) ->
  area (pietap_edist_eta cme) le he (quad (pietap_edist_eta cme) le he) ->
  let ep := linspace lp hp (n - 1) in
  let ee := linspace le he (n - 1) in
  exists dp de, pietap_distributions quad cme n = Ret [(dp, ep); (dp, ep); (de, ee)]
    /\ normalised_density cme par_mpi par_mpi par_metap lp hp ep dp
    /\ normalised_density cme par_metap par_mpi par_mpi le he ee de.
Proof.
  intros quad cme n Hc. assert (Hp : 0 < par_mpi) by (unfold par_mpi; lra). assert (He : 0 < par_metap) by (unfold par_metap; lra).
  pose proof (one_sample quad (pietap_edist_pi cme) cme par_mpi par_mpi par_metap (n - 1) Hp ltac:(lra) ltac:(lra) ltac:(lra) (pietap_pi cme)) as P.
  pose proof (one_sample quad (pietap_edist_eta cme) cme par_metap par_mpi par_mpi (n - 1) He ltac:(lra) ltac:(lra) ltac:(lra) (pietap_eta cme)) as E.
  unfold shrunk_range in *. intros L1 L2 A1 A2. destruct (P L1 A1) as (dp & Ep & Dp). destruct (E L2 A2) as (de & Ee & De).
  exists dp, de. split; [|now split]. unfold pietap_distributions. cbv zeta.
  replace (4 * par_mpi ^ 2) with ((par_mpi + par_mpi) ^ 2) by ring.
  fold (e_max cme par_mpi par_mpi par_metap). fold (e_max cme par_metap par_mpi par_mpi). rewrite Ep. cbn [bind]. rewrite Ee. reflexivity.
Qed.
Example old_distributions_etap_case : 2 * par_mpi + par_metap < 1500
  /\ fst (shrunk_range 1500 par_mpi par_mpi par_metap) < snd (shrunk_range 1500 par_mpi par_mpi par_metap)
  /\ fst (shrunk_range 1500 par_metap par_mpi par_mpi) < snd (shrunk_range 1500 par_metap par_mpi par_mpi).
Proof. unfold shrunk_range, e_max, par_mpi, par_metap. cbn [fst snd]. lra. Qed.
Print Assumptions old_distributions_etap.
(** Below threshold pi_pi_eta returns empty lists, pi_pi_etap divides by a vanishing integral *)
Theorem old_distributions_closed : forall quad cme n, (forall f a b, (forall x, f x = 0) -> quad f a b = 0) ->
  (cme < 2 * par_mpi + par_meta -> pieta_distributions quad cme n = [([], []); ([], []); ([], [])])
  /\ (par_mpi <= cme < 2 * par_mpi + par_metap -> pietap_distributions quad cme n = Raise ZeroDivisionError).
Proof.
  intros quad cme n Hz. split.
  - intro H. unfold pieta_distributions. destruct (Rlt_dec cme (2 * par_mpi + par_meta)); [reflexivity|contradiction].
  - intros [H1 H2]. unfold pietap_distributions. cbv zeta. rewrite Hz by (intro; now apply pietap_below).
    rewrite sample_dist_zero; [reflexivity|]. unfold linspace. cbn. discriminate.
Qed.
Example old_distributions_closed_case : 500 < 2 * par_mpi + par_meta /\ par_mpi <= 1000 < 2 * par_mpi + par_metap.
Proof. unfold par_mpi, par_meta, par_metap. lra. Qed.
Print Assumptions old_distributions_closed.
(** pi pi omega: proportional to the exact distributions of the squared matrix element and normalised by the
    trapezoidal rule over the bin centres *)
Theorem old_distributions_omega : forall imode mp cme n, mode_mass imode = Some mp -> 2 * mp + par_momega < cme -> (2 <= n)%nat ->
  exists ep dp ew dw, piomega_distributions imode cme n = Ret [(ep, dp); (ep, dp); (ew, dw)]
  /\ trap_samples ep dp mp (e_max cme mp mp par_momega) n (energy_density cme par_momega mp mp 1 (ppv_msq cme par_momega))
  /\ trap_samples ew dw par_momega (e_max cme par_momega mp mp) n (energy_density cme par_momega mp mp 0 (ppv_msq cme par_momega)).
Proof. intros. now apply piomega_samples. Qed.
Theorem old_distributions_omega_other : forall imode cme n, imode <> 0%Z -> imode <> 1%Z -> piomega_distributions imode cme n = Raise ValueError.
Proof.
  intros imode cme n H0 H1. unfold piomega_distributions. apply Z.eqb_neq in H0, H1. rewrite H0, H1. reflexivity.
Qed.
Example old_distributions_omega_case : mode_mass 1 = Some par_mpi /\ mode_mass 0 = Some par_mpi0 /\ 2 * par_mpi + par_momega < 1500.
Proof. split; [reflexivity|]. split; [reflexivity|]. unfold par_mpi, par_momega. lra. Qed.
Print Assumptions old_distributions_omega.
Print Assumptions old_distributions_omega_other.
(** Refuted: with one bin the trapezoidal rule gives 0 and the value is not a number *)
Theorem old_distributions_one_bin_refuted : exists cme, 2 * par_mpi + par_momega < cme
  /\ exists e, piomega_distributions 1 cme 1 = Ret e /\ Forall (fun d => snd d = [None]) e.
Proof.
  exists 1500. split; [unfold par_mpi, par_momega; lra|]. unfold piomega_distributions. cbn [Z.eqb Pos.eqb bind]. cbv zeta.
  destruct (Rlt_dec 1500 (2 * par_mpi + par_momega)) as [C|_]; [unfold par_mpi, par_momega in C; lra|].
  eexists. split; [reflexivity|]. rewrite !linspace_scale. unfold linspace. cbn [seq map bin_centers snd Nat.add].
  unfold piomega_normalized. cbn [trapezoid map]. unfold odiv. destruct (Req_EM_T 0 0) as [_|C]; [|contradiction]. repeat constructor.
Qed.
Print Assumptions old_distributions_one_bin_refuted.
(** Three and four pions: the conversion from GeV to MeV keeps the probability of each bin and divides the
    edges by 1000.  Full claim: it multiplies them by 1000. *)
Lemma widths_scale c : forall l, widths (map (Rmult c) l) = map (Rmult c) (widths l).
Proof.
  induction l as [|a [|b l] IH]; [reflexivity|reflexivity|]. unfold widths in *. cbn [map tl combine fst snd] in *. rewrite IH. f_equal. ring.
Qed.
Lemma binned_scale c d : forall ps ws, total (map (fun pw => fst pw * snd pw) (combine (map (Rmult c) ps) (map (Rmult d) ws)))
  = c * d * total (map (fun pw => fst pw * snd pw) (combine ps ws)).
Proof.
  induction ps as [|p ps IH]; intros [|w ws]; cbn [map combine total]; try (unfold total; cbn; ring).
  unfold total in *. cbn [fold_right fst snd]. rewrite IH. ring.
Qed.
Theorem old_conversion_partial : forall d ps, probabilities d = Some ps -> ps <> [] -> length (bins d) = S (length ps) ->
  binned_integral ps (bins d) = 1 ->
  exists d', convert_dist d = Ret d' /\ bins d' = map (fun e => e / 1000) (bins d)
    /\ probabilities d' = Some (map (Rmult 1000) ps) /\ binned_integral (map (Rmult 1000) ps) (bins d') = 1.
Proof.
  intros d ps E Hne Hl Hn. unfold convert_dist. rewrite E. unfold dist_new. rewrite !map_length, Hl.
  replace (Nat.eqb (S (length ps)) (length ps + 1)) with true by (symmetry; apply Nat.eqb_eq; lia).
  replace (10 ^ 3) with 1000 by lra.
  assert (B : binned_integral (map (Rmult 1000) ps) (map (Rmult (1 / 1000)) (bins d)) = 1).
  { unfold binned_integral. rewrite widths_scale, binned_scale. unfold binned_integral in Hn. rewrite Hn. lra. }
  destruct (normalize_distribution_exact (map (Rmult 1000) ps) (map (Rmult (1 / 1000)) (bins d))) as [N _].
  - destruct ps; [contradiction|discriminate].
  - now rewrite !map_length.
  - destruct (N ltac:(lra)) as (qs & En & Eq & Lq & V). rewrite En. cbn [bind].
    assert (Q : qs = map (Rmult 1000) ps).
    { apply nth_error_ext_old. intro i. destruct (nth_error (map (Rmult 1000) ps) i) as [p|] eqn:Ei.
      - rewrite (V i p Ei), B. f_equal. field.
      - apply nth_error_None. apply nth_error_None in Ei. lia. }
    eexists. split; [reflexivity|]. cbn [bins probabilities]. split; [apply map_ext; intro; lra|]. rewrite Q. split; [reflexivity|].
    exact B.
Qed.
Example old_conversion_case : exists d, probabilities d = Some [4; 1] /\ length (bins d) = 3%nat /\ binned_integral [4; 1] (bins d) = 1.
Proof.
  exists {| bins := [0.14; 0.34; 0.54]; centers := [0.24; 0.44]; probabilities := Some [4; 1] |}. split; [reflexivity|]. split; [reflexivity|].
  unfold binned_integral. cbn. lra.
Qed.
Print Assumptions old_conversion_partial.
Theorem old_conversion_refuted : exists d d', convert_dist d = Ret d' /\ bins d' <> map (fun e => 1000 * e) (bins d).
Proof.
  set (d := {| bins := [0.14; 0.34; 0.54]; centers := [0.24; 0.44]; probabilities := Some [4; 1] |}).
  destruct (old_conversion_partial d [4; 1] eq_refl ltac:(discriminate) eq_refl ltac:(unfold binned_integral; cbn; lra)) as (d' & E & B & _).
  exists d, d'. split; [exact E|]. rewrite B. cbn. intro C. injection C as C _ _. lra.
Qed.
Print Assumptions old_conversion_refuted.
(** Refuted: the masses in GeV are used at an energy in MeV, so that the bins of pi K K start a thousand times
    below the lowest energy of the particle *)
Theorem old_pi_k_k_bins_refuted : exists m1 m2 m3 m edges e0, nth_error (pikk_bins (m1, m2, m3) m 25) 0 = Some edges
  /\ nth_error edges 0 = Some e0 /\ 1000 * (m1 + m2 + m3) < m
  /\ forall p1 p2 p3, event m [1000 * m1; 1000 * m2; 1000 * m3] [p1; p2; p3] -> 1000 * e0 <= en p1 /\ 0 < e0.
Proof.
  exists 0.5, 0.5, 0.135, 1500. eexists. exists 0.5. split; [reflexivity|]. split.
  - rewrite nth_error_linspace by lia. cbn [fst snd INR]. f_equal. ring.
  - split; [lra|]. intros p1 p2 p3 Ev. apply event3 in Ev. destruct Ev as ((_ & L) & _). lra.
Qed.
Print Assumptions old_pi_k_k_bins_refuted.

(** * C153: the properties of VectorMediatorGeVBase *)
Local Open Scope string_scope.
(** Full claim: each property returns the constructor argument of the same name.  Proved for all but gvxx. *)
Theorem old_base_properties_partial : forall mx mv gvxx gvuu gvdd gvss gvee gvmumu gvveve gvvmvm gvvtvt,
  let get := base_get (base_new mx mv gvxx gvuu gvdd gvss gvee gvmumu gvveve gvvmvm gvvtvt) in
  map get ["mx"; "mv"; "gvuu"; "gvdd"; "gvss"; "gvee"; "gvmumu"; "gvveve"; "gvvmvm"; "gvvtvt"]
  = map Some [mx; mv; gvuu; gvdd; gvss; gvee; gvmumu; gvveve; gvvmvm; gvvtvt].
Proof. intros. reflexivity. Qed.
Example old_base_properties_case : base_get (base_new 1 2 3 4 5 6 7 8 9 10 11) "gvvtvt" = Some 11.
Proof. reflexivity. Qed.
Print Assumptions old_base_properties_partial.
(** Refuted: gvxx returns gvuu *)
Theorem old_base_gvxx_refuted : exists mx mv gvxx gvuu gvdd gvss gvee gvmumu gvveve gvvmvm gvvtvt,
  base_get (base_new mx mv gvxx gvuu gvdd gvss gvee gvmumu gvveve gvvmvm gvvtvt) "gvxx" <> Some gvxx.
Proof. exists 1, 2, 3, 4, 5, 6, 7, 8, 9, 10, 11. cbn. intro H. injection H. lra. Qed.
Print Assumptions old_base_gvxx_refuted.
