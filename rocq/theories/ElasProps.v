(** C175: elastic scattering of dark matter off leptons, pions, photons and mediators in the scalar
    mediator model, against the golden rule with the vertices of the decay widths. *)
From Coq Require Import Reals Lra Psatz List.
From Verif Require Import Area MedModel SpecProofs PionProofs MedProofs ElasProofs.
Import ListNotations.
Local Open Scope R_scope.

(** what the four closed forms are: the difference of one primitive at the two ends, over the flux of two
    particles of mass mx *)
Definition ends_value (P : sparams) (w e c3 c2 c1 c0 : R) : R :=
  let ms := s_ms P in
  let prim := cubic_primitive (ms * w) c3 (c2 + 3 * c3 * ms ^ 2)
                (c1 + 2 * c2 * ms ^ 2 + 3 * c3 * ms ^ 4)
                (c0 + c1 * ms ^ 2 + c2 * ms ^ 4 + c3 * ms ^ 6) in
  (prim (0 - ms ^ 2) - prim (4 * s_mx P ^ 2 - e ^ 2 - ms ^ 2)) / (16 * PI * (e ^ 2 * (e ^ 2 - 4 * s_mx P ^ 2))).

Lemma exchange_lepton_poly : forall C P w ml t, c_vh C <> 0 ->
  let k := s_gsxx P ^ 2 * (s_gsff P * ml / c_vh C) ^ 2 in
  exchange P w (lepton_vertex C P ml) t
  = (0 * t ^ 3 + k * t ^ 2 + (- k * (4 * s_mx P ^ 2 + 4 * ml ^ 2)) * t + k * (16 * s_mx P ^ 2 * ml ^ 2))
    / ((t - s_ms P ^ 2) ^ 2 + s_ms P ^ 2 * w ^ 2).
Proof.
  intros C P w ml t Hv k. unfold exchange, lepton_vertex, k. unfold Rdiv.
  set (Q := / ((t - _) ^ 2 + _)). ring.
Qed.

Lemma lepton_ends : forall C P e w ml, 0 < s_ms P -> 0 < w -> 0 < e -> e <> 2 * s_mx P -> 0 < s_mx P ->
  s_mx P + ml <= e -> c_vh C <> 0 ->
  let k := s_gsxx P ^ 2 * (s_gsff P * ml / c_vh C) ^ 2 in
  sigma_xl_to_xl P e w ml / c_vh C ^ 2
  = ends_value P w e 0 k (- k * (4 * s_mx P ^ 2 + 4 * ml ^ 2)) (k * (16 * s_mx P ^ 2 * ml ^ 2)).
Proof.
  intros C P e w ml Hm Hw He Hne Hx Ht Hv k. unfold ends_value. rewrite primitive_ends by assumption.
  unfold sigma_xl_to_xl. destruct (Rlt_dec e (s_mx P + ml)) as [H|_]; [lra|].
  unfold k. destruct P as [mx ms gsxx gsff gsGG gsFF lam vs]; cbn [s_mx s_ms s_gsxx s_gsff s_gsGG s_gsFF s_lam s_vs] in *.
  assert (Hs : e ^ 2 - 4 * mx ^ 2 <> 0).
  { replace (e ^ 2 - 4 * mx ^ 2) with ((e - 2 * mx) * (e + 2 * mx)) by ring.
    apply Rmult_integral_contrapositive_currified; lra. }
  assert (Hq : 0 < ms ^ 2 * (ms ^ 2 + w ^ 2)).
  { apply Rmult_lt_0_compat; [apply pow_lt; lra|]. pose proof (pow_lt ms 2 Hm). pose proof (pow_lt w 2 Hw). lra. }
  replace (ln 16) with (2 * ln 4) by (replace 16 with (4 * 4) by lra; rewrite ln_mult by lra; ring).
  replace (ln (4 * ms ^ 2 * (ms ^ 2 + w ^ 2))) with (ln 4 + ln (ms ^ 2 * (ms ^ 2 + w ^ 2)))
    by (rewrite <- ln_mult by lra; f_equal; ring).
  pose proof PI_RGT_0.
  set (L1 := ln (ms ^ 2 * (ms ^ 2 + w ^ 2))). set (L2 := ln (_ + _)). set (A1 := atan _). set (A2 := atan _).
  set (L4 := ln 4). set (vh := c_vh C) in *. clearbody L1 L2 A1 A2 L4 vh. clear Ht Hne Hq.
  field. repeat split; try lra. 
Qed.

Lemma exchange_pion_poly : forall C P w m t,
  let v1 := - 2 * s_gsGG P / (9 * s_lam P + 4 * s_gsGG P * s_vs P) in
  let v0 := pion_coupling C P m 0 in
  exchange P w (pion_vertex C P m) t
  = (- s_gsxx P ^ 2 * v1 ^ 2 * t ^ 3 + s_gsxx P ^ 2 * (4 * s_mx P ^ 2 * v1 ^ 2 - 2 * v1 * v0) * t ^ 2
     + s_gsxx P ^ 2 * (8 * s_mx P ^ 2 * v1 * v0 - v0 ^ 2) * t + s_gsxx P ^ 2 * 4 * s_mx P ^ 2 * v0 ^ 2)
    / ((t - s_ms P ^ 2) ^ 2 + s_ms P ^ 2 * w ^ 2).
Proof.
  intros C P w m t v1 v0. unfold exchange, pion_vertex.
  replace (pion_coupling C P m t) with (v1 * t + v0) by (unfold v1, v0, pion_coupling, Rdiv; ring).
  clearbody v1 v0. unfold Rdiv. set (Q := / ((t - _) ^ 2 + _)). ring.
Qed.

Lemma pion_ends : forall C P e w m, 0 < s_ms P -> 0 < w -> 0 < e -> e <> 2 * s_mx P -> 0 < s_mx P ->
  c_vh C <> 0 -> s_lam P <> 0 -> 9 * s_lam P + 4 * s_gsGG P * s_vs P <> 0 ->
  let v1 := - 2 * s_gsGG P / (9 * s_lam P + 4 * s_gsGG P * s_vs P) in
  let v0 := pion_coupling C P m 0 in
  2 * xpi_core C P e w m
  = ends_value P w e (- s_gsxx P ^ 2 * v1 ^ 2) (s_gsxx P ^ 2 * (4 * s_mx P ^ 2 * v1 ^ 2 - 2 * v1 * v0))
      (s_gsxx P ^ 2 * (8 * s_mx P ^ 2 * v1 * v0 - v0 ^ 2)) (s_gsxx P ^ 2 * 4 * s_mx P ^ 2 * v0 ^ 2).
Proof.
  intros C P e w m Hm Hw He Hne Hx Hv Hl HD v1 v0. unfold ends_value. rewrite primitive_ends by assumption.
  assert (E0 : v0 = 4 * s_gsGG P * m ^ 2 / (9 * s_lam P + 4 * s_gsGG P * s_vs P)
               + c_b0 C * (c_mdq C + c_muq C) * xpi_atan_prefactor C P / (81 * s_lam P ^ 3 * c_vh C ^ 2)).
  { unfold v0, pion_coupling, xpi_atan_prefactor. field. repeat split; assumption. }
  rewrite E0. unfold v1. unfold xpi_core, xpi_combination, xpi_combination_sq. clear v1 v0 E0.
  set (pre := xpi_atan_prefactor C P). clearbody pre.
  destruct P as [mx ms gsxx gsff gsGG gsFF lam vs]; cbn [s_mx s_ms s_gsxx s_gsff s_gsGG s_gsFF s_lam s_vs] in *.
  assert (Hs : e ^ 2 - 4 * mx ^ 2 <> 0).
  { replace (e ^ 2 - 4 * mx ^ 2) with ((e - 2 * mx) * (e + 2 * mx)) by ring.
    apply Rmult_integral_contrapositive_currified; lra. }
  pose proof PI_RGT_0.
  set (N := c_b0 C). set (q1 := c_mdq C). set (q2 := c_muq C). set (vh := c_vh C) in *.
  set (L1 := ln (ms ^ 2 * (ms ^ 2 + w ^ 2))). set (L2 := ln (_ + _)). set (A1 := atan (_ / (_ * _))). set (A2 := atan (_ / _)).
  set (D := 9 * lam + 4 * gsGG * vs) in *.
  clearbody L1 L2 A1 A2 vh N q1 q2 D. clear Hne.
  field. repeat split; try lra; try assumption.
Qed.

Lemma exchange_photon_poly : forall C P w t,
  let k := s_gsxx P ^ 2 * (4 * (c_alpha C * s_gsFF P / (4 * PI * s_lam P)) ^ 2) in
  exchange P w (photon_vertex C P) t
  = (- k * t ^ 3 + k * 4 * s_mx P ^ 2 * t ^ 2 + 0 * t + 0) / ((t - s_ms P ^ 2) ^ 2 + s_ms P ^ 2 * w ^ 2).
Proof.
  intros C P w t k. unfold exchange, photon_vertex, k. unfold Rdiv. set (Q := / ((t - _) ^ 2 + _)). ring.
Qed.

Lemma photon_ends : forall C P e w, 0 < s_ms P -> 0 < w -> 0 < e -> e <> 2 * s_mx P -> 0 < s_mx P ->
  s_mx P <= e -> s_lam P <> 0 ->
  let k := s_gsxx P ^ 2 * (4 * (c_alpha C * s_gsFF P / (4 * PI * s_lam P)) ^ 2) in
  sigma_xg_to_xg C P e w = ends_value P w e (- k) (k * 4 * s_mx P ^ 2) 0 0.
Proof.
  intros C P e w Hm Hw He Hne Hx Ht Hl k. unfold ends_value. rewrite primitive_ends by assumption.
  unfold sigma_xg_to_xg. destruct (Rlt_dec e (s_mx P)) as [H|_]; [lra|].
  destruct (Req_EM_T e (2 * s_mx P)) as [H|_]; [contradiction|].
  unfold k. destruct P as [mx ms gsxx gsff gsGG gsFF lam vs]; cbn [s_mx s_ms s_gsxx s_gsff s_gsGG s_gsFF s_lam s_vs] in *.
  assert (Hs : e ^ 2 - 4 * mx ^ 2 <> 0).
  { replace (e ^ 2 - 4 * mx ^ 2) with ((e - 2 * mx) * (e + 2 * mx)) by ring.
    apply Rmult_integral_contrapositive_currified; lra. }
  pose proof PI_RGT_0.
  set (L1 := ln (ms ^ 2 * (ms ^ 2 + w ^ 2))). set (L2 := ln (_ + _)). set (A1 := atan (ms / w)).
  set (A2 := atan _). set (al := c_alpha C). clearbody L1 L2 A1 A2 al. clear Ht Hne.
  field. repeat split; try lra; try assumption.
Qed.

Lemma kallen_equal : forall s m, kallen s m m = s * (s - 4 * m ^ 2).
Proof. intros. unfold kallen. ring. Qed.

Lemma golden_of_ends : forall P e w F c3 c2 c1 c0, 0 < s_ms P -> 0 < w -> 0 < s_mx P -> 2 * s_mx P < e ->
  (forall t, F t = (c3 * t ^ 3 + c2 * t ^ 2 + c1 * t + c0) / ((t - s_ms P ^ 2) ^ 2 + s_ms P ^ 2 * w ^ 2)) ->
  golden_rule (s_mx P) (s_mx P) e F (ends_value P w e c3 c2 c1 c0).
Proof.
  intros P e w F c3 c2 c1 c0 Hm Hw Hx He HF. unfold golden_rule. rewrite kallen_equal.
  assert (He0 : e <> 0) by lra.
  replace (- (e ^ 2 * (e ^ 2 - 4 * s_mx P ^ 2) / e ^ 2)) with (4 * s_mx P ^ 2 - e ^ 2) by (field; exact He0).
  eexists. split; [exact (cubic_area_t F (s_ms P) w c3 c2 c1 c0 _ 0 Hm Hw HF)|reflexivity].
Qed.

Lemma below_of_ends : forall P e w F c3 c2 c1 c0, 0 < s_ms P -> 0 < w -> 0 < e < 2 * s_mx P ->
  (forall t, F t = (c3 * t ^ 3 + c2 * t ^ 2 + c1 * t + c0) / ((t - s_ms P ^ 2) ^ 2 + s_ms P ^ 2 * w ^ 2)) ->
  exists I, area F 0 (4 * s_mx P ^ 2 - e ^ 2) I /\
    ends_value P w e c3 c2 c1 c0 = I / (16 * PI * (e ^ 2 * (4 * s_mx P ^ 2 - e ^ 2))).
Proof.
  intros P e w F c3 c2 c1 c0 Hm Hw He HF.
  eexists. split; [exact (cubic_area_t F (s_ms P) w c3 c2 c1 c0 0 _ Hm Hw HF)|].
  unfold ends_value. set (a := cubic_primitive _ _ _ _ _ (0 - _)). set (b := cubic_primitive _ _ _ _ _ (_ - _)).
  clearbody a b. pose proof PI_RGT_0. assert (0 < 4 * s_mx P ^ 2 - e ^ 2) by nra.
  field. repeat split; try lra.
Qed.

(** the integral of the squared amplitude of x S -> x S while u - mx^2 keeps its sign *)
Lemma compton_area : forall P e lo hi, e ^ 2 <> s_mx P ^ 2 ->
  (forall t, lo <= t <= hi -> s_mx P ^ 2 + 2 * s_ms P ^ 2 - e ^ 2 - t < 0) ->
  let x := s_mx P ^ 2 in let y := s_ms P ^ 2 in let s := e ^ 2 in
  let G := fun t => s_gsxx P ^ 4 / (4 * (x - s) ^ 2)
    * ((12 * s ^ 2 + 12 * x ^ 2 + 4 * y ^ 2 + 40 * s * x - 8 * s * y - 24 * x * y) * t + 2 * (s - x) * t ^ 2
       + 4 * (y - 4 * x) ^ 2 * (x - s) ^ 2 / (x + 2 * y - s - t)
       + 4 * (x - s) * (18 * x * s + 15 * x ^ 2 - 2 * y ^ 2 - 16 * x * y - s ^ 2) * ln (- (x + 2 * y - s - t))) in
  area (compton P e) lo hi (G hi - G lo).
Proof.
  intros P e lo hi Hd Hu x y s G. apply (area_of_antiderivative G). intros t Ht. specialize (Hu t Ht).
  fold x y s in Hu. fold s x in Hd. unfold G.
  assert (HU : derivable_pt_lim (fun t => x + 2 * y - s - t) t (-1)).
  { eapply dl_val; [apply dl_minus; [apply dl_const|apply dl_id]|ring]. }
  eapply dl_val.
  - apply dl_mult; [apply dl_const|]. apply dl_plus; [apply dl_plus; [apply dl_plus|]|].
    + apply dl_mult; [apply dl_const|apply dl_id].
    + apply dl_mult; [apply dl_const|apply (dl_pow _ _ _ 2 (dl_id t))].
    + apply dl_div; [apply dl_const|exact HU|lra].
    + apply dl_mult; [apply dl_const|]. apply dl_ln; [apply dl_opp; exact HU|lra].
  - cbn [INR pred]. unfold compton, Rsqr. fold s.
    replace (s_mx P ^ 2) with x by reflexivity. replace (s_ms P ^ 2) with y by reflexivity.
    set (gg := s_gsxx P ^ 4). set (m := s_mx P) in *.
    assert (Ex : x = m ^ 2) by reflexivity. clearbody x y s gg. subst x.
    set (L := ln _). clearbody L. clear HU. clearbody m. clear G.
    field. repeat split; lra.
Qed.

(** ** C175: the elastic cross sections are golden-rule integrals, but for a target as heavy as the dark
    matter

    Above twice the mass of the dark matter each closed form is the golden rule applied to the squared
    amplitude of its process with both masses equal to mx: the momentum transfer runs from 4 mx^2 - e^2 to
    0 and the flux is that of two particles of mass mx, whatever the target weighs.  Apart from that the
    lepton one lacks the square of the Higgs vacuum value, the neutral pion one is a half of the integral,
    and the lepton and charged pion ones, which the documentation says are summed over two charges, are the
    integral of one charge.  The last one is stated while the exchanged particle stays off its mass shell. *)
Theorem elastic_cross_sections_equal_mass_kinematics : forall C P e w ml,
  0 < s_mx P -> 0 < s_ms P -> 0 < w -> 2 * s_mx P < e ->
  c_vh C <> 0 -> s_lam P <> 0 -> 9 * s_lam P + 4 * s_gsGG P * s_vs P <> 0 ->
  let rule := golden_rule (s_mx P) (s_mx P) e in
  (s_mx P + ml <= e -> rule (exchange P w (lepton_vertex C P ml)) (sigma_xl_to_xl P e w ml / c_vh C ^ 2)) /\
  (s_mx P + c_mpi C <= e -> rule (exchange P w (pion_vertex C P (c_mpi C))) (sigma_xpi_to_xpi C P e w)) /\
  (s_mx P + c_mpi0 C <= e ->
   rule (exchange P w (pion_vertex C P (c_mpi0 C))) (2 * sigma_xpi0_to_xpi0 C P e w)) /\
  rule (exchange P w (photon_vertex C P)) (sigma_xg_to_xg C P e w) /\
  (s_mx P + s_ms P <= e -> 2 * s_ms P ^ 2 < 3 * s_mx P ^ 2 -> rule (compton P e) (sigma_xs_to_xs P e)).
Proof.
  intros C P e w ml Hx Hm Hw He Hv Hl HD rule. unfold rule. clear rule.
  repeat match goal with |- _ /\ _ => split end.
  - intro Ht. rewrite lepton_ends by lra. apply golden_of_ends; try assumption. intro t. now apply exchange_lepton_poly.
  - intro Ht. unfold sigma_xpi_to_xpi. destruct (Rlt_dec e _) as [H|_]; [lra|].
    rewrite pion_ends by (try assumption; lra). apply golden_of_ends; try assumption. intro t. apply exchange_pion_poly.
  - intro Ht. unfold sigma_xpi0_to_xpi0. destruct (Rlt_dec e _) as [H|_]; [lra|].
    rewrite pion_ends by (try assumption; lra). apply golden_of_ends; try assumption. intro t. apply exchange_pion_poly.
  - rewrite photon_ends by (try assumption; lra). apply golden_of_ends; try assumption. intro t. apply exchange_photon_poly.
  - intros Ht Hy. unfold golden_rule. rewrite kallen_equal.
    replace (- (e ^ 2 * (e ^ 2 - 4 * s_mx P ^ 2) / e ^ 2)) with (4 * s_mx P ^ 2 - e ^ 2) by (field; lra).
    assert (HS : 4 * s_mx P ^ 2 < e ^ 2) by nra.
    pose proof (pow_lt (s_mx P) 2 Hx) as HX.
    eexists. split.
    + apply compton_area; [lra|]. intros t Hr. lra.
    + unfold sigma_xs_to_xs. destruct (Rlt_dec e _) as [H|_]; [lra|].
      destruct (Req_EM_T e _) as [H|_]; [lra|].
      destruct P as [mx ms gsxx gsff gsGG gsFF lam vs]; cbn [s_mx s_ms s_gsxx s_gsff s_gsGG s_gsFF s_lam s_vs] in *.
      replace (ln (Rabs ((2 * ms ^ 2 + - (3 * mx ^ 2)) / (2 * ms ^ 2 + mx ^ 2 - e ^ 2))))
        with (ln (- (mx ^ 2 + 2 * ms ^ 2 - e ^ 2 - (4 * mx ^ 2 - e ^ 2))) - ln (- (mx ^ 2 + 2 * ms ^ 2 - e ^ 2 - 0))).
      2: { unfold Rminus at 1. rewrite <- ln_Rinv by lra. rewrite <- ln_mult; [|lra|apply Rinv_0_lt_compat; lra].
           f_equal. rewrite Rabs_pos_eq; [field; lra|].
           replace ((2 * ms ^ 2 + - (3 * mx ^ 2)) / (2 * ms ^ 2 + mx ^ 2 - e ^ 2))
             with ((3 * mx ^ 2 - 2 * ms ^ 2) / (e ^ 2 - mx ^ 2 - 2 * ms ^ 2)) by (field; lra).
           apply Rlt_le, Rdiv_lt_0_compat; lra. }
      pose proof PI_RGT_0. set (L1 := ln _). set (L2 := ln _). clearbody L1 L2.
      field. repeat split; lra.
Qed.
Print Assumptions elastic_cross_sections_equal_mass_kinematics.

Example elastic_cross_sections_equal_mass_kinematics_example :
  let C := rs_consts in let P := MkS 200 100 1 1 1 1 1000 (-1) in let e := 500 in
  0 < s_mx P /\ 0 < s_ms P /\ 2 * s_mx P < e /\ c_vh C <> 0 /\ s_lam P <> 0 /\
  9 * s_lam P + 4 * s_gsGG P * s_vs P <> 0 /\ s_mx P + c_mmu C <= e /\ s_mx P + c_mpi C <= e /\
  s_mx P + c_mpi0 C <= e /\ s_mx P + s_ms P <= e /\ 2 * s_ms P ^ 2 < 3 * s_mx P ^ 2.
Proof. cbv zeta. cbn [s_mx s_ms s_lam s_gsGG s_vs c_vh c_mmu c_mpi c_mpi0 rs_consts]. repeat split; lra. Qed.

(** Between the threshold of the process and twice the mass of the dark matter the same formulas integrate
    over momentum transfers of the wrong sign, from 0 to 4 mx^2 - e^2. *)
Theorem elastic_below_twice_the_mass : forall C P e w ml,
  0 < s_mx P -> 0 < s_ms P -> 0 < w -> 0 < e < 2 * s_mx P ->
  c_vh C <> 0 -> s_lam P <> 0 -> 9 * s_lam P + 4 * s_gsGG P * s_vs P <> 0 ->
  let wrong_side F v :=
    exists I, area F 0 (4 * s_mx P ^ 2 - e ^ 2) I /\ v = I / (16 * PI * (e ^ 2 * (4 * s_mx P ^ 2 - e ^ 2))) in
  (s_mx P + ml <= e ->
   wrong_side (exchange P w (lepton_vertex C P ml)) (sigma_xl_to_xl P e w ml / c_vh C ^ 2)) /\
  (s_mx P + c_mpi C <= e -> wrong_side (exchange P w (pion_vertex C P (c_mpi C))) (sigma_xpi_to_xpi C P e w)) /\
  (s_mx P + c_mpi0 C <= e ->
   wrong_side (exchange P w (pion_vertex C P (c_mpi0 C))) (2 * sigma_xpi0_to_xpi0 C P e w)) /\
  (s_mx P <= e -> wrong_side (exchange P w (photon_vertex C P)) (sigma_xg_to_xg C P e w)).
Proof.
  intros C P e w ml Hx Hm Hw He Hv Hl HD wrong_side. unfold wrong_side. clear wrong_side.
  repeat match goal with |- _ /\ _ => split end; intro Ht.
  - rewrite lepton_ends by lra. apply below_of_ends; try assumption. intro t. now apply exchange_lepton_poly.
  - unfold sigma_xpi_to_xpi. destruct (Rlt_dec e _) as [H|_]; [lra|].
    rewrite pion_ends by (try assumption; lra). apply below_of_ends; try assumption. intro t. apply exchange_pion_poly.
  - unfold sigma_xpi0_to_xpi0. destruct (Rlt_dec e _) as [H|_]; [lra|].
    rewrite pion_ends by (try assumption; lra). apply below_of_ends; try assumption. intro t. apply exchange_pion_poly.
  - rewrite photon_ends by (try assumption; lra). apply below_of_ends; try assumption. intro t. apply exchange_photon_poly.
Qed.
Print Assumptions elastic_below_twice_the_mass.

Example elastic_below_twice_the_mass_example :
  let C := rs_consts in let P := MkS 200 100 1 1 1 1 1000 (-1) in let e := 350 in
  0 < s_mx P /\ 0 < s_ms P /\ 0 < e < 2 * s_mx P /\ c_vh C <> 0 /\ s_lam P <> 0 /\
  9 * s_lam P + 4 * s_gsGG P * s_vs P <> 0 /\ s_mx P + c_mmu C <= e /\ s_mx P + c_mpi C <= e /\
  s_mx P + c_mpi0 C <= e /\ s_mx P <= e.
Proof. cbv zeta. cbn [s_mx s_ms s_lam s_gsGG s_vs c_vh c_mmu c_mpi c_mpi0 rs_consts]. repeat split; lra. Qed.

(** The vertices are those of the decay widths: at t = ms^2, summed over spins (2 for a lepton of either
    sign and for the polarisations) and halved for identical particles, they give every partial width of
    the mediator; the dark matter line does too. *)
Theorem elastic_vertices_give_the_widths : forall C P ml,
  0 < s_ms P -> 0 <= c_mpi C -> 0 <= c_mpi0 C -> 0 <= ml -> 0 <= s_mx P ->
  c_vh C <> 0 -> s_lam P <> 0 -> 9 * s_lam P + 4 * s_gsGG P * s_vs P <> 0 ->
  let t := s_ms P ^ 2 in
  let decay A m := A * sqrt (t - 4 * m ^ 2) / (16 * PI * t) in
  (2 * c_mpi C < s_ms P -> width_s_to_pipi C P = decay (pion_vertex C P (c_mpi C) t) (c_mpi C)) /\
  (2 * c_mpi0 C < s_ms P -> width_s_to_pi0pi0 C P = decay (pion_vertex C P (c_mpi0 C) t / 2) (c_mpi0 C)) /\
  (2 * ml < s_ms P -> width_s_to_ff_mass C P ml = decay (- 2 * lepton_vertex C P ml t) ml) /\
  width_s_to_gg C P = decay (2 * photon_vertex C P t / 2) 0 /\
  (2 * s_mx P < s_ms P -> width_s_to_xx P = decay (2 * (s_gsxx P ^ 2 * (t - 4 * s_mx P ^ 2))) (s_mx P)).
Proof.
  intros C P ml Hm Hp Hp0 Hml Hx Hv Hl HD t decay. unfold decay, t. clear decay t.
  pose proof PI_RGT_0 as Hpi.
  assert (Amp : forall m, width_pion_amplitude C P m
     = pion_coupling C P m (s_ms P ^ 2) * (81 * s_lam P ^ 3 * c_vh C ^ 2 * (9 * s_lam P + 4 * s_gsGG P * s_vs P))).
  { intro m. unfold width_pion_amplitude, pion_coupling. field. repeat split; assumption. }
  repeat match goal with |- _ /\ _ => split end.
  - intro Ht. unfold width_s_to_pipi. destruct (Rlt_dec _ _) as [_|H]; [|lra]. rewrite Amp. unfold pion_vertex.
    replace (- 4 * c_mpi C ^ 2 + s_ms P ^ 2) with (s_ms P ^ 2 - 4 * c_mpi C ^ 2) by ring.
    set (S2 := sqrt _). set (V := pion_coupling _ _ _ _). clearbody S2 V. field. repeat split; try assumption; lra.
  - intro Ht. unfold width_s_to_pi0pi0. destruct (Rlt_dec _ _) as [_|H]; [|lra]. rewrite Amp. unfold pion_vertex.
    replace (- 4 * c_mpi0 C ^ 2 + s_ms P ^ 2) with (s_ms P ^ 2 - 4 * c_mpi0 C ^ 2) by ring.
    set (S2 := sqrt _). set (V := pion_coupling _ _ _ _). clearbody S2 V. field. repeat split; try assumption; lra.
  - intro Ht. unfold width_s_to_ff_mass. destruct (Rlt_dec _ _) as [_|H]; [|lra]. unfold lepton_vertex.
    replace (- 4 * ml ^ 2 + s_ms P ^ 2) with (s_ms P ^ 2 - 4 * ml ^ 2) by ring. rewrite pow15_val by nra.
    set (S2 := sqrt _). clearbody S2. field. repeat split; try assumption; lra.
  - unfold width_s_to_gg, photon_vertex. replace (s_ms P ^ 2 - 4 * 0 ^ 2) with (s_ms P ^ 2) by ring.
    rewrite sqrt_pow2 by lra. field. repeat split; try assumption; lra.
  - intro Ht. unfold width_s_to_xx. destruct (Rlt_dec _ _) as [_|H]; [|lra]. rewrite pow15_val by nra.
    set (S2 := sqrt _). clearbody S2. field. repeat split; try assumption; lra.
Qed.
Print Assumptions elastic_vertices_give_the_widths.

Example elastic_vertices_give_the_widths_example :
  let C := py_consts in let P := MkS 200 500 1 1 1 1 1000 (-1) in
  0 < s_ms P /\ 0 <= c_mpi C /\ 0 <= c_mpi0 C /\ 0 <= s_mx P /\ c_vh C <> 0 /\ s_lam P <> 0 /\
  9 * s_lam P + 4 * s_gsGG P * s_vs P <> 0 /\ 2 * c_mpi C < s_ms P /\ 2 * c_mpi0 C < s_ms P /\
  2 * c_mmu C < s_ms P /\ 2 * s_mx P < s_ms P.
Proof. cbv zeta. cbn [s_mx s_ms s_lam s_gsGG s_vs c_vh c_mmu c_mpi c_mpi0 py_consts]. repeat split; lra. Qed.

Lemma photon_amplitude_decreases : forall C P w t u, 0 < s_mx P -> 0 < s_ms P -> 0 < w ->
  s_gsxx P <> 0 -> s_gsFF P <> 0 -> c_alpha C <> 0 -> s_lam P <> 0 -> t < u -> u <= 0 ->
  exchange P w (photon_vertex C P) u < exchange P w (photon_vertex C P) t.
Proof.
  intros C P w t u Hx Hm Hw Hg HF Ha Hl Htu Hu. unfold exchange, photon_vertex.
  assert (Hk : 0 < s_gsxx P ^ 2 * (4 * (c_alpha C * s_gsFF P / (4 * PI * s_lam P)) ^ 2)).
  { pose proof PI_RGT_0.
    assert (c_alpha C * s_gsFF P / (4 * PI * s_lam P) <> 0).
    { apply Rmult_integral_contrapositive_currified; [now apply Rmult_integral_contrapositive_currified|].
      apply Rinv_neq_0_compat. apply Rmult_integral_contrapositive_currified; [lra|assumption]. }
    apply Rmult_lt_0_compat; [|apply Rmult_lt_0_compat; [lra|]]; rewrite <- Rsqr_pow2; now apply Rsqr_pos_lt. }
  set (k := 4 * (c_alpha C * s_gsFF P / (4 * PI * s_lam P)) ^ 2) in *.
  set (g := s_gsxx P ^ 2) in *.
  set (M := s_ms P ^ 2). assert (HM : 0 < M) by (now apply pow_lt).
  set (b := M * w ^ 2). assert (Hb : 0 < b) by (unfold b; pose proof (pow_lt w 2 Hw); nra).
  set (X := s_mx P ^ 2). assert (HX : 0 < X) by (now apply pow_lt).
  clearbody k g M b X.
  assert (Qu : 0 < (u - M) ^ 2 + b) by (pose proof (pow2_ge_0 (u - M)); lra).
  assert (Qt : 0 < (t - M) ^ 2 + b) by (pose proof (pow2_ge_0 (t - M)); lra).
  assert (K : (4 * X - u) * u ^ 2 * ((t - M) ^ 2 + b) < (4 * X - t) * t ^ 2 * ((u - M) ^ 2 + b)).
  { assert (A1 : u ^ 2 * ((t - M) ^ 2 + b) <= t ^ 2 * ((u - M) ^ 2 + b)).
    { assert (B1 : u ^ 2 * b <= t ^ 2 * b) by (apply Rmult_le_compat_r; nra).
      assert (B2 : (u * (t - M)) ^ 2 <= (t * (u - M)) ^ 2).
      { replace ((t * (u - M)) ^ 2 - 0) with ((t * (u - M)) ^ 2) by ring.
        apply pow_incr. nra. }
      rewrite !Rpow_mult_distr in B2. rewrite !Rmult_plus_distr_l. lra. }
    assert (A2 : 0 < t ^ 2 * ((u - M) ^ 2 + b)) by (apply Rmult_lt_0_compat; [nra|assumption]).
    set (p := u ^ 2 * ((t - M) ^ 2 + b)) in *. set (q := t ^ 2 * ((u - M) ^ 2 + b)) in *.
    replace ((4 * X - u) * u ^ 2 * ((t - M) ^ 2 + b)) with ((4 * X - u) * p) by (unfold p; ring).
    replace ((4 * X - t) * t ^ 2 * ((u - M) ^ 2 + b)) with ((4 * X - t) * q) by (unfold q; ring).
    clearbody p q. nra. }
  apply (Rmult_lt_reg_r (((u - M) ^ 2 + b) * ((t - M) ^ 2 + b))); [now apply Rmult_lt_0_compat|].
  replace (g * (4 * X - u) * (k * u ^ 2) / ((u - M) ^ 2 + b) * (((u - M) ^ 2 + b) * ((t - M) ^ 2 + b)))
    with ((g * k) * ((4 * X - u) * u ^ 2 * ((t - M) ^ 2 + b))) by (field; lra).
  replace (g * (4 * X - t) * (k * t ^ 2) / ((t - M) ^ 2 + b) * (((u - M) ^ 2 + b) * ((t - M) ^ 2 + b)))
    with ((g * k) * ((4 * X - t) * t ^ 2 * ((u - M) ^ 2 + b))) by (field; lra).
  now apply Rmult_lt_compat_l.
Qed.

(** The golden rule with the massless photon gives more than the code at every energy from twice the mass
    of the dark matter on. *)
Theorem elastic_photon_too_small : forall C P e w,
  0 < s_mx P -> 0 < s_ms P -> 0 < w -> 2 * s_mx P <= e ->
  s_gsxx P <> 0 -> s_gsFF P <> 0 -> c_alpha C <> 0 -> s_lam P <> 0 ->
  exists v, golden_rule (s_mx P) 0 e (exchange P w (photon_vertex C P)) v /\ sigma_xg_to_xg C P e w < v.
Proof.
  intros C P e w Hx Hm Hw He Hg HF Ha Hl. pose proof PI_RGT_0 as Hpi.
  set (F := exchange P w (photon_vertex C P)).
  assert (EK : kallen (e ^ 2) (s_mx P) 0 = (e ^ 2 - s_mx P ^ 2) ^ 2) by (unfold kallen; ring).
  unfold golden_rule. rewrite EK.
  pose proof (pow_lt (s_mx P) 2 Hx) as HX2.
  assert (HS : 4 * s_mx P ^ 2 <= e ^ 2) by nra.
  set (T := (e ^ 2 - s_mx P ^ 2) ^ 2 / e ^ 2).
  assert (HT : 0 < e ^ 2 - 4 * s_mx P ^ 2 + s_mx P ^ 2 <= T).
  { split; [lra|]. unfold T. apply (Rmult_le_reg_r (e ^ 2)); [lra|].
    replace ((e ^ 2 - s_mx P ^ 2) ^ 2 / e ^ 2 * e ^ 2) with ((e ^ 2 - s_mx P ^ 2) ^ 2) by (field; lra). nra. }
  pose proof (cubic_area_t F (s_ms P) w _ _ _ _ (- T) 0 Hm Hw (exchange_photon_poly C P w)) as AI.
  cbv zeta in AI. set (I := _ - _) in AI. clearbody I.
  exists (I / (16 * PI * (e ^ 2 - s_mx P ^ 2) ^ 2)). split; [exists I; now split|].
  assert (Hdec : forall t u, t < u -> u <= 0 -> F u < F t) by (intros; now apply photon_amplitude_decreases).
  assert (HV : I / (16 * PI * (e ^ 2 - s_mx P ^ 2) ^ 2) = I / T / (16 * PI * e ^ 2)) by (unfold T; field; repeat split; lra).
  rewrite HV. destruct (Req_dec e (2 * s_mx P)) as [E2|N2].
  - replace (sigma_xg_to_xg C P e w) with 0.
    + assert (0 < I).
      { apply (area_pos F (- T) 0 I); [lra| |exact AI]. intros t Ht.
        assert (H0 : F 0 = 0) by (unfold F, exchange, photon_vertex, Rdiv; ring).
        pose proof (Hdec t 0). lra. }
      apply Rdiv_lt_0_compat; [apply Rdiv_lt_0_compat; lra|].
      apply Rmult_lt_0_compat; lra.
    + unfold sigma_xg_to_xg. destruct (Rlt_dec _ _); [reflexivity|]. now destruct (Req_EM_T _ _).
  - assert (HG : golden_rule (s_mx P) (s_mx P) e F (sigma_xg_to_xg C P e w)).
    { rewrite photon_ends by (try assumption; lra). apply golden_of_ends; try assumption; [lra|].
      intro t. apply exchange_photon_poly. }
    destruct HG as (J & AJ & ->). rewrite kallen_equal in *.
    replace (- (e ^ 2 * (e ^ 2 - 4 * s_mx P ^ 2) / e ^ 2)) with (- (e ^ 2 - 4 * s_mx P ^ 2)) in AJ by (field; lra).
    assert (HP : 0 < e ^ 2 - 4 * s_mx P ^ 2) by nra.
    replace (J / (16 * PI * (e ^ 2 * (e ^ 2 - 4 * s_mx P ^ 2))))
      with (J / (e ^ 2 - 4 * s_mx P ^ 2) / (16 * PI * e ^ 2)) by (field; repeat split; lra).
    unfold Rdiv at 1. unfold Rdiv at 2. apply Rmult_lt_compat_r; [apply Rinv_0_lt_compat; nra|].
    pose proof (mean_increases F (- T) (- (e ^ 2 - 4 * s_mx P ^ 2)) I J ltac:(lra)
                  (fun t u Htu Hu => Hdec t u (proj2 Htu) Hu) AI AJ) as HM.
    rewrite !Ropp_involutive in HM. exact HM.
Qed.
Print Assumptions elastic_photon_too_small.

Example elastic_photon_too_small_example :
  let P := MkS 200 100 1 1 1 1 1000 (-1) in
  0 < s_mx P /\ 0 < s_ms P /\ 2 * s_mx P <= 400 /\ s_gsxx P <> 0 /\ s_gsFF P <> 0 /\
  c_alpha rs_consts <> 0 /\ s_lam P <> 0.
Proof. cbv zeta. cbn [s_mx s_ms s_gsxx s_gsFF s_lam c_alpha rs_consts]. repeat split; lra. Qed.

(** REFUTED: the cross section off photons obeys the golden rule.  At e = 2 mx, where the code returns 0
    ("complete destructive interference"), the golden rule gives a positive cross section; at e = 500 for
    a mass of 200 the code is still too small. *)
Theorem elastic_photon_golden_rule_refuted : exists C P w e1 e2,
  e1 = 2 * s_mx P /\ 2 * s_mx P < e2 /\ 0 < s_mx P /\ 0 < s_ms P /\ 0 < w /\
  sigma_xg_to_xg C P e1 w = 0 /\
  ~ golden_rule (s_mx P) 0 e1 (exchange P w (photon_vertex C P)) (sigma_xg_to_xg C P e1 w) /\
  ~ golden_rule (s_mx P) 0 e2 (exchange P w (photon_vertex C P)) (sigma_xg_to_xg C P e2 w).
Proof.
  exists rs_consts, (MkS 200 100 1 1 1 1 1000 (-1)), 1, 400, 500.
  set (P := MkS 200 100 1 1 1 1 1000 (-1)).
  assert (N : forall e, 400 <= e ->
    ~ golden_rule (s_mx P) 0 e (exchange P 1 (photon_vertex rs_consts P)) (sigma_xg_to_xg rs_consts P e 1)).
  { intros e He (I & AI & EI).
    assert (Ha : c_alpha rs_consts <> 0).
    { cbn [c_alpha rs_consts]. apply Rgt_not_eq. apply Rdiv_lt_0_compat; lra. }
    destruct (elastic_photon_too_small rs_consts P e 1) as (v & (J & AJ & EJ) & Hlt);
      try assumption; try (unfold P; cbn [s_mx s_ms s_gsxx s_gsFF s_lam]; lra).
    assert (I = J).
    { refine (area_unique _ _ _ _ _ _ AI AJ).
      unfold P, kallen. cbn [s_mx].
      assert (160000 <= e ^ 2) by nra.
      assert (0 < (e ^ 2 - (200 + 0) ^ 2) * (e ^ 2 - (200 - 0) ^ 2) / e ^ 2)
        by (apply Rdiv_lt_0_compat; [apply Rmult_lt_0_compat|]; lra). lra. }
    subst J. rewrite EI, EJ in Hlt. lra. }
  split; [unfold P; cbn [s_mx]; lra|]. split; [unfold P; cbn [s_mx]; lra|].
  split; [unfold P; cbn [s_mx]; lra|]. split; [unfold P; cbn [s_ms]; lra|]. split; [lra|].
  split; [|split; apply N; lra].
  unfold sigma_xg_to_xg. destruct (Rlt_dec _ _); [reflexivity|].
  destruct (Req_EM_T _ _) as [_|H]; [reflexivity|exfalso; apply H; unfold P; cbn [s_mx]; lra].
Qed.
Print Assumptions elastic_photon_golden_rule_refuted.

(** The special value of x S -> x S at e = 2 mx is the forward amplitude (t = 0) over the flux factor
    16 pi e^2: the limit of the equal-mass integral, not of the golden rule. *)
Theorem elastic_mediator_at_twice_the_mass : forall P,
  0 < s_mx P -> s_ms P <= s_mx P -> 2 * s_ms P ^ 2 <> 3 * s_mx P ^ 2 ->
  sigma_xs_to_xs P (2 * s_mx P) = compton P (2 * s_mx P) 0 / (16 * PI * (2 * s_mx P) ^ 2).
Proof.
  intros P Hx Hm Hp. unfold sigma_xs_to_xs, compton. destruct (Rlt_dec _ _) as [H|_]; [lra|].
  destruct (Req_EM_T _ _) as [_|H]; [|contradiction]. pose proof PI_RGT_0.
  pose proof (pow_lt (s_mx P) 2 Hx).
  set (m := s_mx P) in *. set (y := s_ms P) in *. clearbody m y.
  field. repeat split; try lra.
Qed.
Print Assumptions elastic_mediator_at_twice_the_mass.

Example elastic_mediator_at_twice_the_mass_example :
  let P := MkS 200 100 1 1 1 1 1000 (-1) in
  0 < s_mx P /\ s_ms P <= s_mx P /\ 2 * s_ms P ^ 2 <> 3 * s_mx P ^ 2 /\ 0 < compton P (2 * s_mx P) 0.
Proof. cbv zeta. unfold compton. cbn [s_mx s_ms s_gsxx]. repeat split; lra. Qed.
