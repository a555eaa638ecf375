(** Properties of the cross sections of the GeV vector mediator: C90 and C100. *)
From Coq Require Import Ascii String ZArith NArith Reals Bool Lra Lia Psatz List.
From Verif Require Import PyBase PyBaseFacts GevModel GevProofs GevProps VffModel MedModel MedProps Area Primitive SpecProofs PionProofs RelicModel RelicProofs RelicProps GevCsModel GevCsProofs.
Import ListNotations.
Local Open Scope R_scope.

(** Concrete parameters for the examples: masses of the code in MeV, dark matter of 300 MeV, mediator of 1 GeV *)
Definition code_cmass : cmass := MkCmass 0.511 105.658 139.57 134.977 493.677 497.611 547.862 957.78 1019.461 782.65.
Definition pars_ex : gpar := MkGpar 300 1000 1 0.1 0.2 0.3 0.4 0.5 0.6 0.7 0.8.
Definition iff_ex (c : chan) (q : R) (cp : R * R * R) (n : N) : R := 0.01.
Lemma code_masses_ok : masses_ok code_cmass.
Proof. unfold masses_ok, code_cmass. cbn. repeat split; lra. Qed.

(** * C90 *)
(** Above the dark-matter threshold every s-channel cross section is the resonance formula with the width
    methods of the same class at the energy as exit widths *)
Theorem annihilation_is_resonance : forall M qe iff P cp w c n q,
  masses_ok M -> 0 <= g_mx P -> 0 < g_mv P -> 0 < w -> has_cross_section c -> 2 * g_mx P < q ->
  sigma_of M iff P cp w c n q
  = Some (resonance_cross_section q (g_mx P) (g_mv P) w (pair_width (g_xx P) (g_mx P) q)
            (width_body (width_consts M qe) (ff_width M iff) (at_mass P q) cp c n)).
Proof.
  intros M qe iff P cp w c n q HM Hx Hv Hw Hc Hq. rewrite (sigma_short M iff P cp w HM Hx Hv Hw qe c n q Hc Hq).
  now rewrite resonance_short.
Qed.
Example annihilation_is_resonance_case : masses_ok code_cmass /\ 0 <= g_mx pars_ex /\ 0 < g_mv pars_ex /\ has_cross_section PiPi
  /\ 2 * g_mx pars_ex < 900 /\ exists v, 0 < v /\ sigma_of code_cmass iff_ex pars_ex (0.1, 0.2, 0.3) 10 PiPi 0%N 900 = Some v.
Proof.
  split; [apply code_masses_ok|]. split; [cbn; lra|]. split; [cbn; lra|]. split; [split; discriminate|]. split; [cbn; lra|].
  eexists. split; [|apply (sigma_short code_cmass iff_ex pars_ex _ 10 code_masses_ok) with (qe := 0); cbn; try lra; split; discriminate].
  unfold short_form. cbn [g_mx g_mv g_xx pars_ex]. apply Rdiv_lt_0_compat.
  - cbn [width_body at_mass g_mv]. unfold ff_width. cbn [four_pions ff_threshold code_cmass m_pi]. destruct (Rlt_dec (139.57 + 139.57) 900); [|lra].
    unfold iff_ex. lra.
  - apply Rmult_lt_0_compat; [apply sqrt_lt_R0; lra|lra].
Qed.
Print Assumptions annihilation_is_resonance.

(** The hadronic states open at the sum of the masses of the particles in their name *)
Fixpoint words (w s : string) : list string :=
  match s with
  | EmptyString => [w]
  | String c r => if Ascii.eqb c (Ascii.ascii_of_nat 32) then w :: words EmptyString r else words (String.append w (String c EmptyString)) r
  end.
Definition named_mass (M : cmass) (p : string) : R :=
  match find (fun km : string * (cmass -> R) => String.eqb (fst km) p)
    [("pi", m_pi); ("pi0", m_pi0); ("k", m_k); ("k0", m_k0); ("eta", m_eta); ("etap", m_etap); ("phi", m_phi); ("omega", m_omega)]%string with
  | Some km => snd km M
  | None => 0
  end.
Definition total_mass (M : cmass) (name : string) : R := fold_right Rplus 0 (map (named_mass M) (words EmptyString name)).
Theorem hadrons_open_at_their_masses : forall M iff P cp w name c n q,
  masses_ok M -> 0 <= g_mx P -> 0 < g_mv P -> 0 < w -> 2 * g_mx P < q ->
  In (name, Some c) cs_states -> ~ In c [EE; MuMu; VeVe; VmVm; VtVt; Pi0Pi0A] ->
  (total_mass M name < q -> sigma_of M iff P cp w c n q
     = Some (resonance_cross_section q (g_mx P) (g_mv P) w (pair_width (g_xx P) (g_mx P) q) (q / 2 * iff c q cp n)))
  /\ (q < total_mass M name -> sigma_of M iff P cp w c n q = Some 0).
Proof.
  intros M iff P cp w name c n q HM Hx Hv Hw Hq Hs Hc.
  assert (T : total_mass M name = ff_threshold M c /\ has_cross_section c /\ cname c = name).
  { cbn [cs_states In] in Hs. repeat (destruct Hs as [E|Hs]; [first [discriminate E|injection E as <- <-]; try (exfalso; apply Hc; cbn; tauto);
      (split; [unfold total_mass; cbn - [Rplus]; ring|split; [split; discriminate|reflexivity]])|]). destruct Hs. }
  destruct T as (T & H & _). rewrite T.
  assert (W : width_body (width_consts M 0) (ff_width M iff) (at_mass P q) cp c n = ff_width M iff c q cp n \/ four_pions c = true).
  { destruct c; try (now right); try (now left); destruct H; try congruence; exfalso; apply Hc; cbn; tauto. }
  rewrite (annihilation_is_resonance M 0 iff P cp w c n q HM Hx Hv Hw H Hq). unfold masses_ok in HM. split; intro Ht.
  - do 2 f_equal. destruct W as [-> | W].
    + unfold ff_width. destruct (four_pions c) eqn:F; [unfold four_iff; destruct (Rlt_dec q (ff_threshold M c)); lra|].
      destruct (Rlt_dec (ff_threshold M c) q); lra.
    + destruct c; try discriminate W; cbn [width_body at_mass g_mv width_consts k_mpi k_mpi0]; cbn [ff_threshold] in Ht; unfold ff_width, four_iff;
        cbn [four_pions ff_threshold]; repeat (match goal with |- context [Rlt_dec ?a ?b] => destruct (Rlt_dec a b); try lra end).
  - transitivity (Some (resonance_cross_section q (g_mx P) (g_mv P) w (pair_width (g_xx P) (g_mx P) q) 0)).
    + do 2 f_equal. destruct W as [-> | W].
      * unfold ff_width. destruct (four_pions c) eqn:F; [unfold four_iff; destruct (Rlt_dec q (ff_threshold M c)); lra|].
        destruct (Rlt_dec (ff_threshold M c) q); lra.
      * destruct c; try discriminate W; cbn [width_body at_mass g_mv width_consts k_mpi k_mpi0]; cbn [ff_threshold] in Ht; unfold ff_width, four_iff;
          cbn [four_pions ff_threshold]; repeat (match goal with |- context [Rlt_dec ?a ?b] => destruct (Rlt_dec a b); try lra end).
    + f_equal. rewrite resonance_short by assumption. unfold short_form, Rdiv. ring.
Qed.
Example hadrons_open_case : In ("eta phi"%string, Some EtaPhi) cs_states /\ total_mass code_cmass "eta phi" = 547.862 + 1019.461.
Proof. split; [cbn; tauto|]. unfold total_mass. cbn - [Rplus]. ring. Qed.
Print Assumptions hadrons_open_at_their_masses.

(** On a new object the width in it is the sum of the listed partial widths *)
Theorem new_object_width : forall K ffw P,
  snd (width_v K ffw (new_gev P))
  = Ret (fold_left Rplus
      (map (fun ct : chan * bool => width_body K ffw P (g_uu P, g_dd P, g_ss P) (fst ct)
              (match default_npts (fst ct) with Some _ => if snd ct then 50000%N else match default_npts (fst ct) with Some n => n | None => 0%N end | None => 0%N end))
         partial_width_calls) 0).
Proof.
  intros K ffw P. unfold width_v, partial_widths.
  pose proof (calls_value K ffw (new_gev P) 50000%N partial_width_calls) as H.
  assert (Hn : ~ In Pi0Pi0 (map fst partial_width_calls)) by (cbn; intuition discriminate).
  assert (Ht : forall c t, In (c, t) partial_width_calls -> t = true -> default_npts c <> None).
  { intros c t Hi ->. cbn in Hi. repeat (destruct Hi as [E|Hi]; [inversion E; subst; discriminate|]). destruct Hi. }
  specialize (H (fun c _ => new_coh K ffw _ _ _ c) (proj1 (proj2 (new_sane P))) Hn Ht).
  destruct (call_widths K ffw (new_gev P) 50000%N partial_width_calls) as [o1 [d|e]]; cbn [snd] in *; [|discriminate].
  injection H as ->. reflexivity.
Qed.
Example new_object_width_case : List.length partial_width_calls = 25%nat /\ In (XX, false) partial_width_calls /\ ~ In Pi0Pi0 (map fst partial_width_calls).
Proof. cbn. repeat split; try tauto. intuition discriminate. Qed.
Print Assumptions new_object_width.

(** Below the dark-matter threshold: zero for leptons, pi0 pi0 gamma and v v, and zero for the hadronic
    states below their own threshold *)
Theorem closed_channels : forall M iff P cp w c n q, masses_ok M -> has_cross_section c ->
  (In c [EE; MuMu; VeVe; VmVm; VtVt; Pi0Pi0A] -> q <= 2 * g_mx P -> sigma_of M iff P cp w c n q = Some 0)
  /\ (q <= 2 * g_mx P \/ q <= 2 * g_mv P -> sigma_xx_to_v_v P q = Some 0)
  /\ (~ In c [EE; MuMu; VeVe; VmVm; VtVt; PiPiPiPi; PiPiPi0Pi0] -> 0 <= q -> q <= ff_threshold M c ->
      c = Pi0Pi0A /\ (exists x, sigma_of M iff P cp w c n q = x /\ (x = Some 0 \/ x = None)) \/ sigma_of M iff P cp w c n q = Some 0).
Proof.
  intros M iff P cp w c n q HM [Hc1 Hc2]. split; [|split].
  - intros Hi Hq. cbn [In] in Hi. destruct c; try (exfalso; intuition discriminate); cbn [sigma_of]; unfold sigma_xx_to_f_f, sigma_from_width_fn;
      destruct (Rlt_dec (2 * g_mx P) q); try lra; cbn [obind]; try reflexivity; try (f_equal; lra).
    destruct (Rlt_dec _ q); reflexivity.
  - intros H. unfold sigma_xx_to_v_v. destruct (Rlt_dec (2 * g_mv P) q), (Rlt_dec (2 * g_mx P) q); try reflexivity. destruct H; lra.
  - intros Hi H0 Hq. destruct c; try congruence; try (exfalso; apply Hi; cbn; tauto);
      try (right; cbn [sigma_of]; unfold base_cross_section; destruct (Rlt_dec (ff_threshold M _) q); [lra|reflexivity]).
    left. split; [reflexivity|]. eexists. split; [reflexivity|]. cbn [sigma_of]. unfold sigma_from_width_fn.
    destruct (Rlt_dec _ q); [|now left]. destruct (Rlt_dec _ q); [|now left]. destruct (width_to_cs P w q) as [f|]; cbn [obind]; [left|now right].
    unfold ff_width. cbn [four_pions]. destruct (Rlt_dec (ff_threshold M Pi0Pi0A) q); [lra|]. f_equal. ring.
Qed.
Example closed_channels_case : has_cross_section MuMu /\ In MuMu [EE; MuMu; VeVe; VmVm; VtVt; Pi0Pi0A] /\ 500 <= 2 * g_mx pars_ex
  /\ ~ In EtaPhi [EE; MuMu; VeVe; VmVm; VtVt; PiPiPiPi; PiPiPi0Pi0] /\ 900 <= ff_threshold code_cmass EtaPhi.
Proof. cbn. repeat split; try discriminate; try lra; try tauto. intuition discriminate. Qed.
Print Assumptions closed_channels.
(** The other hadronic states are not finite there, the four-pion states even below their own threshold,
    and with them the total at every energy below the dark-matter threshold *)
Theorem hadrons_below_dark_matter : forall M iff P cp w c n q, 0 <= q -> q < 2 * g_mx P -> has_cross_section c ->
  (~ In c [EE; MuMu; VeVe; VmVm; VtVt; Pi0Pi0A] -> ff_threshold M c < q \/ four_pions c = true -> sigma_of M iff P cp w c n q = None)
  /\ dget (annihilation_cross_sections M iff P cp w q) "total" = Some None.
Proof.
  intros M iff P cp w c n q H0 Hq [Hc1 Hc2]. pose proof (cs_factor_none P w q (g_xx P) H0 Hq) as N. split.
  - intros Hi Ht. destruct c; try congruence; try (exfalso; apply Hi; cbn; tauto); cbn [sigma_of]; unfold base_cross_section, four_body_cross_section;
      try (rewrite N; reflexivity); (destruct Ht as [Ht|Ht]; [|discriminate]); destruct (Rlt_dec (ff_threshold M _) q); try lra; rewrite N; reflexivity.
  - unfold annihilation_cross_sections. rewrite dget_dset_same. f_equal. apply osum_none.
    apply in_map_iff. exists ("pi pi pi pi"%string, None). split; [reflexivity|]. apply in_map_iff.
    exists ("pi pi pi pi"%string, Some PiPiPiPi). split; [|cbn; tauto]. cbn [fst snd cs_value sigma_of]. unfold four_body_cross_section.
    now rewrite N.
Qed.
Theorem total_below_threshold_refuted : exists M iff P cp w q, masses_ok M /\ 0 < g_mx P /\ 0 < g_mv P /\ 0 < w /\ 0 < q < 2 * g_mx P
  /\ sigma_of M iff P cp w EE 0%N q = Some 0 /\ sigma_of M iff P cp w PiPi 0%N q = None
  /\ dget (annihilation_cross_sections M iff P cp w q) "total" = Some None.
Proof.
  exists code_cmass, iff_ex, pars_ex, (0.1, 0.2, 0.3), 10, 500. split; [apply code_masses_ok|]. cbn [g_mx g_mv pars_ex]. repeat (split; [lra|]).
  assert (B : 0 <= 500 /\ 500 < 2 * g_mx pars_ex) by (cbn; lra). destruct B as [B1 B2].
  destruct (hadrons_below_dark_matter code_cmass iff_ex pars_ex (0.1, 0.2, 0.3) 10 PiPi 0%N 500 B1 B2 ltac:(split; discriminate)) as [H T].
  split; [|split; [|exact T]].
  - apply (closed_channels code_cmass iff_ex pars_ex (0.1, 0.2, 0.3) 10 EE 0%N 500 code_masses_ok ltac:(split; discriminate)); cbn; [tauto|lra].
  - apply H; [cbn; intuition discriminate|]. left. cbn. lra.
Qed.
Print Assumptions hadrons_below_dark_matter.
Print Assumptions total_below_threshold_refuted.

(** The MeV class: the same leptons *)
Theorem leptons_as_in_mev : forall P w gff mf q gu gd gs ge gm, 0 <= g_mx P -> 0 < g_mv P -> 0 < w -> 0 <= mf -> 2 * g_mx P < q -> 2 * mf < q ->
  sigma_xx_to_f_f P w gff mf q = Some (sigma_xx_to_v_to_ff (mev_params P gu gd gs ge gm) q w gff mf).
Proof.
  intros P w gff mf q gu gd gs ge gm Hx Hv Hw Hf Qx Qf. rewrite (ff_short P w Hx Hv Hw gff mf q Hf Qx). f_equal.
  unfold sigma_xx_to_v_to_ff, width_v_to_f_f, short_form, v_propagator, mev_params. cbn [v_mx v_mv v_gvxx].
  destruct (Rlt_dec q (2 * mf)); [lra|]. destruct (Rlt_dec q (2 * g_mx P)); [lra|].
  assert (Gx : 0 < q ^ 2 - 4 * g_mx P ^ 2) by nra. assert (Gf : 0 < q ^ 2 - 4 * mf ^ 2) by nra.
  replace (g_mx P ^ 2 * - 4 + q ^ 2) with (q ^ 2 - 4 * g_mx P ^ 2) by ring. replace (mf ^ 2 * - 4 + q ^ 2) with (q ^ 2 - 4 * mf ^ 2) by ring.
  replace (- 4 * mf ^ 2 + q ^ 2) with (q ^ 2 - 4 * mf ^ 2) by ring. rewrite Rmax_left by lra. rewrite sqrt_div_alt by exact Gx.
  pose proof (sqrt_lt_R0 _ Gx) as Rx. pose proof (den_pos q (g_mv P) w Hv Hw) as D. pose proof PI_RGT_0.
  replace (g_mv P ^ 2 * w ^ 2 + (g_mv P ^ 2 - q ^ 2) ^ 2) with ((q ^ 2 - g_mv P ^ 2) ^ 2 + g_mv P ^ 2 * w ^ 2) by ring.
  set (rx := sqrt _) in *. set (rf := sqrt _). set (d := _ + g_mv P ^ 2 * w ^ 2) in *. clearbody rx rf d. field. repeat split; lra.
Qed.
(** Full claim: also the same cross section into two mediators.  Proved: it is twice that *)
Theorem two_mediators_twice_mev_partial : forall P q gu gd gs ge gm, 0 < g_mx P -> 0 < g_mv P -> 2 * g_mx P < q -> 2 * g_mv P < q ->
  sigma_xx_to_v_v P q = Some (2 * sigma_xx_to_vv (mev_params P gu gd gs ge gm) q)
  /\ 0 <= 2 * sigma_xx_to_vv (mev_params P gu gd gs ge gm) q.
Proof.
  intros P q gu gd gs ge gm Hx Hv Qx Qv. split; [now apply vv_twice|].
  pose proof (vector_nonnegative rs_consts (mev_params P gu gd gs ge gm) q 1 0 1) as V.
  cbn [v_mx v_mv mev_params] in V.
  destruct V as (_ & _ & _ & _ & V & _); try assumption; try (cbn; lra).
  assert (0 < (g_mv P * 1) ^ 2) by (apply pow_lt; lra). pose proof (pow2_ge_0 (q ^ 2 - g_mv P ^ 2)). lra.
Qed.
Example mev_case : 0 < g_mx pars_ex /\ 0 < g_mv pars_ex /\ 2 * g_mx pars_ex < 2500 /\ 2 * g_mv pars_ex < 2500.
Proof. cbn. lra. Qed.
Print Assumptions leptons_as_in_mev.
Print Assumptions two_mediators_twice_mev_partial.
(** A value: all masses 1, energy 4 *)
Definition unit_pars : gpar := MkGpar 1 1 1 0 0 0 0 0 0 0 0.
Lemma ln13 : 2 < ln 13 < 13.
Proof.
  split; apply exp_lt_inv; rewrite exp_ln by lra.
  - replace 2 with (1 + 1) by lra. rewrite exp_plus. pose proof exp_le_3. pose proof (exp_pos 1). nra.
  - pose proof (exp_ineq1 13 ltac:(lra)). lra.
Qed.
Lemma vv_unit : sigma_xx_to_v_v unit_pars 4 = Some (/ (64 * PI) * (11 / 6 * ln 13 - 22 / 13)).
Proof.
  unfold sigma_xx_to_v_v, unit_pars. cbn [g_mx g_mv g_xx]. destruct (Rlt_dec (2 * 1) 4); [|lra].
  rewrite !odiv_some by lra. cbn [obind]. rewrite !osqrt_some by lra. cbn [obind].
  assert (Pr : 0 < 1 - 4 * (1 / 4) ^ 2) by lra. pose proof (sqrt_lt_R0 _ Pr) as Rp. pose proof (sqrt_sqrt _ (Rlt_le _ _ Pr)) as Sq.
  set (rr := sqrt _) in *. clearbody rr. pose proof PI_RGT_0.
  rewrite (odiv_some (1 ^ 4 * rr)).
  2:{ apply Rgt_not_eq. apply Rmult_lt_0_compat; [apply Rmult_lt_0_compat; lra|lra]. }
  cbn [obind]. rewrite (odiv_some (2 * ((1 / 4) ^ 2) ^ 2 + (1 / 4) ^ 2 + 4 * ((1 / 4) ^ 2) ^ 2)) by lra. cbn [obind].
  rewrite Sq. rewrite (odiv_some (1 - 4 * (1 / 4) ^ 2)) by lra. cbn [obind].
  unfold oatanh. replace ((1 - 4 * (1 / 4) ^ 2) / (1 - 2 * (1 / 4) ^ 2)) with (6 / 7) by field.
  destruct (Rlt_dec (-1) (6 / 7)); [|lra]. destruct (Rlt_dec (6 / 7) 1); [|lra]. cbn [obind].
  replace ((1 + 6 / 7) / (1 - 6 / 7)) with 13 by field.
  rewrite odiv_some by lra. cbn [obind]. f_equal. set (l := ln 13). clearbody l. field. split; lra.
Qed.
Theorem two_mediators_refuted : exists P q v v', 0 < g_mx P /\ 0 < g_mv P /\ 2 * g_mx P < q /\ 2 * g_mv P < q
  /\ sigma_xx_to_v_v P q = Some v /\ sigma_xx_to_vv (mev_params P 0 0 0 0 0) q = v' /\ 0 < v' < v.
Proof.
  exists unit_pars, 4. eexists. eexists. cbn [g_mx g_mv unit_pars]. repeat (split; [lra|]). split; [apply vv_unit|]. split; [reflexivity|].
  destruct (two_mediators_twice_mev_partial unit_pars 4 0 0 0 0 0) as [E _]; cbn; try lra. rewrite vv_unit in E. injection E as E. fold unit_pars. rewrite E.
  assert (V : 0 < / (64 * PI) * (11 / 6 * ln 13 - 22 / 13)).
  { pose proof PI_RGT_0. pose proof ln13. apply Rmult_lt_0_compat; [apply Rinv_0_lt_compat|]; lra. }
  rewrite E in V. lra.
Qed.
Print Assumptions two_mediators_refuted.
(** For a massless mediator with coupling 4 pi alpha the correct value is the one of electrons into two photons
    (Dirac 1930), in the velocity [b] in the centre of mass; the method gives twice that *)
Definition pair_to_photons (alpha s b : R) : R :=
  PI * alpha ^ 2 / (s * b ^ 2) * ((3 - b ^ 4) * ln ((1 + b) / (1 - b)) - 2 * b * (2 - b ^ 2)).
Theorem massless_limit_doubled : forall mx alpha g q gu gd gs ge gm g1 g2 g3, 0 < mx -> 2 * mx < q -> g ^ 2 = 4 * PI * alpha ->
  sigma_xx_to_v_v (MkGpar mx 0 g gu gd gs ge gm g1 g2 g3) q = Some (2 * pair_to_photons alpha (q ^ 2) (sqrt (1 - (2 * mx / q) ^ 2))).
Proof.
  intros mx alpha g q gu gd gs ge gm g1 g2 g3 Hx Hq G. unfold sigma_xx_to_v_v, pair_to_photons. cbn [g_mx g_mv g_xx].
  destruct (Rlt_dec (2 * 0) q); [|lra]. destruct (Rlt_dec (2 * mx) q); [|lra]. rewrite !odiv_some by lra. cbn [obind].
  replace (0 / q) with 0 by (field; lra). set (m := mx / q).
  assert (Hm : 0 < m < / 2).
  { split; [apply Rdiv_lt_0_compat; lra|]. apply Rmult_lt_reg_r with q; [lra|]. unfold m. replace (mx / q * q) with mx by (field; lra). lra. }
  replace (2 * mx / q) with (2 * m) by (unfold m; field; lra). clearbody m.
  assert (Gx : 0 < 1 - 4 * m ^ 2) by nra. rewrite !osqrt_some by lra. cbn [obind]. replace (1 - (2 * m) ^ 2) with (1 - 4 * m ^ 2) by ring.
  replace (1 - 4 * 0 ^ 2) with 1 by ring. rewrite sqrt_1. pose proof (sqrt_lt_R0 _ Gx) as Rx. pose proof (sqrt_sqrt _ (Rlt_le _ _ Gx)) as Sx.
  set (b := sqrt _) in *. clearbody b. pose proof PI_RGT_0 as Pp. assert (Q2 : 0 < q ^ 2) by (apply pow_lt; lra).
  assert (Hb : b < 1) by nra.
  rewrite (odiv_some (g ^ 4 * 1)).
  2:{ apply Rgt_not_eq. apply Rmult_lt_0_compat; [apply Rmult_lt_0_compat; lra|lra]. }
  cbn [obind]. assert (M2 : 0 < m ^ 2) by (apply pow_lt; lra).
  rewrite (odiv_some (2 * (0 ^ 2) ^ 2 + m ^ 2 + 4 * (m ^ 2) ^ 2)) by lra. cbn [obind]. rewrite (odiv_some (b * 1)) by lra. cbn [obind].
  replace (b * 1 / (1 - 2 * 0 ^ 2)) with b by field. unfold oatanh. destruct (Rlt_dec (-1) b); [|lra]. destruct (Rlt_dec b 1); [|lra]. cbn [obind].
  rewrite odiv_some by lra. cbn [obind]. f_equal. set (l := ln _). clearbody l.
  replace (g ^ 4) with ((4 * PI * alpha) ^ 2) by (rewrite <- G; ring).
  assert (Em : m ^ 2 = (1 - b ^ 2) / 4) by lra. rewrite Em in *. clear Em Sx Gx Hm. field. repeat split; lra.
Qed.
Example massless_case : 0 < 1 /\ 2 * 1 < 4 /\ (sqrt (4 * PI)) ^ 2 = 4 * PI * 1.
Proof. pose proof PI_RGT_0. repeat split; try lra. rewrite <- Rsqr_pow2, Rsqr_sqrt; lra. Qed.
Print Assumptions massless_limit_doubled.
(** An energy that is a Python integer gives the integer part *)
Theorem integer_energy_refuted : exists P n v, sigma_xx_to_v_v P (IZR n) = Some v /\ 0 < v /\ sigma_xx_to_v_v_int P n = Some 0.
Proof.
  exists unit_pars, 4%Z. eexists. split; [apply vv_unit|]. pose proof PI_RGT_0 as P0. pose proof ln13 as L.
  assert (P2 : 2 < PI) by (pose proof PI2_1; unfold PI2 in *; lra).
  assert (I : 0 < / (64 * PI) < / 128).
  { split; [apply Rinv_0_lt_compat; lra|]. apply Rinv_lt_contravar; nra. }
  assert (V : 0 < / (64 * PI) * (11 / 6 * ln 13 - 22 / 13) < 1) by (set (l := ln 13) in *; set (i := / (64 * PI)) in *; clearbody l i; nra).
  split; [lra|]. unfold sigma_xx_to_v_v_int. rewrite vv_unit. cbn [obind]. set (v := / (64 * PI) * (11 / 6 * ln 13 - 22 / 13)) in *. clearbody v. do 2 f_equal.
  unfold truncate. destruct (Rle_dec 0 v); [|lra]. destruct (base_Int_part v) as [B1 B2].
  assert (Int_part v < 1)%Z by (apply lt_IZR; lra). assert (-1 < Int_part v)%Z by (apply lt_IZR; lra). lia.
Qed.
Print Assumptions integer_energy_refuted.

(** Arrays for pi0 pi0 gamma *)
Theorem array_pointwise : forall P w width fsp es e, In e es -> fsp < e -> 2 * g_mx P < e ->
  sigma_from_width_array P w width fsp es = Ret (map (sigma_from_width_fn P w width fsp) es).
Proof.
  intros P w width fsp es e He Hf Hx. unfold sigma_from_width_array.
  set (keep := fun e : R => if Rlt_dec fsp e then if Rlt_dec (2 * g_mx P) e then true else false else false).
  set (fn := fun e : R => obind (width_to_cs P w e) (fun f => Some (width e * f))).
  assert (K : keep e = true).
  { unfold keep. destruct (Rlt_dec fsp e); [|lra]. destruct (Rlt_dec (2 * g_mx P) e); [reflexivity|lra]. }
  assert (S : forall l, scatter (Some 0) keep l (map fn (filter keep l)) = Ret (map (sigma_from_width_fn P w width fsp) l)).
  { induction l as [|x l IH]; [reflexivity|]. cbn [scatter filter map]. destruct (keep x) eqn:E; cbn [map].
    - rewrite IH. cbn [bind]. do 2 f_equal. unfold sigma_from_width_fn, keep in *. destruct (Rlt_dec fsp x); [|discriminate].
      destruct (Rlt_dec (2 * g_mx P) x); [reflexivity|discriminate].
    - rewrite IH. cbn [bind]. do 2 f_equal. unfold sigma_from_width_fn, keep in *. destruct (Rlt_dec fsp x); [|reflexivity].
      destruct (Rlt_dec (2 * g_mx P) x); [discriminate|reflexivity]. }
  assert (N : In e (filter keep es)) by (apply filter_In; now split).
  destruct (filter keep es) as [|x l] eqn:E; [destruct N|]. rewrite <- E. apply S.
Qed.
Example array_pointwise_case : In 700 [100; 700] /\ 270 < 700 /\ 2 * g_mx pars_ex < 700.
Proof. cbn. repeat split; try lra; tauto. Qed.
Theorem array_refuted : exists P w width fsp es, map (sigma_from_width_fn P w width fsp) es = [Some 0; Some 0]
  /\ sigma_from_width_array P w width fsp es = Raise ValueError.
Proof.
  exists pars_ex, 10, (fun _ => 1), 270, [100; 500]. unfold sigma_from_width_fn, sigma_from_width_array. cbn [map filter g_mx pars_ex].
  repeat (match goal with |- context [Rlt_dec ?a ?b] => destruct (Rlt_dec a b); try lra end). split; reflexivity.
Qed.
Print Assumptions array_pointwise.
Print Assumptions array_refuted.

(** * C100: the relic density of the GeV mediator *)
(** The cross section averaged with all the flags on is the total without v v *)
Theorem all_states_but_mediators : forall M iff P cp w q,
  dget (annihilation_cross_sections M iff P cp w q) "total"
  = Some (let? r := relic_cross_section M iff P cp w true true q in let? v := sigma_xx_to_v_v P q in Some (r + v)).
Proof.
  intros M iff P cp w q. unfold annihilation_cross_sections. rewrite dget_dset_same. reflexivity.
Qed.
Theorem default_states : forall M iff P cp w q,
  relic_cross_section M iff P cp w false false q
  = osum (map (fun c => sigma_of M iff P cp w c 0 q) [EE; MuMu; VeVe; VtVt; VmVm; PiPi; K0K0; KK; Pi0A; EtaA; Pi0Phi; EtaPhi; EtaOmega])
  /\ relic_cross_section M iff P cp w true true q
  = (let? a := relic_cross_section M iff P cp w false false q in
     let? b := osum (map (fun c => sigma_of M iff P cp w c (cs_npts c) q)
       [Pi0Pi0A; PiPiPi0; PiPiEta; PiPiEtap; PiPiOmega; Pi0Pi0Omega; Pi0K0K0; Pi0KK; PiKK0; PiPiPiPi; PiPiPi0Pi0]) in
     Some (a + b)).
Proof.
  intros. split; [reflexivity|].
  assert (A : forall l' a, fold_left (fun a b : onum => let? x := a in let? y := b in Some (x + y)) l' a = (let? x := a in let? y := osum l' in Some (x + y))).
  { induction l' as [|y l' IH]; intros a; unfold osum in *; cbn [fold_left].
    - destruct a; cbn [obind]; [f_equal; ring|reflexivity].
    - rewrite IH, (IH (obind (Some 0) _)). destruct a as [a|], y as [y|]; cbn [obind]; try reflexivity.
      match goal with |- context [obind ?t _] => destruct t; cbn [obind]; [f_equal; ring|reflexivity] end. }
  unfold relic_cross_section at 1. set (l := filter _ cs_states).
  change l with (filter (fun kc : string * option chan => existsb (String.eqb (fst kc)) (make_final_states false false)) cs_states
    ++ [("pi0 pi0 gamma", Some Pi0Pi0A); ("pi pi pi0", Some PiPiPi0); ("pi pi eta", Some PiPiEta);
   ("pi pi etap", Some PiPiEtap); ("pi pi omega", Some PiPiOmega); ("pi0 pi0 omega", Some Pi0Pi0Omega);
   ("pi0 k0 k0", Some Pi0K0K0); ("pi0 k k", Some Pi0KK); ("pi k k0", Some PiKK0);
   ("pi pi pi pi", Some PiPiPiPi); ("pi pi pi0 pi0", Some PiPiPi0Pi0)]%string).
  rewrite map_app. unfold osum at 1. rewrite fold_left_app, A. reflexivity.
Qed.
Print Assumptions all_states_but_mediators.
Print Assumptions default_states.

(** scipy's quad, exact on functions that are numbers inside the interval *)
Definition exact_onum (quad : (R -> onum) -> R -> R -> onum) : Prop :=
  (forall f g a b v, a <= b -> (forall z, a < z < b -> f z = Some (g z)) -> area g a b v -> quad f a b = Some v)
  /\ (forall f g a b v, b < a -> (forall z, b < z < a -> f z = Some (g z)) -> area g b a v -> quad f a b = Some (- v)).
Lemma exact_onum_exists : exists quad, exact_onum quad.
Proof.
  destruct PionProofs.exact_oriented_exists as [quad [Q1 Q2]].
  exists (fun f a b => Some (quad (fun z => match f z with Some v => v | None => 0 end) a b)).
  split; intros f g a b v H F A; f_equal; [apply Q1|apply Q2]; try assumption;
    (refine (area_ext _ _ _ _ _ [] _ A); intros z Hz _; now rewrite F by lra).
Qed.
(** Above 2 mx every cross section is a number *)
Lemma osum_numbers l : (forall x, In x l -> exists v, x = Some v) -> exists v, osum l = Some v.
Proof.
  unfold osum. assert (A : forall l a, (forall x, In x l -> exists v, x = Some v) ->
    exists v, fold_left (fun a b : onum => let? x := a in let? y := b in Some (x + y)) l (Some a) = Some v).
  { induction l0 as [|x l0 IH]; intros a H; [now exists a|]. destruct (H x (or_introl eq_refl)) as [v ->]. cbn [fold_left obind].
    apply IH. intros y Hy. apply H. now right. }
  intro H. apply A, H.
Qed.
Lemma relic_number M iff P cp w with3 with4 q : masses_ok M -> 0 <= g_mx P -> 0 < g_mv P -> 0 < w -> 2 * g_mx P < q ->
  exists v, relic_cross_section M iff P cp w with3 with4 q = Some v.
Proof.
  intros HM Hx Hv Hw Hq. apply osum_numbers. intros x Hi. apply in_map_iff in Hi. destruct Hi as ((k, oc) & <- & Hi).
  apply filter_In in Hi. destruct Hi as [Hi Hk]. cbn [fst snd] in *.
  assert (C : exists c, oc = Some c /\ has_cross_section c).
  { cbn [cs_states In] in Hi. repeat (destruct Hi as [E|Hi]; [injection E as <- <-; try (eexists; split; [reflexivity|split; discriminate]); destruct with3, with4; discriminate Hk|]). destruct Hi. }
  destruct C as (c & -> & Hc). cbn [cs_value]. eexists. apply (sigma_short M iff P cp w HM Hx Hv Hw 0 c _ q Hc Hq).
Qed.
(** Up to x = 25 the average is that of Gondolo and Gelmini, stopped at 50 T *)
Theorem gev_average_partial : forall M iff P cp w with3 with4 quad K1 K2 sig x i,
  masses_ok M -> 0 < g_mx P -> 0 < g_mv P -> 0 < w -> exact_onum quad -> 0 < x < 25 -> K2 x <> 0 ->
  (forall e, 2 * g_mx P < e -> relic_cross_section M iff P cp w with3 with4 e = Some (sig e)) ->
  area (gg_integrand K1 sig (g_mx P) (g_mx P / x)) (4 * g_mx P ^ 2) ((50 * (g_mx P / x)) ^ 2) i ->
  exists v, gev_thermal_cross_section M iff P cp w quad K1 K2 with3 with4 x = Some v
    /\ gg_average K1 K2 sig (g_mx P) (g_mx P / x) ((50 * (g_mx P / x)) ^ 2) v.
Proof.
  intros M iff P cp w with3 with4 quad K1 K2 sig x i HM Hx Hv Hw [Q _] X K S A.
  assert (B : 2 < 50 / x) by (apply Rmult_lt_reg_r with x; [lra|]; replace (50 / x * x) with 50 by (field; lra); lra).
  assert (HT : 0 < g_mx P / x) by (apply Rdiv_lt_0_compat; lra).
  assert (A' := A). replace (50 * (g_mx P / x)) with (g_mx P * (50 / x)) in A' by (field; lra).
  pose proof (gg_window K1 sig (g_mx P) (g_mx P / x) (50 / x) i Hx HT ltac:(lra) A') as G.
  replace (g_mx P / (g_mx P / x)) with x in G by (field; lra).
  unfold gev_thermal_cross_section. destruct (Rlt_dec 300 x); [lra|].
  rewrite odiv_some by (apply pow_nonzero; lra). cbn [obind].
  assert (F : forall z, 2 < z < 50 / x -> relic_integrand M iff P cp w K1 with3 with4 x z = Some (sig (g_mx P * z) * (z ^ 2 * (z ^ 2 - 4) * K1 (x * z)))).
  { intros z Hz. unfold relic_integrand. rewrite S by nra. reflexivity. }
  rewrite (Q _ _ 2 (50 / x) _ ltac:(lra) F G).
  cbn [obind]. eexists. split; [reflexivity|]. exists i. split; [exact A|].
  replace (g_mx P / (g_mx P / x)) with x by (field; lra). field. repeat split; lra.
Qed.
Print Assumptions gev_average_partial.
(** Hadronic pairs with a cross section of one above the threshold, and no leptons *)
Definition flat_pars : gpar := MkGpar 300 1000 1 0 0 0 0 0 0 0 0.
Definition flat_iff (c : chan) (q : R) (cp : R * R * R) (n : N) : R :=
  match c with
  | PiPi => 2 * (sqrt (q ^ 2 - 4 * 300 ^ 2) * ((q ^ 2 - 1000 ^ 2) ^ 2 + 1000 ^ 2 * 10 ^ 2)) / (q * (q ^ 2 + 2 * 300 ^ 2))
  | _ => 0
  end.
Lemma flat_relic q : 2 * 300 < q -> relic_cross_section code_cmass flat_iff flat_pars (0, 0, 0) 10 false false q = Some 1.
Proof.
  intros Hq. rewrite (proj1 (default_states _ _ _ _ _ _)).
  assert (F : forall c, has_cross_section c -> sigma_of code_cmass flat_iff flat_pars (0, 0, 0) 10 c 0 q
    = Some (short_form q 300 1000 10 1 (width_body (width_consts code_cmass 0) (ff_width code_cmass flat_iff) (at_mass flat_pars q) (0, 0, 0) c 0))).
  { intros c Hc. apply (sigma_short code_cmass flat_iff flat_pars (0, 0, 0) 10 code_masses_ok); cbn [g_mx g_mv flat_pars]; try lra; exact Hc. }
  assert (Z : short_form q 300 1000 10 1 0 = 0) by (unfold short_form, Rdiv; ring).
  assert (W : forall c, In c [EE; MuMu; VeVe; VtVt; VmVm; K0K0; KK; Pi0A; EtaA; Pi0Phi; EtaPhi; EtaOmega] ->
    sigma_of code_cmass flat_iff flat_pars (0, 0, 0) 10 c 0 q = Some 0).
  { intros c Hc. cbn [In] in Hc. repeat (destruct Hc as [<-|Hc]); try contradiction; rewrite F by (split; discriminate); f_equal;
      (transitivity (short_form q 300 1000 10 1 0); [apply f_equal|exact Z]); cbn [width_body at_mass g_mv g_ee g_mm g_ve g_vm g_vt flat_pars]; unfold width_v_to_f_f, ff_width; cbn [four_pions flat_iff];
      try (destruct (Rlt_dec _ q)); unfold Rdiv; ring. }
  assert (E : sigma_of code_cmass flat_iff flat_pars (0, 0, 0) 10 PiPi 0 q = Some 1).
  { rewrite F by (split; discriminate). f_equal. cbn [width_body at_mass g_mv flat_pars]. unfold ff_width. cbn [four_pions ff_threshold code_cmass m_pi].
    destruct (Rlt_dec (139.57 + 139.57) q); [|lra]. cbn [flat_iff]. unfold short_form.
    assert (Gx : 0 < q ^ 2 - 4 * 300 ^ 2) by nra. pose proof (sqrt_lt_R0 _ Gx) as Rx. set (rx := sqrt _) in *. clearbody rx.
    assert (D : 0 < (q ^ 2 - 1000 ^ 2) ^ 2 + 1000 ^ 2 * 10 ^ 2) by (pose proof (pow2_ge_0 (q ^ 2 - 1000 ^ 2)); lra).
    set (d := _ + 1000 ^ 2 * 10 ^ 2) in *. clearbody d. replace 0.5 with (/ 2) by lra. field. repeat split; nra. }
  cbn [map]. rewrite E, !W by (cbn [In]; tauto). unfold osum. cbn [fold_left obind]. f_equal. ring.
Qed.
Example gev_average_case : (exists quad, exact_onum quad) /\ (forall e, 2 * g_mx flat_pars < e -> relic_cross_section code_cmass flat_iff flat_pars (0, 0, 0) 10 false false e = Some 1)
  /\ exists i, area (gg_integrand toyK1 (fun _ => 1) (g_mx flat_pars) (g_mx flat_pars / 20)) (4 * g_mx flat_pars ^ 2) ((50 * (g_mx flat_pars / 20)) ^ 2) i.
Proof.
  split; [exact exact_onum_exists|]. split; [exact flat_relic|]. cbn [g_mx flat_pars].
  apply (area_exists (gg_integrand toyK1 (fun _ => 1) 300 (300 / 20))); [lra|].
  intros s Hs. apply derivable_continuous_pt. eexists. unfold toyK1, gg_integrand.
  apply dl_mult; [apply dl_mult; [dl|apply dl_sqrt; [apply dl_id|lra]]|].
  apply dl_exp, dl_opp. apply dl_div; [apply dl_sqrt; [apply dl_id|lra]|apply dl_const|lra].
Qed.
(** From x = 25 on the window is reversed.  With the default states and 2 mx below every hadronic
    threshold the average is zero there *)
Definition lightest_hadron (M : cmass) (m : R) : Prop := m <= m_pi0 M /\ m <= 2 * m_pi M /\ m <= 2 * m_k M /\ m <= 2 * m_k0 M /\ m <= m_eta M.
Lemma two_body_closed M iff P cp w q : masses_ok M -> lightest_hadron M (2 * g_mx P) -> 0 <= q -> q < 2 * g_mx P ->
  relic_cross_section M iff P cp w false false q = Some 0.
Proof.
  intros HM L H0 Hq. rewrite (proj1 (default_states M iff P cp w q)).
  assert (Z : forall c, In c [EE; MuMu; VeVe; VtVt; VmVm; PiPi; K0K0; KK; Pi0A; EtaA; Pi0Phi; EtaPhi; EtaOmega] -> sigma_of M iff P cp w c 0 q = Some 0).
  { intros c Hc. pose proof HM as HM'. unfold masses_ok in HM'. unfold lightest_hadron in L. cbn [In] in Hc.
    repeat (destruct Hc as [<-|Hc]); try contradiction;
      first [match goal with |- sigma_of _ _ _ _ _ ?c _ _ = _ => apply (closed_channels M iff P cp w c 0%N q HM ltac:(split; discriminate)); [cbn [In]; tauto|lra] end
            |cbn [sigma_of]; unfold base_cross_section; cbn [ff_threshold];
             match goal with |- context [Rlt_dec ?t q] => destruct (Rlt_dec t q); [lra|reflexivity] end]. }
  assert (ZZ : forall l, (forall x, In x l -> x = Some 0) -> osum l = Some 0).
  { unfold osum. intros l. assert (X : forall l, (forall x, In x l -> x = Some 0) -> fold_left (fun a b : onum => let? x := a in let? y := b in Some (x + y)) l (Some 0) = Some 0).
    { induction l0 as [|x l0 IH]; intros H; [reflexivity|]. rewrite (H x (or_introl eq_refl)). cbn [fold_left obind]. rewrite Rplus_0_r. apply IH.
      intros y Hy. apply H. now right. }
    apply X. }
  apply ZZ. intros x Hx. apply in_map_iff in Hx. destruct Hx as (c & <- & Hc). now apply Z.
Qed.
Theorem gev_average_vanishes : forall M iff P cp w quad K1 K2 x,
  masses_ok M -> 0 < g_mx P -> lightest_hadron M (2 * g_mx P) -> exact_onum quad -> 25 <= x <= 300 -> K2 x <> 0 ->
  gev_thermal_cross_section M iff P cp w quad K1 K2 false false x = Some 0.
Proof.
  intros M iff P cp w quad K1 K2 x HM Hx L [Q1 Q2] X K. unfold gev_thermal_cross_section. destruct (Rlt_dec 300 x); [reflexivity|].
  rewrite odiv_some by (apply pow_nonzero; lra). cbn [obind].
  assert (B : 0 < 50 / x <= 2).
  { split; [apply Rdiv_lt_0_compat; lra|]. apply Rmult_le_reg_r with x; [lra|]; replace (50 / x * x) with 50 by (field; lra); lra. }
  assert (Z : area (fun _ => 0) (50 / x) 2 0) by (apply (area_val _ _ _ (0 * (2 - 50 / x))); [ring|apply area_const]).
  destruct (Req_dec (50 / x) 2) as [E|E].
  - rewrite E in *. rewrite (Q1 _ (fun _ => 0) 2 2 0); [cbn [obind]; f_equal; ring|lra|intros; lra|exact Z].
  - rewrite (Q2 _ (fun _ => 0) 2 (50 / x) 0); [cbn [obind]; f_equal; ring|lra| |exact Z].
    intros z Hz. unfold relic_integrand. rewrite two_body_closed by (try assumption; nra). cbn [obind]. f_equal. ring.
Qed.
(** and with four-body states, or heavier dark matter, the integrand is not a number in it *)
Theorem gev_integrand_not_a_number : forall M iff P cp w k1 x z, 0 < g_mx P -> 0 <= z < 2 ->
  relic_integrand M iff P cp w k1 true true x z = None
  /\ relic_integrand M iff P cp w k1 false true x z = None
  /\ (m_pi0 M < g_mx P * z -> relic_integrand M iff P cp w k1 false false x z = None).
Proof.
  intros M iff P cp w k1 x z Hx Hz. assert (B : 0 <= g_mx P * z /\ g_mx P * z < 2 * g_mx P) by nra. destruct B as [B1 B2].
  assert (F : forall with3, relic_integrand M iff P cp w k1 with3 true x z = None).
  { intro with3. unfold relic_integrand, relic_cross_section. rewrite osum_none; [reflexivity|].
    apply in_map_iff. exists ("pi pi pi pi"%string, Some PiPiPiPi). split.
    - cbn [snd cs_value]. apply (hadrons_below_dark_matter M iff P cp w PiPiPiPi (cs_npts PiPiPiPi) (g_mx P * z) B1 B2 ltac:(split; discriminate)); [cbn; intuition discriminate|now right].
    - destruct with3; cbn; tauto. }
  split; [apply F|]. split; [apply F|]. intro H. unfold relic_integrand, relic_cross_section. rewrite osum_none; [reflexivity|].
  apply in_map_iff. exists ("pi0 gamma"%string, Some Pi0A). split.
  - cbn [snd cs_value]. apply (hadrons_below_dark_matter M iff P cp w Pi0A (cs_npts Pi0A) (g_mx P * z) B1 B2 ltac:(split; discriminate)); [cbn; intuition discriminate|].
    left. cbn [ff_threshold]. lra.
  - cbn. tauto.
Qed.
Example gev_integrand_case : 0 < g_mx pars_ex /\ 0 <= 1.5 < 2 /\ m_pi0 code_cmass < g_mx pars_ex * 1.5.
Proof. cbn. lra. Qed.
Print Assumptions gev_average_vanishes.
Print Assumptions gev_integrand_not_a_number.
Definition light_pars : gpar := MkGpar 50 1000 1 0.1 0.2 0.3 0.4 0.5 0.6 0.7 0.8.
(** So the average is zero at x = 30 although electrons are open above the threshold *)
Theorem gev_average_refuted : exists M iff P cp w quad K1 K2 x,
  masses_ok M /\ 0 < g_mx P /\ 0 < g_mv P /\ 0 < w /\ exact_onum quad /\ 0 < x <= 300 /\ (forall z, 0 < z -> 0 < K1 z) /\ (forall z, 0 < z -> 0 < K2 z)
  /\ (forall q, 2 * g_mx P < q -> exists v, sigma_of M iff P cp w EE 0 q = Some v /\ 0 < v)
  /\ gev_thermal_cross_section M iff P cp w quad K1 K2 false false x = Some 0.
Proof.
  destruct exact_onum_exists as [quad Q]. exists code_cmass, iff_ex, light_pars, (0.1, 0.2, 0.3), 10, quad, (fun _ => 1), (fun _ => 1), 30.
  split; [apply code_masses_ok|]. cbn [g_mx g_mv light_pars]. repeat (split; [lra|]). split; [exact Q|]. repeat (split; [intros; lra|]). split.
  - intros q Hq. eexists. split; [cbn [sigma_of]; apply (ff_short light_pars 10); cbn [light_pars g_mx g_mv code_cmass m_e]; lra|].
    unfold short_form. cbn [g_mx g_mv g_xx light_pars m_e code_cmass g_ee]. apply Rdiv_lt_0_compat.
    + apply Rmult_lt_0_compat; [nra|]. unfold width_v_to_f_f. apply Rdiv_lt_0_compat; [|pose proof PI_RGT_0; apply Rmult_lt_0_compat; nra].
      assert (100 ^ 2 < q ^ 2) by nra. rewrite Rmax_left by lra. apply Rmult_lt_0_compat; [|lra]. apply Rmult_lt_0_compat; [lra|apply sqrt_lt_R0; lra].
    + apply Rmult_lt_0_compat; [apply sqrt_lt_R0; nra|]. pose proof (pow2_ge_0 (q ^ 2 - 1000 ^ 2)). lra.
  - apply gev_average_vanishes; unfold lightest_hadron; cbn; try lra; [apply code_masses_ok|exact Q].
Qed.
Print Assumptions gev_average_refuted.
