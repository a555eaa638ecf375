(** Lemmas for TwinProps: the sums of the two trees are the same function of the energy. *)
From Coq Require Import Reals Bool List ZArith Lra Lia.
From Verif Require Import RamboProofs KinProofs KinProps DalitzProofs Area Primitive PionProofs RhnProofs.
From Verif Require Import PyBase RamboModel KinModel VffModel RareModel FourPiModel FitModel OldModel TwinModel.
From Verif Require Import FitProofs VffProofs OldProofs.
Import ListNotations.
Local Open Scope R_scope.

(** * Propagators *)
Lemma gev_pi : gev par_mpi = MPI_GEV.
Proof. reflexivity. Qed.
Lemma gev_pi0 : gev par_mpi0 = MPI0_GEV.
Proof. reflexivity. Qed.
Lemma gamma_p_twin s m g a b : ogamma_p s m g a b = gamma_p s m g a b.
Proof. unfold ogamma_p, gamma_p, obeta2, beta2. cbv zeta. now rewrite (Rmax_comm 0 (_ * _)), (Rmax_comm 0 (_ * _)), (Rmax_comm 0 (_ / _)). Qed.
Lemma hhat_twin s m g a b : ohhat s m g a b = hhat s m g a b.
Proof. unfold ohhat, hhat, obeta, beta, obeta2, beta2. cbv zeta. now rewrite (Rmax_comm 0 (_ * _)), (Rmax_comm 0 (_ * _)). Qed.
Lemma dhhat_twin m g a b : odhhatds m g a b = dhhatds m g a b.
Proof. unfold odhhatds, dhhatds, obeta2, beta2. cbv zeta. now rewrite (Rmax_comm 0 (_ * _)). Qed.
Lemma oh0_twin m g a b dh hres : oh_0 m g a b dh hres = hfun 0 m g a b dh hres.
Proof.
  unfold oh_0, hfun, obeta, beta, obeta2, beta2. destruct (Req_EM_T 0 0) as [_|N]; [|now elim N].
  now rewrite (Rmax_comm 0 (_ * _)).
Qed.
Lemma oh_twin s m g a b dh hres : s <> 0 -> oh s m g a b dh hres = hfun s m g a b dh hres.
Proof. intros N. unfold oh, hfun. destruct (Req_EM_T s 0) as [E|_]; [contradiction|]. now rewrite hhat_twin. Qed.
Lemma gs_twin s m w : s <> 0 -> ogs s m w = breit_wigner_gs s m w MPI_GEV MPI_GEV.
Proof.
  intros N. unfold ogs, obreit_wigner_gs, breit_wigner_gs, gs_num, gs_den, gs_h0, gs_hres, gs_dh. cbv zeta.
  rewrite oh0_twin, (oh_twin _ _ _ _ _ _ _ N), gamma_p_twin, hhat_twin, dhhat_twin, gev_pi. reflexivity.
Qed.
Lemma pwave_twin s m w a b : obreit_wigner_pwave s m w a b = breit_wigner_pwave s m w a b.
Proof. unfold obreit_wigner_pwave, breit_wigner_pwave. now rewrite gamma_p_twin. Qed.
Lemma fw_twin s m w : obreit_wigner_fw s m w = breit_wigner_fw s m w.
Proof. reflexivity. Qed.

(** * Sums and towers *)
Lemma csum_plus {A} (f g : A -> cplx) l : csum (map (fun x => cadd (f x) (g x)) l) = cadd (csum (map f l)) (csum (map g l)).
Proof.
  induction l as [|x l IH]; [cbn; unfold cadd; cbn; f_equal; ring|]. cbn [map]. rewrite !csum_cons, IH.
  unfold cadd. cbn [fst snd]. f_equal; ring.
Qed.
Lemma csum_map_scale {A} k (f : A -> cplx) l : csum (map (fun x => cscale k (f x)) l) = cscale k (csum (map f l)).
Proof. rewrite <- csum_scale, map_map. reflexivity. Qed.
Lemma cmul_scale k z w : cmul (cscale k z) w = cscale k (cmul z w).
Proof. apply cext; unfold cmul, cscale; cbn [fst snd]; ring. Qed.
Lemma overwrite_map {A} (l : list A) f : forall a n, (length l <= n)%nat ->
  overwrite l (map f (seq a n)) = map (fun i => nth (i - a) l (f i)) (seq a n).
Proof.
  unfold overwrite. induction l as [|x l IH]; intros a n H; cbn [length] in *.
  - cbn [skipn app]. apply map_ext. intros i. now destruct (i - a)%nat.
  - destruct n as [|n]; [lia|]. cbn [seq map skipn app]. rewrite Nat.sub_diag. f_equal.
    rewrite IH by lia. apply map_ext_in. intros i Hi. apply in_seq in Hi.
    replace (i - a)%nat with (S (i - S a)) by lia. reflexivity.
Qed.
Lemma overwrite_map0 {A} (l : list A) f n : (length l <= n)%nat ->
  overwrite l (map f (seq 0 n)) = map (fun i => nth i l (f i)) (seq 0 n).
Proof. intros H. rewrite overwrite_map by exact H. apply map_ext. intros i. now rewrite Nat.sub_0_r. Qed.
Lemma cresos_map fm fw fc (l : list nat) : cresos (map fm l) (map fw l) (map fc l) = map (fun n => CReso (fm n) (fw n) (fc n)) l.
Proof. unfold cresos. induction l as [|x l IH]; [reflexivity|]. cbn [map combine fst snd]. now f_equal. Qed.
Lemma gamma_from_twin g beta k : forall n, gamma_from beta (ogamma_gen g beta n) (S n) k = map (ogamma_gen g beta) (seq (S n) k).
Proof. induction k as [|k IH]; intros n; [reflexivity|]. cbn [gamma_from seq map]. f_equal. apply (IH (S n)). Qed.
Lemma generator_twin g beta nmax : (0 < nmax)%nat -> gamma_generator g beta nmax = map (ogamma_gen g beta) (seq 0 nmax).
Proof.
  intros H. destruct nmax as [|n]; [lia|]. unfold gamma_generator. cbn [seq map]. rewrite Nat.sub_succ, Nat.sub_0_r. f_equal.
  apply (gamma_from_twin g beta n 0).
Qed.
Lemma combine_map_r {A B} (l : list A) (f : A -> B) : combine l (map f l) = map (fun x => (x, f x)) l.
Proof. induction l as [|x l IH]; [reflexivity|]. cbn. now f_equal. Qed.
Lemma dual_twin g beta nmax : (0 < nmax)%nat -> dual_coups g beta nmax = map (odual g beta) (seq 0 nmax).
Proof. intros H. unfold dual_coups. rewrite generator_twin by exact H. rewrite combine_map_r, map_map. reflexivity. Qed.
Lemma add_at_map z f : forall n a k, (n < k)%nat ->
  add_at n z (map f (seq a k)) = map (fun i => if Nat.eqb i (a + n) then cadd (f i) z else f i) (seq a k).
Proof.
  unfold add_at. induction n as [|n IH]; intros a k H; (destruct k as [|k]; [lia|]).
  - cbn [seq map firstn skipn app]. rewrite Nat.add_0_r, Nat.eqb_refl. f_equal. apply map_ext_in. intros i Hi. apply in_seq in Hi.
    destruct (Nat.eqb i a) eqn:E; [apply Nat.eqb_eq in E; lia|reflexivity].
  - cbn [seq map firstn skipn app]. destruct (Nat.eqb a (a + S n)) eqn:E; [apply Nat.eqb_eq in E; lia|]. f_equal.
    rewrite (IH (S a) k) by lia. replace (S a + n)%nat with (a + S n)%nat by lia. reflexivity.
Qed.

(** * The sums of the two trees *)
Lemma new_pi_pi_twin g k : new_pi_pi g (6 + k) = map (fun i => CReso (opi_mass i) (opi_width i) (opi_coup g i)) (seq 0 (6 + k)).
Proof.
  unfold new_pi_pi, tower.
  rewrite (overwrite_map0 [0.77337; 1.490; 1.870; 2.12; 2.321; 2.567]) by (cbn; lia).
  rewrite map_map, overwrite_map0 by (cbn; lia).
  match goal with |- cresos _ _ ?c = _ => replace c with (map (opi_coup g) (seq 0 (6 + k))) end.
  - apply cresos_map.
  - rewrite dual_twin by lia. change (6 + k)%nat with (S (S (S (S (S (S k)))))).
    cbn [seq map tl pipi_couplings length firstn skipn app Nat.sub].
    unfold pipi_couplings. cbn [seq map tl length firstn skipn app Nat.sub].
    match goal with |- map ?f ?l = ?a :: ?b :: ?c :: ?d :: ?e :: ?h :: ?r => idtac | |- ?a :: ?b :: ?c :: ?d :: ?e :: ?h :: ?r = _ :: _ :: _ :: _ :: _ :: _ :: ?r' =>
      enough (X : r = r') by (rewrite X; reflexivity) end.
    rewrite map_map. apply map_ext_in. intros i Hi. apply in_seq in Hi.
    unfold opi_coup. replace (Nat.ltb i 6) with false by (symmetry; apply Nat.ltb_ge; lia). rewrite andb_false_r.
    unfold opi_coup0. destruct i; [lia|reflexivity].
Qed.
Lemma new_kk_twin g bo masses widths mags gam k : (length masses <= 6 + k)%nat -> (length widths <= 6 + k)%nat -> (length mags < 6 + k)%nat ->
  new_kk g bo masses widths mags gam (6 + k)
  = map (fun i => CReso (okk_mass masses i) (okk_width masses widths gam i) (okk_coup g bo mags (6 + k) i)) (seq 0 (6 + k)).
Proof.
  intros H1 H2 H3. unfold new_kk, tower.
  rewrite (overwrite_map0 masses) by exact H1. rewrite map_map, (overwrite_map0 widths) by exact H2.
  match goal with |- cresos _ _ ?c = _ => replace c with (map (okk_coup g bo mags (6 + k)) (seq 0 (6 + k))) end.
  - rewrite cresos_map. apply map_ext. intros i. unfold okk_mass, okk_width, okk_mass, at_. now destruct masses, widths.
  - rewrite dual_twin by lia. rewrite map_map. unfold kk_couplings.
    set (f := fun j => if Nat.ltb j (length mags) then owgt mags [] j else (odual g (bo (at_ mags 0)) j, 0)).
    assert (E : set_first (map (fun a => cscale a (cis 0)) mags) (map (fun x => (odual g (bo (hd 0 mags)) x, 0)) (seq 0 (6 + k)))
                = map f (seq 0 (6 + k))).
    { change set_first with (@overwrite cplx). rewrite overwrite_map0 by (rewrite map_length; lia). apply map_ext. intros i.
      unfold f. destruct (Nat.ltb i (length mags)) eqn:L.
      - apply Nat.ltb_lt in L. rewrite (nth_indep _ _ (cscale 0 (cis 0))) by (rewrite map_length; exact L).
        rewrite (map_nth (fun a => cscale a (cis 0)) mags 0 i). unfold owgt, at_. now destruct i.
      - apply Nat.ltb_ge in L. rewrite nth_overflow by (rewrite map_length; exact L). unfold at_. now destruct mags. }
    rewrite E, map_length, add_at_map by exact H3. apply map_ext. intros i. rewrite Nat.add_0_l. reflexivity.
Qed.
Lemma pi_pi_twin g k nt s c : s <> 0 -> opi_pi g (6 + k) nt s (gu c) (gd c)
  = pi_pi_ff nt (new_pi_pi g (6 + k)) 0.7824 0.00833 (cscale 0.00187 (cis 0.106)) s c.
Proof.
  intros N. rewrite new_pi_pi_twin. unfold opi_pi, pi_pi_ff, row_total. cbv zeta.
  rewrite map_map. cbn [c_mass c_width c_coup]. destruct nt; cbn [negb andb].
  - f_equal. f_equal. apply map_ext. intros i. now rewrite gs_twin.
  - change (seq 0 (6 + k)) with (0%nat :: seq 1 (5 + k)). cbn [map]. rewrite csum_cons. cbn [Nat.eqb].
    match goal with |- cadd ?a ?b = cadd ?a' ?b' => replace a with a'; [replace b with b'; [reflexivity|]|] end.
    + f_equal. apply map_ext_in. intros i Hi.
      apply in_seq in Hi. destruct (Nat.eqb i 0) eqn:E; [apply Nat.eqb_eq in E; lia|]. now rewrite gs_twin.
    + now rewrite gs_twin by exact N.
Qed.
Lemma kk_new_rho g bo k : new_kk_rho g bo (6 + k) = map (fun i => CReso (okk_mass okk_rho_masses i) (okk_width okk_rho_masses okk_rho_widths None i) (okk_coup g bo okk_rho_mag (6 + k) i)) (seq 0 (6 + k)).
Proof. apply (new_kk_twin g bo okk_rho_masses okk_rho_widths okk_rho_mag None k); cbn; lia. Qed.
Lemma kk_new_omega g bo k : new_kk_omega g bo (6 + k) = map (fun i => CReso (okk_mass okk_omega_masses i) (okk_width okk_omega_masses okk_omega_widths (Some 0.5) i) (okk_coup g bo okk_omega_mag (6 + k) i)) (seq 0 (6 + k)).
Proof. apply (new_kk_twin g bo okk_omega_masses okk_omega_widths okk_omega_mag (Some 0.5) k); cbn; lia. Qed.
Lemma kk_new_phi g bo k : new_kk_phi g bo (6 + k) = map (fun i => CReso (okk_mass okk_phi_masses i) (okk_width okk_phi_masses okk_phi_widths (Some 0.2) i) (okk_coup g bo okk_phi_mag (6 + k) i)) (seq 0 (6 + k)).
Proof. apply (new_kk_twin g bo okk_phi_masses okk_phi_widths okk_phi_mag (Some 0.2) k); cbn; lia. Qed.
(** Both trees add the same three sums of products *)
Definition three_sums (nt : bool) (c : quarks) (rho omega phi : cplx) : cplx :=
  cadd (cadd (cscale ((if nt then -0.5 else 0.5) * (gu c - gd c)) rho) (cscale (1 / 6 * (3 * (gu c + gd c))) omega))
       (cscale ((if nt then 1.055 else 1) * (1 / 3 * (- 3 * gs c))) phi).
Section Kaons.
Variables (g bo : R -> R) (k : nat) (s : R).
Definition rho_sum : cplx := csum (map (fun i => cmul (okk_coup g bo okk_rho_mag (6 + k) i)
    (ogs s (okk_mass okk_rho_masses i) (okk_width okk_rho_masses okk_rho_widths None i))) (seq 0 (6 + k))).
Definition omega_sum : cplx := csum (map (fun i => cmul (okk_coup g bo okk_omega_mag (6 + k) i)
    (obreit_wigner_fw s (okk_mass okk_omega_masses i) (okk_width okk_omega_masses okk_omega_widths (Some 0.5) i))) (seq 0 (6 + k))).
Definition phi_sum (mk : R) : cplx := csum (map (fun i => cmul (okk_coup g bo okk_phi_mag (6 + k) i)
    (obreit_wigner_pwave s (okk_mass okk_phi_masses i) (okk_width okk_phi_masses okk_phi_widths (Some 0.2) i) mk mk)) (seq 0 (6 + k))).
Lemma okk_sums nt c : okk g bo (6 + k) nt s (gu c) (gd c) (gs c) = three_sums nt c rho_sum omega_sum (phi_sum (gev (if nt then par_mk0 else par_mk))).
Proof.
  unfold okk, row_total. cbv zeta. rewrite csum_plus, csum_plus. unfold three_sums.
  match goal with |- cadd (cadd ?a ?b) ?d = cadd (cadd ?a' ?b') ?d' =>
    replace a with a'; [replace b with b'; [replace d with d'; [reflexivity|]|]|] end.
  - unfold phi_sum. rewrite <- csum_map_scale. f_equal. apply map_ext. intros i. destruct nt.
    + rewrite cmul_scale, cscale_scale. reflexivity.
    + rewrite cmul_scale. f_equal. ring.
  - unfold omega_sum. rewrite <- csum_map_scale. f_equal. apply map_ext. intros i. now rewrite cmul_scale.
  - unfold rho_sum. rewrite <- csum_map_scale. f_equal. apply map_ext. intros i. now rewrite cmul_scale, cscale_scale.
Qed.
Lemma kk_charged_twin c : s <> 0 -> okk g bo (6 + k) false s (gu c) (gd c) (gs c)
  = kk_ff false true (0.001 * 493.677) (new_kk_rho g bo (6 + k)) (new_kk_omega g bo (6 + k)) (new_kk_phi g bo (6 + k)) s c.
Proof.
  intros N. rewrite okk_sums, kk_new_rho, kk_new_omega, kk_new_phi. unfold kk_ff, kk_sum, vector_couplings_to_isospin. cbv zeta.
  cbn [andb]. rewrite !csum_scale, !map_map. cbn [c_mass c_width c_coup]. unfold three_sums.
  replace (0.001 * 493.677) with (gev par_mk) by (unfold gev, par_mk; lra).
  f_equal; [f_equal|].
  - f_equal. unfold rho_sum. f_equal. apply map_ext. intros i. now rewrite gs_twin.
  - replace (1 * (1 / 3 * (-3 * gs c))) with (1 / 3 * (-3 * gs c)) by ring. f_equal. unfold phi_sum. f_equal. apply map_ext. intros i. now rewrite pwave_twin.
Qed.
Lemma kk_neutral_twin q c : s = q ^ 2 -> s <> 0 -> okk g bo (6 + k) true s (gu c) (gd c) (gs c)
  = cadd (new_kk_part g bo (6 + k) c false q) (cscale (1055 / 1000) (new_kk_part g bo (6 + k) c true q)).
Proof.
  intros Es N. rewrite okk_sums. unfold new_kk_part. cbv zeta. rewrite <- Es, kk_new_rho, kk_new_omega, kk_new_phi.
  unfold kk_ff, kk_sum, vector_couplings_to_isospin. cbv zeta.
  cbn [andb]. cbn [map csum fold_right]. change (fold_right cadd (0, 0)) with csum. rewrite !csum_scale, !map_map. cbn [c_mass c_width c_coup].
  replace (0.001 * 497.611) with (gev par_mk0) by (unfold gev, par_mk0; lra).
  replace (csum (map (fun x => cmul (okk_coup g bo okk_rho_mag (6 + k) x) (breit_wigner_gs s (okk_mass okk_rho_masses x)
     (okk_width okk_rho_masses okk_rho_widths None x) MPI_GEV MPI_GEV)) (seq 0 (6 + k)))) with rho_sum
    by (unfold rho_sum; f_equal; apply map_ext; intros i; now rewrite gs_twin).
  replace (csum (map (fun x => cmul (okk_coup g bo okk_phi_mag (6 + k) x) (breit_wigner_pwave s (okk_mass okk_phi_masses x)
     (okk_width okk_phi_masses okk_phi_widths (Some 0.2) x) (gev par_mk0) (gev par_mk0))) (seq 0 (6 + k)))) with (phi_sum (gev par_mk0))
    by (unfold phi_sum; f_equal; apply map_ext; intros i; now rewrite pwave_twin).
  change (csum (map (fun x => cmul (okk_coup g bo okk_omega_mag (6 + k) x) (breit_wigner_fw s (okk_mass okk_omega_masses x)
     (okk_width okk_omega_masses okk_omega_widths (Some 0.5) x))) (seq 0 (6 + k)))) with omega_sum.
  unfold three_sums. generalize rho_sum omega_sum (phi_sum (gev par_mk0)). intros r o p.
  unfold cadd, cscale. cbn [fst snd]. apply cext; cbn [fst snd]; lra.
Qed.
End Kaons.
Lemma sqrt_q q : 0 < q -> sqrt (q ^ 2) = q.
Proof. intros H. apply sqrt_pow2. lra. Qed.
Lemma eta_phi_twin q c : 0 < q -> oeta_phi (q ^ 2) (gs c) = cscale q (eta_phi_ff new_eta_phi (q ^ 2) c).
Proof.
  intros H. unfold oeta_phi, eta_phi_ff, row_total. cbv zeta. rewrite sqrt_q, cscale_scale by exact H.
  replace (q * (-3 * gs c)) with (-3 * gs c * q) by ring. reflexivity.
Qed.
Lemma eta_omega_twin q c : 0 < q -> oeta_omega (q ^ 2) (gu c) (gd c) = cscale q (eta_omega_ff new_eta_omega (q ^ 2) c).
Proof.
  intros H. unfold oeta_omega, eta_omega_ff, row_total, vector_couplings_to_isospin. cbv zeta. cbn [fst]. rewrite sqrt_q, cscale_scale by exact H.
  replace (q * (3 * (gu c + gd c))) with (3 * (gu c + gd c) * q) by ring. reflexivity.
Qed.
Lemma pi_phi_twin q c : 0 < q -> ophi_pi (q ^ 2) (gu c) (gd c) = cscale q (pi_phi_ff new_pi_phi (q ^ 2) c).
Proof.
  intros H. unfold ophi_pi, pi_phi_ff, row_total. cbv zeta. rewrite sqrt_q by exact H. f_equal.
  cbn [seq map new_pi_phi]. unfold at_, owgt, at_, degrees. cbn [nth map r_mass r_width]. unfold r_coeff. cbn [r_amp r_phase].
  rewrite !cscale_scale. f_equal.
  repeat match goal with |- _ :: _ = _ :: _ => apply (f_equal2 cons) end; [| | |reflexivity];
    (apply (f_equal2 cdiv); [apply (f_equal2 cscale); [ring|reflexivity]|reflexivity]).
Qed.
Lemma pi_omega_twin q c : 0 < q -> oomega_pi (q ^ 2) (gu c) (gd c) = cscale q (pi_omega_ff 15.9 5.06325 (0.001 * 782.66) new_pi_omega (q ^ 2) c).
Proof.
  intros H. unfold oomega_pi, pi_omega_ff, row_total. cbv zeta. rewrite sqrt_q, cscale_scale by exact H.
  replace (q * (15.9 * (gu c - gd c) / 5.06325)) with (15.9 * (gu c - gd c) / 5.06325 * q) by ring. f_equal.
  replace (0.001 * 782.66) with (gev par_momega) by (unfold gev, par_momega; lra).
  cbn [seq map new_pi_omega csum fold_right]. unfold at_, owgt, at_, degrees. cbn [nth map r_mass r_width]. unfold r_coeff. cbn [r_amp r_phase].
  reflexivity.
Qed.
Lemma eta_gamma_twin q c : 0 < q -> oeta_gamma (q ^ 2) (gu c) (gd c) (gs c) = cscale q (eta_gamma_ff new_eta_gamma (q ^ 2) c).
Proof.
  intros H. unfold oeta_gamma, ogamma_sum, eta_gamma_ff, row_total, vector_couplings_to_isospin. cbv zeta. rewrite sqrt_q by exact H.
  rewrite csum_map_scale. apply (f_equal2 cscale); [reflexivity|].
  cbn [seq map new_eta_gamma csum fold_right combine fst snd]. unfold at_, owgt, at_, degrees. cbn [nth map r_mass r_width Nat.eqb]. unfold r_coeff. cbn [r_amp r_phase].
  rewrite !cscale_scale. reflexivity.
Qed.

(** * Widths *)
(** The states whose sums the two trees share *)
Definition shared (st : two_body_state) : Prop := st <> S_PiGamma.
Definition is_pp (st : two_body_state) : bool := match st with S_PiPi | S_Pi0Pi0 | S_KK | S_K0K0 => true | _ => false end.
Definition new_value (g bo : R -> R) (np nk : nat) (c : quarks) (st : two_body_state) (q : R) : cplx :=
  match st with
  | S_K0K0 => cadd (new_kk_part g bo nk c false q) (cscale (1055 / 1000) (new_kk_part g bo nk c true q))
  | _ => new_core g bo np nk c st q
  end.
Lemma core_twin g bo k1 k2 c st q : shared st -> 0 < q ->
  ocore g bo (6 + k1) (6 + k2) c st (q ^ 2) = cscale (if is_pp st then 1 else q) (new_value g bo (6 + k1) (6 + k2) c st q).
Proof.
  intros Hs H. assert (N : q ^ 2 <> 0) by (apply pow_nonzero; lra).
  destruct st; cbn [is_pp]; try rewrite cscale_1.
  - apply (pi_pi_twin g k1 false _ c N).
  - apply (pi_pi_twin g k1 true _ c N).
  - apply (kk_charged_twin g bo k2 _ c N).
  - apply (kk_neutral_twin g bo k2 _ q c eq_refl N).
  - now elim Hs.
  - apply (eta_gamma_twin q c H).
  - apply (pi_phi_twin q c H).
  - apply (eta_phi_twin q c H).
  - apply (eta_omega_twin q c H).
  - apply (pi_omega_twin q c H).
Qed.
Lemma threshold_twin st : tb_threshold new_masses st = othreshold st.
Proof. destruct st; unfold tb_threshold, othreshold, new_masses, par_mpi, par_mpi0, par_mk, par_mk0, par_meta, par_mphi, par_momega; cbn; lra. Qed.
(** The width of the new tree at one energy, all states *)
Definition new_ff (g bo : R -> R) (np nk : nat) (c : quarks) (st : two_body_state) (q : R) : cplx :=
  cscale (if is_pp st then 1 else 1 / 1000) (new_value g bo np nk c st (q * (1 / 1000))).
Definition new_j (g bo : R -> R) (np nk : nat) (c : quarks) (st : two_body_state) (q : R) : R :=
  two_body_phase_space_prefactor q (fst (tb_masses new_masses st)) (snd (tb_masses new_masses st))
  * tb_lorentz new_masses st q * cabs2 (new_ff g bo np nk c st q).
Lemma iff_single g bo np nk c st q : tb_threshold new_masses st < q ->
  iff_array new_masses (new_core g bo np nk c) (new_kk_part g bo nk c false) (new_kk_part g bo nk c true) st [q]
  = Ret [new_j g bo np nk c st q].
Proof.
  intros H. unfold iff_array, VffModel.integrated_form_factor, VffModel.form_factor, VffModel.ff_masked.
  assert (A : above (1 / 1000 * tb_threshold new_masses st) (q * (1 / 1000)) = true) by (rewrite above_gev; now apply above_true).
  cbv zeta. cbn [map filter]. rewrite A. cbn [scatter].
  unfold new_j, new_ff. destruct (tb_masses new_masses st) as [m1 m2] eqn:E. cbn [fst snd].
  destruct st; cbn [core_array map]; rewrite A; cbn [bind map combine fst snd is_pp scale_array scale_inside new_value];
    rewrite ?cscale_1, ?(cscale_scale 1), ?(cscale_scale _ 1), ?Rmult_1_r, ?Rmult_1_l; reflexivity.
Qed.
Lemma new_width_value g bo np nk c st q :
  new_width g bo np nk c st (Scalar q) = Ret (Scalar (if above (othreshold st) q then 0.5 * q * new_j g bo np nk c st q else 0)).
Proof.
  unfold new_width, tb_width, base_width, base_width_array. rewrite <- threshold_twin. cbn [filter].
  destruct (above (tb_threshold new_masses st) q) eqn:A.
  - rewrite iff_single by now apply above_true. cbn [bind combine map scatter]. rewrite A. reflexivity.
  - reflexivity.
Qed.
Lemma kallen_threshold a b c : 0 < c -> kallen_lambda 1 ((a / c) ^ 2) ((b / c) ^ 2) = (c ^ 2 - (a + b) ^ 2) * (c ^ 2 - (a - b) ^ 2) / c ^ 4.
Proof. intros H. unfold kallen_lambda. field. lra. Qed.
Lemma kallen_at_least a b q : 0 <= a -> 0 <= b -> 0 < q -> a + b <= q -> 0 <= kallen_lambda 1 ((a / q) ^ 2) ((b / q) ^ 2).
Proof.
  intros Ha Hb Hq H. rewrite kallen_threshold by exact Hq. apply Rmult_le_pos; [|apply Rlt_le, Rinv_0_lt_compat, pow_lt; exact Hq].
  apply Rmult_le_pos; [nra|]. assert (E : (a - b) ^ 2 <= (a + b) ^ 2) by nra. nra.
Qed.
Lemma prefactor_ratio q a b : 0 < q -> 0 <= kallen_lambda 1 ((a / q) ^ 2) ((b / q) ^ 2) ->
  two_body_phase_space_prefactor q a b = sqrt (kallen_lambda 1 ((a / q) ^ 2) ((b / q) ^ 2)) / (8 * PI).
Proof.
  intros Hq H. unfold two_body_phase_space_prefactor.
  replace (kallen_lambda (q ^ 2) (a ^ 2) (b ^ 2)) with ((q ^ 2) ^ 2 * kallen_lambda 1 ((a / q) ^ 2) ((b / q) ^ 2)) by (unfold kallen_lambda; field; lra).
  set (L := kallen_lambda 1 _ _) in *. clearbody L. rewrite Rmax_left by (apply Rmult_le_pos; [apply pow2_ge_0|exact H]).
  rewrite sqrt_mult; [|apply pow2_ge_0|exact H]. rewrite sqrt_pow2 by apply pow2_ge_0. field. split; [apply PI_neq0|lra].
Qed.
Lemma pp_width_twin q m f : 0 <= m -> 0 < q -> 2 * m < q ->
  width_v_to_p_p q m f 1 = Some (0.5 * q * (two_body_phase_space_prefactor q m m * lorentz_pp m m q * f)).
Proof.
  intros Hm Hq H. assert (K : 0 <= kallen_lambda 1 ((m / q) ^ 2) ((m / q) ^ 2)) by (apply kallen_at_least; lra).
  rewrite (prefactor_ratio q m m Hq K). unfold width_v_to_p_p, pow32. destruct (Rlt_dec q (2 * m)) as [X|_]; [lra|]. cbv zeta.
  replace (kallen_lambda 1 ((m / q) ^ 2) ((m / q) ^ 2)) with (1 - 4 * (m / q) ^ 2) in * by (unfold kallen_lambda; ring).
  destruct (Rlt_dec (1 - 4 * (m / q) ^ 2) 0) as [X|_]; [lra|]. cbn [obind]. f_equal.
  unfold lorentz_pp. cbv zeta. replace ((q ^ 2 - 2 * m ^ 2 - 2 * m ^ 2) / (3 * q ^ 2)) with ((1 - 4 * (m / q) ^ 2) / 3) by (field; lra).
  set (y := 1 - 4 * (m / q) ^ 2). clearbody y. replace 0.5 with (1 / 2) by lra. field. apply PI_neq0.
Qed.
Lemma cube_half r : 0 <= r -> (0.5 * sqrt r) ^ 3 = r * sqrt r / 8.
Proof. intros H. replace ((0.5 * sqrt r) ^ 3) with (sqrt r * sqrt r * sqrt r / 8) by (simpl; lra). now rewrite sqrt_sqrt. Qed.
Lemma pv_width_twin q mvec mp f : 0 <= mp -> 0 <= mvec -> 0 < q -> mvec + mp < q ->
  width_v_to_v_p q (q ^ 2 * f) mvec mp = Some (0.5 * q * (two_body_phase_space_prefactor q mp mvec * lorentz_pv mp mvec q * f)).
Proof.
  intros Hp Hv Hq H. assert (K : 0 <= kallen_lambda 1 ((mp / q) ^ 2) ((mvec / q) ^ 2)) by (apply kallen_at_least; lra).
  rewrite (prefactor_ratio q mp mvec Hq K). unfold width_v_to_v_p, osqrt. destruct (Rlt_dec q (mvec + mp)) as [X|_]; [lra|].
  replace (kallen_lambda 1 ((mvec / q) ^ 2) ((mp / q) ^ 2)) with (kallen_lambda 1 ((mp / q) ^ 2) ((mvec / q) ^ 2)) by (unfold kallen_lambda; ring).
  assert (E : lorentz_pv mp mvec q = q ^ 2 * kallen_lambda 1 ((mp / q) ^ 2) ((mvec / q) ^ 2) / 6)
    by (rewrite kallen_threshold by exact Hq; unfold lorentz_pv; field; lra).
  rewrite E. set (L := kallen_lambda 1 _ _) in *. clearbody L. destruct (Rlt_dec L 0) as [X|_]; [lra|]. cbn [obind]. f_equal.
  rewrite cube_half by exact K. replace 0.5 with (1 / 2) by lra. field. apply PI_neq0.
Qed.
Lemma pa_width_twin q mp f : 0 <= mp -> 0 < q -> mp < q ->
  width_v_to_p_a q mp (q ^ 2 * f) = Some (0.5 * q * (two_body_phase_space_prefactor q mp 0 * lorentz_pa mp q * f)).
Proof.
  intros Hp Hq H. transitivity (width_v_to_v_p q (q ^ 2 * f) 0 mp).
  - unfold width_v_to_p_a, width_v_to_v_p. rewrite Rplus_0_l. destruct (Rlt_dec q mp); [reflexivity|]. cbv zeta.
    replace (kallen_lambda 1 ((0 / q) ^ 2) ((mp / q) ^ 2)) with (kallen_lambda 1 ((mp / q) ^ 2) 0) by (unfold kallen_lambda; field; lra). reflexivity.
  - rewrite (pv_width_twin q 0 mp f) by lra. do 2 f_equal. f_equal. f_equal. unfold lorentz_pv, lorentz_pa. cbv zeta. f_equal. ring.
Qed.
Lemma pp_width_low q m : 0 < m -> q <= 2 * m -> width_v_to_p_p q m 0 1 = Some 0.
Proof.
  intros Hm H. unfold width_v_to_p_p, pow32. destruct (Rlt_dec q (2 * m)) as [X|X]; [reflexivity|]. assert (E : q = 2 * m) by lra. subst q. cbv zeta.
  replace (1 - 4 * (m / (2 * m)) ^ 2) with 0 by (field; lra). destruct (Rlt_dec 0 0) as [Y|_]; [lra|]. cbn [obind]. f_equal. ring.
Qed.
Lemma pv_width_low q mvec mp : 0 < mvec + mp -> q <= mvec + mp -> width_v_to_v_p q 0 mvec mp = Some 0.
Proof.
  intros Hm H. unfold width_v_to_v_p, osqrt. destruct (Rlt_dec q (mvec + mp)) as [X|X]; [reflexivity|]. assert (E : q = mvec + mp) by lra. subst q.
  rewrite kallen_threshold by exact Hm. replace (((mvec + mp) ^ 2 - (mvec + mp) ^ 2) * _ / _) with 0 by (unfold Rdiv; ring).
  destruct (Rlt_dec 0 0) as [Y|_]; [lra|]. cbn [obind]. f_equal. unfold Rdiv. ring.
Qed.
Lemma pa_width_low q mp : 0 < mp -> q <= mp -> width_v_to_p_a q mp 0 = Some 0.
Proof.
  intros Hm H. unfold width_v_to_p_a, osqrt. destruct (Rlt_dec q mp) as [X|X]; [reflexivity|]. assert (E : q = mp) by lra. subst q. cbv zeta.
  replace (kallen_lambda 1 ((mp / mp) ^ 2) 0) with 0 by (unfold kallen_lambda; field; lra).
  destruct (Rlt_dec 0 0) as [Y|_]; [lra|]. cbn [obind]. f_equal. unfold Rdiv. ring.
Qed.
Lemma masked_below thr core q : q <= thr -> omasked thr core q = (0, 0).
Proof. intros H. unfold omasked. cbv zeta. destruct (Rlt_dec (thr * (1 / 1000)) (1 / 1000 * q)) as [X|_]; [lra|reflexivity]. Qed.
Lemma masked_above thr core q : thr < q -> omasked thr core q = core ((q * (1 / 1000)) ^ 2).
Proof.
  intros H. unfold omasked. cbv zeta. destruct (Rlt_dec (thr * (1 / 1000)) (1 / 1000 * q)) as [_|X]; [|lra]. now rewrite (Rmult_comm (1 / 1000)).
Qed.
Lemma threshold_pos st : 0 < othreshold st.
Proof. destruct st; unfold othreshold, par_mpi, par_mpi0, par_mk, par_mk0, par_meta, par_mphi, par_momega; lra. Qed.
Lemma cabs2_z : cabs2 (0, 0) = 0.
Proof. unfold cabs2. cbn. ring. Qed.
Lemma owidth_below g bo np nk c st q : q <= othreshold st -> owidth g bo np nk c st q = Some 0.
Proof.
  intros H. unfold owidth. cbv zeta. rewrite masked_below by exact H. rewrite cabs2_z.
  destruct st; unfold othreshold, par_mpi, par_mpi0, par_mk, par_mk0, par_meta, par_mphi, par_momega in *;
    first [apply pp_width_low; lra|apply pa_width_low; lra|apply pv_width_low; lra].
Qed.
Lemma owidth_above g bo k1 k2 c st q : shared st -> othreshold st < q ->
  owidth g bo (6 + k1) (6 + k2) c st q = Some (0.5 * q * new_j g bo (6 + k1) (6 + k2) c st q).
Proof.
  intros Hs H. pose proof (threshold_pos st) as P. unfold owidth. cbv zeta. rewrite masked_above by exact H.
  rewrite (core_twin g bo k1 k2 c st (q * (1 / 1000)) Hs) by lra. unfold new_j, new_ff. rewrite !cabs2_scale.
  set (F := cabs2 (new_value _ _ _ _ _ _ _)). clearbody F.
  assert (E2 : (q * (1 / 1000)) ^ 2 * F = q ^ 2 * ((1 / 1000) ^ 2 * F)) by ring.
  destruct st; cbn [is_pp tb_masses fst snd tb_lorentz new_masses v_mpi v_mpi0 v_mk v_mk0 v_meta v_momega v_mphi];
    unfold tb_lorentz; cbn [tb_masses new_masses v_mpi v_mpi0 v_mk v_mk0 v_meta v_momega v_mphi];
    unfold othreshold in *; rewrite ?E2;
    first [now elim Hs
          |apply pp_width_twin; unfold par_mpi, par_mpi0, par_mk, par_mk0 in *; lra
          |apply pa_width_twin; unfold par_mpi0, par_meta in *; lra
          |apply pv_width_twin; unfold par_mpi0, par_meta, par_mphi, par_momega in *; lra].
Qed.
(** * Cross sections *)
Lemma ocross_above g bo k1 k2 c st cme mx mv wv : shared st -> othreshold st < cme -> regular cme mx mv wv ->
  ocross_section g bo (6 + k1) (6 + k2) c st cme mx mv wv
  = Some (rate_to_cross_section cme mx mv wv 1 * (0.5 * cme * new_j g bo (6 + k1) (6 + k2) c st cme)).
Proof.
  intros Hs Ht Hr. pose proof (owidth_above g bo k1 k2 c st cme Hs Ht) as W. pose proof W as W'. unfold owidth in W. cbv zeta in W.
  unfold ocross_section. cbv zeta. set (J := new_j _ _ _ _ _ _ _) in *. clearbody J.
  set (F := cabs2 _) in *. clearbody F. pose proof (threshold_pos st) as P.
  destruct st; try (now elim Hs);
    match goal with
    | |- cross_section_x_x_to_p_p _ _ ?m ?f _ _ = _ =>
        destruct (cs_pp_value cme mx m f mv wv Hr) as (w & E & X);
          [unfold par_mpi, par_mpi0, par_mk, par_mk0; lra|unfold othreshold in Ht; lra|];
          rewrite X, E in *; injection W as ->; reflexivity
    | |- cross_section_x_x_to_p_v _ _ ?m ?m' ?f _ _ = _ =>
        destruct (cs_pv_value cme mx m m' f mv wv Hr) as (w & E & X);
          [unfold par_mpi0, par_meta; lra|unfold par_mphi, par_momega; lra|unfold othreshold in Ht; lra|];
          rewrite X, E in *; injection W as ->; reflexivity
    | _ => rewrite width_to_cs_value by exact Hr; cbn [obind]; rewrite W'; reflexivity
    end.
Qed.
Lemma cs_factor_value cme mx mv wv g : regular cme mx mv wv ->
  cs_factor cme mx mv g wv = Some (g ^ 2 * rate_to_cross_section cme mx mv wv 1 * 0.5 * cme).
Proof.
  intros H. destruct (regular_root _ _ _ _ H) as (r & Hr & E & E2). destruct H as (A & B & C & D).
  unfold cs_factor, rate_to_cross_section. cbv zeta. rewrite E. replace (cme ^ 2 - 4 * mx ^ 2) with (r ^ 2) by lra.
  rewrite osqrt_sq by lra. cbn [obind]. set (P := (cme ^ 2 - mv ^ 2) ^ 2 + (mv * wv) ^ 2) in *. clearbody P.
  rewrite odiv_some by (apply Rmult_integral_contrapositive; split; lra). cbn [obind]. f_equal. field. split; lra.
Qed.
Lemma new_cross_above g bo np nk c st cme mx mv wv gx : othreshold st < cme -> regular cme mx mv wv ->
  new_cross_section g bo np nk c st cme mx mv gx wv
  = Some (gx ^ 2 * (rate_to_cross_section cme mx mv wv 1 * (0.5 * cme * new_j g bo np nk c st cme))).
Proof.
  intros Ht Hr. unfold new_cross_section, base_cross_section. cbv zeta. rewrite iff_single by now rewrite threshold_twin.
  rewrite threshold_twin. destruct (Rlt_dec (othreshold st) cme) as [_|X]; [|lra]. rewrite cs_factor_value by exact Hr. cbn [obind].
  f_equal. ring.
Qed.
Lemma new_cross_below g bo np nk c st cme mx mv wv gx : cme <= othreshold st ->
  new_cross_section g bo np nk c st cme mx mv gx wv = Some 0.
Proof.
  intros Ht. unfold new_cross_section, base_cross_section. cbv zeta. rewrite threshold_twin.
  destruct (Rlt_dec (othreshold st) cme) as [X|_]; [lra|reflexivity].
Qed.
(** * The pion and the photon *)
Lemma opi_gamma_strange q x : 0 < q ->
  opi_gamma (q ^ 2) 0 0 x = cscale q (cdiv (cscale (-3 * x) (cscale (1.01952 ^ 2) (cscale 0.00303 (cis (158 * PI / 180)))))
                                             (1.01952 ^ 2 - q ^ 2, - (q * 0.00421))).
Proof.
  intros H. unfold opi_gamma, ogamma_sum, row_total. cbv zeta. cbn [seq map nth at_ Nat.eqb]. unfold at_, degrees, owgt, at_. cbn [nth map].
  replace (0 - 0) with 0 by ring. replace (3 * (0 + 0)) with 0 by ring. rewrite !cscale_0, !cdiv_0, !cscale_z. cbn [csum fold_right].
  rewrite sqrt_q by exact H. unfold cadd. cbn [fst snd]. apply cext; cbn [fst snd]; ring.
Qed.
Lemma pi_gamma_strange a q x : 0 < q ->
  pi_gamma_ff 0.09266 0.007594981126020603 1 0.8846540224221084 (-0.06460651106718258) (0.77526, 0.1491) (0.78265, 0.00849) (1.01946, 0.004247) a q (Quarks 0 0 x)
  = cscale (sqrt (4 * PI * a) * (0.007594981126020603 * 4 * sqrt 2 * q ^ 2 / (3 * 0.09266)) * -0.06460651106718258)
      (cdiv (-3 * x, 0) (q ^ 2 - 1.01946 ^ 2, q * 0.004247)).
Proof.
  intros H. unfold pi_gamma_ff, vector_couplings_to_isospin. cbv zeta. cbn [gu gd gs fst snd].
  replace (0 - 0) with 0 by ring. replace (3 * (0 + 0)) with 0 by ring. rewrite !cdiv_0, !cscale_z. unfold csub, copp, cadd, cscale. cbn [fst snd].
  set (D := cdiv _ _). apply cext; cbn [fst snd]; unfold Rdiv; ring.
Qed.
Lemma old_strange_size : cabs2 (cdiv (cscale (-3 * 1) (cscale (1.01952 ^ 2) (cscale 0.00303 (cis (158 * PI / 180))))) (1.01952 ^ 2 - 2 ^ 2, - (2 * 0.00421)))
  = 9 * 1.01952 ^ 4 * 0.00303 ^ 2 / ((1.01952 ^ 2 - 4) ^ 2 + (2 * 0.00421) ^ 2).
Proof.
  assert (D : cabs2 (1.01952 ^ 2 - 2 ^ 2, - (2 * 0.00421)) = (1.01952 ^ 2 - 4) ^ 2 + (2 * 0.00421) ^ 2) by (unfold cabs2; cbn [fst snd]; ring).
  rewrite cabs2_div by (rewrite D; lra). rewrite D, !cabs2_scale, cabs2_cis. f_equal. ring.
Qed.
Lemma new_strange_size a : 0 <= a ->
  cabs2 (cscale (sqrt (4 * PI * a) * (0.007594981126020603 * 4 * sqrt 2 * 2 ^ 2 / (3 * 0.09266)) * -0.06460651106718258)
      (cdiv (-3 * 1, 0) (2 ^ 2 - 1.01946 ^ 2, 2 * 0.004247)))
  = 4 * PI * a * (2 * (0.007594981126020603 * 4 * 4 / (3 * 0.09266)) ^ 2 * 0.06460651106718258 ^ 2) * (9 / ((4 - 1.01946 ^ 2) ^ 2 + (2 * 0.004247) ^ 2)).
Proof.
  intros Ha. pose proof PI_RGT_0 as P.
  assert (D : cabs2 (2 ^ 2 - 1.01946 ^ 2, 2 * 0.004247) = (4 - 1.01946 ^ 2) ^ 2 + (2 * 0.004247) ^ 2) by (unfold cabs2; cbn [fst snd]; ring).
  rewrite cabs2_scale, cabs2_div by (rewrite D; lra). rewrite D.
  replace (cabs2 (-3 * 1, 0)) with 9 by (unfold cabs2; cbn [fst snd]; ring). apply (f_equal2 Rmult); [|reflexivity].
  assert (E : sqrt (4 * PI * a) * sqrt (4 * PI * a) = 4 * PI * a) by (apply sqrt_sqrt; nra).
  assert (E2 : sqrt 2 * sqrt 2 = 2) by (apply sqrt_sqrt; lra).
  set (u := sqrt (4 * PI * a)) in *. set (v := sqrt 2) in *. rewrite <- E. clearbody u v. clear - E2.
  replace (-0.06460651106718258) with (Ropp 0.06460651106718258) by lra. set (x := 0.06460651106718258). set (y := 0.007594981126020603). replace 0.09266 with (9266 / 100000) by lra. clearbody x y.
  transitivity (u * u * (v * v * (y * 4 * 4 / (3 * (9266 / 100000))) ^ 2 * x ^ 2)); [field|]. now rewrite E2.
Qed.
Lemma strange_gap : 0 < 9 * 1.01952 ^ 4 * 0.00303 ^ 2 / ((1.01952 ^ 2 - 4) ^ 2 + (2 * 0.00421) ^ 2) < 0.000012.
Proof. split; lra. Qed.
Lemma strange_gap_new : 0.00012 < 4 * PI * alem * (2 * (0.007594981126020603 * 4 * 4 / (3 * 0.09266)) ^ 2 * 0.06460651106718258 ^ 2) * (9 / ((4 - 1.01946 ^ 2) ^ 2 + (2 * 0.004247) ^ 2)).
Proof.
  assert (P : 3 < PI) by (pose proof PI2_3_2; lra). unfold alem. lra.
Qed.

(** * Three-body sums *)
Lemma eta_sum_twin pre fit masses widths amps phases q s c : length fit = 4%nat ->
  masses = map r_mass fit -> widths = map r_width fit -> amps = map r_amp fit -> phases = map r_phase fit ->
  oeta_sum pre masses widths amps phases q s (gu c) (gd c) = pi_pi_eta_ff pre fit q s c.
Proof.
  intros L -> -> -> ->. destruct fit as [|r0 [|r1 [|r2 [|r3 [|? ?]]]]]; try discriminate L. reflexivity.
Qed.
Lemma fpi_twin : new_fpi = gev par_fpi.
Proof. unfold new_fpi, gev, par_fpi. lra. Qed.
Lemma pi_pi_eta_twin q s c : new_pi_pi_eta_mev q s c = cscale (1 / 1000000000) (opi_pi_eta (gev q) (s * (1 / 1000000)) (gu c) (gd c)).
Proof. unfold new_pi_pi_eta_mev, opi_pi_eta. rewrite fpi_twin. apply (f_equal2 cscale); [reflexivity|]. symmetry. apply eta_sum_twin; reflexivity. Qed.
Lemma pi_pi_etap_twin q s c : new_pi_pi_etap_mev q s c = cscale (1 / 1000000000) (opi_pi_etap (gev q) (s * (1 / 1000000)) (gu c) (gd c)).
Proof. unfold new_pi_pi_etap_mev, opi_pi_etap. rewrite fpi_twin. apply (f_equal2 cscale); [reflexivity|]. symmetry. apply eta_sum_twin; reflexivity. Qed.
Lemma pi_pi_omega_twin q c : new_pi_pi_omega_mev q c = opi_pi_omega (gev q) (gu c) (gd c).
Proof. reflexivity. Qed.
Lemma pi3_twin q s t c :
  pi3_form_factor new_pi3 q s t c
  = cscale (1 / 1000000000) (opi3 (q ^ 2 * (1 / 1000000)) (s * (1 / 1000000)) (t * (1 / 1000000))
      (q ^ 2 * (1 / 1000000) + gev par_mpi0 ^ 2 + 2 * gev par_mpi ^ 2 - s * (1 / 1000000) - t * (1 / 1000000)) c).
Proof.
  unfold pi3_form_factor, pi3_core, opi3, vector_couplings_to_isospin. cbv zeta. f_equal. apply (f_equal2 cadd); [reflexivity|].
  unfold iso_spin_one, oiso_spin_one, new_pi3. cbn [p3_rho_i1 p3_sigma p3_omega_pre p3_omega_pi_pi p3_mass_omega p3_width_omega nth].
  destruct (Req_EM_T (gu c - gd c) 0); [reflexivity|]. cbv zeta. rewrite !cscale_scale.
  apply (f_equal2 cmul).
  - apply (f_equal2 cadd); [reflexivity|]. apply (f_equal2 cscale); [unfold Rdiv; ring|reflexivity].
  - apply (f_equal2 cscale); [unfold Rdiv; ring|reflexivity].
Qed.
Lemma kstar_twin s a b : okstar s a b = kstar_propagator s a b.
Proof. unfold okstar, kstar_propagator. rewrite pwave_twin. reflexivity. Qed.
Lemma pikk_twin st q s t c :
  new_pikk_mev st q s t c = cscale (1 / 1000000000) (opikk st (1 / 1000000 * s) (1 / 1000000 * t) (1 / 1000 * q) c).
Proof.
  unfold new_pikk_mev, opikk. cbv zeta. f_equal.
  assert (E : okk_iso_amps (1 / 1000 * q) c = iso_spin_amplitudes iso_scalar_fit iso_vector_fit (1 / 1000 * q) c).
  { unfold okk_iso_amps, iso_spin_amplitudes. cbv zeta. unfold iso_scalar_fit, iso_vector_fit, row_total. cbn [seq map nth at_ r_mass r_width]. unfold at_, owgt, at_.
    cbn [nth]. replace 1.470 with 1.47 by lra. replace 0.400 with 0.4 by lra. replace 1.720 with 1.72 by lra. replace 0.250 with 0.25 by lra. reflexivity. }
  destruct st; cbn [opikk_masses]; rewrite E; unfold pi0_k0_k0_ff, pi0_k_k_ff, pi_k_k0_ff;
    destruct (iso_spin_amplitudes _ _ _ _) as [a0 a1]; rewrite !kstar_twin;
    replace (0.001 * 497.611) with (gev par_mk0) by (unfold gev, par_mk0; lra);
    replace (0.001 * 134.9768) with (gev par_mpi0) by (unfold gev, par_mpi0; lra);
    replace (0.001 * 493.677) with (gev par_mk) by (unfold gev, par_mk; lra);
    replace (0.001 * 139.57039) with (gev par_mpi) by (unfold gev, par_mpi; lra);
    replace (/ sqrt 6 * 2 * 5.37392360229) with (2 * 5.37392360229 / sqrt 6) by (unfold Rdiv; ring); reflexivity.
Qed.
(** Above zero the two trees give three pions the same weight: [3 q^2] times the Lorentz structure *)
Lemma pikk_weight st q s t c : 0 < q ->
  opikk_integrand st (1 / 1000000 * s) (1 / 1000000 * t) (1 / 1000 * q) c
  = 3 * (q ^ 2 * (lorentz_ppp (fst (fst (new_pikk_masses st))) (snd (fst (new_pikk_masses st))) (snd (new_pikk_masses st)) q s t
                  * cabs2 (new_pikk_mev st q s t c))).
Proof.
  intros H. rewrite pikk_twin, cabs2_scale. unfold opikk_integrand.
  set (F := opikk st (1 / 1000000 * s) (1 / 1000000 * t) (1 / 1000 * q) c). set (F2 := cabs2 F). clearbody F2. clear F.
  destruct st; cbn [opikk_masses new_pikk_masses fst snd]; rewrite old_pikk, old_ppp_new by lra;
    unfold lorentz_ppp, gev, par_mk, par_mk0, par_mpi0, par_mpi; cbv zeta;
    repeat match goal with |- context [IZR ?a / ?d * (1 / 1000)] => idtac end.
  - set (a := 497.611). set (b := 134.9768). clearbody a b. field. lra.
  - set (a := 493.677). set (b := 134.9768). clearbody a b. field. lra.
  - set (a := 497.611). set (a' := 493.677). set (b := 139.57039). clearbody a a' b. field. lra.
Qed.
(** * Three-body widths *)
Lemma cube_any K : sqrt K ^ 3 = K * sqrt K.
Proof.
  destruct (Rle_lt_dec 0 K) as [H|H].
  - replace (sqrt K ^ 3) with (sqrt K * sqrt K * sqrt K) by ring. now rewrite sqrt_sqrt.
  - rewrite sqrt_neg_0 by lra. ring.
Qed.
Lemma pieta_area_twin me mp f2 g2 q v : 0 < q -> 0 <= me -> 0 < mp -> 2 * mp + me <= q ->
  (forall s, g2 q s = (1 / 1000000000) ^ 2 * f2 (gev q) (s * (1 / 1000000))) ->
  area (pieta_integrand (gev mp) (gev me) f2 (gev q)) ((2 * gev mp) ^ 2) ((gev q - gev me) ^ 2) v ->
  area (ppp2_integrand me mp mp g2 q) (fst (ppp2_limits me mp mp q)) (snd (ppp2_limits me mp mp q)) (10 ^ 12 / (128 * PI ^ 3 * q ^ 6) * v).
Proof.
  intros Hq He Hp Ht E A. pose proof PI_RGT_0 as P.
  apply (MedSpecProofs.area_affine _ _ _ _ (gev q ^ 2 * (1 + (me / q) ^ 2)) (- gev q ^ 2) (fst (ppp2_limits me mp mp q)) (snd (ppp2_limits me mp mp q))) in A.
  - apply (area_scale (10 ^ 12 / (128 * PI ^ 3 * q ^ 6))) in A. refine (area_ext _ _ _ _ _ [] _ A). intros x _ _.
    unfold ppp2_integrand, ppp2_partial, pieta_integrand. cbv zeta. rewrite E.
    set (s := q ^ 2 * (1 - x + (me / q) ^ 2)).
    replace (gev q ^ 2 * (1 + (me / q) ^ 2) + - gev q ^ 2 * x) with (s * (1 / 1000000)) by (unfold s, gev; field; lra).
    replace (kallen_lambda s (q ^ 2) (me ^ 2) * kallen_lambda s (mp ^ 2) (mp ^ 2))
      with ((10 ^ 12) ^ 2 * (kallen_lambda (s * (1 / 1000000)) (gev q ^ 2) (gev me ^ 2) * kallen_lambda (s * (1 / 1000000)) (gev mp ^ 2) (gev mp ^ 2)))
      by (unfold kallen_lambda, gev; field).
    rewrite (sqrt_mult_alt ((10 ^ 12) ^ 2)) by apply pow2_ge_0. rewrite sqrt_pow2 by (apply pow_le; lra).
    set (K := kallen_lambda _ _ _ * kallen_lambda _ _ _). replace ((10 ^ 12 * sqrt K) ^ 3) with ((10 ^ 12) ^ 3 * (K * sqrt K)) by (rewrite <- cube_any; ring).
    set (r := sqrt K). set (F := f2 _ _).
    clearbody r F. clearbody K. unfold gev. destruct (Req_dec s 0) as [Z|Z].
    + rewrite Z. unfold Rdiv. rewrite !Rmult_0_l. replace (0 ^ 2) with 0 by ring. rewrite !Rmult_0_r, !Rinv_0. ring.
    + field. repeat split; lra.
  - assert (0 < gev q ^ 2) by (apply pow_lt; unfold gev; lra). lra.
  - unfold ppp2_limits, gev. cbn [fst]. field. lra.
  - unfold ppp2_limits, gev. cbn [snd]. field. lra.
  - apply pow_incr. unfold gev. lra.
Qed.
Lemma pieta_width_twin quad quad' me f2 g2 q : 0 <= me ->
  (forall s, g2 q s = (1 / 1000000000) ^ 2 * f2 (gev q) (s * (1 / 1000000))) ->
  (2 * par_mpi + me <= q -> let f := pieta_integrand (gev par_mpi) (gev me) f2 (gev q) in
     area f ((2 * gev par_mpi) ^ 2) ((gev q - gev me) ^ 2) (quad f ((2 * gev par_mpi) ^ 2) ((gev q - gev me) ^ 2))) ->
  (2 * par_mpi + me < q -> let f := ppp2_integrand me par_mpi par_mpi g2 q in let l := ppp2_limits me par_mpi par_mpi q in
     area f (fst l) (snd l) (quad' f (fst l) (snd l))) ->
  pieta_width quad me f2 q = 0.5 * q * ppp2_integrated quad' me par_mpi par_mpi g2 q.
Proof.
  intros He E A A'. pose proof PI_RGT_0 as P. assert (Hp : 0 < par_mpi) by (unfold par_mpi; lra).
  unfold pieta_width, ppp2_integrated. destruct (Rlt_dec q (2 * par_mpi + me)) as [L|L].
  - destruct (Rlt_dec (me + par_mpi + par_mpi) q); [lra|ring].
  - unfold pieta_integrated_gev. cbv zeta. fold (gev q).
    destruct (Rlt_dec (gev q) (2 * gev par_mpi + gev me)) as [X|_]; [unfold gev in X; lra|].
    assert (A0 := A ltac:(lra)). cbv zeta in A0. destruct (Rlt_dec (me + par_mpi + par_mpi) q) as [G|G].
    + assert (A1 := A' ltac:(lra)). cbv zeta in A1.
      pose proof (pieta_area_twin me par_mpi f2 g2 q _ ltac:(lra) He Hp ltac:(lra) E A0) as T.
      assert (LE : fst (ppp2_limits me par_mpi par_mpi q) <= snd (ppp2_limits me par_mpi par_mpi q)).
      { unfold ppp2_limits. cbn [fst snd]. replace ((me / q) ^ 2 + (1 - (par_mpi / q + par_mpi / q) ^ 2)) with (2 * (me / q) + ((q - me) ^ 2 - (2 * par_mpi) ^ 2) / q ^ 2) by (field; lra).
        assert (0 <= ((q - me) ^ 2 - (2 * par_mpi) ^ 2) / q ^ 2); [|lra]. apply Rmult_le_pos; [|left; apply Rinv_0_lt_compat, pow_lt; lra].
        assert ((2 * par_mpi) ^ 2 <= (q - me) ^ 2) by (apply pow_incr; lra). lra. }
      rewrite (area_unique _ _ _ _ _ LE A1 T). set (v := quad _ _ _). clearbody v. unfold gev. replace 0.5 with (1 / 2) by lra. field. lra.
    + assert (Q : q = 2 * par_mpi + me) by lra. replace (gev q - gev me) with (2 * gev par_mpi) in A0 by (rewrite Q; unfold gev; ring).
      replace (gev q - gev me) with (2 * gev par_mpi) by (rewrite Q; unfold gev; ring).
      destruct A0 as (G0 & _ & _ & V). set (v := quad _ _ _) in *. assert (v = 0) by lra. rewrite H. unfold Rdiv. ring.
Qed.
Lemma pi3_weight q p1 p2 p3 c : 0 < q -> event (gev q) [gev par_mpi0; gev par_mpi; gev par_mpi] [p1; p2; p3] ->
  let s := 1000000 * lnorm_sqr (vplus p2 p3) in
  let t := 1000000 * lnorm_sqr (vplus p1 p3) in
  pi3_msqrd (gev par_mpi0) (gev par_mpi) (fun q2 s t u => cabs2 (opi3 q2 s t u c)) (gev q ^ 2) [p1; p2; p3]
  = Ret (q ^ 2 * (lorentz_ppp par_mpi0 par_mpi par_mpi q s t * cabs2 (pi3_form_factor new_pi3 q s t c))).
Proof.
  intros Hq Ev s t. rewrite pi3_twin, cabs2_scale.
  assert (W : lnorm_sqr (vplus p1 p2) = gev q ^ 2 + gev par_mpi0 ^ 2 + gev par_mpi ^ 2 + gev par_mpi ^ 2 - lnorm_sqr (vplus p2 p3) - lnorm_sqr (vplus p1 p3)).
  { apply event3 in Ev. destruct Ev as (S1 & S2 & S3 & E).
    pose proof (f_equal en E) as Ee. pose proof (f_equal px E) as Ex. pose proof (f_equal py E) as Ey. pose proof (f_equal pz E) as Ez.
    destruct S1 as [S1 _], S2 as [S2 _], S3 as [S3 _]. destruct p1 as [e1 x1 y1 z1], p2 as [e2 x2 y2 z2], p3 as [e3 x3 y3 z3].
    unfold lnorm_sqr. cbn [vplus en px py pz] in *. set (M := gev q) in *. clearbody M.
    assert (e1 = M - e2 - e3) by lra. assert (x1 = - x2 - x3) by lra. assert (y1 = - y2 - y3) by lra. assert (z1 = - z2 - z3) by lra.
    subst e1 x1 y1 z1. nra. }
  unfold pi3_msqrd. cbv zeta. rewrite W. unfold s, t. set (x := lnorm_sqr (vplus p2 p3)). set (y := lnorm_sqr (vplus p1 p3)). clearbody x y.
  replace (1000000 * x * (1 / 1000000)) with x by field. replace (1000000 * y * (1 / 1000000)) with y by field.
  replace (gev q ^ 2 + gev par_mpi0 ^ 2 + gev par_mpi ^ 2 + gev par_mpi ^ 2 - x - y) with (q ^ 2 * (1 / 1000000) + gev par_mpi0 ^ 2 + 2 * gev par_mpi ^ 2 - x - y) by (unfold gev; field).
  replace (gev q ^ 2) with (q ^ 2 * (1 / 1000000)) by (unfold gev; field). f_equal. set (F := cabs2 _). clearbody F.
  unfold lorentz_ppp, gev. cbv zeta. set (a := par_mpi0). set (b := par_mpi). clearbody a b. field. lra.
Qed.
Lemma piomega_area_twin mo mp f2 q v : 0 < q -> 0 < mo -> 0 < mp -> 2 * mp + mo <= q ->
  area (piomega_integrand (gev mp / gev q) (gev mo / gev q) f2) ((2 * (gev mp / gev q)) ^ 2) ((1 - gev mo / gev q) ^ 2) v ->
  area (fun x => f2 * ppv_integrand (mo, mp, mp) q x) (2 * (mo / q)) ((mo / q) ^ 2 + (1 - (mp / q + mp / q) ^ 2)) v.
Proof.
  intros Hq Ho Hp Ht A.
  replace (gev mp / gev q) with (mp / q) in A by (unfold gev; field; lra). replace (gev mo / gev q) with (mo / q) in A by (unfold gev; field; lra).
  apply (MedSpecProofs.area_affine _ _ _ _ (1 + (mo / q) ^ 2) (-1) (2 * (mo / q)) ((mo / q) ^ 2 + (1 - (mp / q + mp / q) ^ 2))) in A.
  - refine (area_ext _ _ _ _ _ [] _ A). intros x _ _. unfold piomega_integrand, ppv_integrand. cbv zeta.
    set (a := mo / q). set (b := mp / q). replace (1 + a ^ 2 + -1 * x) with (1 - x + a ^ 2) by ring. set (z := 1 - x + a ^ 2).
    replace (kallen_lambda z (b ^ 2) (b ^ 2) * kallen_lambda 1 z (a ^ 2)) with (kallen_lambda 1 (a ^ 2) z * kallen_lambda (b ^ 2) (b ^ 2) z) by (unfold kallen_lambda; ring).
    replace (1 + 10 * a ^ 2 + a ^ 4 - 2 * (1 + a ^ 2) * z + z ^ 2) with (x ^ 2 + 8 * a ^ 2) by (unfold z; ring). unfold Rdiv. ring.
  - lra.
  - ring.
  - ring.
  - apply pow_incr. split.
    + assert (0 < mp / q) by (apply Rmult_lt_0_compat; [lra|now apply Rinv_0_lt_compat]). lra.
    + replace (1 - mo / q) with ((q - mo) / q) by (field; lra). replace (2 * (mp / q)) with (2 * mp / q) by (field; lra).
      apply Rmult_le_compat_r; [left; now apply Rinv_0_lt_compat|lra].
Qed.
Lemma limits_le q a b : 0 < q -> 0 <= a -> 0 <= b -> 2 * b + a <= q -> 2 * (a / q) <= (a / q) ^ 2 + (1 - (b / q + b / q) ^ 2).
Proof.
  intros Hq Ha Hb H. replace ((a / q) ^ 2 + (1 - (b / q + b / q) ^ 2)) with (2 * (a / q) + ((q - a) ^ 2 - (2 * b) ^ 2) / q ^ 2) by (field; lra).
  assert (0 <= ((q - a) ^ 2 - (2 * b) ^ 2) / q ^ 2); [|lra]. apply Rmult_le_pos; [|left; apply Rinv_0_lt_compat, pow_lt; lra].
  assert ((2 * b) ^ 2 <= (q - a) ^ 2) by (apply pow_incr; lra). lra.
Qed.
Lemma piomega_width_twin quad quad' q c :
  let f2 := cabs2 (opi_pi_omega (gev q) (gu c) (gd c)) in
  (2 * par_mpi + par_momega <= q -> let f := piomega_integrand (gev par_mpi / gev q) (gev par_momega / gev q) f2 in
     let a := (2 * (gev par_mpi / gev q)) ^ 2 in let b := (1 - gev par_momega / gev q) ^ 2 in area f a b (quad f a b)) ->
  (2 * par_mpi + par_momega < q -> let f := ppv_integrand (par_momega, par_mpi, par_mpi) q in
     let a := 2 * (par_momega / q) in let b := (par_momega / q) ^ 2 + (1 - (par_mpi / q + par_mpi / q) ^ 2) in area f a b (quad' f a b)) ->
  old_piomega_width quad false q c = new_piomega_width quad' false q c.
Proof.
  intros f2 A A'. unfold old_piomega_width, new_piomega_width. cbv zeta. rewrite pi_pi_omega_twin. fold f2.
  change 782.66 with par_momega. change 139.57039 with par_mpi. pose proof PI_RGT_0 as P.
  assert (Hp : 0 < par_mpi) by (unfold par_mpi; lra). assert (Ho : 0 < par_momega) by (unfold par_momega; lra).
  unfold piomega_width, ppv_integrated. cbv zeta. destruct (Rlt_dec q (2 * par_mpi + par_momega)) as [L|L].
  - destruct (Rlt_dec (par_momega + par_mpi + par_mpi) q); [lra|ring].
  - assert (Hq : 0 < q) by lra. unfold piomega_form_factor, piomega_integrated. cbv zeta. cbn [Z.eqb]. fold (gev q). fold f2.
    assert (A0 := A ltac:(lra)). cbv zeta in A0. destruct (Rlt_dec (par_momega + par_mpi + par_mpi) q) as [G|G].
    + assert (A1 := A' ltac:(lra)). cbv zeta in A1.
      pose proof (piomega_area_twin par_momega par_mpi f2 q _ Hq Ho Hp ltac:(lra) A0) as T. apply (area_scale f2) in A1.
      pose proof (area_unique _ _ _ _ _ (limits_le q par_momega par_mpi Hq ltac:(lra) ltac:(lra) ltac:(lra)) A1 T) as U.
      set (v := quad _ _ _) in *. set (v' := quad' _ _ _) in *. rewrite <- U. clearbody v' f2. unfold gev. replace 0.5 with (1 / 2) by lra. field. repeat split; lra.
    + assert (Q : q = 2 * par_mpi + par_momega) by lra.
      assert (Z : (1 - gev par_momega / gev q) ^ 2 = (2 * (gev par_mpi / gev q)) ^ 2) by (rewrite Q; unfold gev; field; lra).
      rewrite Z in A0 |- *. destruct A0 as (G0 & _ & _ & V). set (v := quad _ _ _) in *. assert (v = 0) by lra. rewrite H. unfold Rdiv. ring.
Qed.
(** The integrals exist *)
Lemma pieta_exists q me mp f2 : 0 <= me -> 0 < mp -> 2 * mp + me < q ->
  (forall s, (2 * mp) ^ 2 <= s <= (q - me) ^ 2 -> continuity_pt (f2 q) s) ->
  exists v, area (pieta_integrand mp me f2 q) ((2 * mp) ^ 2) ((q - me) ^ 2) v.
Proof.
  intros He Hp Hq Cf. assert (Sq : 0 < (2 * mp) ^ 2) by (apply pow_lt; lra).
  set (P := fun s => kallen_lambda s (q ^ 2) (me ^ 2) * kallen_lambda s (mp ^ 2) (mp ^ 2)).
  apply area_exists; [apply pow_incr; lra|]. intros s Hs. unfold pieta_integrand. cbv zeta.
  apply (continuity_pt_div (fun s => P s * sqrt (P s) * f2 q s) (fun s => 72 * s ^ 2)).
  - apply (continuity_pt_mult (fun s => P s * sqrt (P s)) (f2 q)); [|now apply Cf].
    apply (continuity_pt_mult P (fun s => sqrt (P s))); [apply derivable_continuous_pt; unfold P, kallen_lambda; reg|].
    apply (continuity_pt_comp P sqrt); [apply derivable_continuous_pt; unfold P, kallen_lambda; reg|]. apply continuity_pt_sqrt.
    apply Rmult_le_pos; unfold kallen_lambda.
    + replace (s ^ 2 + (q ^ 2) ^ 2 + (me ^ 2) ^ 2 - 2 * s * q ^ 2 - 2 * s * me ^ 2 - 2 * q ^ 2 * me ^ 2)
        with (((q - me) ^ 2 - s) * ((q + me) ^ 2 - s)) by ring. apply Rmult_le_pos; nra.
    + replace (s ^ 2 + (mp ^ 2) ^ 2 + (mp ^ 2) ^ 2 - 2 * s * mp ^ 2 - 2 * s * mp ^ 2 - 2 * mp ^ 2 * mp ^ 2)
        with (s * (s - (2 * mp) ^ 2)) by ring. apply Rmult_le_pos; lra.
  - apply derivable_continuous_pt. reg.
  - assert (0 < s ^ 2) by (apply pow_lt; lra). lra.
Qed.
Lemma cabs2_inv a b d : cabs2 (cdiv (a, 0) (b, d)) = a ^ 2 * ((b ^ 2 + d ^ 2) * / (b ^ 2 + d ^ 2) * / (b ^ 2 + d ^ 2)).
Proof. unfold cdiv, cmul, cconj, cscale, cabs2. cbn [fst snd]. ring. Qed.
Lemma continuity_same f g x : (forall u, f u = g u) -> continuity_pt f x -> continuity_pt g x.
Proof. intros E C. unfold continuity_pt, continue_in, limit1_in, limit_in in *. intros eps He. destruct (C eps He) as (a & Ha & H). exists a. split; [exact Ha|]. intros u Hu. rewrite <- !E. now apply H. Qed.
Lemma bw0_continuous m0 w0 s : 2 * gev par_mpi < m0 -> 0 < w0 -> (2 * gev par_mpi) ^ 2 <= s ->
  continuity_pt (fun s => cabs2 (obw0 [m0] [w0] s)) s.
Proof.
  intros Hm Hw Hs. set (m := gev par_mpi) in *. assert (Pm : 0 < m) by (unfold m, gev, par_mpi; lra).
  assert (S0 : 0 < s) by (assert (0 < (2 * m) ^ 2) by (apply pow_lt; lra); lra). assert (Y0 : 0 < m0 ^ 2 - 4 * m ^ 2) by nra.
  set (y := fun s => (s - 4 * m ^ 2) / (m0 ^ 2 - 4 * m ^ 2)).
  set (d := fun s => - (sqrt s * (w0 * m0 ^ 2 / s * (y s * sqrt (y s))))).
  set (N := fun s => (m0 ^ 2 - s) ^ 2 + d s ^ 2).
  assert (Ey : 0 <= y s) by (apply Rmult_le_pos; [nra|left; now apply Rinv_0_lt_compat]).
  assert (Cy : continuity_pt y s) by (apply derivable_continuous_pt; unfold y; reg).
  assert (Cd : continuity_pt d s).
  { apply (continuity_pt_opp (fun s => sqrt s * (w0 * m0 ^ 2 / s * (y s * sqrt (y s))))).
    apply (continuity_pt_mult sqrt (fun s => w0 * m0 ^ 2 / s * (y s * sqrt (y s)))); [apply continuity_pt_sqrt; lra|].
    apply (continuity_pt_mult (fun s => w0 * m0 ^ 2 / s) (fun s => y s * sqrt (y s))); [apply derivable_continuous_pt; reg; lra|].
    apply (continuity_pt_mult y (fun s => sqrt (y s))); [exact Cy|]. apply (continuity_pt_comp y sqrt); [exact Cy|now apply continuity_pt_sqrt]. }
  assert (CN : continuity_pt N s).
  { apply (continuity_pt_plus (fun s => (m0 ^ 2 - s) ^ 2) (fun s => d s ^ 2)); [apply derivable_continuous_pt; reg|].
    apply (continuity_pt_mult d (fun s => d s * 1)); [exact Cd|]. apply (continuity_pt_mult d (fun _ => 1)); [exact Cd|]. apply derivable_continuous_pt. reg. }
  assert (NN : N s <> 0).
  { unfold N. destruct (Req_dec s (m0 ^ 2)) as [E|E].
    - assert (D : 0 < - d s).
      { unfold d. rewrite Ropp_involutive. assert (0 < y s) by (unfold y; rewrite E; apply Rmult_lt_0_compat; [lra|now apply Rinv_0_lt_compat]).
        apply Rmult_lt_0_compat; [now apply sqrt_lt_R0|]. apply Rmult_lt_0_compat.
        - apply Rmult_lt_0_compat; [apply Rmult_lt_0_compat; [lra|apply pow_lt; lra]|now apply Rinv_0_lt_compat].
        - apply Rmult_lt_0_compat; [assumption|now apply sqrt_lt_R0]. }
      pose proof (pow2_ge_0 (m0 ^ 2 - s)). assert (0 < d s ^ 2) by nra. lra.
    - assert (0 < (m0 ^ 2 - s) ^ 2) by (assert (X : m0 ^ 2 - s <> 0) by lra; pose proof (Rsqr_pos_lt _ X) as Z; unfold Rsqr in Z; nra).
      pose proof (pow2_ge_0 (d s)). lra. }
  apply (continuity_same (fun s => (m0 ^ 2) ^ 2 * (N s * / N s * / N s))).
  { intros u. unfold obw0. cbv zeta. cbn [at_ nth]. unfold at_. cbn [nth]. rewrite cabs2_inv. unfold N, d, y, pow15, m.
    f_equal. }
  assert (CI : continuity_pt (fun s => / N s) s) by (apply (continuity_pt_inv N); assumption).
  apply (continuity_pt_mult (fun _ => (m0 ^ 2) ^ 2) (fun s => N s * / N s * / N s)); [apply derivable_continuous_pt; reg|].
  apply (continuity_pt_mult (fun s => N s * / N s) (fun s => / N s)); [|exact CI].
  apply (continuity_pt_mult N (fun s => / N s)); [exact CN|exact CI].
Qed.
Lemma eta_sum_continuous pre m0 w0 lm lw amps phases q s gvuu gvdd : 2 * gev par_mpi < m0 -> 0 < w0 -> (2 * gev par_mpi) ^ 2 <= s ->
  continuity_pt (fun s => cabs2 (oeta_sum pre (m0 :: lm) (w0 :: lw) amps phases q s gvuu gvdd)) s.
Proof.
  intros Hm Hw Hs. unfold oeta_sum. cbv zeta.
  apply (continuity_same (fun s => (pre * (gvuu - gvdd)) ^ 2 * cabs2 (obw0 [m0] [w0] s)
    * cabs2 (row_total 4 (fun i => cmul (cdiv (owgt amps phases i) (row_total 4 (owgt amps phases))) (obw (m0 :: lm) (w0 :: lw) (q ^ 2) i))))).
  { intros u. rewrite cabs2_mul, cabs2_scale. reflexivity. }
  set (Z := cabs2 (row_total _ _)). clearbody Z.
  apply (continuity_pt_mult (fun s => (pre * (gvuu - gvdd)) ^ 2 * cabs2 (obw0 [m0] [w0] s)) (fun _ => Z)); [|apply derivable_continuous_pt; reg].
  apply (continuity_pt_mult (fun _ => (pre * (gvuu - gvdd)) ^ 2) (fun s => cabs2 (obw0 [m0] [w0] s))); [apply derivable_continuous_pt; reg|].
  now apply bw0_continuous.
Qed.
Lemma omega_fit_value q c :
  opi_pi_omega q (gu c) (gd c) = cscale (3 * (gu c + gd c)) (cdiv (cscale (1.6608543573197 ^ 2) (cscale 2.728870588760009 (cis 0))) (1.6608543573197 ^ 2 - q ^ 2, - (q * 0.3982595005228462))).
Proof.
  unfold opi_pi_omega, row_total. cbv zeta. cbn [seq map nth]. unfold at_, owgt, at_. cbn [nth]. f_equal.
  rewrite !cscale_0, !cscale_z, !cdiv_0. cbn [csum fold_right]. unfold cadd. cbn [fst snd]. apply cext; cbn [fst snd]; ring.
Qed.
Lemma omega_fit_positive q c : 0 < q -> gu c + gd c <> 0 -> 0 < cabs2 (opi_pi_omega q (gu c) (gd c)).
Proof.
  intros Hq Hc. rewrite omega_fit_value.
  assert (D : 0 < cabs2 (1.6608543573197 ^ 2 - q ^ 2, - (q * 0.3982595005228462))).
  { unfold cabs2. cbn [fst snd]. set (u := 1.6608543573197 ^ 2 - q ^ 2). pose proof (pow2_ge_0 u). assert (0 < q * 0.3982595005228462) by lra. nra. }
  rewrite cabs2_scale, cabs2_div by lra. rewrite !cabs2_scale, cabs2_cis. apply Rmult_lt_0_compat.
  - assert (X : 3 * (gu c + gd c) <> 0) by lra. pose proof (Rsqr_pos_lt _ X) as Z. unfold Rsqr in Z. lra.
  - apply Rmult_lt_0_compat; [|now apply Rinv_0_lt_compat]. lra.
Qed.
Lemma ppv_integrand_positive q mo mp x : 0 < q -> 0 < mo -> 0 < mp -> 2 * mp + mo < q ->
  2 * (mo / q) < x < (mo / q) ^ 2 + (1 - (mp / q + mp / q) ^ 2) -> 0 < ppv_integrand (mo, mp, mp) q x.
Proof.
  intros Hq Ho Hp Ht Hx. unfold ppv_integrand. cbv zeta.
  assert (Ha : 0 < mo / q) by (apply Rmult_lt_0_compat; [lra|now apply Rinv_0_lt_compat]).
  assert (Hb : 0 < mp / q) by (apply Rmult_lt_0_compat; [lra|now apply Rinv_0_lt_compat]).
  assert (Hab : 2 * (mp / q) + mo / q < 1).
  { replace (2 * (mp / q) + mo / q) with ((2 * mp + mo) / q) by (field; lra). apply Rmult_lt_reg_r with q; [exact Hq|]. unfold Rdiv. rewrite Rmult_assoc, Rinv_l by lra. lra. }
  set (a := mo / q) in *. set (b := mp / q) in *. set (z := 1 - x + a ^ 2). assert (Z1 : (2 * b) ^ 2 < z) by (unfold z; nra). assert (Z2 : z < (1 - a) ^ 2) by (unfold z; nra).
  clearbody a b. assert (Zp : 0 < z) by (assert (0 < (2 * b) ^ 2) by (apply pow_lt; lra); lra).
  apply Rmult_lt_0_compat; [|now apply Rinv_0_lt_compat]. apply Rmult_lt_0_compat; [pose proof (pow2_ge_0 x); nra|]. apply sqrt_lt_R0.
  apply Rmult_lt_0_compat.
  - replace (kallen_lambda 1 (a ^ 2) z) with (((1 - a) ^ 2 - z) * ((1 + a) ^ 2 - z)) by (unfold kallen_lambda; ring). apply Rmult_lt_0_compat; nra.
  - replace (kallen_lambda (b ^ 2) (b ^ 2) z) with (z * (z - (2 * b) ^ 2)) by (unfold kallen_lambda; ring). apply Rmult_lt_0_compat; lra.
Qed.
Lemma ppv_exists q mo mp : 0 < q -> 0 < mo -> 0 < mp -> 2 * mp + mo < q ->
  exists v, area (ppv_integrand (mo, mp, mp) q) (2 * (mo / q)) ((mo / q) ^ 2 + (1 - (mp / q + mp / q) ^ 2)) v.
Proof.
  intros Hq Ho Hp Ht. destruct (omega_integrand_area (gev mp / gev q) (gev mo / gev q) 1) as [v A].
  - apply Rmult_lt_0_compat; [|apply Rinv_0_lt_compat]; unfold gev; lra.
  - apply Rmult_lt_0_compat; [|apply Rinv_0_lt_compat]; unfold gev; lra.
  - replace (2 * (gev mp / gev q) + gev mo / gev q) with ((2 * mp + mo) / q) by (unfold gev; field; lra).
    apply Rmult_lt_reg_r with q; [exact Hq|]. unfold Rdiv. rewrite Rmult_assoc, Rinv_l by lra. lra.
  - exists v. apply (piomega_area_twin mo mp 1 q v Hq Ho Hp ltac:(lra)) in A. refine (area_ext _ _ _ _ _ [] _ A). intros x _ _. ring.
Qed.
