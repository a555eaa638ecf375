(** Vocabulary and lemmas for the resonance fits (FitModel). *)
From Coq Require Import Reals Bool List ZArith Lra Lia Psatz.
From Verif Require Import PyBase KinModel VffModel VffProofs RareModel FourPiModel FitModel.
Import ListNotations.
Local Open Scope R_scope.

(** * Complex arithmetic *)
Lemma cext (a b : cplx) : fst a = fst b -> snd a = snd b -> a = b.
Proof. destruct a, b; cbn; intros; subst; reflexivity. Qed.
Ltac cring := apply cext; unfold cdiv, csub, copp, cconj, creal; cbn [fst snd cadd cmul cscale RareModel.cadd VffModel.cscale]; unfold cadd, cmul, cscale; cbn [fst snd]; ring.

Lemma cabs2_mul a b : cabs2 (cmul a b) = cabs2 a * cabs2 b.
Proof. unfold cabs2, cmul. cbn [fst snd]. ring. Qed.
Lemma cabs2_cis x : cabs2 (cis x) = 1.
Proof. unfold cabs2, cis. cbn [fst snd]. pose proof (sin2_cos2 x) as H. unfold Rsqr in H. lra. Qed.
Lemma cabs2_nonneg z : 0 <= cabs2 z.
Proof. unfold cabs2. nra. Qed.
Lemma cabs2_zero z : cabs2 z = 0 <-> z = (0, 0).
Proof.
  unfold cabs2. split.
  - intros H. apply cext; cbn [fst snd]; nra.
  - intros ->. cbn. ring.
Qed.
Lemma cabs2_div a b : cabs2 b <> 0 -> cabs2 (cdiv a b) = cabs2 a / cabs2 b.
Proof.
  intros H. unfold cdiv. rewrite cabs2_scale, cabs2_mul.
  replace (cabs2 (cconj b)) with (cabs2 b) by (unfold cabs2, cconj; cbn [fst snd]; ring).
  field. exact H.
Qed.
Lemma cabs2_opp a : cabs2 (copp a) = cabs2 a.
Proof. unfold cabs2, copp. cbn [fst snd]. ring. Qed.
Lemma cmul_1 z : cmul z (1, 0) = z.
Proof. cring. Qed.
Lemma cmul_0 z : cmul z (0, 0) = (0, 0).
Proof. cring. Qed.
Lemma cmul_0_l z : cmul (0, 0) z = (0, 0).
Proof. cring. Qed.
Lemma cscale_0 z : cscale 0 z = (0, 0).
Proof. cring. Qed.
Lemma cscale_1 z : cscale 1 z = z.
Proof. cring. Qed.
Lemma cscale_z a : cscale a (0, 0) = (0, 0).
Proof. cring. Qed.
Lemma cscale_scale a b z : cscale a (cscale b z) = cscale (a * b) z.
Proof. cring. Qed.
Lemma cadd_0 z : cadd z (0, 0) = z.
Proof. cring. Qed.
Lemma cadd_comm a b : cadd a b = cadd b a.
Proof. cring. Qed.
Lemma cmul_comm a b : cmul a b = cmul b a.
Proof. cring. Qed.
Lemma csum_app l k : csum (l ++ k) = cadd (csum l) (csum k).
Proof.
  induction l as [|x l IH]; cbn [app csum fold_right].
  - unfold csum. cring.
  - fold (csum (l ++ k)). fold (csum l). rewrite IH. cring.
Qed.
Lemma csum_cons x l : csum (x :: l) = cadd x (csum l).
Proof. reflexivity. Qed.
Lemma csum_scale a l : csum (map (cscale a) l) = cscale a (csum l).
Proof.
  induction l as [|x l IH]; [cbn; cring|]. cbn [map]. rewrite !csum_cons, IH. cring.
Qed.
Lemma csum_cmul z l : csum (map (fun w => cmul w z) l) = cmul (csum l) z.
Proof.
  induction l as [|x l IH]; [cbn; cring|]. cbn [map]. rewrite !csum_cons, IH. cring.
Qed.
Lemma csum_zero {A} (f : A -> cplx) l : (forall x, f x = (0, 0)) -> csum (map f l) = (0, 0).
Proof.
  intros H. induction l as [|x l IH]; [reflexivity|]. cbn [map]. rewrite csum_cons, IH, H. cring.
Qed.
Lemma cdiv_same z : cabs2 z <> 0 -> cdiv z z = (1, 0).
Proof.
  intros H. unfold cdiv. apply cext; unfold cabs2 in *; unfold cscale, cmul, cconj; cbn [fst snd] in *; field; exact H.
Qed.
Lemma cdiv_0 d : cdiv (0, 0) d = (0, 0).
Proof. cring. Qed.
Lemma cdiv_scale k z d : cdiv (cscale k z) d = cscale k (cdiv z d).
Proof. cring. Qed.
Lemma cdiv_mul k z d : cdiv (cmul k z) d = cmul k (cdiv z d).
Proof. cring. Qed.

(** * Linearity in the couplings *)
Definition qlin (a b : R) (x y : quarks) : quarks :=
  Quarks (a * gu x + b * gu y) (a * gd x + b * gd y) (a * gs x + b * gs y).
Definition linear (F : quarks -> cplx) : Prop :=
  forall a b x y, F (qlin a b x y) = cadd (cscale a (F x)) (cscale b (F y)).
Definition klinear (k : quarks -> R) : Prop := forall a b x y, k (qlin a b x y) = a * k x + b * k y.
Lemma lin_scale k z : klinear k -> linear (fun c => cscale (k c) z).
Proof. intros H a b x y. rewrite H. cring. Qed.
Lemma lin_real k : klinear k -> linear (fun c => (k c, 0)).
Proof. intros H a b x y. rewrite H. cring. Qed.
Lemma lin_mul F z : linear F -> linear (fun c => cmul (F c) z).
Proof. intros H a b x y. rewrite H. cring. Qed.
Lemma lin_mul_l F z : linear F -> linear (fun c => cmul z (F c)).
Proof. intros H a b x y. rewrite H. cring. Qed.
Lemma lin_div F z : linear F -> linear (fun c => cdiv (F c) z).
Proof. intros H a b x y. rewrite H. cring. Qed.
Lemma lin_const F k : linear F -> linear (fun c => cscale k (F c)).
Proof. intros H a b x y. rewrite H. cring. Qed.
Lemma lin_add F G : linear F -> linear G -> linear (fun c => cadd (F c) (G c)).
Proof. intros H K a b x y. rewrite H, K. cring. Qed.
Lemma lin_sub F G : linear F -> linear G -> linear (fun c => csub (F c) (G c)).
Proof. intros H K a b x y. rewrite H, K. cring. Qed.
Lemma lin_zero : linear (fun _ => (0, 0)).
Proof. intros a b x y. cring. Qed.
Lemma lin_sum {A} (F : A -> quarks -> cplx) l :
  (forall x, linear (F x)) -> linear (fun c => csum (map (fun x => F x c) l)).
Proof.
  intros H. induction l as [|x l IH]; [exact lin_zero|].
  intros a b y z. cbn [map]. rewrite !csum_cons. rewrite (H x a b y z), (IH a b y z). cring.
Qed.
Lemma linear_ext F G : (forall c, F c = G c) -> linear G -> linear F.
Proof. intros E H a b x y. rewrite !E. apply H. Qed.
Ltac klin := intros ? ? ? ?; cbn [qlin gu gd gs]; ring.
Ltac lin :=
  repeat first
    [ apply lin_zero
    | apply lin_sum; intros ?
    | apply lin_add | apply lin_sub
    | apply lin_scale; klin
    | apply lin_real; klin
    | apply lin_const
    | apply lin_mul | apply lin_mul_l | apply lin_div ].

Lemma pi_pi_linear nt rho mo wo ow s : linear (pi_pi_ff nt rho mo wo ow s).
Proof.
  destruct nt; unfold pi_pi_ff.
  - apply lin_const. apply (lin_sum (fun r c => cmul (cscale (gu c - gd c) (c_coup r)) _)). intros r. lin.
  - destruct rho as [|r l]; [exact lin_zero|]. cbn [map].
    apply lin_add; [lin|]. apply (lin_sum (fun r c => cmul (cscale (gu c - gd c) (c_coup r)) _)). intros r'. lin.
Qed.
Lemma kk_linear nt first mk rho omega phi s : linear (kk_ff nt first mk rho omega phi s).
Proof.
  unfold kk_ff, kk_sum, vector_couplings_to_isospin.
  apply lin_add; [apply lin_add|].
  - apply linear_ext with (G := fun c => cscale ((if nt then -0.5 else 0.5) * (gu c - gd c))
      (csum (map (fun r => cmul (c_coup r) (breit_wigner_gs s (c_mass r) (c_width r) MPI_GEV MPI_GEV)) rho))).
    + intros c. apply csum_scale.
    + apply lin_scale. klin.
  - apply linear_ext with (G := fun c => cscale (1 / 6 * (3 * (gu c + gd c)))
      (csum (map (fun r => cmul (c_coup r) (breit_wigner_fw s (c_mass r) (c_width r))) omega))).
    + intros c. apply csum_scale.
    + apply lin_scale. klin.
  - apply linear_ext with (G := fun c => cscale (if (nt && first)%bool then 1.055 else 1)
      (cscale (1 / 3 * (-3 * gs c))
      (csum (map (fun r => cmul (c_coup r) (breit_wigner_pwave s (c_mass r) (c_width r) mk mk)) phi)))).
    + intros c. destruct (nt && first)%bool; rewrite ?cscale_1, ?csum_scale; reflexivity.
    + apply lin_const, lin_scale. klin.
Qed.
Lemma pi_gamma_linear fpi a0 ar aw af rho omega phi alpha q : linear (pi_gamma_ff fpi a0 ar aw af rho omega phi alpha q).
Proof.
  unfold pi_gamma_ff, vector_couplings_to_isospin. apply lin_const, lin_sub.
  - apply lin_const, lin_add; [apply lin_add|]; apply lin_const, lin_div, lin_real; klin.
  - apply lin_real. intros a b x y. cbn [qlin gu gd gs]. unfold Rdiv. ring.
Qed.
Lemma eta_gamma_linear fit s : linear (eta_gamma_ff fit s).
Proof.
  unfold eta_gamma_ff, vector_couplings_to_isospin.
  destruct fit as [|r0 [|r1 [|r2 [|r3 [|r4 l]]]]]; cbn [combine map fst snd csum fold_right]; lin.
Qed.
Lemma eta_phi_linear fit s : linear (eta_phi_ff fit s).
Proof. unfold eta_phi_ff. lin. Qed.
Lemma eta_omega_linear fit s : linear (eta_omega_ff fit s).
Proof. unfold eta_omega_ff, vector_couplings_to_isospin. cbn [fst snd]. lin. Qed.
Lemma pi_phi_linear fit s : linear (pi_phi_ff fit s).
Proof.
  unfold pi_phi_ff. apply (lin_sum (fun rb c => let '(r, br) := rb in
    cdiv (cscale ((gu c - gd c) * r_mass r ^ 2) (r_coeff r))
         (r_mass r ^ 2 - s, - (sqrt s * pi_phi_width s (r_mass r) (r_width r) br)))).
  intros [r br]. lin.
Qed.
Lemma pi_omega_linear g frho mo fit s : linear (pi_omega_ff g frho mo fit s).
Proof. unfold pi_omega_ff. apply lin_scale. intros a b x y. cbn [qlin gu gd gs]. unfold Rdiv. ring. Qed.
Lemma pi_pi_eta_linear pre fit q s : linear (pi_pi_eta_ff pre fit q s).
Proof. unfold pi_pi_eta_ff. destruct fit as [|r0 l]; [exact lin_zero|]. lin. Qed.
Lemma pi_pi_omega_linear fit q : linear (pi_pi_omega_ff fit q).
Proof. unfold pi_pi_omega_ff. lin. Qed.
Lemma iso_one_formula f q2 s ci1 :
  iso_spin_one f q2 s ci1 =
    let '(m0, w0) := nth 0 (p3_rho_i1 f) (0, 0) in
    let '(m1, w1) := nth 1 (p3_rho_i1 f) (0, 0) in
    cscale ci1 (cmul (cadd (cscale (/ m0 ^ 2) (bw_rho s m0 w0 MPI_GEV MPI_GEV))
                   (cscale (p3_sigma f / m1 ^ 2) (bw_rho s m1 w1 MPI_GEV MPI_GEV)))
      (cscale (p3_omega_pre f * m0 ^ 2 * p3_omega_pi_pi f / p3_mass_omega f ^ 2) (breit_wigner_fw q2 (p3_mass_omega f) (p3_width_omega f)))).
Proof.
  unfold iso_spin_one. destruct (nth 0 (p3_rho_i1 f) (0, 0)) as [m0 w0], (nth 1 (p3_rho_i1 f) (0, 0)) as [m1 w1].
  destruct (Req_EM_T ci1 0) as [->|_]; [now rewrite cscale_0|].
  generalize (bw_rho s m0 w0 MPI_GEV MPI_GEV) (bw_rho s m1 w1 MPI_GEV MPI_GEV) (breit_wigner_fw q2 (p3_mass_omega f) (p3_width_omega f)).
  intros x y z. unfold Rdiv. cring.
Qed.
Lemma iso0_linear q2 l : forall n, linear (fun c =>
  csum (map (fun kr => cscale (fst kr * coup3 (snd kr)) (breit_wigner_fw q2 (mass3 (snd kr)) (width3 (snd kr))))
    (combine (map (fun n => if Nat.eqb n 1 then -3 * gs c else 3 * (gu c + gd c)) (seq n (length l))) l))).
Proof.
  induction l as [|r l IH]; intros n; [exact lin_zero|].
  cbn [length seq map combine fst snd].
  eapply linear_ext; [intros c; apply csum_cons|]. apply lin_add; [|apply IH].
  destruct (Nat.eqb n 1); lin.
Qed.
Lemma pi3_linear f q2 s t u : linear (pi3_core f q2 s t u).
Proof.
  unfold pi3_core, vector_couplings_to_isospin. apply lin_add.
  - unfold iso_spin_zero. apply lin_add; [apply lin_add|].
    + apply lin_mul.
      apply iso0_linear.
    + lin.
    + lin.
  - eapply linear_ext; [intros c; apply iso_one_formula|].
    destruct (nth 0 (p3_rho_i1 f) (0, 0)) as [m0 w0], (nth 1 (p3_rho_i1 f) (0, 0)) as [m1 w1]. lin.
Qed.
Lemma iso_amp_linear iso0 iso1 m :
  linear (fun c => fst (iso_spin_amplitudes iso0 iso1 m c)) /\ linear (fun c => snd (iso_spin_amplitudes iso0 iso1 m c)).
Proof.
  unfold iso_spin_amplitudes. cbn [fst snd]. split.
  - apply (lin_sum (fun r c => cmul (cscale (-3 * gs c) (r_coeff r)) _)). intros r. lin.
  - apply (lin_sum (fun r c => cmul (cscale (gu c - gd c) (r_coeff r)) _)). intros r. lin.
Qed.
Lemma pi_kk_linear g iso0 iso1 m1 m2 m3 q s t :
  linear (pi0_k0_k0_ff g iso0 iso1 m1 m3 q s t) /\ linear (pi0_k_k_ff g iso0 iso1 m2 m3 q s t)
  /\ linear (pi_k_k0_ff g iso0 iso1 m1 m2 m3 q s t).
Proof.
  destruct (iso_amp_linear iso0 iso1 q) as [H0 H1]. repeat split.
  - apply linear_ext with (G := fun c => cmul (cscale (2 * g / sqrt 6)
      (cadd (fst (iso_spin_amplitudes iso0 iso1 q c)) (snd (iso_spin_amplitudes iso0 iso1 q c)))) (cadd (kstar_propagator s m1 m3) (kstar_propagator t m1 m3))).
    + intros c. unfold pi0_k0_k0_ff. destruct (iso_spin_amplitudes iso0 iso1 q c). reflexivity.
    + apply lin_mul, lin_const, lin_add; assumption.
  - apply linear_ext with (G := fun c => cmul (cscale (2 * g / sqrt 6)
      (csub (fst (iso_spin_amplitudes iso0 iso1 q c)) (snd (iso_spin_amplitudes iso0 iso1 q c)))) (cadd (kstar_propagator s m2 m3) (kstar_propagator t m2 m3))).
    + intros c. unfold pi0_k_k_ff. destruct (iso_spin_amplitudes iso0 iso1 q c). reflexivity.
    + apply lin_mul, lin_const, lin_sub; assumption.
  - apply linear_ext with (G := fun c => cadd
      (cmul (cscale (2 * g / sqrt 6) (csub (fst (iso_spin_amplitudes iso0 iso1 q c)) (snd (iso_spin_amplitudes iso0 iso1 q c)))) (kstar_propagator s m2 m3))
      (cmul (cscale (2 * g / sqrt 6) (cadd (fst (iso_spin_amplitudes iso0 iso1 q c)) (snd (iso_spin_amplitudes iso0 iso1 q c)))) (kstar_propagator t m1 m3))).
    + intros c. unfold pi_k_k0_ff. destruct (iso_spin_amplitudes iso0 iso1 q c). reflexivity.
    + apply lin_add; apply lin_mul, lin_const; [apply lin_sub|apply lin_add]; assumption.
Qed.

(** * Isospin and G parity of the final states *)
(** The mesons with definite G parity and the final states made of them *)
Inductive meson : Type := Pion | Eta | EtaPrime | Omega | Phi.
(** True for even *)
Definition g_even (m : meson) : bool := match m with Eta | EtaPrime => true | Pion | Omega | Phi => false end.
Fixpoint g_parity (l : list meson) : bool :=
  match l with [] => true | m :: r => if g_even m then g_parity r else negb (g_parity r) end.
Inductive channel : Type := Ch_PiPi | Ch_Pi0Pi0 | Ch_PiOmega | Ch_PiPhi | Ch_EtaOmega | Ch_EtaPhi | Ch_PiPiEta | Ch_PiPiEtaPrime | Ch_PiPiOmega.
Definition content (ch : channel) : list meson :=
  match ch with
  | Ch_PiPi | Ch_Pi0Pi0 => [Pion; Pion]
  | Ch_PiOmega => [Pion; Omega]
  | Ch_PiPhi => [Pion; Phi]
  | Ch_EtaOmega => [Eta; Omega]
  | Ch_EtaPhi => [Eta; Phi]
  | Ch_PiPiEta => [Pion; Pion; Eta]
  | Ch_PiPiEtaPrime => [Pion; Pion; EtaPrime]
  | Ch_PiPiOmega => [Pion; Pion; Omega]
  end.
(** The fits of all these states *)
Record fits : Type := Fits {
  f_rho : list creso; f_om_mass : R; f_om_width : R; f_om_weight : cplx;
  f_g : R; f_frho : R; f_momega : R; f_piomega : list reso;
  f_piphi : list (reso * R); f_etaomega : list reso; f_etaphi : list reso;
  f_pre : R; f_pipieta : list reso; f_pipietap : list reso; f_pipiomega : list reso }.
(** The form factor at energy [q] (GeV), with invariant mass squared [s] of the two pions where it matters *)
Definition form (f : fits) (q s : R) (ch : channel) (c : quarks) : cplx :=
  match ch with
  | Ch_PiPi => pi_pi_ff false (f_rho f) (f_om_mass f) (f_om_width f) (f_om_weight f) (q ^ 2) c
  | Ch_Pi0Pi0 => pi_pi_ff true (f_rho f) (f_om_mass f) (f_om_width f) (f_om_weight f) (q ^ 2) c
  | Ch_PiOmega => pi_omega_ff (f_g f) (f_frho f) (f_momega f) (f_piomega f) (q ^ 2) c
  | Ch_PiPhi => pi_phi_ff (f_piphi f) (q ^ 2) c
  | Ch_EtaOmega => eta_omega_ff (f_etaomega f) (q ^ 2) c
  | Ch_EtaPhi => eta_phi_ff (f_etaphi f) (q ^ 2) c
  | Ch_PiPiEta => pi_pi_eta_ff (f_pre f) (f_pipieta f) q s c
  | Ch_PiPiEtaPrime => pi_pi_eta_ff (sqrt 2 * f_pre f) (f_pipietap f) q s c
  | Ch_PiPiOmega => pi_pi_omega_ff (f_pipiomega f) q c
  end.

Lemma isovector_only f q s ch c c' :
  g_parity (content ch) = true -> gu c - gd c = gu c' - gd c' -> form f q s ch c = form f q s ch c'.
Proof.
  intros G E. destruct ch; try discriminate G; unfold form.
  - unfold pi_pi_ff. rewrite E. reflexivity.
  - unfold pi_pi_ff. rewrite E. reflexivity.
  - unfold pi_omega_ff. rewrite E. reflexivity.
  - unfold pi_phi_ff. rewrite E. reflexivity.
  - unfold pi_pi_eta_ff. rewrite E. reflexivity.
  - unfold pi_pi_eta_ff. rewrite E. reflexivity.
Qed.
Lemma isoscalar_only f q s ch c c' :
  g_parity (content ch) = false -> gu c + gd c = gu c' + gd c' -> gs c = gs c' -> form f q s ch c = form f q s ch c'.
Proof.
  intros G E H. destruct ch; try discriminate G; unfold form.
  - unfold eta_omega_ff, vector_couplings_to_isospin. cbn [fst]. rewrite E. reflexivity.
  - unfold eta_phi_ff. rewrite H. reflexivity.
  - unfold pi_pi_omega_ff. rewrite E. reflexivity.
Qed.
Lemma form_linear f q s ch : linear (form f q s ch).
Proof.
  destruct ch; unfold form.
  - apply pi_pi_linear.
  - apply pi_pi_linear.
  - apply pi_omega_linear.
  - apply pi_phi_linear.
  - apply eta_omega_linear.
  - apply eta_phi_linear.
  - apply pi_pi_eta_linear.
  - apply pi_pi_eta_linear.
  - apply pi_pi_omega_linear.
Qed.
Lemma linear_at_zero F : linear F -> F (Quarks 0 0 0) = (0, 0).
Proof.
  intros H. specialize (H 0 0 (Quarks 0 0 0) (Quarks 0 0 0)).
  unfold qlin in H. cbn [gu gd gs] in H. replace (0 * 0 + 0 * 0) with 0 in H by ring.
  rewrite H. rewrite !cscale_0. cring.
Qed.

(** * Normalisation of the couplings *)
Lemma set_first_total wgt coup : csum (set_first wgt coup) = cadd (csum wgt) (csum (skipn (length wgt) coup)).
Proof. unfold set_first. apply csum_app. Qed.
Lemma add_at_total n z l : (n < length l)%nat -> csum (add_at n z l) = cadd (csum l) z.
Proof.
  revert n. induction l as [|x l IH]; intros n H; [cbn in H; lia|].
  destruct n as [|n].
  - unfold add_at. cbn [firstn skipn app]. rewrite !csum_cons. cring.
  - unfold add_at. cbn [firstn skipn app]. rewrite csum_cons. fold (add_at n z l). rewrite IH by (cbn in H; lia).
    rewrite csum_cons. cring.
Qed.
Lemma kk_couplings_total wgt coup : (length wgt < length coup)%nat -> csum (kk_couplings wgt coup) = (1, 0).
Proof.
  intros H. unfold kk_couplings. rewrite add_at_total.
  - cring.
  - unfold set_first. rewrite app_length, skipn_length. lia.
Qed.
Lemma kk_couplings_first wgt coup n : (n < length wgt)%nat -> nth n (kk_couplings wgt coup) (0, 0) = nth n wgt (0, 0).
Proof.
  intros H. unfold kk_couplings, add_at, set_first.
  rewrite firstn_app, firstn_all, Nat.sub_diag. cbn [firstn]. rewrite app_nil_r.
  rewrite app_nth1 by exact H. reflexivity.
Qed.
Lemma pipi_couplings_total wgt coup :
  (1 <= length wgt <= length coup)%nat -> csum (tl wgt) <> (0, 0) ->
  csum (pipi_couplings wgt coup) = csum coup.
Proof.
  intros [H1 H2] Hz. unfold pipi_couplings.
  destruct wgt as [|w0 w]; [cbn in H1; lia|]. destruct coup as [|c0 cs]; [cbn in H2; lia|].
  cbn [length tl firstn skipn Nat.sub] in *. rewrite Nat.sub_0_r. cbn [app].
  rewrite csum_cons, csum_app.
  replace (map (fun w1 => cdiv (cmul w1 (csum (firstn (length w) cs))) (csum w)) w)
    with (map (fun w1 => cmul w1 (cdiv (csum (firstn (length w) cs)) (csum w))) w)
    by (apply map_ext; intros a; now rewrite cdiv_mul).
  rewrite csum_cmul.
  rewrite <- cdiv_mul, cmul_comm, cdiv_mul, cdiv_same, cmul_1.
  - rewrite <- csum_app, firstn_skipn. reflexivity.
  - intros E. apply Hz. apply cabs2_zero. exact E.
Qed.
Lemma mixing_unit w : cadd (1, 0) w <> (0, 0) ->
  cmul (cdiv (1, 0) (cadd (1, 0) w)) (cadd (1, 0) (cmul w (1, 0))) = (1, 0).
Proof.
  intros H. rewrite cmul_1. rewrite cmul_comm, <- cdiv_mul, cmul_1. apply cdiv_same.
  intros E. apply H. apply cabs2_zero. exact E.
Qed.

(** * Two neutral pions *)
(** The rho sum that both pion states contain *)
Definition rho_sum (rho : list creso) (s : R) : cplx :=
  csum (map (fun r => cmul (c_coup r) (breit_wigner_gs s (c_mass r) (c_width r) MPI_GEV MPI_GEV)) rho).
Lemma neutral_pions rho mo wo ow s c :
  pi_pi_ff true rho mo wo ow s c = cscale (sqrt 2 * (gu c - gd c)) (rho_sum rho s).
Proof.
  unfold pi_pi_ff, rho_sum. rewrite <- cscale_scale. f_equal.
  rewrite <- csum_scale, map_map. f_equal. apply map_ext. intros r. cring.
Qed.
Lemma charged_pions rho mo wo ow s c :
  cadd (1, 0) ow <> (0, 0) -> breit_wigner_fw s mo wo = (1, 0) ->
  pi_pi_ff false rho mo wo ow s c = cscale (gu c - gd c) (rho_sum rho s).
Proof.
  intros Hw Hb. unfold pi_pi_ff, rho_sum.
  rewrite <- csum_scale, map_map. destruct rho as [|r l]; [reflexivity|]. cbn [map].
  rewrite Hb, mixing_unit by exact Hw. rewrite cmul_1. rewrite csum_cons. f_equal; [cring|].
  f_equal. apply map_ext. intros x. cring.
Qed.

(** The propagator of a broad resonance far above the threshold has a positive numerator *)
Lemma gs_num_positive M g m : 0 < m -> 0 < M -> 0 <= g -> 12 * m ^ 2 <= M ^ 2 -> 0 < gs_num M g m m.
Proof.
  intros Hm HM Hg Hb.
  assert (HM2 : 0 < M ^ 2) by nra.
  set (e := 4 * m ^ 2 / M ^ 2).
  assert (He : 0 < e <= 1 / 3).
  { unfold e. split; [apply Rdiv_lt_0_compat; nra|]. apply Rmult_le_reg_r with (M ^ 2); [exact HM2|].
    unfold Rdiv. rewrite Rmult_assoc, Rinv_l by lra. nra. }
  assert (Hb2 : beta2 (M ^ 2) m m = 1 - e).
  { unfold beta2. replace ((1 - (m + m) ^ 2 / M ^ 2) * (1 - (m - m) ^ 2 / M ^ 2)) with (1 - e) by (unfold e; field; lra).
    apply Rmax_left. lra. }
  set (v := sqrt (1 - e)).
  assert (Hv2 : v ^ 2 = 1 - e) by (unfold v; rewrite pow2_sqrt; lra).
  assert (Hv0 : 0 < v) by (unfold v; apply sqrt_lt_R0; lra).
  assert (Hv1 : v < 1) by nra.
  set (L := ln ((1 + v) / (1 - v))).
  assert (HL : 0 < L).
  { unfold L. rewrite <- ln_1. apply ln_increasing; [lra|]. apply Rmult_lt_reg_r with (1 - v); [lra|].
    unfold Rdiv. rewrite Rmult_assoc, Rinv_l by lra. lra. }
  unfold gs_num, gs_h0, hfun. destruct (Req_EM_T 0 0) as [_|n]; [|now elim n].
  unfold gs_dh, gs_hres, dhhatds, hhat, beta. rewrite Hb2. fold v. fold L.
  replace (v / v) with 1 by (field; lra).
  replace ((m ^ 2 + m ^ 2) / M ^ 2) with (e / 2) by (unfold e; field; lra).
  replace ((m + m) ^ 2) with (e * M ^ 2) by (unfold e; field; lra).
  rewrite <- Hv2. replace e with (1 - v ^ 2) by lra.
  pose proof PI_RGT_0 as HP.
  replace (M ^ 2 + (-2 * ((1 - v ^ 2) * M ^ 2) / PI * g / M / v ^ 3 - g / M / PI * M ^ 2 * 1 ^ 3 * L
     + M ^ 2 * (g / PI / M / v ^ 2 * ((3 - 2 * v ^ 2 - 3 * ((1 - v ^ 2) / 2)) * L + 2 * v * (1 - (1 - v ^ 2) / 2 / (1 - v ^ 2))))))
    with (M ^ 2 + g * M / (PI * v ^ 3) * (3 / 2 * L * v * (1 - v ^ 2) + (3 * v ^ 2 - 2))).
  2: { field. repeat split; lra. }
  assert (0 <= g * M / (PI * v ^ 3)).
  { apply Rmult_le_pos; [nra|]. left. apply Rinv_0_lt_compat. apply Rmult_lt_0_compat; [lra|]. apply pow_lt. lra. }
  assert (0 <= 3 / 2 * L * v * (1 - v ^ 2)).
  { apply Rmult_le_pos; [|nra]. apply Rmult_le_pos; [|lra]. lra. }
  assert (0 <= 3 * v ^ 2 - 2) by lra.
  assert (0 <= g * M / (PI * v ^ 3) * (3 / 2 * L * v * (1 - v ^ 2) + (3 * v ^ 2 - 2))) by (apply Rmult_le_pos; lra).
  lra.
Qed.

(** * The generator of gamma functions and the couplings *)
Lemma gamma_from_length beta k : forall val n, length (gamma_from beta val n k) = k.
Proof. induction k as [|k IH]; intros val n; [reflexivity|]. cbn [gamma_from length]. now rewrite IH. Qed.
Lemma gamma_generator_length g beta nmax : length (gamma_generator g beta nmax) = Nat.max 1 nmax.
Proof. unfold gamma_generator. cbn [length]. rewrite gamma_from_length. lia. Qed.
Lemma gamma_from_nth (P : nat -> R) beta k : forall val n i,
  (i < k)%nat -> (1 <= n)%nat -> P (n - 1)%nat = val ->
  (forall j, (1 <= j)%nat -> P j = P (j - 1)%nat * ((1 - beta + INR j) / INR j)) ->
  nth i (gamma_from beta val n k) 0 = P (n + i)%nat.
Proof.
  induction k as [|k IH]; intros val n i Hi Hn H0 HP; [lia|].
  cbn [gamma_from]. destruct i as [|i].
  - cbn [nth]. rewrite Nat.add_0_r, (HP n Hn), H0. reflexivity.
  - cbn [nth]. rewrite (IH _ (S n) i); try lia.
    + f_equal. lia.
    + replace (S n - 1)%nat with n by lia. rewrite (HP n Hn), H0. reflexivity.
    + exact HP.
Qed.
(** The products the generator computes *)
Fixpoint gprod (x0 beta : R) (n : nat) : R :=
  match n with O => x0 | S k => gprod x0 beta k * ((1 - beta + INR (S k)) / INR (S k)) end.
Lemma gamma_generator_nth g beta nmax i :
  (i < Nat.max 1 nmax)%nat -> nth i (gamma_generator g beta nmax) 0 = gprod (g (2 - beta)) beta i.
Proof.
  intros H. unfold gamma_generator. destruct i as [|i]; [reflexivity|]. cbn [nth].
  rewrite (gamma_from_nth (gprod (g (2 - beta)) beta)); try lia; try reflexivity.
  intros j Hj. destruct j as [|j]; [lia|]. cbn [gprod]. replace (S j - 1)%nat with j by lia. reflexivity.
Qed.
Lemma gprod_gamma g beta n :
  (forall k, (k < n)%nat -> g (2 - beta + INR (S k)) = (2 - beta + INR k) * g (2 - beta + INR k)) ->
  gprod (g (2 - beta)) beta n = g (2 - beta + INR n) / INR (fact n).
Proof.
  induction n as [|n IH]; intros H.
  - cbn [gprod]. cbn [fact INR]. rewrite Rplus_0_r. field.
  - cbn [gprod]. rewrite IH by (intros k Hk; apply H; lia).
    rewrite (H n) by lia. change (fact (S n)) with (S n * fact n)%nat. rewrite mult_INR.
    assert (INR (fact n) <> 0) by apply INR_fact_neq_0.
    assert (0 <= INR n) by apply pos_INR.
    rewrite S_INR. field. split; [assumption|lra].
Qed.
Lemma combine_seq_nth (l : list R) (f : nat -> R -> R) n i :
  (i < n)%nat -> (n <= length l)%nat ->
  nth i (map (fun ng => f (fst ng) (snd ng)) (combine (seq 0 n) l)) 0 = f i (nth i l 0).
Proof.
  intros Hi Hl.
  set (h := fun ng : nat * R => f (fst ng) (snd ng)).
  rewrite nth_indep with (d' := h (0%nat, 0)).
  2: { rewrite map_length, combine_length, seq_length. lia. }
  rewrite map_nth. unfold h.
  assert (E : forall (l : list R) m k j, (j < k)%nat -> (k <= length l)%nat ->
    nth j (combine (seq m k) l) (0%nat, 0) = ((m + j)%nat, nth j l 0)).
  { clear. induction l as [|x l IH]; intros m k j Hj Hk.
    - cbn in Hk. lia.
    - destruct k as [|k]; [lia|]. cbn [seq combine]. destruct j as [|j].
      + cbn [nth]. now rewrite Nat.add_0_r.
      + cbn [nth]. rewrite IH; [|lia|cbn in Hk; lia]. f_equal. lia. }
  rewrite E by assumption. reflexivity.
Qed.
Lemma dual_coups_nth g beta nmax n :
  (n < nmax)%nat -> nth n (dual_coups g beta nmax) 0
    = alternate n (dual_coup g beta n (gprod (g (2 - beta)) beta n)).
Proof.
  intros H. unfold dual_coups.
  rewrite (combine_seq_nth _ (fun n gb => alternate n (dual_coup g beta n gb))).
  - rewrite gamma_generator_nth by lia. reflexivity.
  - exact H.
  - rewrite gamma_generator_length. lia.
Qed.
Lemma sin_step x n : sin (PI * (x - INR (S n))) = - sin (PI * (x - INR n)).
Proof.
  rewrite S_INR. replace (PI * (x - (INR n + 1))) with (PI * (x - INR n) - PI) by ring.
  rewrite sin_minus, cos_PI, sin_PI. ring.
Qed.
Lemma dual_recurrence g beta nmax n :
  (S n < nmax)%nat ->
  nth (S n) (dual_coups g beta nmax) 0 * ((INR n + 3 / 2) * (INR n + 1))
    = nth n (dual_coups g beta nmax) 0 * ((INR n + 1 / 2) * (INR n + 2 - beta)).
Proof.
  intros H. rewrite !dual_coups_nth by lia.
  unfold dual_coup. rewrite sin_step. cbn [gprod].
  assert (0 <= INR n) by apply pos_INR. rewrite S_INR.
  generalize (gprod (g (2 - beta)) beta n) (sin (PI * (beta - 1 - INR n))) (g (beta - 0.5)). intros a b c.
  pose proof PI_RGT_0. assert (0 < sqrt PI) by (apply sqrt_lt_R0; lra).
  unfold alternate. rewrite Nat.odd_succ, <- Nat.negb_odd.
  destruct (Nat.odd n); cbn [negb]; (replace 0.5 with (1 / 2) by lra); field; repeat split; lra.
Qed.
Lemma dual_first g beta nmax :
  (0 < nmax)%nat -> nth 0 (dual_coups g beta nmax) 0 = 2 * g (beta - 1 / 2) * g (2 - beta) * sin (PI * (beta - 1)) / (PI * sqrt PI).
Proof.
  intros H. rewrite dual_coups_nth by exact H. cbn [gprod]. unfold alternate, dual_coup. cbn [Nat.odd Nat.even negb INR].
  replace 0.5 with (1 / 2) by lra. rewrite Rminus_0_r. pose proof PI_RGT_0. assert (0 < sqrt PI) by (apply sqrt_lt_R0; lra).
  field. split; lra.
Qed.

(** * The search for beta *)
(** A ratio of gamma functions: what gamma(b - 1/2) / gamma(b - 1) satisfies *)
Definition ratio_of_gammas (r : R -> R) : Prop := forall b, 2 < b -> r b = (b - 3 / 2) / (b - 2) * r (b - 1).
Lemma c_0_loop_closed r k : ratio_of_gammas r -> forall x b, b <= 2 + INR k -> c_0_loop r k x b = x * r b.
Proof.
  intros H. induction k as [|k IH]; intros x b Hb; [reflexivity|].
  cbn [c_0_loop]. destruct (Rlt_dec 2 b) as [h|h]; [|reflexivity].
  rewrite IH by (rewrite S_INR in Hb; lra). rewrite (H b h). replace 1.5 with (3 / 2) by lra. ring.
Qed.
Lemma c_0_closed r b : ratio_of_gammas r -> c_0 r b = 2 / sqrt PI * r b.
Proof.
  intros H. unfold c_0. apply c_0_loop_closed; [exact H|].
  destruct (archimed b) as [Hu _]. destruct (Z_lt_le_dec (up b) 0) as [hz|hz].
  - apply IZR_lt in hz. assert (0 <= INR (Z.to_nat (up b))) by apply pos_INR. lra.
  - rewrite INR_IZR_INZ, Z2Nat.id by exact hz. lra.
Qed.
(** What the search tests before it returns *)
Definition close (c : R -> R) (c0 m : R) : Prop := Rabs (c m - c0) <= / 10 ^ 10.
Lemma find_beta_tested c c0 fuel : forall lo mid hi tested,
  1 <= lo -> lo < hi -> lo <= mid <= hi -> lo <= tested <= hi ->
  mid = tested \/ mid = (lo + hi) / 2 ->
  forall b, find_beta_loop c c0 fuel lo mid hi (c tested) = Some (Ret b) ->
  exists m, close c c0 m /\ (b = m \/ exists lo' hi', 1 <= lo' < hi' /\ lo' <= m <= hi' /\ b = (lo' + hi') / 2).
Proof.
  induction fuel as [|k IH]; intros lo mid hi tested H1 Hlh Hm Ht Hb b E; cbn [find_beta_loop] in E.
  - destruct (Rlt_dec (/ 10 ^ 10) (Rabs (c tested - c0))) as [h|h]; [discriminate|].
    assert (b = mid) by congruence. subst b. exists tested. split; [unfold close; lra|].
    destruct Hb as [Hb|Hb]; [left; exact Hb|right]. exists lo, hi. lra.
  - destruct (Rlt_dec (/ 10 ^ 10) (Rabs (c tested - c0))) as [h|h].
    2: { assert (b = mid) by congruence. subst b. exists tested. split; [unfold close; lra|].
         destruct Hb as [Hb|Hb]; [left; exact Hb|right]. exists lo, hi. lra. }
    destruct (between (c lo) c0 (c mid)) eqn:B1.
    + destruct (Rle_lt_dec mid lo) as [hl|hl].
      * exfalso. unfold between in B1. replace mid with lo in B1 by lra.
        destruct (Rlt_dec (c lo) c0); [|discriminate]. destruct (Rlt_dec c0 (c lo)); [lra|discriminate].
      * eapply IH in E; [exact E|lra|lra|lra|lra|right; lra].
    + destruct (between (c mid) c0 (c hi)) eqn:B2.
      * destruct (Rle_lt_dec hi mid) as [hl|hl].
        -- exfalso. unfold between in B2. replace mid with hi in B2 by lra.
           destruct (Rlt_dec (c hi) c0); [|discriminate]. destruct (Rlt_dec c0 (c hi)); [lra|discriminate].
        -- eapply IH in E; [exact E|lra|lra|lra|lra|right; lra].
      * destruct (Rle_dec (c hi) c0); [|discriminate].
        eapply IH in E; [exact E|lra|lra|lra|lra|right; lra].
Qed.

(** A ratio of gamma functions with the values at 1 and 2; between and above them any values that obey
    the recurrence *)
Definition gratio_at_2 : R := sqrt PI / 2.
Lemma c_0_at_2 r : ratio_of_gammas r -> r 2 = sqrt PI / 2 -> c_0 r 2 = 1.
Proof.
  intros H E. rewrite c_0_closed by exact H. rewrite E. assert (0 < sqrt PI) by (apply sqrt_lt_R0, PI_RGT_0). field. lra.
Qed.
Lemma c_0_at_3 r : ratio_of_gammas r -> r 2 = sqrt PI / 2 -> c_0 r 3 = 3 / 2.
Proof.
  intros H E. rewrite c_0_closed by exact H. rewrite (H 3) by lra. replace (3 - 1) with 2 by lra.
  rewrite E. assert (0 < sqrt PI) by (apply sqrt_lt_R0, PI_RGT_0). field. lra.
Qed.
Lemma c_0_at_5 r : ratio_of_gammas r -> r 2 = sqrt PI / 2 -> c_0 r 5 = 35 / 16.
Proof.
  intros H E. rewrite c_0_closed by exact H. rewrite (H 5) by lra. replace (5 - 1) with 4 by lra.
  rewrite (H 4) by lra. replace (4 - 1) with 3 by lra. rewrite (H 3) by lra. replace (3 - 1) with 2 by lra.
  rewrite E. assert (0 < sqrt PI) by (apply sqrt_lt_R0, PI_RGT_0). field. lra.
Qed.
Lemma c_0_at_1 r : ratio_of_gammas r -> r 1 = 0 -> c_0 r 1 = 0.
Proof. intros H E. rewrite c_0_closed by exact H. rewrite E. ring. Qed.

Lemma between_true a b c : a < b -> b < c -> between a b c = true.
Proof. intros. unfold between. destruct (Rlt_dec a b); [|lra]. destruct (Rlt_dec b c); [reflexivity|lra]. Qed.
Lemma between_false a b c : b <= a \/ c <= b -> between a b c = false.
Proof. intros. unfold between. destruct (Rlt_dec a b); [|reflexivity]. destruct (Rlt_dec b c); [lra|reflexivity]. Qed.
Lemma find_beta_raises r fuel :
  ratio_of_gammas r -> r 1 = 0 -> r 2 = sqrt PI / 2 ->
  find_beta r (3 / 2) (S (S fuel)) = Some (Raise RuntimeError).
Proof.
  intros H H1 H2. unfold find_beta. cbn [find_beta_loop].
  rewrite (c_0_at_5 r H H2), (c_0_at_1 r H H1).
  destruct (Rlt_dec (/ 10 ^ 10) (Rabs (35 / 16 - 3 / 2))) as [h|h].
  2: { rewrite Rabs_right in h by lra. lra. }
  rewrite (between_true 0 (3 / 2) (35 / 16)) by lra.
  replace (0.5 * (1 + 5)) with 3 by lra. rewrite ?(c_0_at_3 r H H2), ?(c_0_at_1 r H H1).
  destruct (Rlt_dec (/ 10 ^ 10) (Rabs (35 / 16 - 3 / 2))) as [h'|h']; [|contradiction].
  rewrite ?(c_0_at_3 r H H2), ?(c_0_at_5 r H H2).
  rewrite !between_false by lra. destruct (Rle_dec (35 / 16) (3 / 2)); [lra|reflexivity].
Qed.
Lemma find_beta_wrong r fuel :
  ratio_of_gammas r -> r 1 = 0 -> r 2 = sqrt PI / 2 ->
  find_beta r (3 / 2 - / 10 ^ 11) (S (S fuel)) = Some (Ret 2).
Proof.
  intros H H1 H2. unfold find_beta. cbn [find_beta_loop].
  rewrite (c_0_at_5 r H H2), (c_0_at_1 r H H1).
  destruct (Rlt_dec (/ 10 ^ 10) (Rabs (35 / 16 - (3 / 2 - / 10 ^ 11)))) as [h|h].
  2: { rewrite Rabs_right in h by lra. lra. }
  rewrite (between_true 0 (3 / 2 - / 10 ^ 11) (35 / 16)) by lra.
  replace (0.5 * (1 + 5)) with 3 by lra. rewrite ?(c_0_at_3 r H H2), ?(c_0_at_1 r H H1).
  destruct (Rlt_dec (/ 10 ^ 10) (Rabs (35 / 16 - (3 / 2 - / 10 ^ 11)))) as [h'|h']; [|contradiction].
  rewrite ?(c_0_at_3 r H H2).
  rewrite (between_true 0 (3 / 2 - / 10 ^ 11) (3 / 2)) by lra.
  replace (0.5 * (1 + 3)) with 2 by lra.
  assert (G : forall f, find_beta_loop (c_0 r) (3 / 2 - / 10 ^ 11) f 1 2 3 (3 / 2) = Some (Ret 2)).
  { intros f. destruct f; cbn [find_beta_loop];
      (destruct (Rlt_dec (/ 10 ^ 10) (Rabs (3 / 2 - (3 / 2 - / 10 ^ 11)))) as [h2|h2]; [|reflexivity]);
      rewrite Rabs_right in h2 by lra; lra. }
  apply G.
Qed.

(** * Symmetries of the three-body states *)
Lemma hrho_swap s t u m g : hrho s t u m g = hrho s u t m g.
Proof. unfold hrho. cring. Qed.
Lemma pi3_core_swap f q2 s t u c : pi3_core f q2 s t u c = pi3_core f q2 s u t c.
Proof.
  unfold pi3_core, iso_spin_zero. destruct (vector_couplings_to_isospin (gu c) (gd c) (gs c)) as [[ci0 ci1] cs].
  do 2 f_equal; [f_equal|]; f_equal; apply hrho_swap.
Qed.
Lemma pi3_swap f q s t u c :
  s + t + u = q ^ 2 + (1000 * MPI0_GEV) ^ 2 + 2 * (1000 * MPI_GEV) ^ 2 ->
  pi3_form_factor f q s t c = pi3_form_factor f q s u c.
Proof.
  intros H. unfold pi3_form_factor. f_equal. rewrite pi3_core_swap.
  f_equal; nra.
Qed.

(** * Running widths *)
Lemma pow15_pos x : 0 < x -> 0 < pow15 x.
Proof. intros H. unfold pow15. apply Rmult_lt_0_compat; [exact H|]. now apply sqrt_lt_R0. Qed.
Lemma pow15_nonneg x : 0 <= x -> 0 <= pow15 x.
Proof. intros H. unfold pow15. apply Rmult_le_pos; [exact H|apply sqrt_pos]. Qed.
Lemma pow15_1 : pow15 1 = 1.
Proof. unfold pow15. rewrite sqrt_1. ring. Qed.
Lemma pow15_mono x y : 0 <= x -> x < y -> pow15 x < pow15 y.
Proof.
  intros Hx Hxy. unfold pow15. assert (sqrt x < sqrt y) by (apply sqrt_lt_1; lra).
  assert (0 <= sqrt x) by apply sqrt_pos. nra.
Qed.
(** A width that is zero at the threshold, positive above and equal to the nominal one at the resonance *)
Definition running (thr m w : R) (W : R -> R) : Prop :=
  W thr = 0 /\ W (m ^ 2) = w /\ forall s, thr < s -> 0 < W s.
Lemma gamma_rho_running m w mj mk :
  0 < w -> 0 < mj -> 0 < mk -> (mj + mk) ^ 2 < m ^ 2 -> running ((mj + mk) ^ 2) m w (fun s => gamma_rho s m w mj mk).
Proof.
  intros Hw Hj Hk Hm. unfold running, gamma_rho. assert (0 < (mj + mk) ^ 2) by nra. repeat split.
  - replace (((mj + mk) ^ 2 - (mj + mk) ^ 2) / (m ^ 2 - (mj + mk) ^ 2)) with 0 by (field; lra).
    unfold pow15. ring.
  - replace ((m ^ 2 - (mj + mk) ^ 2) / (m ^ 2 - (mj + mk) ^ 2)) with 1 by (field; lra).
    rewrite pow15_1. field. intros ->. lra.
  - intros s Hs. apply Rmult_lt_0_compat.
    + apply Rdiv_lt_0_compat; [apply Rmult_lt_0_compat; lra|lra].
    + apply pow15_pos. apply Rdiv_lt_0_compat; lra.
Qed.
Lemma rho_width_is s m w : rho_width s m w = gamma_rho s m w MPI_GEV MPI_GEV.
Proof.
  unfold rho_width, gamma_rho. do 3 f_equal; ring.
Qed.
Lemma MPI_pos : 0 < MPI_GEV. Proof. unfold MPI_GEV. lra. Qed.
Lemma MPI0_pos : 0 < MPI0_GEV. Proof. unfold MPI0_GEV. lra. Qed.
Lemma pi_phi_width_pos s m w br :
  0 < w -> 0 <= br <= 1 -> 16 * MPI0_GEV ^ 2 < m ^ 2 -> 16 * MPI0_GEV ^ 2 < s ->
  0 < pi_phi_width s m w br /\ pi_phi_width (m ^ 2) m w br = w.
Proof.
  intros Hw Hb Hm Hs. pose proof MPI0_pos as HP. unfold pi_phi_width. split.
  - set (x := (s - 16 * MPI0_GEV ^ 2) / (m ^ 2 - 16 * MPI0_GEV ^ 2)).
    assert (0 < x) by (unfold x; apply Rdiv_lt_0_compat; lra).
    assert (0 < pow15 x) by now apply pow15_pos.
    assert (0 < m ^ 2 / s) by (apply Rdiv_lt_0_compat; nra).
    replace (br * m ^ 2 / s) with (br * (m ^ 2 / s)) by (unfold Rdiv; ring).
    apply Rmult_lt_0_compat; [exact Hw|].
    assert (0 < m ^ 2 / s * pow15 x) by now apply Rmult_lt_0_compat.
    destruct (Req_dec br 1) as [->|Hn]; [lra|].
    rewrite Rmult_assoc. assert (0 <= br * (m ^ 2 / s * pow15 x)) by (apply Rmult_le_pos; lra). lra.
  - replace ((m ^ 2 - 16 * MPI0_GEV ^ 2) / (m ^ 2 - 16 * MPI0_GEV ^ 2)) with 1 by (field; lra).
    rewrite pow15_1. field. intros ->. nra.
Qed.
Lemma pi_omega_width_pos g mo s m w :
  0 < w -> 0 < mo -> 4 * MPI0_GEV ^ 2 < m ^ 2 -> (MPI0_GEV + mo) ^ 2 <= s -> 4 * MPI0_GEV ^ 2 < s ->
  gamma_rho s m w MPI0_GEV MPI0_GEV <= pi_omega_width g mo s m w
  /\ 0 < pi_omega_width g mo s m w.
Proof.
  intros Hw Ho Hm Hs Hs4. pose proof MPI0_pos as HP. pose proof PI_RGT_0 as HPI.
  assert (E : w * (m ^ 2 / s) * pow15 ((1 - 4 * (MPI0_GEV ^ 2 / s)) / (m ^ 2 / s - 4 * (MPI0_GEV ^ 2 / s)))
     = gamma_rho s m w MPI0_GEV MPI0_GEV).
  { unfold gamma_rho. replace ((1 - 4 * (MPI0_GEV ^ 2 / s)) / (m ^ 2 / s - 4 * (MPI0_GEV ^ 2 / s)))
      with ((s - (MPI0_GEV + MPI0_GEV) ^ 2) / (m ^ 2 - (MPI0_GEV + MPI0_GEV) ^ 2)).
    - unfold Rdiv. ring.
    - field. repeat split; nra. }
  assert (P : 0 <= g ^ 2 * (0.5 * sqrt s * sqrt (kallen_lambda 1 (MPI0_GEV ^ 2 / s) (mo ^ 2 / s))) ^ 3 / (12 * PI)).
  { apply Rmult_le_pos; [|left; apply Rinv_0_lt_compat; lra].
    apply Rmult_le_pos; [nra|]. apply pow_le. apply Rmult_le_pos; [|apply sqrt_pos].
    apply Rmult_le_pos; [lra|apply sqrt_pos]. }
  assert (G : 0 < gamma_rho s m w MPI0_GEV MPI0_GEV).
  { apply gamma_rho_running; try assumption; nra. }
  unfold pi_omega_width. cbv zeta. rewrite E. split; lra.
Qed.

(** * Pions and kaons *)
Definition mirror (c : quarks) : quarks := Quarks (gd c) (gu c) (gs c).
Lemma iso_amp_mirror iso0 iso1 q c :
  fst (iso_spin_amplitudes iso0 iso1 q (mirror c)) = fst (iso_spin_amplitudes iso0 iso1 q c)
  /\ snd (iso_spin_amplitudes iso0 iso1 q (mirror c)) = copp (snd (iso_spin_amplitudes iso0 iso1 q c)).
Proof.
  unfold iso_spin_amplitudes, mirror. cbn [fst snd gu gd gs]. split; [reflexivity|].
  induction iso1 as [|r l IH]; [cbn; cring|]. cbn [map]. rewrite !csum_cons, IH. cring.
Qed.
Lemma k0_k_mirror g iso0 iso1 m mp q s t c :
  pi0_k0_k0_ff g iso0 iso1 m mp q s t c = pi0_k_k_ff g iso0 iso1 m mp q s t (mirror c).
Proof.
  unfold pi0_k0_k0_ff, pi0_k_k_ff. destruct (iso_amp_mirror iso0 iso1 q c) as [H0 H1].
  destruct (iso_spin_amplitudes iso0 iso1 q c) as [a0 a1], (iso_spin_amplitudes iso0 iso1 q (mirror c)) as [b0 b1].
  cbn [fst snd] in *. subst. do 2 f_equal. cring.
Qed.
Lemma pikk0_mirror g iso0 iso1 m mp q s t c :
  pi_k_k0_ff g iso0 iso1 m m mp q s t c = pi_k_k0_ff g iso0 iso1 m m mp q t s (mirror c).
Proof.
  unfold pi_k_k0_ff. destruct (iso_amp_mirror iso0 iso1 q c) as [H0 H1].
  destruct (iso_spin_amplitudes iso0 iso1 q c) as [a0 a1], (iso_spin_amplitudes iso0 iso1 q (mirror c)) as [b0 b1].
  cbn [fst snd] in *. subst. generalize (kstar_propagator s m mp) (kstar_propagator t m mp). intros x y. cring.
Qed.
Lemma exchange_neutral g iso0 iso1 m mp q s t c :
  pi0_k0_k0_ff g iso0 iso1 m mp q s t c = pi0_k0_k0_ff g iso0 iso1 m mp q t s c
  /\ pi0_k_k_ff g iso0 iso1 m mp q s t c = pi0_k_k_ff g iso0 iso1 m mp q t s c.
Proof.
  unfold pi0_k0_k0_ff, pi0_k_k_ff. destruct (iso_spin_amplitudes iso0 iso1 q c) as [a0 a1].
  rewrite (cadd_comm (kstar_propagator s m mp)). split; reflexivity.
Qed.

Lemma bwfw_abs s m w : m <> 0 -> w <> 0 -> cabs2 (breit_wigner_fw s m w) = m ^ 4 / ((m ^ 2 - s) ^ 2 + (m * w) ^ 2).
Proof.
  intros Hm Hw. assert (0 < (m * w) ^ 2) by (rewrite <- Rsqr_pow2; apply Rsqr_pos_lt; apply Rmult_integral_contrapositive; tauto).
  unfold breit_wigner_fw. rewrite cabs2_div; unfold cabs2; cbn [fst snd].
  - f_equal; ring.
  - replace ((- (m * w)) ^ 2) with ((m * w) ^ 2) by ring. assert (0 <= (m ^ 2 - s) ^ 2) by (rewrite <- Rsqr_pow2; apply Rle_0_sqr). lra.
Qed.
Lemma scale_cancel k a x : k <> 0 -> k * a * x / k = a * x.
Proof. intros H. field. exact H. Qed.
(** The default isoscalar amplitude does not vanish at the second resonance *)
Lemma iso_scalar_nonzero c :
  gs c <> 0 -> fst (iso_spin_amplitudes iso_scalar_fit iso_vector_fit 1.6334 c) <> (0, 0).
Proof.
  intros Hg H. unfold iso_spin_amplitudes, iso_scalar_fit in H. cbn [fst snd map r_mass r_width r_amp r_phase] in H.
  set (z1 := cmul (cscale (-3 * gs c) (r_coeff (Reso 1.6334 0.218 0.233 0.00000011))) (breit_wigner_fw (1.6334 ^ 2) 1.6334 0.218)) in H.
  set (z2 := cmul (cscale (-3 * gs c) (r_coeff (Reso 1.957 0.267 0.0405 5.19))) (breit_wigner_fw (1.6334 ^ 2) 1.957 0.267)) in H.
  assert (Z0 : cmul (cscale (-3 * gs c) (r_coeff (Reso 1.019461 0.004249 0 0))) (breit_wigner_fw (1.6334 ^ 2) 1.019461 0.004249) = (0, 0)).
  { unfold r_coeff. cbn [r_amp r_phase]. rewrite cscale_0, cscale_z, cmul_0_l. reflexivity. }
  rewrite Z0 in H. rewrite !csum_cons in H. unfold csum in H. cbn [fold_right] in H.
  rewrite cadd_0 in H.
  assert (E : cabs2 z1 = cabs2 z2).
  { replace z1 with (copp z2); [apply cabs2_opp|].
    apply (f_equal (fun z => csub z z2)) in H. replace (csub (cadd (0, 0) (cadd z1 z2)) z2) with z1 in H by cring.
    rewrite H. cring. }
  unfold z1, z2 in E. rewrite !cabs2_mul, !cabs2_scale in E. unfold r_coeff in E. cbn [r_amp r_phase] in E.
  rewrite !cabs2_scale, !cabs2_cis in E. rewrite !bwfw_abs in E by lra.
  assert (0 < (-3 * gs c) ^ 2) by (rewrite <- Rsqr_pow2; apply Rsqr_pos_lt; lra).
  apply (f_equal (fun x => x / (-3 * gs c) ^ 2)) in E.
  rewrite !scale_cancel in E by lra.
  lra.
Qed.
Lemma kstar_nonzero s m1 m2 : 0 < s -> s <> KS_MASS_GEV ^ 2 -> kstar_propagator s m1 m2 <> (0, 0).
Proof.
  intros Hs Hn H. apply cabs2_zero in H. unfold kstar_propagator, breit_wigner_pwave in H.
  rewrite cabs2_scale in H. set (x := sqrt s * gamma_p s KS_MASS_GEV KS_WIDTH_GEV m1 m2) in H.
  assert (D : 0 < cabs2 (KS_MASS_GEV ^ 2 - s, - x)).
  { unfold cabs2. cbn [fst snd]. assert (0 < (KS_MASS_GEV ^ 2 - s) ^ 2) by (rewrite <- Rsqr_pow2; apply Rsqr_pos_lt; lra). nra. }
  rewrite cabs2_div in H by lra.
  assert (K : 0 < KS_MASS_GEV) by (unfold KS_MASS_GEV; lra).
  assert (0 < cabs2 (KS_MASS_GEV ^ 2, 0)) by (unfold cabs2; cbn [fst snd]; assert (0 < KS_MASS_GEV ^ 4) by (apply pow_lt; exact K); nra).
  assert (0 < (/ KS_MASS_GEV ^ 2) ^ 2) by (apply pow_lt, Rinv_0_lt_compat, pow_lt, K).
  assert (0 < (/ KS_MASS_GEV ^ 2) ^ 2 * (cabs2 (KS_MASS_GEV ^ 2, 0) / cabs2 (KS_MASS_GEV ^ 2 - s, - x))).
  { apply Rmult_lt_0_compat; [assumption|]. now apply Rdiv_lt_0_compat. }
  lra.
Qed.
(** Isospin of the K*: one production amplitude for each charge of the K*, and a neutral or charged K* decays
    to a charged pion with sqrt 2 times the amplitude for a neutral pion (the Clebsch-Gordan coefficients
    are sqrt(2/3) and sqrt(1/3)); [e] is the relative sign of the two terms *)
Definition kstar_isospin (P : R -> cplx) (F00 Fpm Fch : R -> R -> cplx) : Prop :=
  exists An Ac e, (e = 1 \/ e = -1) /\ forall s t, 0 < s -> 0 < t ->
    F00 s t = cmul An (cadd (P s) (P t)) /\ Fpm s t = cmul Ac (cadd (P s) (P t))
    /\ cabs2 (Fch s t) = 2 * cabs2 (cadd (cmul An (P s)) (cscale e (cmul Ac (P t)))).
Lemma cmul_cancel a b z : z <> (0, 0) -> cmul a z = cmul b z -> a = b.
Proof.
  intros Hz H. assert (Z : cabs2 z <> 0) by (intros E; apply Hz, cabs2_zero, E).
  assert (Q : forall x, cdiv (cmul x z) z = x).
  { intros x. rewrite cdiv_mul, cdiv_same by exact Z. apply cmul_1. }
  rewrite <- (Q a), <- (Q b), H. reflexivity.
Qed.
Lemma kstar_isospin_fails g m mp c :
  g <> 0 -> gs c <> 0 -> gu c = gd c ->
  ~ kstar_isospin (fun s => kstar_propagator s m mp)
      (fun s t => pi0_k0_k0_ff g iso_scalar_fit iso_vector_fit m mp 1.6334 s t c)
      (fun s t => pi0_k_k_ff g iso_scalar_fit iso_vector_fit m mp 1.6334 s t c)
      (fun s t => pi_k_k0_ff g iso_scalar_fit iso_vector_fit m m mp 1.6334 s t c).
Proof.
  intros Hg Hs Hud (An & Ac & e & He & H). destruct (H 1 1 ltac:(lra) ltac:(lra)) as (H1 & H2 & H3). clear H.
  pose proof (iso_scalar_nonzero c Hs) as HZ.
  unfold pi0_k0_k0_ff, pi0_k_k_ff, pi_k_k0_ff in *.
  assert (A1 : snd (iso_spin_amplitudes iso_scalar_fit iso_vector_fit 1.6334 c) = (0, 0)).
  { unfold iso_spin_amplitudes. cbn [snd]. apply csum_zero. intros r. replace (gu c - gd c) with 0 by lra.
    rewrite cscale_0, cmul_0_l. reflexivity. }
  destruct (iso_spin_amplitudes iso_scalar_fit iso_vector_fit 1.6334 c) as [a0 a1]. cbn [fst snd] in *. subst a1.
  assert (HP : kstar_propagator 1 m mp <> (0, 0)) by (apply kstar_nonzero; unfold KS_MASS_GEV; lra).
  set (P := kstar_propagator 1 m mp) in *.
  assert (HP2 : cadd P P <> (0, 0)).
  { intros E. apply HP. replace P with (cscale (1 / 2) (cadd P P)) by (apply cext; unfold cscale, cadd; cbn [fst snd]; field).
    rewrite E. apply cscale_z. }
  set (k := 2 * g / sqrt 6) in *.
  assert (Hk : k <> 0).
  { unfold k. assert (0 < sqrt 6) by (apply sqrt_lt_R0; lra). intros E. apply Hg.
    apply (f_equal (fun x => x * sqrt 6 / 2)) in E. replace (2 * g / sqrt 6 * sqrt 6 / 2) with g in E by (field; lra). lra. }
  rewrite cadd_0 in *. replace (csub a0 (0, 0)) with a0 in * by cring.
  apply cmul_cancel in H1; [|exact HP2]. apply cmul_cancel in H2; [|exact HP2].
  subst An Ac. set (A := cscale k a0) in *.
  assert (HA : 0 < cabs2 A).
  { unfold A. rewrite cabs2_scale. apply Rmult_lt_0_compat; [rewrite <- Rsqr_pow2; now apply Rsqr_pos_lt|].
    destruct (Rle_lt_or_eq_dec 0 (cabs2 a0) (cabs2_nonneg a0)) as [h|h]; [exact h|]. elim HZ. apply cabs2_zero. now symmetry. }
  assert (HPP : 0 < cabs2 P).
  { destruct (Rle_lt_or_eq_dec 0 (cabs2 P) (cabs2_nonneg P)) as [h|h]; [exact h|]. elim HP. apply cabs2_zero. now symmetry. }
  replace (cadd (cmul A P) (cmul A P)) with (cscale 2 (cmul A P)) in H3 by cring.
  replace (cadd (cmul A P) (cscale e (cmul A P))) with (cscale (1 + e) (cmul A P)) in H3 by cring.
  rewrite !cabs2_scale, cabs2_mul in H3.
  assert (0 < cabs2 A * cabs2 P) by now apply Rmult_lt_0_compat.
  destruct He as [-> | ->]; nra.
Qed.
(** With equal isoscalar and isovector amplitudes no charged K* is made, so that K+ K- pi0 vanishes *)
Lemma charged_kstar_appears g r m mp :
  g <> 0 -> r_amp r <> 0 -> r_mass r <> 0 -> r_width r <> 0 -> 0 < m -> 0 < mp -> (m + mp) ^ 2 < KS_MASS_GEV ^ 2 ->
  let c := Quarks (2 / 3) (-1 / 3) (-1 / 3) in
  (forall q s t, pi0_k_k_ff g [r] [r] m mp q s t c = (0, 0))
  /\ (forall q s, pi_k_k0_ff g [r] [r] m m mp q s (KS_MASS_GEV ^ 2) c <> pi_k_k0_ff g [r] [r] m m mp q s 1 c)
  /\ (forall q s s' t, pi_k_k0_ff g [r] [r] m m mp q s t c = pi_k_k0_ff g [r] [r] m m mp q s' t c).
Proof.
  intros Hg Hr Hm Hw H0 Hp HK c.
  assert (E : forall q, iso_spin_amplitudes [r] [r] q c =
     (cmul (r_coeff r) (breit_wigner_fw (q ^ 2) (r_mass r) (r_width r)), cmul (r_coeff r) (breit_wigner_fw (q ^ 2) (r_mass r) (r_width r)))).
  { intros q. unfold iso_spin_amplitudes, c. cbn [gu gd gs map].
    replace (-3 * (-1 / 3)) with 1 by lra. replace (2 / 3 - -1 / 3) with 1 by lra.
    rewrite cscale_1. rewrite csum_cons. unfold csum. cbn [fold_right]. rewrite cadd_0. reflexivity. }
  split; [|split].
  - intros q s t. unfold pi0_k_k_ff. rewrite E. generalize (cmul (r_coeff r) (breit_wigner_fw (q ^ 2) (r_mass r) (r_width r))). intros z. cring.
  - intros q s. unfold pi_k_k0_ff. rewrite E. set (z := cmul (r_coeff r) (breit_wigner_fw (q ^ 2) (r_mass r) (r_width r))).
    assert (Hz : cabs2 z <> 0).
    { unfold z. rewrite cabs2_mul. unfold r_coeff. rewrite cabs2_scale, cabs2_cis, bwfw_abs by assumption.
      assert (0 < (r_amp r) ^ 2) by (rewrite <- Rsqr_pow2; now apply Rsqr_pos_lt).
      assert (0 < r_mass r ^ 4) by (replace (r_mass r ^ 4) with ((r_mass r ^ 2) ^ 2) by ring; rewrite <- (Rsqr_pow2 (r_mass r ^ 2)); apply Rsqr_pos_lt; apply pow_nonzero; exact Hm).
      assert (0 < (r_mass r * r_width r) ^ 2) by (rewrite <- Rsqr_pow2; apply Rsqr_pos_lt; apply Rmult_integral_contrapositive; tauto).
      assert (0 <= (r_mass r ^ 2 - q ^ 2) ^ 2) by (rewrite <- Rsqr_pow2; apply Rle_0_sqr).
      assert (0 < r_mass r ^ 4 / ((r_mass r ^ 2 - q ^ 2) ^ 2 + (r_mass r * r_width r) ^ 2)) by (apply Rdiv_lt_0_compat; lra).
      assert (0 < (r_amp r) ^ 2 * 1 * (r_mass r ^ 4 / ((r_mass r ^ 2 - q ^ 2) ^ 2 + (r_mass r * r_width r) ^ 2))) by (apply Rmult_lt_0_compat; lra).
      lra. }
    set (k := 2 * g / sqrt 6).
    assert (Hk : k <> 0).
    { unfold k. assert (0 < sqrt 6) by (apply sqrt_lt_R0; lra). intros F. apply Hg.
      apply (f_equal (fun x => x * sqrt 6 / 2)) in F. replace (2 * g / sqrt 6 * sqrt 6 / 2) with g in F by (field; lra). lra. }
    replace (csub z z) with (0, 0) by cring. rewrite cscale_z, !cmul_0_l.
    replace (cadd z z) with (cscale 2 z) by cring. rewrite cscale_scale. intros F.
    assert (G : forall x, cadd (0, 0) x = x) by (intros x; cring). rewrite !G in F. rewrite (cmul_comm _ (kstar_propagator (KS_MASS_GEV ^ 2) m mp)), (cmul_comm _ (kstar_propagator 1 m mp)) in F.
    apply cmul_cancel in F.
    + unfold kstar_propagator, breit_wigner_pwave in F.
      apply (f_equal fst) in F. unfold cdiv, cmul, cconj, cscale in F. cbn [fst snd] in F.
      set (x1 := sqrt 1 * gamma_p 1 KS_MASS_GEV KS_WIDTH_GEV m mp) in F.
      set (x2 := sqrt (KS_MASS_GEV ^ 2) * gamma_p (KS_MASS_GEV ^ 2) KS_MASS_GEV KS_WIDTH_GEV m mp) in F.
      assert (D : 0 < cabs2 (KS_MASS_GEV ^ 2 - 1, - x1)).
      { unfold cabs2. cbn [fst snd]. assert (0 < (KS_MASS_GEV ^ 2 - 1) ^ 2) by (unfold KS_MASS_GEV; lra). nra. }
      assert (D' : 0 < / cabs2 (KS_MASS_GEV ^ 2 - 1, - x1)) by now apply Rinv_0_lt_compat.
      assert (K2 : 0 < / KS_MASS_GEV ^ 2) by (apply Rinv_0_lt_compat; unfold KS_MASS_GEV; lra).
      assert (K : KS_MASS_GEV ^ 2 < 1) by (unfold KS_MASS_GEV; lra).
      assert (K0 : 0 < KS_MASS_GEV ^ 2) by (unfold KS_MASS_GEV; lra).
      set (M := KS_MASS_GEV ^ 2) in *. set (d := / cabs2 (M - 1, - x1)) in *.
      replace (/ M * (/ cabs2 (M - M, - x2) * (M * (M - M) - 0 * - - x2))) with 0 in F by ring.
      assert (/ M * (d * (M * (M - 1) - 0 * - - x1)) < 0).
      { replace (/ M * (d * (M * (M - 1) - 0 * - - x1))) with (- (/ M * (d * (M * (1 - M))))) by ring.
        assert (0 < / M * (d * (M * (1 - M)))); [|lra].
        apply Rmult_lt_0_compat; [exact K2|]. apply Rmult_lt_0_compat; [exact D'|]. apply Rmult_lt_0_compat; lra. }
      lra.
    + intros Z. apply Hz. apply cabs2_zero.
      replace z with (cscale (/ (k * 2)) (cscale (k * 2) z)).
      * rewrite Z. apply cscale_z.
      * rewrite cscale_scale. replace (/ (k * 2) * (k * 2)) with 1 by (field; exact Hk). apply cscale_1.
  - intros q s s' t. unfold pi_k_k0_ff. rewrite E.
    generalize (cmul (r_coeff r) (breit_wigner_fw (q ^ 2) (r_mass r) (r_width r))). intros z.
    replace (csub z z) with (0, 0) by cring. rewrite cscale_z, !cmul_0_l. reflexivity.
Qed.

(** * Charges *)
Lemma kk_unit neutral first c rho omega phi :
  csum rho = (1, 0) -> csum omega = (1, 0) -> csum phi = (1, 0) ->
  kk_sum neutral first c rho omega phi =
    (if neutral then gd c - (if first then 1.055 else 1) * gs c else gu c - gs c, 0).
Proof.
  intros Hr Ho Hp. unfold kk_sum, vector_couplings_to_isospin.
  destruct neutral, first; cbn [andb]; rewrite ?csum_scale, Hr, Ho, Hp;
    unfold cadd, cscale; cbn [fst snd]; apply cext; cbn [fst snd]; lra.
Qed.

(** A ratio that obeys the recurrence and has the values of the gamma functions at 1 and 2 *)
Definition some_ratio (b : R) : R := c_0_loop (fun b => sqrt PI / 2 * (b - 1)) (Z.to_nat (up b)) 1 b.
Lemma c_0_loop_scale r k : forall a x b, c_0_loop r k (a * x) b = a * c_0_loop r k x b.
Proof.
  induction k as [|k IH]; intros a x b; cbn [c_0_loop]; [ring|].
  destruct (Rlt_dec 2 b); [|ring]. rewrite Rmult_assoc. apply IH.
Qed.
Lemma up_minus_1 b : up (b - 1) = (up b - 1)%Z.
Proof.
  symmetry. apply tech_up; rewrite minus_IZR; destruct (archimed b); lra.
Qed.
Lemma some_ratio_ok : ratio_of_gammas some_ratio.
Proof.
  intros b Hb. unfold some_ratio.
  assert (3 <= up b)%Z.
  { destruct (archimed b) as [H _]. assert (2 < up b)%Z; [|lia]. apply lt_IZR. lra. }
  replace (Z.to_nat (up b)) with (S (Z.to_nat (up (b - 1)))) by (rewrite up_minus_1; lia).
  cbn [c_0_loop]. destruct (Rlt_dec 2 b) as [_|n]; [|contradiction].
  rewrite Rmult_1_l. replace 1.5 with (3 / 2) by lra.
  rewrite <- c_0_loop_scale. f_equal. lra.
Qed.
Lemma some_ratio_low b : b <= 2 -> some_ratio b = sqrt PI / 2 * (b - 1).
Proof.
  intros H. unfold some_ratio. destruct (Z.to_nat (up b)); cbn [c_0_loop]; [ring|].
  destruct (Rlt_dec 2 b); [lra|ring].
Qed.

(** * Propagators *)
(** A resonance of mass [m] and width [w] with sign [e]: purely imaginary with modulus m / w at the mass, and
    above threshold the real part changes sign at the mass and the imaginary part does not *)
Definition resonance (e thr m w : R) (P : R -> cplx) : Prop :=
  P (m ^ 2) = (0, e * (m / w))
  /\ forall s, thr < s -> 0 < e * snd (P s) /\ (s < m ^ 2 -> 0 < e * fst (P s)) /\ (m ^ 2 < s -> e * fst (P s) < 0).
Lemma cdiv_parts n d g : d ^ 2 + g ^ 2 <> 0 ->
  cdiv (n, 0) (d, - g) = (n * d / (d ^ 2 + g ^ 2), n * g / (d ^ 2 + g ^ 2)).
Proof.
  intros H. unfold cdiv, cabs2, cconj, cmul, cscale. cbn [fst snd].
  replace (d ^ 2 + (- g) ^ 2) with (d ^ 2 + g ^ 2) by ring. apply cext; cbn [fst snd]; field; exact H.
Qed.
Lemma resonance_of_width thr m w W : 0 <= thr -> 0 < m -> 0 < w -> W (m ^ 2) = w -> (forall s, thr < s -> 0 < W s) ->
  resonance 1 thr m w (fun s => cdiv (m ^ 2, 0) (m ^ 2 - s, - (sqrt s * W s))).
Proof.
  intros Ht Hm Hw E Hp. assert (M2 : 0 < m ^ 2) by (apply pow_lt; exact Hm). split.
  - rewrite E, sqrt_pow2 by lra. replace (m ^ 2 - m ^ 2) with 0 by ring.
    assert (K : 0 < (m * w) ^ 2) by (apply pow_lt, Rmult_lt_0_compat; lra). rewrite cdiv_parts by lra.
    replace (0 ^ 2 + (m * w) ^ 2) with ((m * w) ^ 2) by ring.
    apply cext; cbn [fst snd]; field; lra.
  - intros s Hs. assert (G : 0 < sqrt s * W s) by (apply Rmult_lt_0_compat; [apply sqrt_lt_R0; lra|now apply Hp]).
    set (g := sqrt s * W s) in *. clearbody g. set (d := m ^ 2 - s).
    assert (D : 0 < d ^ 2 + g ^ 2) by (pose proof (pow2_ge_0 d); nra). rewrite cdiv_parts by lra. cbn [fst snd].
    rewrite !Rmult_1_l. split; [|split].
    + apply Rdiv_lt_0_compat; [now apply Rmult_lt_0_compat|exact D].
    + intros L. apply Rdiv_lt_0_compat; [apply Rmult_lt_0_compat; unfold d; lra|exact D].
    + intros L. assert (0 < m ^ 2 * (- d) / (d ^ 2 + g ^ 2)).
      { apply Rdiv_lt_0_compat; [apply Rmult_lt_0_compat; unfold d; lra|exact D]. }
      replace (m ^ 2 * d / (d ^ 2 + g ^ 2)) with (- (m ^ 2 * (- d) / (d ^ 2 + g ^ 2))) by (field; lra). lra.
Qed.
Lemma resonance_opp e thr m w P : resonance e thr m w P -> resonance (- e) thr m w (fun s => copp (P s)).
Proof.
  intros [H1 H2]. split.
  - rewrite H1. unfold copp. cbn [fst snd]. apply cext; cbn [fst snd]; ring.
  - intros s Hs. destruct (H2 s Hs) as (A & B & C). unfold copp. cbn [fst snd].
    replace (- e * - snd (P s)) with (e * snd (P s)) by ring. replace (- e * - fst (P s)) with (e * fst (P s)) by ring. auto.
Qed.
Lemma resonance_ext e thr m w P Q : (forall s, P s = Q s) -> resonance e thr m w P -> resonance e thr m w Q.
Proof. intros E [H1 H2]. split; [rewrite <- E; exact H1|]. intros s Hs. rewrite <- E. now apply H2. Qed.
Lemma fw_resonance m w : 0 < m -> 0 < w -> resonance 1 0 m w (fun s => breit_wigner_fw s m w).
Proof.
  intros Hm Hw. assert (K : resonance 1 0 m w (fun s => cdiv (m ^ 2, 0) (m ^ 2 - s, - (sqrt s * (m * w / sqrt s))))).
  { apply (resonance_of_width 0 m w (fun s => m * w / sqrt s)); try lra.
    - rewrite sqrt_pow2 by lra. field. lra.
    - intros s Hs. apply Rdiv_lt_0_compat; [apply Rmult_lt_0_compat; lra|now apply sqrt_lt_R0]. }
  destruct K as [K1 K2]. assert (E : forall s, 0 < s -> sqrt s * (m * w / sqrt s) = m * w).
  { intros s Hs. pose proof (sqrt_lt_R0 s Hs). field. lra. }
  split; unfold breit_wigner_fw.
  - rewrite E in K1 by (apply pow_lt; lra). exact K1.
  - intros s Hs. specialize (K2 s Hs). rewrite E in K2 by exact Hs. exact K2.
Qed.
Lemma gamma_p_running m w m1 m2 : 0 < m -> 0 < w -> 0 <= m1 -> 0 <= m2 -> 0 < m1 + m2 -> (m1 + m2) ^ 2 < m ^ 2 ->
  running ((m1 + m2) ^ 2) m w (fun s => gamma_p s m w m1 m2).
Proof.
  intros Hm Hw H1 H2 H12 Ht. assert (T : 0 < (m1 + m2) ^ 2) by (apply pow_lt; exact H12).
  pose proof (vel2_range m1 m2 H1 H2 H12 (m ^ 2) Ht) as V. unfold running, gamma_p.
  rewrite (beta2_vel m1 m2 H1 H2 H12 (m ^ 2) Ht). split; [|split].
  - assert (Z : beta2 ((m1 + m2) ^ 2) m1 m2 = 0).
    { unfold beta2. replace ((m1 + m2) ^ 2 / (m1 + m2) ^ 2) with 1 by (field; lra). rewrite Rmax_left; lra. }
    rewrite Z. replace (0 / vel2 m1 m2 (m ^ 2)) with 0 by (field; lra). rewrite Rmax_left by lra. rewrite sqrt_0. ring.
  - replace (vel2 m1 m2 (m ^ 2) / vel2 m1 m2 (m ^ 2)) with 1 by (field; lra). rewrite Rmax_left by lra.
    rewrite sqrt_1, sqrt_pow2 by lra. field. lra.
  - intros s Hs. rewrite (beta2_vel m1 m2 H1 H2 H12 s Hs). pose proof (vel2_range m1 m2 H1 H2 H12 s Hs) as V2.
    assert (Q : 0 < vel2 m1 m2 s / vel2 m1 m2 (m ^ 2)) by (apply Rdiv_lt_0_compat; lra).
    rewrite Rmax_left by lra. apply Rmult_lt_0_compat; [|exact Hw]. apply Rmult_lt_0_compat.
    + apply Rdiv_lt_0_compat; [apply sqrt_lt_R0; lra|exact Hm].
    + apply pow_lt. now apply sqrt_lt_R0.
Qed.
Lemma bw_rho_resonance m w mj mk : 0 < m -> 0 < w -> 0 < mj -> 0 < mk -> (mj + mk) ^ 2 < m ^ 2 ->
  resonance (-1) ((mj + mk) ^ 2) m w (fun s => bw_rho s m w mj mk).
Proof.
  intros Hm Hw Hj Hk Ht. destruct (gamma_rho_running m w mj mk Hw Hj Hk Ht) as (_ & A & B).
  eapply resonance_ext; [|replace (-1) with (- (1)) by ring; apply resonance_opp, (resonance_of_width _ _ _ (fun s => gamma_rho s m w mj mk))];
    try assumption; [|apply pow2_ge_0].
  intros s. unfold bw_rho, cdiv, cabs2, cconj, copp, cscale, cmul. cbn [fst snd].
  replace ((m ^ 2 - s) ^ 2 + (- (sqrt s * gamma_rho s m w mj mk)) ^ 2) with ((s - m ^ 2) ^ 2 + (sqrt s * gamma_rho s m w mj mk) ^ 2) by ring.
  apply cext; cbn [fst snd]; ring.
Qed.
Lemma bw_grow_resonance m w : 0 < m -> 0 < w -> resonance 1 0 m w (fun s => bw_grow m w s) /\ bw_grow m w 0 = (1, 0).
Proof.
  intros Hm Hw. assert (M2 : 0 < m ^ 2) by (apply pow_lt; exact Hm). split.
  - apply (resonance_of_width 0 m w (fun s => w * s / m ^ 2)); try lra; [field; lra|].
    intros s Hs. apply Rdiv_lt_0_compat; [apply Rmult_lt_0_compat; lra|exact M2].
  - unfold bw_grow. rewrite sqrt_0. replace (- (0 * (w * 0 / m ^ 2))) with 0 by (field; lra).
    replace (m ^ 2 - 0) with (m ^ 2) by ring. apply cdiv_same. unfold cabs2. cbn [fst snd]. nra.
Qed.
