(** Boosts conserve the number of particles and scale their mean energy by the Lorentz factor.

    Specification.  A spectrum [f] in the rest frame of the parent, supported between the mass [m] of the
    particle and [emax], becomes in a frame where the parent moves with velocity [beta]

      F E = integral of  f e / (2 gamma beta p(e))  over  gamma (E - beta p(E)) < e < gamma (E + beta p(E)),

    where p(e) is the momentum of energy e. *)
From Coq Require Import Reals Lra List.
From Verif Require Import Area SpecProofs Primitive.
Import ListNotations.
Local Open Scope R_scope.

Ltac dlp := first
  [ apply dl_const | apply dl_id
  | eapply dl_plus; dlp | eapply dl_minus; dlp | eapply dl_opp; dlp
  | eapply dl_pow; dlp | eapply dl_mult; dlp | eapply dl_div; [dlp|dlp|] ].

Lemma cont_local f g x d : 0 < d -> (forall y, Rabs (y - x) < d -> f y = g y) -> continuity_pt f x -> continuity_pt g x.
Proof.
  intros Hd E C. apply cont_eps. intros eps He. destruct (proj1 (cont_eps f x) C eps He) as (d' & Hd' & D).
  exists (Rmin d d'). split; [apply Rmin_pos; assumption|]. intros y Hy. pose proof (Rmin_l d d'). pose proof (Rmin_r d d').
  rewrite <- (E y) by lra. rewrite <- (E x) by (rewrite Rminus_diag_eq by reflexivity; rewrite Rabs_R0; exact Hd). apply D. lra.
Qed.
Lemma dl_local f g x l d : 0 < d -> (forall y, Rabs (y - x) < d -> f y = g y) -> derivable_pt_lim f x l -> derivable_pt_lim g x l.
Proof.
  intros Hd E D eps He. destruct (D eps He) as [d' D']. assert (Hm : 0 < Rmin d d') by (apply Rmin_pos; [exact Hd|apply cond_pos]).
  exists (mkposreal _ Hm). intros y Hy Hl. cbn in Hl. pose proof (Rmin_l d d'). pose proof (Rmin_r d d').
  rewrite <- (E (x + y)) by (replace (x + y - x) with y by ring; lra).
  rewrite <- (E x) by (rewrite Rminus_diag_eq by reflexivity; rewrite Rabs_R0; exact Hd). apply D'; [exact Hy|lra].
Qed.

(** * Kinematics of the boost *)
Section Boost.
Variables m beta gamma : R.
Hypothesis Hm : 0 <= m.
Hypothesis Hb : 0 < beta < 1.
Hypothesis Hg : 0 < gamma.
Hypothesis Hgb : gamma * gamma * (1 - beta * beta) = 1.

Definition pm (e : R) : R := sqrt (e * e - m * m).
Definition up (e : R) : R := gamma * (e + beta * pm e).
Definition um (e : R) : R := gamma * (e - beta * pm e).
Definition wm (e : R) : R := gamma * (pm e - beta * e).

Lemma pm_nonneg e : 0 <= pm e.
Proof. apply sqrt_pos. Qed.
Lemma pm_sq e : m <= e -> pm e * pm e = e * e - m * m.
Proof. intro H. apply sqrt_def. nra. Qed.
Lemma pm_pos e : m < e -> 0 < pm e.
Proof. intro H. apply sqrt_lt_R0. nra. Qed.
Lemma pm_le e : m <= e -> pm e <= e.
Proof. intro H. pose proof (pm_sq e H). pose proof (pm_nonneg e). nra. Qed.
Lemma pm_mono a b : m <= a <= b -> pm a <= pm b.
Proof. intro H. apply sqrt_le_1_alt. nra. Qed.
Lemma pm_mass : pm m = 0.
Proof. unfold pm. rewrite Rminus_diag_eq by reflexivity. apply sqrt_0. Qed.

Lemma up_sq e : m <= e -> up e * up e - m * m = (gamma * (pm e + beta * e)) ^ 2.
Proof.
  intro H. pose proof (pm_sq e H) as Q. unfold up. set (p := pm e) in *. clearbody p.
  replace (m * m) with (e * e - p * p) by lra.
  transitivity (gamma * gamma * (1 - beta * beta) * (e * e - p * p) + (gamma * (p + beta * e)) ^ 2 - (e * e - p * p)); [ring|rewrite Hgb; ring].
Qed.
Lemma um_sq e : m <= e -> um e * um e - m * m = wm e ^ 2.
Proof.
  intro H. pose proof (pm_sq e H) as Q. unfold um, wm. set (p := pm e) in *. clearbody p.
  replace (m * m) with (e * e - p * p) by lra.
  transitivity (gamma * gamma * (1 - beta * beta) * (e * e - p * p) + (gamma * (p - beta * e)) ^ 2 - (e * e - p * p)); [ring|rewrite Hgb; ring].
Qed.
Lemma pm_up e : m <= e -> pm (up e) = gamma * (pm e + beta * e).
Proof.
  intro H. unfold pm at 1. rewrite up_sq by exact H. apply sqrt_pow2. pose proof (pm_nonneg e).
  apply Rmult_le_pos; [lra|]. assert (0 <= beta * e) by (apply Rmult_le_pos; lra). lra.
Qed.
Lemma pm_um e : m <= e -> pm (um e) = Rabs (wm e).
Proof. intro H. unfold pm at 1. rewrite um_sq by exact H. rewrite <- Rsqr_pow2. apply sqrt_Rsqr_abs. Qed.
Lemma um_nonneg e : m <= e -> 0 <= um e.
Proof. intro H. unfold um. pose proof (pm_le e H). pose proof (pm_nonneg e). apply Rmult_le_pos; [lra|]. nra. Qed.
Lemma um_ge e : m <= e -> m <= um e.
Proof.
  intro H. pose proof (um_sq e H). pose proof (um_nonneg e H). pose proof (pow2_ge_0 (wm e)). nra.
Qed.
Lemma um_le_up e : um e <= up e.
Proof. unfold um, up. pose proof (pm_nonneg e). apply Rmult_le_compat_l; [lra|]. nra. Qed.
Lemma um_lt_up e : m < e -> um e < up e.
Proof. intro H. unfold um, up. pose proof (pm_pos e H). apply Rmult_lt_compat_l; [lra|]. nra. Qed.
Lemma up_gt e : m < e -> m < up e.
Proof. intro H. pose proof (um_ge e ltac:(lra)). pose proof (um_lt_up e H). lra. Qed.
Lemma e_up e : m <= e -> e = gamma * (up e - beta * pm (up e)).
Proof.
  intro H. rewrite pm_up by exact H. unfold up. set (p := pm e).
  transitivity (gamma * gamma * (1 - beta * beta) * e); [rewrite Hgb; ring|ring].
Qed.
Lemma e_um e : e = gamma * (um e + beta * wm e).
Proof.
  unfold um, wm. set (p := pm e). transitivity (gamma * gamma * (1 - beta * beta) * e); [rewrite Hgb; ring|ring].
Qed.
Lemma um_mass_iff e : m <= e -> (um e = m <-> wm e = 0).
Proof.
  intro H. pose proof (um_sq e H) as Q. pose proof (um_nonneg e H). split; intro E.
  - rewrite E in Q. assert (wm e ^ 2 = 0) by lra. apply (Rsqr_0_uniq (wm e)). rewrite Rsqr_pow2. assumption.
  - rewrite E in Q. nra.
Qed.

(** above the boosted end point the window lies above the end point *)
Lemma um_end X emax : m <= emax -> gamma * (emax + beta * pm emax) <= X -> emax <= um X /\ 0 <= wm X.
Proof.
  intros He HX.
  assert (M1 : m <= gamma * (emax + beta * pm emax)).
  { change (m <= up emax). pose proof (um_ge emax He). pose proof (um_le_up emax). lra. }
  assert (Mx : m <= X) by lra.
  set (E := up emax). assert (Em : m <= E <= X) by (unfold E; split; [exact M1|exact HX]).
    assert (P1 : pm E = gamma * (pm emax + beta * emax)) by (apply pm_up; exact He).
    assert (W1 : wm E = pm emax).
    { unfold wm. rewrite P1. unfold E, up. transitivity (gamma * gamma * (1 - beta * beta) * pm emax); [ring|rewrite Hgb; ring]. }
    assert (V : wm E <= wm X).
    { unfold wm. apply Rmult_le_compat_l; [lra|].
      (* pm X - pm E >= X - E when E <= X *)
      pose proof (pm_sq E ltac:(lra)) as Q1. pose proof (pm_sq X ltac:(lra)) as Q2. pose proof (pm_nonneg E). pose proof (pm_nonneg X).
      pose proof (pm_le E ltac:(lra)). pose proof (pm_le X ltac:(lra)).
      assert (X - E <= pm X - pm E).
      { destruct (Rle_lt_dec (X - E) (pm X - pm E)) as [|L]; [assumption|exfalso].
        assert (pm X < X - E + pm E) by lra. assert (Lq : pm X * pm X < (X - E + pm E) * (X - E + pm E) \/ X - E + pm E <= 0) by (destruct (Rle_lt_dec (X - E + pm E) 0); [right; assumption|left; nra]).
        destruct Lq as [L2|L2]; nra. }
      nra. }
    assert (W2 : 0 <= wm X) by (rewrite W1 in V; pose proof (pm_nonneg emax); lra).
    split; [|exact W2]. pose proof (um_sq X Mx) as Q1. pose proof (um_nonneg X Mx). pose proof (pm_sq emax He) as Q2. pose proof (pm_nonneg emax). nra.
Qed.

(** Continuity and derivatives *)
Lemma pm_cont e : m <= e -> continuity_pt pm e.
Proof.
  intro H. unfold pm. apply (continuity_pt_comp (fun e => e * e - m * m) sqrt).
  - apply derivable_continuous_pt. eexists. apply dl_minus; [apply dl_mult; apply dl_id|apply (dl_const (m * m))].
  - apply continuity_pt_sqrt. nra.
Qed.
Lemma pm_dl e : m < e -> derivable_pt_lim pm e (e / pm e).
Proof.
  intro H. pose proof (pm_pos e H). unfold pm. eapply dl_val.
  - apply dl_sqrt; [apply dl_minus; [apply dl_mult; apply dl_id|apply (dl_const (m * m))]|nra].
  - cbv beta. fold (pm e). field. lra.
Qed.
Lemma id_cont e : continuity_pt (fun e => e) e.
Proof. apply derivable_continuous_pt. eexists. apply dl_id. Qed.
Lemma const_cont c e : continuity_pt (fun _ => c) e.
Proof. apply derivable_continuous_pt. eexists. apply (dl_const c). Qed.
Lemma scaled_cont c f e : continuity_pt f e -> continuity_pt (fun y => c * f y) e.
Proof. intro C. exact (continuity_pt_mult (fun _ => c) f e (const_cont c e) C). Qed.
Lemma up_cont e : m <= e -> continuity_pt up e.
Proof.
  intro H. unfold up. apply scaled_cont. apply (continuity_pt_plus (fun e => e) (fun e => beta * pm e)); [apply id_cont|].
  apply scaled_cont. now apply pm_cont.
Qed.
Lemma um_cont e : m <= e -> continuity_pt um e.
Proof.
  intro H. unfold um. apply scaled_cont. apply (continuity_pt_minus (fun e => e) (fun e => beta * pm e)); [apply id_cont|].
  apply scaled_cont. now apply pm_cont.
Qed.
Lemma wm_cont e : m <= e -> continuity_pt wm e.
Proof.
  intro H. unfold wm. apply scaled_cont. apply (continuity_pt_minus pm (fun e => beta * e)); [now apply pm_cont|].
  apply scaled_cont. apply id_cont.
Qed.
Lemma up_dl e : m < e -> derivable_pt_lim up e (pm (up e) / pm e).
Proof.
  intro H. pose proof (pm_pos e H). unfold up at 1. eapply dl_val.
  - apply dl_mult; [apply (dl_const gamma)|]. apply dl_plus; [apply dl_id|]. apply dl_mult; [apply (dl_const beta)|apply pm_dl; exact H].
  - rewrite pm_up by lra. field. lra.
Qed.
Lemma um_dl e : m < e -> derivable_pt_lim um e (wm e / pm e).
Proof.
  intro H. pose proof (pm_pos e H). unfold um at 1. eapply dl_val.
  - apply dl_mult; [apply (dl_const gamma)|]. apply dl_minus; [apply dl_id|]. apply dl_mult; [apply (dl_const beta)|apply pm_dl; exact H].
  - unfold wm. field. lra.
Qed.

(** * The moments of a boosted spectrum *)
Section Moments.
(** [h] is the spectrum over the momentum, [H] its antiderivative; [Wt] is an antiderivative of the weight;
    [Wt] of the two energies that boost to [u] splits into an even part [a] and an odd part [phi] *)
Variables (H A Phi h a phi Wt w : R -> R) (l : list R) (tot : R).
Hypothesis H_cont : forall u, m <= u -> continuity_pt H u.
Hypothesis A_cont : forall u, m <= u -> continuity_pt A u.
Hypothesis Phi_cont : forall u, m <= u -> continuity_pt Phi u.
Hypothesis H_dl : forall u, m < u -> ~ In u l -> derivable_pt_lim H u (h u).
Hypothesis A_dl : forall u, m < u -> ~ In u l -> derivable_pt_lim A u (a u).
Hypothesis Phi_dl : forall u, m < u -> ~ In u l -> derivable_pt_lim Phi u (phi u).
Hypothesis W_dl : forall e, derivable_pt_lim Wt e (w e).
Hypothesis split_minus : forall u, m < u -> ~ In u l -> Wt (gamma * (u - beta * pm u)) * h u = a u - phi u.
Hypothesis split_plus : forall u, m < u -> ~ In u l -> Wt (gamma * (u + beta * pm u)) * h u = a u + phi u.
Hypothesis Phi_mass : Phi m = 0.

Definition signed (e : R) : R := if Rle_dec 0 (wm e) then Phi (um e) else - Phi (um e).
Definition moment (e : R) : R := Wt e * (H (up e) - H (um e)) - A (up e) + A (um e) + Phi (up e) + signed e.

Lemma comp_cont F g e : continuity_pt g e -> continuity_pt F (g e) -> continuity_pt (fun y => F (g y)) e.
Proof. intros C1 C2. exact (continuity_pt_comp g F e C1 C2). Qed.
Lemma signed_cont e : m <= e -> continuity_pt signed e.
Proof.
  intro He. assert (C : continuity_pt (fun y => Phi (um y)) e) by (apply comp_cont; [now apply um_cont|apply Phi_cont, um_ge, He]).
  pose proof (wm_cont e He) as Cw.
  destruct (Req_dec (wm e) 0) as [Z|NZ].
  - assert (U : um e = m) by (apply um_mass_iff; assumption).
    apply cont_eps. intros eps Hp. destruct (proj1 (cont_eps _ _) C eps Hp) as (d & Hd & D). exists d. split; [exact Hd|].
    intros y Hy. specialize (D y Hy). cbv beta in D. rewrite U, Phi_mass in D. rewrite Rminus_0_r in D.
    assert (S0 : signed e = 0) by (unfold signed; rewrite U, Phi_mass; destruct (Rle_dec 0 (wm e)); lra).
    rewrite S0, Rminus_0_r. unfold signed. destruct (Rle_dec 0 (wm y)); [exact D|rewrite Rabs_Ropp; exact D].
  - destruct (proj1 (cont_eps _ _) Cw (Rabs (wm e)) (Rabs_pos_lt _ NZ)) as (d & Hd & D).
    destruct (Rlt_le_dec 0 (wm e)) as [P|P].
    + apply (cont_local (fun y => Phi (um y)) _ e d); [exact Hd| |exact C]. intros y Hy. specialize (D y Hy).
      unfold signed. destruct (Rle_dec 0 (wm y)) as [|N]; [reflexivity|]. exfalso. apply N. rewrite (Rabs_pos_eq (wm e)) in D by lra.
      apply Rabs_def2 in D. lra.
    + apply (cont_local (fun y => - Phi (um y)) _ e d); [exact Hd| |exact (continuity_pt_opp _ _ C)]. intros y Hy. specialize (D y Hy).
      unfold signed. destruct (Rle_dec 0 (wm y)) as [N|]; [|reflexivity]. exfalso. rewrite (Rabs_left (wm e)) in D by lra.
      apply Rabs_def2 in D. lra.
Qed.
Lemma moment_cont e : m <= e -> continuity_pt moment e.
Proof.
  intro He. pose proof (um_ge e He) as U1. assert (U2 : m <= up e) by (pose proof (um_le_up e); lra).
  pose proof (um_cont e He). pose proof (up_cont e He). unfold moment.
  apply (continuity_pt_plus (fun e => Wt e * (H (up e) - H (um e)) - A (up e) + A (um e) + Phi (up e)) signed); [|now apply signed_cont].
  apply (continuity_pt_plus (fun e => Wt e * (H (up e) - H (um e)) - A (up e) + A (um e)) (fun e => Phi (up e))); [|apply comp_cont; auto].
  apply (continuity_pt_plus (fun e => Wt e * (H (up e) - H (um e)) - A (up e)) (fun e => A (um e))); [|apply comp_cont; auto].
  apply (continuity_pt_minus (fun e => Wt e * (H (up e) - H (um e))) (fun e => A (up e))); [|apply comp_cont; auto].
  apply (continuity_pt_mult Wt (fun e => H (up e) - H (um e))).
  - apply derivable_continuous_pt. eexists. apply W_dl.
  - apply (continuity_pt_minus (fun e => H (up e)) (fun e => H (um e))); apply comp_cont; auto.
Qed.
Lemma signed_dl e : m < e -> wm e <> 0 -> ~ In (um e) l ->
  derivable_pt_lim signed e ((if Rle_dec 0 (wm e) then 1 else -1) * (phi (um e) * (wm e / pm e))).
Proof.
  intros He NZ Hn.
  assert (Um : m < um e).
  { destruct (um_ge e ltac:(lra)) as [L|L]; [exact L|]. exfalso. apply NZ. apply um_mass_iff; [lra|congruence]. }
  assert (D0 : derivable_pt_lim (fun y => Phi (um y)) e (phi (um e) * (wm e / pm e))).
  { apply (dl_comp um Phi); [now apply um_dl|now apply Phi_dl]. }
  destruct (proj1 (cont_eps _ _) (wm_cont e ltac:(lra)) (Rabs (wm e)) (Rabs_pos_lt _ NZ)) as (d & Hd & D).
  destruct (Rle_dec 0 (wm e)) as [P|P].
  - apply (dl_local (fun y => Phi (um y)) _ e _ d); [exact Hd| |eapply dl_val; [exact D0|ring]]. intros y Hy. specialize (D y Hy).
    unfold signed. destruct (Rle_dec 0 (wm y)) as [|N]; [reflexivity|]. exfalso. apply N. rewrite (Rabs_pos_eq (wm e)) in D by lra.
    apply Rabs_def2 in D. lra.
  - apply (dl_local (fun y => - Phi (um y)) _ e _ d); [exact Hd| |eapply dl_val; [apply dl_opp; exact D0|ring]]. intros y Hy. specialize (D y Hy).
    unfold signed. destruct (Rle_dec 0 (wm y)) as [N|]; [|reflexivity]. exfalso. rewrite (Rabs_left (wm e)) in D by lra.
    apply Rabs_def2 in D. lra.
Qed.
Lemma moment_dl e : m < e -> wm e <> 0 -> ~ In (up e) l -> ~ In (um e) l ->
  derivable_pt_lim moment e (w e * (H (up e) - H (um e))).
Proof.
  intros He NZ N1 N2. pose proof (pm_pos e He) as Pp. pose proof (up_gt e He) as Up.
  assert (Um : m < um e).
  { destruct (um_ge e ltac:(lra)) as [L|L]; [exact L|]. exfalso. apply NZ. apply um_mass_iff; [lra|congruence]. }
  unfold moment. eapply dl_val.
  - apply dl_plus; [|apply signed_dl; assumption]. apply dl_plus; [|apply (dl_comp up Phi); [now apply up_dl|now apply Phi_dl]].
    apply dl_plus; [|apply (dl_comp um A); [now apply um_dl|now apply A_dl]].
    apply dl_minus; [|apply (dl_comp up A); [now apply up_dl|now apply A_dl]].
    apply dl_mult; [apply W_dl|]. apply dl_minus; [apply (dl_comp up H); [now apply up_dl|now apply H_dl]|apply (dl_comp um H); [now apply um_dl|now apply H_dl]].
  - cbv beta. pose proof (split_minus (up e) Up N1) as Sp. rewrite <- e_up in Sp by lra.
    assert (Sm : Wt e * h (um e) = a (um e) + (if Rle_dec 0 (wm e) then 1 else -1) * phi (um e)).
    { pose proof (pm_um e ltac:(lra)) as Q. pose proof (e_um e) as Ee. destruct (Rle_dec 0 (wm e)) as [P|P].
      - rewrite Rabs_pos_eq in Q by exact P. pose proof (split_plus (um e) Um N2) as Sm. rewrite Q, <- Ee in Sm. lra.
      - rewrite Rabs_left in Q by lra. pose proof (split_minus (um e) Um N2) as Sm. rewrite Q in Sm.
        replace (gamma * (um e - beta * - wm e)) with e in Sm by (rewrite Ee at 1; ring). lra. }
    set (s := if Rle_dec 0 (wm e) then 1 else -1) in *. clearbody s.
    transitivity (w e * (H (up e) - H (um e)) + pm (up e) / pm e * (Wt e * h (up e) - a (up e) + phi (up e))
                  - wm e / pm e * (Wt e * h (um e) - a (um e) - s * phi (um e))); [ring|rewrite Sp, Sm; ring].
Qed.

(** The exceptional energies *)
Definition preimages : list R := flat_map (fun u => [gamma * (u - beta * pm u); gamma * (u + beta * pm u)]) (m :: l).
Lemma not_exceptional e : m < e -> ~ In e preimages -> wm e <> 0 /\ ~ In (up e) l /\ ~ In (um e) l.
Proof.
  intros He N. unfold preimages in N.
  assert (K : forall u, In u (m :: l) -> e <> gamma * (u - beta * pm u) /\ e <> gamma * (u + beta * pm u)).
  { intros u Hu. split; intro E; apply N; apply in_flat_map; exists u; (split; [exact Hu|]); rewrite E; cbn; tauto. }
  repeat split.
  - intro Z. apply um_mass_iff in Z; [|lra]. destruct (K m ltac:(left; reflexivity)) as [K1 _]. rewrite pm_mass in K1. apply K1.
    pose proof (e_um e) as Ee. assert (Zw : wm e = 0) by (apply um_mass_iff; [lra|exact Z]). rewrite Z, Zw in Ee. rewrite Ee at 1. ring.
  - intro I. destruct (K (up e) ltac:(right; exact I)) as [K1 _]. apply K1. apply e_up. lra.
  - intro I. destruct (K (um e) ltac:(right; exact I)) as [K1 K2]. pose proof (pm_um e ltac:(lra)) as Q. pose proof (e_um e) as Ee.
    destruct (Rle_lt_dec 0 (wm e)) as [P|P].
    + rewrite Rabs_pos_eq in Q by exact P. apply K2. rewrite Q. exact Ee.
    + rewrite Rabs_left in Q by exact P. apply K1. rewrite Q. rewrite Ee at 1. ring.
Qed.

Lemma moment_area F X : m <= X -> (forall e, m < e < X -> F e = w e * (H (up e) - H (um e))) ->
  area F m X (moment X - moment m).
Proof.
  intros HX E. exists moment. split; [|split; [|reflexivity]].
  - intros e He. apply moment_cont. lra.
  - exists preimages. intros e He Hn. destruct (not_exceptional e ltac:(lra) Hn) as (N1 & N2 & N3). rewrite E by exact He.
    now apply moment_dl.
Qed.
Lemma moment_mass : moment m = 0.
Proof.
  unfold moment. assert (E1 : up m = gamma * m) by (unfold up; rewrite pm_mass; ring).
  assert (E2 : um m = gamma * m) by (unfold um; rewrite pm_mass; ring). rewrite E1, E2. unfold signed.
  destruct (Rle_dec 0 (wm m)) as [P|P]; rewrite E2; [|ring].
  unfold wm in P. rewrite pm_mass in P.
  assert (M0 : m = 0). { destruct Hm as [L|L]; [|lra]. exfalso. assert (0 < gamma * (beta * m)) by (repeat apply Rmult_lt_0_compat; lra). lra. }
  assert (Z : gamma * m = m) by (rewrite M0; ring). rewrite Z, Phi_mass. ring.
Qed.
Lemma moment_end X emax : m <= emax -> gamma * (emax + beta * pm emax) <= X ->
  (forall u, emax <= u -> H u = H emax /\ A u = A emax /\ Phi u = tot) -> moment X = 2 * tot.
Proof.
  intros He HX K. pose proof (um_end X emax He HX) as Uw.
  destruct Uw as [U1 U2]. pose proof (um_le_up X) as U3.
  destruct (K (um X) U1) as (K1 & K2 & K3). destruct (K (up X) ltac:(lra)) as (K4 & K5 & K6).
  unfold moment, signed. destruct (Rle_dec 0 (wm X)); [|contradiction]. rewrite K1, K2, K3, K4, K5, K6. ring.
Qed.
End Moments.
End Boost.

(** * Antiderivatives that are constant above the end point of the spectrum *)
Definition tail_antiderivative (m emax : R) (f G : R -> R) (l : list R) (v : R) : Prop :=
  (forall u, m <= u -> continuity_pt G u) /\ (forall u, m < u -> ~ In u l -> derivable_pt_lim G u (f u))
  /\ G m = 0 /\ (forall u, emax <= u -> G u = v).
Lemma tail_antiderivative_exists m emax f v : m <= emax -> (forall u, emax < u -> f u = 0) -> area f m emax v ->
  exists G l, tail_antiderivative m emax f G l v.
Proof.
  intros Hm Z (G & C & (l & D) & V). exists (fun u => G (Rmin u emax) - G m), (emax :: l).
  assert (Cm : forall u, continuity_pt (fun u => Rmin u emax) u).
  { intro u. apply cont_eps. intros eps He. exists eps. split; [exact He|]. intros y Hy. unfold Rmin.
    unfold Rabs in *. destruct (Rle_dec y emax), (Rle_dec u emax), (Rcase_abs (y - u)); repeat match goal with |- context [Rcase_abs ?z] => destruct (Rcase_abs z) end; lra. }
  repeat split.
  - intros u Hu. apply (continuity_pt_minus (fun u => G (Rmin u emax)) (fun _ => G m)); [|apply const_cont].
    apply (continuity_pt_comp (fun u => Rmin u emax) G); [apply Cm|]. apply C. unfold Rmin. destruct (Rle_dec u emax); lra.
  - intros u Hu Hn. assert (Ne : u <> emax) by (intro E; apply Hn; left; congruence).
    eapply dl_val; [apply dl_minus; [|apply (dl_const (G m))]|apply Rminus_0_r].
    destruct (Rlt_le_dec u emax) as [L|L].
    + apply (dl_local G _ u _ (emax - u)); [lra| |apply D; [lra|intro I; apply Hn; right; exact I]].
      intros y Hy. rewrite Rmin_left; [reflexivity|]. apply Rabs_def2 in Hy. lra.
    + rewrite Z by lra. apply (dl_local (fun _ => G emax) _ u _ (u - emax)); [lra| |apply (dl_const (G emax))].
      intros y Hy. rewrite Rmin_right; [reflexivity|]. apply Rabs_def2 in Hy. lra.
  - rewrite Rmin_left by exact Hm. ring.
  - intros u Hu. rewrite Rmin_right by exact Hu. exact V.
Qed.
Lemma area_times_id f a b v : a <= b -> area f a b v -> exists w, area (fun u => u * f u) a b w.
Proof.
  intros Hab (G & C & (l & D) & V). destruct (cont_primitive G a b Hab C) as (P & DP).
  exists (b * G b - P b - (a * G a - P a)). exists (fun u => u * G u - P u). split; [|split; [|reflexivity]].
  - intros x Hx. apply (continuity_pt_minus (fun u => u * G u) P); [|apply derivable_continuous_pt; eexists; apply DP; exact Hx].
    apply (continuity_pt_mult (fun u => u) G); [apply id_cont|now apply C].
  - exists l. intros x Hx Hn. eapply dl_val; [apply dl_minus; [apply dl_mult; [apply dl_id|apply D; assumption]|apply DP; lra]|cbv beta; lra].
Qed.

(** * The two conservation laws *)
Section Laws.
Variables m beta gamma : R.
Hypothesis Hm : 0 <= m.
Hypothesis Hb : 0 < beta < 1.
Hypothesis Hg : 0 < gamma.
Hypothesis Hgb : gamma * gamma * (1 - beta * beta) = 1.
Variables (f F : R -> R) (emax vh : R).
Hypothesis He : m <= emax.
Hypothesis f_end : forall u, emax < u -> f u = 0.
Hypothesis f_mom : area (fun u => f u / pm m u) m emax vh.
Hypothesis boosted : forall e, m < e ->
  area (fun u => f u / (2 * gamma * beta * pm m u)) (um m beta gamma e) (up m beta gamma e) (F e).

Lemma boosted_value H l e : (forall u, m <= u -> continuity_pt H u) ->
  (forall u, m < u -> ~ In u l -> derivable_pt_lim H u (f u / pm m u)) -> m < e ->
  F e = / (2 * gamma * beta) * (H (up m beta gamma e) - H (um m beta gamma e)).
Proof.
  intros C D Hl. pose proof (um_ge m beta gamma Hm Hb Hg Hgb e ltac:(lra)) as U1.
  pose proof (um_le_up m beta gamma Hb Hg e) as U2.
  refine (area_unique _ _ _ _ _ U2 (boosted e Hl) _).
  refine (area_ext (fun u => / (2 * gamma * beta) * (f u / pm m u)) _ _ _ _ [] _ _).
  - intros u Hu _. pose proof (pm_pos m Hm u ltac:(lra)). field. lra.
  - apply area_scale. exists H. split; [|split; [|reflexivity]].
    + intros u Hu. apply C. lra.
    + exists l. intros u Hu Hn. apply D; [lra|exact Hn].
Qed.

Lemma number_law n X : area f m emax n -> gamma * (emax + beta * pm m emax) <= X -> area F m X n.
Proof.
  intros An HX.
  destruct (tail_antiderivative_exists m emax (fun u => f u / pm m u) vh He ltac:(intros u Hu; cbv beta; rewrite (f_end u Hu); unfold Rdiv; ring) f_mom)
    as (H & l1 & C1 & D1 & M1 & T1).
  destruct (area_times_id _ _ _ _ He f_mom) as [va Aa].
  destruct (tail_antiderivative_exists m emax (fun u => u * (f u / pm m u)) va He ltac:(intros u Hu; cbv beta; rewrite (f_end u Hu); unfold Rdiv; ring) Aa)
    as (A & l2 & C2 & D2 & M2 & T2).
  destruct (tail_antiderivative_exists m emax _ n He f_end An) as (Phi & l3 & C3 & D3 & M3 & T3).
  set (l := l1 ++ l2 ++ l3).
  assert (N : forall u, ~ In u l -> ~ In u l1 /\ ~ In u l2 /\ ~ In u l3) by (intro u; unfold l; rewrite !in_app_iff; tauto).
  assert (Mx : m <= X).
  { pose proof (um_ge m beta gamma Hm Hb Hg Hgb emax He). pose proof (um_le_up m beta gamma Hb Hg emax). unfold up in *. lra. }
  pose (Ag := fun u => gamma * A u). pose (Pg := fun u => gamma * beta * Phi u).
  assert (Area : area (fun e => 1 * (H (up m beta gamma e) - H (um m beta gamma e))) m X (2 * (gamma * beta * n))).
  { rewrite <- (moment_end m beta gamma Hm Hb Hg Hgb H Ag Pg (fun e => e) (gamma * beta * n) X emax He HX)
      by (intros u Hu; unfold Ag, Pg; rewrite T1, (T1 emax), T2, (T2 emax), T3 by lra; auto).
    apply (area_val _ _ _ (moment m beta gamma H Ag Pg (fun e => e) X - moment m beta gamma H Ag Pg (fun e => e) m)).
    { rewrite (moment_mass m beta gamma Hm Hb Hg H Ag Pg (fun e => e)); [ring|unfold Pg; rewrite M3; ring]. }
    apply (moment_area m beta gamma Hm Hb Hg Hgb H Ag Pg (fun u => f u / pm m u) (fun u => gamma * (u * (f u / pm m u)))
             (fun u => gamma * beta * f u) (fun e => e) (fun _ => 1) l).
    - exact C1.
    - intros u Hu. apply scaled_cont. now apply C2.
    - intros u Hu. apply scaled_cont. now apply C3.
    - intros u Hu Hn. apply D1; [exact Hu|apply (N u Hn)].
    - intros u Hu Hn. eapply dl_val; [apply dl_mult; [apply (dl_const gamma)|apply D2; [exact Hu|apply (N u Hn)]]|cbv beta; ring].
    - intros u Hu Hn. eapply dl_val; [apply dl_mult; [apply (dl_const (gamma * beta))|apply D3; [exact Hu|apply (N u Hn)]]|cbv beta; ring].
    - intro e. apply dl_id.
    - intros u Hu Hn. pose proof (pm_pos m Hm u Hu). field. lra.
    - intros u Hu Hn. pose proof (pm_pos m Hm u Hu). field. lra.
    - unfold Pg. rewrite M3. ring.
    - exact Mx.
    - reflexivity. }
  apply (area_val _ _ _ (/ (2 * gamma * beta) * (2 * (gamma * beta * n)))); [field; lra|].
  refine (area_ext _ _ _ _ _ [] _ (area_scale (/ (2 * gamma * beta)) _ _ _ _ Area)).
  intros e Hx _. cbv beta. rewrite (boosted_value H l1 e C1 D1 ltac:(lra)). ring.
Qed.

Lemma energy_law ne X : area (fun u => u * f u) m emax ne -> gamma * (emax + beta * pm m emax) <= X ->
  area (fun e => e * F e) m X (gamma * ne).
Proof.
  intros An HX.
  destruct (tail_antiderivative_exists m emax (fun u => f u / pm m u) vh He ltac:(intros u Hu; cbv beta; rewrite (f_end u Hu); unfold Rdiv; ring) f_mom)
    as (H & l1 & C1 & D1 & M1 & T1).
  destruct (area_times_id _ _ _ _ He f_mom) as [va Aa]. destruct (area_times_id _ _ _ _ He Aa) as [vb Ab].
  destruct (tail_antiderivative_exists m emax (fun u => u * (u * (f u / pm m u))) vb He ltac:(intros u Hu; cbv beta; rewrite (f_end u Hu); unfold Rdiv; ring) Ab)
    as (A & l2 & C2 & D2 & M2 & T2).
  destruct (tail_antiderivative_exists m emax (fun u => u * f u) ne He ltac:(intros u Hu; cbv beta; rewrite (f_end u Hu); ring) An) as (Phi & l3 & C3 & D3 & M3 & T3).
  set (l := l1 ++ l2 ++ l3).
  assert (N : forall u, ~ In u l -> ~ In u l1 /\ ~ In u l2 /\ ~ In u l3) by (intro u; unfold l; rewrite !in_app_iff; tauto).
  assert (Mx : m <= X).
  { pose proof (um_ge m beta gamma Hm Hb Hg Hgb emax He). pose proof (um_le_up m beta gamma Hb Hg emax). unfold up in *. lra. }
  pose (ka := gamma * gamma * (1 + beta * beta) / 2). pose (kb := - (gamma * gamma * (beta * beta) * (m * m) / 2)).
  pose (kp := gamma * gamma * beta).
  pose (Ag := fun u => ka * A u + kb * H u). pose (Pg := fun u => kp * Phi u). pose (Wt := fun e => / 2 * (e * e)).
  assert (Area : area (fun e => e * (H (up m beta gamma e) - H (um m beta gamma e))) m X (2 * (kp * ne))).
  { rewrite <- (moment_end m beta gamma Hm Hb Hg Hgb H Ag Pg Wt (kp * ne) X emax He HX)
      by (intros u Hu; unfold Ag, Pg; rewrite T1, (T1 emax), T2, (T2 emax), T3 by lra; auto).
    apply (area_val _ _ _ (moment m beta gamma H Ag Pg Wt X - moment m beta gamma H Ag Pg Wt m)).
    { rewrite (moment_mass m beta gamma Hm Hb Hg H Ag Pg Wt); [ring|unfold Pg; rewrite M3; ring]. }
    apply (moment_area m beta gamma Hm Hb Hg Hgb H Ag Pg (fun u => f u / pm m u) (fun u => ka * (u * (u * (f u / pm m u))) + kb * (f u / pm m u))
             (fun u => kp * (u * f u)) Wt (fun e => e) l).
    - exact C1.
    - intros u Hu. apply (continuity_pt_plus (fun u => ka * A u) (fun u => kb * H u)); apply scaled_cont; [now apply C2|now apply C1].
    - intros u Hu. apply scaled_cont. now apply C3.
    - intros u Hu Hn. apply D1; [exact Hu|apply (N u Hn)].
    - intros u Hu Hn. eapply dl_val; [apply dl_plus; [apply dl_mult; [apply (dl_const ka)|apply D2; [exact Hu|apply (N u Hn)]]|
        apply dl_mult; [apply (dl_const kb)|apply D1; [exact Hu|apply (N u Hn)]]]|cbv beta; ring].
    - intros u Hu Hn. eapply dl_val; [apply dl_mult; [apply (dl_const kp)|apply D3; [exact Hu|apply (N u Hn)]]|cbv beta; ring].
    - intro e. unfold Wt. eapply dl_val; [apply dl_mult; [apply (dl_const (/ 2))|apply dl_mult; apply dl_id]|cbv beta; field].
    - intros u Hu Hn. pose proof (pm_pos m Hm u Hu) as P. pose proof (pm_sq m Hm u ltac:(lra)) as Q. unfold Wt, ka, kb, kp.
      set (p := pm m u) in *. clearbody p. replace (m * m) with (u * u - p * p) by lra. field. lra.
    - intros u Hu Hn. pose proof (pm_pos m Hm u Hu) as P. pose proof (pm_sq m Hm u ltac:(lra)) as Q. unfold Wt, ka, kb, kp.
      set (p := pm m u) in *. clearbody p. replace (m * m) with (u * u - p * p) by lra. field. lra.
    - unfold Pg. rewrite M3. ring.
    - exact Mx.
    - reflexivity. }
  apply (area_val _ _ _ (/ (2 * gamma * beta) * (2 * (kp * ne)))); [unfold kp; field; lra|].
  refine (area_ext _ _ _ _ _ [] _ (area_scale (/ (2 * gamma * beta)) _ _ _ _ Area)).
  intros e Hx _. cbv beta. rewrite (boosted_value H l1 e C1 D1 ltac:(lra)). ring.
Qed.
End Laws.

(** * Boosting twice: the hypotheses of the two laws are preserved *)
Lemma exp_cont t : continuity_pt exp t.
Proof. apply derivable_continuous_pt. eexists. apply derivable_pt_lim_exp. Qed.
Lemma area_over_momentum m b g : 0 < m <= b -> (forall e, m <= e -> continuity_pt g e) -> exists v, area (fun e => g e / pm m e) m b v.
Proof.
  intros Hm C. set (ch := fun t => m / 2 * (exp t + exp (- t))). set (eta := fun e => ln ((e + pm m e) / m)).
  assert (Cch : forall t, continuity_pt ch t).
  { intro t. unfold ch. apply scaled_cont. apply (continuity_pt_plus exp (fun t => exp (- t))); [apply exp_cont|].
    apply (continuity_pt_comp (fun t => - t) exp); [apply (continuity_pt_opp (fun t => t)), id_cont|apply exp_cont]. }
  assert (Lch : forall t, m <= ch t).
  { intro t. unfold ch. pose proof (exp_pos t) as E1. pose proof (exp_pos (- t)) as E2.
    assert (E3 : exp t * exp (- t) = 1) by (rewrite <- exp_plus, Rplus_opp_r; apply exp_0).
    assert (2 <= exp t + exp (- t)) by (set (a := exp t) in *; set (c := exp (- t)) in *; clearbody a c; pose proof (pow2_ge_0 (a - c)); nra).
    assert (0 < m / 2) by lra. nra. }
  assert (Ech : forall e, m <= e -> 0 < (e + pm m e) / m /\ ch (eta e) = e).
  { intros e He. pose proof (pm_nonneg m e) as P. pose proof (pm_sq m ltac:(lra) e He) as Q.
    assert (Z : 0 < (e + pm m e) / m) by (apply Rdiv_lt_0_compat; lra). split; [exact Z|].
    unfold ch, eta. rewrite exp_Ropp, exp_ln by exact Z. set (p := pm m e) in *. clearbody p.
    transitivity ((e + p + m * m / (e + p)) / 2); [field; lra|]. replace (m * m) with ((e - p) * (e + p)) by lra. field. lra. }
  destruct (cont_primitive (fun t => g (ch t)) 0 (Rmax 0 (eta b)) (Rmax_l _ _)) as [Q DQ].
  { intros t _. apply (continuity_pt_comp ch g); [apply Cch|apply C, Lch]. }
  assert (Ran : forall e, m <= e <= b -> 0 <= eta e <= Rmax 0 (eta b)).
  { intros e He. destruct (Ech e ltac:(lra)) as [Z _]. unfold eta. split.
    - rewrite <- ln_1. assert (1 <= (e + pm m e) / m).
      { apply (Rmult_le_reg_r m); [lra|]. unfold Rdiv. rewrite Rmult_assoc, Rinv_l by lra. pose proof (pm_nonneg m e). lra. }
      destruct H as [L|L]; [left; apply ln_increasing; lra|right; now rewrite <- L].
    - eapply Rle_trans; [|apply Rmax_r]. pose proof (pm_mono m ltac:(lra) e b ltac:(lra)).
      assert (L : (e + pm m e) / m <= (b + pm m b) / m) by (apply Rmult_le_compat_r; [left; apply Rinv_0_lt_compat|]; lra).
      destruct L as [L|L]; [left; apply ln_increasing; lra|right; now rewrite L]. }
  assert (Ceta : forall e, m <= e -> continuity_pt (fun e => (e + pm m e) / m) e).
  { intros e He. unfold Rdiv. apply (continuity_pt_mult (fun e => e + pm m e) (fun _ => / m)); [|apply const_cont].
    apply (continuity_pt_plus (fun e => e) (pm m)); [apply id_cont|apply pm_cont; lra]. }
  exists (Q (eta b) - Q (eta m)), (fun e => Q (eta e)). split; [|split; [|reflexivity]].
  - intros e He. apply (continuity_pt_comp eta Q).
    + apply (continuity_pt_comp (fun e => (e + pm m e) / m) ln); [apply Ceta; lra|].
      apply derivable_continuous_pt. eexists. apply derivable_pt_lim_ln. apply Ech. lra.
    + apply derivable_continuous_pt. eexists. apply DQ. now apply Ran.
  - exists []. intros e He _. destruct (Ech e ltac:(lra)) as [Z E]. pose proof (pm_pos m ltac:(lra) e ltac:(lra)) as P.
    eapply dl_val.
    + apply (dl_comp eta Q); [|apply DQ; apply Ran; lra]. unfold eta. apply dl_ln; [|exact Z].
      apply dl_div; [apply dl_plus; [apply dl_id|apply pm_dl; lra]|apply (dl_const m)|lra].
    + cbv beta. rewrite E. unfold Rsqr. field. lra.
Qed.

Definition boost_of (m beta gamma : R) (f F : R -> R) : Prop := forall e, m < e ->
  area (fun u => f u / (2 * gamma * beta * pm m u)) (gamma * (e - beta * pm m e)) (gamma * (e + beta * pm m e)) (F e).
(** a spectrum of [n] particles between the mass and [emax] *)
Definition spectrum (m emax n : R) (f : R -> R) : Prop :=
  m <= emax /\ (forall u, emax < u -> f u = 0) /\ (exists v, area (fun u => f u / pm m u) m emax v) /\ area f m emax n.
(** massless particles: a spectrum that is not infrared divergent *)
Definition soft (f : R -> R) : Prop := exists C, 0 <= C /\ forall u, 0 < u -> Rabs (f u) <= C * (u * u).

Section Twice.
Variables m beta gamma : R.
Hypothesis Hm : 0 <= m.
Hypothesis Hb : 0 < beta < 1.
Hypothesis Hg : 0 < gamma.
Hypothesis Hgb : gamma * gamma * (1 - beta * beta) = 1.

Lemma boost_exists emax n f : spectrum m emax n f -> exists F, boost_of m beta gamma f F /\ forall e, m <= e -> continuity_pt F e.
Proof.
  intros (He & Z & (v & A) & _).
  destruct (tail_antiderivative_exists m emax (fun u => f u / pm m u) v He ltac:(intros u Hu; cbv beta; rewrite (Z u Hu); unfold Rdiv; ring) A)
    as (H & l & C & D & _ & _).
  exists (fun e => / (2 * gamma * beta) * (H (up m beta gamma e) - H (um m beta gamma e))). split.
  - intros e Hl. pose proof (um_ge m beta gamma Hm Hb Hg Hgb e ltac:(lra)) as U1.
    pose proof (um_le_up m beta gamma Hb Hg e) as U2. change (gamma * (e - beta * pm m e)) with (um m beta gamma e).
    change (gamma * (e + beta * pm m e)) with (up m beta gamma e).
    refine (area_ext (fun u => / (2 * gamma * beta) * (f u / pm m u)) _ _ _ _ [] _ _).
    + intros u Hu _. pose proof (pm_pos m Hm u ltac:(lra)). field. lra.
    + apply area_scale. exists H. split; [|split; [|reflexivity]].
      * intros u Hu. apply C. lra.
      * exists l. intros u Hu Hn. apply D; [lra|exact Hn].
  - intros e Hl. apply scaled_cont. pose proof (um_ge m beta gamma Hm Hb Hg Hgb e Hl). pose proof (um_le_up m beta gamma Hb Hg e).
    apply (continuity_pt_minus (fun e => H (up m beta gamma e)) (fun e => H (um m beta gamma e))).
    + apply (continuity_pt_comp (up m beta gamma) H); [apply up_cont; assumption|apply C; lra].
    + apply (continuity_pt_comp (um m beta gamma) H); [apply um_cont; assumption|apply C; lra].
Qed.
Lemma boost_unique f F1 F2 : boost_of m beta gamma f F1 -> boost_of m beta gamma f F2 -> forall e, m < e -> F1 e = F2 e.
Proof.
  intros B1 B2 e He. refine (area_unique _ _ _ _ _ _ (B1 e He) (B2 e He)). exact (um_le_up m beta gamma Hb Hg e).
Qed.
Lemma boost_end emax f F e : m <= emax -> (forall u, emax < u -> f u = 0) -> boost_of m beta gamma f F ->
  gamma * (emax + beta * pm m emax) <= e -> m < e -> F e = 0.
Proof.
  intros He Z B L Hl. destruct (um_end m beta gamma Hm Hb Hg Hgb e emax He L) as [U _].
  refine (area_unique _ _ _ _ _ (um_le_up m beta gamma Hb Hg e) (B e Hl) _).
  apply area_zero. intros u Hu. rewrite Z by (unfold um in *; lra). unfold Rdiv. ring.
Qed.

(** Massive particles. *)
Lemma spectrum_boost emax n f F : 0 < m -> spectrum m emax n f -> boost_of m beta gamma f F ->
  spectrum m (gamma * (emax + beta * pm m emax)) n F.
Proof.
  intros M (He & Z & (v & A) & An) B.
  assert (Me : m <= gamma * (emax + beta * pm m emax)).
  { pose proof (um_ge m beta gamma Hm Hb Hg Hgb emax He). pose proof (um_le_up m beta gamma Hb Hg emax). unfold up in *. lra. }
  repeat split.
  - exact Me.
  - intros u Hu. apply (boost_end emax f F u He Z B); lra.
  - destruct (boost_exists emax n f ltac:(repeat split; eauto)) as (F' & B' & C').
    destruct (area_over_momentum m _ F' ltac:(split; [exact M|exact Me]) C') as [w W]. exists w.
    refine (area_ext _ _ _ _ _ [] _ W). intros u Hu _. rewrite (boost_unique f F F' B B' u ltac:(lra)). reflexivity.
  - exact (number_law m beta gamma Hm Hb Hg Hgb f F emax v He Z A B n _ An (Rle_refl _)).
Qed.
End Twice.

(** Massless particles. *)
Lemma pm_0 e : 0 <= e -> pm 0 e = e.
Proof. intro H. unfold pm. replace (e * e - 0 * 0) with (e * e) by ring. now apply sqrt_square. Qed.
Lemma soft_boost beta gamma f F : 0 < beta < 1 -> 0 < gamma -> soft f -> boost_of 0 beta gamma f F -> soft F.
Proof.
  intros Hb Hg (C & HC & Hf) B.
  exists (C / (2 * gamma * beta) * (gamma * (1 + beta)) * (2 * gamma * beta)).
  assert (K : 0 < 2 * gamma * beta) by (apply Rmult_lt_0_compat; lra). assert (K1 : 0 < gamma * (1 + beta)) by (apply Rmult_lt_0_compat; lra).
  split.
  { apply Rmult_le_pos; [apply Rmult_le_pos; [apply Rmult_le_pos; [exact HC|left; now apply Rinv_0_lt_compat]|lra]|lra]. }
  intros e He. specialize (B e He). rewrite pm_0 in B by lra.
  set (lo := gamma * (e - beta * e)) in *. set (hi := gamma * (e + beta * e)) in *.
  assert (L0 : 0 < lo) by (unfold lo; apply Rmult_lt_0_compat; [lra|]; nra).
  assert (L1 : lo <= hi) by (unfold lo, hi; apply Rmult_le_compat_l; [lra|]; nra).
  set (c := C / (2 * gamma * beta) * hi).
  assert (V : c * (hi - lo) = C / (2 * gamma * beta) * (gamma * (1 + beta)) * (2 * gamma * beta) * (e * e)) by (unfold c, hi, lo; field; lra).
  assert (Bd : forall u, lo < u < hi -> Rabs (f u / (2 * gamma * beta * pm 0 u)) <= c).
  { intros u Hu. rewrite pm_0 by lra. unfold Rdiv. rewrite Rabs_mult, (Rabs_pos_eq (/ _)) by (left; apply Rinv_0_lt_compat; apply Rmult_lt_0_compat; lra).
    apply Rle_trans with (C * (u * u) * / (2 * gamma * beta * u)).
    - apply Rmult_le_compat_r; [left; apply Rinv_0_lt_compat; apply Rmult_lt_0_compat; lra|apply Hf; lra].
    - replace (C * (u * u) * / (2 * gamma * beta * u)) with (C / (2 * gamma * beta) * u) by (field; lra).
      apply Rmult_le_compat_l; [|lra]. apply Rmult_le_pos; [exact HC|left; now apply Rinv_0_lt_compat]. }
  rewrite <- V. apply Rabs_le. split.
  - replace (- (c * (hi - lo))) with (- c * (hi - lo)) by ring.
    refine (area_le (fun _ => - c) _ lo hi _ _ L1 _ (area_const (- c) lo hi) B). intros u Hu. specialize (Bd u Hu).
    pose proof (Rle_abs (- (f u / (2 * gamma * beta * pm 0 u)))) as Q. rewrite Rabs_Ropp in Q. lra.
  - refine (area_le _ (fun _ => c) lo hi _ _ L1 _ B (area_const c lo hi)). intros u Hu. specialize (Bd u Hu).
    pose proof (Rle_abs (f u / (2 * gamma * beta * pm 0 u))). lra.
Qed.
Lemma soft_over_momentum g b : 0 <= b -> soft g -> (forall e, 0 <= e -> continuity_pt g e) -> exists v, area (fun e => g e / pm 0 e) 0 b v.
Proof.
  intros Hb (C & HC & Hg) Cg. set (k := fun e => if Rlt_dec 0 e then g e / e else 0).
  destruct (area_exists k 0 b Hb) as [v A].
  - intros x Hx. destruct (Req_dec x 0) as [->|N].
    + apply cont_eps. intros eps He. exists (eps / (C + 1)). split; [apply Rdiv_lt_0_compat; lra|]. intros y Hy.
      unfold k. destruct (Rlt_dec 0 0); [lra|]. rewrite Rminus_0_r in *. destruct (Rlt_dec 0 y) as [L|L]; [|rewrite Rabs_R0; exact He].
      rewrite Rabs_pos_eq in Hy by lra.
      unfold Rdiv. rewrite Rabs_mult, (Rabs_pos_eq (/ y)) by (left; now apply Rinv_0_lt_compat).
      apply Rle_lt_trans with (C * (y * y) * / y).
      * apply Rmult_le_compat_r; [left; now apply Rinv_0_lt_compat|now apply Hg].
      * replace (C * (y * y) * / y) with (C * y) by (field; lra). apply Rle_lt_trans with ((C + 1) * y); [nra|].
        replace eps with ((C + 1) * (eps / (C + 1))) by (field; lra). apply Rmult_lt_compat_l; lra.
    + apply (cont_local (fun e => g e / e) _ x x); [lra| |].
      * intros y Hy. apply Rabs_def2 in Hy. unfold k. destruct (Rlt_dec 0 y); [reflexivity|lra].
      * apply (continuity_pt_div g (fun e => e)); [apply Cg; lra|apply id_cont|exact N].
  - exists v. refine (area_ext _ _ _ _ _ [] _ A). intros x Hx _. unfold k. rewrite pm_0 by lra. destruct (Rlt_dec 0 x); [reflexivity|lra].
Qed.
Lemma spectrum_boost_massless beta gamma emax n f F : 0 < beta < 1 -> 0 < gamma -> gamma * gamma * (1 - beta * beta) = 1 ->
  soft f -> spectrum 0 emax n f -> boost_of 0 beta gamma f F -> soft F /\ spectrum 0 (gamma * (emax + beta * emax)) n F.
Proof.
  intros Hb Hg Hgb Sf (He & Z & (v & A) & An) B. split; [exact (soft_boost beta gamma f F Hb Hg Sf B)|].
  pose proof (Rle_refl 0) as M0.
  assert (Me : 0 <= gamma * (emax + beta * emax)) by (apply Rmult_le_pos; [lra|]; nra).
  assert (P : pm 0 emax = emax) by now apply pm_0.
  repeat split.
  - exact Me.
  - intros u Hu. apply (boost_end 0 beta gamma M0 Hb Hg Hgb emax f F u He Z B); rewrite ?P; lra.
  - destruct (boost_exists 0 beta gamma M0 Hb Hg Hgb emax n f ltac:(repeat split; eauto)) as (F' & B' & C').
    destruct (soft_over_momentum F' (gamma * (emax + beta * emax)) Me (soft_boost beta gamma f F' Hb Hg Sf B') C') as [w W]. exists w.
    refine (area_ext _ _ _ _ _ [] _ W). intros u Hu _. rewrite (boost_unique 0 beta gamma Hb Hg f F F' B B' u ltac:(lra)). reflexivity.
  - refine (number_law 0 beta gamma M0 Hb Hg Hgb f F emax v He Z A B n _ An _). rewrite P. apply Rle_refl.
Qed.

Lemma primitive_half g : (forall x, 0 < x -> continuity_pt g x) -> exists G, forall x, 0 < x -> derivable_pt_lim G x (g x).
Proof.
  intro C. set (F := fun z => if Rle_dec 1 z then the_area g 1 z else - the_area g z 1).
  exists F. intros x Hx. set (a := Rmin (x / 2) (/ 2)).
  assert (Ha : 0 < a /\ a < x /\ a < 1).
  { unfold a. split; [apply Rmin_pos; lra|]. split; [apply Rle_lt_trans with (x / 2); [apply Rmin_l|lra]|apply Rle_lt_trans with (/ 2); [apply Rmin_r|lra]]. }
  destruct (cont_primitive g a (x + 2) ltac:(lra)) as [G HG]; [intros y Hy; apply C; lra|].
  apply (derivable_pt_lim_locally_ext (fun y => G y - G 1) F x a (x + 2)); [lra| |].
  - intros y Hy. unfold F. destruct (Rle_dec 1 y).
    + symmetry. apply the_area_val; [lra|]. apply area_of_antiderivative. intros z Hz. apply HG. lra.
    + rewrite (the_area_val g y 1 (G 1 - G y)); [ring|lra|]. apply area_of_antiderivative. intros z Hz. apply HG. lra.
  - replace (g x) with (g x - 0) by ring. apply (derivable_pt_lim_minus G (fun _ => G 1)).
    + apply HG. lra.
    + apply derivable_pt_lim_const.
Qed.

(** * Energy of massless particles, however soft: no integrability of the number is needed *)
Section Massless.
Variables beta gamma : R.
Hypothesis Hb : 0 < beta < 1.
Hypothesis Hg : 0 < gamma.
Hypothesis Hgb : gamma * gamma * (1 - beta * beta) = 1.
Variables (f : R -> R) (emax ne : R).
Hypothesis He : 0 <= emax.
Hypothesis f_end : forall u, emax < u -> f u = 0.
Hypothesis f_energy : area (fun u => u * f u) 0 emax ne.
Let kl := gamma * (1 - beta).
Let kh := gamma * (1 + beta).

Lemma k_facts : 0 < kl < kh /\ kl * kh = 1.
Proof. unfold kl, kh. split; [|lra]. split; [apply Rmult_lt_0_compat; lra|]. apply Rmult_lt_compat_l; lra. Qed.

Lemma energy_law_massless : exists F,
  (forall e, 0 < e -> area (fun u => f u / (2 * gamma * beta * u)) (kl * e) (kh * e) (F e))
  /\ forall X, kh * emax <= X -> area (fun e => e * F e) 0 X (gamma * ne).
Proof.
  destruct k_facts as [K1 K2].
  destruct (tail_antiderivative_exists 0 emax (fun u => u * f u) ne He ltac:(intros u Hu; cbv beta; rewrite (f_end u Hu); ring) f_energy)
    as (G & l & C & D & M & T).
  assert (Ck : forall x, 0 < x -> continuity_pt (fun u => 2 * (G u / (u * (u * u)))) x).
  { intros x Hx. apply scaled_cont. apply (continuity_pt_div G (fun u => u * (u * u))); [apply C; lra| |].
    - apply (continuity_pt_mult (fun u => u) (fun u => u * u)); [apply id_cont|apply (continuity_pt_mult (fun u => u) (fun u => u)); apply id_cont].
    - assert (0 < x * (x * x)) by (repeat apply Rmult_lt_0_compat; exact Hx). lra. }
  destruct (primitive_half (fun u => 2 * (G u / (u * (u * u)))) Ck) as [Q DQ].
  set (H := fun u => G u / (u * u) + Q u).
  assert (DH : forall u, 0 < u -> ~ In u l -> derivable_pt_lim H u (f u / u)).
  { intros u Hu Hn. unfold H. eapply dl_val.
    - apply dl_plus; [|apply DQ; exact Hu]. apply dl_div; [apply D; assumption|apply dl_mult; apply dl_id|].
      assert (0 < u * u) by (apply Rmult_lt_0_compat; exact Hu). lra.
    - cbv beta. unfold Rsqr. field. lra. }
  assert (CH : forall u, 0 < u -> continuity_pt H u).
  { intros u Hu. unfold H. apply (continuity_pt_plus (fun u => G u / (u * u)) Q).
    - apply (continuity_pt_div G (fun u => u * u)); [apply C; lra|apply (continuity_pt_mult (fun u => u) (fun u => u)); apply id_cont|].
      assert (0 < u * u) by (apply Rmult_lt_0_compat; exact Hu). lra.
    - apply derivable_continuous_pt. eexists. apply DQ. exact Hu. }
  assert (AH : forall a b, 0 < a -> area (fun u => f u / u) a b (H b - H a)).
  { intros a b Ha. exists H. split; [|split; [|reflexivity]].
    - intros u Hu. apply CH. lra.
    - exists l. intros u Hu Hn. apply DH; [lra|exact Hn]. }
  assert (Pe : forall e, 0 < e -> 0 < kl * e < kh * e).
  { intros e Hp. split; [apply Rmult_lt_0_compat; lra|apply Rmult_lt_compat_r; lra]. }
  exists (fun e => / (2 * gamma * beta) * (H (kh * e) - H (kl * e))).
  assert (Gb : 0 < gamma * beta) by (apply Rmult_lt_0_compat; lra).
  split.
  { intros e Hp. destruct (Pe e Hp) as [P1 P2].
    refine (area_ext (fun u => / (2 * gamma * beta) * (f u / u)) _ _ _ _ [] _ _); [intros u Hu _; field; lra|].
    apply area_scale. now apply AH. }
  intros X HX. assert (X0 : 0 <= X) by (assert (0 <= kh * emax) by (apply Rmult_le_pos; lra); lra).
  set (K := fun e => if Rlt_dec 0 e then e * e / 2 * (H (kh * e) - H (kl * e)) - G (kh * e) / (2 * (kh * kh)) + G (kl * e) / (2 * (kl * kl)) else 0).
  assert (H2 : 0 < kh * kh) by (apply Rmult_lt_0_compat; lra). assert (L2 : 0 < kl * kl) by (apply Rmult_lt_0_compat; lra).
  assert (L3 : 0 < kl * (kl * kl)) by (apply Rmult_lt_0_compat; lra).
  (* near zero *)
  set (S0 := / (kh * kh) + / (kl * kl) + (kh - kl) / (kl * (kl * kl))).
  assert (S0p : 0 < S0).
  { unfold S0. pose proof (Rinv_0_lt_compat _ H2). pose proof (Rinv_0_lt_compat _ L2). assert (0 < (kh - kl) / (kl * (kl * kl))) by (apply Rdiv_lt_0_compat; lra). lra. }
  assert (K0 : forall eps, 0 < eps -> exists d, 0 < d /\ forall e, 0 < e < d -> Rabs (K e) <= S0 * eps).
  { intros eps Hp. destruct (proj1 (cont_eps G 0) (C 0 ltac:(lra)) eps Hp) as (d & Hd & Dd).
    assert (Gs : forall u, 0 < u < d -> - eps <= G u <= eps).
    { intros u Hu. specialize (Dd u). rewrite M, !Rminus_0_r in Dd. specialize (Dd ltac:(rewrite Rabs_pos_eq by lra; lra)).
      apply Rabs_def2 in Dd. lra. }
    exists (d / kh). split; [apply Rdiv_lt_0_compat; lra|]. intros e Hq. destruct (Pe e ltac:(lra)) as [P1 P2].
    assert (P3 : kh * e < d) by (replace d with (kh * (d / kh)) by (field; lra); apply Rmult_lt_compat_l; lra).
    pose proof (Gs (kh * e) ltac:(lra)) as G1. pose proof (Gs (kl * e) ltac:(lra)) as G2.
    set (c := 2 * (eps / (kl * e * (kl * e * (kl * e))))).
    assert (Pc : 0 < kl * e * (kl * e * (kl * e))) by (repeat apply Rmult_lt_0_compat; lra).
    assert (Bd : forall u, kl * e < u < kh * e -> - c <= 2 * (G u / (u * (u * u))) <= c).
    { intros u Hu. specialize (Gs u ltac:(lra)).
      assert (Pu : kl * e * (kl * e * (kl * e)) <= u * (u * u)).
      { apply Rmult_le_compat; [lra|left; apply Rmult_lt_0_compat; lra|lra|]. apply Rmult_le_compat; lra. }
      assert (Iu : / (u * (u * u)) <= / (kl * e * (kl * e * (kl * e)))) by (apply Rinv_le_contravar; lra).
      assert (Ip : 0 < / (u * (u * u))) by (apply Rinv_0_lt_compat; lra). unfold c, Rdiv.
      set (i := / (u * (u * u))) in *. set (j := / (kl * e * (kl * e * (kl * e)))) in *. clearbody i j.
      assert (eps * i <= eps * j) by (apply Rmult_le_compat_l; lra).
      assert (G u * i <= eps * i) by (apply Rmult_le_compat_r; lra).
      assert (- eps * i <= G u * i) by (apply Rmult_le_compat_r; lra). lra. }
    assert (AQ : area (fun u => 2 * (G u / (u * (u * u)))) (kl * e) (kh * e) (Q (kh * e) - Q (kl * e))).
    { apply area_of_antiderivative. intros u Hu. apply DQ. lra. }
    assert (Q1 : Q (kh * e) - Q (kl * e) <= c * (kh * e - kl * e)).
    { refine (area_le _ (fun _ => c) (kl * e) (kh * e) _ _ _ _ AQ (area_const c _ _)); [lra|]. intros u Hu. now apply Bd. }
    assert (Q2 : - c * (kh * e - kl * e) <= Q (kh * e) - Q (kl * e)).
    { refine (area_le (fun _ => - c) _ (kl * e) (kh * e) _ _ _ _ (area_const (- c) _ _) AQ); [lra|]. intros u Hu. now apply Bd. }
    assert (Ec : e * e / 2 * (c * (kh * e - kl * e)) = eps * ((kh - kl) / (kl * (kl * kl)))) by (unfold c; field; lra).
    assert (Ek : K e = e * e / 2 * (Q (kh * e) - Q (kl * e))).
    { unfold K. destruct (Rlt_dec 0 e); [|lra]. unfold H. field. lra. }
    assert (E2 : 0 < e * e / 2) by (assert (0 < e * e) by (apply Rmult_lt_0_compat; lra); lra).
    rewrite Ek. apply Rle_trans with (eps * ((kh - kl) / (kl * (kl * kl)))).
    - rewrite <- Ec. apply Rabs_le. split.
      + replace (- (e * e / 2 * (c * (kh * e - kl * e)))) with (e * e / 2 * (- c * (kh * e - kl * e))) by ring. apply Rmult_le_compat_l; lra.
      + apply Rmult_le_compat_l; lra.
    - unfold S0. rewrite Rmult_comm. apply Rmult_le_compat_r; [lra|]. pose proof (Rinv_0_lt_compat _ H2). pose proof (Rinv_0_lt_compat _ L2). lra. }
  assert (CK : forall e, 0 <= e -> continuity_pt K e).
  { intros e [Hp|Hp].
    - apply (cont_local (fun e => e * e / 2 * (H (kh * e) - H (kl * e)) - G (kh * e) / (2 * (kh * kh)) + G (kl * e) / (2 * (kl * kl))) _ e e); [exact Hp| |].
      + intros y Hy. apply Rabs_def2 in Hy. unfold K. destruct (Rlt_dec 0 y); [reflexivity|lra].
      + destruct (Pe e Hp) as [P1 P2].
        assert (Ch : forall k, continuity_pt (fun e => k * e) e) by (intro k; apply scaled_cont, id_cont).
        apply (continuity_pt_plus (fun e => e * e / 2 * (H (kh * e) - H (kl * e)) - G (kh * e) / (2 * (kh * kh))) (fun e => G (kl * e) / (2 * (kl * kl)))).
        * apply (continuity_pt_minus (fun e => e * e / 2 * (H (kh * e) - H (kl * e))) (fun e => G (kh * e) / (2 * (kh * kh)))).
          -- apply (continuity_pt_mult (fun e => e * e / 2) (fun e => H (kh * e) - H (kl * e))).
             ++ apply (continuity_pt_mult (fun e => e * e) (fun _ => / 2)); [apply (continuity_pt_mult (fun e => e) (fun e => e)); apply id_cont|apply const_cont].
             ++ apply (continuity_pt_minus (fun e => H (kh * e)) (fun e => H (kl * e))); apply comp_cont; try apply Ch; apply CH; lra.
          -- apply (continuity_pt_mult (fun e => G (kh * e)) (fun _ => / (2 * (kh * kh)))); [apply comp_cont; [apply Ch|apply C; lra]|apply const_cont].
        * apply (continuity_pt_mult (fun e => G (kl * e)) (fun _ => / (2 * (kl * kl)))); [apply comp_cont; [apply Ch|apply C; lra]|apply const_cont].
    - subst e. apply cont_eps. intros eps Hq. destruct (K0 (eps / (2 * S0)) ltac:(apply Rdiv_lt_0_compat; lra)) as (d & Hd & Dd).
      exists d. split; [exact Hd|]. intros y Hy. rewrite Rminus_0_r in Hy. assert (KZ : K 0 = 0) by (unfold K; destruct (Rlt_dec 0 0); [lra|reflexivity]).
      rewrite KZ, Rminus_0_r. destruct (Rlt_dec 0 y) as [L|L].
      + rewrite Rabs_pos_eq in Hy by lra. eapply Rle_lt_trans; [apply Dd; lra|]. replace (S0 * (eps / (2 * S0))) with (eps / 2) by (field; lra). lra.
      + unfold K. destruct (Rlt_dec 0 y); [contradiction|]. rewrite Rabs_R0. exact Hq. }
  assert (DK : forall e, 0 < e -> ~ In (kh * e) l -> ~ In (kl * e) l -> derivable_pt_lim K e (e * (H (kh * e) - H (kl * e)))).
  { intros e Hp N1 N2. destruct (Pe e Hp) as [P1 P2].
    apply (dl_local (fun e => e * e / 2 * (H (kh * e) - H (kl * e)) - G (kh * e) / (2 * (kh * kh)) + G (kl * e) / (2 * (kl * kl))) _ e _ e); [exact Hp| |].
    - intros y Hy. apply Rabs_def2 in Hy. unfold K. destruct (Rlt_dec 0 y); [reflexivity|lra].
    - assert (Dh : forall k, derivable_pt_lim (fun e => k * e) e k).
      { intro k. eapply dl_val; [apply dl_mult; [apply (dl_const k)|apply dl_id]|cbv beta; ring]. }
      eapply dl_val.
      + apply dl_plus; [apply dl_minus|].
        * apply dl_mult; [apply dl_div; [apply dl_mult; apply dl_id|apply (dl_const 2)|lra]|].
          apply dl_minus; [apply (dl_comp (fun e => kh * e) H); [apply Dh|apply DH; [lra|exact N1]]|apply (dl_comp (fun e => kl * e) H); [apply Dh|apply DH; [lra|exact N2]]].
        * apply dl_div; [apply (dl_comp (fun e => kh * e) G); [apply Dh|apply D; [lra|exact N1]]|apply (dl_const (2 * (kh * kh)))|lra].
        * apply dl_div; [apply (dl_comp (fun e => kl * e) G); [apply Dh|apply D; [lra|exact N2]]|apply (dl_const (2 * (kl * kl)))|lra].
      + cbv beta. unfold Rsqr. field. lra. }
  assert (HE : area (fun e => e * (H (kh * e) - H (kl * e))) 0 X (K X - K 0)).
  { exists K. split; [intros e Hx; apply CK; lra|]. split; [|reflexivity].
    exists (map (fun u => u / kh) l ++ map (fun u => u / kl) l). intros e Hx Hn. rewrite in_app_iff, !in_map_iff in Hn.
    apply DK; [lra| |]; intro I; apply Hn; [left; exists (kh * e)|right; exists (kl * e)]; (split; [field; lra|exact I]). }
  assert (KX : K X = 2 * (gamma * gamma) * beta * ne).
  { unfold K. destruct (Rlt_dec 0 X) as [P|P].
    - destruct (Pe X P) as [P1 P2].
      assert (EX : emax <= kl * X).
      { apply (Rmult_le_compat_l kl) in HX; [|lra]. rewrite <- Rmult_assoc, K2 in HX. lra. }
      assert (ZX : H (kh * X) - H (kl * X) = 0).
      { refine (area_unique _ (kl * X) (kh * X) _ _ _ (AH _ _ P1) _); [lra|]. apply area_zero. intros u Hu. rewrite f_end by lra. unfold Rdiv. ring. }
      rewrite ZX, !T by lra.
      assert (I1 : / kl = kh) by (apply (Rmult_eq_reg_l kl); [rewrite Rinv_r by lra; lra|lra]).
      assert (I2 : / kh = kl) by (apply (Rmult_eq_reg_l kh); [rewrite Rinv_r by lra; lra|lra]).
      transitivity (ne / 2 * (/ kl * / kl - / kh * / kh)); [field; lra|]. rewrite I1, I2. unfold kl, kh. field.
    - assert (X = 0) by lra. subst X. assert (emax = 0) by (assert (0 <= kh * emax) by (apply Rmult_le_pos; lra); assert (kh * emax = 0) by lra; nra).
      pose proof (T 0 ltac:(lra)) as T0. rewrite M in T0. rewrite <- T0. ring. }
  assert (KZ : K 0 = 0) by (unfold K; destruct (Rlt_dec 0 0); [lra|reflexivity]).
  apply (area_val _ _ _ (/ (2 * gamma * beta) * (K X - K 0))); [rewrite KX, KZ; field; lra|].
  refine (area_ext _ _ _ _ _ [] _ (area_scale (/ (2 * gamma * beta)) _ _ _ _ HE)). intros e _ _. ring.
Qed.
End Massless.
