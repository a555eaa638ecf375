(** Specification vocabulary and lemmas for the dark-matter fluxes, the detector response, the Fisher matrix,
    the parametric backgrounds and the relic-density limit. *)
From Coq Require Import String Reals Lra Lia Bool List.
From Verif Require Import PyBase PyBaseFacts VffModel LimitsModel LimitsProofs RustBase RustMath Area Primitive
  Gauss FluxModel.
Import ListNotations.
Local Open Scope string_scope.
Local Open Scope list_scope.
Local Open Scope R_scope.

Fixpoint total {A : Type} (f : A -> R) (l : list A) : R :=
  match l with [] => 0 | a :: r => f a + total f r end.

Lemma total_scale {A} (f : A -> R) c l : total (fun a => c * f a) l = c * total f l.
Proof. induction l as [|a r IH]; cbn; [ring|]. rewrite IH. ring. Qed.
Lemma total_ext {A} (f g : A -> R) l : (forall a, In a l -> f a = g a) -> total f l = total g l.
Proof.
  induction l as [|a r IH]; cbn; intros H; [reflexivity|].
  rewrite (H a (or_introl eq_refl)), IH; [reflexivity|]. intros b Hb. apply H. now right.
Qed.
Lemma total_plus {A} (f g : A -> R) l : total (fun a => f a + g a) l = total f l + total g l.
Proof. induction l as [|a r IH]; cbn; [ring|]. rewrite IH. ring. Qed.

(** * A halo, cut into cells along the line of sight *)
(** distance from the observer, length and density of a cell *)
Record cell : Type := { c_dist : R; c_len : R; c_rho : R }.

(** The line-of-sight integrals of the density and of its square *)
Definition J_of (h : list cell) : R := total (fun c => c_rho c ^ 2 * c_len c) h.
Definition D_of (h : list cell) : R := total (fun c => c_rho c * c_len c) h.

(** Dark matter is its own antiparticle, or consists of as many particles as antiparticles *)
Inductive dm : Type := own_antiparticle | particle_antiparticle.

(** Annihilations per volume and time: every pair of identical particles once, or every particle with every
    antiparticle *)
Definition annihilations (k : dm) (rho m sv : R) : R :=
  match k with
  | own_antiparticle => let n := rho / m in n * n / 2 * sv
  | particle_antiparticle => let n := rho / m / 2 in n * n * sv
  end.
Definition decays (rho m gamma : R) : R := rho / m * gamma.

(** Photons per area and time from a cell seen under the solid angle w, when every event sends N photons
    into all directions *)
Definition cell_flux (w events N : R) (c : cell) : R :=
  let volume := w * c_dist c ^ 2 * c_len c in
  let sphere := 4 * PI * c_dist c ^ 2 in
  events * volume * N / sphere.

Definition ann_flux (k : dm) (m sv w N : R) (h : list cell) : R :=
  total (fun c => cell_flux w (annihilations k (c_rho c) m sv) N c) h.
Definition dec_flux (m gamma w N : R) (h : list cell) : R :=
  total (fun c => cell_flux w (decays (c_rho c) m gamma) N c) h.

(** The target that describes a halo *)
Definition seen_as (h : list cell) (w : R) (t : target) : Prop :=
  t_J t = Some (J_of h) /\ t_D t = Some (D_of h) /\ t_dOmega t = Some w.
Definition off_observer (h : list cell) : Prop := forall c, In c h -> c_dist c <> 0.

Lemma ann_flux_val k m sv w N h : m <> 0 -> off_observer h ->
  ann_flux k m sv w N h
  = w / (4 * PI * m ^ 2) * J_of h * (1 / (2 * match k with own_antiparticle => 1 | _ => 2 end)) * sv * N.
Proof.
  intros Hm Ho. pose proof PI_RGT_0 as P. unfold ann_flux, J_of.
  set (q := match k with own_antiparticle => 1 | _ => 2 end).
  assert (Hq : q <> 0) by (unfold q; destruct k; lra).
  replace (w / (4 * PI * m ^ 2) * total (fun c => c_rho c ^ 2 * c_len c) h * (1 / (2 * q)) * sv * N)
    with ((w / (4 * PI * m ^ 2) * (1 / (2 * q)) * sv * N) * total (fun c => c_rho c ^ 2 * c_len c) h) by ring.
  rewrite <- total_scale. apply total_ext. intros c Hc. specialize (Ho c Hc).
  unfold cell_flux, annihilations, q. destruct k; field; repeat split; lra || assumption.
Qed.

Lemma dec_flux_val m g w N h : m <> 0 -> off_observer h ->
  dec_flux m g w N h = w / (4 * PI * m) * D_of h * g * N.
Proof.
  intros Hm Ho. pose proof PI_RGT_0 as P. unfold dec_flux, D_of.
  replace (w / (4 * PI * m) * total (fun c => c_rho c * c_len c) h * g * N)
    with ((w / (4 * PI * m) * g * N) * total (fun c => c_rho c * c_len c) h) by ring.
  rewrite <- total_scale. apply total_ext. intros c Hc. specialize (Ho c Hc).
  unfold cell_flux, decays. field. repeat split; lra || assumption.
Qed.

(** * The detector response *)
(** The normal density of mean e and standard deviation s *)
Definition normal (e s x : R) : R := exp (- ((x - e) / s) ^ 2 / 2) / (s * sqrt (2 * PI)).

Lemma response_normal ep e res : 0 < e * res e -> spec_res_fn ep e res = normal e (e * res e) ep.
Proof.
  intros H. unfold spec_res_fn. destruct (Req_EM_T (e * res e) 0); [lra|].
  set (s := e * res e) in *. clearbody s. pose proof PI_RGT_0 as P. unfold normal.
  assert (Q : sqrt (2 * PI * s ^ 2) = s * sqrt (2 * PI)).
  { rewrite sqrt_mult by nra. rewrite sqrt_pow2 by lra. ring. }
  rewrite Q. pose proof (sqrt_lt_R0 (2 * PI) ltac:(lra)).
  replace (- (ep - e) ^ 2 / (2 * s ^ 2)) with (- ((ep - e) / s) ^ 2 / 2) by (field; lra).
  field. split; lra.
Qed.

(** The area under the normal density *)
Lemma normal_area e s a b : 0 < s -> a <= b ->
  area (normal e s) a b ((E ((b - e) / (s * sqrt 2)) - E ((a - e) / (s * sqrt 2))) / sqrt PI).
Proof.
  intros Hs Hab. pose proof PI_RGT_0 as P.
  assert (H2 : 0 < sqrt 2) by (apply sqrt_lt_R0; lra). assert (HP : 0 < sqrt PI) by now apply sqrt_lt_R0.
  set (F := fun x => E ((x - e) / (s * sqrt 2)) / sqrt PI).
  apply (area_val _ _ _ (F b - F a)); [unfold F; field; lra|].
  apply area_of_antiderivative. intros x _. unfold F.
  replace (normal e s x) with (bell ((x - e) / (s * sqrt 2)) * (1 / (s * sqrt 2)) * (1 / sqrt PI)).
  - apply (derivable_pt_lim_ext (fun x => (comp E (fun x => (x - e) / (s * sqrt 2)) x) * (1 / sqrt PI))).
    { intros y. unfold comp. field. lra. }
    replace (bell ((x - e) / (s * sqrt 2)) * (1 / (s * sqrt 2)) * (1 / sqrt PI))
      with ((bell ((x - e) / (s * sqrt 2)) * (1 / (s * sqrt 2))) * (1 / sqrt PI)
            + comp E (fun x => (x - e) / (s * sqrt 2)) x * 0) by ring.
    apply (derivable_pt_lim_mult (comp E (fun x => (x - e) / (s * sqrt 2))) (fun _ => 1 / sqrt PI));
      [|apply derivable_pt_lim_const].
    apply (derivable_pt_lim_comp (fun x => (x - e) / (s * sqrt 2)) E); [|apply E_deriv].
    apply (derivable_pt_lim_ext (fun x => (1 / (s * sqrt 2)) * (x - e))); [intros; field; split; lra|].
    pose proof (derivable_pt_lim_scal _ (1 / (s * sqrt 2)) x _
      (derivable_pt_lim_minus id (fun _ => e) x 1 0 (derivable_pt_lim_id x) (derivable_pt_lim_const e x))) as D.
    replace (1 / (s * sqrt 2) * (1 - 0)) with (1 / (s * sqrt 2)) in D by ring. exact D.
  - unfold normal, bell. rewrite sqrt_mult by lra.
    replace (- ((x - e) / (s * sqrt 2)) ^ 2) with (- ((x - e) / s) ^ 2 / 2).
    + field. repeat split; lra.
    + replace (((x - e) / (s * sqrt 2)) ^ 2) with (((x - e) / s) ^ 2 / (sqrt 2 * sqrt 2)) by (field; lra).
      rewrite sqrt_sqrt by lra. field. lra.
Qed.

(** [whole f v]: the area under [f] over [-L, L] tends to v *)
Definition whole (f : R -> R) (v : R) : Prop :=
  forall eps, 0 < eps -> exists L0, forall L, L0 <= L -> 0 <= L ->
    exists w, area f (- L) L w /\ Rabs (w - v) < eps.

Lemma whole_plus f g v w : whole f v -> whole g w -> whole (fun x => f x + g x) (v + w).
Proof.
  intros Hf Hg eps He. destruct (Hf (eps / 2) ltac:(lra)) as [L1 H1]. destruct (Hg (eps / 2) ltac:(lra)) as [L2 H2].
  exists (Rmax L1 L2). intros L HL HL0. pose proof (Rmax_l L1 L2). pose proof (Rmax_r L1 L2).
  destruct (H1 L ltac:(lra) HL0) as [a [A1 A2]]. destruct (H2 L ltac:(lra) HL0) as [b [B1 B2]].
  exists (a + b). split; [now apply area_plus|]. replace (a + b - (v + w)) with ((a - v) + (b - w)) by ring.
  eapply Rle_lt_trans; [apply Rabs_triang|]. lra.
Qed.
Lemma whole_scale c f v : whole f v -> whole (fun x => c * f x) (c * v).
Proof.
  intros Hf eps He. pose proof (Rabs_pos c) as Hc.
  destruct (Hf (eps / (Rabs c + 1)) ltac:(apply Rdiv_lt_0_compat; lra)) as [L0 H].
  exists L0. intros L HL HL0. destruct (H L HL HL0) as [a [A1 A2]]. exists (c * a). split; [now apply area_scale|].
  replace (c * a - c * v) with (c * (a - v)) by ring. rewrite Rabs_mult.
  apply Rmult_lt_compat_r with (r := Rabs c + 1) in A2; [|lra].
  replace (eps / (Rabs c + 1) * (Rabs c + 1)) with eps in A2 by (field; lra).
  pose proof (Rabs_pos (a - v)). nra.
Qed.
Lemma whole_zero : whole (fun _ => 0) 0.
Proof.
  intros eps He. exists 0. intros L _ _. exists 0. split; [|rewrite Rminus_0_r, Rabs_R0; exact He].
  apply (area_val _ _ _ (0 * (L - - L))); [ring|]. apply area_const.
Qed.
Lemma whole_ext f g v : (forall x, f x = g x) -> whole f v -> whole g v.
Proof.
  intros H Hf eps He. destruct (Hf eps He) as [L0 H0]. exists L0. intros L HL HL0.
  destruct (H0 L HL HL0) as [w [A B]]. exists w. split; [|exact B].
  refine (area_ext _ _ _ _ _ [] _ A). intros; apply H.
Qed.

Lemma normal_whole e s : 0 < s -> whole (normal e s) 1.
Proof.
  intros Hs eps He. pose proof PI_RGT_0 as P.
  assert (H2 : 0 < sqrt 2) by (apply sqrt_lt_R0; lra). assert (HP : 0 < sqrt PI) by now apply sqrt_lt_R0.
  assert (HPm : 1 < sqrt PI). { rewrite <- sqrt_1. pose proof PI2_3_2. apply sqrt_lt_1; lra. }
  (* beyond y, the tail is below eps/4 *)
  set (y := 1 + 4 / eps).
  assert (Hy : 1 <= y) by (unfold y; pose proof (Rdiv_lt_0_compat 4 eps ltac:(lra) He); lra).
  assert (T : forall z, y <= z -> exp (- z ^ 2) < eps / 4).
  { intros z Hz. pose proof (exp_ineq1_le (z ^ 2)) as X. rewrite exp_Ropp.
    apply Rle_lt_trans with (/ (1 + z ^ 2)); [apply Rinv_le_contravar; nra|].
    apply Rmult_lt_reg_r with (1 + z ^ 2); [nra|]. rewrite Rinv_l by nra.
    assert (4 / eps < 1 + z ^ 2) by (unfold y in *; nra).
    apply Rmult_lt_compat_l with (r := eps / 4) in H; [|lra].
    replace (eps / 4 * (4 / eps)) with 1 in H by (field; lra). exact H. }
  exists (Rabs e + y * (s * sqrt 2)). intros L HL HL0.
  pose proof (Rle_abs e) as E1. pose proof (Rle_abs (- e)) as E2. rewrite Rabs_Ropp in E2.
  eexists. split; [apply normal_area; [exact Hs|lra]|].
  set (d := s * sqrt 2) in *. assert (Hd : 0 < d) by (unfold d; nra).
  set (u := (L - e) / d). set (v := (- L - e) / d).
  assert (Hu : y <= u). { unfold u. apply Rmult_le_reg_r with d; [exact Hd|]. unfold Rdiv. rewrite Rmult_assoc, Rinv_l by lra. lra. }
  assert (Hv : y <= - v). { unfold v. apply Rmult_le_reg_r with d; [exact Hd|].
    replace (- ((- L - e) / d) * d) with (L + e) by (field; lra). lra. }
  pose proof (E_limit u ltac:(lra)) as Lu. pose proof (E_limit (- v) ltac:(lra)) as Lv. rewrite E_odd in Lv.
  pose proof (T u Hu) as Tu. pose proof (T (- v) Hv) as Tv.
  replace ((E u - E v) / sqrt PI - 1) with ((E u - E v - sqrt PI) / sqrt PI) by (field; lra).
  assert (B : - eps < E u - E v - sqrt PI <= 0) by lra.
  apply Rabs_def1.
  - apply Rle_lt_trans with 0; [|exact He]. unfold Rdiv. pose proof (Rinv_0_lt_compat _ HP). nra.
  - apply Rmult_lt_reg_r with (sqrt PI); [exact HP|]. unfold Rdiv. rewrite Rmult_assoc, Rinv_l by lra. nra.
Qed.

Lemma whole_trapezoid (s : R -> R) (g : R -> R -> R) grid :
  (forall e, In e grid -> whole (fun x => g x e) 1) ->
  whole (fun x => trapezoid (fun e => s e * g x e) grid) (trapezoid s grid).
Proof.
  induction grid as [|x0 [|x1 r] IH]; intros H; [exact whole_zero|exact whole_zero|].
  change (trapezoid s (x0 :: x1 :: r)) with ((x1 - x0) * (s x0 + s x1) / 2 + trapezoid s (x1 :: r)).
  apply (whole_ext (fun x => ((x1 - x0) * s x0 / 2 * g x x0 + (x1 - x0) * s x1 / 2 * g x x1)
                             + trapezoid (fun e => s e * g x e) (x1 :: r))).
  { intros x. change (trapezoid (fun e => s e * g x e) (x0 :: x1 :: r))
      with ((x1 - x0) * (s x0 * g x x0 + s x1 * g x x1) / 2 + trapezoid (fun e => s e * g x e) (x1 :: r)). lra. }
  apply whole_plus.
  - replace ((x1 - x0) * (s x0 + s x1) / 2) with ((x1 - x0) * s x0 / 2 * 1 + (x1 - x0) * s x1 / 2 * 1) by lra.
    apply whole_plus; apply whole_scale; apply H; cbn; auto.
  - apply IH. intros e He. apply H. now right.
Qed.

(** Photons of a line: two for a pair of photons *)
Definition line_photons (l : string * (R * R)) : R :=
  snd (snd l) * (if fst l =? "g g" then 2 else 1).

Lemma whole_lines res lines : (forall l, In l lines -> 0 < fst (snd l) * res (fst (snd l))) ->
  whole (fun x => fold_right (fun l acc => snd (snd l) * spec_res_fn x (fst (snd l)) res
                             * (if fst l =? "g g" then 2 else 1) + acc) 0 lines) (total line_photons lines).
Proof.
  induction lines as [|l r IH]; intros H; [exact whole_zero|]. cbn [fold_right total].
  apply whole_plus; [|apply IH; intros; apply H; now right].
  apply (whole_ext (fun x => line_photons l * normal (fst (snd l)) (fst (snd l) * res (fst (snd l))) x)).
  { intros x. rewrite response_normal by (apply H; now left). unfold line_photons. ring. }
  replace (line_photons l) with (line_photons l * 1) at 1 by ring. apply whole_scale, normal_whole, H. now left.
Qed.

(** * The trapezoid as a linear form *)
Lemma trap_ext f g l : (forall x, In x l -> f x = g x) -> trapezoid f l = trapezoid g l.
Proof.
  induction l as [|x0 [|x1 r] IH]; intros H; [reflexivity|reflexivity|].
  cbn [trapezoid] in *. rewrite IH by (intros; apply H; now right).
  rewrite (H x0), (H x1) by (cbn; auto). reflexivity.
Qed.
Lemma trap_plus f g l : trapezoid (fun x => f x + g x) l = trapezoid f l + trapezoid g l.
Proof.
  induction l as [|x0 [|x1 r] IH]; [cbn; ring|cbn; ring|].
  cbn [trapezoid] in *. rewrite IH. lra.
Qed.
Lemma trap_scale c f l : trapezoid (fun x => c * f x) l = c * trapezoid f l.
Proof.
  induction l as [|x0 [|x1 r] IH]; [cbn; ring|cbn; ring|].
  cbn [trapezoid] in *. rewrite IH. lra.
Qed.
Lemma trap_zero l : trapezoid (fun _ => 0) l = 0.
Proof. induction l as [|x0 [|x1 r] IH]; [reflexivity|reflexivity|]. cbn [trapezoid] in *. rewrite IH. lra. Qed.
Lemma trap_total {A} (f : A -> R -> R) l xs :
  trapezoid (fun x => total (fun a => f a x) l) xs = total (fun a => trapezoid (f a) xs) l.
Proof. induction l as [|a r IH]; cbn [total]; [apply trap_zero|]. rewrite trap_plus, IH. reflexivity. Qed.

(** neighbouring points in order *)
Fixpoint ascending (l : list R) : Prop :=
  match l with x0 :: ((x1 :: _) as r) => x0 <= x1 /\ ascending r | _ => True end.

Lemma trap_nonneg f l : ascending l -> (forall x, In x l -> 0 <= f x) -> 0 <= trapezoid f l.
Proof.
  induction l as [|x0 [|x1 r] IH]; intros S H; [cbn; lra|cbn; lra|].
  destruct S as [S0 S]. pose proof (IH S ltac:(intros; apply H; now right)).
  cbn [trapezoid] in *. pose proof (H x0 ltac:(cbn; auto)). pose proof (H x1 ltac:(cbn; auto)).
  assert (0 <= (x1 - x0) * (f x0 + f x1)) by (apply Rmult_le_pos; lra). lra.
Qed.

Lemma trap_cauchy f g w l : ascending l -> (forall x, In x l -> 0 <= w x) ->
  trapezoid (fun x => f x * g x * w x) l ^ 2
  <= trapezoid (fun x => f x ^ 2 * w x) l * trapezoid (fun x => g x ^ 2 * w x) l.
Proof.
  intros S W. set (a := trapezoid (fun x => f x ^ 2 * w x) l). set (c := trapezoid (fun x => g x ^ 2 * w x) l).
  set (b := trapezoid (fun x => f x * g x * w x) l).
  assert (Q : forall t, 0 <= a + 2 * t * b + t ^ 2 * c).
  { intros t. replace (a + 2 * t * b + t ^ 2 * c) with (trapezoid (fun x => (f x + t * g x) ^ 2 * w x) l).
    - apply trap_nonneg; [exact S|]. intros x Hx. apply Rmult_le_pos; [apply pow2_ge_0|now apply W].
    - rewrite (trap_ext _ (fun x => f x ^ 2 * w x + ((2 * t) * (f x * g x * w x) + t ^ 2 * (g x ^ 2 * w x)))) by (intros; ring).
      rewrite trap_plus, trap_plus, !trap_scale. fold a b c. ring. }
  assert (C : 0 <= c) by (apply trap_nonneg; [exact S|]; intros x Hx; apply Rmult_le_pos; [apply pow2_ge_0|now apply W]).
  assert (A : 0 <= a) by (pose proof (Q 0); lra).
  destruct (Req_dec c 0) as [Z|NZ].
  - rewrite Z in *. destruct (Req_dec b 0) as [->|Hb]; [lra|].
    pose proof (Q (- (a + 1) / (2 * b))) as X. replace (2 * (- (a + 1) / (2 * b)) * b) with (- (a + 1)) in X by (field; exact Hb). lra.
  - pose proof (Q (- b / c)) as X.
    replace (a + 2 * (- b / c) * b + (- b / c) ^ 2 * c) with ((a * c - b ^ 2) / c) in X by (field; exact NZ).
    assert (0 <= a * c - b ^ 2).
    { apply Rmult_le_compat_r with (r := c) in X; [|exact C]. replace ((a * c - b ^ 2) / c * c) with (a * c - b ^ 2) in X by (field; exact NZ). lra. }
    lra.
Qed.

(** * The Fisher matrix *)
Definition entry (m : list (list R)) (i j : nat) : R := nth j (nth i m []) 0.
(** m times g is the unit matrix *)
Definition inverts (m g : list (list R)) : Prop :=
  forall i j, (i < length m)%nat -> (j < length m)%nat ->
    total (fun k => entry m i k * entry g k j) (seq 0 (length m)) = if Nat.eqb i j then 1 else 0.

Lemma mapM_pure {A B} (f : A -> res B) (g : A -> B) l : (forall a, In a l -> f a = Ret (g a)) -> mapM f l = Ret (map g l).
Proof.
  induction l as [|a r IH]; intros H; [reflexivity|]. cbn. rewrite (H a (or_introl eq_refl)).
  rewrite IH by (intros; apply H; now right). reflexivity.
Qed.

Section Fisher.
Variables (phi_s : R -> R) (bg : dict R) (bgf : R -> R) (deriv : string -> R -> R) (aeff : R -> R)
  (tobs dOmega : R) (energies : list R).
Hypothesis no_rate : ~ In "rate" (dkeys bg).

Definition moves : list (R -> R) := phi_s :: map deriv (dkeys bg).
Definition form (f g : R -> R) : R := fisher_element f g (fun e => bgf e * dOmega) aeff tobs energies.

Lemma params_keys : dkeys (fisher_params bg) = "rate" :: dkeys bg.
Proof.
  unfold fisher_params. cbn. f_equal. revert no_rate. clear. induction bg as [|[k v] r IH]; cbn; intros H; [reflexivity|].
  destruct (String.eqb_spec k "rate") as [->|N]; [exfalso; apply H; now left|]. cbn. f_equal. apply IH. intros X. apply H. now right.
Qed.

Lemma dphi_bg k : In k (dkeys bg) -> dindex (fisher_dphi phi_s bg deriv) k = Ret (deriv k).
Proof.
  intros H. unfold dindex, fisher_dphi. rewrite dget_dset_other by (intros <-; contradiction).
  assert (G : dget (map (fun kv => (fst kv, deriv (fst kv))) bg) k = Some (deriv k)).
  { clear no_rate. induction bg as [|[k' v] r IH]; [destruct H|]. cbn in *.
    destruct (String.eqb_spec k' k) as [->|N]; [reflexivity|]. apply IH. destruct H as [H|H]; [contradiction|exact H]. }
  now rewrite G.
Qed.
Lemma dphi_rate : dindex (fisher_dphi phi_s bg deriv) "rate" = Ret phi_s.
Proof. unfold dindex, fisher_dphi. now rewrite dget_dset_same. Qed.

Definition the_move (k : string) : R -> R := if k =? "rate" then phi_s else deriv k.
Lemma dphi_move k : In k ("rate" :: dkeys bg) -> dindex (fisher_dphi phi_s bg deriv) k = Ret (the_move k).
Proof.
  intros [<-|H]; [exact dphi_rate|]. rewrite (dphi_bg k H). unfold the_move.
  destruct (String.eqb_spec k "rate") as [->|N]; [contradiction|reflexivity].
Qed.
Lemma moves_keys : moves = map the_move ("rate" :: dkeys bg).
Proof.
  unfold moves. cbn [map]. f_equal. apply map_ext_in. intros k H. unfold the_move.
  destruct (String.eqb_spec k "rate") as [->|N]; [contradiction|reflexivity].
Qed.

Lemma matrix_val : fisher_matrix phi_s bg bgf deriv aeff tobs dOmega energies
  = Ret (map (fun d2 => map (fun d1 => form d1 d2) moves) moves).
Proof.
  unfold fisher_matrix. rewrite params_keys, moves_keys.
  rewrite (mapM_pure _ (fun k2 => map (fun k1 => form (the_move k1) (the_move k2)) ("rate" :: dkeys bg))).
  - rewrite map_map. f_equal. apply map_ext. intros k. rewrite map_map. reflexivity.
  - intros k2 H2. apply mapM_pure. intros k1 H1. now rewrite (dphi_move k1 H1), (dphi_move k2 H2).
Qed.

Lemma form_sym f g : form f g = form g f.
Proof. unfold form, fisher_element. apply trap_ext. intros. f_equal. f_equal. f_equal. ring. Qed.

Lemma entry_val m i j : fisher_matrix phi_s bg bgf deriv aeff tobs dOmega energies = Ret m ->
  (i < length m)%nat -> (j < length m)%nat ->
  entry m i j = form (nth j moves (fun _ => 0)) (nth i moves (fun _ => 0)).
Proof.
  rewrite matrix_val. intros H Hi Hj.
  assert (Em : m = map (fun d2 => map (fun d1 => form d1 d2) moves) moves) by congruence. clear H. subst m.
  rewrite map_length in Hi, Hj.
  unfold entry. rewrite (nth_indep _ [] (map (fun d1 => form d1 (fun _ => 0)) moves)) by now rewrite map_length.
  rewrite (map_nth (fun d2 => map (fun d1 => form d1 d2) moves)).
  rewrite (nth_indep _ 0 (form (fun _ => 0) (nth i moves (fun _ => 0)))) by now rewrite map_length.
  now rewrite (map_nth (fun d1 => form d1 (nth i moves (fun _ => 0)))).
Qed.
Lemma matrix_len m : fisher_matrix phi_s bg bgf deriv aeff tobs dOmega energies = Ret m -> length m = S (length bg).
Proof.
  rewrite matrix_val. intros H.
  assert (Em : m = map (fun d2 => map (fun d1 => form d1 d2) moves) moves) by congruence. clear H. subst m.
  rewrite map_length. unfold moves, dkeys. cbn. now rewrite map_length, map_length.
Qed.

(** linear combinations *)
Definition comb (xs : list R) (ds : list (R -> R)) (e : R) : R := total (fun p => fst p * snd p e) (combine xs ds).

Lemma form_comb xs ds g : form (comb xs ds) g = total (fun p => fst p * form (snd p) g) (combine xs ds).
Proof.
  unfold form, fisher_element, comb.
  rewrite (trap_ext _ (fun e => total (fun p => fst p * (snd p e * g e / (bgf e * dOmega) * aeff e * tobs)) (combine xs ds))).
  - rewrite (trap_total (fun p e => fst p * (snd p e * g e / (bgf e * dOmega) * aeff e * tobs))).
    apply total_ext. intros p _. apply trap_scale.
  - intros e _. unfold Rdiv. rewrite !Rmult_assoc. rewrite (Rmult_comm (total _ _)), <- total_scale.
    apply total_ext. intros p _. ring.
Qed.

Lemma total_seq (F : R -> (R -> R) -> R) (y : nat -> R) : forall ds a,
  total (fun p => F (fst p) (snd p)) (combine (map y (seq a (length ds))) ds)
  = total (fun k => F (y k) (nth (k - a) ds (fun _ => 0))) (seq a (length ds)).
Proof.
  induction ds as [|d r IH]; intros a; [reflexivity|]. cbn [length seq map combine total fst snd].
  rewrite Nat.sub_diag. cbn [nth]. f_equal. rewrite IH. apply total_ext. intros k Hk. apply in_seq in Hk.
  replace (k - a)%nat with (S (k - S a)) by lia. reflexivity.
Qed.

Hypothesis sorted : ascending energies.
Hypothesis weight : forall e, In e energies -> 0 < bgf e * dOmega /\ 0 <= aeff e.
Hypothesis time : 0 <= tobs.

Lemma form_weight f g : form f g = trapezoid (fun e => f e * g e * (aeff e * tobs / (bgf e * dOmega))) energies.
Proof. unfold form, fisher_element. apply trap_ext. intros e He. unfold Rdiv. ring. Qed.
Lemma weight_nonneg e : In e energies -> 0 <= aeff e * tobs / (bgf e * dOmega).
Proof.
  intros He. destruct (weight e He). unfold Rdiv. apply Rmult_le_pos; [apply Rmult_le_pos; assumption|].
  now apply Rlt_le, Rinv_0_lt_compat.
Qed.
Lemma form_nonneg f : 0 <= form f f.
Proof.
  rewrite form_weight. apply trap_nonneg; [exact sorted|]. intros e He.
  apply Rmult_le_pos; [|now apply weight_nonneg]. replace (f e * f e) with (f e ^ 2) by ring. apply pow2_ge_0.
Qed.
Lemma form_cauchy f g : form f g ^ 2 <= form f f * form g g.
Proof.
  rewrite !form_weight.
  rewrite (trap_ext (fun e => f e * f e * _) (fun e => f e ^ 2 * (aeff e * tobs / (bgf e * dOmega)))) by (intros; ring).
  rewrite (trap_ext (fun e => g e * g e * _) (fun e => g e ^ 2 * (aeff e * tobs / (bgf e * dOmega)))) by (intros; ring).
  apply (trap_cauchy f g (fun e => aeff e * tobs / (bgf e * dOmega))); [exact sorted|exact weight_nonneg].
Qed.

(** The column of the inverse that belongs to the rate *)
Section Column.
Variables m g : list (list R).
Hypothesis Hm : fisher_matrix phi_s bg bgf deriv aeff tobs dOmega energies = Ret m.
Hypothesis Hg : inverts m g.
Definition column : list R := map (fun k => entry g k 0) (seq 0 (length moves)).
Definition best : R -> R := comb column moves.

Lemma moves_len : length moves = length m.
Proof. rewrite (matrix_len m Hm). unfold moves, dkeys. cbn. now rewrite !map_length. Qed.

Lemma best_dual i : (i < length moves)%nat -> form best (nth i moves (fun _ => 0)) = if Nat.eqb i 0 then 1 else 0.
Proof.
  intros Hi. unfold best. rewrite form_comb. unfold column.
  rewrite (total_seq (fun y d => y * form d (nth i moves (fun _ => 0))) (fun k => entry g k 0)).
  rewrite moves_len in *. rewrite <- (Hg i 0%nat Hi); [|rewrite <- moves_len; unfold moves; cbn; lia].
  apply total_ext. intros k Hk. apply in_seq in Hk. rewrite Nat.sub_0_r, (entry_val m i k Hm Hi) by lia. ring.
Qed.

Lemma best_signal : form best phi_s = 1.
Proof. exact (best_dual 0 ltac:(unfold moves; cbn; lia)). Qed.
Lemma best_nuisance d : In d (map deriv (dkeys bg)) -> form best d = 0.
Proof.
  intros H. destruct (In_nth _ _ (fun _ => 0) H) as [i [Hi E]]. rewrite <- E.
  exact (best_dual (S i) ltac:(unfold moves; cbn; lia)).
Qed.

(** the form with any combination picks the signal strength *)
Lemma best_comb L xs : form (comb (L :: xs) moves) best = L.
Proof.
  rewrite form_comb. unfold moves. cbn [combine total fst snd]. rewrite (form_sym phi_s), best_signal.
  rewrite (total_ext _ (fun _ => 0)).
  - replace (fun _ : R * (R -> R) => 0) with (fun _ : R * (R -> R) => 0 * 0) by (now rewrite Rmult_0_l).
    rewrite total_scale. ring.
  - intros [x d] H. cbn. rewrite form_sym, best_nuisance; [ring|]. exact (in_combine_r _ _ _ _ H).
Qed.

Lemma column_head : exists ys, column = entry g 0 0 :: ys /\ length ys = length bg.
Proof.
  unfold column, moves. cbn [length seq map]. eexists. split; [reflexivity|]. unfold dkeys. now rewrite map_length, seq_length, !map_length.
Qed.
Lemma best_norm : form best best = entry g 0 0.
Proof. unfold best at 1. destruct column_head as [ys [-> _]]. apply best_comb. Qed.

Lemma corner_pos : 0 < entry g 0 0.
Proof.
  rewrite <- best_norm. pose proof (form_nonneg best) as P. destruct P as [P|P]; [exact P|].
  pose proof (form_cauchy best phi_s) as C. rewrite best_signal, <- P in C. lra.
Qed.

Lemma comb_bound L xs : L ^ 2 <= form (comb (L :: xs) moves) (comb (L :: xs) moves) * entry g 0 0.
Proof. pose proof (form_cauchy (comb (L :: xs) moves) best) as C. rewrite best_comb, best_norm in C. exact C. Qed.

Lemma form_scale2 c f : form (fun e => c * f e) (fun e => c * f e) = c ^ 2 * form f f.
Proof.
  rewrite !form_weight, <- trap_scale. apply trap_ext. intros. ring.
Qed.
End Column.
End Fisher.
