(** Theorems about the Altarelli-Parisi spectra (C59) and the n-body spectra (C58, C80). *)
From Coq Require Import String Bool Reals Lra Lia List Arith.
From Verif Require Import PyBase PyBaseFacts RustMath Area Primitive SpecProofs KinModel NbodyModel NbodyProofs.
Import ListNotations.
Local Open Scope string_scope.
Local Open Scope list_scope.
Local Open Scope R_scope.

(** * C59: Altarelli-Parisi *)
(** For positive energy fractions the number of photons is non-negative, positive below the endpoint
    1 - e m^2/s when the particle is charged, zero from there on, strictly decreasing below it, and continuous. *)
Theorem ap_fermion_shape : forall alpha s m q, 0 < alpha -> 0 < s -> 0 < m ->
  (forall x, 0 < x -> 0 <= dndx_photon_ap_fermion alpha x s m q)
  /\ (forall x, 1 - exp 1 * m ^ 2 / s <= x -> dndx_photon_ap_fermion alpha x s m q = 0)
  /\ (q <> 0 -> forall x, 0 < x < 1 - exp 1 * m ^ 2 / s -> 0 < dndx_photon_ap_fermion alpha x s m q)
  /\ (q <> 0 -> forall x y, 0 < x < y -> y < 1 - exp 1 * m ^ 2 / s -> dndx_photon_ap_fermion alpha y s m q < dndx_photon_ap_fermion alpha x s m q)
  /\ (forall x, 0 < x -> continuity_pt (fun y => dndx_photon_ap_fermion alpha y s m q) x).
Proof.
  intros alpha s m q Ha Hs Hm. pose proof (endpoint_lt s m Hs Hm) as E1. fold (endpoint s m). unfold dndx_photon_ap_fermion. split; [|split; [|split; [|split]]].
  - intros x Hx. apply dndx_nonneg; auto. intros _. left. now apply fermion_splitting_pos.
  - intros x Hx. now apply dndx_above.
  - intros Hq x Hx. apply dndx_positive; auto; [apply Hx|]. apply fermion_splitting_pos, Hx.
  - intros Hq x y Hx Hy. apply dndx_decreasing; auto; [apply Hx|]. split; [apply fermion_splitting_pos; lra|apply fermion_splitting_dec; lra].
  - intros x Hx. apply dndx_continuous; auto. eexists. unfold fermion_splitting. apply dl_div; [|apply dl_id|lra].
    apply dl_plus; [apply dl_const|]. apply dl_pow. apply dl_minus; [apply dl_const|apply dl_id].
Qed.
Print Assumptions ap_fermion_shape.
Theorem ap_scalar_shape : forall alpha s m q, 0 < alpha -> 0 < s -> 0 < m ->
  (forall x, 0 < x -> 0 <= dndx_photon_ap_scalar alpha x s m q)
  /\ (forall x, 1 - exp 1 * m ^ 2 / s <= x -> dndx_photon_ap_scalar alpha x s m q = 0)
  /\ (q <> 0 -> forall x, 0 < x < 1 - exp 1 * m ^ 2 / s -> 0 < dndx_photon_ap_scalar alpha x s m q)
  /\ (q <> 0 -> forall x y, 0 < x < y -> y < 1 - exp 1 * m ^ 2 / s -> dndx_photon_ap_scalar alpha y s m q < dndx_photon_ap_scalar alpha x s m q)
  /\ (forall x, 0 < x -> continuity_pt (fun y => dndx_photon_ap_scalar alpha y s m q) x).
Proof.
  intros alpha s m q Ha Hs Hm. pose proof (endpoint_lt s m Hs Hm) as E1. fold (endpoint s m). unfold dndx_photon_ap_scalar. split; [|split; [|split; [|split]]].
  - intros x Hx. apply dndx_nonneg; auto. intros H. left. apply scalar_splitting_pos. lra.
  - intros x Hx. now apply dndx_above.
  - intros Hq x Hx. apply dndx_positive; auto; [apply Hx|]. apply scalar_splitting_pos. lra.
  - intros Hq x y Hx Hy. apply dndx_decreasing; auto; [apply Hx|]. split; [apply scalar_splitting_pos; lra|apply scalar_splitting_dec; lra].
  - intros x Hx. apply dndx_continuous; auto. eexists. unfold scalar_splitting. apply dl_div; [|apply dl_id|lra].
    apply dl_mult; [apply dl_const|]. apply dl_minus; [apply dl_const|apply dl_id].
Qed.
Print Assumptions ap_scalar_shape.
Lemma exp1_lt_4 : exp 1 < 4.
Proof.
  pose proof (exp_ineq1 (- (1 / 2)) ltac:(lra)) as H. assert (E : exp (1 / 2) * exp (- (1 / 2)) = 1) by (rewrite <- exp_plus; replace (1 / 2 + - (1 / 2)) with 0 by lra; apply exp_0).
  assert (E2 : exp (1 / 2) * exp (1 / 2) = exp 1) by (rewrite <- exp_plus; f_equal; lra). pose proof (exp_pos (1 / 2)). set (a := exp (1 / 2)) in *. set (b := exp (- (1 / 2))) in *.
  clearbody a b. rewrite <- E2. assert (a < 2) by nra. nra.
Qed.
(** non-vacuous: a muon pair-like system with s = 100 m^2 radiates at half the maximal energy but not at x = 1 *)
Example ap_shape_instance : 0 < (1 / 2 : R) < 1 - exp 1 * 1 ^ 2 / 100 /\ 1 - exp 1 * 1 ^ 2 / 100 <= 1.
Proof. pose proof exp1_lt_4. pose proof exp1_pos. lra. Qed.

(** The soft limit x dN/dx -> q^2 alpha/pi (ln(s/m^2) - 1) is the same for fermions and scalars, and below the
    endpoint the fermion radiates more by q^2 alpha/(2 pi) x (ln(s (1-x)/m^2) - 1). *)
Theorem ap_soft_photons : forall alpha s m q, 0 < alpha -> 0 < s -> 0 < m -> exp 1 * m ^ 2 < s ->
  (forall eps, 0 < eps -> exists d, 0 < d /\ forall x, 0 < x < d ->
     Rabs (x * dndx_photon_ap_fermion alpha x s m q - q ^ 2 * alpha / PI * (ln (s / m ^ 2) - 1)) < eps
     /\ Rabs (x * dndx_photon_ap_scalar alpha x s m q - q ^ 2 * alpha / PI * (ln (s / m ^ 2) - 1)) < eps)
  /\ (forall x, 0 < x < 1 - exp 1 * m ^ 2 / s ->
     dndx_photon_ap_fermion alpha x s m q - dndx_photon_ap_scalar alpha x s m q
     = q ^ 2 * alpha / (2 * PI) * x * (ln (s * (1 - x) / m ^ 2) - 1)).
Proof.
  intros alpha s m q Ha Hs Hm Hms. assert (He : 0 < endpoint s m).
  { unfold endpoint. assert (exp 1 * m ^ 2 / s < 1); [|lra]. apply Rmult_lt_reg_r with s; [lra|]. unfold Rdiv. rewrite Rmult_assoc, Rinv_l by lra. lra. }
  split.
  - intros eps Heps. unfold dndx_photon_ap_fermion, dndx_photon_ap_scalar.
    destruct (soft_limit alpha fermion_splitting (fun x => 1 + (1 - x) ^ 2) q s m) with (eps := eps) as (d1 & Hd1 & H1); auto.
    + intros x Hx. unfold fermion_splitting. field. lra.
    + eexists. apply dl_plus; [apply dl_const|]. apply dl_pow. apply dl_minus; [apply dl_const|apply dl_id].
    + ring.
    + destruct (soft_limit alpha scalar_splitting (fun x => 2 * (1 - x)) q s m) with (eps := eps) as (d2 & Hd2 & H2); auto.
      * intros x Hx. unfold scalar_splitting. field. lra.
      * eexists. apply dl_mult; [apply dl_const|]. apply dl_minus; [apply dl_const|apply dl_id].
      * ring.
      * exists (Rmin d1 d2). split; [now apply Rmin_pos|]. intros x Hx. pose proof (Rmin_l d1 d2). pose proof (Rmin_r d1 d2).
        split; [apply H1|apply H2]; lra.
  - intros x Hx. unfold dndx_photon_ap_fermion, dndx_photon_ap_scalar. fold (endpoint s m) in Hx. rewrite !dndx_below by (try assumption; apply Hx).
    unfold fermion_splitting, scalar_splitting. pose proof PI_RGT_0. field. lra.
Qed.
Print Assumptions ap_soft_photons.

(** Twice the charge radiates four times as much; a neutral particle does not radiate; the sign of the charge is
    irrelevant. *)
Theorem ap_charge : forall alpha x s m q k,
  dndx_photon_ap_fermion alpha x s m (k * q) = k ^ 2 * dndx_photon_ap_fermion alpha x s m q
  /\ dndx_photon_ap_scalar alpha x s m (k * q) = k ^ 2 * dndx_photon_ap_scalar alpha x s m q
  /\ dnde_photon_ap_fermion alpha x s m (k * q) = k ^ 2 * dnde_photon_ap_fermion alpha x s m q
  /\ dnde_photon_ap_scalar alpha x s m (k * q) = k ^ 2 * dnde_photon_ap_scalar alpha x s m q.
Proof.
  intros. unfold dndx_photon_ap_fermion, dndx_photon_ap_scalar, dnde_photon_ap_fermion, dnde_photon_ap_scalar, dnde_photon_fsr_ap, dndx_photon_fsr.
  cbv zeta. unfold Rdiv. repeat split; ring.
Qed.
Print Assumptions ap_charge.

(** The spectrum in the energy is the spectrum in x = 2E/sqrt(s): the number of photons with energies between a
    and b is the number with fractions between 2a/sqrt(s) and 2b/sqrt(s), and it exists. *)
Theorem ap_energy : forall alpha s m q a b, 0 < alpha -> 0 < s -> 0 < m -> 0 < a <= b ->
  (forall e, dnde_photon_ap_fermion alpha e s m q = 2 / sqrt s * dndx_photon_ap_fermion alpha (2 * e / sqrt s) s m q
    /\ dnde_photon_ap_scalar alpha e s m q = 2 / sqrt s * dndx_photon_ap_scalar alpha (2 * e / sqrt s) s m q)
  /\ (exists v, area (fun e => dnde_photon_ap_fermion alpha e s m q) a b v
        /\ area (fun x => dndx_photon_ap_fermion alpha x s m q) (2 * a / sqrt s) (2 * b / sqrt s) v)
  /\ (exists v, area (fun e => dnde_photon_ap_scalar alpha e s m q) a b v
        /\ area (fun x => dndx_photon_ap_scalar alpha x s m q) (2 * a / sqrt s) (2 * b / sqrt s) v).
Proof.
  intros alpha s m q a b Ha Hs Hm Hab. assert (Hr : 0 < sqrt s) by now apply sqrt_lt_R0.
  assert (E : forall e, 2 * e / sqrt s = 2 / sqrt s * e) by (intro; field; lra).
  assert (Hk : 0 < 2 / sqrt s) by (apply Rdiv_lt_0_compat; lra).
  split; [|split].
  - intro e. unfold dnde_photon_ap_fermion, dnde_photon_ap_scalar, dnde_photon_fsr_ap, dndx_photon_ap_fermion, dndx_photon_ap_scalar. cbv zeta.
    rewrite (Rmult_comm e), E. split; ring.
  - destruct (area_exists (fun x => dndx_photon_ap_fermion alpha x s m q) (2 * a / sqrt s) (2 * b / sqrt s)) as (v & V).
    + rewrite !E. apply Rmult_le_compat_l; lra.
    + intros x Hx. apply (ap_fermion_shape alpha s m q Ha Hs Hm). rewrite E in Hx. assert (0 < 2 / sqrt s * a) by (apply Rmult_lt_0_compat; lra). lra.
    + exists v. split; [|exact V]. rewrite !E in V. apply area_stretch in V; [|exact Hk]. refine (area_ext _ _ _ _ _ [] _ V).
      intros x _ _. unfold dnde_photon_ap_fermion, dnde_photon_fsr_ap. cbv zeta. now rewrite (Rmult_comm x).
  - destruct (area_exists (fun x => dndx_photon_ap_scalar alpha x s m q) (2 * a / sqrt s) (2 * b / sqrt s)) as (v & V).
    + rewrite !E. apply Rmult_le_compat_l; lra.
    + intros x Hx. apply (ap_scalar_shape alpha s m q Ha Hs Hm). rewrite E in Hx. assert (0 < 2 / sqrt s * a) by (apply Rmult_lt_0_compat; lra). lra.
    + exists v. split; [|exact V]. rewrite !E in V. apply area_stretch in V; [|exact Hk]. refine (area_ext _ _ _ _ _ [] _ V).
      intros x _ _. unfold dnde_photon_ap_scalar, dnde_photon_fsr_ap. cbv zeta. now rewrite (Rmult_comm x).
Qed.
Print Assumptions ap_energy.

(** The deprecated functions of hazma.utils describe a pair of unit charges: twice the new functions. *)
Theorem ap_deprecated : forall alpha e cme m q, 0 < cme -> 0 < m -> q ^ 2 = 1 ->
  dnde_altarelli_parisi_fermion alpha e cme m = 2 * dnde_photon_ap_fermion alpha e (cme ^ 2) m q
  /\ dnde_altarelli_parisi_scalar alpha e cme m = 2 * dnde_photon_ap_scalar alpha e (cme ^ 2) m q.
Proof.
  intros alpha e cme m q Hc Hm Hq. assert (Hs : 0 < cme ^ 2) by (apply pow_lt; lra).
  assert (G : forall split, dnde_altarelli_parisi alpha e cme m split = 2 * dnde_photon_fsr_ap alpha e (cme ^ 2) m split q).
  { intro split. unfold dnde_altarelli_parisi, dnde_photon_fsr_ap. cbv zeta. rewrite sqrt_pow2 by lra.
    replace (e * (2 / cme)) with (2 * e / cme) by (field; lra). set (x := 2 * e / cme).
    assert (EE : 1 - exp 1 * (m / cme) ^ 2 = endpoint (cme ^ 2) m) by (unfold endpoint; field; lra). rewrite EE.
    pose proof PI_RGT_0. destruct (Rlt_dec (endpoint (cme ^ 2) m) x) as [H1|H1].
    - rewrite dndx_above by lra. ring.
    - destruct (Req_dec x (endpoint (cme ^ 2) m)) as [Ex|Ex].
      + rewrite dndx_above by lra. rewrite Ex. replace ((1 - endpoint (cme ^ 2) m) / (m / cme) ^ 2) with (exp 1); [rewrite ln_exp; ring|].
        unfold endpoint. field. lra.
      + rewrite dndx_below by lra. rewrite Hq. replace ((1 - x) / (m / cme) ^ 2) with (cme ^ 2 * (1 - x) / m ^ 2) by (field; lra). field. lra. }
  unfold dnde_altarelli_parisi_fermion, dnde_altarelli_parisi_scalar, dnde_photon_ap_fermion, dnde_photon_ap_scalar. split; apply G.
Qed.
Print Assumptions ap_deprecated.

(** Outside the kinematic range the spectrum is not always zero: at negative fractions (and so at negative photon
    energies) it is negative. *)
Theorem ap_range_refuted : forall alpha, 0 < alpha -> exists x s m, x < 0 /\ 0 < s /\ 0 < m
  /\ dndx_photon_ap_fermion alpha x s m 1 < 0 /\ dndx_photon_ap_scalar alpha x s m 1 < 0.
Proof.
  intros alpha Ha. exists (-1), 4, 1. pose proof exp1_lt_4 as E3.
  assert (H : -1 < endpoint 4 1) by (unfold endpoint; lra). split; [lra|]. split; [lra|]. split; [lra|].
  unfold dndx_photon_ap_fermion, dndx_photon_ap_scalar. rewrite !dndx_below by lra.
  pose proof (log_positive (-1) 4 1 ltac:(lra) ltac:(lra) H) as L. pose proof (pre_pos alpha Ha 1 ltac:(lra)) as P.
  unfold fermion_splitting, scalar_splitting. set (A := 1 ^ 2 * alpha / (2 * PI)) in *. set (B := ln (4 * (1 - -1) / 1 ^ 2) - 1) in *. clearbody A B.
  split; [replace (A * ((1 + (1 - -1) ^ 2) / -1 * B)) with (- (5 * (A * B))) by field|replace (A * (2 * (1 - -1) / -1 * B)) with (- (4 * (A * B))) by field];
    assert (0 < A * B) by (now apply Rmult_lt_0_compat); lra.
Qed.
Print Assumptions ap_range_refuted.

(** * Vocabulary of the n-body spectra *)
Section Nbody.
Variable photon positron : string -> R -> R -> R.
Variable neutrino : string -> R -> R -> R * R * R.
Variable fsr : string -> R -> R -> R.
Notation Photon_fsr := (dnde_photon_fsr photon positron neutrino fsr).

(** * C58: photons radiated by the final state *)
(** What the code returns with average_fsr, for any list of at least two particles and any distributions of the
    pairs: each charged particle contributes its radiation divided by the number of particles of its name. *)
Theorem averaged_radiation : forall ep fs D, (2 <= length fs)%nat -> (forall i j, matched (D i j)) ->
  Photon_fsr ep fs (all_pairs D (length fs)) true
  = Ret (sum (fun i => if in_dec string_dec (nth i fs "") ["e"; "mu"; "pi"; "k"]
                       then radiated fsr ep fs D i / INR (count_occ string_dec fs (nth i fs "")) else 0) (seq 0 (length fs))).
Proof. intros. now apply averaged. Qed.
(** The sum over all charged particles: what the documentation promises. *)
Definition radiation (ep : R) (fs : list string) (D : nat -> nat -> pdist) : R :=
  sum (fun i => if in_dec string_dec (nth i fs "") ["e"; "mu"; "pi"; "k"] then radiated fsr ep fs D i else 0) (seq 0 (length fs)).
(** It is returned when no charged name occurs twice. *)
Theorem averaged_radiation_partial : forall ep fs D, (2 <= length fs)%nat -> (forall i j, matched (D i j)) ->
  (forall s, In s ["e"; "mu"; "pi"; "k"] -> (count_occ string_dec fs s <= 1)%nat) ->
  Photon_fsr ep fs (all_pairs D (length fs)) true = Ret (radiation ep fs D).
Proof.
  intros ep fs D Hn M Hc. rewrite averaged_radiation by assumption. f_equal. unfold radiation. apply sum_ext. intros i Hi. apply in_seq in Hi.
  destruct (in_dec string_dec (nth i fs "") ["e"; "mu"; "pi"; "k"]) as [H|H]; [|reflexivity].
  assert (In (nth i fs "") fs) as Hin by (apply nth_In; lia). apply (count_occ_In string_dec) in Hin. specialize (Hc _ H).
  replace (count_occ string_dec fs (nth i fs "")) with 1%nat by lia. cbn [INR]. field.
Qed.
(** A final state made of k copies of a charged particle and neutral ones radiates as one: the documented sum divided by k. *)
Theorem averaged_radiation_repeated : forall ep fs D s k, (2 <= length fs)%nat -> (forall i j, matched (D i j)) ->
  In s ["e"; "mu"; "pi"; "k"] -> (forall x, In x fs -> In x ["e"; "mu"; "pi"; "k"] -> x = s) -> count_occ string_dec fs s = k ->
  Photon_fsr ep fs (all_pairs D (length fs)) true = Ret (radiation ep fs D / INR k).
Proof.
  intros ep fs D s k Hn M Hs Ho Hk. rewrite averaged_radiation by assumption. f_equal. unfold radiation, Rdiv. rewrite Rmult_comm, <- sum_scal.
  apply sum_ext. intros i Hi. apply in_seq in Hi. destruct (in_dec string_dec (nth i fs "") ["e"; "mu"; "pi"; "k"]) as [H|H]; [|ring].
  assert (In (nth i fs "") fs) as Hin by (apply nth_In; lia). rewrite (Ho _ Hin H), Hk. ring.
Qed.
(** Without averaging only the first particle of each name radiates, with the first pair that contains it. *)
Theorem unaveraged_radiation : forall ep fs D, (2 <= length fs)%nat -> (forall i j, matched (D i j)) ->
  Photon_fsr ep fs (all_pairs D (length fs)) false
  = Ret (sum (fun i => if in_dec string_dec (nth i fs "") ["e"; "mu"; "pi"; "k"]
                       then if in_dec string_dec (nth i fs "") (firstn i fs) then 0
                            else weigh (D 0%nat (Nat.max 1 i)) (fun e => fsr (nth i fs "") ep e) else 0) (seq 0 (length fs))).
Proof. intros. now apply unaveraged. Qed.
End Nbody.
Print Assumptions averaged_radiation.
Print Assumptions averaged_radiation_partial.
Print Assumptions averaged_radiation_repeated.
Print Assumptions unaveraged_radiation.

(** two muons and a neutral pion: a distribution of two bins of probability one half, and one photon per unit of
    energy from each muon: the sum over the charged particles is 2, the code returns 1 *)
Definition two_bins : pdist := ([0; 2], [1 / 2; 1 / 2]).
Lemma two_bins_one : weigh two_bins (fun _ => 1) = 1.
Proof. unfold weigh, two_bins. cbn [fst snd length seq Nat.sub]. rewrite sum_cons, sum_nil. cbn [nth]. field. Qed.
Theorem averaged_radiation_refuted : exists fsr ep fs D,
  (forall i j, matched (D i j)) /\ radiation fsr ep fs D = 2
  /\ (forall photon positron neutrino, dnde_photon_fsr photon positron neutrino fsr ep fs (all_pairs D (length fs)) true = Ret 1).
Proof.
  exists (fun _ _ _ => 1), 1, ["mu"; "mu"; "pi0"], (fun _ _ => two_bins).
  assert (M : forall i j : nat, matched two_bins) by (intros; reflexivity).
  assert (E : radiation (fun _ _ _ => 1) 1 ["mu"; "mu"; "pi0"] (fun _ _ => two_bins) = 2).
  { unfold radiation, radiated, between. cbn [length seq Nat.sub INR]. rewrite !sum_cons, !sum_nil. cbn [nth].
    destruct (in_dec string_dec "mu" ["e"; "mu"; "pi"; "k"]) as [_|H]; [|exfalso; apply H; cbn; auto].
    destruct (in_dec string_dec "pi0" ["e"; "mu"; "pi"; "k"]) as [H|_]; [cbn in H; intuition discriminate|].
    cbn [Nat.eq_dec nat_rec nat_rect]. rewrite !two_bins_one. cbn. field. }
  split; [exact M|]. split; [exact E|]. intros.
  rewrite (averaged_radiation_repeated photon positron neutrino (fun _ _ _ => 1) 1 ["mu"; "mu"; "pi0"] (fun _ _ => two_bins) "mu" 2);
    [|cbn; lia|exact M|cbn; tauto| |reflexivity].
  - rewrite E. f_equal. cbn [INR]. field.
  - intros x [<-|[<-|[<-|[]]]] H; try reflexivity. cbn in H. intuition discriminate.
Qed.
Print Assumptions averaged_radiation_refuted.
Example averaged_radiation_instance : (2 <= length ["mu"; "pi"; "pi0"])%nat /\ (forall i j : nat, matched two_bins)
  /\ (forall s, In s ["e"; "mu"; "pi"; "k"] -> (count_occ string_dec ["mu"; "pi"; "pi0"] s <= 1)%nat)
  /\ radiation (fun _ _ _ => 1) 1 ["mu"; "pi"; "pi0"] (fun _ _ => two_bins) = 2.
Proof.
  split; [cbn; lia|]. split; [reflexivity|]. split.
  - intros s [<-|[<-|[<-|[<-|[]]]]]; cbn; lia.
  - unfold radiation, radiated, between. cbn [length seq Nat.sub INR]. rewrite !sum_cons, !sum_nil. cbn [nth].
    destruct (in_dec string_dec "mu" ["e"; "mu"; "pi"; "k"]) as [_|H]; [|exfalso; apply H; cbn; auto].
    destruct (in_dec string_dec "pi" ["e"; "mu"; "pi"; "k"]) as [_|H]; [|exfalso; apply H; cbn; auto].
    destruct (in_dec string_dec "pi0" ["e"; "mu"; "pi"; "k"]) as [H|_]; [cbn in H; intuition discriminate|].
    cbn [Nat.eq_dec nat_rec nat_rect]. rewrite !two_bins_one. cbn. field.
Qed.

(** * C80: sums over the particles of the final state *)
Section Sums.
Variable sm_masses : string -> option R.
Variable photon positron : string -> R -> R -> R.
Variable neutrino : string -> R -> R -> R * R * R.
Variable fsr : string -> R -> R -> R.
Notation Two := (dnde_two_body sm_masses photon positron neutrino fsr).
Notation Photon := (dnde_photon sm_masses photon positron neutrino fsr).
Notation Positron := (dnde_positron sm_masses photon positron neutrino fsr).
Notation Neutrino := (dnde_neutrino sm_masses photon positron neutrino fsr).
Notation Nbody := (dnde_nbody sm_masses photon positron neutrino fsr).

(** ** What one particle of a given energy decays to *)
Definition listed (s : string) : Prop :=
  In s ["e"; "ve"; "vm"; "vt"; "mu"; "pi"; "pi0"; "k"; "kl"; "ks"; "eta"; "etap"; "rho"; "rho0"; "omega"; "phi"].
Definition silent (product s : string) : Prop :=
  In s ["e"; "ve"; "vm"; "vt"] \/ (product <> "photon" /\ In s ["pi0"; "rho0"]).
Inductive decay_value (ep e : R) : string -> string -> R -> Prop :=
| DVnone product s : ~ listed s -> decay_value ep e product s 0
| DVsilent product s : listed s -> silent product s -> decay_value ep e product s 0
| DVphoton s : listed s -> ~ silent "photon" s -> decay_value ep e "photon" s (photon s ep e)
| DVpositron s : listed s -> ~ silent "positron" s -> decay_value ep e "positron" s (positron s ep e)
| DVve s a b c : listed s -> ~ silent "ve" s -> neutrino s ep e = (a, b, c) -> decay_value ep e "ve" s a
| DVvm s a b c : listed s -> ~ silent "vm" s -> neutrino s ep e = (a, b, c) -> decay_value ep e "vm" s b
| DVvt s a b c : listed s -> ~ silent "vt" s -> neutrino s ep e = (a, b, c) -> decay_value ep e "vt" s c.

Definition decay_of (ep : R) (product s : string) (e : R) : R :=
  match spectrum photon positron neutrino fsr product s with Some f => nth 0 (f ep e) 0 | None => 0 end.
Definition products : list string := ["photon"; "positron"; "ve"; "vm"; "vt"].
Lemma decay_spec ep e product s : In product products -> decay_value ep e product s (decay_of ep product s e).
Proof.
  intro Hp. unfold decay_of, spectrum. assert (F : String.eqb product "fsr" = false) by (destruct Hp as [<-|[<-|[<-|[<-|[<-|[]]]]]]; reflexivity).
  rewrite F. destruct (mem s spectrum_keys) eqn:E; [apply mem_In in E|apply DVnone; intro H; apply mem_not in E; now apply E].
  assert (Hz : forall l, (l = zero_positron \/ l = zero_neutrino) -> forall P, P <> "photon" -> (mem s l = true -> silent P s) /\ (mem s l = false -> ~ silent P s)).
  { intros l Hl P HP. split; intro H.
    - apply mem_In in H. unfold silent. destruct Hl as [-> | ->]; cbn in H |- *; tauto.
    - apply mem_not in H. intros [Hx|[_ Hx]]; apply H; destruct Hl as [-> | ->]; cbn in Hx |- *; tauto. }
  destruct Hp as [<-|[<-|[<-|[<-|[<-|[]]]]]]; cbn [String.eqb Ascii.eqb Bool.eqb nth]; unfold nu_rows.
  - destruct (mem s zero_photon) eqn:Z.
    + apply DVsilent; [exact E|]. left. now apply mem_In.
    + apply DVphoton; [exact E|]. apply mem_not in Z. intros [H|[H _]]; [now apply Z|now apply H].
  - destruct (mem s zero_positron) eqn:Z; [apply DVsilent|apply DVpositron]; try exact E; apply (Hz zero_positron); auto; discriminate.
  - destruct (mem s zero_neutrino) eqn:Z; [apply DVsilent; [exact E|]|].
    + apply (Hz zero_neutrino); auto; discriminate.
    + destruct (neutrino s ep e) as [[a b] c] eqn:En. apply (DVve ep e s a b c); auto. apply (Hz zero_neutrino); auto; discriminate.
  - destruct (mem s zero_neutrino) eqn:Z; [apply DVsilent; [exact E|]|].
    + apply (Hz zero_neutrino); auto; discriminate.
    + destruct (neutrino s ep e) as [[a b] c] eqn:En. apply (DVvm ep e s a b c); auto. apply (Hz zero_neutrino); auto; discriminate.
  - destruct (mem s zero_neutrino) eqn:Z; [apply DVsilent; [exact E|]|].
    + apply (Hz zero_neutrino); auto; discriminate.
    + destruct (neutrino s ep e) as [[a b] c] eqn:En. apply (DVvt ep e s a b c); auto. apply (Hz zero_neutrino); auto; discriminate.
Qed.
Lemma decay_unique ep e product s u v : decay_value ep e product s u -> decay_value ep e product s v -> u = v.
Proof.
  intros H H'. destruct H; inversion H'; subst; try tauto; try reflexivity; congruence.
Qed.
(** [decay_of] is the value so described *)
Theorem decay_contribution : forall ep e product s v, In product products -> (decay_value ep e product s v <-> v = decay_of ep product s e).
Proof.
  intros ep e product s v Hp. split; [|intros ->; now apply decay_spec]. intro H. eapply decay_unique; [exact H|now apply decay_spec].
Qed.
(** particles of the final state that are the product *)
Definition prompt (product s : string) : Prop := (product = "positron" /\ s = "e") \/ (s = product /\ In s ["ve"; "vm"; "vt"]).
Lemma prompt_dec product s : {prompt product s} + {~ prompt product s}.
Proof.
  unfold prompt. destruct (string_dec product "positron"), (string_dec s "e"), (string_dec s product), (in_dec string_dec s ["ve"; "vm"; "vt"]); tauto.
Qed.

(** ** Loops *)
Lemma spectrum_one product s f : In product products -> spectrum photon positron neutrino fsr product s = Some f -> forall ep e, f ep e = [decay_of ep product s e].
Proof.
  intros Hp E ep e. unfold decay_of. rewrite E. revert E. unfold spectrum.
  destruct Hp as [<-|[<-|[<-|[<-|[<-|[]]]]]]; cbn [String.eqb Ascii.eqb Bool.eqb]; destruct (mem s spectrum_keys); try discriminate; intros [= <-]; reflexivity.
Qed.
Lemma spectrum_listed product s : In product products -> listed s -> exists f, spectrum photon positron neutrino fsr product s = Some f.
Proof.
  intros Hp Hs. apply (mem_In s spectrum_keys) in Hs. unfold spectrum. rewrite Hs.
  destruct Hp as [<-|[<-|[<-|[<-|[<-|[]]]]]]; cbn [String.eqb Ascii.eqb Bool.eqb]; eexists; reflexivity.
Qed.
Lemma rows_one product : In product products -> rows product = 1%nat.
Proof. intros [<-|[<-|[<-|[<-|[<-|[]]]]]]; reflexivity. Qed.
Definition direct (ep : R) (product s : string) (d : pdist) : R := if prompt_dec product s then np_interp ep (fst d) (snd d) else 0.
Lemma multi_one ep product l : In product products -> (forall ds, In ds l -> matched (fst ds) /\ listed (snd ds)) -> forall a,
  multi_loop photon positron neutrino fsr ep product l [a]
  = Ret [a + sum (fun ds => weigh (fst ds) (decay_of ep product (snd ds)) + direct ep product (snd ds) (fst ds)) l].
Proof.
  intros Hp. induction l as [|[d s] l IH]; intros H a; [rewrite sum_nil, Rplus_0_r; reflexivity|]. cbn [multi_loop].
  destruct (H (d, s)) as [M L]; [now left|]. cbn [fst snd] in *. destruct (spectrum_listed product s Hp L) as (f & Ef).
  rewrite (conv_row _ _ _ _ ep d s product f Ef M), (rows_one _ Hp). cbn [bind seq map badd].
  rewrite (weigh_ext d _ (decay_of ep product s)) by (intro e; now rewrite (spectrum_one product s f Hp Ef)).
  assert (C : (String.eqb s product || (String.eqb s "e" && String.eqb product "positron") || (mem s ["ve"; "vm"; "vt"] && String.eqb product "neutrino"))%bool = true <-> prompt product s).
  { unfold prompt. assert (Nn : String.eqb product "neutrino" = false) by (destruct Hp as [<-|[<-|[<-|[<-|[<-|[]]]]]]; reflexivity). rewrite Nn, andb_false_r, orb_false_r.
    rewrite orb_true_iff, andb_true_iff, !String.eqb_eq. split.
    - intros [-> |[-> ->]]; [|now left]. right. split; [reflexivity|]. destruct Hp as [<-|[<-|[<-|[<-|[<-|[]]]]]]; cbn; auto; cbn in L; intuition discriminate.
    - intros [[-> ->]|[-> _]]; auto. }
  rewrite sum_cons. cbn [fst snd]. unfold direct at 1.
  destruct (String.eqb s product || (String.eqb s "e" && String.eqb product "positron") || (mem s ["ve"; "vm"; "vt"] && String.eqb product "neutrino"))%bool;
    destruct (prompt_dec product s) as [P|P].
  - cbn [badd map]. rewrite IH by (intros; apply H; now right). f_equal. f_equal. ring.
  - exfalso. now apply P, C.
  - exfalso. apply C in P. discriminate P.
  - rewrite IH by (intros; apply H; now right). f_equal. f_equal. ring.
Qed.

(** three or more particles: the sum over them of what each decays to at the energies of its distribution, plus the
    distributions of the particles that are the product, plus the radiation *)
Theorem nbody_sum : forall ep product fs edists mdists avg, In product products -> Forall listed fs -> Forall matched edists -> length edists = length fs ->
  dnde_multi_particle photon positron neutrino fsr ep fs product edists mdists false avg
  = Ret [sum (fun ds => weigh (fst ds) (decay_of ep product (snd ds)) + direct ep product (snd ds) (fst ds)) (combine edists fs)]
  /\ (product = "photon" -> (2 <= length fs)%nat -> forall D, (forall i j, matched (D i j)) -> mdists = all_pairs D (length fs) ->
      dnde_multi_particle photon positron neutrino fsr ep fs product edists mdists true true
      = Ret [sum (fun ds => weigh (fst ds) (decay_of ep product (snd ds))) (combine edists fs)
             + sum (fun i => if in_dec string_dec (nth i fs "") ["e"; "mu"; "pi"; "k"]
                     then radiated fsr ep fs D i / INR (count_occ string_dec fs (nth i fs "")) else 0) (seq 0 (length fs))]).
Proof.
  intros ep product fs edists mdists avg Hp Hl Hm Hlen.
  assert (A : forall ds, In ds (combine edists fs) -> matched (fst ds) /\ listed (snd ds)).
  { intros [d s] H. split; [apply in_combine_l in H; now apply (proj1 (Forall_forall _ _) Hm)|apply in_combine_r in H; now apply (proj1 (Forall_forall _ _) Hl)]. }
  unfold dnde_multi_particle. rewrite (multi_one ep product _ Hp A 0), Rplus_0_l. cbn [bind]. split; [now rewrite andb_false_r|].
  intros -> Hn D M ->. cbn [String.eqb Ascii.eqb Bool.eqb andb]. rewrite averaged_radiation by assumption. cbn [bind badd map]. f_equal. f_equal. f_equal.
  apply sum_ext. intros [d s] _. unfold direct. destruct (prompt_dec "photon" (snd (d, s))) as [P|P]; [|cbn [fst snd]; ring].
  destruct P as [[P _]|[P P']]; [discriminate P|]. cbn [snd] in *. subst s. cbn in P'. intuition discriminate.
Qed.

(** ** Neutrinos of every flavour *)
Definition nus (l : list (pdist * string)) (ep : R) : R :=
  sum (fun ds => if in_dec string_dec (snd ds) ["ve"; "vm"; "vt"] then np_interp ep (fst (fst ds)) (snd (fst ds)) else 0) l.
Definition flavoured (ep : R) (product : string) (l : list (pdist * string)) : R := sum (fun ds => weigh (fst ds) (decay_of ep product (snd ds))) l.
Lemma multi_three ep l : (forall ds, In ds l -> matched (fst ds) /\ listed (snd ds)) -> forall a b c,
  multi_loop photon positron neutrino fsr ep "neutrino" l [a; b; c]
  = Ret [a + (flavoured ep "ve" l + nus l ep); b + (flavoured ep "vm" l + nus l ep); c + (flavoured ep "vt" l + nus l ep)].
Proof.
  unfold flavoured, nus. induction l as [|[d s] l IH]; intros H a b c; [rewrite !sum_nil, !Rplus_0_r; reflexivity|]. cbn [multi_loop].
  destruct (H (d, s)) as [M L]; [now left|]. cbn [fst snd] in *.
  assert (exists f, spectrum photon positron neutrino fsr "neutrino" s = Some f /\ forall e, f ep e = [decay_of ep "ve" s e; decay_of ep "vm" s e; decay_of ep "vt" s e]) as (f & Ef & Ff).
  { apply (mem_In s spectrum_keys) in L. unfold decay_of, spectrum. rewrite L. cbn [String.eqb Ascii.eqb Bool.eqb]. eexists. split; [reflexivity|]. intro e. cbn [nth].
    destruct (nu_rows neutrino s ep e) as [[x y] z]. reflexivity. }
  rewrite (conv_row _ _ _ _ ep d s "neutrino" f Ef M). change (rows "neutrino") with 3%nat. cbn [bind seq map].
  rewrite (weigh_ext d (fun e => nth 0 (f ep e) 0) (decay_of ep "ve" s)), (weigh_ext d (fun e => nth 1 (f ep e) 0) (decay_of ep "vm" s)),
    (weigh_ext d (fun e => nth 2 (f ep e) 0) (decay_of ep "vt" s)) by (intro; now rewrite Ff).
  cbn [badd map combine fst snd]. rewrite !sum_cons. cbn [fst snd].
  replace (String.eqb s "neutrino") with false by (symmetry; apply String.eqb_neq; intros ->; cbn in L; intuition discriminate).
  cbn [orb]. change (String.eqb "neutrino" "positron") with false. rewrite andb_false_r. cbn [orb]. change (String.eqb "neutrino" "neutrino") with true. rewrite andb_true_r.
  destruct (mem s ["ve"; "vm"; "vt"]) eqn:E.
  - apply mem_In in E. destruct (in_dec string_dec s ["ve"; "vm"; "vt"]); [|tauto]. cbn [badd map]. rewrite IH by (intros; apply H; now right).
    f_equal. f_equal; [ring|]. f_equal; [ring|]. f_equal. ring.
  - apply mem_not in E. destruct (in_dec string_dec s ["ve"; "vm"; "vt"]); [tauto|]. rewrite IH by (intros; apply H; now right).
    f_equal. f_equal; [ring|]. f_equal; [ring|]. f_equal. ring.
Qed.
Lemma conv_three ep d s c : listed s -> matched d -> conv_dnde_dist photon positron neutrino fsr ep d s "neutrino" = Ret c -> exists x y z, c = [x; y; z].
Proof.
  intros L M. apply (mem_In s spectrum_keys) in L. rewrite (conv_row _ _ _ _ ep d s "neutrino" (fun ep e => let '(a, b, c) := nu_rows neutrino s ep e in [a; b; c])); [|unfold spectrum; now rewrite L|assumption].
  intros [= <-]. cbn [rows String.eqb Ascii.eqb Bool.eqb seq map]. eauto.
Qed.
Lemma multi_start ep l : l <> [] -> (forall ds, In ds l -> matched (fst ds) /\ listed (snd ds)) ->
  multi_loop photon positron neutrino fsr ep "neutrino" l [0] = multi_loop photon positron neutrino fsr ep "neutrino" l [0; 0; 0].
Proof.
  destruct l as [|[d s] l]; [congruence|]. intros _ H. cbn [multi_loop]. destruct (H (d, s)) as [M L]; [now left|]. cbn [fst snd] in *.
  destruct (conv_dnde_dist photon positron neutrino fsr ep d s "neutrino") as [c|e] eqn:E; [|reflexivity]. destruct (conv_three ep d s c L M E) as (x & y & z & ->).
  cbn [bind]. replace (badd [0; 0; 0] [x; y; z]) with (badd [0] [x; y; z]) by reflexivity. reflexivity.
Qed.
Lemma masses_known fs : (forall s, In s fs -> exists m, sm_masses s = Some m) -> exists ms, get_masses sm_masses fs = Ret ms /\ length ms = length fs
  /\ forall i, (i < length fs)%nat -> sm_masses (nth i fs "") = Some (nth i ms 0).
Proof.
  induction fs as [|s fs IH]; intro H.
  - exists []. repeat split. intros i Hi. cbn in Hi. lia.
  - destruct (H s) as (m & Em); [now left|]. destruct IH as (ms & E & L & N); [intros; apply H; now right|]. exists (m :: ms). cbn [get_masses]. rewrite Em, E. cbn [bind].
    split; [reflexivity|]. split; [cbn; lia|]. intros [|i] Hi; [exact Em|]. apply N. cbn in Hi. lia.
Qed.
(** the sum of the masses of the final state *)
Definition heaviness (fs : list string) : R := sum (fun s => match sm_masses s with Some m => m | None => 0 end) fs.
Lemma masses_sum fs ms : get_masses sm_masses fs = Ret ms -> fold_left Rplus ms 0 = heaviness fs.
Proof.
  intro H. assert (G : forall ms, fold_left Rplus ms 0 = sum (fun m => m) ms) by (intro l; rewrite (fold_sum (fun m => m)); ring). rewrite G. clear G.
  revert ms H. unfold heaviness. induction fs as [|s fs IH]; intros ms H; cbn [get_masses] in H; [now injection H as <-|].
  destruct (sm_masses s) as [m|] eqn:E; [|discriminate H]. destruct (get_masses sm_masses fs) as [ms'|]; [|discriminate H]. injection H as <-.
  rewrite !sum_cons, E. f_equal. now apply IH.
Qed.
Definition open_channel (cme : R) (fs : list string) : Prop := (forall s, In s fs -> exists m, sm_masses s = Some m) /\ heaviness fs <= cme.
Lemma nbody_open ep cme fs product ed md b1 b2 : open_channel cme fs -> (3 <= length fs)%nat ->
  Nbody ep cme (Several fs) product ed md b1 b2 = dnde_multi_particle photon positron neutrino fsr ep fs product ed md b1 b2.
Proof.
  intros [Hm Hh] Hn. unfold dnde_nbody. destruct (masses_known fs Hm) as (ms & E & _). rewrite E. cbn [bind]. rewrite (masses_sum fs ms E).
  destruct (Rlt_dec cme (heaviness fs)); [lra|]. destruct fs as [|s1 [|s2 [|s3 fs]]]; cbn in Hn; try lia. reflexivity.
Qed.

(** the three rows of flavor=None and the three results of a given flavour *)
Theorem neutrino_rows : forall ep cme fs edists mdists, open_channel cme fs -> (3 <= length fs)%nat ->
  Forall listed fs -> Forall matched edists -> length edists = length fs ->
  let l := combine edists fs in
  let prompts v := sum (fun ds => if string_dec (snd ds) v then np_interp ep (fst (fst ds)) (snd (fst ds)) else 0) l in
  let all := prompts "ve" + prompts "vm" + prompts "vt" in
  Neutrino ep cme (Several fs) edists mdists (Some "e") = Ret [flavoured ep "ve" l + prompts "ve"]
  /\ Neutrino ep cme (Several fs) edists mdists (Some "mu") = Ret [flavoured ep "vm" l + prompts "vm"]
  /\ Neutrino ep cme (Several fs) edists mdists (Some "tau") = Ret [flavoured ep "vt" l + prompts "vt"]
  /\ Neutrino ep cme (Several fs) edists mdists None = Ret [flavoured ep "ve" l + all; flavoured ep "vm" l + all; flavoured ep "vt" l + all].
Proof.
  intros ep cme fs edists mdists Ho Hn Hl Hm Hlen l prompts all.
  assert (A : forall ds, In ds l -> matched (fst ds) /\ listed (snd ds)).
  { intros [d s] H. split; [apply in_combine_l in H; now apply (proj1 (Forall_forall _ _) Hm)|apply in_combine_r in H; now apply (proj1 (Forall_forall _ _) Hl)]. }
  assert (P : forall v, In v ["ve"; "vm"; "vt"] -> sum (fun ds => weigh (fst ds) (decay_of ep v (snd ds)) + direct ep v (snd ds) (fst ds)) l = flavoured ep v l + prompts v).
  { intros v Hv. rewrite sum_plus. unfold flavoured, prompts. f_equal. apply sum_ext. intros [d s] _. cbn [fst snd]. unfold direct.
    destruct (prompt_dec v s) as [[[P _]|[P P']]|P], (string_dec s v) as [E|E]; try congruence; try reflexivity.
    - subst v. cbn in Hv. intuition discriminate.
    - exfalso. apply P. right. subst s. tauto. }
  assert (Q : nus l ep = all).
  { unfold all, prompts, nus. rewrite <- !sum_plus. apply sum_ext. intros [d s] _. cbn [fst snd].
    destruct (in_dec string_dec s ["ve"; "vm"; "vt"]) as [H|H], (string_dec s "ve") as [E1|E1], (string_dec s "vm") as [E2|E2], (string_dec s "vt") as [E3|E3]; try congruence; try ring;
      exfalso; cbn in H; intuition congruence. }
  unfold dnde_neutrino. cbn [bind String.eqb Ascii.eqb Bool.eqb]. rewrite !nbody_open by assumption.
  assert (S1 : forall v, In v ["ve"; "vm"; "vt"] -> dnde_multi_particle photon positron neutrino fsr ep fs v edists mdists false false = Ret [flavoured ep v l + prompts v]).
  { intros v Hv. rewrite (proj1 (nbody_sum ep v fs edists mdists false ltac:(cbn in *; tauto) Hl Hm Hlen)). fold l. now rewrite P. }
  split; [apply S1; cbn; tauto|]. split; [apply S1; cbn; tauto|]. split; [apply S1; cbn; tauto|].
  unfold dnde_multi_particle. rewrite multi_start, multi_three by (try exact A; destruct edists as [|d edists], fs as [|s fs]; cbn in Hlen, Hn; try lia; discriminate).
  cbn [bind String.eqb Ascii.eqb Bool.eqb andb]. rewrite !Rplus_0_l. fold l. now rewrite Q.
Qed.
(** so without neutrinos in the final state the rows are the three flavours *)
Theorem neutrino_rows_partial : forall ep cme fs edists mdists, open_channel cme fs -> (3 <= length fs)%nat ->
  Forall listed fs -> Forall matched edists -> length edists = length fs -> (forall s, In s fs -> ~ In s ["ve"; "vm"; "vt"]) ->
  exists a b c, Neutrino ep cme (Several fs) edists mdists None = Ret [a; b; c]
  /\ Neutrino ep cme (Several fs) edists mdists (Some "e") = Ret [a]
  /\ Neutrino ep cme (Several fs) edists mdists (Some "mu") = Ret [b]
  /\ Neutrino ep cme (Several fs) edists mdists (Some "tau") = Ret [c].
Proof.
  intros ep cme fs edists mdists Ho Hn Hl Hm Hlen Hv. destruct (neutrino_rows ep cme fs edists mdists Ho Hn Hl Hm Hlen) as (E1 & E2 & E3 & E4). cbv zeta in *.
  assert (Z : forall v, In v ["ve"; "vm"; "vt"] -> sum (fun ds => if string_dec (snd ds) v then np_interp ep (fst (fst ds)) (snd (fst ds)) else 0) (combine edists fs) = 0).
  { intros v H. rewrite (sum_ext _ (fun _ => 0)); [apply sum_zero|]. intros [d s] Hi. cbn [fst snd]. destruct (string_dec s v) as [->|]; [|reflexivity].
    apply in_combine_r in Hi. exfalso. now apply (Hv v). }
  rewrite (Z "ve") in E1, E4 by (cbn; tauto). rewrite (Z "vm") in E2, E4 by (cbn; tauto). rewrite (Z "vt") in E3, E4 by (cbn; tauto).
  repeat rewrite Rplus_0_r in E1; repeat rewrite Rplus_0_r in E2; repeat rewrite Rplus_0_r in E3; repeat rewrite Rplus_0_r in E4. do 3 eexists. repeat split; eassumption.
Qed.

(** ** Two particles *)
(** The energies are those of a two-body decay at rest: they add up to the centre-of-mass energy and the momenta
    are equal.  A state without a spectrum contributes nothing. *)
Theorem two_body_sum : forall ep cme s1 s2 product m1 m2 e1 e2, In product products -> 0 < cme ->
  sm_masses s1 = Some m1 -> sm_masses s2 = Some m2 -> m1 + m2 <= cme ->
  e1 + e2 = cme -> e1 ^ 2 - m1 ^ 2 = e2 ^ 2 - m2 ^ 2 -> forall edists mdists fsr_on avg,
  Nbody ep cme (Several [s1; s2]) product edists mdists fsr_on avg
  = Ret [decay_of ep product s1 e1 + decay_of ep product s2 e2
         + if in_dec string_dec product (if fsr_on then ["photon"] else [])
           then sum (fun s => if in_dec string_dec s ["e"; "mu"; "pi"; "k"] then fsr s ep cme else 0) [s1; s2] else 0].
Proof.
  intros ep cme s1 s2 product m1 m2 e1 e2 Hp Hc H1 H2 Ht Hs Hd edists mdists fsr_on avg. unfold dnde_nbody. cbn [get_masses]. rewrite H1, H2. cbn [bind fold_left].
  destruct (Rlt_dec cme (0 + m1 + m2)) as [H|_]; [lra|]. unfold dnde_two_body. cbn [get_masses]. rewrite H1, H2. cbn [bind nth].
  assert (E1 : (cme ^ 2 + m1 ^ 2 - m2 ^ 2) / (2 * cme) = e1).
  { assert (cme ^ 2 + m1 ^ 2 - m2 ^ 2 = 2 * cme * e1) as -> by (rewrite <- Hs; nra). field. lra. }
  assert (E2 : (cme ^ 2 - m1 ^ 2 + m2 ^ 2) / (2 * cme) = e2).
  { assert (cme ^ 2 - m1 ^ 2 + m2 ^ 2 = 2 * cme * e2) as -> by (rewrite <- Hs; nra). field. lra. }
  rewrite E1, E2, (rows_one _ Hp). cbn [seq map].
  assert (B : forall s e a, match spectrum photon positron neutrino fsr product s with Some f => badd [a] (f ep e) | None => [a] end = [a + decay_of ep product s e]).
  { intros s e a. destruct (spectrum photon positron neutrino fsr product s) as [f|] eqn:E.
    - rewrite (spectrum_one product s f Hp E). reflexivity.
    - unfold decay_of. rewrite E. now rewrite Rplus_0_r. }
  assert (F : forall s a, match spectrum photon positron neutrino fsr "fsr" s with Some f => badd [a] (f ep cme) | None => [a] end
    = [a + if in_dec string_dec s ["e"; "mu"; "pi"; "k"] then fsr s ep cme else 0]).
  { intros s a. unfold spectrum. change (String.eqb "fsr" "fsr") with true. cbv iota. destruct (mem s fsr_keys) eqn:E.
    - apply mem_In in E. destruct (in_dec string_dec s ["e"; "mu"; "pi"; "k"]); [reflexivity|tauto].
    - apply mem_not in E. destruct (in_dec string_dec s ["e"; "mu"; "pi"; "k"]); [tauto|now rewrite Rplus_0_r]. }
  rewrite !B. destruct fsr_on.
  - rewrite andb_true_r. destruct (String.eqb_spec product "photon") as [->|Hx].
    + rewrite !F. destruct (in_dec string_dec "photon" ["photon"]) as [_|Hx]; [|exfalso; apply Hx; now left]. rewrite !sum_cons, sum_nil. f_equal. f_equal. ring.
    + destruct (in_dec string_dec product ["photon"]) as [[Hy|[]]|_]; [congruence|]. f_equal. f_equal. ring.
  - rewrite andb_false_r. destruct (in_dec string_dec product []) as [[]|_]. f_equal. f_equal. ring.
Qed.

(** ** Errors *)
Theorem nbody_errors : forall ep cme product edists mdists b1 b2,
  (forall fs s, In s fs -> sm_masses s = None -> Nbody ep cme (Several fs) product edists mdists b1 b2 = Raise ValueError)
  /\ (forall s, sm_masses s = None -> Nbody ep cme (One s) product edists mdists b1 b2 = Raise (KeyError s))
  /\ (forall fs, (forall s, In s fs -> exists m, sm_masses s = Some m) -> cme < heaviness fs ->
        Nbody ep cme (Several fs) product edists mdists b1 b2 = Raise ValueError)
  /\ (forall f, ~ In f ["e"; "mu"; "tau"] -> forall fs, Neutrino ep cme fs edists mdists (Some f) = Raise ValueError)
  /\ (forall fs s, In product products -> open_channel cme fs -> (3 <= length fs)%nat -> length edists = length fs -> Forall matched edists ->
        In s fs -> ~ listed s -> Nbody ep cme (Several fs) product edists mdists b1 b2 = Raise AssertionError).
Proof.
  intros. split; [|split; [|split; [|split]]].
  - intros fs s Hs Hn. assert (E : get_masses sm_masses fs = Raise ValueError).
    { induction fs as [|x fs IH]; [contradiction Hs|]. cbn [get_masses]. destruct (sm_masses x) as [m|] eqn:Ex; [|reflexivity].
      rewrite IH; [reflexivity|]. destruct Hs; [congruence|assumption]. }
    unfold dnde_nbody. now rewrite E.
  - intros s Hn. unfold dnde_nbody. now rewrite Hn.
  - intros fs Hm Hh. unfold dnde_nbody. destruct (masses_known fs Hm) as (ms & E & _). rewrite E. cbn [bind]. rewrite (masses_sum fs ms E).
    destruct (Rlt_dec cme (heaviness fs)); [reflexivity|lra].
  - intros f Hf fs. unfold dnde_neutrino. destruct (String.eqb_spec f "e") as [->|]; [cbn in Hf; tauto|].
    destruct (String.eqb_spec f "mu") as [->|]; [cbn in Hf; tauto|]. destruct (String.eqb_spec f "tau") as [->|]; [cbn in Hf; tauto|]. reflexivity.
  - intros fs s Hp Ho Hn Hlen Hm Hs Hl. rewrite nbody_open by assumption. unfold dnde_multi_particle.
    assert (G : forall a, multi_loop photon positron neutrino fsr ep product (combine edists fs) [a] = Raise AssertionError); [|now rewrite G].
    clear Ho Hn. revert edists Hlen Hm. induction fs as [|x fs IH]; intros edists Hlen Hm a; [contradiction Hs|]. destruct edists as [|d edists]; [discriminate Hlen|].
    cbn [combine multi_loop]. inversion Hm; subst. destruct (spectrum photon positron neutrino fsr product x) as [f|] eqn:E.
    + rewrite (conv_row _ _ _ _ ep d x product f E) by assumption. rewrite (rows_one _ Hp). cbn [bind seq map badd].
      assert (Hx : In s fs).
      { destruct Hs as [->|Hs]; [|assumption]. exfalso. apply Hl. apply (mem_In s spectrum_keys). revert E. unfold spectrum.
        destruct Hp as [<-|[<-|[<-|[<-|[<-|[]]]]]]; cbn [String.eqb Ascii.eqb Bool.eqb]; destruct (mem s spectrum_keys); congruence. }
      match goal with |- context [if ?b then _ else _] => destruct b end; cbn [badd map]; apply IH; auto.
    + unfold conv_dnde_dist. rewrite E. reflexivity.
Qed.
End Sums.
Print Assumptions decay_contribution.
Print Assumptions nbody_sum.
Print Assumptions neutrino_rows.
Print Assumptions neutrino_rows_partial.
Print Assumptions two_body_sum.
Print Assumptions nbody_errors.

(** ** The rows of flavor=None are not the flavours when a neutrino is in the final state: with ve mu pi and a
    distribution equal to one half at the energy asked for, the muon-neutrino row is 1/2 although flavor="mu" gives 0 *)
Definition toy_masses (s : string) : option R := if mem s ["ve"] then Some 0 else if mem s ["mu"; "pi"; "pi0"; "photon"] then Some 1 else None.
Theorem neutrino_rows_refuted : exists ep cme fs edists,
  open_channel toy_masses cme fs /\ Forall listed fs /\ Forall matched edists /\ length edists = length fs
  /\ forall photon positron fsr mdists,
     dnde_neutrino toy_masses photon positron (fun _ _ _ => (0, 0, 0)) fsr ep cme (Several fs) edists mdists (Some "mu") = Ret [0]
     /\ dnde_neutrino toy_masses photon positron (fun _ _ _ => (0, 0, 0)) fsr ep cme (Several fs) edists mdists None = Ret [1 / 2; 1 / 2; 1 / 2].
Proof.
  exists 1, 10, ["ve"; "mu"; "pi"], [two_bins; two_bins; two_bins].
  assert (O : open_channel toy_masses 10 ["ve"; "mu"; "pi"]).
  { split; [|unfold heaviness; cbn; lra]. intros s [<-|[<-|[<-|[]]]]; eexists; reflexivity. }
  assert (L : Forall listed ["ve"; "mu"; "pi"]) by (repeat constructor; unfold listed; cbn; tauto).
  assert (M : Forall matched [two_bins; two_bins; two_bins]) by (repeat constructor).
  split; [exact O|]. split; [exact L|]. split; [exact M|]. split; [reflexivity|]. intros photon positron fsr mdists.
  destruct (neutrino_rows toy_masses photon positron (fun _ _ _ => (0, 0, 0)) fsr 1 10 ["ve"; "mu"; "pi"] [two_bins; two_bins; two_bins] mdists O ltac:(cbn; lia) L M eq_refl)
    as (_ & E2 & _ & E4). cbv zeta in *. rewrite E2, E4.
  assert (F : forall v, In v ["ve"; "vm"; "vt"] -> flavoured photon positron (fun _ _ _ => (0, 0, 0)) fsr 1 v (combine [two_bins; two_bins; two_bins] ["ve"; "mu"; "pi"]) = 0).
  { intros v Hv. unfold flavoured. cbn [combine]. rewrite !sum_cons, sum_nil. cbn [fst snd].
    assert (D : forall s, In s ["ve"; "mu"; "pi"] -> weigh two_bins (decay_of photon positron (fun _ _ _ => (0, 0, 0)) fsr 1 v s) = 0).
    { intros s Hs. rewrite (weigh_ext two_bins _ (fun _ => 0)); [apply weigh_zero|]. intro e.
      destruct Hv as [<-|[<-|[<-|[]]]], Hs as [<-|[<-|[<-|[]]]]; reflexivity. }
    rewrite !D by (cbn; tauto). ring. }
  rewrite !F by (cbn; tauto). cbn [combine]. rewrite !sum_cons, !sum_nil. cbn [fst snd two_bins].
  assert (I : np_interp 1 [0; 2] [1 / 2; 1 / 2] = 1 / 2).
  { cbn [np_interp]. destruct (Rlt_dec 1 0); [lra|]. destruct (Rlt_dec 1 2); [field|lra]. }
  rewrite !I. cbn [string_dec]. repeat match goal with |- context [string_dec ?a ?b] => destruct (string_dec a b) as [?|?]; try discriminate; try congruence end.
  split; f_equal; repeat (f_equal; try field).
Qed.
Print Assumptions neutrino_rows_refuted.

(** np.interp: the nodes are hit and nothing is added outside them *)
Theorem interp_nodes : forall d, matched d -> (forall i, (S i < length (fst d))%nat -> nth i (fst d) 0 < nth (S i) (fst d) 0) ->
  (forall i, (i < length (fst d))%nat -> np_interp (nth i (fst d) 0) (fst d) (snd d) = nth i (snd d) 0)
  /\ (forall x, (forall i, (i < length (fst d))%nat -> x < nth i (fst d) 0) -> np_interp x (fst d) (snd d) = 0)
  /\ (forall x, (forall i, (i < length (fst d))%nat -> nth i (fst d) 0 < x) -> np_interp x (fst d) (snd d) = 0).
Proof.
  intros [xs ys] M Up. unfold matched in M. cbn [fst snd] in *.
  assert (Inc : forall i, (i < length xs)%nat -> nth 0 xs 0 <= nth i xs 0).
  { induction i as [|i IH]; intro Hi; [lra|]. specialize (Up i Hi). specialize (IH ltac:(lia)). lra. }
  split; [|split].
  - revert ys M. induction xs as [|x0 xs IH]; intros ys M i Hi; [cbn in Hi; lia|]. destruct ys as [|y0 ys]; [discriminate M|].
    destruct xs as [|x1 xs], ys as [|y1 ys]; try discriminate M.
    + cbn in Hi. assert (i = 0%nat) as -> by lia. cbn. destruct (Req_EM_T x0 x0); [reflexivity|tauto].
    + assert (Up' : forall i, (S i < length (x1 :: xs))%nat -> nth i (x1 :: xs) 0 < nth (S i) (x1 :: xs) 0) by (intros j Hj; apply (Up (S j)); cbn in *; lia).
      assert (Inc' : forall i, (i < length (x1 :: xs))%nat -> nth 0 (x1 :: xs) 0 <= nth i (x1 :: xs) 0).
      { induction i0 as [|i0 IHi]; intro Hj; [lra|]. specialize (Up' i0 Hj). specialize (IHi ltac:(lia)). lra. }
      pose proof (Up 0%nat ltac:(cbn; lia)) as Up0. cbn [nth] in Up0. destruct i as [|i].
      * cbn [np_interp nth]. destruct (Rlt_dec x0 x0); [lra|]. destruct (Rlt_dec x0 x1); [field; lra|tauto].
      * change (nth (S i) (x0 :: x1 :: xs) 0) with (nth i (x1 :: xs) 0). change (nth (S i) (y0 :: y1 :: ys) 0) with (nth i (y1 :: ys) 0).
        pose proof (Inc' i ltac:(cbn in *; lia)) as Hi'. change (nth 0 (x1 :: xs) 0) with x1 in Hi'. set (x := nth i (x1 :: xs) 0) in *.
        change (np_interp x (x0 :: x1 :: xs) (y0 :: y1 :: ys)) with (if Rlt_dec x x0 then 0 else if Rlt_dec x x1 then y0 + (y1 - y0) / (x1 - x0) * (x - x0) else np_interp x (x1 :: xs) (y1 :: ys)).
        destruct (Rlt_dec x x0); [lra|]. destruct (Rlt_dec x x1); [lra|]. unfold x. apply IH; [exact Up'|exact Inc'|cbn in *; lia|cbn in *; lia].
  - intros x H. destruct xs as [|x0 xs], ys as [|y0 ys]; try reflexivity; try discriminate M. specialize (H 0%nat ltac:(cbn; lia)). cbn [nth] in H.
    destruct xs as [|x1 xs], ys as [|y1 ys]; try reflexivity; try discriminate M.
    + cbn. destruct (Req_EM_T x x0); [lra|reflexivity].
    + cbn [np_interp]. destruct (Rlt_dec x x0); [reflexivity|lra].
  - intros x H. clear Up Inc. revert ys M H. induction xs as [|x0 xs IH]; intros ys M H; [destruct ys; reflexivity|]. destruct ys as [|y0 ys]; [discriminate M|].
    pose proof (H 0%nat ltac:(cbn; lia)) as H0. cbn [nth] in H0. destruct xs as [|x1 xs], ys as [|y1 ys]; try discriminate M.
    + cbn. destruct (Req_EM_T x x0); [lra|reflexivity].
    + pose proof (H 1%nat ltac:(cbn; lia)) as H1. cbn [nth] in H1.
      change (np_interp x (x0 :: x1 :: xs) (y0 :: y1 :: ys)) with (if Rlt_dec x x0 then 0 else if Rlt_dec x x1 then y0 + (y1 - y0) / (x1 - x0) * (x - x0) else np_interp x (x1 :: xs) (y1 :: ys)).
      destruct (Rlt_dec x x0); [lra|]. destruct (Rlt_dec x x1); [lra|]. apply IH; [cbn in *; lia|]. intros i Hi. apply (H (S i)). cbn in *; lia.
Qed.
Print Assumptions interp_nodes.

(** non-vacuous: mu pi pi0 at rest energy 10, and two bodies mu pi0 with e1 = e2 *)
Example nbody_instance : open_channel toy_masses 10 ["mu"; "pi"; "pi0"] /\ Forall listed ["mu"; "pi"; "pi0"]
  /\ (forall s, In s ["mu"; "pi"; "pi0"] -> ~ In s ["ve"; "vm"; "vt"]) /\ open_channel toy_masses 10 ["mu"; "pi"; "photon"] /\ ~ listed "photon"
  /\ prompt "positron" "e" /\ ~ prompt "photon" "photon" /\ 5 + 5 = 10 /\ 5 ^ 2 - 1 ^ 2 = 5 ^ 2 - 1 ^ 2.
Proof.
  split; [split; [intros s [<-|[<-|[<-|[]]]]; eexists; reflexivity|unfold heaviness; cbn; lra]|].
  split; [repeat constructor; unfold listed; cbn; tauto|]. split; [intros s [<-|[<-|[<-|[]]]] H; cbn in H; intuition discriminate|].
  split; [split; [intros s [<-|[<-|[<-|[]]]]; eexists; reflexivity|unfold heaviness; cbn; lra]|].
  split; [intro H; cbn in H; intuition discriminate|]. split; [left; auto|]. split; [intros [[H _]|[_ H]]; [discriminate|cbn in H; intuition discriminate]|]. lra.
Qed.
