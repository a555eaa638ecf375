(** Binary64: what the kernel of the tabulated photon spectra answers for a NaN photon energy. *)
From Coq Require Import List Arith Bool ZArith QArith Floats Lia.
From Verif Require Import RustBase RustMath QuadModel QuadFloat FloatMath InterpModel InterpProofs BoostModel.
Import ListNotations.
Local Open Scope nat_scope.

(** ** Specification: NaN of IEEE 754, by the unpacked form *)
Definition NaN (x : float) : Prop := Prim2SF x = S754_nan.

(** ** Proofs *)
Lemma sfcompare_refl s : s <> S754_nan -> SFcompare s s = Some Eq.
Proof.
  destruct s as [[]|[]| |[] m e]; cbn; intros H; try reflexivity; try congruence; rewrite Z.compare_refl;
    change (Pos.compare_cont Eq m m) with (Pos.compare m m); rewrite Pos.compare_refl; reflexivity.
Qed.
Lemma nan_decided x : float_nan x = true <-> NaN x.
Proof.
  unfold float_nan, NaN. rewrite FloatAxioms.eqb_spec. unfold SFeqb. split; intros H.
  - destruct (Prim2SF x) eqn:E; [| |reflexivity|]; rewrite sfcompare_refl in H by discriminate; discriminate H.
  - rewrite H. reflexivity.
Qed.
Lemma nan_mul x y : NaN x -> NaN (x * y)%float.
Proof. unfold NaN. intros H. rewrite FloatAxioms.mul_spec, H. reflexivity. Qed.
Lemma nan_ltb_l x y : NaN x -> PrimFloat.ltb x y = false.
Proof. unfold NaN. intros H. rewrite FloatAxioms.ltb_spec, H. reflexivity. Qed.
Lemma nan_ltb_r x y : NaN y -> PrimFloat.ltb x y = false.
Proof. unfold NaN. intros H. rewrite FloatAxioms.ltb_spec, H. unfold SFltb. destruct (Prim2SF x) as [| | |[]]; reflexivity. Qed.
Lemma nan_nan : NaN PrimFloat.nan.
Proof. reflexivity. Qed.
Lemma nan_fma a b c : NaN c -> NaN (float_fma a b c).
Proof.
  unfold NaN, float_fma. intros H. rewrite H. destruct (SFmul 200 5000 (Prim2SF a) (Prim2SF b)); reflexivity.
Qed.
Lemma nan_fold (f : float * float -> float) (g : float * float -> float) ls : forall r, NaN r ->
  NaN (fold_left (fun r l => float_fma (f l) (g l) r) ls r).
Proof. induction ls as [|l ls IH]; intros r H; [exact H|]. cbn [fold_left]. apply IH, nan_fma, H. Qed.

Lemma nth_some {A} (l : list A) i : i < length l -> exists a, nth_error l i = Some a.
Proof. intros H. destruct (nth_error l i) eqn:E; [eauto|]. apply nth_error_None in E. lia. Qed.
Lemma integrate_nan (e beta : F FloatNum) (x y : list (F FloatNum)) :
  flt FloatNum (lit FloatNum 0%Q) beta && flt FloatNum beta (lit FloatNum 1%Q) = true ->
  0 < length x -> length x = length y -> NaN e -> boost_integrate_linear_interp FloatMath e beta x y = Ok PrimFloat.nan.
Proof.
  intros Hb H0 Hl He. unfold boost_integrate_linear_interp. change (mnum FloatMath) with FloatNum. rewrite Hb. cbn [negb].
  rewrite (proj2 (Nat.eqb_eq _ _) Hl). cbn [negb]. destruct (Nat.eqb_spec (length x) 0) as [E|_]; [lia|].
  destruct (nth_some x (length x - 1)) as [a Ha]; [lia|]. destruct (nth_some x 0) as [b Hb']; [lia|].
  destruct (nth_some y 0) as [c Hc]; [lia|]. unfold get. rewrite Ha, Hb', Hc. cbn [rbind].
  match goal with |- context [is_nan FloatNum ?z] => assert (K : is_nan FloatNum z = true) end.
  { apply nan_decided. apply nan_mul, nan_mul, He. }
  rewrite K. reflexivity.
Qed.

(** Above its mass a parent gives NaN at a NaN photon energy, for every table of two or more rows and all lines *)
Theorem nan_energy_is_nan (s : Spectrum FloatMath) (parent e : float) (b : Branch FloatMath) :
  2 <= length (energies _ s) -> length (energies _ s) = length (values _ s) -> NaN e ->
  branch FloatMath parent (smass _ s) = Ok b -> b <> BelowThreshold ->
  exists r : float, dnde FloatMath e b s = Ok r /\ NaN r.
Proof.
  intros H2 Hl He Hb n. destruct b as [| |beta]; [congruence| |].
  - exists e. split; [|exact He]. cbn [dnde]. unfold rest_frame, csub.
    destruct (Nat.leb_spec 1 (length (energies FloatMath s))) as [_|K]; [|lia]. cbn [rbind].
    destruct (nth_some (energies FloatMath s) (length (energies FloatMath s) - 1)) as [a Ha]; [lia|].
    destruct (nth_some (energies FloatMath s) 0) as [c Hc]; [lia|]. unfold get. rewrite Ha, Hc. cbn [rbind].
    assert (K1 : flt FloatMath a e = false) by exact (nan_ltb_r a e He).
    assert (K2 : flt FloatMath e c = false) by exact (nan_ltb_l e c He).
    rewrite K1, K2. apply interp_nan; [exact H2 | exact Hl | apply nan_decided, He].
  - assert (K : flt FloatNum (lit FloatNum 0%Q) beta && flt FloatNum beta (lit FloatNum 1%Q) = true).
    { unfold branch in Hb. change (mnum FloatMath) with FloatNum in Hb.
      destruct (flt FloatNum parent (smass FloatMath s)); [discriminate Hb|].
      match type of Hb with context [if ?q then _ else _] => destruct q end; [discriminate Hb|]. cbv zeta in Hb.
      match type of Hb with context [if negb ?q then _ else _] => destruct q eqn:E end; [|discriminate Hb].
      injection Hb as <-. exact E. }
    cbn [dnde]. assert (P : 0 < length (energies FloatMath s)) by lia.
    rewrite (integrate_nan e beta (energies FloatMath s) (values FloatMath s) K P Hl He).
    eexists. split; [reflexivity|].
    apply (nan_fold (fun l => boost_delta_function FloatMath (fst l) e (lit FloatNum 0%Q) beta) snd). exact nan_nan.
Qed.

Definition small_table : Spectrum FloatMath :=
  {| energies := [1%float; 2%float] : list (F FloatMath); values := [3%float; 4%float] : list (F FloatMath);
     smass := 5%float : F FloatMath; lines := [(2%float, 1%float)] : list (F FloatMath * F FloatMath) |}.
Example nan_example : 2 <= length (energies _ small_table) /\ NaN PrimFloat.nan /\
  match branch FloatMath 6%float (smass _ small_table) with Ok (InFlight _) => true | _ => false end = true /\
  match branch FloatMath 5%float (smass _ small_table) with Ok RestFrame => true | _ => false end = true.
Proof. repeat split; vm_compute; reflexivity || (repeat constructor). Qed.

(** ** The source says a NaN photon energy gives NaN; below the mass of the parent it gives zero *)
Theorem nan_energy_below_threshold_refuted :
  exists (s : Spectrum FloatMath) (parent e r : float),
    2 <= length (energies _ s) /\ length (energies _ s) = length (values _ s) /\ NaN e /\ ~ NaN r /\
    branch FloatMath parent (smass _ s) = Ok BelowThreshold /\ dnde FloatMath e BelowThreshold s = Ok r.
Proof.
  exists small_table, 4%float, PrimFloat.nan, (lit FloatNum 0%Q). split; [cbn; lia|]. split; [reflexivity|]. split; [exact nan_nan|].
  split; [intros H; vm_compute in H; discriminate H|]. split; [reflexivity | reflexivity].
Qed.

Print Assumptions nan_energy_is_nan.
Print Assumptions nan_energy_below_threshold_refuted.
