(** C185: the entry points for tabulated photon spectra. *)
From Coq Require Import String Arith ZArith QArith Lia Floats List.
From Verif Require Import PyBase RustBase RustMath DispatchModel DispatchProofs DispatchProps BoostModel FloatMath EntryModel.
Import ListNotations.
Local Open Scope nat_scope.

(** ** Specification *)
(** the parents with a table, and the name under which each is registered *)
Inductive parent : Type := ChargedKaon | LongKaon | ShortKaon | Eta | EtaPrime | Omega | Phi.
Definition entry_name (p : parent) : string :=
  match p with
  | ChargedKaon => "dnde_photon_charged_kaon" | LongKaon => "dnde_photon_long_kaon" | ShortKaon => "dnde_photon_short_kaon"
  | Eta => "dnde_photon_eta" | EtaPrime => "dnde_photon_eta_prime" | Omega => "dnde_photon_omega" | Phi => "dnde_photon_phi"
  end%string.
Definition table_of {M} (p : parent) (t : tables M) : Spectrum M :=
  match p with
  | ChargedKaon => t_charged_kaon M t | LongKaon => t_long_kaon M t | ShortKaon => t_short_kaon M t
  | Eta => t_eta M t | EtaPrime => t_eta_prime M t | Omega => t_omega M t | Phi => t_phi M t
  end.
(** the parent energy is refused *)
Definition refused (M : Math) (parent_energy mass : F M) : Prop := exists e, branch M parent_energy mass = Err e.

Section Entry.
Variable M : Math.
Variable f0 : F M.
Variable of_int : Z -> option (F M).
Variable of_bool : bool -> F M.
Notation call := (dnde_tabulated M f0 of_int of_bool).

(** ** A parent energy that is refused raises ValueError whatever the photon energies are, even if they are no numbers; one that is
    not refused never raises it for a scalar or a grid.  So a grid fails everywhere or nowhere. *)
Theorem parent_guard : forall h pe s,
  (refused M pe (smass M s) -> forall v, call h v pe s = (h, Raise ValueError)) /\
  (~ refused M pe (smass M s) -> forall v,
     (forall x, is_scalar (F M) f0 of_int of_bool h v x -> snd (call h v pe s) <> Raise ValueError) /\
     (forall xs, is_grid (F M) f0 of_int of_bool h v xs -> snd (call h v pe s) <> Raise ValueError)).
Proof.
  intros h pe s. unfold refused, dnde_tabulated. split.
  - intros (e & ->) v. reflexivity.
  - intros N v. destruct (branch M pe (smass M s)) as [b|e|]; [|exfalso; apply N; exists e; reflexivity|split; discriminate].
    split.
    + intros x Hx. unfold map_unary_try. rewrite (classify_scalar (F M) f0 of_int of_bool h v x Hx). cbn [snd].
      destruct (dnde M x b s); cbn; discriminate.
    + intros xs G E. destruct (dispatch_try (F M) f0 of_int of_bool h v xs (fun e => kernel_result M (dnde M e b s)) G) as [T _].
      apply T in E. destruct E as (k & _ & E & _). destruct (dnde M (nth k xs f0) b s); discriminate.
Qed.

(** ** A parent lighter than its mass gives zero: a zero for a number, as many zeros as energies for a grid *)
Theorem below_threshold_zero : forall h v pe s, flt M pe (smass M s) = true ->
  (forall x, is_scalar (F M) f0 of_int of_bool h v x -> call h v pe s = (h, Ret (PFloat (lit M 0%Q)))) /\
  (forall xs, is_grid (F M) f0 of_int of_bool h v xs ->
     exists h' a, call h v pe s = (h', Ret (PArr a)) /\ holds (F M) f0 h' a [length xs] (repeat (lit M 0%Q) (length xs))).
Proof.
  intros h v pe s H. unfold dnde_tabulated, branch. rewrite H. split.
  - intros x Hx. unfold map_unary_try. rewrite (classify_scalar (F M) f0 of_int of_bool h v x Hx). reflexivity.
  - intros xs G. destruct (dispatch_try (F M) f0 of_int of_bool h v xs (fun e => kernel_result M (dnde M e BelowThreshold s)) G) as [_ T].
    rewrite (T (fun _ => lit M 0%Q)) by reflexivity.
    destruct (dispatch_grid (F M) f0 of_int of_bool h v xs (fun _ => lit M 0%Q) G) as (h' & a & E & Hh & _).
    exists h', a. split; [exact E|]. replace (repeat (lit M 0%Q) (length xs)) with (map (fun _ : F M => lit M 0%Q) xs); [exact Hh|].
    clear. induction xs; cbn; congruence.
Qed.

(** ** The answer for a grid holds at each place what the energy there gives alone, and leaves every array that existed as it was *)
Theorem grid_is_elementwise : forall h v xs pe s ys, is_grid (F M) f0 of_int of_bool h v xs ->
  Forall2 (fun x y => call h (PFloat x) pe s = (h, Ret (PFloat y))) xs ys ->
  xs <> [] ->
  exists h' a, call h v pe s = (h', Ret (PArr a)) /\ holds (F M) f0 h' a [length xs] ys /\
    (forall b, b < length h -> nth b h' [] = nth b h []).
Proof.
  intros h v xs pe s ys G P N. unfold dnde_tabulated in *.
  destruct (branch M pe (smass M s)) as [b|e|]; [|destruct P as [|x y xs ys E P]; [contradiction|discriminate]..].
  assert (K : Forall2 (fun x y => kernel_result M (dnde M x b s) = Ret y) xs ys).
  { clear - P. induction P as [|x y xs ys E P IH]; constructor; [|exact IH]. unfold map_unary_try in E. cbn in E.
    destruct (kernel_result M (dnde M x b s)) as [z|]; cbn in E; [|discriminate]. injection E as ->. reflexivity. }
  set (good := fun x => match kernel_result M (dnde M x b s) with Ret y => y | Raise _ => f0 end).
  assert (E1 : map good xs = ys) by (clear - K; induction K as [|x y xs ys E K IH]; cbn; [reflexivity|]; unfold good at 1; rewrite E; f_equal; exact IH).
  assert (E2 : forall x, In x xs -> kernel_result M (dnde M x b s) = Ret (good x)).
  { clear - K. intros x I. induction K as [|z y xs ys E K IH]; [destruct I|]. destruct I as [->|I]; [|apply IH, I]. unfold good. rewrite E. reflexivity. }
  destruct (dispatch_try (F M) f0 of_int of_bool h v xs (fun e => kernel_result M (dnde M e b s)) G) as [_ T].
  rewrite (T good E2). destruct (dispatch_grid (F M) f0 of_int of_bool h v xs good G) as (h' & a & E & Hh & _ & L).
  exists h', a. rewrite E1 in Hh. split; [exact E|]. split; [exact Hh|exact L].
Qed.

(** ** Each name is registered once and answers for its own parent: other tables do not matter, and the guard and the threshold are
    those of the mass of that parent *)
Theorem entries_are_wired : forall t,
  NoDup (dkeys (tabulated_entries M f0 of_int of_bool t)) /\ length (tabulated_entries M f0 of_int of_bool t) = 7 /\
  forall p, exists f, dget (tabulated_entries M f0 of_int of_bool t) (entry_name p) = Some f /\
    (forall t', table_of p t' = table_of p t ->
       exists f', dget (tabulated_entries M f0 of_int of_bool t') (entry_name p) = Some f' /\ forall h v e, f' h v e = f h v e) /\
    (forall h v e, refused M e (smass M (table_of p t)) -> f h v e = (h, Raise ValueError)) /\
    (forall h x e, flt M e (smass M (table_of p t)) = true -> f h (PFloat x) e = (h, Ret (PFloat (lit M 0%Q)))).
Proof.
  intro t. split; [|split; [reflexivity|]].
  - cbn. repeat (constructor; [cbn; intuition discriminate|]). constructor.
  - intro p. exists (fun h v e => call h v e (table_of p t)). split; [destruct p; reflexivity|]. split; [|split].
    + intros t' E. exists (fun h v e => call h v e (table_of p t')). split; [destruct p; reflexivity|]. intros. rewrite E. reflexivity.
    + intros h v e R. apply parent_guard. exact R.
    + intros h x e L. destruct (below_threshold_zero h (PFloat x) e (table_of p t) L) as [Z _]. apply (Z x). constructor.
Qed.
End Entry.
Print Assumptions parent_guard.
Print Assumptions below_threshold_zero.
Print Assumptions grid_is_elementwise.
Print Assumptions entries_are_wired.

Lemma refused_decided (M : Math) pe m : match branch M pe m with Err _ => true | _ => false end = true -> refused M pe m.
Proof. unfold refused. destruct (branch M pe m) as [b|e|]; try discriminate. exists e. reflexivity. Qed.
Lemma accepted_decided (M : Math) pe m : match branch M pe m with Err _ => true | _ => false end = false -> ~ refused M pe m.
Proof. unfold refused. intros H (e & E). rewrite E in H. discriminate. Qed.
(** ** The source says that only NaN is refused; in binary64 a finite energy of the eta is, whatever the photon energies *)
Definition float_eta : Spectrum FloatMath := Build_Spectrum FloatMath [1%float] [1%float] 548%float [].
Theorem finite_parent_refused_refuted : exists pe : float, (PrimFloat.ltb 548 pe && PrimFloat.ltb pe infinity)%float%bool = true /\
  forall f0 of_int of_bool h v, dnde_tabulated FloatMath f0 of_int of_bool h v pe float_eta = (h, Raise ValueError).
Proof.
  exists 1e12%float. split; [vm_compute; reflexivity|]. intros. apply parent_guard. apply refused_decided. vm_compute. reflexivity.
Qed.
Print Assumptions finite_parent_refused_refuted.

(** the hypotheses of the theorems above are met by real calls *)
Example parent_guard_example : refused FloatMath nan 548%float /\ ~ refused FloatMath 600%float 548%float.
Proof. split; [apply refused_decided|apply accepted_decided]; vm_compute; reflexivity. Qed.
Example below_threshold_zero_example : flt FloatMath 500%float (smass FloatMath float_eta) = true.
Proof. reflexivity. Qed.
(** an eta at rest whose table is one at one MeV *)
Definition demo_call (x : float) : option float :=
  match snd (dnde_tabulated FloatMath 0%float (fun _ => None) (fun _ => 0%float) [] (PFloat x) 548%float float_eta) with
  | Ret (PFloat y) => Some y
  | _ => None
  end.
Example grid_is_elementwise_example :
  match demo_call 1 with Some y => PrimFloat.eqb y 1 | None => false end = true /\
  match demo_call 2 with Some y => PrimFloat.eqb y 0 | None => false end = true /\
  is_grid float 0%float (fun _ => None) (fun _ => 0%float) [] (PSeq [PFloat 1%float; PFloat 2%float]) [1%float; 2%float].
Proof. split; [vm_compute; reflexivity|]. split; [vm_compute; reflexivity|]. constructor; [repeat constructor|]. right. left. eexists. reflexivity. Qed.
