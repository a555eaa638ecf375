(** Specification vocabulary and lemmas about the class ThreeBody. *)
From Coq Require Import String Reals Lra Psatz Lia Arith Bool List.
From Verif Require Import PyBase RamboModel RamboProofs RamboProps KinModel KinProofs DalitzProofs KinProps Area VffModel VffProofs TriModel.
Import ListNotations.
Local Open Scope nat_scope.
Local Open Scope R_scope.

(** * Settings *)

(** What the user has asked for: the energy, the masses, the function and its signature *)
Record settings : Type := MkSet { s_cme : R; s_masses : list R; s_fn : option pyfn; s_sig : option string }.
Definition fresh (st : settings) : res three_body := tb_new (s_cme st) (s_masses st) (s_fn st) (s_sig st).

(** After an assignment *)
Definition asked1 (st : settings) (a : assign) : settings :=
  match a with
  | SetCme q => MkSet q (s_masses st) (s_fn st) (s_sig st)
  | SetMasses ms => MkSet (s_cme st) ms (s_fn st) (s_sig st)
  | SetMsqrd g => MkSet (s_cme st) (s_masses st) (Some g) (s_sig st)
  end.
Definition asked (st : settings) (l : list assign) : settings := fold_left asked1 l st.

(** The object has the energy, the masses and the matrix element of a new object with these settings *)
Definition as_fresh (st : settings) (o : three_body) : Prop :=
  exists o', fresh st = Ret o' /\ tb_cme o = tb_cme o' /\ tb_masses o = tb_masses o' /\
    forall s t, tb_msqrd o s t = tb_msqrd o' s t.

Definition sets_function (a : assign) : bool := match a with SetMsqrd _ => true | _ => false end.

Lemma three_masses_ret l ms : three_masses l = Ret ms -> let '(a, b, c) := ms in l = [a; b; c].
Proof.
  destruct l as [|a [|b [|c [|]]]]; cbn; try discriminate. intro H. injection H as <-. reflexivity.
Qed.

Lemma bind_ret {A B} (x : res A) (f : A -> res B) y : bind x f = Ret y -> exists a, x = Ret a /\ f a = Ret y.
Proof. destruct x; cbn; [intro H; eauto|discriminate]. Qed.

(** One assignment keeps the object equal to a new one *)
Lemma step_fresh st o a o' : fresh st = Ret o -> run1 o a = Ret o' ->
  s_sig st <> Some "momenta"%string \/ sets_function a = false -> fresh (asked1 st a) = Ret o'.
Proof.
  unfold fresh, tb_new. intros Hf Hr Hs. apply bind_ret in Hf. destruct Hf as (ms & Hm & Hf).
  destruct st as [q l fn sig]. cbn [s_cme s_masses s_fn s_sig] in *.
  set (bad := match sig with Some s => _ | None => _ end) in *.
  destruct bad eqn:Eb; [discriminate Hf|].
  destruct a as [q'|l'|g]; cbn [run1] in Hr; cbn [asked1 s_cme s_masses s_fn s_sig];
    try (apply bind_ret in Hr; destruct Hr as (ms' & Hm' & Hr); rewrite Hm'); try rewrite Hm; cbn [bind];
    fold bad; rewrite Eb.
  - destruct fn as [g|]; [|injection Hf as <-; exact Hr].
    destruct sig as [s|]; [destruct (String.eqb s "momenta")|]; injection Hf as <-; exact Hr.
  - destruct fn as [g|]; [|injection Hf as <-; exact Hr].
    destruct sig as [s|]; [destruct (String.eqb s "momenta")|]; injection Hf as <-; exact Hr.
  - destruct Hs as [Hs|Hs]; [|discriminate Hs].
    assert (En : forall s, sig = Some s -> String.eqb s "momenta" = false).
    { intros s E. apply String.eqb_neq. intro C. apply Hs. now rewrite E, C. }
    destruct fn as [g'|]; destruct sig as [s|]; try (rewrite (En s eq_refl) in *); injection Hf as <-; exact Hr.
Qed.

Lemma run_fresh l : forall st o o', fresh st = Ret o -> run o l = Ret o' ->
  s_sig st <> Some "momenta"%string \/ forallb (fun a => negb (sets_function a)) l = true -> fresh (asked st l) = Ret o'.
Proof.
  induction l as [|a l IH]; intros st o o' Hf Hr Hs; [cbn in *; congruence|].
  cbn [run] in Hr. apply bind_ret in Hr. destruct Hr as (o1 & H1 & Hr).
  cbn [asked fold_left]. apply (IH _ o1); [|exact Hr|].
  - apply (step_fresh st o a o1 Hf H1). destruct Hs as [Hs|Hs]; [now left|right].
    cbn in Hs. apply andb_prop in Hs. destruct Hs as [Hs _]. now apply negb_true_iff.
  - destruct Hs as [Hs|Hs]; [left; destruct a; exact Hs|right].
    cbn in Hs. apply andb_prop in Hs. tauto.
Qed.

(** Assigning a function to an object made with a function of momenta changes nothing *)
Lemma ignored_assignment q l g o h o' : tb_new q l (Some g) (Some "momenta"%string) = Ret o ->
  run1 o (SetMsqrd h) = Ret o' -> o' = o.
Proof.
  intros H. unfold tb_new in H. apply bind_ret in H. destruct H as (ms & Hm & H). cbn in H. injection H as <-.
  cbn. intro E. injection E as <-. reflexivity.
Qed.

Lemma run_momenta l : forall q ms g o o',
  fresh (MkSet q ms (Some g) (Some "momenta"%string)) = Ret o -> run o l = Ret o' ->
  fresh (asked (MkSet q ms (Some g) (Some "momenta"%string)) (filter (fun a => negb (sets_function a)) l)) = Ret o'.
Proof.
  induction l as [|a l IH]; intros q ms g o o' Hf Hr; [cbn in *; congruence|].
  cbn [run] in Hr. apply bind_ret in Hr. destruct Hr as (o1 & H1 & Hr). cbn [filter].
  destruct a as [q'|ms'|h]; cbn [sets_function negb asked fold_left asked1 s_cme s_masses s_fn s_sig].
  - apply (IH q' ms g o1); [|exact Hr]. exact (step_fresh _ o (SetCme q') o1 Hf H1 (or_intror eq_refl)).
  - apply (IH q ms' g o1); [|exact Hr]. exact (step_fresh _ o (SetMasses ms') o1 Hf H1 (or_intror eq_refl)).
  - pose proof (ignored_assignment _ _ _ _ _ _ Hf H1) as ->. exact (IH q ms g o o' Hf Hr).
Qed.

(** * Densities *)

(** The energy of a particle of mass [mi] whose two partners have the invariant mass [m] *)
Definition recoils (q mi m e : R) : Prop := m ^ 2 = (q - e) ^ 2 - (e ^ 2 - mi ^ 2).

Lemma recoil_energy q mi m e : 0 < q -> recoils q mi m e -> e = (q ^ 2 - m ^ 2 + mi ^ 2) / (2 * q).
Proof.
  intros Hq H. unfold recoils in H. apply (Rmult_eq_reg_l (2 * q)); [|lra]. field_simplify; [|lra]. nra.
Qed.

(** Substituting the energy of one particle for the invariant mass of the others *)
Lemma area_recoil f q mi a b v : 0 < q -> 0 <= a <= b ->
  area f ((q ^ 2 - b ^ 2 + mi ^ 2) / (2 * q)) ((q ^ 2 - a ^ 2 + mi ^ 2) / (2 * q)) v ->
  area (fun m => m / q * f ((q ^ 2 - m ^ 2 + mi ^ 2) / (2 * q))) a b v.
Proof.
  intros Hq Hab (G & Gc & (l & Gd) & Gv).
  set (phi := fun m => (q ^ 2 - m ^ 2 + mi ^ 2) / (2 * q)) in *.
  assert (D : forall m, derivable_pt_lim phi m (- (m / q))).
  { intro m. unfold phi.
    pose proof (derivable_pt_lim_plus (fun _ => (q ^ 2 + mi ^ 2) / (2 * q)) (fun m => - / (2 * q) * (m ^ 2)) m 0
      (- / (2 * q) * (INR 2 * m ^ 1)) (derivable_pt_lim_const _ m)
      (derivable_pt_lim_scal (fun x => x ^ 2) (- / (2 * q)) m _ (derivable_pt_lim_pow m 2))) as P.
    replace (0 + - / (2 * q) * (INR 2 * m ^ 1)) with (- (m / q)) in P by (cbn; field; lra).
    intros eps He. destruct (P eps He) as (d & Hd). exists d. intros h Hh1 Hh2. specialize (Hd h Hh1 Hh2).
    unfold plus_fct, mult_real_fct in Hd.
    replace ((q ^ 2 - (m + h) ^ 2 + mi ^ 2) / (2 * q)) with ((q ^ 2 + mi ^ 2) / (2 * q) + - / (2 * q) * (m + h) ^ 2) by (field; lra).
    replace ((q ^ 2 - m ^ 2 + mi ^ 2) / (2 * q)) with ((q ^ 2 + mi ^ 2) / (2 * q) + - / (2 * q) * m ^ 2) by (field; lra).
    exact Hd. }
  assert (Mono : forall x y, 0 <= x <= y -> phi y <= phi x).
  { intros x y H. unfold phi, Rdiv. apply Rmult_le_compat_r; [left; apply Rinv_0_lt_compat; lra|]. nra. }
  assert (SMono : forall x y, 0 <= x < y -> phi y < phi x).
  { intros x y H. unfold phi, Rdiv. apply Rmult_lt_compat_r; [apply Rinv_0_lt_compat; lra|]. nra. }
  exists (fun m => - G (phi m)). split; [|split].
  - intros c Hc. apply (continuity_pt_opp (fun m => G (phi m))). apply (continuity_pt_comp phi G).
    + apply derivable_continuous_pt. exists (- (c / q)). apply D.
    + apply Gc. split; apply Mono; lra.
  - exists (map (fun e => sqrt (q ^ 2 + mi ^ 2 - 2 * q * e)) l). intros c Hc Hn.
    change (derivable_pt_lim (fun m => - G (phi m)) c (c / q * f (phi c))).
    replace (c / q * f (phi c)) with (- (f (phi c) * - (c / q))) by ring.
    apply (derivable_pt_lim_opp (fun m => G (phi m))). apply (derivable_pt_lim_comp phi G); [apply D|]. apply Gd.
    + split; apply SMono; lra.
    + intro Hin. apply Hn. apply in_map_iff. exists (phi c). split; [|exact Hin].
      replace (q ^ 2 + mi ^ 2 - 2 * q * phi c) with (c ^ 2) by (unfold phi; field; lra). apply sqrt_pow2. lra.
  - rewrite <- Gv. unfold phi. lra.
Qed.

(** The limits in scaled energies *)
Lemma x_limits q m1 m2 m3 e : 0 < q ->
  fst (bounds_x q m1 m2 m3) = 2 * m1 / q /\
  snd (bounds_x q m1 m2 m3) = 2 * ((q ^ 2 + m1 ^ 2 - (m2 + m3) ^ 2) / (2 * q)) / q /\
  (2 * e / q < fst (bounds_x q m1 m2 m3) <-> e < m1) /\
  (snd (bounds_x q m1 m2 m3) < 2 * e / q <-> (q ^ 2 + m1 ^ 2 - (m2 + m3) ^ 2) / (2 * q) < e).
Proof.
  intros Hq. unfold bounds_x. cbn [fst snd].
  assert (E1 : 2 * (m1 / q) = 2 * m1 / q) by (field; lra).
  assert (E2 : (m1 / q) ^ 2 + (1 - (m2 / q + m3 / q) ^ 2) = 2 * ((q ^ 2 + m1 ^ 2 - (m2 + m3) ^ 2) / (2 * q)) / q) by (field; lra).
  rewrite E1, E2. assert (I : 0 < / q) by (apply Rinv_0_lt_compat; exact Hq).
  assert (L : forall a b, 2 * a / q < 2 * b / q <-> a < b).
  { intros a b. unfold Rdiv. split; intro H; [apply Rmult_lt_reg_r in H; lra|apply Rmult_lt_compat_r; lra]. }
  repeat split; try reflexivity; apply L.
Qed.

(** The relabelled masses *)
Definition vzero : vec := V4 0 0 0 0.
Definition partner (i : nat) : nat := match i with 0%nat => 1%nat | 1%nat => 0%nat | _ => 1%nat end.
Definition third (i : nat) : nat := match i with 0%nat => 2%nat | 1%nat => 2%nat | _ => 0%nat end.

Lemma relabel_ok i m1 m2 m3 : (i < 3)%nat -> exists f,
  relabel i m1 m2 m3 = Ret ((nth i [m1; m2; m3] 0, nth (partner i) [m1; m2; m3] 0, nth (third i) [m1; m2; m3] 0), f).
Proof. intros Hi. destruct i as [|[|[|i]]]; [..|lia]; eexists; reflexivity. Qed.

(** The values of the density *)
Lemma density_defined integ msqrd q m1 m2 m3 i e : (i < 3)%nat ->
  exists v, three_body_density integ msqrd q m1 m2 m3 i e = Ret v.
Proof.
  intros Hi. destruct (relabel_ok i m1 m2 m3 Hi) as (f & Hf). unfold three_body_density. rewrite Hf. cbn [bind].
  destruct (Rlt_dec _ _); [eauto|]. destruct (Rlt_dec _ _); eauto.
Qed.

(** * Distributions *)

Lemma points_linspace lo hi n : points lo hi (S n) = linspace lo hi n.
Proof. unfold points, linspace. replace (S n - 1)%nat with n by lia. reflexivity. Qed.

Lemma mapM_ret {A B} (f : A -> res B) (g : A -> B) l : (forall x, In x l -> f x = Ret (g x)) -> mapM f l = Ret (map g l).
Proof.
  induction l as [|x l IH]; intros H; [reflexivity|]. cbn. rewrite (H x (or_introl eq_refl)). cbn [bind].
  rewrite IH by (intros y Hy; apply H; now right). reflexivity.
Qed.

Lemma in_centers lo hi n e : lo < hi -> (0 < n)%nat -> In e (bin_centers (linspace lo hi n)) -> lo < e < hi.
Proof. intros H Hn Hi. apply In_nth_error in Hi. destruct Hi as [i Hi]. exact (linspace_centers lo hi n i e H Hn Hi). Qed.

(** A distribution sampled from a function that is positive between the limits *)
Lemma sampled (F : R -> res R) lo hi n : lo < hi -> (0 < n)%nat ->
  (forall e, lo < e < hi -> exists v, F e = Ret v /\ 0 < v) ->
  exists d, (let* ys := mapM F (bin_centers (points lo hi (S n))) in dist_new (points lo hi (S n)) ys) = Ret d /\
    samples_density d lo hi n (fun e v => F e = Ret v).
Proof.
  intros H Hn HF. rewrite points_linspace.
  set (f := fun e => match F e with Ret v => v | Raise _ => 0 end).
  assert (Hf : forall e, lo < e < hi -> F e = Ret (f e) /\ 0 < f e).
  { intros e He. destruct (HF e He) as (v & Ev & Pv). unfold f. rewrite Ev. tauto. }
  rewrite (mapM_ret F f) by (intros e He; apply Hf; exact (in_centers lo hi n e H Hn He)). cbn [bind].
  apply (dist_of_density lo hi n f 1 (fun e v => F e = Ret v) H Hn Rlt_0_1).
  intros e He. destruct (Hf e He) as [Ef Pf]. split; [exact Pf|]. rewrite Rmult_1_l. exact Ef.
Qed.

(** The largest energy of particle [i] *)
Definition top (q : R) (ms : list R) (i : nat) : R :=
  (q ^ 2 + nth i ms 0 ^ 2 - (nth (partner i) ms 0 + nth (third i) ms 0) ^ 2) / (2 * q).

Lemma top_above q m1 m2 m3 i : 0 <= m1 -> 0 <= m2 -> 0 <= m3 -> m1 + m2 + m3 < q -> (i < 3)%nat ->
  nth i [m1; m2; m3] 0 < top q [m1; m2; m3] i.
Proof.
  intros H1 H2 H3 Hq Hi. unfold top. assert (0 < q) by lra.
  apply (Rmult_lt_reg_l (2 * q)); [lra|].
  replace (2 * q * ((q ^ 2 + nth i [m1; m2; m3] 0 ^ 2 - (nth (partner i) [m1; m2; m3] 0 + nth (third i) [m1; m2; m3] 0) ^ 2) / (2 * q)))
    with (q ^ 2 + nth i [m1; m2; m3] 0 ^ 2 - (nth (partner i) [m1; m2; m3] 0 + nth (third i) [m1; m2; m3] 0) ^ 2) by (field; lra).
  destruct i as [|[|[|i]]]; [..|lia]; cbn [nth partner third]; nra.
Qed.

(** The limits the distributions are made with *)
Lemma limits_are q m1 m2 m3 : 0 < q ->
  combine (seq 0 3) (energy_limits q [m1; m2; m3]) =
    map (fun i => (i, (nth i [m1; m2; m3] 0, top q [m1; m2; m3] i))) [0; 1; 2]%nat /\
  invariant_mass_limits q [m1; m2; m3] = [((0, 1)%nat, (m1 + m2, q - m3)); ((0, 2)%nat, (m1 + m3, q - m2)); ((1, 2)%nat, (m2 + m3, q - m1))].
Proof.
  intros Hq. split.
  - unfold energy_limits, total, top. cbn. f_equal; [|f_equal; [|f_equal]]; f_equal; f_equal; field; lra.
  - unfold invariant_mass_limits, total. cbn. f_equal; [|f_equal; [|f_equal]]; f_equal; f_equal; ring.
Qed.
