(** Properties of the class ThreeBody (C169-C171). *)
From Coq Require Import String Reals Lra Psatz Lia Arith Bool List.
From Verif Require Import PyBase RamboModel RamboProofs RamboProps KinModel KinProofs DalitzProofs KinProps Area NbodyProofs MedSpecProofs VffModel VffProofs TriModel TriProofs.
Import ListNotations.
Local Open Scope nat_scope.
Local Open Scope R_scope.

(** * C169: assignments *)

(** After any assignments the object is one newly made with what was asked for last, unless a function was assigned
    to an object that takes functions of momenta *)
Theorem assignments_followed : forall st o l o', fresh st = Ret o -> run o l = Ret o' ->
  s_sig st <> Some "momenta"%string \/ (forall a g, In a l -> a <> SetMsqrd g) -> as_fresh (asked st l) o'.
Proof.
  intros st o l o' Hf Hr Hs. exists o'. split; [|repeat split; reflexivity].
  apply (run_fresh l st o o' Hf Hr). destruct Hs as [Hs|Hs]; [now left|right].
  apply forallb_forall. intros a Ha. destruct a as [q|ms|g]; try reflexivity. exfalso. exact (Hs _ g Ha eq_refl).
Qed.
Print Assumptions assignments_followed.

(** With a function of momenta every assigned function is ignored and the first one stays *)
Theorem momenta_function_stays : forall q ms g o l o',
  tb_new q ms (Some g) (Some "momenta"%string) = Ret o -> run o l = Ret o' ->
  exists q' ms', as_fresh (MkSet q' ms' (Some g) (Some "momenta"%string)) o' /\
    q' = s_cme (asked (MkSet q ms (Some g) (Some "momenta"%string)) l) /\
    ms' = s_masses (asked (MkSet q ms (Some g) (Some "momenta"%string)) l).
Proof.
  intros q ms g o l o' Hf Hr.
  pose proof (run_momenta l q ms g o o' Hf Hr) as H.
  assert (K : forall l q ms h, let st := asked (MkSet q ms (Some g) (Some "momenta"%string)) (filter (fun a => negb (sets_function a)) l) in
    st = MkSet (s_cme (asked (MkSet q ms (Some h) (Some "momenta"%string)) l))
               (s_masses (asked (MkSet q ms (Some h) (Some "momenta"%string)) l)) (Some g) (Some "momenta"%string)).
  { clear. induction l as [|a l IH]; intros q ms h; [reflexivity|].
    destruct a as [q'|ms'|h']; cbn [filter sets_function negb asked fold_left asked1 s_cme s_masses s_fn s_sig]; apply IH. }
  specialize (K l q ms g). cbn zeta in K. rewrite K in H. eexists. eexists. split; [|split; reflexivity].
  exists o'. split; [exact H|]. repeat split; reflexivity.
Qed.
Print Assumptions momenta_function_stays.

(** The full claim is false: the function assigned second is not used, and without a function at first the second is
    called with the wrong arguments *)
Theorem assignments_followed_refuted :
  (exists q ms g h o o', tb_new q ms (Some g) (Some "momenta"%string) = Ret o /\ run o [SetMsqrd h] = Ret o' /\
     exists n, tb_new q ms (Some h) (Some "momenta"%string) = Ret n /\
     forall s t, tb_msqrd n s t = Ret 2 /\ tb_msqrd o' s t = Ret 1) /\
  (exists q ms h o o', tb_new q ms None (Some "momenta"%string) = Ret o /\ run o [SetMsqrd h] = Ret o' /\
     exists n, tb_new q ms (Some h) (Some "momenta"%string) = Ret n /\
     forall s t, tb_msqrd n s t = Ret 2 /\ tb_msqrd o' s t = Raise TypeError).
Proof.
  split.
  - exists 10, [1; 2; 3], (OfMomenta (fun _ => 1)), (OfMomenta (fun _ => 2)).
    eexists. eexists. split; [reflexivity|]. split; [reflexivity|]. eexists. split; [reflexivity|]. intros s t. split; reflexivity.
  - exists 10, [1; 2; 3], (OfMomenta (fun _ => 2)).
    eexists. eexists. split; [reflexivity|]. split; [reflexivity|]. eexists. split; [reflexivity|]. intros s t. split; reflexivity.
Qed.
Print Assumptions assignments_followed_refuted.

(** An object with a function of momenta follows the energy and the masses: the momenta it is called with change *)
Example assignments_case : exists o o', fresh (MkSet 10 [0; 0; 0] (Some (OfMomenta (fun ps => en (vsum ps)))) (Some "momenta"%string)) = Ret o /\
  run o [SetCme 20; SetMasses [0; 0; 1]] = Ret o' /\ tb_cme o' = 20 /\ tb_msqrd o' 200 100 = Ret 20 /\
  s_sig (MkSet 10 [0; 0; 0] (Some (OfMomenta (fun ps => en (vsum ps)))) None) <> Some "momenta"%string.
Proof.
  eexists. eexists. split; [reflexivity|]. split; [reflexivity|]. split; [reflexivity|]. split.
  - cbn. f_equal. field.
  - discriminate.
Qed.

(** * C170: densities *)

(** The density of the energy of particle [i] is the integral over the energies of another particle that occur with
    it, of the squared matrix element at the invariants of the events, over 32 pi^3 *)
Theorem energy_density_exact : forall integ msqrd q m1 m2 m3 i e lo hi M v, exact_rule integ ->
  0 < q -> 0 <= m1 -> 0 <= m2 -> 0 <= m3 -> m1 + m2 + m3 <= q -> (i < 3)%nat ->
  let ms := [m1; m2; m3] in
  let mi := nth i ms 0 in
  let j := partner i in
  mi < e < (q ^ 2 + mi ^ 2 - (nth (partner i) ms 0 + nth (third i) ms 0) ^ 2) / (2 * q) ->
  (forall ej, lo <= ej <= hi <-> exists p1 p2 p3, event q ms [p1; p2; p3] /\
      en (nth i [p1; p2; p3] vzero) = e /\ en (nth j [p1; p2; p3] vzero) = ej) ->
  (forall p1 p2 p3, event q ms [p1; p2; p3] -> en (nth i [p1; p2; p3] vzero) = e ->
      M (en (nth j [p1; p2; p3] vzero)) = msqrd (lnorm_sqr (vplus p2 p3)) (lnorm_sqr (vplus p1 p3))) ->
  area (fun ej => M ej / (32 * PI ^ 3)) lo hi v ->
  three_body_density integ msqrd q m1 m2 m3 i e = Ret v.
Proof.
  intros integ msqrd q m1 m2 m3 i e lo hi M v Hx Hq H1 H2 H3 Ht Hi ms mi j He Hset HM A.
  destruct (relabel_ok i m1 m2 m3 Hi) as (f & Hf).
  destruct (dalitz_relabel q m1 m2 m3 i _ _ _ f Hq Hf) as [_ Hphys].
  fold ms in Hf, Hphys. fold mi in Hf, Hphys. fold j in Hf, Hphys, He.
  set (mj := nth j ms 0) in *. set (mk := nth (third i) ms 0) in *.
  assert (Hn : 0 <= mi /\ 0 <= mj /\ 0 <= mk /\ mi + mj + mk <= q).
  { unfold mi, mj, mk, j, ms. destruct i as [|[|[|i]]]; cbn; try lia; lra. }
  destruct Hn as (Ni & Nj & Nk & Nt).
  destruct (x_limits q mi mj mk e Hq) as (Ex1 & Ex2 & Lx1 & Lx2).
  set (x := 2 * e / q) in *.
  unfold three_body_density. unfold ms in Hf. rewrite Hf. cbn [bind]. fold ms. fold x.
  destruct (Rlt_dec x (fst (bounds_x q mi mj mk))) as [C|C]; [apply Lx1 in C; lra|].
  destruct (Rlt_dec (snd (bounds_x q mi mj mk)) x) as [C'|C']; [apply Lx2 in C'; lra|].
  assert (Hxl : fst (bounds_x q mi mj mk) < x <= snd (bounds_x q mi mj mk)).
  { split; [|lra]. rewrite Ex1. unfold x, Rdiv. apply Rmult_lt_compat_r; [apply Rinv_0_lt_compat; lra|lra]. }
  assert (Hx1 : x < 1 + (mi / q) ^ 2).
  { assert (E : x < 2 * ((q ^ 2 + mi ^ 2 - (mj + mk) ^ 2) / (2 * q)) / q).
    { unfold x. unfold Rdiv at 1 2. apply Rmult_lt_compat_r; [apply Rinv_0_lt_compat; lra|lra]. }
    replace (2 * ((q ^ 2 + mi ^ 2 - (mj + mk) ^ 2) / (2 * q)) / q) with (1 + (mi / q) ^ 2 - ((mj + mk) / q) ^ 2) in E by (field; lra).
    pose proof (pow2_ge_0 ((mj + mk) / q)). lra. }
  pose proof (dalitz_y_limits q mi mj mk x Hq Ni Nj Nk Nt Hxl Hx1) as Hy.
  set (yl := fst (bounds_y q mi mj mk x)) in *. set (yh := snd (bounds_y q mi mj mk x)) in *.
  assert (Hyy : yl <= yh).
  { unfold yl, yh, bounds_y. cbn [fst snd]. set (K := sqrt _). assert (0 <= K) by apply sqrt_pos.
    unfold Rdiv. apply Rmult_le_compat_r; [left; apply Rinv_0_lt_compat; unfold Rdiv in Hx1; lra|]. lra. }
  (* events with the relabelled energies are events with the original ones *)
  assert (Hev : forall y, physical q mi mj mk x y <-> exists p1 p2 p3, event q ms [p1; p2; p3] /\
      en (nth i [p1; p2; p3] vzero) = e /\ en (nth j [p1; p2; p3] vzero) = q * y / 2).
  { intros y. rewrite Hphys. assert (Exe : q * x / 2 = e) by (unfold x; field; lra).
    unfold mi, mj, mk, j, ms in *. clear - Hf Hq Exe.
    destruct i as [|[|[|i]]]; cbn in Hf; [injection Hf as <-..|discriminate]; cbn [nth partner].
    - split; [intros [(p1 & p2 & p3 & Ev & E1 & E2) _]; exists p1, p2, p3; split; [exact Ev|split; lra]|].
      intros (p1 & p2 & p3 & Ev & E1 & E2). split; [|reflexivity]. exists p1, p2, p3. split; [exact Ev|split; lra].
    - split; [intros [(p1 & p2 & p3 & Ev & E1 & E2) _]; exists p1, p2, p3; split; [exact Ev|split; lra]|].
      intros (p1 & p2 & p3 & Ev & E1 & E2). split; [|reflexivity]. exists p1, p2, p3. split; [exact Ev|split; lra].
    - split.
      + intros [(p1 & p2 & p3 & Ev & E1 & E2) _]. exists p1, p2, p3. split; [exact Ev|]. apply event3 in Ev.
        destruct Ev as (_ & _ & _ & Et). apply (f_equal en) in Et. cbn [vplus en] in Et. split; lra.
      + intros (p1 & p2 & p3 & Ev & E1 & E2). split; [|ring]. exists p1, p2, p3. split; [exact Ev|]. apply event3 in Ev.
        destruct Ev as (_ & _ & _ & Et). apply (f_equal en) in Et. cbn [vplus en] in Et. split; lra. }
  assert (Hin : forall y, yl <= y <= yh <-> lo <= q * y / 2 <= hi).
  { intros y. rewrite Hy, Hev, Hset. reflexivity. }
  assert (El : lo = q / 2 * yl /\ hi = q / 2 * yh).
  { assert (B1 : lo <= q * yl / 2 <= hi) by (apply Hin; lra). assert (B2 : lo <= q * yh / 2 <= hi) by (apply Hin; lra).
    assert (B3 : yl <= 2 * lo / q <= yh) by (apply Hin; replace (q * (2 * lo / q) / 2) with lo by (field; lra); lra).
    assert (B4 : yl <= 2 * hi / q <= yh) by (apply Hin; replace (q * (2 * hi / q) / 2) with hi by (field; lra); lra).
    assert (E3 : q * (2 * lo / q) = 2 * lo) by (field; lra). assert (E4 : q * (2 * hi / q) = 2 * hi) by (field; lra).
    split; nra. }
  destruct El as [-> ->].
  apply (area_stretch _ yl yh v (q / 2)) in A; [|lra].
  f_equal. rewrite (Hx _ yl yh (64 * PI ^ 3 / q * v)); [field; split; apply Rgt_not_eq; first [exact PI_RGT_0|exact Hq]|exact Hyy|].
  apply (area_scale (64 * PI ^ 3 / q)) in A. refine (area_ext _ _ _ _ _ [] _ A). intros y Hy0 _. cbv beta.
  assert (Hp : physical q mi mj mk x y) by (apply Hy; lra).
  pose proof (proj1 (Hev y) Hp) as (p1 & p2 & p3 & Ev & E1 & E2).
  pose proof (HM p1 p2 p3 Ev E1) as EM. rewrite E2 in EM. replace (q / 2 * y) with (q * y / 2) by field. rewrite EM.
  assert (Exe : q * x / 2 = e) by (unfold x; field; lra).
  assert (Einv : (let '(x0, y0) := f x y in invariants_at q m1 m2 x0 y0) = (lnorm_sqr (vplus p2 p3), lnorm_sqr (vplus p1 p3))).
  { change (lnorm_sqr (vplus p2 p3), lnorm_sqr (vplus p1 p3)) with (invariants [p1; p2; p3]).
    clear - Hf Hq Exe Ev E1 E2. unfold mi, mj, mk, j, ms in *.
    destruct i as [|[|[|i]]]; cbn in Hf; [injection Hf as <-..|discriminate]; cbn [nth partner] in *;
      symmetry; apply (dalitz_invariants q m1 m2 m3); try exact Hq; try exact Ev; try lra.
    apply event3 in Ev. destruct Ev as (_ & _ & _ & Et). apply (f_equal en) in Et. cbn [vplus en] in Et. lra. }
  destruct (f x y) as [x0 y0]. cbn zeta in Einv. rewrite Einv. field; split; apply Rgt_not_eq; first [exact PI_RGT_0|exact Hq].
Qed.
Print Assumptions energy_density_exact.

(** Three massless particles of total energy 10, the first of energy 2: the second has between 3 and 5 *)
Example energy_density_case : (exists integ, exact_rule integ) /\
  (forall ej, 3 <= ej <= 5 <-> exists p1 p2 p3, event 10 [0; 0; 0] [p1; p2; p3] /\
      en (nth 0 [p1; p2; p3] vzero) = 2 /\ en (nth (partner 0) [p1; p2; p3] vzero) = ej) /\
  0 < 2 < (10 ^ 2 + 0 ^ 2 - (0 + 0) ^ 2) / (2 * 10) /\
  area (fun _ => 1 / (32 * PI ^ 3)) 3 5 (1 / (16 * PI ^ 3)).
Proof.
  split; [exact exact_exists|]. split; [|split; [lra|]].
  - intros ej.
    pose proof (dalitz_y_limits 10 0 0 0 (2 / 5)) as D.
    assert (Eb : fst (bounds_x 10 0 0 0) < 2 / 5 <= snd (bounds_x 10 0 0 0)) by (unfold bounds_x; cbn [fst snd]; lra).
    specialize (D ltac:(lra) ltac:(lra) ltac:(lra) ltac:(lra) ltac:(lra) Eb ltac:(lra) (ej / 5)).
    assert (E1 : fst (bounds_y 10 0 0 0 (2 / 5)) = 3 / 5 /\ snd (bounds_y 10 0 0 0 (2 / 5)) = 1).
    { unfold bounds_y. cbn [fst snd]. replace (kallen_lambda 1 ((0 / 10) ^ 2) (1 - 2 / 5 + (0 / 10) ^ 2) *
        kallen_lambda (1 - 2 / 5 + (0 / 10) ^ 2) ((0 / 10) ^ 2) ((0 / 10) ^ 2)) with ((6 / 25) ^ 2) by (unfold kallen_lambda; field).
      rewrite sqrt_pow2 by lra. replace 0.5 with (1 / 2) by lra. split; field. }
    destruct E1 as [-> ->] in D. unfold physical in D. cbn [nth partner]. split.
    + intros H. destruct (proj1 D ltac:(lra)) as (p1 & p2 & p3 & Ev & A & B). exists p1, p2, p3. split; [exact Ev|]. split; lra.
    + intros (p1 & p2 & p3 & Ev & A & B). assert (3 / 5 <= ej / 5 <= 1); [|lra]. apply D. exists p1, p2, p3.
      split; [exact Ev|]. split; lra.
  - refine (area_val _ _ _ _ _ _ (area_const _ 3 5)). field. apply Rgt_not_eq, PI_RGT_0.
Qed.

(** The total by quadrature is the integral of the density of the energy of the first particle *)
Theorem quad_total_is_energy_integral : forall integ msqrd q m1 m2 m3 d v, exact_rule integ ->
  0 < q -> 0 <= m1 -> 0 <= m2 -> 0 <= m3 -> m1 + m2 + m3 <= q ->
  (forall e, three_body_density integ msqrd q m1 m2 m3 0 e = Ret (d e)) ->
  area d m1 ((q ^ 2 + m1 ^ 2 - (m2 + m3) ^ 2) / (2 * q)) v ->
  integrate_quad integ msqrd q m1 m2 m3 = v.
Proof.
  intros integ msqrd q m1 m2 m3 d v Hx Hq H1 H2 H3 Ht Hd A. unfold integrate_quad.
  destruct (x_limits q m1 m2 m3 0 Hq) as (Ex1 & Ex2 & _ & _).
  set (emax := (q ^ 2 + m1 ^ 2 - (m2 + m3) ^ 2) / (2 * q)) in *.
  assert (Hl : m1 <= emax).
  { unfold emax. apply (Rmult_le_reg_l (2 * q)); [lra|]. field_simplify; [|lra]. nra. }
  rewrite Ex1, Ex2.
  pose proof PI_RGT_0 as Pp.
  rewrite (Hx _ (2 * m1 / q) (2 * emax / q) (128 * PI ^ 3 / q ^ 2 * v)).
  - field. split; apply Rgt_not_eq; assumption.
  - unfold Rdiv. apply Rmult_le_compat_r; [left; apply Rinv_0_lt_compat; lra|lra].
  - assert (F : forall z, z = q / 2 * (2 * z / q)) by (intro z; field; lra). rewrite (F m1), (F emax) in A.
    apply area_stretch in A; [|lra]. apply (area_scale (128 * PI ^ 3 / q ^ 2)) in A.
    refine (area_ext _ _ _ _ _ [] _ A). intros x Hxx _. cbv beta.
    specialize (Hd (q / 2 * x)). unfold three_body_density in Hd. cbn [relabel bind] in Hd.
    replace (2 * (q / 2 * x) / q) with x in Hd by (field; apply Rgt_not_eq; exact Hq). rewrite Ex1, Ex2 in Hd.
    destruct (Rlt_dec x (2 * m1 / q)); [lra|]. destruct (Rlt_dec (2 * emax / q) x); [lra|].
    unfold invariants_at in Hd. cbv beta iota zeta in Hd. injection Hd as Hd. rewrite <- Hd.
    set (I := integ _ _ _). clearbody I. field. split; apply Rgt_not_eq; assumption.
Qed.
Print Assumptions quad_total_is_energy_integral.

(** The density of the invariant mass of a pair gives an interval of masses the weight that the density of the energy
    of the third particle gives the energies it recoils with *)
Theorem invariant_mass_density_exact : forall integ msqrd q m1 m2 m3 i j k d, 0 < q ->
  In (j, k, i) [(0, 1, 2); (0, 2, 1); (1, 2, 0)]%nat ->
  (forall e, three_body_density integ msqrd q m1 m2 m3 i e = Ret (d e)) ->
  exists w, (forall m, invmass_weight integ msqrd q m1 m2 m3 (j, k) m = Ret (w m)) /\
    forall a b ea eb v, 0 <= a <= b ->
      recoils q (nth i [m1; m2; m3] 0) a ea -> recoils q (nth i [m1; m2; m3] 0) b eb ->
      area d eb ea v -> area w a b v.
Proof.
  intros integ msqrd q m1 m2 m3 i j k d Hq Hin Hd.
  assert (El : left_over (j, k) = i) by (cbn in Hin; destruct Hin as [E|[E|[E|[]]]]; injection E as <- <- <-; reflexivity).
  exists (fun m => m / q * d ((q ^ 2 - m ^ 2 + nth i [m1; m2; m3] 0 ^ 2) / (2 * q))). split.
  - intros m. unfold invmass_weight. rewrite El, Hd. reflexivity.
  - intros a b ea eb v Hab Ra Rb A. apply recoil_energy in Ra; [|exact Hq]. apply recoil_energy in Rb; [|exact Hq].
    subst ea eb. apply area_recoil; assumption.
Qed.
Print Assumptions invariant_mass_density_exact.

Example recoil_case : In (0, 1, 2)%nat [(0, 1, 2); (0, 2, 1); (1, 2, 0)]%nat /\ recoils 10 3 (1 + 2) 5 /\ recoils 10 3 7 3 /\
  exists v, three_body_density (fun f a b => (b - a) * f a) (fun _ _ => 1) 10 1 2 3 2 4 = Ret v.
Proof. unfold recoils. split; [cbn; tauto|]. split; [lra|]. split; [lra|]. apply density_defined. lia. Qed.

(** * C171: distributions *)

(** Asked for n + 1 bins, the quadrature makes n, between the kinematic limits, normalised and proportional to the
    density of the energy at the bin centres *)
Theorem energy_distributions_sampled : forall integ msqrd q m1 m2 m3 n,
  0 <= m1 -> 0 <= m2 -> 0 <= m3 -> m1 + m2 + m3 < q -> (0 < n)%nat ->
  (forall i e, (i < 3)%nat -> nth i [m1; m2; m3] 0 < e < top q [m1; m2; m3] i ->
    exists v, three_body_density integ msqrd q m1 m2 m3 i e = Ret v /\ 0 < v) ->
  exists d0 d1 d2, energy_distributions_quad integ msqrd q m1 m2 m3 (S n) = Ret [d0; d1; d2] /\
    forall i, (i < 3)%nat -> samples_density (nth i [d0; d1; d2] d0) (nth i [m1; m2; m3] 0) (top q [m1; m2; m3] i) n
      (fun e v => three_body_density integ msqrd q m1 m2 m3 i e = Ret v).
Proof.
  intros integ msqrd q m1 m2 m3 n H1 H2 H3 Hq Hn Hp.
  assert (S3 : forall i, (i < 3)%nat -> exists d,
    energy_dist integ msqrd q m1 m2 m3 (S n) i (nth i [m1; m2; m3] 0, top q [m1; m2; m3] i) = Ret d /\
    samples_density d (nth i [m1; m2; m3] 0) (top q [m1; m2; m3] i) n (fun e v => three_body_density integ msqrd q m1 m2 m3 i e = Ret v)).
  { intros i Hi. unfold energy_dist. cbn [fst snd]. apply sampled; [now apply top_above|exact Hn|]. intros e He. now apply Hp. }
  destruct (S3 0%nat ltac:(lia)) as (d0 & E0 & D0). destruct (S3 1%nat ltac:(lia)) as (d1 & E1 & D1).
  destruct (S3 2%nat ltac:(lia)) as (d2 & E2 & D2). exists d0, d1, d2. split.
  - unfold energy_distributions_quad. rewrite (proj1 (limits_are q m1 m2 m3 ltac:(lra))). cbn [map mapM fst snd].
    rewrite E0. cbn [bind]. rewrite E1. cbn [bind]. rewrite E2. reflexivity.
  - intros i Hi. destruct i as [|[|[|i]]]; [exact D0|exact D1|exact D2|lia].
Qed.
Print Assumptions energy_distributions_sampled.

(** The same for the invariant masses of the three pairs, with the weight of the recoiling energy *)
Theorem invariant_mass_distributions_sampled : forall integ msqrd q m1 m2 m3 n,
  0 <= m1 -> 0 <= m2 -> 0 <= m3 -> m1 + m2 + m3 < q -> (0 < n)%nat ->
  (forall i e, (i < 3)%nat -> nth i [m1; m2; m3] 0 < e < top q [m1; m2; m3] i ->
    exists v, three_body_density integ msqrd q m1 m2 m3 i e = Ret v /\ 0 < v) ->
  exists d01 d02 d12,
    invariant_mass_distributions_quad integ msqrd q m1 m2 m3 (S n) = Ret [((0, 1)%nat, d01); ((0, 2)%nat, d02); ((1, 2)%nat, d12)] /\
    forall d i mi mpair, In (d, i, mi, mpair) [(d01, 2%nat, m3, m1 + m2); (d02, 1%nat, m2, m1 + m3); (d12, 0%nat, m1, m2 + m3)] ->
      samples_density d mpair (q - mi) n
        (fun m v => exists e dv, recoils q mi m e /\ three_body_density integ msqrd q m1 m2 m3 i e = Ret dv /\ v = m / q * dv).
Proof.
  intros integ msqrd q m1 m2 m3 n H1 H2 H3 Hq Hn Hp.
  assert (S3 : forall j k i mi mpair, In (j, k, i, mi, mpair) [(0%nat, 1%nat, 2%nat, m3, m1 + m2); (0%nat, 2%nat, 1%nat, m2, m1 + m3); (1%nat, 2%nat, 0%nat, m1, m2 + m3)] -> exists d,
    invmass_dist integ msqrd q m1 m2 m3 (S n) (j, k) (mpair, q - mi) = Ret d /\
    samples_density d mpair (q - mi) n
      (fun m v => exists e dv, recoils q mi m e /\ three_body_density integ msqrd q m1 m2 m3 i e = Ret dv /\ v = m / q * dv)).
  { intros j k i mi mpair Hin.
    assert (F : left_over (j, k) = i /\ nth i [m1; m2; m3] 0 = mi /\ (i < 3)%nat /\ mpair < q - mi /\ 0 <= mpair /\ 0 <= mi /\
      mpair = nth (partner i) [m1; m2; m3] 0 + nth (third i) [m1; m2; m3] 0).
    { cbn in Hin. destruct Hin as [E|[E|[E|[]]]]; injection E as <- <- <- <- <-; cbn; repeat split; try lia; lra. }
    destruct F as (El & Em & Hi & Hlt & Hm0 & Hmi & Epair).
    destruct (sampled (invmass_weight integ msqrd q m1 m2 m3 (j, k)) mpair (q - mi) n Hlt Hn) as (d & Ed & Sd).
    - intros m Hm. unfold invmass_weight. rewrite El, Em.
      destruct (Hp i ((q ^ 2 - m ^ 2 + mi ^ 2) / (2 * q)) Hi) as (v & Ev & Pv).
      + rewrite Em. unfold top. rewrite Em, <- Epair. split.
        * apply (Rmult_lt_reg_l (2 * q)); [lra|]. replace (2 * q * ((q ^ 2 - m ^ 2 + mi ^ 2) / (2 * q))) with (q ^ 2 - m ^ 2 + mi ^ 2) by (field; lra). nra.
        * unfold Rdiv. apply Rmult_lt_compat_r; [apply Rinv_0_lt_compat; lra|]. nra.
      + exists (m / q * v). rewrite Ev. split; [reflexivity|]. apply Rmult_lt_0_compat; [apply Rdiv_lt_0_compat; lra|exact Pv].
    - exists d. split; [exact Ed|]. destruct Sd as (B & ps & c & E1 & E2 & E3 & E4 & E5). split; [exact B|].
      exists ps, c. split; [exact E1|]. split; [exact E2|]. split; [exact E3|]. split; [exact E4|]. intros i' p Hi'.
      destruct (E5 i' p Hi') as (m & A1 & A2 & A3 & A4). exists m. split; [exact A1|]. split; [exact A2|]. split; [exact A3|].
      unfold invmass_weight in A4. rewrite El, Em in A4. apply bind_ret in A4. destruct A4 as (dv & Dv & Ev).
      exists ((q ^ 2 - m ^ 2 + mi ^ 2) / (2 * q)), dv. split; [unfold recoils; field; lra|]. split; [exact Dv|].
      injection Ev as Ev. symmetry. exact Ev. }
  destruct (S3 0%nat 1%nat 2%nat m3 (m1 + m2) ltac:(cbn; tauto)) as (d01 & E01 & D01).
  destruct (S3 0%nat 2%nat 1%nat m2 (m1 + m3) ltac:(cbn; tauto)) as (d02 & E02 & D02).
  destruct (S3 1%nat 2%nat 0%nat m1 (m2 + m3) ltac:(cbn; tauto)) as (d12 & E12 & D12).
  exists d01, d02, d12. split.
  - unfold invariant_mass_distributions_quad. rewrite (proj2 (limits_are q m1 m2 m3 ltac:(lra))). cbn [mapM fst snd].
    rewrite E01. cbn [bind]. rewrite E02. cbn [bind]. rewrite E12. reflexivity.
  - intros d i mi mpair Hin. cbn in Hin. destruct Hin as [E|[E|[E|[]]]]; injection E as <- <- <- <-; assumption.
Qed.
Print Assumptions invariant_mass_distributions_sampled.

(** Massless particles and a constant matrix element: the densities are positive *)
Lemma massless_density i e : (i < 3)%nat -> 0 < e < 5 ->
  exists v, three_body_density (fun f a b => (b - a) * f a) (fun _ _ => 1) 10 0 0 0 i e = Ret v /\ 0 < v.
Proof.
  intros Hi He. pose proof PI_RGT_0 as Pp. assert (P3 : 0 < PI ^ 3) by (apply pow_lt; exact Pp).
  assert (B : fst (bounds_x 10 0 0 0) = 0 /\ snd (bounds_x 10 0 0 0) = 1) by (unfold bounds_x; cbn [fst snd]; split; field).
  assert (W : snd (bounds_y 10 0 0 0 (2 * e / 10)) - fst (bounds_y 10 0 0 0 (2 * e / 10)) = e / 5).
  { unfold bounds_y. cbn [fst snd].
    replace (kallen_lambda 1 ((0 / 10) ^ 2) (1 - 2 * e / 10 + (0 / 10) ^ 2) *
      kallen_lambda (1 - 2 * e / 10 + (0 / 10) ^ 2) ((0 / 10) ^ 2) ((0 / 10) ^ 2)) with ((e / 5 * (1 - e / 5)) ^ 2) by (unfold kallen_lambda; field).
    rewrite sqrt_pow2 by nra. replace 0.5 with (1 / 2) by lra. field. lra. }
  unfold three_body_density. destruct i as [|[|[|i]]]; [..|lia]; cbn [relabel bind]; destruct B as [-> ->];
    (destruct (Rlt_dec _ _); [lra|]; destruct (Rlt_dec _ _); [lra|]);
    (eexists; split; [reflexivity|]; rewrite W; unfold invariants_at; cbv beta iota zeta;
     apply Rmult_lt_0_compat; [apply Rdiv_lt_0_compat; lra|lra]).
Qed.

Lemma massless_top i : (i < 3)%nat -> nth i [0; 0; 0] 0 = 0 /\ top 10 [0; 0; 0] i = 5.
Proof. intros Hi. unfold top. destruct i as [|[|[|i]]]; [..|lia]; cbn; split; lra. Qed.

Example sampled_case : 0 + 0 + 0 < 10 /\ forall i e, (i < 3)%nat -> nth i [0; 0; 0] 0 < e < top 10 [0; 0; 0] i ->
    exists v, three_body_density (fun f a b => (b - a) * f a) (fun _ _ => 1) 10 0 0 0 i e = Ret v /\ 0 < v.
Proof.
  split; [lra|]. intros i e Hi He. destruct (massless_top i Hi) as [E1 E2]. rewrite E1, E2 in He. now apply massless_density.
Qed.

(** The number of bins is the number asked for: false, one is missing, and one bin is an error *)
Theorem bin_number_refuted :
  (exists integ msqrd q m1 m2 m3 nbins d0 d1 d2 ps, m1 + m2 + m3 < q /\
     energy_distributions_quad integ msqrd q m1 m2 m3 nbins = Ret [d0; d1; d2] /\
     probabilities d0 = Some ps /\ nbins = 2%nat /\ length ps = 1%nat) /\
  (forall integ msqrd q m1 m2 m3, energy_distributions_quad integ msqrd q m1 m2 m3 1 = Raise ValueError).
Proof.
  split.
  - destruct sampled_case as [_ Hp].
    destruct (energy_distributions_sampled (fun f a b => (b - a) * f a) (fun _ _ => 1) 10 0 0 0 1
      ltac:(lra) ltac:(lra) ltac:(lra) ltac:(lra) ltac:(lia) Hp) as (d0 & d1 & d2 & E & Sd).
    destruct (Sd 0%nat ltac:(lia)) as (_ & ps & c & Eps & L & _).
    exists (fun f a b => (b - a) * f a), (fun _ _ => 1), 10, 0, 0, 0, 2%nat, d0, d1, d2, ps.
    split; [lra|]. split; [exact E|]. split; [exact Eps|]. split; [reflexivity|exact L].
  - intros. unfold energy_distributions_quad, energy_limits. cbn [length seq combine map mapM fst snd].
    unfold energy_dist, points, dist_new, normalize_distribution. cbn.
    destruct (Rle_dec 0 0); [reflexivity|lra].
Qed.
Print Assumptions bin_number_refuted.

(** * Methods and thresholds *)

(** Above the threshold all three reject every method but the two *)
Theorem methods_checked : forall integ msqrd q m1 m2 m3 rb rbe rbm nbins method, m1 + m2 + m3 <= q ->
  method <> "quad"%string -> method <> "rambo"%string ->
  tb_integrate integ msqrd q m1 m2 m3 rb method = Raise ValueError /\
  tb_energy_distributions integ msqrd q m1 m2 m3 rbe nbins method = Raise ValueError /\
  tb_invariant_mass_distributions integ msqrd q m1 m2 m3 rbm nbins method = Raise ValueError.
Proof.
  intros integ msqrd q m1 m2 m3 rb rbe rbm nbins method Hq H1 H2.
  unfold tb_integrate, tb_energy_distributions, tb_invariant_mass_distributions.
  apply String.eqb_neq in H1. apply String.eqb_neq in H2. rewrite H1, H2.
  destruct (Rlt_dec q (m1 + m2 + m3)); [lra|]. repeat split; reflexivity.
Qed.
Print Assumptions methods_checked.
Example methods_case : 1 + 2 + 3 <= 10 /\ "trapz"%string <> "quad"%string /\ "trapz"%string <> "rambo"%string.
Proof. split; [lra|]. split; discriminate. Qed.

(** Below it only the invariant masses raise: any method integrates to zero, and the energy distributions have
    probabilities that are all zero *)
Theorem below_threshold_accepted_refuted : exists integ msqrd q m1 m2 m3, 0 < q < m1 + m2 + m3 /\
  (forall rb method, tb_integrate integ msqrd q m1 m2 m3 rb method = Ret 0) /\
  (forall rbm nbins method, tb_invariant_mass_distributions integ msqrd q m1 m2 m3 rbm nbins method = Raise ValueError) /\
  (forall rbe, exists d0 d1 d2, tb_energy_distributions integ msqrd q m1 m2 m3 rbe 2 "quad" = Ret [d0; d1; d2] /\
     forall d, In d [d0; d1; d2] -> probabilities d = Some [0]).
Proof.
  exists (fun _ _ _ => 1), (fun _ _ => 1), 2, 1, 1, 1. split; [lra|]. split; [|split].
  - intros. unfold tb_integrate. destruct (Rlt_dec 2 (1 + 1 + 1)); [reflexivity|lra].
  - intros. unfold tb_invariant_mass_distributions. destruct (Rlt_dec 2 (1 + 1 + 1)); [reflexivity|lra].
  - intros rbe.
    assert (E : forall i, (i < 3)%nat -> exists d, energy_dist (fun _ _ _ => 1) (fun _ _ => 1) 2 1 1 1 2 i (1, 1 / 4) = Ret d /\ probabilities d = Some [0]).
    { intros i Hi. unfold energy_dist, points. cbn [fst snd seq map bin_centers mapM INR].
      assert (D : forall e, e < 1 -> three_body_density (fun _ _ _ => 1) (fun _ _ => 1) 2 1 1 1 i e = Ret 0).
      { intros e He. unfold three_body_density. destruct i as [|[|[|i]]]; [..|lia]; cbn [relabel bind];
          unfold bounds_x; cbn [fst snd]; (destruct (Rlt_dec _ _) as [|C]; [reflexivity|exfalso; apply C; lra]). }
      rewrite D by (cbn; lra). cbn [bind]. unfold dist_new, normalize_distribution. cbn.
      destruct (Rle_dec _ 0) as [|C]; [|exfalso; apply C; lra]. destruct (Rlt_dec 0 0); [lra|]. eexists. split; reflexivity. }
    destruct (E 0%nat ltac:(lia)) as (d0 & E0 & P0). destruct (E 1%nat ltac:(lia)) as (d1 & E1 & P1). destruct (E 2%nat ltac:(lia)) as (d2 & E2 & P2).
    exists d0, d1, d2. split.
    + unfold tb_energy_distributions. cbn [String.eqb Ascii.eqb Bool.eqb]. unfold energy_distributions_quad, energy_limits.
      cbn [length seq combine map mapM fst snd].
      replace ((2 ^ 2 + 1 ^ 2 - (total [1; 1; 1] - 1) ^ 2) / (2 * 2)) with (1 / 4) by (cbn; field).
      rewrite E0. cbn [bind]. rewrite E1. cbn [bind]. rewrite E2. reflexivity.
    + intros d [<-|[<-|[<-|[]]]]; assumption.
Qed.
Print Assumptions below_threshold_accepted_refuted.
