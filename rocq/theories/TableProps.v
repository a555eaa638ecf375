(** Property theorems: tabulated positron and neutrino spectra (C84 boost and conservation, C85 calling contract,
    C86 contents of the tables). *)
From Coq Require Import Reals Lra Lia ZArith Ascii String Bool List.
From Verif Require Import PyBase Area Primitive SpecProofs PionProofs ConserveProofs TableData TableModel TableProofs.
Import ListNotations.
Local Open Scope R_scope.

(** the number in a result that is a float, and the numbers in an array *)
Definition number (r : res value) : R := match r with Ret (VFloat (Some x)) => x | _ => 0 end.
Definition entry (i : nat) (r : res value) : R :=
  match r with Ret (VArr xs) => match nth i xs None with Some x => x | None => 0 end | _ => 0 end.

(** * C84 *)
Lemma load_rising (t : table) (f : R * list R -> R * R) : rising t -> (forall r, fst (f r) = fst r) -> rising (map f t).
Proof.
  intros H E. induction t as [|p t IH]; [exact I|]. destruct t as [|q t]; [exact I|]. destruct H as [H1 H2].
  split; [rewrite !E; exact H1|now apply IH].
Qed.
Lemma load_first (t : table) (f : R * list R -> R * R) : (forall r, fst (f r) = fst r) -> first (map f t) = first t.
Proof. intro E. destruct t; [reflexivity|apply E]. Qed.
Lemma load_final (t : table) (f : R * list R -> R * R) : (forall r, fst (f r) = fst r) -> final (map f t) = final t.
Proof. intro E. induction t as [|p t IH]; [reflexivity|]. destruct t as [|q t]; [apply E|exact IH]. Qed.
Lemma positron_spline (t : table) : rising t -> (2 <= length t)%nat -> spline_over (first t) (final t) (load_positron t).
Proof.
  intros H Hl. unfold load_positron. set (f := fun row : R * list R => _). assert (E : forall r, fst (f r) = fst r) by reflexivity.
  rewrite <- (load_first t f E), <- (load_final t f E). apply spline1_over; [now apply load_rising|now rewrite map_length].
Qed.
Lemma rest_value u mass s : 0 < mass -> me <= u -> number (dnde_positron (AFloat u) mass mass s) = ev s u * pm me u.
Proof.
  intros Hm Hu. unfold dnde_positron, positron_point. pose proof eps_pos. destruct (Rlt_dec mass mass); [lra|].
  destruct (Rlt_dec u me); [lra|]. destruct (Rlt_dec (mass - mass) eps); [|lra]. cbn [number]. now rewrite momentum_pm.
Qed.
Lemma rest_tabulated lo hi mass s u : 0 < mass -> me <= lo ->
  within lo hi (fun u => number (dnde_positron (AFloat u) mass mass s)) u = tabulated me lo hi s u.
Proof.
  intros Hm Hl. unfold tabulated, within. destruct (Rle_dec lo u); [|ring]. destruct (Rle_dec u hi); [|ring].
  apply rest_value; lra.
Qed.

(** Positrons of a parent in flight: the Lorentz boost of the part of the rest-frame spectrum inside the table, with
    the same number of positrons and gamma times their energy. *)
Theorem positron_table_flight : forall (t : table) (mass parent : R), rising t -> (2 <= length t)%nat -> me <= first t ->
  0 < mass -> mass + / 2 ^ 52 <= parent ->
  let s := load_positron t in let lo := first t in let hi := final t in
  let gamma := parent / mass in let beta := sqrt (1 - (mass / parent) ^ 2) in let p e := sqrt (e * e - me * me) in
  let rest u := if Rle_dec lo u then if Rle_dec u hi then number (dnde_positron (AFloat u) mass mass s) else 0 else 0 in
  let flight e := number (dnde_positron (AFloat e) parent mass s) in
  (forall e, me < e -> area (fun u => rest u / (2 * gamma * beta * p u)) (gamma * (e - beta * p e)) (gamma * (e + beta * p e)) (flight e))
  /\ exists n w, area rest me hi n /\ area (fun u => u * rest u) me hi w
     /\ forall X, gamma * (hi + beta * p hi) <= X -> area flight me X n /\ area (fun e => e * flight e) me X (gamma * w).
Proof.
  intros t mass parent H Hl Hf Hm Hp s lo hi gamma beta p rest flight. pose proof (positron_spline t H Hl) as So.
  fold s lo hi in So. fold eps in Hp. pose proof eps_pos as He. destruct (frame parent mass ltac:(lra)) as (B & G & GB). fold gamma in G, GB.
  change (velo parent mass) with beta in *. pose proof me_pos as Mp. destruct So as (Lh & So). pose proof (conj Lh So) as So'.
  assert (Er : forall u, rest u = tabulated me lo hi s u) by (intro u; apply rest_tabulated; assumption).
  assert (Ef : forall e, me < e -> flight e = integral s (gamma * (e - beta * pm me e)) (gamma * (e + beta * pm me e)) / (2 * beta * gamma)).
  { intros e Hl'. unfold flight, dnde_positron. destruct (Rlt_dec parent mass); [lra|]. cbn [number]. rewrite positron_flight by lra. reflexivity. }
  pose proof (tabulated_boost me lo hi s beta gamma ltac:(split; [lra|exact Hf]) So' B G GB) as Bo.
  assert (Bo' : boost_of me beta gamma (tabulated me lo hi s) flight).
  { intros e Hl'. rewrite (Ef e Hl'). exact (Bo e Hl'). }
  split.
  - intros e Hl'. refine (area_ext _ _ _ _ _ [] _ (Bo' e Hl')). intros u _ _. now rewrite Er.
  - destruct (tabulated_area me lo hi s ltac:(split; [lra|exact Hf]) So') as [n N].
    pose proof (tabulated_momentum me lo hi s ltac:(split; [lra|exact Hf]) So') as Mo.
    assert (Hh : me <= hi) by (change (me <= lo) in Hf; lra).
    destruct (area_times_id _ _ _ _ Hh N) as [w W]. exists n, w. split; [|split].
    + refine (area_ext _ _ _ _ _ [] _ N). intros u _ _. now rewrite Er.
    + refine (area_ext _ _ _ _ _ [] _ W). intros u _ _. cbv beta. now rewrite Er.
    + intros X HX. split.
      * exact (number_law me beta gamma ltac:(lra) B G GB _ _ hi _ Hh (fun u Hu => tabulated_end me lo hi s u Hu) Mo Bo' n X N HX).
      * exact (energy_law me beta gamma ltac:(lra) B G GB _ _ hi _ Hh (fun u Hu => tabulated_end me lo hi s u Hu) Mo Bo' w X W HX).
Qed.
Print Assumptions positron_table_flight.

(** At rest, at an energy of the table, the value is the sum over the decay modes of that row. *)
Theorem positron_table_rest : forall (t : table) (mass e : R) (cols : list R), rising t -> (2 <= length t)%nat -> me < first t -> 0 < mass ->
  In (e, cols) t -> number (dnde_positron (AFloat e) mass mass (load_positron t)) = fold_right Rplus 0 cols.
Proof.
  intros t mass e cols H Hl Hf Hm Hi. pose proof me_pos as Mp.
  assert (He : me < e).
  { destruct t as [|q t]; [destruct Hi|]. cbn in Hf. destruct Hi as [->|Hi]; [exact Hf|]. pose proof (rising_in q t _ H Hi) as Q. cbn in Q. lra. }
  rewrite rest_value by lra. unfold load_positron. set (f := fun row : R * list R => _).
  rewrite (spline1_through (map f t) ltac:(apply load_rising; [exact H|reflexivity]) ltac:(now rewrite map_length) e (row_sum cols / sqrt (e ^ 2 - me ^ 2))).
  - rewrite momentum_pm. pose proof (pm_pos me ltac:(lra) e He) as P. unfold Rdiv. rewrite Rmult_assoc, Rinv_l, Rmult_1_r by lra.
    unfold row_sum. apply fold_symmetric; intros; ring.
  - apply (in_map f t (e, cols) Hi).
Qed.
Print Assumptions positron_table_rest.

(** The same for neutrinos, whose splines are characterised: continuous, through the data, integral over the data range. *)
Theorem neutrino_table_flight : forall (se smu : spline) (lo hi mass parent : R), 0 <= lo -> spline_over lo hi se -> spline_over lo hi smu ->
  0 < mass -> mass + / 2 ^ 52 <= parent ->
  let gamma := parent / mass in let beta := sqrt (1 - (mass / parent) ^ 2) in
  forall i : nat, (i = 0 \/ i = 1)%nat ->
  let rest u := if Rle_dec lo u then if Rle_dec u hi then entry i (dnde_neutrino (AFloat u) mass mass se smu None) else 0 else 0 in
  let flight e := entry i (dnde_neutrino (AFloat e) parent mass se smu None) in
  (forall e, 0 < e -> area (fun u => rest u / (2 * gamma * beta * u)) (gamma * (1 - beta) * e) (gamma * (1 + beta) * e) (flight e))
  /\ exists n w, area rest 0 hi n /\ area (fun u => u * rest u) 0 hi w
     /\ forall X, gamma * (1 + beta) * hi <= X -> area flight 0 X n /\ area (fun e => e * flight e) 0 X (gamma * w).
Proof.
  intros se smu lo hi mass parent Hlo Ke Kmu Hm Hp gamma beta i Hi rest flight. fold eps in Hp. pose proof eps_pos as He.
  set (s := if Nat.eqb i 0 then se else smu).
  assert (So : spline_over lo hi s) by (unfold s; destruct (Nat.eqb i 0); assumption). pose proof So as (Lh & _).
  destruct (frame parent mass ltac:(lra)) as (B & G & GB). fold gamma in G, GB. change (velo parent mass) with beta in *.
  assert (Er : forall u, 0 < u -> rest u = tabulated 0 lo hi s u).
  { intros u Hu. unfold rest, tabulated, within. destruct (Rle_dec lo u); [|ring]. destruct (Rle_dec u hi); [|ring].
    rewrite pm_0 by lra. unfold dnde_neutrino. cbn [is_flavor no_flavor isscalar atleast_1d].
    unfold neutrino_array. destruct (Rlt_dec mass mass); [lra|]. destruct (Rlt_dec (mass - mass) eps); [|lra].
    destruct Hi as [-> | ->]; reflexivity. }
  assert (Ef : forall e, 0 < e -> flight e = integral s (gamma * (e - beta * pm 0 e)) (gamma * (e + beta * pm 0 e)) / (2 * beta * gamma)).
  { intros e Hl. unfold flight, dnde_neutrino. cbn [is_flavor no_flavor isscalar atleast_1d].
    unfold neutrino_array. destruct (Rlt_dec parent mass); [lra|]. destruct (Rlt_dec (parent - mass) eps); [lra|].
    destruct Hi as [-> | ->]; cbn [map fin nth entry]; rewrite neutrino_flight by lra; reflexivity. }
  pose proof (tabulated_boost 0 lo hi s beta gamma ltac:(lra) So B G GB) as Bo.
  assert (Bo' : boost_of 0 beta gamma (tabulated 0 lo hi s) flight).
  { intros e Hl. rewrite (Ef e Hl). exact (Bo e Hl). }
  split.
  - intros e Hl. pose proof (Bo' e Hl) as A. rewrite pm_0 in A by lra.
    replace (gamma * (1 - beta) * e) with (gamma * (e - beta * e)) by ring. replace (gamma * (1 + beta) * e) with (gamma * (e + beta * e)) by ring.
    refine (area_ext _ _ _ _ _ [] _ A). intros u Hu _. assert (0 < gamma * (e - beta * e)) by (apply Rmult_lt_0_compat; [exact G|nra]).
    rewrite Er by lra. rewrite pm_0 by lra. reflexivity.
  - destruct (tabulated_area 0 lo hi s ltac:(lra) So) as [n N]. pose proof (tabulated_momentum 0 lo hi s ltac:(lra) So) as Mo.
    assert (Hh : 0 <= hi) by lra. destruct (area_times_id _ _ _ _ Hh N) as [w W]. exists n, w. split; [|split].
    + refine (area_ext _ _ _ _ _ [] _ N). intros u Hu _. symmetry. apply Er. lra.
    + refine (area_ext _ _ _ _ _ [] _ W). intros u Hu _. cbv beta. rewrite Er by lra. reflexivity.
    + intros X HX. assert (HX' : gamma * (hi + beta * pm 0 hi) <= X) by (rewrite pm_0 by lra; lra). split.
      * exact (number_law 0 beta gamma ltac:(lra) B G GB _ _ hi _ ltac:(lra) (fun u Hu => tabulated_end 0 lo hi s u Hu) Mo Bo' n X N HX').
      * exact (energy_law 0 beta gamma ltac:(lra) B G GB _ _ hi _ ltac:(lra) (fun u Hu => tabulated_end 0 lo hi s u Hu) Mo Bo' w X W HX').
Qed.
Print Assumptions neutrino_table_flight.

(** The hypotheses are met by a table of two rows and a parent at twice its mass ... *)
Example positron_table_flight_example :
  let t : table := [(1, [1; 0]); (2, [3; 1])] in rising t /\ (2 <= length t)%nat /\ me < first t /\ 0 < 100 /\ 100 + / 2 ^ 52 <= 200
  /\ number (dnde_positron (AFloat 2) 100 100 (load_positron t)) = 4.
Proof.
  cbv zeta. assert (Hr : rising [(1, [1; 0]); (2, [3; 1])]) by (cbn; lra). assert (He : me < 1) by (unfold me; lra).
  split; [exact Hr|]. split; [cbn; lia|]. split; [exact He|]. split; [lra|]. split; [lra|].
  rewrite (positron_table_rest [(1, [1; 0]); (2, [3; 1])] 100 2 [3; 1]); [cbn; ring|exact Hr|cbn; lia|exact He|lra|right; now left].
Qed.
(** ... and by the straight line through two points. *)
Example neutrino_table_flight_example : spline_over 1 2 (spline1 [(1, 1); (2, 5)]) /\ 0 < 100 /\ 100 + / 2 ^ 52 <= 200
  /\ entry 0 (dnde_neutrino (AFloat 2) 100 100 (spline1 [(1, 1); (2, 5)]) (spline1 [(1, 0); (2, 0)]) None) = 10.
Proof.
  split; [|split; [lra|split; [lra|]]].
  - apply (spline1_over [(1, 1); (2, 5)]); [cbn; lra|cbn; lia].
  - unfold dnde_neutrino, neutrino_array. cbn [is_flavor no_flavor isscalar atleast_1d]. destruct (Rlt_dec 100 100); [lra|].
    pose proof eps_pos. destruct (Rlt_dec (100 - 100) eps); [|lra]. cbn. unfold line. cbn. field.
Qed.

(** ** The table of the short kaon *)
Definition short_kaon_rows : list (Z * Z) := combine short_kaon_energy short_kaon_pi_pi.
Lemma short_kaon_rows_ok : andb (zrising short_kaon_rows) (forallb (fun p => andb (ME <? fst p)%Z (0 <=? snd p)%Z) short_kaon_rows) = true.
Proof. vm_compute. reflexivity. Qed.
Lemma short_kaon_split : short_kaon_rows = firstn 498 short_kaon_rows
  ++ [(22462691288420170000, 317599817020567200000000000000); (22738881652325840000, 0)]%Z.
Proof. vm_compute. reflexivity. Qed.
Lemma short_kaon_first : exists l, short_kaon_rows = (51099894610000040, 110739560732700300000000)%Z :: l.
Proof. eexists. vm_compute. reflexivity. Qed.
Lemma short_kaon_count : (26 * 10 ^ 57 <? zlow short_kaon_rows)%Z = true.
Proof. vm_compute. reflexivity. Qed.
Lemma short_kaon_loaded : map (fun row => (fst row, row_sum (snd row) / sqrt (fst row ^ 2 - me ^ 2))) short_kaon_table = map loaded short_kaon_rows.
Proof.
  unfold short_kaon_table. fold short_kaon_rows. rewrite map_map. apply map_ext. intro p. cbn [fst snd]. unfold loaded.
  rewrite momentum_pm. unfold row_sum. cbn [fold_left]. f_equal. f_equal. ring.
Qed.
Lemma short_kaon_rising : rising short_kaon_table.
Proof.
  unfold short_kaon_table. fold short_kaon_rows. apply zrising_sound; [|reflexivity].
  pose proof short_kaon_rows_ok as H. apply andb_prop in H. apply H.
Qed.
Lemma short_kaon_length : (2 <= length short_kaon_table)%nat.
Proof. unfold short_kaon_table. fold short_kaon_rows. rewrite map_length, short_kaon_split, app_length. cbn [length]. lia. Qed.
Definition short_kaon_low : R := 5109989461000004 / 10 ^ 16.
Definition short_kaon_high : R := 2273888165232584 / 10 ^ 13.
Lemma short_kaon_ends : first short_kaon_table = short_kaon_low /\ final short_kaon_table = short_kaon_high.
Proof.
  unfold short_kaon_table. fold short_kaon_rows. split.
  - destruct short_kaon_first as [l ->]. cbn [map first fst]. unfold in_MeV, short_kaon_low. lra.
  - rewrite short_kaon_split, map_app. cbn [map fst snd]. generalize (map (fun p : Z * Z => (in_MeV (fst p), [per_MeV (snd p); 0])) (firstn 498 short_kaon_rows)).
    intro l. assert (E : forall (l : table) p q, final (l ++ [p; q]) = fst q).
    { clear. intros l p q. induction l as [|a l IH]; [reflexivity|]. rewrite <- app_comm_cons. cbn [final].
      destruct (l ++ [p; q]) as [|b m] eqn:L; [destruct l; discriminate|exact IH]. }
    rewrite E. cbn [fst]. unfold in_MeV, short_kaon_high. lra.
Qed.
Lemma public_short_kaon u : number (public_positron (fun _ => short_kaon_table) "short_kaon" (AFloat u) neutral_kaon_mass)
  = number (dnde_positron (AFloat u) neutral_kaon_mass neutral_kaon_mass (load_positron short_kaon_table)).
Proof. reflexivity. Qed.

(** "Above the end point of the decay the spectrum of a parent at rest is zero" (as it is for a parent in flight):
    the last straight line of the table is continued, and the values are negative. *)
Theorem beyond_end_point_refuted : exists parent, forall e, 2273888165232584 / 10 ^ 13 < e ->
  number (public_positron (fun _ => short_kaon_table) parent (AFloat e) neutral_kaon_mass) < 0.
Proof.
  exists "short_kaon"%string. intros e He. rewrite public_short_kaon. pose proof me_pos.
  assert (Me : me < e) by (unfold me in *; lra). assert (Mk : 0 < neutral_kaon_mass) by (unfold neutral_kaon_mass; lra).
  rewrite (rest_value e neutral_kaon_mass _ Mk (Rlt_le _ _ Me)). unfold load_positron. rewrite short_kaon_loaded. cbn [spline1 ev].
  assert (Hr : rising (map loaded short_kaon_rows)).
  { apply zrising_sound; [|reflexivity]. pose proof short_kaon_rows_ok as H0. apply andb_prop in H0. apply H0. }
  rewrite short_kaon_split, map_app in Hr |- *. cbn [map] in Hr |- *. rewrite lin_ev_last; [|exact Hr|cbn [fst loaded]; unfold in_MeV; lra].
  pose proof (pm_pos me ltac:(lra) e Me) as Pe.
  assert (Pp : 0 < pm me (in_MeV 22462691288420170000)) by (apply pm_pos; [lra|unfold in_MeV, me; lra]).
  assert (P0 : 0 < per_MeV 317599817020567200000000000000 / pm me (in_MeV 22462691288420170000)) by
    (apply Rdiv_lt_0_compat; [unfold per_MeV; lra|exact Pp]).
  unfold line, loaded. cbn [fst snd]. set (y := per_MeV 317599817020567200000000000000 / pm me (in_MeV 22462691288420170000)) in *.
  replace (per_MeV 0 / pm me (in_MeV 22738881652325840000)) with 0 by (unfold per_MeV; lra).
  clearbody y. set (w := pm me e) in *. clearbody w. clear Hr Pp.
  replace (y + (0 - y) / (in_MeV 22738881652325840000 - in_MeV 22462691288420170000) * (e - in_MeV 22462691288420170000))
    with (- (y / (in_MeV 22738881652325840000 - in_MeV 22462691288420170000) * (e - in_MeV 22738881652325840000)))
    by (field; unfold in_MeV; lra).
  assert (0 < y / (in_MeV 22738881652325840000 - in_MeV 22462691288420170000) * (e - in_MeV 22738881652325840000)).
  { apply Rmult_lt_0_compat; [apply Rdiv_lt_0_compat; [exact P0|unfold in_MeV; lra]|unfold in_MeV; lra]. }
  nra.
Qed.
Print Assumptions beyond_end_point_refuted.

(** "A decay of the short kaon gives at most one positron" (only K_S -> pi+ pi- gives any, and a single one): the
    spectrum contains more than 1.3, at rest and at every energy of the kaon. *)
Theorem short_kaon_one_positron_refuted : exists n, 13 / 10 < n
  /\ area (fun u => number (public_positron (fun _ => short_kaon_table) "short_kaon" (AFloat u) neutral_kaon_mass)) (5109989461000004 / 10 ^ 16) (2273888165232584 / 10 ^ 13) n
  /\ forall energy X, neutral_kaon_mass + / 2 ^ 52 <= energy -> 2 * energy / neutral_kaon_mass * (2273888165232584 / 10 ^ 13) <= X ->
     area (fun e => number (public_positron (fun _ => short_kaon_table) "short_kaon" (AFloat e) energy)) me X n.
Proof.
  destruct short_kaon_ends as [E1 E2]. pose proof me_pos as Mp. unfold short_kaon_low, short_kaon_high in *.
  assert (Mk : 0 < neutral_kaon_mass) by (unfold neutral_kaon_mass; lra).
  assert (Hr : rising (map loaded short_kaon_rows)).
  { apply zrising_sound; [|reflexivity]. pose proof short_kaon_rows_ok as H0. apply andb_prop in H0. apply H0. }
  assert (Hf : me <= first short_kaon_table) by (rewrite E1; unfold me; lra).
  assert (Fl : forall energy, neutral_kaon_mass + / 2 ^ 52 <= energy -> _) by
    (intros energy Hp; exact (positron_table_flight short_kaon_table neutral_kaon_mass energy short_kaon_rising short_kaon_length Hf Mk Hp)).
  cbv zeta in Fl. rewrite E1, E2 in Fl.
  set (rest := fun u => if Rle_dec (5109989461000004 / 10 ^ 16) u then if Rle_dec u (2273888165232584 / 10 ^ 13) then number (dnde_positron (AFloat u) neutral_kaon_mass neutral_kaon_mass (load_positron short_kaon_table)) else 0 else 0) in Fl.
  destruct (Fl (2 * neutral_kaon_mass) ltac:(unfold neutral_kaon_mass; lra)) as (_ & n & w0 & N & _).
  assert (Hlm : me <= 5109989461000004 / 10 ^ 16) by (unfold me; lra). assert (Hlh : 5109989461000004 / 10 ^ 16 <= 2273888165232584 / 10 ^ 13) by lra.
  destruct (area_sub _ _ _ _ (5109989461000004 / 10 ^ 16) (2273888165232584 / 10 ^ 13) N ltac:(lra) ltac:(lra)) as [v V].
  assert (Env : n = 0 + v).
  { apply (area_unique _ _ _ _ _ (Rle_trans _ _ _ Hlm Hlh) N). apply (area_join _ _ (5109989461000004 / 10 ^ 16)); [lra| |exact V].
    apply area_zero. intros u Hu. unfold rest. destruct (Rle_dec (5109989461000004 / 10 ^ 16) u); [lra|reflexivity]. }
  rewrite Rplus_0_l in Env. subst v. exists n. split; [|split].
  - pose proof (zlow_sound short_kaon_rows) as Z0. pose proof short_kaon_rows_ok as Ok. apply andb_prop in Ok. destruct Ok as [Ok1 Ok2].
    assert (Q : forall p, In p short_kaon_rows -> (ME < fst p)%Z /\ (0 <= snd p)%Z).
    { intros p Hp. rewrite forallb_forall in Ok2. specialize (Ok2 p Hp). apply andb_prop in Ok2. destruct Ok2 as [A B].
      split; [now apply Z.ltb_lt|now apply Z.leb_le]. }
    specialize (Z0 Ok1 Q). pose proof short_kaon_count as C. apply Z.ltb_lt in C. apply IZR_lt in C.
    assert (L : low me (map loaded short_kaon_rows) <= n).
    { assert (F1 : first (map loaded short_kaon_rows) = 5109989461000004 / 10 ^ 16).
      { rewrite <- E1. rewrite <- short_kaon_loaded. apply load_first. reflexivity. }
      assert (F2 : final (map loaded short_kaon_rows) = 2273888165232584 / 10 ^ 13).
      { rewrite <- E2. rewrite <- short_kaon_loaded. apply load_final. reflexivity. }
      apply low_area; [rewrite F1; lra|exact Hr| | |].
      - intros p Hp. apply in_map_iff in Hp. destruct Hp as (z & <- & Hz). destruct (Q z Hz) as [Q1 Q2]. cbn [snd loaded].
        destruct (pm_in_MeV _ Q1) as [P1 _]. apply Rmult_le_pos; [now apply per_MeV_nonneg|left; now apply Rinv_0_lt_compat].
      - rewrite map_length, short_kaon_split, app_length. cbn [length]. lia.
      - rewrite F1, F2. refine (area_ext _ _ _ _ _ [] _ V). intros u Hu _. unfold rest.
        destruct (Rle_dec (5109989461000004 / 10 ^ 16) u); [|lra]. destruct (Rle_dec u (2273888165232584 / 10 ^ 13)); [|lra].
        rewrite rest_value by lra. unfold load_positron. rewrite short_kaon_loaded. reflexivity. }
    assert (D : 13 / 10 < IZR (zlow short_kaon_rows) / (2 * 10 ^ 58)).
    { set (z := IZR (zlow short_kaon_rows)) in *. clearbody z.
      replace (IZR (26 * 10 ^ 57)) with (26 * 10 ^ 57) in C by (rewrite mult_IZR; f_equal; exact (pow_IZR 10 57)). lra. }
    lra.
  - refine (area_ext _ _ _ _ _ [] _ V). intros u Hu _. unfold rest.
    destruct (Rle_dec (5109989461000004 / 10 ^ 16) u); [|lra]. destruct (Rle_dec u (2273888165232584 / 10 ^ 13)); [|lra]. reflexivity.
  - intros energy X Hp HX. destruct (Fl energy Hp) as (_ & n' & w & N' & _ & A).
    rewrite (area_unique _ _ _ _ _ (Rle_trans _ _ _ Hlm Hlh) N N'). apply A.
    pose proof eps_pos as He. unfold eps in He. destruct (frame energy neutral_kaon_mass ltac:(lra)) as (B & G & _). unfold velo in B.
    set (b := sqrt (1 - (neutral_kaon_mass / energy) ^ 2)) in *. set (g := energy / neutral_kaon_mass) in *.
    pose proof (pm_le me ltac:(lra) (2273888165232584 / 10 ^ 13) ltac:(lra)) as P1.
    pose proof (pm_nonneg me (2273888165232584 / 10 ^ 13)) as P0.
    apply Rle_trans with (2 := HX). replace (2 * energy / neutral_kaon_mass) with (2 * g) by (unfold g, Rdiv; ring).
    set (h := 2273888165232584 / 10 ^ 13) in *. set (p := sqrt (h * h - me * me)). change p with (pm me h). clear p. set (p := pm me h) in *. clearbody p h b g.
    assert (b * p <= h) by nra. assert (g * (b * p) <= g * h) by (apply Rmult_le_compat_l; lra). lra.
Qed.
Print Assumptions short_kaon_one_positron_refuted.

(** * C85 *)
(** Positrons: a float gives a float and an array the array of these numbers, for parents at or above their mass and
    energies at or above the mass of the electron. *)
Theorem positron_elementwise : forall s parent mass xs, mass <= parent -> (forall x, In x xs -> me <= x) ->
  exists f : R -> R, (forall x, In x xs -> dnde_positron (AFloat x) parent mass s = Ret (VFloat (Some (f x))))
    /\ dnde_positron (AArr xs) parent mass s = Ret (VArr (map (fun x => Some (f x)) xs)).
Proof.
  intros s parent mass xs Hp Hx. exists (fun x => positron_point x parent mass s). unfold dnde_positron, positron_array.
  destruct (Rlt_dec parent mass); [lra|]. split; [reflexivity|]. destruct (Rlt_dec (parent - mass) eps) as [L|L]; [|reflexivity].
  f_equal. f_equal. apply map_ext_in. intros x Hi. specialize (Hx x Hi). pose proof me_pos. unfold nscale, nsqrt, positron_point.
  destruct (Rlt_dec (x ^ 2 - me ^ 2) 0); [nra|]. destruct (Rlt_dec parent mass); [lra|]. destruct (Rlt_dec x me); [lra|].
  destruct (Rlt_dec (parent - mass) eps); [reflexivity|lra].
Qed.
Print Assumptions positron_elementwise.
Example positron_elementwise_example : 1 <= 2 /\ (forall x, In x [1; 3] -> me <= x).
Proof. split; [lra|]. intros x [<-|[<-|[]]]; unfold me; lra. Qed.
(** Neutrinos without a flavour: three rows with the same numbers for a list, an array or numbers one by one; the
    last row is zero. With a flavour: the row of that flavour. *)
Theorem neutrino_elementwise : forall se smu parent mass, exists fe fmu : R -> R,
  (forall x, dnde_neutrino (AFloat x) parent mass se smu None = Ret (VArr [Some (fe x); Some (fmu x); Some 0]))
  /\ (forall xs, let rows := VRows [map (fun x => Some (fe x)) xs; map (fun x => Some (fmu x)) xs; map (fun _ => Some 0) xs] in
       dnde_neutrino (AArr xs) parent mass se smu None = Ret rows /\ dnde_neutrino (AList xs) parent mass se smu None = Ret rows)
  /\ (forall xs, dnde_neutrino (AArr xs) parent mass se smu (Some "e"%string) = Ret (VArr (map (fun x => Some (fe x)) xs))
       /\ dnde_neutrino (AArr xs) parent mass se smu (Some "mu"%string) = Ret (VArr (map (fun x => Some (fmu x)) xs))
       /\ dnde_neutrino (AArr xs) parent mass se smu (Some "tau"%string) = Ret (VArr (map (fun _ => Some 0) xs)))
  /\ (parent < mass -> forall x, fe x = 0 /\ fmu x = 0).
Proof.
  intros se smu parent mass. exists (fun x => neutrino_point x parent mass se), (fun x => neutrino_point x parent mass smu).
  assert (E : forall s xs, neutrino_array xs parent mass s = map (fun x => neutrino_point x parent mass s) xs).
  { intros s xs. unfold neutrino_array, neutrino_point. destruct (Rlt_dec parent mass); [reflexivity|].
    destruct (Rlt_dec (parent - mass) eps); reflexivity. }
  unfold dnde_neutrino. repeat split; intros; rewrite ?E; unfold fin; cbn; rewrite ?map_map; try reflexivity.
  all: unfold neutrino_point; destruct (Rlt_dec parent mass); [reflexivity|lra].
Qed.
Print Assumptions neutrino_elementwise.

(** "A number gives the number an array of it gives": at rest below the mass of the electron the array is NaN. *)
Theorem positron_array_nan_refuted : exists s parent mass x, mass <= parent /\ 0 < x
  /\ dnde_positron (AFloat x) parent mass s = Ret (VFloat (Some 0)) /\ dnde_positron (AArr [x]) parent mass s = Ret (VArr [None]).
Proof.
  exists (spline1 [(1, 1); (2, 1)]), 100, 100, (1 / 10). split; [lra|]. split; [lra|]. pose proof eps_pos.
  unfold dnde_positron, positron_array, positron_point. destruct (Rlt_dec 100 100); [lra|].
  destruct (Rlt_dec (1 / 10) me) as [L|L]; [|unfold me in L; lra]. split; [reflexivity|].
  destruct (Rlt_dec (100 - 100) eps); [|lra]. cbn [map]. unfold nsqrt.
  destruct (Rlt_dec ((1 / 10) ^ 2 - me ^ 2) 0) as [L'|L']; [reflexivity|unfold me in L'; lra].
Qed.
Print Assumptions positron_array_nan_refuted.
(** "A number gives a number": below threshold a positron spectrum is an array of rank zero, and with a flavour a
    neutrino spectrum is an array of length one, for every spline and every energy. *)
Theorem scalar_result_refuted : exists parent mass, 0 < parent /\ 0 < mass /\ forall s x,
  dnde_positron (AFloat x) parent mass s = Ret (VArr0 (Some 0))
  /\ exists y, dnde_neutrino (AFloat x) parent mass s s (Some "e"%string) = Ret (VArr [y]).
Proof.
  exists 1, 2. split; [lra|]. split; [lra|]. intros s x. unfold dnde_positron. destruct (Rlt_dec 1 2); [|lra]. split; [reflexivity|].
  unfold dnde_neutrino, neutrino_array. destruct (Rlt_dec 1 2); [|lra]. eexists. cbn. reflexivity.
Qed.
Print Assumptions scalar_result_refuted.
(** "Numbers of any kind may be given": at or above threshold a positron spectrum raises for an integer, for a list
    and for an array of integers, with three different exceptions, which the spectrum of the same parent below
    threshold and the neutrino spectra accept. *)
Theorem argument_kinds_refuted : exists parent mass, 0 < mass <= parent /\ forall s x xs zs,
  dnde_positron (AInt x) parent mass s = Raise AssertionError
  /\ (exists name, dnde_positron (AList xs) parent mass s = Raise (AttributeError name))
  /\ dnde_positron (AArrInt zs) parent mass s = Raise ValueError
  /\ forall e, (exists v, dnde_positron e (mass / 2) mass s = Ret v) /\ (exists v, dnde_neutrino e parent mass s s None = Ret v).
Proof.
  exists 1, 1. split; [lra|]. intros s x xs zs. unfold dnde_positron. destruct (Rlt_dec 1 1); [lra|].
  split; [reflexivity|]. split; [eexists; reflexivity|]. split; [reflexivity|]. intro e. destruct (Rlt_dec (1 / 2) 1); [|lra].
  split; [eexists; reflexivity|]. unfold dnde_neutrino. cbn [is_flavor]. destruct (isscalar e); eexists; reflexivity.
Qed.
Print Assumptions argument_kinds_refuted.
(** "A flavour that does not exist is refused": it gives zeros, with the three rows asked for by no flavour. *)
Theorem unknown_flavor_refuted : exists flavor, flavor <> "e"%string /\ flavor <> "mu"%string /\ flavor <> "tau"%string
  /\ forall se smu parent mass xs, dnde_neutrino (AArr xs) parent mass se smu (Some flavor)
     = Ret (VRows [map (fun _ => Some 0) xs; map (fun _ => Some 0) xs; map (fun _ => Some 0) xs]).
Proof.
  exists "electron"%string. split; [discriminate|]. split; [discriminate|]. split; [discriminate|].
  intros. unfold dnde_neutrino. cbn. unfold fin. rewrite !map_map. reflexivity.
Qed.
Print Assumptions unknown_flavor_refuted.

(** * C86 *)
(** A decay mode as its particles *)
Fixpoint words_from (cur s : string) : list string :=
  match s with
  | EmptyString => [cur]
  | String c r => if Ascii.eqb c "_"%char then cur :: words_from "" r else words_from (cur ++ String c "") r
  end%string.
Definition particles (mode : string) : list string := words_from "" mode.
(** Particles written without a sign have charge one in absolute value *)
Definition charged (p : string) : bool := existsb (String.eqb p) ["mu"; "e"; "pi"; "k"; "rho"]%string.
(** some choice of signs gives the total charge [q] *)
Fixpoint total_charge (ps : list string) (q : Z) : Prop :=
  match ps with
  | [] => q = 0%Z
  | p :: tl => if charged p then total_charge tl (q - 1) \/ total_charge tl (q + 1) else total_charge tl q
  end.
Definition parent_charge (parent : string) : Z := if existsb (String.eqb parent) ["charged_kaon"; "charged_rho"]%string then 1%Z else 0%Z.
Definition modes (h : dict (list string)) (parent mode : string) : Prop := exists l, dget h parent = Some l /\ In mode l.
Ltac each := repeat match goal with H : _ \/ _ |- _ => destruct H | H : False |- _ => destruct H end; subst.
Lemma modes_in h parent mode : modes h parent mode -> In (parent, mode) (flat_map (fun kl => map (fun m => (fst kl, m)) (snd kl)) h).
Proof.
  intros (l & D & I). apply in_flat_map. induction h as [|[k v] h IH]; [discriminate|]. cbn in D.
  match type of D with (if ?b then _ else _) = _ => destruct b eqn:E end.
  - apply String.eqb_eq in E. injection D as D. exists (k, v). split; [now left|]. cbn [fst snd]. apply in_map_iff. exists mode.
    rewrite D. split; [now rewrite E|exact I].
  - destruct (IH D) as (x & H1 & H2). exists x. split; [now right|exact H2].
Qed.
(** Every mode of every file conserves charge, but for the files of the rho. *)
Theorem modes_conserve_charge : forall parent mode, modes positron_header parent mode \/ modes neutrino_header parent mode ->
  parent <> "charged_rho"%string -> parent <> "neutral_rho"%string -> total_charge (particles mode) (parent_charge parent).
Proof.
  intros parent mode [M|M] N1 N2; apply modes_in in M; cbn [flat_map map app positron_header neutrino_header fst snd] in M; cbn [In] in M;
  each; inversion H; subst; try contradiction; cbn; lia.
Qed.
Print Assumptions modes_conserve_charge.
Example modes_conserve_charge_example : modes positron_header "phi" "kS_kL" /\ modes neutrino_header "charged_kaon" "pi_pi_pi".
Proof. split; eexists; (split; [reflexivity|cbn; tauto]). Qed.
(** "... of every file": the two files of the rho are exchanged, the charged one decays to pi+ pi- and the neutral
    one to pi+ pi0 ... *)
Theorem rho_charge_refuted : exists m0 m1, modes neutrino_header "charged_rho" m0 /\ ~ total_charge (particles m0) (parent_charge "charged_rho")
  /\ modes neutrino_header "neutral_rho" m1 /\ ~ total_charge (particles m1) (parent_charge "neutral_rho")
  /\ total_charge (particles m1) (parent_charge "charged_rho") /\ total_charge (particles m0) (parent_charge "neutral_rho").
Proof. exists "pi_pi"%string, "pi_pi0"%string. repeat split; try (eexists; split; [reflexivity|now left]); cbn; lia. Qed.
Print Assumptions rho_charge_refuted.
(** ... and so are their numbers: at every energy the charged rho, which has one charged pion, has twice as many
    neutrinos of either flavour as the neutral rho, which has two. *)
Definition zclose (l m : list (Z * Z)) : bool :=
  forallb (fun pq => andb (Z.eqb (fst (fst pq)) (fst (snd pq)))
     (Z.leb (10 ^ 9 * Z.abs (snd (fst pq) - 2 * snd (snd pq))) (snd (snd pq)))) (combine l m).
Lemma zclose_ok : andb (zclose (combine rho_neutrino_energy charged_rho_neutrino_e) (combine rho_neutrino_energy neutral_rho_neutrino_e))
  (zclose (combine rho_neutrino_energy charged_rho_neutrino_mu) (combine rho_neutrino_energy neutral_rho_neutrino_mu)) = true.
Proof. vm_compute. reflexivity. Qed.
Lemma combine_nth_error {A B} (l : list A) (m : list B) i a b : nth_error l i = Some a -> nth_error m i = Some b -> In (a, b) (combine l m).
Proof.
  revert m i. induction l as [|x l IH]; intros m i Hl Hm; [destruct i; discriminate|]. destruct m as [|y m]; [destruct i; discriminate|].
  destruct i as [|i]; [injection Hl as ->; injection Hm as ->; now left|right; now apply (IH m i)].
Qed.
Theorem rho_neutrinos_exchanged : forall flavor i e c e' n, flavor = "e"%string \/ flavor = "mu"%string ->
  nth_error (rho_table "charged_rho" flavor) i = Some (e, [c]) -> nth_error (rho_table "neutral_rho" flavor) i = Some (e', [n]) ->
  e = e' /\ Rabs (c - 2 * n) <= n / 10 ^ 9.
Proof.
  intros flavor i e c e' n Hf H1 H2.
  assert (K : forall l m, zclose l m = true -> nth_error (map (fun p => (in_MeV (fst p), [per_MeV (snd p)])) l) i = Some (e, [c]) ->
    nth_error (map (fun p => (in_MeV (fst p), [per_MeV (snd p)])) m) i = Some (e', [n]) -> e = e' /\ Rabs (c - 2 * n) <= n / 10 ^ 9).
  { clear. intros l m Z0 A B. rewrite nth_error_map in A, B. destruct (nth_error l i) as [p|] eqn:P; [|discriminate].
    destruct (nth_error m i) as [q|] eqn:Q; [|discriminate]. pose proof (combine_nth_error _ _ _ _ _ P Q) as I0.
    unfold zclose in Z0. rewrite forallb_forall in Z0. specialize (Z0 _ I0). cbn [fst snd] in Z0. apply andb_prop in Z0. destruct Z0 as [Z1 Z2].
    apply Z.eqb_eq in Z1. apply Z.leb_le in Z2. cbn [option_map] in A, B. injection A as <- <-. injection B as <- <-.
    split; [now rewrite Z1|]. apply IZR_le in Z2. rewrite mult_IZR, abs_IZR, minus_IZR, mult_IZR in Z2.
    replace (IZR (10 ^ 9)) with (10 ^ 9) in Z2 by exact (pow_IZR 10 9). unfold per_MeV.
    replace (IZR (snd p) / 10 ^ 35 - 2 * (IZR (snd q) / 10 ^ 35)) with ((IZR (snd p) - 2 * IZR (snd q)) / 10 ^ 35) by lra.
    unfold Rdiv. rewrite Rabs_mult, (Rabs_right (/ 10 ^ 35)) by (apply Rle_ge; left; apply Rinv_0_lt_compat, pow_lt; lra).
    set (d := Rabs _) in *. clearbody d. set (z := IZR (snd q)) in *. clearbody z. lra. }
  pose proof zclose_ok as Ok. apply andb_prop in Ok. destruct Ok as [O1 O2]. unfold rho_table, one_column in H1, H2.
  destruct Hf as [-> | ->]; cbn [String.eqb Ascii.eqb Bool.eqb] in H1, H2; [exact (K _ _ O1 H1 H2)|exact (K _ _ O2 H1 H2)].
Qed.
Print Assumptions rho_neutrinos_exchanged.
Example rho_neutrinos_exchanged_example : exists e c n, nth_error (rho_table "charged_rho" "mu") 250 = Some (e, [c])
  /\ nth_error (rho_table "neutral_rho" "mu") 250 = Some (e, [n]) /\ n < c.
Proof.
  unfold rho_table, one_column. rewrite !nth_error_map. cbn [String.eqb Ascii.eqb Bool.eqb].
  assert (A : nth_error (combine rho_neutrino_energy charged_rho_neutrino_mu) 250 = Some (1392763770929538000, 2491876808016139000000000000000000)%Z) by (vm_compute; reflexivity).
  assert (B : nth_error (combine rho_neutrino_energy neutral_rho_neutrino_mu) 250 = Some (1392763770929538000, 1245938404008070000000000000000000)%Z) by (vm_compute; reflexivity).
  rewrite A, B. cbn [option_map fst snd]. do 3 eexists. split; [reflexivity|]. split; [reflexivity|].
  unfold per_MeV. lra.
Qed.

(** The names of the files in which the decays of a particle are tabulated *)
Definition file_of (p : string) : string :=
  match find (fun kv => String.eqb (fst kv) p) [("k", "charged_kaon"); ("kS", "short_kaon"); ("kL", "long_kaon"); ("rho0", "neutral_rho");
    ("rho", "charged_rho"); ("etap", "eta_prime")]%string with Some kv => snd kv | None => p end.
(** Particles that give neutrinos: neutrinos, muons, charged pions, and those with a neutrino file *)
Definition gives_neutrinos (p : string) : bool :=
  orb (existsb (String.eqb p) ["nu"; "mu"; "pi"]%string) (existsb (String.eqb (file_of p)) (dkeys neutrino_header)).
(** The neutrino files name the flavour of the neutrino *)
Definition flavoured (mode : string) : string :=
  match find (fun kv => String.eqb (fst kv) mode) [("mu_nu", "mu_vm"); ("e_nu", "e_ve"); ("pi0_e_nu", "pi0_e_ve"); ("pi0_mu_nu", "pi0_mu_vm");
    ("pi_e_nu", "pi_e_ve"); ("pi_mu_nu", "pi_mu_vm")]%string with Some kv => snd kv | None => mode end.
Definition lost : list (string * string) :=
  [("charged_kaon", "e_nu"); ("omega", "eta_a"); ("eta_prime", "rho0_a"); ("eta_prime", "pi0_pi0_eta"); ("eta_prime", "omega_a");
   ("phi", "k_k"); ("phi", "kS_kL"); ("phi", "eta_a"); ("phi", "omega_pi0"); ("phi", "etap_a")]%string.
Lemma modes_dec h parent mode : modes h parent mode <-> existsb (String.eqb mode) (match dget h parent with Some l => l | None => [] end) = true.
Proof.
  unfold modes. split.
  - intros (l & -> & I). apply existsb_exists. exists mode. split; [exact I|apply String.eqb_refl].
  - intro H. destruct (dget h parent) as [l|]; [|discriminate]. exists l. split; [reflexivity|]. apply existsb_exists in H.
    destruct H as (x & I & E). apply String.eqb_eq in E. now subst.
Qed.
(** The modes of the positron files with neutrinos that have no column in the neutrino files of the same parent are
    exactly ten: among them those in which the phi decays to kaons. *)
Theorem neutrino_modes_lost : forall parent mode, modes positron_header parent mode -> existsb gives_neutrinos (particles mode) = true ->
  (~ modes neutrino_header parent (flavoured mode) <-> In (parent, mode) lost).
Proof.
  intros parent mode M G. rewrite modes_dec. apply modes_in in M. cbn [flat_map map app positron_header fst snd] in M. cbn [In] in M.
  each; inversion H; subst; clear H; try discriminate G; clear G;
  (split; [intro N; first [exfalso; apply N; reflexivity | cbn; tauto] | intro I; vm_compute; cbn in I; each; try discriminate; intro; discriminate]).
Qed.
Print Assumptions neutrino_modes_lost.
(** "A parent with a mode that gives neutrinos has the neutrinos of this mode." *)
Theorem neutrino_modes_refuted : exists parent mode p, modes positron_header parent mode /\ In p (particles mode)
  /\ modes neutrino_header (file_of p) "mu_vm" /\ ~ modes neutrino_header parent (flavoured mode).
Proof.
  exists "phi"%string, "k_k"%string, "k"%string. split; [rewrite modes_dec; reflexivity|]. split; [now left|].
  split; [rewrite modes_dec; reflexivity|]. rewrite modes_dec. discriminate.
Qed.
Print Assumptions neutrino_modes_refuted.

(** The number of particles in a table of one column, by the trapezoidal rule *)
Fixpoint trapezoid (t : table) : R :=
  match t with
  | (e, [c]) :: (((e', [c']) :: _) as tl) => (e' - e) * (c + c') / 2 + trapezoid tl
  | _ => 0
  end.
Fixpoint ztrap (l : list (Z * Z)) : Z :=
  match l with
  | p :: ((q :: _) as tl) => ((fst q - fst p) * (snd p + snd q) + ztrap tl)%Z
  | _ => 0%Z
  end.
Lemma ztrap_sound es cs : trapezoid (one_column es cs) = IZR (ztrap (combine es cs)) / (2 * 10 ^ 52).
Proof.
  unfold one_column. induction (combine es cs) as [|p l IH]; [cbn; lra|]. destruct l as [|q l]; [cbn; lra|].
  change (ztrap (p :: q :: l)) with ((fst q - fst p) * (snd p + snd q) + ztrap (q :: l))%Z.
  change (trapezoid (map (fun p => (in_MeV (fst p), [per_MeV (snd p)])) (p :: q :: l))) with
    ((in_MeV (fst q) - in_MeV (fst p)) * (per_MeV (snd p) + per_MeV (snd q)) / 2 + trapezoid (map (fun p => (in_MeV (fst p), [per_MeV (snd p)])) (q :: l))).
  rewrite IH, plus_IZR, mult_IZR, minus_IZR, plus_IZR. unfold in_MeV, per_MeV. field.
Qed.
Lemma long_kaon_counts : let e := ztrap (combine long_kaon_neutrino_energy long_kaon_pi_mu_vm_e) in
  let mu := ztrap (combine long_kaon_neutrino_energy long_kaon_pi_mu_vm_mu) in
  andb (16 * 10 ^ 51 <? e)%Z (andb (e <? 17 * 10 ^ 51)%Z (andb (16 * 10 ^ 51 <? mu)%Z (mu <? e)%Z)) = true.
Proof. vm_compute. reflexivity. Qed.
(** "The decay K_L -> pi mu nu_mu gives four muon neutrinos (one, one from the muon and two from the pion) and two
    electron neutrinos": the table has 0.80 to 0.85 of each, as it would with the first neutrino counted as an electron
    neutrino and the branching ratio 0.27. *)
Theorem long_kaon_flavours_refuted : exists ne nmu, ne = trapezoid (long_kaon_pi_mu_vm "e") /\ nmu = trapezoid (long_kaon_pi_mu_vm "mu")
  /\ 8 / 10 < nmu < ne /\ ne < 85 / 100.
Proof.
  do 2 eexists. split; [reflexivity|]. split; [reflexivity|]. unfold long_kaon_pi_mu_vm. cbn [String.eqb Ascii.eqb Bool.eqb]. rewrite !ztrap_sound.
  pose proof long_kaon_counts as H. cbv zeta in H. destruct (andb_prop _ _ H) as [Z H1]. destruct (andb_prop _ _ H1) as [Z0 H2]. destruct (andb_prop _ _ H2) as [Z1 Z2]. clear H H1 H2.
  apply Z.ltb_lt in Z, Z0, Z1, Z2. apply IZR_lt in Z, Z0, Z1, Z2. set (a := IZR (ztrap _)) in *. set (b := IZR (ztrap _)) in *.
  rewrite mult_IZR in Z, Z0, Z1. replace (IZR (10 ^ 51)) with (10 ^ 51) in * by exact (pow_IZR 10 51). clearbody a b. lra.
Qed.
Print Assumptions long_kaon_flavours_refuted.

(** ** The public functions: mass and files of the parents *)
(** masses in MeV of the Review of Particle Physics *)
Definition parent_masses : list (string * R) :=
  [("charged_kaon", 493677 / 1000); ("long_kaon", 497611 / 1000); ("short_kaon", 497611 / 1000); ("eta", 547862 / 1000);
   ("omega", 78266 / 100); ("neutral_rho", 77526 / 100); ("charged_rho", 77526 / 100); ("eta_prime", 95778 / 100);
   ("phi", 1019461 / 1000)]%string.
Lemma parent_masses_pos parent m : In (parent, m) parent_masses -> 0 < m.
Proof. unfold parent_masses. cbn [In]. intro H. each; match goal with H : (_, _) = (_, _) |- _ => inversion H; lra end. Qed.
(** A parent has the mass of its name: below it the spectrum is zero, and at it the values at the tabulated energies
    are the sums of the rows of its own file (the two rho share one). *)
Theorem public_positron_parents : forall tables parent m e cols, In (parent, m) parent_masses ->
  let file := if existsb (String.eqb parent) ["neutral_rho"; "charged_rho"]%string then "rho"%string else parent in
  rising (tables file) -> (2 <= length (tables file))%nat -> me < first (tables file) -> In (e, cols) (tables file) ->
  public_positron tables parent (AFloat e) m = Ret (VFloat (Some (fold_right Rplus 0 cols)))
  /\ forall energy, energy < m -> public_positron tables parent (AArr [e]) energy = Ret (VArr [Some 0]).
Proof.
  intros tables parent m e cols H file Hr Hl Hf Hi. pose proof (parent_masses_pos _ _ H) as Hm.
  assert (P : dget positron_parents parent = Some (m, file)).
  { unfold file. clear -H. unfold parent_masses in H. cbn [In] in H. each; match goal with H : (_, _) = (_, _) |- _ => inversion H; reflexivity end. }
  unfold public_positron, dindex. rewrite P. cbn [bind fst snd]. clearbody file. split.
  - pose proof (positron_table_rest (tables file) m e cols Hr Hl Hf Hm Hi) as V. unfold dnde_positron in V |- *.
    destruct (Rlt_dec m m); [lra|]. cbn [number] in V. now rewrite V.
  - intros energy L. unfold dnde_positron. destruct (Rlt_dec energy m); [reflexivity|lra].
Qed.
Print Assumptions public_positron_parents.
Example public_positron_parents_example : exists e cols, In ("short_kaon"%string, 497611 / 1000) parent_masses /\ rising short_kaon_table
  /\ (2 <= length short_kaon_table)%nat /\ me < first short_kaon_table /\ In (e, cols) short_kaon_table.
Proof.
  exists (in_MeV 51099894610000040), [per_MeV 110739560732700300000000; 0]. split; [cbn; tauto|]. split; [exact short_kaon_rising|].
  split; [exact short_kaon_length|]. split; [rewrite (proj1 short_kaon_ends); unfold short_kaon_low, me; lra|].
  unfold short_kaon_table. fold short_kaon_rows. destruct short_kaon_first as [l ->]. now left.
Qed.
(** Neutrinos: the sums of the rows of the file of the flavour, and no tau neutrinos. *)
Theorem public_neutrino_parents : forall spline2 tables parent m e ce cmu, In (parent, m) parent_masses ->
  (forall pts, rising pts -> (3 <= length pts)%nat -> passes_through (spline2 pts) pts) ->
  (forall flavor, rising (tables parent flavor) /\ (3 <= length (tables parent flavor))%nat /\ 0 < first (tables parent flavor)) ->
  In (e, ce) (tables parent "e"%string) -> In (e, cmu) (tables parent "mu"%string) ->
  public_neutrino spline2 tables parent (AFloat e) m None = Ret (VArr [Some (fold_right Rplus 0 ce); Some (fold_right Rplus 0 cmu); Some 0])
  /\ forall energy, energy < m -> public_neutrino spline2 tables parent (AFloat e) energy None = Ret (VArr [Some 0; Some 0; Some 0]).
Proof.
  intros spline2 tables parent m e ce cmu H Sp Ht He Hmu. pose proof (parent_masses_pos _ _ H) as Hm.
  assert (P : dget neutrino_parents parent = Some (m, parent)).
  { clear -H. unfold parent_masses in H. cbn [In] in H. each; match goal with H : (_, _) = (_, _) |- _ => inversion H; reflexivity end. }
  unfold public_neutrino, dindex. rewrite P. cbn [bind fst snd].
  assert (V : forall flavor c, In (e, c) (tables parent flavor) -> ev (load_neutrino spline2 (tables parent flavor)) e * e = fold_right Rplus 0 c).
  { intros flavor c Hi. destruct (Ht flavor) as (T1 & T2 & T3). unfold load_neutrino. set (f := fun row : R * list R => _).
    assert (Pe : 0 < e).
    { clear -T1 T3 Hi. destruct (tables parent flavor) as [|q t]; [destruct Hi|]. cbn in T3. destruct Hi as [->|Hi]; [exact T3|].
      pose proof (rising_in q t _ T1 Hi) as Q. cbn in Q. lra. }
    rewrite (Sp (map f (tables parent flavor)) ltac:(apply load_rising; [exact T1|reflexivity]) ltac:(now rewrite map_length) e (row_sum c / e)).
    - unfold Rdiv. rewrite Rmult_assoc, Rinv_l, Rmult_1_r by lra. unfold row_sum. apply fold_symmetric; intros; ring.
    - apply (in_map f _ (e, c) Hi). }
  unfold dnde_neutrino, neutrino_array. cbn [is_flavor no_flavor isscalar atleast_1d map fin nth]. split.
  - destruct (Rlt_dec m m); [lra|]. pose proof eps_pos. destruct (Rlt_dec (m - m) eps); [|lra]. cbn [fin map nth]. now rewrite !V with (1 := He), !V with (1 := Hmu).
  - intros energy L. destruct (Rlt_dec energy m); [reflexivity|lra].
Qed.
Print Assumptions public_neutrino_parents.
(** A curve through the points exists; the straight lines are one. *)
Example public_neutrino_parents_example : (forall pts, rising pts -> (3 <= length pts)%nat -> passes_through (spline1 pts) pts)
  /\ let t : table := [(1, [1; 2]); (2, [3; 4]); (5, [0; 0])] in rising t /\ (3 <= length t)%nat /\ 0 < first t /\ In (2, [3; 4]) t.
Proof.
  split; [intros pts H1 H2; apply spline1_through; [exact H1|lia]|]. cbv zeta. split; [cbn; lra|]. split; [cbn; lia|]. split; [cbn; lra|right; now left].
Qed.
