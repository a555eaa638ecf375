(** C179: the tables of black-hole spectra are read as they are written. *)
From Coq Require Import Arith Bool String ZArith Reals Lra Lia List.
From Verif Require Import PyBase ScrModel SingleModel PbhModel PbhProofs.
Import ListNotations.
Local Open Scope R_scope.
Local Open Scope list_scope.

Definition energies (s : sheet) : list R := map (fun r => cell_value (fst (snd r))) (rows s).
Definition densities (s : sheet) : list (list R) := map (fun r => map cell_value (snd (snd r))) (rows s).

(** the lines of a table whose rows may differ in length *)
Definition cells_ok (s : sheet) : Prop :=
  no_comma (fst (corner s)) /\ no_comma (snd (corner s)) /\ Forall cell_ok (masses s) /\
  Forall (fun r => no_comma (fst r) /\ cell_ok (fst (snd r)) /\ ordinary (fst (fst (snd r))) /\
                   Forall (fun c => cell_ok c /\ ordinary (fst c)) (snd (snd r))) (rows s).
Lemma load_step : forall g s, cells_ok s ->
  load_table g (write_sheet s) =
  let data := map (fun r => cell_value (fst (snd r)) :: map cell_value (snd (snd r))) (rows s) in
  if rectangular data then
    match data with
    | [] => Raise IndexError
    | r :: _ =>
        if Nat.eqb (length r) 0 then Raise IndexError
        else Ret (MkTable (map (fun m => m * g) (map cell_value (masses s))) (map (fun r => hd 0 r * 1000) data)
                          (map (fun r => map (fun v => v * / 1000) (tl r)) data))
    end
  else Raise ValueError.
Proof.
  intros g s (H1 & H2 & H3 & H5). unfold load_table, write_sheet. cbn [tl].
  rewrite Forall_forall in H3, H5.
  rewrite split_join; [|discriminate|constructor; [exact H1|constructor; [exact H2|]]].
  2: { apply Forall_forall. intros t Ht. apply in_map_iff in Ht as (c & <- & Hc). apply cell_no_comma, H3, Hc. }
  cbn [tl]. rewrite (map_res_map parse_float write_cell cell_value) by (intros; apply parse_cell, H3; assumption). cbn [bind].
  rewrite (map_res_map parse_line _ (fun r => cell_value (fst (snd r)) :: map cell_value (snd (snd r)))).
  2: { intros r Hr. destruct (H5 r Hr) as (A & B & O & D). rewrite Forall_forall in D. unfold parse_line.
       rewrite split_join; [|discriminate|constructor; [exact A|constructor; [apply cell_no_comma, B|]]].
       - cbn [tl]. change (write_cell (fst (snd r)) :: map write_cell (snd (snd r))) with (map write_cell (fst (snd r) :: snd (snd r))).
         change (cell_value (fst (snd r)) :: map cell_value (snd (snd r))) with (map cell_value (fst (snd r) :: snd (snd r))).
         apply map_res_map. intros c [<-|Hc]; [rewrite float_ordinary by assumption; reflexivity|].
         destruct (D c Hc). rewrite float_ordinary by assumption. reflexivity.
       - apply Forall_forall. intros t Ht. apply in_map_iff in Ht as (c & <- & Hc). apply cell_no_comma, (D c Hc). }
  reflexivity.
Qed.

(** Every number of the file, in any of the forms it is written in, is read with its value; masses are
    converted from grams, energies from GeV and densities from 1/GeV. *)
Theorem table_read_back : forall g s, sheet_ok s ->
  load_table g (write_sheet s) =
  Ret (MkTable (map (fun c => cell_value c * g) (masses s)) (map (fun e => 1000 * e) (energies s))
               (map (map (fun d => d / 1000)) (densities s))).
Proof.
  intros g s (H1 & H2 & H3 & H4 & H5). rewrite load_step.
  2: { split; [exact H1|]. split; [exact H2|]. split; [exact H3|]. eapply Forall_impl; [|exact H5]. cbn beta. tauto. }
  rewrite Forall_forall in H5.
  unfold energies, densities.
  assert (Rect : rectangular (map (fun r => cell_value (fst (snd r)) :: map cell_value (snd (snd r))) (rows s)) = true).
  { assert (G : forall r, In r (rows s) -> length (snd (snd r)) = length (masses s)) by (intros r Hr; apply (H5 r Hr)). clear - G.
    unfold rectangular. destruct (rows s) as [|r l]; [reflexivity|]. cbn [map]. apply forallb_forall. intros x Hx.
    apply in_map_iff in Hx as (r' & <- & Hr'). cbn [length]. rewrite !map_length, (G r), (G r') by (cbn; auto). apply Nat.eqb_refl. }
  cbv zeta. rewrite Rect. destruct (rows s) as [|r l] eqn:E; [congruence|]. cbn [map length Nat.eqb hd tl].
  f_equal. f_equal; [rewrite map_map; reflexivity| |].
  - cbn [map hd]. rewrite !map_map. f_equal; [ring|]. apply map_ext. intro a. cbn [hd]. ring.
  - rewrite !map_map. reflexivity.
Qed.
Print Assumptions table_read_back.

(** the numbers of the header of the primary tables: 1e15.05; a row with a plain number and one with an
    exponent *)
Definition some_sheet : sheet :=
  let dec a b := Dec false a (Some b) in
  Sheet ([], codes "photon_energies")
    [(Odd (Dec false [1]%nat None) (dec [1; 5] [0])%nat, []); (Odd (Dec false [1]%nat None) (dec [1; 5] [0; 5])%nat, codes (String (Ascii.ascii_of_nat 10) EmptyString))]
    [(codes "0", ((Exp (Dec false [5]%nat None) true [0; 7]%nat, []),
       [(Plain (dec [4] [8; 6])%nat, []); (Plain (dec [6] [8; 1])%nat, codes (String (Ascii.ascii_of_nat 10) EmptyString))]));
     (codes "1", ((Exp (dec [5] [0; 7; 3; 1; 5])%nat true [0; 7]%nat, []),
       [(Plain (dec [5] [0; 7])%nat, []); (Plain (dec [1; 1] [0])%nat, codes (String (Ascii.ascii_of_nat 10) EmptyString))]))].
Example some_sheet_written : map (fun t => string_of_list_ascii (map Ascii.ascii_of_nat t)) (write_sheet some_sheet) =
  [",photon_energies,1e15.0,1e15.05" ++ String (Ascii.ascii_of_nat 10) EmptyString;
   "0,5e-07,4.86,6.81" ++ String (Ascii.ascii_of_nat 10) EmptyString;
   "1,5.07315e-07,5.07,11.0" ++ String (Ascii.ascii_of_nat 10) EmptyString]%string.
Proof. vm_compute. reflexivity. Qed.
Ltac check_cells :=
  repeat (match goal with
  | |- _ /\ _ => split
  | |- Forall _ _ => constructor
  | |- _ \/ _ => left; discriminate
  | |- _ <> _ => discriminate
  | |- ~ In _ _ => cbn; intuition discriminate
  | |- (_ < _)%nat => lia
  | |- True => exact I
  | |- _ = _ => reflexivity
  end; cbn [corner masses rows fst snd frac whole after_point length]).
Lemma some_sheet_ok : sheet_ok some_sheet.
Proof.
  unfold sheet_ok, some_sheet, no_comma, cell_ok, spaces, numeral_ok, decimal_ok, digits, ordinary.
  cbn [corner masses rows fst snd frac whole after_point length]. check_cells.
Qed.
Example table_read_back_example : exists t, load_table 1 (write_sheet some_sheet) = Ret t /\
  t_mxs t = [Rpower 10 15; Rpower 10 (1505 / 100)] /\ nth 0 (t_d2n t) [] = [486 / 100000; 681 / 100000].
Proof.
  rewrite (table_read_back 1 some_sheet some_sheet_ok). eexists. split; [reflexivity|]. cbn [t_mxs t_d2n].
  unfold densities, some_sheet, cell_value, value, decimal_value.
  cbn [map masses rows nth fst snd neg whole frac after_point fraction].
  assert (L : forall a b a' b' : R, a = a' -> b = b' -> [a; b] = [a'; b']) by (intros; subst; reflexivity).
  split; apply L.
  - match goal with |- context [Rpower 10 ?x] => replace x with 15 by (simpl; field) end. simpl. ring.
  - match goal with |- context [Rpower 10 ?x] => replace x with (1505 / 100) by (simpl; field) end. simpl. ring.
  - simpl. field.
  - simpl. field.
Qed.

(** ** The rate does not depend on the units *)

(** photons per second between the first and the last energy, by the trapezoids of the interpolation *)
Fixpoint rate (es ds : list R) : R :=
  match es, ds with
  | e :: ((e' :: _) as es'), d :: ((d' :: _) as ds') => (e' - e) * (d + d') / 2 + rate es' ds'
  | _, _ => 0
  end.
Lemma rate_units : forall es ds, rate (map (fun e => 1000 * e) es) (map (fun d => d / 1000) ds) = rate es ds.
Proof.
  induction es as [|e [|e' es] IH]; intros [|d [|d' ds]]; try reflexivity. cbn [map rate] in *.
  specialize (IH (d' :: ds)). cbn [map] in IH. rewrite IH. field.
Qed.

(** The column of a mass: an object made with the mass of column [j], in MeV, interpolates that column over
    the energies in MeV, and its rate of photons is the rate in the units of the file. *)
Theorem column_of_mass : forall g disk s kind bh file j m, g <> 0 -> table_file kind bh = Ret file -> disk file = write_sheet s ->
  sheet_ok s -> NoDup (map cell_value (masses s)) -> nth_error (map cell_value (masses s)) j = Some m ->
  exists t o col, pbh_init g disk (m * g) kind bh = Ret (t, o) /\ p_mx o = m * g /\ column t o = Ret col /\
    map (fun d => nth_error d j) (densities s) = map (fun d => Some (1000 * d)) col /\
    rate (t_egams t) col = rate (energies s) (map (fun d => 1000 * d) col) /\
    t_egams t = map (fun e => 1000 * e) (energies s).
Proof.
  intros g disk s kind bh file j m Hg Hf Hd Hs N Hj. unfold pbh_init. rewrite Hf. cbn [bind]. rewrite Hd, (table_read_back g s Hs). cbn [bind t_mxs].
  assert (F : forall l i, NoDup l -> nth_error l j = Some m -> find_index (map (fun m => m * g) l) (m * g) i = Some (i + j)%nat).
  { clear - Hg. revert j. intros j l. revert j. induction l as [|a l IH]; intros j i Hl Hj; [destruct j; discriminate|].
    inversion Hl as [|? ? Na Hl']; subst. cbn [map find_index]. destruct (Req_EM_T (a * g) (m * g)) as [E|E].
    - apply Rmult_eq_reg_r in E; [|exact Hg]. destruct j; [f_equal; lia|]. cbn in Hj. apply nth_error_In in Hj. subst. contradiction.
    - destruct j as [|j]; [cbn in Hj; injection Hj as ->; congruence|]. cbn in Hj. rewrite (IH j) by assumption. f_equal. lia. }
  specialize (F (map cell_value (masses s)) 0%nat N Hj). rewrite map_map in F. unfold pbh_new, pbh_set. rewrite F. cbn [bind].
  rewrite Nat.add_0_l. set (col := map (fun d => nth j d 0 / 1000) (densities s)).
  assert (Len : forall d, In d (densities s) -> (j < length d)%nat).
  { intros d Hd'. unfold densities in Hd'. apply in_map_iff in Hd' as (r & <- & Hr). destruct Hs as (_ & _ & _ & _ & H5).
    rewrite Forall_forall in H5. destruct (H5 r Hr) as (_ & _ & _ & _ & E). rewrite map_length, E, <- (map_length cell_value (masses s)).
    apply nth_error_Some. congruence. }
  eexists. eexists. exists col. split; [reflexivity|]. split; [reflexivity|]. split; [|split; [|split; [|reflexivity]]].
  - unfold column. cbn [p_col t_d2n]. apply map_res_map. intros d Hd'. rewrite nth_error_map.
    rewrite (nth_error_nth' d 0 (Len d Hd')). reflexivity.
  - unfold col. rewrite map_map. apply map_ext_in. intros d Hd'. rewrite (nth_error_nth' d 0 (Len d Hd')). f_equal. field.
  - cbn [t_egams]. rewrite <- (rate_units (energies s)). f_equal. rewrite map_map. rewrite <- (map_id col) at 1. apply map_ext. intro d. field.
Qed.
Print Assumptions column_of_mass.

Example column_of_mass_example : table_file "primary" true = Ret "pbh_primary_spectra_bh.csv"%string /\
  sheet_ok some_sheet /\ NoDup (map cell_value (masses some_sheet)) /\
  exists m, nth_error (map cell_value (masses some_sheet)) 1 = Some m.
Proof.
  split; [reflexivity|]. split; [exact some_sheet_ok|]. split; [|eexists; reflexivity].
  destruct (table_read_back_example) as (t & E & Hm & _). rewrite (table_read_back 1 _ some_sheet_ok) in E. injection E as <-.
  assert (Q : map cell_value (masses some_sheet) = [Rpower 10 15; Rpower 10 (1505 / 100)]).
  { rewrite <- Hm. change (t_mxs _) with (map (fun c => cell_value c * 1) (masses some_sheet)). apply map_ext. intro. ring. }
  rewrite Q. constructor; [|constructor; [intros []|constructor]].
  intros [H|[]]. pose proof (Rpower_lt 10 15 (1505 / 100) ltac:(lra) ltac:(lra)). lra.
Qed.

(** ** Refusals *)

Theorem pbh_refusals :
  (forall g disk mx kind bh, kind <> "primary"%string -> kind <> "secondary"%string -> pbh_init g disk mx kind bh = Raise ValueError) /\
  (forall g disk mx bh, pbh_init g disk mx "primary" bh = pbh_init g disk mx "primary" (negb bh)) /\
  (forall g disk s kind bh file mx, table_file kind bh = Ret file -> disk file = write_sheet s -> sheet_ok s ->
     ~ In mx (map (fun c => cell_value c * g) (masses s)) -> pbh_init g disk mx kind bh = Raise IndexError) /\
  (forall n x, decimal_ok n -> decimal_ok x -> frac x <> None ->
     parse_line (join [[]; write (Odd n x)]) = Raise ValueError) /\
  (forall g s r r', cells_ok s -> In r (rows s) -> In r' (rows s) -> length (snd (snd r)) <> length (snd (snd r')) ->
     load_table g (write_sheet s) = Raise ValueError) /\
  (table_file "primary" true = Ret "pbh_primary_spectra_bh.csv"%string /\
   table_file "secondary" true = Ret "pbh_secondary_spectra_bh.csv"%string /\
   table_file "secondary" false = Ret "pbh_secondary_spectra.csv"%string).
Proof.
  split; [|split; [|split; [|split; [|split; [|repeat split]]]]].
  - intros g disk mx kind bh H1 H2. unfold pbh_init, table_file. apply String.eqb_neq in H1, H2. rewrite H1, H2. reflexivity.
  - reflexivity.
  - intros g disk s kind bh file mx Hf Hd Hs N. unfold pbh_init. rewrite Hf. cbn [bind]. rewrite Hd, (table_read_back g s Hs). cbn [bind t_mxs].
    unfold pbh_new, pbh_set.
    assert (F : forall l i, ~ In mx l -> find_index l mx i = None).
    { induction l as [|a l IH]; intros i Hl; [reflexivity|]. cbn in *. destruct (Req_EM_T a mx); [tauto|]. apply IH. tauto. }
    rewrite F by exact N. reflexivity.
  - intros n x Hn Hx F. unfold parse_line. rewrite split_join.
    + cbn [tl map_res]. pose proof (float_odd n x [] Hn Hx F eq_refl) as E. rewrite app_nil_r in E. rewrite E. reflexivity.
    + discriminate.
    + constructor; [intros []|constructor; [|constructor]].
      pose proof (cell_no_comma (Odd n x, []) (conj (conj Hn (conj Hx F)) eq_refl)) as C. unfold write_cell in C. cbn [fst snd] in C.
      rewrite app_nil_r in C. exact C.
  - intros g s r r' Hs Hr Hr' N. rewrite load_step by exact Hs. cbv zeta.
    destruct (rectangular _) eqn:E; [|reflexivity]. exfalso. apply N. clear - E Hr Hr'. unfold rectangular in E.
    destruct (rows s) as [|a l]; [destruct Hr|]. cbn [map] in E. rewrite forallb_forall in E.
    assert (G : forall x, In x (a :: l) -> length (snd (snd x)) = length (snd (snd a))).
    { intros x [<-|Hx]; [reflexivity|].
      specialize (E (cell_value (fst (snd x)) :: map cell_value (snd (snd x)))). cbn [length] in E. rewrite !map_length in E.
      assert (S (length (snd (snd x))) =? S (length (snd (snd a))) = true)%nat as Q.
      { apply E. apply in_map_iff. exists x. split; [reflexivity|exact Hx]. }
      apply Nat.eqb_eq in Q. lia. }
    rewrite (G r Hr), (G r' Hr'). reflexivity.
Qed.
Print Assumptions pbh_refusals.

Example pbh_refusals_example : exists t, load_table 1 (write_sheet some_sheet) = Ret t /\ ~ In (-1) (t_mxs t).
Proof.
  destruct table_read_back_example as (t & E & Hm & _). exists t. split; [exact E|]. rewrite Hm.
  assert (P : forall x, 0 < Rpower 10 x) by (intro; apply exp_pos). intros [H|[H|[]]].
  - pose proof (P 15). lra.
  - pose proof (P (1505 / 100)). lra.
Qed.

Example pbh_refusals_ragged : exists s r r', cells_ok s /\ In r (rows s) /\ In r' (rows s) /\
  length (snd (snd r)) <> length (snd (snd r')).
Proof.
  set (one := (Plain (Dec false [1]%nat None), []) : cell).
  exists (Sheet ([], []) [one] [([], (one, [one])); ([], (one, []))]), ([], (one, [one])), ([], (one, [])). unfold one.
  split; [|cbn; auto]. unfold cells_ok, no_comma, cell_ok, spaces, numeral_ok, decimal_ok, digits, ordinary.
  cbn [corner masses rows fst snd frac whole after_point length]. check_cells.
Qed.

(** ** The gram *)

(** The energy m c^2 of 10^-3 kg in joules, in MeV (10^6 charges of the electron, in volts) *)
Theorem gram_in_mev : g_to_mev = (1 / 1000 * 299792458 ^ 2) / (1000000 * (1602176634 / 10 ^ 28)) /\ mev_to_g * g_to_mev = 1 /\
  560958860 * 10 ^ 18 < g_to_mev < 560958861 * 10 ^ 18.
Proof.
  assert (E : g_to_mev = (1 / 1000 * 299792458 ^ 2) / (1000000 * (1602176634 / 10 ^ 28))).
  { unfold g_to_mev, m_to_inv_mev, s_to_inv_mev, joule_to_mev, hbar_joule_sec, speed_of_light. pose proof PI_neq0. field. assumption. }
  split; [exact E|]. assert (B : 560958860 * 10 ^ 18 < g_to_mev < 560958861 * 10 ^ 18) by (rewrite E; split; lra).
  split; [|exact B]. unfold mev_to_g. field. lra.
Qed.
Print Assumptions gram_in_mev.
