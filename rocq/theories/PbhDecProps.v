(** A black hole as a decaying theory: its photon spectrum and what cannot be asked of it. *)
From Coq Require Import Bool String Reals Lra Lia Sorted List.
From Verif Require Import PyBase Area KinModel DistModel DistProofs ScrModel TheoryModel SingleModel PbhModel PbhProofs PbhProps
  PbhDecModel PbhDecProofs.
Import ListNotations.
Local Open Scope string_scope.
Local Open Scope list_scope.
Local Open Scope R_scope.

(** The spectrum of an object made with the mass of column [j] of a table with ascending energies: it is the broken
    line through the points of that column (energies in MeV, densities per MeV), zero outside the table, for an array
    and for each of its energies; "all" and "total" agree, a single energy is answered like an array of one, there are no
    lines, and the photons per second above a lower and below an upper bound outside the table are the trapezoids of the
    file. *)
Theorem black_hole_spectrum : forall g disk s kind bh file j m f, g <> 0 -> table_file kind bh = Ret file ->
  disk file = write_sheet s -> sheet_ok s -> NoDup (map cell_value (masses s)) ->
  nth_error (map cell_value (masses s)) j = Some m -> Sorted Rlt (energies s) -> 0 < f ->
  exists t o F, pbh_init g disk (m * g) kind bh = Ret (t, o) /\
    broken_line (map (fun e => 1000 * e) (energies s)) (map (fun d => nth j d 0 / 1000) (densities s)) F /\
    (forall xs, pbh_spectra f t o (VA xs) = Ret [("all", VA (map F xs)); ("total", VA (map F xs))]) /\
    (forall xs, pbh_total_spectrum f t o (VA xs) = Ret (VA (map F xs))) /\
    (forall x, pbh_total_spectrum f t o (VF x) = Ret (VA [F x])) /\
    pbh_gamma_ray_lines f t o = Ret [] /\
    (energies s <> [] -> forall lo hi, (forall e, In e (energies s) -> lo < 1000 * e < hi) ->
       area F lo hi (rate (energies s) (map (fun d => nth j d 0) (densities s)))).
Proof.
  intros g disk s kind bh file j m f Hg Hf Hd Hs N Hj Hsort Pf.
  destruct (column_of_mass g disk s kind bh file j m Hg Hf Hd Hs N Hj) as (t & o & col & E & _ & Ec & Dc & _ & Et).
  assert (Col : col = map (fun d => nth j d 0 / 1000) (densities s)).
  { clear - Dc. revert col Dc. induction (densities s) as [|d l IH]; intros [|c col] Dc; try discriminate; [reflexivity|].
    cbn in Dc. injection Dc as E0 E1. cbn. rewrite <- (IH col E1). f_equal. rewrite (nth_error_nth d j 0 E0). field. }
  set (es := map (fun e => 1000 * e) (energies s)) in *.
  assert (Len : length es = length col).
  { unfold es. rewrite Col. rewrite !map_length. unfold energies, densities. now rewrite !map_length. }
  assert (Ses : Sorted Rlt es).
  { unfold es. clear - Hsort. induction Hsort as [|a l Hs IH Hh]; cbn; constructor; [exact IH|].
    destruct Hh; cbn; constructor. lra. }
  exists t, o, (fun x => np_interp_zero x es col). split; [exact E|]. rewrite <- Col.
  assert (Sp : forall xs, pbh_spectra f t o (VA xs) = Ret [("all", VA (map (fun x => np_interp_zero x es col) xs));
    ("total", VA (map (fun x => np_interp_zero x es col) xs))]).
  { intro xs. unfold pbh_spectra, pbh_object. rewrite Ec. cbn [bind]. rewrite Et, dec_spectra. destruct (Rlt_dec 0 f); [reflexivity|lra]. }
  assert (To : forall xs, pbh_total_spectrum f t o (VA xs) = Ret (VA (map (fun x => np_interp_zero x es col) xs))).
  { intro xs. specialize (Sp xs). unfold pbh_spectra, pbh_object, pbh_total_spectrum in *. rewrite Ec in *. cbn [bind] in *.
    unfold d_total_spectrum, pbh_object. rewrite ?Ec. cbn [bind]. rewrite Sp. reflexivity. }
  split; [now apply interp_broken_line|]. split; [exact Sp|]. split; [exact To|]. split; [|split].
  - intro x. specialize (To [x]). unfold pbh_total_spectrum, pbh_object in *. rewrite Ec in *. cbn [bind] in *. exact To.
  - unfold pbh_gamma_ray_lines, pbh_object. rewrite Ec. cbn [bind]. unfold d_gamma_ray_lines, decay_branching_fractions, fractions_of.
    cbn. destruct (Req_EM_T (0 + f) 0); reflexivity.
  - intros Ne lo hi Hb. apply (area_val _ _ _ (pieces 1 0 es col)).
    + rewrite rate_pieces by exact Len. unfold es. rewrite Col.
      rewrite <- (rate_units (energies s) (map (fun d => nth j d 0) (densities s))). now rewrite map_map.
    + apply (area_ext (fun x => np_interp_zero x es col * (1 + 0 * x)) _ _ _ _ []); [intros x _ _; ring|].
      apply np_interp_area; [|exact Ses|exact Len|].
      * unfold es. destruct (energies s); [now destruct Ne|discriminate].
      * intros x Hx. unfold es in Hx. apply in_map_iff in Hx as (e & <- & He). now apply Hb.
Qed.
Print Assumptions black_hole_spectrum.

Example black_hole_spectrum_example : Sorted Rlt (energies some_sheet) /\ energies some_sheet <> [] /\ (0 < 1)%R /\
  table_file "primary" true = Ret "pbh_primary_spectra_bh.csv" /\ sheet_ok some_sheet /\ NoDup (map cell_value (masses some_sheet)).
Proof.
  destruct column_of_mass_example as (A & B & C & _). 
  split; [|split; [|split; [lra|split; [exact A|split; [exact B|exact C]]]]].
  - unfold energies, some_sheet, cell_value, value, decimal_value.
    cbn [map masses rows nth fst snd neg whole frac after_point fraction]. repeat constructor; simpl; lra.
  - unfold energies, some_sheet. discriminate.
Qed.

(** The fraction of black holes in the dark matter, which is a parameter of the object, does not change the
    spectrum: any two positive fractions give the same, any other gives zeros. *)
Theorem fraction_not_in_the_spectrum :
  (forall f f' t o xs, 0 < f -> 0 < f' -> pbh_spectra f t o (VA xs) = pbh_spectra f' t o (VA xs)) /\
  (forall f t o col xs, f <= 0 -> column t o = Ret col ->
     pbh_spectra f t o (VA xs) = Ret [("all", VA (map (fun _ => 0) xs)); ("total", VA (map (fun _ => 0) xs))]).
Proof.
  split.
  - intros f f' t o xs P P'. unfold pbh_spectra, pbh_object. destruct (column t o) as [col|]; [|reflexivity]. cbn [bind].
    rewrite !dec_spectra. destruct (Rlt_dec 0 f); [|lra]. destruct (Rlt_dec 0 f'); [reflexivity|lra].
  - intros f t o col xs P E. unfold pbh_spectra, pbh_object. rewrite E. cbn [bind]. rewrite dec_spectra.
    destruct (Rlt_dec 0 f); [lra|reflexivity].
Qed.
Print Assumptions fraction_not_in_the_spectrum.

Example fraction_not_in_the_spectrum_example :
  pbh_spectra 1 (MkTable [1] [1; 2] [[3]; [5]]) {| p_mx := 1; p_col := Some 0%nat |} (VA [1]) = Ret [("all", VA [3]); ("total", VA [3])] /\
  column (MkTable [1] [1; 2] [[3]; [5]]) {| p_mx := 1; p_col := Some 0%nat |} = Ret [3; 5].
Proof.
  split; [|reflexivity]. unfold pbh_spectra, pbh_object. cbn [column p_col t_d2n map_res nth_error bind t_egams]. rewrite dec_spectra.
  cbn [map]. unfold np_interp_zero, interp_from. destruct (Rlt_dec 0 1); [|lra]. destruct (Rlt_dec 1 1); [lra|]. destruct (Rlt_dec 1 2); [|lra].
  replace ((5 - 3) / (2 - 1) * (1 - 1) + 3) with 3 by field. reflexivity.
Qed.

(** Every decaying theory lists its final states and answers the positron queries.  Refuted: for every object that was made,
    the list of final states is None (the class defines another name), and the positron spectra, their total and the
    positron lines raise AttributeError. *)
Theorem black_hole_queries_refuted :
  pbh_list_decay_final_states = None /\ pbh_list_final_decay_states = Some (dkeys (pbh_decay_widths 1)) /\
  (exists g disk mx kind bh t o, pbh_init g disk mx kind bh = Ret (t, o) /\
     (exists v, pbh_total_spectrum 1 t o (VF 1) = Ret v) /\
     (forall f e, pbh_positron_spectra f t o e = Raise (AttributeError "items")) /\
     (forall f e, pbh_total_positron_spectrum f t o e = Raise (AttributeError "items")) /\
     (forall f, pbh_positron_lines f t o = Raise (AttributeError "items"))).
Proof.
  split; [reflexivity|]. split; [reflexivity|].
  destruct column_of_mass_example as (A & B & C & m & Hm).
  destruct black_hole_spectrum_example as (So & _).
  destruct (black_hole_spectrum 1 (fun _ => write_sheet some_sheet) some_sheet "primary" true _ 1%nat m 1 R1_neq_R0 A eq_refl B C Hm So Rlt_0_1)
    as (t & o & F & E & _ & _ & _ & Sp & _).
  exists 1, (fun _ => write_sheet some_sheet), (m * 1), "primary", true, t, o. split; [exact E|]. split; [eexists; apply Sp|].
  assert (Ob : exists col, column t o = Ret col).
  { specialize (Sp 1). unfold pbh_total_spectrum, pbh_object in Sp. destruct (column t o) as [col|]; [now exists col|discriminate]. }
  destruct Ob as (col & Ec).
  assert (Bf : forall f, exists b, decay_branching_fractions (pbh_theory f (t_egams t) col) = Ret b).
  { intro f. unfold decay_branching_fractions, fractions_of. cbn. destruct (Req_EM_T (0 + f) 0); eexists; reflexivity. }
  assert (Ps : forall f e, pbh_positron_spectra f t o e = Raise (AttributeError "items")).
  { intros f e. destruct (Bf f) as (b & Eb). unfold pbh_positron_spectra, pbh_object. rewrite Ec. cbn [bind]. rewrite Eb. reflexivity. }
  split; [exact Ps|]. split.
  - intros f e. unfold pbh_total_positron_spectrum. rewrite Ps. reflexivity.
  - intro f. destruct (Bf f) as (b & Eb). unfold pbh_positron_lines, pbh_object. rewrite Ec. cbn [bind]. rewrite Eb. reflexivity.
Qed.
Print Assumptions black_hole_queries_refuted.
