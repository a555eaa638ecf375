(** Property theorems for the aggregation layer (C01-C05). *)
From Coq Require Import String Bool Reals Lra Lia List.
From Verif Require Import PyBase PyBaseFacts TheoryModel TheoryProofs.
Import ListNotations.
Local Open Scope string_scope.
Local Open Scope list_scope.
Local Open Scope R_scope.

(** C01.  The cross-section dictionary lists every final state and the sum. *)
Theorem annihilation_total_is_sum :
  forall th e_cm,
    NoDup (dkeys (sigma_funcs th)) -> ~ In "total" (dkeys (sigma_funcs th)) ->
    dget (annihilation_cross_sections th e_cm) "total"
      = Some (Rsum (map (fun kv => snd kv e_cm) (sigma_funcs th))) /\
    (forall fs f, In (fs, f) (sigma_funcs th) ->
       dget (annihilation_cross_sections th e_cm) fs = Some (f e_cm)) /\
    dkeys (annihilation_cross_sections th e_cm) = dkeys (sigma_funcs th) ++ ["total"].
Proof. exact ann_total_is_sum. Qed.
Print Assumptions annihilation_total_is_sum.

(** C01.  The branching fractions are a probability distribution over exactly the
    final states, or all zero when every channel is closed. *)
Theorem annihilation_fractions_are_probabilities :
  forall th e_cm,
    NoDup (dkeys (sigma_funcs th)) -> ~ In "total" (dkeys (sigma_funcs th)) ->
    (forall fs f, In (fs, f) (sigma_funcs th) -> 0 <= f e_cm) ->
    exists bfs,
      annihilation_branching_fractions th e_cm = Ret bfs /\
      dkeys bfs = dkeys (sigma_funcs th) /\
      (forall b, In b (dvals bfs) -> 0 <= b <= 1) /\
      ((exists fs f, In (fs, f) (sigma_funcs th) /\ 0 < f e_cm) ->
         Rsum (dvals bfs) = 1 /\
         forall fs f, In (fs, f) (sigma_funcs th) ->
           exists b, dget bfs fs = Some b /\
                     b * Rsum (map (fun kv => snd kv e_cm) (sigma_funcs th)) = f e_cm) /\
      ((forall fs f, In (fs, f) (sigma_funcs th) -> f e_cm = 0) ->
         forall b, In b (dvals bfs) -> b = 0).
Proof. exact ann_fractions. Qed.
Print Assumptions annihilation_fractions_are_probabilities.

(** A theory with three channels, one of them closed below e_cm = 2. *)
Definition demo_ann : theory_ann := {|
  sigma_funcs := [("e e", fun _ => 1); ("mu mu", fun e => if Rlt_dec 2 e then 3 else 0);
                  ("g g", fun _ => 0)];
  cont_funcs := [("e e", fun v _ => Ret (vmap (fun e => e) v));
                 ("mu mu", fun v q => Ret (vmap (fun e => e * q) v))];
  line_energies := fun q => [("g g", q / 2)];
  pos_funcs := [("mu mu", fun v _ => Ret (vmap (fun e => 2 * e) v))];
  pos_line_energies := fun q => [("e e", q / 2)]
|}.

Lemma demo_nodup : NoDup (dkeys (sigma_funcs demo_ann)).
Proof. repeat constructor; simpl; intuition discriminate. Qed.
Lemma demo_nototal : ~ In "total" (dkeys (sigma_funcs demo_ann)).
Proof. simpl. intuition discriminate. Qed.
Lemma demo_nonneg q : forall fs f, In (fs, f) (sigma_funcs demo_ann) -> 0 <= f q.
Proof.
  simpl. intros fs f [H|[H|[H|[]]]]; inversion H; subst; try lra.
  destruct (Rlt_dec 2 q); lra.
Qed.

Example demo_ann_hypotheses :
  NoDup (dkeys (sigma_funcs demo_ann)) /\ ~ In "total" (dkeys (sigma_funcs demo_ann)) /\
  (forall fs f, In (fs, f) (sigma_funcs demo_ann) -> 0 <= f 5) /\
  (exists fs f, In (fs, f) (sigma_funcs demo_ann) /\ 0 < f 5).
Proof.
  split; [apply demo_nodup|]. split; [apply demo_nototal|]. split; [apply demo_nonneg|].
  exists "e e", (fun _ => 1). simpl. split; [auto|lra].
Qed.

(** C02.  Each channel's entry and the total are the branching-fraction weighted
    spectra; a closed channel contributes zero even if it has no function. *)
Theorem annihilation_spectra_are_weighted :
  forall th e_cm g v,
    well_formed th ->
    (forall fs s, In (fs, s) (sigma_funcs th) -> 0 <= s e_cm) ->
    covers th (cont_funcs th) e_cm g ->
    spectra th v e_cm
    = Ret (map (fun kv => (fst kv, vmap (channel_spec th e_cm g (fst kv) (snd kv)) v))
               (sigma_funcs th)
           ++ [("total", vmap (total_spec th e_cm g) v)]).
Proof. exact ann_spectra_weighted. Qed.
Print Assumptions annihilation_spectra_are_weighted.

Theorem annihilation_total_spectrum_is_weighted_sum :
  forall th e_cm g v,
    well_formed th ->
    (forall fs s, In (fs, s) (sigma_funcs th) -> 0 <= s e_cm) ->
    covers th (cont_funcs th) e_cm g ->
    total_spectrum th v e_cm
    = Ret (VA (map (total_spec th e_cm g) (match v with VF e => [e] | VA l => l end))).
Proof. exact ann_total_spectrum. Qed.
Print Assumptions annihilation_total_spectrum_is_weighted_sum.

Theorem annihilation_positron_spectra_are_weighted :
  forall th e_cm g v,
    well_formed th ->
    (forall fs s, In (fs, s) (sigma_funcs th) -> 0 <= s e_cm) ->
    covers th (pos_funcs th) e_cm g ->
    positron_spectra th v e_cm
    = Ret (map (fun kv => (fst kv, vmap (channel_spec th e_cm g (fst kv) (snd kv)) v))
               (sigma_funcs th)
           ++ [("total", vmap (total_spec th e_cm g) v)]).
Proof. exact ann_positron_spectra_weighted. Qed.
Print Assumptions annihilation_positron_spectra_are_weighted.

Definition demo_g (fs : string) (e q : R) : R :=
  if String.eqb fs "e e" then e else if String.eqb fs "mu mu" then e * q else 0.

Example demo_covers : well_formed demo_ann /\ covers demo_ann (cont_funcs demo_ann) 5 demo_g.
Proof.
  split.
  - split; [apply demo_nodup|]. split; [apply demo_nototal|]. simpl. discriminate.
  - intros fs s [H|[H|[H|[]]]] P; inversion H; subst; simpl in *.
    + eexists. split; [reflexivity|]. intros q. split; intros; reflexivity.
    + eexists. split; [reflexivity|]. intros q. split; intros; reflexivity.
    + lra.
Qed.

(** The weighted sum in the demo at e_cm = 5: (1/4) e + (3/4) 5 e = 4 e. *)
Example demo_total : forall e, total_spectrum demo_ann (VF e) 5 = Ret (VA [4 * e]).
Proof.
  intros e. destruct demo_covers as [W C].
  rewrite (annihilation_total_spectrum_is_weighted_sum demo_ann 5 demo_g (VF e) W (demo_nonneg 5) C).
  simpl. f_equal. f_equal. f_equal.
  unfold total_spec, channel_spec, sigmas_at, share, demo_g. simpl.
  destruct (Rlt_dec 2 5); [|lra].
  destruct (Req_EM_T (1 + (3 + (0 + 0))) 0); [lra|]. lra.
Qed.

(** C03.  A theory that lists a continuum function only for the channels that
    have one raises as soon as one of the other channels is open. *)
Theorem missing_continuum_raises :
  forall th e_cm v fs s,
    NoDup (dkeys (sigma_funcs th)) -> ~ In "total" (dkeys (sigma_funcs th)) ->
    (forall fs s, In (fs, s) (sigma_funcs th) -> 0 <= s e_cm) ->
    In (fs, s) (sigma_funcs th) -> 0 < s e_cm -> dget (cont_funcs th) fs = None ->
    exists e, spectra th v e_cm = Raise e.
Proof. exact ann_missing_raises. Qed.
Print Assumptions missing_continuum_raises.

(** The documented contract fails: a pure line channel next to an electron
    channel with a continuum. *)
Definition demo_line : theory_ann := {|
  sigma_funcs := [("e e", fun _ => 1); ("g g", fun _ => 1)];
  cont_funcs := [("e e", fun v _ => Ret (vmap (fun e => e) v))];
  line_energies := fun q => [("g g", q / 2)];
  pos_funcs := [];
  pos_line_energies := fun q => [("e e", q / 2)]
|}.

Theorem missing_continuum_refuted :
  exists th e_cm l,
    well_formed th /\
    (forall fs s, In (fs, s) (sigma_funcs th) -> 0 <= s e_cm) /\
    (exists e, dget (line_energies th e_cm) "g g" = Some e) /\
    total_spectrum th (VA l) e_cm = Raise (KeyError "g g").
Proof.
  exists demo_line, 10, [1].
  split; [split; [|split]|split; [|split]].
  - repeat constructor; simpl; intuition discriminate.
  - simpl. intuition discriminate.
  - discriminate.
  - simpl. intros fs s [H|[H|[]]]; inversion H; subst; lra.
  - eexists. reflexivity.
  - unfold total_spectrum, spectra. rewrite ann_bfs_spec by (simpl; intuition discriminate).
    simpl. unfold sigmas_at, share. simpl.
    unfold make_dnde_wrapped. simpl.
    destruct (Req_EM_T (1 + (1 + 0)) 0); [lra|].
    destruct (Req_EM_T (1 / (1 + (1 + 0))) 0); [lra|].
    destruct (Rlt_dec 0 1); [|lra]. reflexivity.
Qed.
Print Assumptions missing_continuum_refuted.

(** C05.  Widths, branching fractions and photon spectra of a decaying theory. *)
Theorem decay_fractions_are_probabilities :
  forall th,
    d_well_formed th ->
    (forall w, In w (dvals (d_widths th)) -> 0 <= w) ->
    dget (decay_widths th) "total" = Some (Rsum (dvals (d_widths th))) /\
    (forall fs w, In (fs, w) (d_widths th) -> dget (decay_widths th) fs = Some w) /\
    exists bfs,
      decay_branching_fractions th = Ret bfs /\
      dkeys bfs = dkeys (d_widths th) /\
      (forall b, In b (dvals bfs) -> 0 <= b <= 1) /\
      (Rsum (dvals (d_widths th)) <> 0 ->
         Rsum (dvals bfs) = 1 /\
         forall fs w, In (fs, w) (d_widths th) ->
           exists b, dget bfs fs = Some b /\ b * Rsum (dvals (d_widths th)) = w) /\
      (Rsum (dvals (d_widths th)) = 0 -> forall b, In b (dvals bfs) -> b = 0).
Proof. exact dec_fractions. Qed.
Print Assumptions decay_fractions_are_probabilities.

Theorem decay_spectra_are_weighted :
  forall th g v,
    d_well_formed th -> d_cont_funcs th <> [] ->
    (forall w, In w (dvals (d_widths th)) -> 0 <= w) ->
    d_covers th (d_cont_funcs th) g ->
    d_spectra th v
    = Ret (map (fun kv => (fst kv, vmap (d_channel_spec th g (fst kv)) v)) (d_cont_funcs th)
           ++ [("total", vmap (d_total_spec th (d_cont_funcs th) g) v)]).
Proof. exact dec_spectra_weighted. Qed.
Print Assumptions decay_spectra_are_weighted.

(** Two channels with different positron spectra. *)
Definition demo_dec : theory_dec := {|
  d_widths := [("a", 1); ("b", 3); ("c", 0)];
  d_cont_funcs := [("a", fun v => Ret (vmap (fun e => e) v)); ("c", fun _ => Raise ValueError);
                   ("b", fun v => Ret (vmap (fun e => 2 * e) v))];
  d_line_energies := [("a", 7)];
  d_pos_funcs := [("a", fun v => Ret (vmap (fun e => e) v));
                  ("b", fun v => Ret (vmap (fun e => 2 * e) v))];
  d_pos_line_energies := []
|}.
Definition demo_dg (fs : string) (e : R) : R :=
  if String.eqb fs "a" then e else 2 * e.

Lemma demo_dec_wf : d_well_formed demo_dec.
Proof.
  split.
  - repeat constructor; simpl; intuition discriminate.
  - simpl. intuition discriminate.
Qed.

Example demo_dec_hypotheses :
  d_well_formed demo_dec /\ d_cont_funcs demo_dec <> [] /\
  (forall w, In w (dvals (d_widths demo_dec)) -> 0 <= w) /\
  d_covers demo_dec (d_cont_funcs demo_dec) demo_dg /\
  Rsum (dvals (d_widths demo_dec)) <> 0.
Proof.
  split; [apply demo_dec_wf|]. split; [discriminate|]. split; [|split].
  - simpl. intros w [<-|[<-|[<-|[]]]]; lra.
  - intros fs f [H|[H|[H|[]]]]; inversion H; subst; simpl; split; auto; unfold width_of; simpl;
      intros P; try lra; split; intros; reflexivity.
  - simpl. lra.
Qed.

(** C04.  Every function returned by [positron_spectrum_funcs] of a decaying
    theory is the function of the LAST final state. *)
Theorem decay_positron_functions_are_all_the_last :
  forall th k f fs dnde,
    NoDup (dkeys (d_pos_funcs th)) ->
    In (k, f) (d_pos_funcs th) ->
    last (d_pos_funcs th) ("", fun _ => Raise RuntimeError) = (fs, dnde) ->
    exists h, dget (d_positron_spectrum_funcs th) k = Some h /\
      forall v, h v = (let* w := dindex (decay_widths th) fs in
                       if Rlt_dec 0 w then dnde v else Ret (zeros_like v)).
Proof. exact dec_positron_all_last. Qed.
Print Assumptions decay_positron_functions_are_all_the_last.

(** C04, the documented claim, fails. *)
Theorem decay_positron_functions_refuted :
  exists th fs f h,
    d_well_formed th /\
    (forall w, In w (dvals (d_widths th)) -> 0 <= w) /\
    d_covers th (d_pos_funcs th) demo_dg /\
    In (fs, f) (d_pos_funcs th) /\ 0 < width_of th fs /\
    dget (d_positron_spectrum_funcs th) fs = Some h /\
    f (VF 1) = Ret (VF 1) /\ h (VF 1) <> Ret (VF 1).
Proof.
  exists demo_dec, "a". eexists. eexists.
  split; [apply demo_dec_wf|]. split; [|split; [|split; [|split; [|split; [|split]]]]].
  - simpl. intros w [<-|[<-|[<-|[]]]]; lra.
  - intros fs f [H|[H|[]]]; inversion H; subst; simpl; split; auto; unfold width_of; simpl;
      intros P; split; intros; reflexivity.
  - simpl. left. reflexivity.
  - unfold width_of. simpl. lra.
  - reflexivity.
  - reflexivity.
  - simpl. destruct (Rlt_dec 0 3); [|lra]. simpl. intros H. inversion H. lra.
Qed.
Print Assumptions decay_positron_functions_refuted.

(** C04, consequence: the total positron spectrum of a decaying theory is the
    last channel's spectrum times the summed branching fractions. *)
Theorem decay_positron_total_is_last_spectrum :
  forall th g fs f v,
    d_well_formed th -> NoDup (dkeys (d_pos_funcs th)) -> d_pos_funcs th <> [] ->
    last (d_pos_funcs th) ("", fun _ => Raise RuntimeError) = (fs, f) ->
    (forall k h, In (k, h) (d_pos_funcs th) -> In k (dkeys (d_widths th))) ->
    0 < width_of th fs -> elementwise1 f g ->
    d_total_positron_spectrum th (VA v)
    = Ret (VA (map (fun e =>
         Rsum (map (fun k => share (width_of th k) (Rsum (dvals (d_widths th))))
                   (dkeys (d_pos_funcs th))) * g e) v)).
Proof. exact dec_positron_total_is_last. Qed.
Print Assumptions decay_positron_total_is_last_spectrum.

(** In the demo the total is 2 e instead of (1/4) e + (3/4) 2 e. *)
Example demo_positron_total : d_total_positron_spectrum demo_dec (VA [4]) = Ret (VA [8]).
Proof.
  rewrite (decay_positron_total_is_last_spectrum demo_dec (fun e => 2 * e) "b"
             (fun v => Ret (vmap (fun e => 2 * e) v))).
  - simpl. unfold width_of, share. simpl.
    destruct (Req_EM_T (1 + (3 + (0 + 0))) 0); [lra|]. f_equal. f_equal. f_equal. lra.
  - apply demo_dec_wf.
  - repeat constructor; simpl; intuition discriminate.
  - discriminate.
  - reflexivity.
  - simpl. intros k h [H|[H|[]]]; inversion H; subst; auto.
  - unfold width_of. simpl. lra.
  - split; intros; reflexivity.
Qed.

(** C04, what does hold (the full statement is for any number of channels; what
    is missing is every theory with two or more): with one channel the positron
    spectra are right. *)
Theorem decay_positron_spectra_single_channel_partial :
  forall th g fs f v,
    d_well_formed th -> d_pos_funcs th = [(fs, f)] ->
    (forall w, In w (dvals (d_widths th)) -> 0 <= w) ->
    d_covers th (d_pos_funcs th) g ->
    d_positron_spectra th v
    = Ret [(fs, vmap (d_channel_spec th g fs) v); ("total", vmap (d_channel_spec th g fs) v)].
Proof. exact dec_positron_single. Qed.
Print Assumptions decay_positron_spectra_single_channel_partial.

Definition demo_dec1 : theory_dec := {|
  d_widths := [("a", 1); ("b", 3)]; d_cont_funcs := []; d_line_energies := [];
  d_pos_funcs := [("a", fun v => Ret (vmap (fun e => e) v))]; d_pos_line_energies := [] |}.
Example demo_dec1_hypotheses :
  d_well_formed demo_dec1 /\ (forall w, In w (dvals (d_widths demo_dec1)) -> 0 <= w) /\
  d_covers demo_dec1 (d_pos_funcs demo_dec1) demo_dg.
Proof.
  split; [split|split].
  - repeat constructor; simpl; intuition discriminate.
  - simpl. intuition discriminate.
  - simpl. intros w [<-|[<-|[]]]; lra.
  - intros fs f [H|[]]; inversion H; subst; simpl; split; auto; intros P; split; intros; reflexivity.
Qed.

(** C01/C05, lines: the branching fraction attached to a line is that of its own
    final state, and a line whose final state is unknown raises. *)
Theorem lines_carry_their_branching_fraction :
  forall bfs energies,
    (forall fs, In fs (dkeys energies) -> In fs (dkeys bfs)) ->
    exists lines, lines_of bfs energies = Ret lines /\
      dkeys lines = dkeys energies /\
      (NoDup (dkeys energies) -> forall fs e, In (fs, e) energies ->
         exists b, dget bfs fs = Some b /\ dget lines fs = Some (e, b)).
Proof. exact lines_spec. Qed.
Print Assumptions lines_carry_their_branching_fraction.

Theorem line_without_final_state_raises :
  forall bfs energies fs e,
    In (fs, e) energies -> dget bfs fs = None -> exists x, lines_of bfs energies = Raise x.
Proof. exact lines_missing. Qed.
Print Assumptions line_without_final_state_raises.

Example demo_lines : lines_of [("g g", 1 / 4); ("e e", 3 / 4)] [("e e", 7)] = Ret [("e e", (7, 3 / 4))]
  /\ lines_of [("g g", 1)] [("nu g", 7)] = Raise (KeyError "nu g").
Proof. split; reflexivity. Qed.
