(** Property theorems for single-channel models and PBHs (C11, C67, C68). *)
From Coq Require Import String Ascii Bool Reals Lra Lia List.
From Verif Require Import PyBase PyBaseFacts LimitsModel LimitsProofs SingleModel SingleProofs.
Import ListNotations.
Local Open Scope string_scope.
Local Open Scope list_scope.
Local Open Scope R_scope.

(** C11, annihilating half.  After any sequence of assignments of known channels, masses and cross
sections the object is the freshly constructed one with the last assigned values. *)

Theorem single_channel_ann_history sm mx fs s o ops :
  ann_new sm mx fs s = Ret o -> Forall (ann_op_ok sm) ops ->
  ann_new sm (last_mx mx ops) (last_fs fs ops) (last_sigma s ops) = Ret (ann_run sm o ops).
Proof. exact (ann_history sm mx fs s o ops). Qed.
Print Assumptions single_channel_ann_history.

Example ex_ann_history :
  exists o, ann_new small_sm 200 "mu mu" 1 = Ret o
    /\ Forall (ann_op_ok small_sm) [AnnSetFs "e e"; AnnSetMx 300].
Proof.
  eexists; split; [reflexivity|]. constructor; [|constructor; [exact I|constructor]].
  intros s Hs. simpl in Hs. destruct Hs as [<-|[<-|[]]]; simpl; eauto.
Qed.

(** C11.  An assignment that raises KeyError has already changed the reported final state. *)

Theorem single_channel_ann_failed_assignment :
  exists sm o op, ann_fresh sm o /\ (exists k, snd (ann_step sm o op) = Raise (KeyError k))
    /\ ann_list (fst (ann_step sm o op)) <> ann_list o.
Proof. exact ann_failed_assignment. Qed.
Print Assumptions single_channel_ann_failed_assignment.

(** C11, decaying half, is false: after assigning fs the reported final-state mass is the old one's. *)

Theorem single_channel_dec_history_refuted :
  exists sm o fs, dec_fresh sm o /\ known sm fs
    /\ dec_list (dec_step o (DecSetFs fs)) = [fs]
    /\ (forall o', dec_new sm (d_mx o) fs (d_width o) = Ret o' ->
          dec_fs_mass sm (dec_step o (DecSetFs fs)) <> dec_fs_mass sm o').
Proof. exact dec_fs_setter_stale. Qed.
Print Assumptions single_channel_dec_history_refuted.

(** C11, decaying half, as long as the channel is not changed.  Missing: changing fs, where it is
false. *)

Theorem single_channel_dec_history_partial sm o ops :
  dec_fresh sm o -> Forall (dec_op_ok o) ops -> dec_fresh sm (dec_run o ops) /\ d_fs (dec_run o ops) = d_fs o.
Proof. exact (dec_history_same_channel sm o ops). Qed.
Print Assumptions single_channel_dec_history_partial.

Example ex_dec_history :
  dec_fresh small_sm {| d_mx := 200; d_fs := "mu mu"; d_width := 1; d_states := ["mu"; "mu"]; d_masses := [105; 105] |}.
Proof. reflexivity. Qed.

(** C67 is false: the two-photon model reports a dictionary instead of an energy. *)
Theorem single_channel_lines_refuted :
  exists sm o Q d, ann_new sm 200 "g g" 1 = Ret o
    /\ gamma_line_energies (a_fs o) (a_states o) (a_masses o) Q = Ret d
    /\ dget d "g g" <> None /\ forall k l, In (k, l) d -> ~ is_number l.
Proof.
  exact (match photon_pair_line small_sm 200 1 400 eq_refl with
         | ex_intro _ o (conj Ho Hd) =>
           ex_intro _ small_sm (ex_intro _ o (ex_intro _ 400 (ex_intro _ _
             (conj Ho (conj Hd (conj (fun H => eq_ind (Some _) (fun x => match x with Some _ => True | None => False end) I _ H)
                (fun k l => gamma_lines_never_numbers _ _ _ _ _ k l Hd)))))))
         end).
Qed.
Print Assumptions single_channel_lines_refuted.

(** C67.  No gamma-ray line of any single-channel model is a number. *)

Theorem single_channel_gamma_lines_never_numbers fs states masses Q d k l :
  gamma_line_energies fs states masses Q = Ret d -> In (k, l) d -> ~ is_number l.
Proof. exact (gamma_lines_never_numbers fs states masses Q d k l). Qed.
Print Assumptions single_channel_gamma_lines_never_numbers.

(** C67.  No positron line of any single-channel model is a number. *)

Theorem single_channel_positron_lines_never_numbers fs states masses Q d k l :
  positron_line_energies fs states masses Q = Ret d -> In (k, l) d -> ~ is_number l.
Proof. exact (positron_lines_never_numbers fs states masses Q d k l). Qed.
Print Assumptions single_channel_positron_lines_never_numbers.

(** C67.  The line sum of the CMB efficiency raises TypeError on such a line. *)

Theorem single_channel_cmb_raises f e_cm e_min bf d :
  line_sum_py "g g" e_cm e_min f [("g g", (PyDict d, bf))] 0 = Raise TypeError.
Proof. exact (photon_pair_cmb_raises f e_cm e_min bf d). Qed.
Print Assumptions single_channel_cmb_raises.

(** C67, what holds: the number inside the nested dictionary is the two-body energy of the photon. *)

Theorem single_channel_inner_energy_partial fs s1 s2 m1 m2 Q d k inner :
  0 < Q -> 0 <= m1 -> 0 <= m2 -> m1 + m2 <= Q ->
  gamma_line_energies fs [s1; s2] [m1; m2] Q = Ret d -> In (k, PyDict inner) d ->
  exists name E, inner = [(name, E)] /\ k = fs
    /\ ((s1 = "g" /\ two_body_energy Q m1 m2 E) \/ (s2 = "g" /\ two_body_energy Q m2 m1 E)).
Proof. exact (gamma_line_inner_energy fs s1 s2 m1 m2 Q d k inner). Qed.
Print Assumptions single_channel_inner_energy_partial.

(** C67, what holds: a two-body channel with a positron (photon) has exactly one entry, whose inner
    number is the two-body energy; other channels have none. *)

Theorem single_channel_positron_energy_partial fs s1 s2 m1 m2 Q :
  0 < Q -> 0 <= m1 -> 0 <= m2 -> m1 + m2 <= Q ->
  exists d, positron_line_energies fs [s1; s2] [m1; m2] Q = Ret d
    /\ (s1 = "e" -> exists E, d = [(fs, PyDict [(fs, E)])] /\ two_body_energy Q m1 m2 E)
    /\ (s1 <> "e" -> s2 = "e" -> exists E, d = [(fs, PyDict [(fs, E)])] /\ two_body_energy Q m2 m1 E)
    /\ (s1 <> "e" -> s2 <> "e" -> d = []).
Proof. exact (positron_line_inner_energy fs s1 s2 m1 m2 Q). Qed.
Print Assumptions single_channel_positron_energy_partial.

Theorem single_channel_gamma_energy_partial fs s1 s2 m1 m2 Q :
  0 < Q -> 0 <= m1 -> 0 <= m2 -> m1 + m2 <= Q ->
  exists d, gamma_line_energies fs [s1; s2] [m1; m2] Q = Ret d
    /\ (s1 = "g" -> exists name E, d = [(fs, PyDict [(name, E)])] /\ two_body_energy Q m1 m2 E)
    /\ (s1 <> "g" -> s2 = "g" -> exists name E, d = [(fs, PyDict [(name, E)])] /\ two_body_energy Q m2 m1 E)
    /\ (s1 <> "g" -> s2 <> "g" -> d = []).
Proof. exact (gamma_line_all fs s1 s2 m1 m2 Q). Qed.
Print Assumptions single_channel_gamma_energy_partial.

Example ex_positron : 0 < 1000 /\ 0 <= 135 /\ 0 <= 1 / 2 /\ 135 + 1 / 2 <= 1000.
Proof. lra. Qed.

(** C11.  The cross section after any history of assignments is the last assigned value above both
    thresholds and zero below either; the channel string is cut at every space. *)

Theorem single_channel_cross_section sm mx fs s o ops e :
  ann_new sm mx fs s = Ret o -> Forall (ann_op_ok sm) ops ->
  exists ms, Forall2 (fun name m => dget sm name = Some m) (split_space (last_fs fs ops)) ms
    /\ (2 * last_mx mx ops <= e -> fold_right Rplus 0 ms <= e -> ann_xsec sm (ann_run sm o ops) e = Ret (last_sigma s ops))
    /\ (e < 2 * last_mx mx ops \/ e < fold_right Rplus 0 ms -> ann_xsec sm (ann_run sm o ops) e = Ret 0).
Proof. exact (ann_xsec_history sm mx fs s o ops e). Qed.
Print Assumptions single_channel_cross_section.

Theorem channel_split s :
  split_space s <> [] /\ joined (split_space s) = s /\ Forall spaceless (split_space s)
  /\ forall l, l <> [] -> Forall spaceless l -> joined l = s -> l = split_space s.
Proof.
  destruct (split_aux_spec s "" I) as (A & B & C). repeat split; try assumption.
  intros l Hl Hf Hj. apply joined_inj; try assumption. rewrite Hj. symmetry. exact B.
Qed.
Print Assumptions channel_split.

Example ex_split : split_space "pi0 g" = ["pi0"; "g"] /\ split_space "e  e" = ["e"; ""; "e"].
Proof. split; reflexivity. Qed.

Example ex_inner : exists d inner, gamma_line_energies "pi0 g" ["pi0"; "g"] [135; 0] 1000 = Ret d
  /\ In ("pi0 g", PyDict inner) d.
Proof. do 2 eexists. split; [reflexivity|]. left; reflexivity. Qed.

(** C68 for assignments of tabulated masses.  Missing: assignments that raise, where it is false. *)

Theorem pbh_mass_and_spectrum_partial mxs mx o vals :
  pbh_new mxs mx = Ret o -> Forall (fun v => In v mxs) vals -> pbh_coherent mxs (pbh_run mxs o vals).
Proof. exact (pbh_history mxs mx o vals). Qed.
Print Assumptions pbh_mass_and_spectrum_partial.

Example ex_pbh : exists o, pbh_new [1; 2; 3] 2 = Ret o /\ Forall (fun v => In v [1; 2; 3]) [3; 1].
Proof.
  unfold pbh_new, pbh_set; simpl. destruct (Req_EM_T 1 2); [lra|]. destruct (Req_EM_T 2 2); [|lra].
  eexists; split; [reflexivity|]. apply Forall_forall; simpl; intros x [<-|[<-|[]]]; auto.
Qed.

(** C68 is false: an assignment that raises IndexError leaves the new mass with the old spectrum. *)

Theorem pbh_mass_and_spectrum_refuted :
  exists mxs o v, pbh_coherent mxs o /\ snd (pbh_set mxs o v) = Raise IndexError
    /\ ~ pbh_coherent mxs (fst (pbh_set mxs o v)).
Proof. exact pbh_failed_assignment. Qed.
Print Assumptions pbh_mass_and_spectrum_refuted.
