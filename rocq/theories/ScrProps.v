(** The scripts of [scripts/agents]. *)

Require Import Arith Bool String Ascii Lia List.
Require Import Verif.ScrModel Verif.ScrProofs Verif.ScrPhProofs.
Import ListNotations.
Local Open Scope nat_scope.

(** The letters and digits of ASCII. *)
Definition ascii_alnum (c : nat) : bool := is_letter c || is_digit c.

(* ------------------------------------------------------------------ *)
(** * C157: titles *)

(** A title without line feed passes exactly when it follows the rules. *)
Theorem title_check_exact : forall alnum h, ~ In 10 h ->
  (check alnum h = [] <-> good_title alnum h).
Proof. exact check_iff. Qed.
Print Assumptions title_check_exact.

Example title_check_exact_ok :
  good_title ascii_alnum (codes "fix(spectra)!: Correct the boost") /\
  ~ good_title ascii_alnum (codes "fix(feat): Correct the boost") /\
  ~ good_title ascii_alnum (codes "fix(spectra): Correct the boost.").
Proof.
  assert (N : forall h, existsb (Nat.eqb 10) h = false -> ~ In 10 h).
  { intros h E I. rewrite <- not_true_iff_false in E. apply E. apply existsb_exists.
    exists 10. auto. }
  split; [|split].
  - apply title_check_exact; [apply N; reflexivity|]. vm_compute. reflexivity.
  - rewrite <- title_check_exact by (apply N; reflexivity). intros H. vm_compute in H. discriminate.
  - rewrite <- title_check_exact by (apply N; reflexivity). intros H. vm_compute in H. discriminate.
Qed.

Lemma good_not_empty : forall alnum, ~ good_title alnum [].
Proof.
  intros alnum [_ (ty & sc & bang & su & c & rest & E & _)].
  symmetry in E. apply app_eq_nil in E. destruct E as [_ E]. discriminate.
Qed.

(** The exit code for a title from the standard input, and for one argument. *)
Theorem title_exit_exact : forall alnum,
  (forall stdin, title_main alnum [] stdin = 0 <-> good_title alnum (read_title [] stdin)) /\
  (forall h stdin, ~ In 10 h -> (title_main alnum [h] stdin = 0 <-> good_title alnum h)).
Proof.
  intros alnum.
  assert (G : forall h, ~ In 10 h ->
    ((if eqt h [] then 2 else match check alnum h with [] => 0 | _ => 1 end) = 0 <->
     good_title alnum h)).
  { intros h N. destruct (eqt h []) eqn:E.
    - apply eqt_iff in E. subst h. split; [discriminate|]. intros H. destruct (good_not_empty _ H).
    - rewrite <- (check_iff alnum h N). destruct (check alnum h); split; intros H; auto; discriminate. }
  split.
  - intros stdin. unfold title_main. cbv zeta. apply G. apply stdin_no_newline.
  - intros h stdin N. unfold title_main. cbv zeta. cbn [read_title join_with]. apply G. exact N.
Qed.
Print Assumptions title_exit_exact.

Example title_exit_exact_ok :
  title_main ascii_alnum [] ([10; 32] ++ codes "docs(limits): Add a page" ++ [32; 13; 10; 120]) = 0 /\
  title_main ascii_alnum [codes "docs(limits): Add a page "] [] = 1.
Proof. split; vm_compute; reflexivity. Qed.

(** False with a line feed: the end anchor of the pattern of a scope lets one
    through at the end of the scope. *)
Theorem title_newline_refuted :
  exists h, title_main ascii_alnum [h] [] = 0 /\ ~ good_title ascii_alnum h.
Proof.
  exists (codes "feat(limits" ++ [10] ++ codes "): add"). split; [vm_compute; reflexivity|].
  intros [_ (ty & sc & bang & su & c & rest & E & T & NE & _ & CH & _)].
  cbn in T. repeat (destruct T as [<-|T]; [try discriminate E|]); [|contradiction].
  injection E as E.
  do 6 (destruct sc as [|? sc]; [discriminate E|injection E as <- E]).
  destruct sc as [|? sc]; [discriminate E|]. injection E as <- E.
  specialize (CH 10). assert (X : 97 <= 10 <= 122 \/ 48 <= 10 <= 57 \/ 10 = 45).
  { apply CH. do 6 right. left. reflexivity. }
  lia.
Qed.
Print Assumptions title_newline_refuted.

(* ------------------------------------------------------------------ *)
(** * C158: citations *)

(** A resolved citation is a file of the repository, and the way tells why. *)
Theorem citation_resolved : forall files overrides ef citations c p h,
  NoDup files ->
  resolve files overrides ef citations c = (Some p, h) ->
  resolved_rightly files overrides citations c p h.
Proof. exact resolve_some. Qed.
Print Assumptions citation_resolved.

(** A citation that ends exactly one file is that file. *)
Theorem citation_found : forall files overrides ef citations c p,
  NoDup files -> In p files -> ends_in c p ->
  (forall q, In q files -> ends_in c q -> q = p) ->
  fst (resolve files overrides ef citations c) = Some p.
Proof.
  intros files overrides ef citations c p D I E U. unfold resolve.
  destruct (ef c && mem c files) eqn:X.
  - apply andb_true_iff in X. destruct X as [_ M]. apply mem_iff in M. cbn.
    rewrite (U c M (or_introl eq_refl)). reflexivity.
  - rewrite (candidates_unique files c p D I E U). reflexivity.
Qed.
Print Assumptions citation_found.

(** A citation that is not resolved ends no file, or several. *)
Theorem citation_unresolved : forall files overrides ef citations c h,
  NoDup files ->
  resolve files overrides ef citations c = (None, h) ->
  (h = by_external /\ (forall p, In p files -> ~ ends_in c p)) \/
  (h = by_ambiguous /\ exists p q, In p files /\ In q files /\ p <> q /\
                                   ends_in c p /\ ends_in c q).
Proof.
  intros files overrides ef citations c h D H.
  destruct (resolve_none _ _ _ _ _ _ H) as [X|[-> (p & I & E)]]; [left; exact X|].
  right. split; [reflexivity|].
  destruct (existsb (fun q => negb (eqt q p) && ends_in_b c q) files) eqn:B.
  - apply existsb_exists in B. destruct B as (q & Q & B). apply andb_true_iff in B.
    destruct B as [B1 B2]. apply negb_true_iff in B1. apply ends_in_b_iff in B2.
    exists p, q. repeat split; auto. intros ->. rewrite eqt_refl in B1. discriminate.
  - exfalso. assert (X : fst (resolve files overrides ef citations c) = Some p).
    { apply citation_found; auto. intros q Q EQ. destruct (eqt q p) eqn:Z.
      - apply eqt_iff in Z. exact Z.
      - rewrite <- not_true_iff_false in B. exfalso. apply B. apply existsb_exists. exists q.
        split; [exact Q|]. rewrite Z. apply ends_in_b_iff in EQ. rewrite EQ. reflexivity. }
    rewrite H in X. discriminate.
Qed.
Print Assumptions citation_unresolved.

(** The check passes exactly when every document exists and every citation is
    external or resolved with all its lines in the file. *)
Theorem citations_pass_iff : forall files overrides ef lines_of docs,
  citations_main files overrides ef lines_of docs = 0 <->
  docs <> [] /\ forall d, In d docs -> doc_passes files overrides ef lines_of d.
Proof.
  intros files overrides ef lines_of docs. unfold citations_main.
  destruct docs as [|d ds].
  - split; [discriminate|]. intros [N _]. contradiction.
  - assert (Z : list_sum (map (doc_failures files overrides ef lines_of) (d :: ds)) = 0 <->
                forall e, In e (d :: ds) -> doc_passes files overrides ef lines_of e).
    { rewrite list_sum_zero. split.
      - intros H e I. apply doc_failures_zero. apply H. apply in_map. exact I.
      - intros H n I. apply in_map_iff in I. destruct I as (e & <- & I).
        apply doc_failures_zero. apply H. exact I. }
    destruct (list_sum (map (doc_failures files overrides ef lines_of) (d :: ds))) as [|n].
    + split; [|reflexivity]. intros _. split; [discriminate|]. apply Z. reflexivity.
    + split; [discriminate|]. intros [_ H]. apply Z in H. discriminate.
Qed.
Print Assumptions citations_pass_iff.

Definition some_files : list text :=
  map codes ["hazma/spectra/_photon/_muon.py"; "hazma/spectra/_positron/_muon.py";
             "hazma/rambo.py"; "rust/src/lib.rs"]%string.

Example citations_ok :
  NoDup some_files /\
  resolve some_files [] (fun _ => false) [] (codes "rambo.py") =
    (Some (codes "hazma/rambo.py"), by_suffix) /\
  resolve some_files [] (fun _ => false) [codes "_positron/_muon.py"; codes "_muon.py"]
    (codes "_muon.py") = (Some (codes "hazma/spectra/_positron/_muon.py"), by_context) /\
  resolve some_files [] (fun _ => false) [] (codes "_muon.py") = (None, by_ambiguous) /\
  resolve some_files [] (fun _ => false) [] (codes "scipy/optimize.py") = (None, by_external) /\
  citations_main some_files [] (fun _ => false) (fun _ => 40)
    [Some [(codes "rambo.py", [[1]; [12; 40]])]] = 0 /\
  citations_main some_files [] (fun _ => false) (fun _ => 40)
    [Some [(codes "rambo.py", [[1]; [12; 41]])]] = 1.
Proof.
  split.
  - repeat constructor; vm_compute; intuition discriminate.
  - vm_compute. repeat split; reflexivity.
Qed.

(** False: a resolved citation need not be the end of its file.  The map of
    overrides looks at the base name only, so that it also takes the citations
    of files of other packages. *)
Theorem citation_map_refuted :
  exists files overrides ef citations c p h,
    NoDup files /\ resolve files overrides ef citations c = (Some p, h) /\
    ~ ends_in c p /\ (forall q, In q files -> ~ ends_in c q).
Proof.
  exists some_files, [codes "hazma/spectra/_photon/_muon.py"], (fun _ => false), [],
    (codes "scipy/optimize/_muon.py"), (codes "hazma/spectra/_photon/_muon.py"), by_map.
  assert (X : forall q, In q some_files -> ~ ends_in (codes "scipy/optimize/_muon.py") q).
  { intros q Q E. apply ends_in_b_iff in E. revert q Q E.
    assert (F : forallb (fun q => negb (ends_in_b (codes "scipy/optimize/_muon.py") q)) some_files
                = true) by (vm_compute; reflexivity).
    intros q Q E. rewrite forallb_forall in F. specialize (F q Q). rewrite E in F. discriminate. }
  split; [exact (proj1 citations_ok)|]. split; [vm_compute; reflexivity|]. split; [|exact X].
  apply X. left. reflexivity.
Qed.
Print Assumptions citation_map_refuted.

(* ------------------------------------------------------------------ *)
(** * C159: the next task *)

(** The statuses by their leading word. *)
Theorem task_status_exact : forall s,
  (status_is_done s = true <-> says terminal_words s) /\
  (status_is_blocked s = true <-> says [codes "blocked"] s).
Proof. intros s. split; [apply done_says|apply blocked_says]. Qed.
Print Assumptions task_status_exact.

Example task_status_exact_ok :
  says terminal_words (codes "**Complete** (PR #537)") /\
  says [codes "blocked"] (codes " ~~`Blocked`; waits for 5.2") /\
  ~ says terminal_words (codes "In Progress") /\
  ~ says terminal_words (codes "Complete, merged").
Proof.
  split; [|split; [|split]].
  - apply (proj1 (task_status_exact _)). vm_compute. reflexivity.
  - apply (proj2 (task_status_exact _)). vm_compute. reflexivity.
  - intros H. apply (proj2 (proj1 (task_status_exact _))) in H. vm_compute in H. discriminate.
  - intros H. apply (proj2 (proj1 (task_status_exact _))) in H. vm_compute in H. discriminate.
Qed.

(** The numbers of an id are compared as numbers, then the letters. *)
Theorem task_key_written : forall nums letters,
  written_numbers nums -> forallb is_letter letters = true ->
  parse_id_key (glue 46 nums ++ letters) = (map digits_value nums, lower letters).
Proof. exact parse_written. Qed.
Print Assumptions task_key_written.

Example task_key_written_ok :
  written_numbers [codes "5"; codes "10"] /\
  glue 46 [codes "5"; codes "10"] ++ codes "B" = codes "5.10B" /\
  key_before (parse_id_key (codes "5.9b")) (parse_id_key (codes "5.10")) /\
  key_before (parse_id_key (codes "5.10")) (parse_id_key (codes "5.10a")).
Proof.
  split; [|split; [reflexivity|split]].
  - split; [discriminate|]. intros n [<-|[<-|[]]]; split; try discriminate; reflexivity.
  - left. right. exists [5], 9, 10, [], []. repeat split; lia.
  - right. split; [reflexivity|]. left. exists 97, []. reflexivity.
Qed.

(** The answer is the first task of the order that is not finished. *)
Theorem next_task_exact : forall lines tasks,
  find_tasks_table lines = Some tasks -> tasks <> [] ->
  (resolve_task lines None = all_done <->
     forall t, In t tasks -> says terminal_words (t_status t)) /\
  (forall t, resolve_task lines None = task_ready t <->
     next_task tasks t /\ ~ says [codes "blocked"] (t_status t)) /\
  (forall t, resolve_task lines None = task_blocked t <->
     next_task tasks t /\ says [codes "blocked"] (t_status t)) /\
  (forall t, resolve_task lines None <> task_done t) /\
  resolve_task lines None <> task_error.
Proof. exact next_answer. Qed.
Print Assumptions next_task_exact.

(** A task asked for by the id of a row is found, the first row with that id,
    and the state is that of its status. *)
Theorem task_by_id : forall lines tasks w,
  find_tasks_table lines = Some tasks -> normalize_id w <> [] ->
  (exists t, In t tasks /\ normalize_id (t_id t) = normalize_id w) ->
  exists l1 u l2, tasks = l1 ++ u :: l2 /\
    normalize_id (t_id u) = normalize_id w /\
    (forall t, In t l1 -> normalize_id (t_id t) <> normalize_id w) /\
    resolve_task lines (Some w) =
      (if status_is_done (t_status u) then task_done u
       else if status_is_blocked (t_status u) then task_blocked u else task_ready u).
Proof.
  intros lines tasks w F N (t & I & E).
  set (f := fun t => eqt (normalize_id (t_id t)) (normalize_id w)).
  assert (X : forall ts, In t ts -> exists l1 u l2, ts = l1 ++ u :: l2 /\ f u = true /\
            (forall t, In t l1 -> f t = false) /\ exists r, filter f ts = u :: r).
  { induction ts as [|x ts IH]; intros J; [destruct J|].
    destruct (f x) eqn:FX.
    - exists [], x, ts. split; [reflexivity|]. split; [exact FX|]. split; [intros ? []|].
      cbn [filter]. rewrite FX. eexists. reflexivity.
    - destruct J as [->|J].
      + unfold f in FX. rewrite E, eqt_refl in FX. discriminate.
      + destruct (IH J) as (l1 & u & l2 & -> & U & A & r & R1).
        exists (x :: l1), u, l2. split; [reflexivity|]. split; [exact U|]. split.
        * intros y [<-|Y]; [exact FX|apply A; exact Y].
        * exists r. cbn [filter]. rewrite FX. exact R1. }
  destruct (X tasks I) as (l1 & u & l2 & -> & U & A & r & R1).
  exists l1, u, l2. split; [reflexivity|]. split; [apply eqt_iff; exact U|]. split.
  - intros y Y Z. specialize (A y Y). unfold f in A. rewrite Z, eqt_refl in A. discriminate.
  - unfold resolve_task. rewrite F. cbv zeta.
    destruct (l1 ++ u :: l2) as [|z zs] eqn:EZ; [destruct l1; discriminate|].
    rewrite (eqt_neq _ _ N). fold f. rewrite R1. reflexivity.
Qed.
Print Assumptions task_by_id.

Definition some_tasks : list text :=
  tasks_document [codes "# Phase 5"]
    [(mk_task (codes "5.1") (codes "Probe") (codes "Complete (PR #12)") (codes "task-5.1-probe.md"),
      codes "-");
     (mk_task (codes "5.10") (codes "Sweep") (codes "Not Started") [], codes "5.9");
     (mk_task (codes "5.9") (codes "Port") (codes "In Progress") [], codes "5.1")] [].

Example next_task_exact_ok :
  exists tasks t, find_tasks_table some_tasks = Some tasks /\ tasks <> [] /\
    t_id t = codes "5.9" /\ resolve_task some_tasks None = task_ready t /\
    task_exit (resolve_task some_tasks None) = 0 /\
    (exists u, resolve_task some_tasks (Some (codes "Task 5.1.")) = task_done u) /\
    (exists u, resolve_task some_tasks (Some (codes "**5.10**")) = task_ready u).
Proof.
  exists [mk_task (codes "5.1") (codes "Probe") (codes "Complete (PR #12)") (codes "task-5.1-probe.md");
          mk_task (codes "5.10") (codes "Sweep") (codes "Not Started") [];
          mk_task (codes "5.9") (codes "Port") (codes "In Progress") []],
         (mk_task (codes "5.9") (codes "Port") (codes "In Progress") []).
  split; [vm_compute; reflexivity|]. split; [discriminate|]. split; [reflexivity|].
  split; [vm_compute; reflexivity|]. split; [vm_compute; reflexivity|].
  split; eexists; vm_compute; reflexivity.
Qed.

(* ------------------------------------------------------------------ *)
(** * C160: the table of tasks *)

(** A table of plain cells is read back. *)
Theorem task_table_round_trip : forall before rows following,
  (forall l, In l before -> tasks_heading l = false) ->
  (forall td, In td rows -> writable td) ->
  find_tasks_table (tasks_document before rows following) = Some (map fst rows).
Proof. exact table_written. Qed.
Print Assumptions task_table_round_trip.

Example task_table_round_trip_ok :
  tasks_heading (codes "# Phase 5") = false /\
  writable (mk_task (codes "5.9") (codes "Port the muon") (codes "In Progress (PR #3)") [],
            codes "5.1").
Proof.
  split; [reflexivity|].
  assert (P : forall t, strip t = t -> existsb (Nat.eqb 124) t = false -> plain_cell t).
  { intros t E N. split.
    - destruct (strip_spec t) as (a & b & _ & _ & _ & T). rewrite E in T. exact T.
    - intros I. rewrite <- not_true_iff_false in N. apply N. apply existsb_exists.
      exists 124. auto. }
  cbn [writable t_id t_title t_status t_note].
  repeat (split; [first [apply P; vm_compute; reflexivity | exists 53; split; [left; reflexivity|reflexivity]]|]).
  split; reflexivity.
Qed.

Definition plain_header : list text :=
  [codes "## Tasks"; []; codes "| # | Task | Status | Task Note |"; codes "| --- | --- | --- | --- |"].

(** False for other cells that Markdown allows.  A bar escaped by a backslash
    shifts the cells, so that the status is read from the title. *)
Theorem escaped_bar_refuted :
  exists lines t,
    lines = plain_header ++ [codes "| 5.1 | Port a \| b | Complete | - |"] /\
    resolve_task lines None = task_ready t /\ t_status t = codes "b".
Proof. eexists. eexists. split; [reflexivity|]. split; vm_compute; reflexivity. Qed.
Print Assumptions escaped_bar_refuted.

(** False: the name of a note that is written as a link, the form of the tables
    of [projects/cython-to-rust], is not taken. *)
Theorem link_note_refuted :
  exists lines t u,
    lines = plain_header ++
      [codes "| 5.3 | Thermal v validation sweep | Not Started | [task-5.3-thermal-sweep.md](task-5.3-thermal-sweep.md) |"] /\
    resolve_task lines None = task_ready t /\
    t_slug t = codes "task-5.3-thermal-v-validation-sweep" /\
    resolve_task (plain_header ++
      [codes "| 5.3 | Thermal v validation sweep | Not Started | `task-5.3-thermal-sweep.md` |"]) None
      = task_ready u /\
    t_slug u = codes "task-5.3-thermal-sweep".
Proof.
  eexists. eexists. eexists. split; [reflexivity|]. split; [vm_compute; reflexivity|].
  split; [vm_compute; reflexivity|]. split; vm_compute; reflexivity.
Qed.
Print Assumptions link_note_refuted.

(** False: prose does not end the table, and the heading of the next section
    right after the heading of the tasks does not end the search. *)
Theorem table_end_refuted :
  (exists t, resolve_task (plain_header ++
      [codes "| 5.1 | Port | Complete | - |"; codes "Files of the phase:";
       codes "| 7 | hazma/rambo.py | read | - |"]) None = task_ready t /\
     t_title t = codes "hazma/rambo.py") /\
  (exists t, resolve_task
      [codes "## Tasks"; codes "## Files"; codes "| # | Task | Status |"; codes "| 7 | old | read |"]
      None = task_ready t /\ t_title t = codes "old") /\
  resolve_task
      [codes "## Tasks"; []; codes "## Files"; codes "| # | Task | Status |"; codes "| 7 | old | read |"]
      None = task_error.
Proof.
  split; [eexists; split; vm_compute; reflexivity|].
  split; [eexists; split; vm_compute; reflexivity|vm_compute; reflexivity].
Qed.
Print Assumptions table_end_refuted.

(* ------------------------------------------------------------------ *)
(** * C161: ids of phases *)

(** The accepted forms and what they mean: numbers lose their zeros, the letter
    becomes a capital. *)
Theorem phase_id_forms : forall p ds,
  phase_prefix p -> ds <> [] -> forallb is_digit ds = true ->
  exists m, number_text m /\ digits_value m = digits_value ds /\
    normalize_phase_id (p ++ ds) = Some m /\
    (forall ms, ms <> [] -> forallb is_digit ms = true ->
       exists n, number_text n /\ digits_value n = digits_value ms /\
         normalize_phase_id (p ++ ds ++ codes "." ++ ms) = Some (m ++ codes "." ++ n)) /\
    (forall c, 97 <= c <= 122 ->
       normalize_phase_id (p ++ ds ++ [c]) = Some (m ++ [c - 32]) /\
       normalize_phase_id (p ++ ds ++ [c - 32]) = Some (m ++ [c - 32])).
Proof.
  intros p ds P N F. destruct (int_text_spec ds N F) as [M V].
  exists (int_text ds). split; [exact M|]. split; [exact V|].
  split; [apply normalize_major; assumption|]. split.
  - intros ms N2 F2. destruct (int_text_spec ms N2 F2) as [M2 V2]. exists (int_text ms).
    split; [exact M2|]. split; [exact V2|]. apply (normalize_minor p ds ms P N F N2 F2).
  - intros c C. split.
    + rewrite (normalize_letter p ds c P N F).
      * unfold upper_char. rewrite (proj2 (lower_between c) C). reflexivity.
      * unfold is_letter. rewrite (proj2 (lower_between c) C). apply orb_true_r.
    + rewrite (normalize_letter p ds (c - 32) P N F).
      * unfold upper_char. rewrite lower_false by lia. reflexivity.
      * unfold is_letter. replace (is_upper (c - 32)) with true; [reflexivity|].
        symmetry. apply upper_between. lia.
Qed.
Print Assumptions phase_id_forms.

(** Every id is canonical and stays the same when it is normalised again. *)
Theorem phase_id_canonical : forall v w, normalize_phase_id v = Some w ->
  canonical w /\ normalize_phase_id w = Some w.
Proof.
  intros v w H. apply normalize_canonical in H. split; [exact H|]. apply normalize_fixed. exact H.
Qed.
Print Assumptions phase_id_canonical.

(** The order of ids is total, transitive, and ties are equal ids. *)
Theorem phase_order : forall a b c, canonical a -> canonical b ->
  (leb_phase a b = true \/ leb_phase b a = true) /\
  (leb_phase a b = true -> leb_phase b c = true -> leb_phase a c = true) /\
  (leb_phase a b = true -> leb_phase b a = true -> a = b).
Proof.
  intros a b c A B. split; [apply leb_phase_total|]. split; [apply leb_phase_trans|].
  apply leb_phase_antisym; assumption.
Qed.
Print Assumptions phase_order.

(** A plain number comes before its decimals and these before its letters, and
    numbers are compared as numbers. *)
Theorem phase_order_numbers : forall m n, number_text m -> number_text n ->
  (leb_phase m n = true <-> digits_value m <= digits_value n) /\
  (forall k l, number_text k -> number_text l ->
     (leb_phase (m ++ codes "." ++ k) (n ++ codes "." ++ l) = true <->
      digits_value m < digits_value n \/
      digits_value m = digits_value n /\ digits_value k <= digits_value l)) /\
  (forall k c, number_text k -> 65 <= c <= 90 ->
     leb_phase (m ++ codes "." ++ k) m = false /\
     leb_phase (m ++ [c]) (m ++ codes "." ++ k) = false).
Proof.
  intros m n M N. unfold leb_phase. split; [|split].
  - rewrite !key_major by assumption. cbn [app leb_list].
    rewrite orb_true_iff, andb_true_iff, Nat.ltb_lt, Nat.eqb_eq. cbn. split; [lia|].
    intros H. destruct (Nat.eq_dec (digits_value m) (digits_value n)); [right; auto|left; lia].
  - intros k l K L. rewrite !key_minor by assumption. cbn [app leb_list].
    change (1 <? 1) with false. change (1 =? 1) with true. cbn [orb andb].
    destruct (Nat.ltb_spec (digits_value m) (digits_value n));
      destruct (Nat.eqb_spec (digits_value m) (digits_value n));
      destruct (Nat.ltb_spec (digits_value k) (digits_value l));
      destruct (Nat.eqb_spec (digits_value k) (digits_value l));
      cbn [orb andb]; split; intros; try reflexivity; try discriminate; lia.
  - intros k c K C. rewrite key_minor, key_major, key_letter by assumption.
    cbn [app leb_list]. rewrite Nat.ltb_irrefl, Nat.eqb_refl. cbn. auto.
Qed.
Print Assumptions phase_order_numbers.

(** The id of the name of a file is the normalised one. *)
Theorem phase_prefix_agrees : forall p i,
  phase_id_from_prefix p = Some i -> normalize_phase_id p = Some i.
Proof. exact prefix_normalized. Qed.
Print Assumptions phase_prefix_agrees.

Example phase_ids_ok :
  phase_prefix (codes "Phase ") /\ number_text (codes "10") /\ ~ number_text (codes "08") /\
  normalize_phase_id (codes "  Phase 08a ") = Some (codes "8A") /\
  normalize_phase_id (codes "phase-03_1") = Some (codes "3.1") /\
  normalize_phase_id (codes "phase three") = None /\
  phase_id_from_prefix (codes "03_1") = Some (codes "3.1") /\
  leb_phase (codes "9") (codes "10") = true /\ leb_phase (codes "10") (codes "9") = false.
Proof.
  split; [right; right; right; left; reflexivity|].
  split; [split; [reflexivity|]; exists 49, [48]; split; [reflexivity|discriminate]|].
  split.
  - intros (_ & c & r & E & Z). injection E as <- <-. specialize (Z eq_refl). discriminate.
  - vm_compute. repeat split; reflexivity.
Qed.

(** False: the id in the frontmatter wins although it is not consistent with
    the name, and of two files with the same id one is lost without a word. *)
Theorem phase_frontmatter_refuted :
  (exists f i j, phase_id_from_prefix (f_prefix f) = Some i /\ file_id f = Some j /\ i <> j) /\
  (exists f g i, f_prefix f <> f_prefix g /\ file_id f = Some i /\ file_id g = Some i /\
     f_status f <> f_status g /\ map p_status (load_phases [f; g]) = [f_status g]).
Proof.
  split.
  - exists (mk_file (codes "03") (Some (codes "4")) None [] 0), (codes "3"), (codes "4").
    repeat split; try (vm_compute; reflexivity). discriminate.
  - exists (mk_file (codes "03") None (Some (codes "In Progress")) [] 0),
      (mk_file (codes "3") None (Some (codes "Complete")) [] 1), (codes "3").
    repeat split; try (vm_compute; reflexivity); discriminate.
Qed.
Print Assumptions phase_frontmatter_refuted.

(* ------------------------------------------------------------------ *)
(** * C162: prerequisites *)

(** The prose is resolvable exactly when each mention of a phase says that it
    is complete, and the prerequisites are the phases so named. *)
Theorem prerequisites_exact : forall a t b ids ok,
  forallb is_space a = true -> forallb is_space b = true -> trimmed t ->
  extract_prereqs (a ++ t ++ b) = (ids, ok) ->
  (ok = true <-> forall pre s, t = pre ++ s -> mention_at s -> exists i, stated_complete s i) /\
  (forall j, In j ids <-> exists pre s i, t = pre ++ s /\ stated_complete s i /\
                            normalize_phase_id i = Some j) /\
  NoDup ids.
Proof. exact prereqs_read. Qed.
Print Assumptions prerequisites_exact.

Example prerequisites_exact_ok :
  extract_prereqs (codes " Phase 04 is complete, phase 3.1  COMPLETE; Phase 4 complete. ") =
    ([codes "3.1"; codes "4"], true) /\
  extract_prereqs (codes "Phase 04 complete; Phase 08a has begun.") = ([codes "4"], false) /\
  stated_complete (codes "Phase 08a is complete.") (codes "08a") /\
  mention_at (codes "Phase 08a has begun.").
Proof.
  split; [vm_compute; reflexivity|]. split; [vm_compute; reflexivity|]. split.
  - apply stated_iff. eexists. vm_compute. reflexivity.
  - apply mention_digits. vm_compute. discriminate.
Qed.

(** False: prose that names phases in another way counts as prose without
    prerequisites. *)
Theorem prerequisites_plural_refuted :
  exists prose, prose = codes "- Phases 04 and 05 complete." /\
    extract_prereqs prose = ([], true).
Proof. eexists. split; [reflexivity|]. vm_compute. reflexivity. Qed.
Print Assumptions prerequisites_plural_refuted.

(* ------------------------------------------------------------------ *)
(** * C163: the next phase *)

(** The loaded phases have different canonical ids, those of the files. *)
Theorem loaded_phases : forall files,
  distinct_ids (load_phases files) /\
  (forall i, In i (map p_id (load_phases files)) -> canonical i) /\
  (forall i, In i (map p_id (load_phases files)) <-> exists f, In f files /\ file_id f = Some i).
Proof. exact load_ids. Qed.
Print Assumptions loaded_phases.

(** The frontier is the set of the eligible phases, in order, each once, and
    every other phase that has not started is among the blocked ones. *)
Theorem frontier_exact : forall phases, distinct_ids phases ->
  (forall i, In i (eligible_frontier phases) <-> exists p, eligible phases p /\ p_id p = i) /\
  (forall i, In i (blocked_candidates phases) <->
     exists p, In p phases /\ p_id p = i /\ status_says "not started" (p_status p) /\
               ~ eligible phases p) /\
  NoDup (eligible_frontier phases) /\ increasing leb_phase (eligible_frontier phases).
Proof.
  intros phases D. split; [intros i; apply frontier_iff; exact D|].
  split; [intros i; apply blocked_iff; exact D|].
  split; [apply frontier_nodup; exact D|apply frontier_increasing].
Qed.
Print Assumptions frontier_exact.

(** Without arguments: ready is the only eligible phase, a choice lists all of
    several, blocked means that there is none. *)
Theorem next_phase_exact : forall phases, distinct_ids phases -> phases <> [] ->
  (forall i, resolve_phase phases None None = phase_ready i <->
     (exists p, eligible phases p /\ p_id p = i) /\
     (forall q, eligible phases q -> p_id q = i)) /\
  (forall is, resolve_phase phases None None = phase_choose is ->
     2 <= List.length is /\ is = eligible_frontier phases) /\
  (forall is, resolve_phase phases None None = phase_blocked is ->
     is = blocked_candidates phases /\ forall p, ~ eligible phases p) /\
  resolve_phase phases None None <> phase_error.
Proof.
  intros phases D N. rewrite (resolve_plain phases N).
  pose proof (fun i => frontier_iff phases i D) as F.
  pose proof (frontier_nodup phases D) as ND.
  destruct (eligible_frontier phases) as [|x [|y l]].
  - split; [|split; [|split]]; try discriminate.
    + intros i. split; [discriminate|]. intros [H _]. apply F in H. destruct H.
    + intros is H. injection H as <-. split; [reflexivity|]. intros p P.
      destruct (proj2 (F (p_id p)) (ex_intro _ p (conj P eq_refl))).
  - split; [|split; [|split]]; try discriminate.
    intros i. split.
    + intros H. injection H as <-. split; [apply F; left; reflexivity|].
      intros q Q. destruct (proj2 (F (p_id q)) (ex_intro _ q (conj Q eq_refl))) as [<-|[]].
      reflexivity.
    + intros [H _]. apply F in H. destruct H as [->|[]]. reflexivity.
  - split; [|split; [|split]]; try discriminate.
    + intros i. split; [discriminate|]. intros [_ H].
      destruct (proj1 (F x) (or_introl eq_refl)) as (p & P & PX).
      destruct (proj1 (F y) (or_intror (or_introl eq_refl))) as (q & Q & QX).
      apply H in P. apply H in Q. exfalso. inversion ND as [|? ? N1 _]; subst.
      apply N1. left. congruence.
    + intros is H. injection H as <-. split; [cbn; lia|reflexivity].
Qed.
Print Assumptions next_phase_exact.

(** With a target: ready exactly when the target is eligible. *)
Theorem target_phase_exact : forall phases v i, distinct_ids phases -> v <> [] ->
  (resolve_phase phases None (Some v) = phase_ready i <->
   normalize_phase_id v = Some i /\ exists p, eligible phases p /\ p_id p = i).
Proof. exact resolve_target. Qed.
Print Assumptions target_phase_exact.

(** Whatever the arguments, only eligible phases are offered. *)
Theorem offered_phases_eligible : forall phases c t, distinct_ids phases ->
  (forall i, resolve_phase phases c t = phase_ready i ->
     exists p, eligible phases p /\ p_id p = i) /\
  (forall is, resolve_phase phases c t = phase_choose is ->
     2 <= List.length is /\ NoDup is /\
     forall i, In i is -> exists p, eligible phases p /\ p_id p = i).
Proof. exact resolve_offers. Qed.
Print Assumptions offered_phases_eligible.

(** After a completed phase, the eligible phases that wait for it are offered,
    and all eligible ones when none waits. *)
Theorem completed_phase_exact : forall phases v d, distinct_ids phases -> v <> [] ->
  normalize_phase_id v = Some d -> In d (map p_id phases) ->
  exists l : list text,
    resolve_phase phases (Some v) None =
      match l with
      | [] => phase_blocked (blocked_candidates phases)
      | [i] => phase_ready i
      | is => phase_choose is
      end /\
    NoDup l /\ increasing leb_phase l /\
    ((exists i, waits phases d i) -> forall i, In i l <-> waits phases d i) /\
    ((forall i, ~ waits phases d i) -> l = eligible_frontier phases).
Proof. exact resolve_completed. Qed.
Print Assumptions completed_phase_exact.

(** The project does not get stuck: when every phase is closed or has not
    started, the prose was understood and the prerequisites have no cycle, some
    phase is eligible. *)
Theorem phases_progress : forall phases (rank : text -> nat), distinct_ids phases ->
  (forall p, In p phases ->
     closed p \/ (status_says "not started" (p_status p) /\ p_resolvable p = true)) ->
  (forall p i, In p phases -> In i (p_prereqs p) ->
     exists q, In q phases /\ p_id q = i /\ rank i < rank (p_id p)) ->
  (exists p, In p phases /\ ~ closed p) ->
  eligible_frontier phases <> [].
Proof.
  intros phases rank D H W X. destruct (progress_lemma phases rank D H W X) as (p & P).
  intros E. pose proof (proj2 (frontier_iff phases (p_id p) D) (ex_intro _ p (conj P eq_refl))) as I.
  rewrite E in I. destruct I.
Qed.
Print Assumptions phases_progress.

Definition some_project : list phase_file :=
  [mk_file (codes "01") (Some (codes "1")) (Some (codes "Complete")) [] 1;
   mk_file (codes "02") None (Some (codes "Complete (2026-08-20)")) (codes "Phase 01 complete.") 2;
   mk_file (codes "02_1") None (Some (codes "Not Started")) (codes "Phase 02 is complete.") 0;
   mk_file (codes "03") None (Some (codes "not started")) (codes "Phase 01 complete.") 0;
   mk_file (codes "04") None (Some (codes "Not Started")) (codes "Phase 03 complete.") 0].

Example some_project_ok :
  distinct_ids (load_phases some_project) /\
  eligible_frontier (load_phases some_project) = [codes "2.1"; codes "3"] /\
  blocked_candidates (load_phases some_project) = [codes "4"] /\
  resolve_phase (load_phases some_project) None None = phase_choose [codes "2.1"; codes "3"] /\
  resolve_phase (load_phases some_project) None (Some (codes "Phase 3")) = phase_ready (codes "3") /\
  resolve_phase (load_phases some_project) None (Some (codes "04")) = phase_blocked [codes "3"].
Proof.
  split; [exact (proj1 (loaded_phases some_project))|]. vm_compute. repeat split; reflexivity.
Qed.

Definition some_rank (i : text) : nat :=
  match phase_sort_key i with (m, k, n, _) => m * 100 + k * 10 + n end.

Example phases_progress_ok :
  let phases := load_phases some_project in
  (forall p, In p phases ->
     closed p \/ (status_says "not started" (p_status p) /\ p_resolvable p = true)) /\
  (forall p i, In p phases -> In i (p_prereqs p) ->
     exists q, In q phases /\ p_id q = i /\ some_rank i < some_rank (p_id p)) /\
  (exists p, In p phases /\ ~ closed p).
Proof.
  cbv zeta.
  assert (E : forallb (fun p => (closeout_issues p =? 0) ||
                (status_is_not_started (p_status p) && p_resolvable p)) (load_phases some_project)
              = true) by (vm_compute; reflexivity).
  assert (E2 : forallb (fun p => forallb (fun i => mem i (map p_id (load_phases some_project)) &&
                   (some_rank i <? some_rank (p_id p))) (p_prereqs p)) (load_phases some_project)
               = true) by (vm_compute; reflexivity).
  rewrite forallb_forall in E, E2. split; [|split].
  - intros p I. specialize (E p I). apply orb_true_iff in E. destruct E as [E|E].
    + left. apply closeout_closed. apply Nat.eqb_eq. exact E.
    + right. apply andb_true_iff in E. rewrite <- not_started_says. exact E.
  - intros p i I J. specialize (E2 p I). rewrite forallb_forall in E2. specialize (E2 i J).
    apply andb_true_iff in E2. destruct E2 as [M LT]. apply Nat.ltb_lt in LT.
    apply mem_iff, in_map_iff in M. destruct M as (q & Q & IQ). exists q. auto.
  - assert (X : existsb (fun p => negb (closeout_issues p =? 0)) (load_phases some_project) = true)
      by (vm_compute; reflexivity).
    apply existsb_exists in X. destruct X as (p & I & N). exists p. split; [exact I|].
    intros C. apply closeout_closed in C. rewrite C in N. discriminate.
Qed.

(** False: a phase that is called ready may name a phase that is not closed.
    The prose is that of [projects/cython-to-rust/phases/phase-06-mediator-spectra.md]. *)
Theorem ready_prerequisites_refuted :
  exists f4 f5 f6,
    f_prose f6 = codes "- Phases 04 and 05 complete." /\
    resolve_phase (load_phases [f4; f5; f6]) None None = phase_ready (codes "6") /\
    exists p, In p (load_phases [f4; f5; f6]) /\ p_id p = codes "5" /\ ~ closed p.
Proof.
  exists (mk_file (codes "04") None (Some (codes "Complete")) [] 1),
    (mk_file (codes "05") None (Some (codes "In Progress")) [] 0),
    (mk_file (codes "06") None (Some (codes "Not Started")) (codes "- Phases 04 and 05 complete.") 0).
  split; [reflexivity|]. split; [vm_compute; reflexivity|].
  exists (mk_phase (codes "5") (Some (codes "In Progress")) [] true 0).
  split; [right; left; vm_compute; reflexivity|]. split; [reflexivity|].
  intros C. apply closeout_closed in C. vm_compute in C. discriminate.
Qed.
Print Assumptions ready_prerequisites_refuted.

(** False: with a completed phase, ready does not mean that exactly one phase
    is eligible. *)
Theorem ready_only_refuted :
  exists phases v i, distinct_ids phases /\
    resolve_phase phases (Some v) None = phase_ready i /\
    exists q, eligible phases q /\ p_id q <> i.
Proof.
  exists (load_phases some_project), (codes "2"), (codes "2.1").
  split; [exact (proj1 (loaded_phases some_project))|]. split; [vm_compute; reflexivity|].
  destruct (proj1 (frontier_iff (load_phases some_project) (codes "3")
                    (proj1 (loaded_phases some_project)))) as (q & Q & E).
  - replace (eligible_frontier (load_phases some_project)) with [codes "2.1"; codes "3"]
      by (vm_compute; reflexivity). right. left. reflexivity.
  - exists q. split; [exact Q|]. rewrite E. discriminate.
Qed.
Print Assumptions ready_only_refuted.

(* ------------------------------------------------------------------ *)
(** * C164: the two scripts *)

(** The directory of the tasks of a phase is the one that its prompt names. *)
Theorem task_directory_agrees : forall f slug,
  f_prefix f <> [] -> forallb is_digit (f_prefix f) = true ->
  task_directory (codes "phase-" ++ f_prefix f ++ codes "-" ++ slug) = Some (prompt_directory f).
Proof. exact directories_agree. Qed.
Print Assumptions task_directory_agrees.

(** A plain status means the same to both. *)
Theorem task_status_agrees : forall v rest, v <> [] -> trimmed v ->
  (forall c r, v = c :: r -> c <> 39 /\ c <> 34) ->
  (lower v = codes "complete" \/ forall r, lower v <> codes "complete" ++ r) ->
  exists s, key_value (codes "status: " ++ v) = Some (codes "status", s) /\
    task_phase_open (codes "---" :: (codes "status: " ++ v) :: rest) =
      negb (status_is_complete (Some s)).
Proof. exact status_agree. Qed.
Print Assumptions task_status_agrees.

Example scripts_agree_ok :
  task_directory (codes "phase-05-thermal.md") = Some (codes "phase-05") /\
  prompt_directory (mk_file (codes "05") None None [] 0) = codes "phase-05" /\
  trimmed (codes "In Progress") /\
  task_phase_open [codes "---"; codes "status: COMPLETE"; codes "---"] = false /\
  status_is_complete (Some (codes "COMPLETE")) = true.
Proof. vm_compute. repeat split; reflexivity. Qed.

(** False for the other prefixes and for annotated or quoted statuses. *)
Theorem scripts_agree_refuted :
  (exists f slug i, file_id f = Some i /\
     task_directory (codes "phase-" ++ f_prefix f ++ codes "-" ++ slug) <> Some (prompt_directory f)) /\
  (exists v s, key_value (codes "status: " ++ v) = Some (codes "status", s) /\
     status_is_complete (Some s) = true /\
     task_phase_open [codes "---"; codes "status: " ++ v; codes "---"] = true).
Proof.
  split.
  - exists (mk_file (codes "08a") None None [] 0), (codes "spectra.md"), (codes "8A").
    split; [vm_compute; reflexivity|]. vm_compute. discriminate.
  - exists (codes "Complete (2026-08-20)"), (codes "Complete (2026-08-20)").
    repeat split; vm_compute; reflexivity.
Qed.
Print Assumptions scripts_agree_refuted.
