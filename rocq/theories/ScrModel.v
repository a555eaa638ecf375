(** The scripts under [scripts/agents]: the checker of pull request titles,
    the checker of source citations in documents, the choice of the next task
    and the choice of the next phase.

    A text is a list of Unicode code points.  White space, letters, digits and
    lower case are those of ASCII (white space also has U+0085 and U+00A0);
    Python also knows those of other scripts.  Regular expressions are written
    out as the functions that compute their leftmost match. *)

Require Import Arith Bool List String Ascii.
Import ListNotations.
Local Open Scope nat_scope.

Definition text := list nat.

(** A literal of the source as a text. *)
Definition codes (s : string) : text := map nat_of_ascii (list_ascii_of_string s).
Arguments codes s%string.

Fixpoint eqt (a b : text) : bool :=
  match a, b with
  | [], [] => true
  | x :: a', y :: b' => (x =? y) && eqt a' b'
  | _, _ => false
  end.

Definition is_digit (c : nat) : bool := (48 <=? c) && (c <=? 57).
Definition is_upper (c : nat) : bool := (65 <=? c) && (c <=? 90).
Definition is_lower (c : nat) : bool := (97 <=? c) && (c <=? 122).
Definition is_letter (c : nat) : bool := is_upper c || is_lower c.
Definition is_space (c : nat) : bool :=
  ((9 <=? c) && (c <=? 13)) || ((28 <=? c) && (c <=? 32)) || (c =? 133) || (c =? 160).

Definition lower_char (c : nat) : nat := if is_upper c then c + 32 else c.
Definition upper_char (c : nat) : nat := if is_lower c then c - 32 else c.

(** [str.lower]. *)
Definition lower (t : text) : text := map lower_char t.

(** The longest prefix of characters of a class, and the rest: a greedy
    [\[class\]*] of a regular expression. *)
Fixpoint span (f : nat -> bool) (t : text) : text * text :=
  match t with
  | [] => ([], [])
  | c :: r => if f c then let (a, b) := span f r in (c :: a, b) else ([], t)
  end.

Definition drop_while (f : nat -> bool) (t : text) : text := snd (span f t).
Definition drop_end_while (f : nat -> bool) (t : text) : text :=
  rev (drop_while f (rev t)).

(** [str.strip]. *)
Definition strip (t : text) : text := drop_end_while is_space (drop_while is_space t).

(** [str.startswith]: the rest after the prefix, if it is one. *)
Fixpoint after (p t : text) : option text :=
  match p, t with
  | [], _ => Some t
  | c :: p', d :: t' => if c =? d then after p' t' else None
  | _ :: _, [] => None
  end.

Definition starts (p t : text) : bool :=
  match after p t with Some _ => true | None => false end.
Definition ends (p t : text) : bool := starts (rev p) (rev t).

(** [str.split] at one character. *)
Fixpoint split_at (c : nat) (t : text) : list text :=
  match t with
  | [] => [[]]
  | d :: r => if d =? c then [] :: split_at c r
              else match split_at c r with
                   | [] => [[d]]
                   | w :: ws => (d :: w) :: ws
                   end
  end.

(** [sep.join] with a separator of one character. *)
Fixpoint join_with (c : nat) (ws : list text) : text :=
  match ws with
  | [] => []
  | [w] => w
  | w :: ws' => w ++ c :: join_with c ws'
  end.

Definition mem (t : text) (ts : list text) : bool := existsb (eqt t) ts.

(* ------------------------------------------------------------------ *)
(** * Titles of pull requests *)

(** scripts/agents/check_pr_title.py, lines 37-54: [TYPES],
    [MAX_HEADER_LEN] and [MAX_SCOPE_LEN]. *)
Definition title_types : list text :=
  [codes "feat"; codes "fix"; codes "chore"; codes "ci"; codes "docs"; codes "test";
   codes "refactor"; codes "perf"; codes "style"; codes "build"; codes "revert"].
Definition max_header_len : nat := 69.
Definition max_scope_len : nat := 10.

(** The end anchor [$] of a regular expression matches at the end and before a
    line feed at the end. *)
Definition without_last_newline (t : text) : text :=
  match rev t with
  | 10 :: r => rev r
  | _ => t
  end.

(** scripts/agents/check_pr_title.py, line 55: [SCOPE_RE]. *)
Definition scope_char (c : nat) : bool := is_lower c || is_digit c || (c =? 45).
Definition scope_re (t : text) : bool :=
  match without_last_newline t with
  | [] => false
  | u => forallb scope_char u
  end.

(** scripts/agents/check_pr_title.py, lines 58-63: [HEADER_RE], giving the
    groups type, scope and subject.  A dot matches everything but a line feed. *)
Definition header_re (t : text) : option (text * option text * text) :=
  let (ty, r) := span is_letter t in
  match ty with
  | [] => None
  | _ =>
      let after_scope :=
        match r with
        | 40 :: r1 =>
            let (sc, r2) := span (fun c => negb (c =? 41)) r1 in
            match r2 with
            | 41 :: r3 => Some (Some sc, r3)
            | _ => None
            end
        | _ => Some (None, r)
        end in
      match after_scope with
      | None => None
      | Some (sc, r3) =>
          let r4 := match r3 with 33 :: r' => r' | _ => r3 end in
          match r4 with
          | 58 :: 32 :: r5 =>
              let su := without_last_newline r5 in
              if forallb (fun c => negb (c =? 10)) su then Some (ty, sc, su) else None
          | _ => None
          end
      end
  end.

Inductive violation :=
  header_too_long | not_a_header | type_not_allowed | scope_required | scope_empty
| scope_characters | scope_too_long | scope_hyphen | scope_is_type | subject_empty
| subject_start | subject_dot | subject_space.

Definition when (b : bool) (v : violation) : list violation := if b then [v] else [].

(** scripts/agents/check_pr_title.py, lines 66-127: [check].  [alnum] is
    [str.isalnum] of one character. *)
Definition check (alnum : nat -> bool) (h : text) : list violation :=
  when (max_header_len <? List.length h) header_too_long ++
  match header_re h with
  | None => [not_a_header]
  | Some (ty, sc, su) =>
      when (negb (mem ty title_types)) type_not_allowed ++
      match sc with
      | None => [scope_required]
      | Some [] => [scope_empty]
      | Some s =>
          when (negb (scope_re s)) scope_characters ++
          when (max_scope_len <? List.length s) scope_too_long ++
          when (starts (codes "-") s || ends (codes "-") s) scope_hyphen ++
          when (mem s title_types) scope_is_type
      end ++
      match su with
      | [] => [subject_empty]
      | c :: _ =>
          when (negb (alnum c)) subject_start ++
          (if ends (codes ".") su then [subject_dot]
           else when (ends (codes " ") su) subject_space)
      end
  end.

(** The characters at which [str.splitlines] breaks, without U+2028 and U+2029.  A carriage return
    followed by a line feed is one break in Python and two here, which only
    adds an empty line. *)
Definition line_break (c : nat) : bool :=
  ((10 <=? c) && (c <=? 13)) || ((28 <=? c) && (c <=? 30)) || (c =? 133).

Fixpoint split_where (f : nat -> bool) (t : text) : list text :=
  match t with
  | [] => [[]]
  | d :: r => if f d then [] :: split_where f r
              else match split_where f r with
                   | [] => [[d]]
                   | w :: ws => (d :: w) :: ws
                   end
  end.

(** scripts/agents/check_pr_title.py, lines 130-141: [read_title], of the
    arguments after the name of the program and of the standard input. *)
Definition read_title (args : list text) (stdin : text) : text :=
  match args with
  | [] =>
      match find (fun w => negb (eqt w [])) (map strip (split_where line_break stdin)) with
      | Some w => w
      | None => strip stdin
      end
  | _ => join_with 32 args
  end.

(** scripts/agents/check_pr_title.py, lines 144-159: the exit code of [main]. *)
Definition title_main (alnum : nat -> bool) (args : list text) (stdin : text) : nat :=
  let title := read_title args stdin in
  if eqt title [] then 2
  else match check alnum title with [] => 0 | _ => 1 end.

(* ------------------------------------------------------------------ *)
(** * Citations of source lines *)

(** All the tails of a list, the list itself first, without the empty one. *)
Fixpoint tails (ws : list text) : list (list text) :=
  match ws with
  | [] => []
  | _ :: ws' => ws :: tails ws'
  end.

(** scripts/agents/check_doc_citations.py, lines 110-124: the index
    [by_suffix] of [Resolver.__init__] at a citation, in the order of the
    insertions ([candidates]). *)
Definition candidates (files : list text) (citation : text) : list text :=
  flat_map (fun path =>
    map (fun _ => path)
        (filter (eqt citation) (map (join_with 47) (tails (split_at 47 path))))) files.

(** [Path(p).name]: the part after the last slash.  Trailing slashes and dots,
    which a citation of a source file does not have, are not treated. *)
Definition base_name (p : text) : text := last (split_at 47 p) [].

(** scripts/agents/check_doc_citations.py, lines 119-121: the overrides by base
    name; a later one replaces an earlier one. *)
Definition override_of (overrides : list text) (name : text) : option text :=
  find (fun o => eqt (base_name o) name) (rev overrides).

Inductive how := by_exact | by_suffix | by_context | by_map | by_ambiguous | by_external.

(** The sets of paths of the context, kept without repetitions. *)
Fixpoint distinct (ts : list text) : list text :=
  match ts with
  | [] => []
  | t :: r => if mem t r then distinct r else t :: distinct r
  end.

(** scripts/agents/check_doc_citations.py, lines 149-160: [doc_context] at a
    base name. *)
Definition pinned (files : list text) (citations : list text) (name : text) : list text :=
  distinct
    (flat_map (fun c =>
       if negb (existsb (Nat.eqb 47) c) then []
       else match candidates files c with
            | [p] => if eqt (base_name c) name then [p] else []
            | _ => []
            end) citations).

(** scripts/agents/check_doc_citations.py, lines 126-146: [Resolver.resolve].
    [exists_file] is [is_file] of the path under the root. *)
Definition resolve (files overrides : list text) (exists_file : text -> bool)
    (citations : list text) (citation : text) : option text * how :=
  if exists_file citation && mem citation files then (Some citation, by_exact)
  else
    let hits := candidates files citation in
    match hits with
    | [p] => (Some p, by_suffix)
    | _ =>
        let otherwise :=
          match override_of overrides (base_name citation) with
          | Some o => if mem o files then (Some o, by_map)
                      else (None, match hits with [] => by_external | _ => by_ambiguous end)
          | None => (None, match hits with [] => by_external | _ => by_ambiguous end)
          end in
        if existsb (Nat.eqb 47) citation then otherwise
        else match pinned files citations citation with
             | [p] => (Some p, by_context)
             | _ => otherwise
             end
    end.

(** scripts/agents/check_doc_citations.py, lines 235-245: a span, the one or two
    numbers of [12] or [12-14], is reported when it leaves the file. *)
Definition out_of_range (total : nat) (bounds : list nat) : bool :=
  match bounds with
  | [] => false
  | b :: bs => (fold_left Nat.min bs b <? 1) || (total <? fold_left Nat.max bs b)
  end.

(** A document: its citations with their spans, or no such file.  The regular
    expression [CITATION_RE] that finds them in the document (lines 52-58) is
    not modelled. *)
Definition document := option (list (text * list (list nat))).

(** scripts/agents/check_doc_citations.py, lines 206-245: the number of
    failures of one document. *)
Definition doc_failures (files overrides : list text) (exists_file : text -> bool)
    (lines_of : text -> nat) (d : document) : nat :=
  match d with
  | None => 1
  | Some cites =>
      list_sum (map (fun cs =>
        match resolve files overrides exists_file (map fst cites) (fst cs) with
        | (Some p, _) => List.length (filter (out_of_range (lines_of p)) (snd cs))
        | (None, by_external) => 0
        | (None, _) => 1
        end) cites)
  end.

(** scripts/agents/check_doc_citations.py, lines 187-198 and 257-264: the exit
    code of [main] after the arguments are parsed. *)
Definition citations_main (files overrides : list text) (exists_file : text -> bool)
    (lines_of : text -> nat) (docs : list document) : nat :=
  match docs with
  | [] => 2
  | _ => match list_sum (map (doc_failures files overrides exists_file lines_of) docs) with
         | 0 => 0
         | _ => 1
         end
  end.

(* ------------------------------------------------------------------ *)
(** * The next task *)

(** scripts/agents/resolve_task.py, lines 82-84: [strip_md]. *)
Definition strip_md (t : text) : text :=
  strip (filter (fun c => negb ((c =? 96) || (c =? 42) || (c =? 126))) t).

(** [str.split()] of white space, first word only. *)
Definition first_word (t : text) : text :=
  fst (span (fun c => negb (is_space c)) (drop_while is_space t)).

(** scripts/agents/resolve_task.py, lines 87-91: [_status_head]. *)
Definition status_head (status : text) : text :=
  lower (first_word
    (strip (fst (span (fun c => negb ((c =? 40) || (c =? 59))) (strip_md status))))).

(** scripts/agents/resolve_task.py, lines 47-51 and 94-101: [DONE_TOKENS],
    [BLOCKED_TOKENS], [status_is_done] and [status_is_blocked]. *)
Definition done_tokens : list text :=
  [codes "complete"; codes "superseded"; codes "dropped"; codes "skipped"].
Definition blocked_tokens : list text := [codes "blocked"].
Definition status_is_done (s : text) : bool := mem (status_head s) done_tokens.
Definition status_is_blocked (s : text) : bool := mem (status_head s) blocked_tokens.

(** scripts/agents/resolve_task.py, lines 104-112: [normalize_id]. *)
Definition normalize_id (t : text) : text :=
  let cleaned := lower (strip_md t) in
  let cleaned :=
    match after (codes "task") cleaned with
    | Some (c :: r) => if is_space c then drop_while is_space r else cleaned
    | _ => cleaned
    end in
  drop_end_while (Nat.eqb 46) (strip cleaned).

(** The value of a row of digits. *)
Definition digits_value (ds : text) : nat :=
  fold_left (fun n d => n * 10 + (d - 48)) ds 0.

(** One or more groups [.digits] of a regular expression; a dot that no digit
    follows is left. *)
Fixpoint dotted (fuel : nat) (t : text) : list text * text :=
  match fuel with
  | 0 => ([], t)
  | S k =>
      match t with
      | 46 :: r =>
          match span is_digit r with
          | ([], _) => ([], t)
          | (ds, r') => let (gs, rest) := dotted k r' in (ds :: gs, rest)
          end
      | _ => ([], t)
      end
  end.

(** A sort key: the numbers and the letters of an id. *)
Definition key := (list nat * text)%type.

(** scripts/agents/resolve_task.py, lines 53-56 and 115-125: [_ID_RE] and
    [parse_id_key].  The search starts at the first digit. *)
Definition parse_id_key (t : text) : key :=
  match span is_digit (drop_while (fun c => negb (is_digit c)) t) with
  | ([], _) => ([], [])
  | (ds, r) =>
      let (gs, r') := dotted (List.length r) r in
      (map digits_value (ds :: gs), lower (fst (span is_letter (drop_while is_space r'))))
  end.

(** Runs of other characters become one hyphen. *)
Fixpoint hyphens (t : text) : text :=
  match t with
  | [] => []
  | c :: r =>
      if is_lower c || is_digit c then c :: hyphens r
      else match hyphens r with
           | 45 :: r' => 45 :: r'
           | r' => 45 :: r'
           end
  end.

(** scripts/agents/resolve_task.py, lines 128-132: [kebab]. *)
Definition kebab (t : text) : text :=
  drop_end_while (Nat.eqb 45) (drop_while (Nat.eqb 45) (hyphens (lower (strip_md t)))).

(** scripts/agents/resolve_task.py, lines 135-142: [split_row]. *)
Definition split_row (line : text) : list text :=
  let l := strip line in
  let l := match l with 124 :: r => r | _ => l end in
  let l := match rev l with 124 :: r => rev r | _ => l end in
  map strip (split_at 124 l).

(** The regular expression [:?-{1,}:?] of a cell of a separator. *)
Definition separator_cell (c : text) : bool :=
  let c1 := match c with 58 :: r => r | _ => c end in
  match span (Nat.eqb 45) c1 with
  | ([], _) => false
  | (_, []) => true
  | (_, [58]) => true
  | _ => false
  end.

(** scripts/agents/resolve_task.py, lines 145-149: [is_separator]. *)
Definition is_separator (cells : list text) : bool :=
  forallb (fun c => eqt c [] || separator_cell c) cells &&
  existsb (fun c => negb (eqt c [])) cells.

Record task := mk_task { t_id : text; t_title : text; t_status : text; t_note : text }.

Definition t_done (t : task) : bool := status_is_done (t_status t).
Definition t_blocked (t : task) : bool := status_is_blocked (t_status t).
Definition t_key (t : task) : key := parse_id_key (t_id t).

(** scripts/agents/resolve_task.py, lines 171-180: [Task.slug]. *)
Definition t_slug (t : task) : text :=
  let note := strip_md (t_note t) in
  let note := if ends (codes ".md") note then firstn (List.length note - 3) note else note in
  if starts (codes "task-") note then note
  else drop_end_while (Nat.eqb 45)
         (codes "task-" ++ t_id t ++ codes "-" ++ kebab (t_title t)).

(** scripts/agents/resolve_task.py, line 190: a heading [Tasks]. *)
Definition tasks_heading (line : text) : bool :=
  let l := strip line in
  let (hs, r) := span (Nat.eqb 35) l in
  (1 <=? List.length hs) && (List.length hs <=? 6) &&
  match r with
  | c :: r' => is_space c && eqt (strip r') (codes "Tasks")
  | [] => false
  end.

(** scripts/agents/resolve_task.py, lines 187-194: the lines after the heading,
    if there is one. *)
Fixpoint after_heading (lines : list text) : option (list text) :=
  match lines with
  | [] => None
  | l :: r => if tasks_heading l then Some r else after_heading r
  end.

(** scripts/agents/resolve_task.py, lines 196-209: the header row and the lines
    after it.  [first] says that the line is the one after the heading. *)
Fixpoint find_header (first : bool) (lines : list text) : option (list text * list text) :=
  match lines with
  | [] => None
  | l :: r =>
      let stripped := strip l in
      if starts (codes "|") stripped && negb (is_separator (split_row stripped))
      then Some (split_row l, r)
      else if starts (codes "#") stripped && negb first then None
      else find_header false r
  end.

(** [cand in name] for texts. *)
Fixpoint occurs (p t : text) : bool :=
  starts p t || match t with [] => false | _ :: r => occurs p r end.

(** The columns of a header: a later column of the same name takes the place
    of an earlier one, at the position of the earlier one ([dict]). *)
Fixpoint dict_set (d : list (text * nat)) (k : text) (v : nat) : list (text * nat) :=
  match d with
  | [] => [(k, v)]
  | (k', v') :: r => if eqt k' k then (k', v) :: r else (k', v') :: dict_set r k v
  end.

Definition columns (header : list text) : list (text * nat) :=
  fold_left (fun d ni => dict_set d (lower (fst ni)) (snd ni))
    (combine header (seq 0 (List.length header))) [].

(** scripts/agents/resolve_task.py, lines 212-219: [find_col]. *)
Fixpoint find_col (cols : list (text * nat)) (cands : list text) : option nat :=
  match cands with
  | [] => None
  | c :: r => match find (fun ni => eqt (fst ni) c || occurs c (fst ni)) cols with
              | Some ni => Some (snd ni)
              | None => find_col cols r
              end
  end.

Definition cell (cells : list text) (i : option nat) : text :=
  match i with
  | None => []
  | Some k => nth k cells []
  end.

(** scripts/agents/resolve_task.py, lines 229-259: the rows of the table. *)
Fixpoint read_rows (idc stc : nat) (tic noc : option nat) (lines : list text) : list task :=
  match lines with
  | [] => []
  | l :: r =>
      let stripped := strip l in
      if negb (starts (codes "|") stripped) then
        if eqt stripped [] then [] else read_rows idc stc tic noc r
      else
        let cells := split_row l in
        if is_separator cells then read_rows idc stc tic noc r
        else
          let raw := strip_md (cell cells (Some idc)) in
          match fst (parse_id_key raw) with
          | [] => read_rows idc stc tic noc r
          | _ => mk_task raw (strip_md (cell cells tic)) (cell cells (Some stc))
                         (cell cells noc) :: read_rows idc stc tic noc r
          end
  end.

(** scripts/agents/resolve_task.py, lines 183-259: [find_tasks_table] of the
    lines of a file; [None] is an error exit. *)
Definition find_tasks_table (lines : list text) : option (list task) :=
  match after_heading lines with
  | None => None
  | Some r =>
      match find_header true r with
      | None => None
      | Some (header, rows) =>
          let cols := columns header in
          match find_col cols [codes "#"; codes "id"], find_col cols [codes "status"] with
          | Some idc, Some stc =>
              Some (read_rows idc stc (find_col cols [codes "task"])
                      (find_col cols [codes "task note"; codes "note"]) rows)
          | _, _ => None
          end
      end
  end.

(** The order of Python on tuples of numbers and on strings. *)
Fixpoint leb_list (a b : list nat) : bool :=
  match a, b with
  | [], _ => true
  | _ :: _, [] => false
  | x :: a', y :: b' => (x <? y) || ((x =? y) && leb_list a' b')
  end.

Definition leb_key (a b : key) : bool :=
  if eqt (fst a) (fst b) then leb_list (snd a) (snd b) else leb_list (fst a) (fst b).

(** A stable sort by a key ([list.sort]). *)
Fixpoint insert_by {A} (le : A -> A -> bool) (x : A) (l : list A) : list A :=
  match l with
  | [] => [x]
  | y :: r => if le x y then x :: l else y :: insert_by le x r
  end.
Fixpoint sort_by {A} (le : A -> A -> bool) (l : list A) : list A :=
  match l with
  | [] => []
  | x :: r => insert_by le x (sort_by le r)
  end.

Inductive task_result :=
  task_ready (t : task) | task_done (t : task) | task_blocked (t : task)
| all_done | task_error.

(** scripts/agents/resolve_task.py, lines 314-342: [emit]. *)
Definition emit (t : task) : task_result :=
  if t_done t then task_done t else if t_blocked t then task_blocked t else task_ready t.

(** scripts/agents/resolve_task.py, lines 458-476: the end of [main], from the
    lines of the table and the argument [--task]. *)
Definition resolve_task (lines : list text) (want : option text) : task_result :=
  match find_tasks_table lines with
  | None => task_error
  | Some [] => task_error
  | Some tasks =>
      match want with
      | Some w =>
          let w := normalize_id w in
          if eqt w [] then task_error
          else match filter (fun t => eqt (normalize_id (t_id t)) w) tasks with
               | [] => task_error
               | t :: _ => emit t
               end
      | None =>
          match find (fun t => negb (t_done t))
                  (sort_by (fun a b => leb_key (t_key a) (t_key b)) tasks) with
          | Some t => emit t
          | None => all_done
          end
      end
  end.

(** The exit codes (scripts/agents/resolve_task.py, lines 79, 339-342 and 358). *)
Definition task_exit (r : task_result) : nat :=
  match r with
  | task_ready _ | task_done _ | all_done => 0
  | task_blocked _ | task_error => 1
  end.

(** scripts/agents/resolve_task.py, lines 262-274: [phase_status] of the lines
    of a phase file.  [status_line] is the regular expression
    [\s*status\s*:\s*(.+?)\s*$]. *)
Definition status_line (l : text) : option text :=
  match after (codes "status") (drop_while is_space l) with
  | None => None
  | Some r =>
      match drop_while is_space r with
      | 58 :: r' => match strip r' with [] => None | v => Some v end
      | _ => None
      end
  end.

Fixpoint status_in (lines : list text) : text :=
  match lines with
  | [] => []
  | l :: r =>
      if eqt (strip l) (codes "---") then []
      else match status_line l with Some v => v | None => status_in r end
  end.

Definition task_phase_status (lines : list text) : text :=
  match lines with
  | l :: r => if eqt (strip l) (codes "---") then status_in r else []
  | [] => []
  end.

(** scripts/agents/resolve_task.py, lines 297-301: the phase is not finished,
    and the number in the name of its file that names its directory. *)
Definition task_phase_open (lines : list text) : bool :=
  negb (eqt (lower (task_phase_status lines)) (codes "complete")).

Definition task_phase_number (file_name : text) : option text :=
  match after (codes "phase-") file_name with
  | Some r => match span is_digit r with ([], _) => None | (ds, _) => Some ds end
  | None => None
  end.

(* ------------------------------------------------------------------ *)
(** * The next phase *)

(** [str(int(ds))] of a row of digits: the zeros in front go. *)
Definition int_text (ds : text) : text :=
  match drop_while (Nat.eqb 48) ds with
  | [] => codes "0"
  | r => r
  end.

Definition replace_char (a b : nat) (t : text) : text :=
  map (fun c => if c =? a then b else c) t.

(** scripts/agents/resolve_phase.py, lines 35-61: [normalize_phase_id]; [None]
    is a [ValueError]. *)
Definition normalize_phase_id (value : text) : option text :=
  let token := lower (strip value) in
  let token :=
    match after (codes "phase") token with
    | Some r => drop_while (fun c => is_space c || (c =? 95) || (c =? 45)) r
    | None => token
    end in
  let token := filter (fun c => negb (c =? 32)) (replace_char 95 46 token) in
  match span is_digit token with
  | ([], _) => None
  | (ds, []) => Some (int_text ds)
  | (ds, [c]) => if is_lower c then Some (int_text ds ++ [upper_char c]) else None
  | (ds, 46 :: r) =>
      match span is_digit r with
      | ([], _) => None
      | (ms, []) => Some (int_text ds ++ 46 :: int_text ms)
      | _ => None
      end
  | _ => None
  end.

(** scripts/agents/resolve_phase.py, lines 64-75: [phase_id_from_prefix].
    [int] of Python also takes an underscore between two digits, which is left
    out: only rows of digits are numbers here. *)
Definition all_digits (t : text) : bool :=
  match t with [] => false | _ => forallb is_digit t end.

Definition phase_id_from_prefix (prefix : text) : option text :=
  let l := lower prefix in
  match rev l with
  | c :: r =>
      if is_letter c then
        (if all_digits (rev r) then Some (int_text (rev r) ++ [upper_char c]) else None)
      else
        match split_at 95 l with
        | [a] => if all_digits a then Some (int_text a) else None
        | [a; b] => if all_digits a && all_digits b
                    then Some (int_text a ++ 46 :: int_text b) else None
        | _ => None
        end
  | [] => None
  end.

(** The sort keys of phases. *)
Definition phase_key := (nat * nat * nat * text)%type.

(** scripts/agents/resolve_phase.py, lines 78-89: [phase_sort_key].  A text
    that is no canonical id, for which Python raises, gets a key as well. *)
Definition phase_sort_key (id : text) : phase_key :=
  match rev id with
  | c :: r =>
      if is_letter c then (digits_value (rev r), 2, 0, [c])
      else match split_at 46 id with
           | a :: b :: _ => (digits_value a, 1, digits_value b, [])
           | _ => (digits_value id, 0, 0, [])
           end
  | [] => (0, 0, 0, [])
  end.

Definition leb_phase (a b : text) : bool :=
  match phase_sort_key a, phase_sort_key b with
  | (m1, k1, n1, s1), (m2, k2, n2, s2) => leb_list ([m1; k1; n1] ++ s1) ([m2; k2; n2] ++ s2)
  end.

(** scripts/agents/resolve_phase.py, lines 98-101: [_PHASE_NUMBER_RE] at a
    position: the id and the rest.  The first alternative, digits with an
    optional decimal, always matches when the second does. *)
Fixpoint after_nocase (p t : text) : option text :=
  match p, t with
  | [], _ => Some t
  | c :: p', d :: t' => if c =? lower_char d then after_nocase p' t' else None
  | _ :: _, [] => None
  end.

(** One or more spaces. *)
Definition spaces1 (t : text) : option text :=
  match t with
  | c :: r => if is_space c then Some (drop_while is_space r) else None
  | [] => None
  end.

Definition phase_digits (t : text) : option (text * text) :=
  match after_nocase (codes "phase") t with
  | Some r =>
      match spaces1 r with
      | Some r1 => match span is_digit r1 with
                   | ([], _) => None
                   | (ds, r2) => Some (ds, r2)
                   end
      | None => None
      end
  | None => None
  end.

Definition decimal (t : text) : option (text * text) :=
  match t with
  | 46 :: r => match span is_digit r with ([], _) => None | (ms, r') => Some (ms, r') end
  | _ => None
  end.

Definition raw_mention (t : text) : option (text * text) :=
  match phase_digits t with
  | None => None
  | Some (ds, r) => match decimal r with
                    | Some (ms, r') => Some (ds ++ 46 :: ms, r')
                    | None => Some (ds, r)
                    end
  end.

(** [\s+(?:is\s+)?complete]: the rest. *)
Definition complete_after (t : text) : option text :=
  match spaces1 t with
  | None => None
  | Some r =>
      match after_nocase (codes "is") r with
      | Some r1 =>
          match spaces1 r1 with
          | Some r2 => match after_nocase (codes "complete") r2 with
                       | Some r3 => Some r3
                       | None => after_nocase (codes "complete") r
                       end
          | None => after_nocase (codes "complete") r
          end
      | None => after_nocase (codes "complete") r
      end
  end.

(** scripts/agents/resolve_phase.py, lines 102-105: [_COMPLETE_MENTION_RE] at a
    position, with the decimal, without it, or with a letter. *)
Definition complete_mention (t : text) : option (text * text) :=
  match phase_digits t with
  | None => None
  | Some (ds, r) =>
      let with_decimal :=
        match decimal r with
        | Some (ms, r') => match complete_after r' with
                           | Some r2 => Some (ds ++ 46 :: ms, r2)
                           | None => None
                           end
        | None => None
        end in
      match with_decimal with
      | Some m => Some m
      | None =>
          match complete_after r with
          | Some r2 => Some (ds, r2)
          | None =>
              match r with
              | c :: r' => if is_letter c then
                             match complete_after r' with
                             | Some r2 => Some (ds ++ [c], r2)
                             | None => None
                             end
                           else None
              | [] => None
              end
          end
      end
  end.

(** [finditer]: the ids of the matches that do not overlap, from the left. *)
Fixpoint find_all (m : text -> option (text * text)) (fuel : nat) (t : text) : list text :=
  match fuel with
  | 0 => []
  | S k =>
      match m t with
      | Some (id, r) => id :: find_all m k r
      | None => match t with [] => [] | _ :: r => find_all m k r end
      end
  end.

Definition mentions (m : text -> option (text * text)) (t : text) : list text :=
  find_all m (S (List.length t)) t.

Definition normalized (ids : list text) : list text :=
  flat_map (fun i => match normalize_phase_id i with Some n => [n] | None => [] end) ids.

(** scripts/agents/resolve_phase.py, lines 168-205:
    [extract_prereq_phase_ids].  The ids of prose that is not resolvable are
    sorted as strings there and by number here. *)
Definition extract_prereqs (prose : text) : list text * bool :=
  let stripped := strip prose in
  match stripped with
  | [] => ([], true)
  | _ =>
      let raw := mentions raw_mention stripped in
      let complete := mentions complete_mention stripped in
      match raw with
      | [] => ([], true)
      | _ => (sort_by leb_phase (distinct (normalized complete)),
              negb (List.length complete <? List.length raw))
      end
  end.

(** scripts/agents/resolve_phase.py, lines 212-223: [PhaseRecord]; the learnings
    documents are counted.  Titles and paths are left out. *)
Record phase := mk_phase {
  p_id : text;
  p_status : option text;
  p_prereqs : list text;
  p_resolvable : bool;
  p_learnings : nat
}.

(** scripts/agents/resolve_phase.py, lines 136-143: [status_is_complete] and
    [status_is_not_started]. *)
Definition status_is_complete (s : option text) : bool :=
  match s with Some t => starts (codes "complete") (lower (strip t)) | None => false end.
Definition status_is_not_started (s : option text) : bool :=
  match s with Some t => starts (codes "not started") (lower (strip t)) | None => false end.

(** scripts/agents/resolve_phase.py, lines 97 and 121-132: one line of
    [parse_frontmatter]: the regular expression [_KEY_VALUE_RE] and the quotes
    taken off the value. *)
Definition key_char (c : nat) : bool := is_letter c || is_digit c || (c =? 95) || (c =? 45).

Definition unquote (v : text) : text :=
  match v with
  | q :: r =>
      if (q =? 39) || (q =? 34) then
        match rev r with
        | q' :: m => if q' =? q then rev m else v
        | [] => v
        end
      else v
  | [] => v
  end.

Definition key_value (l : text) : option (text * text) :=
  let (k, r) := span key_char (drop_while is_space l) in
  match k with
  | c :: _ =>
      if is_letter c || (c =? 95) then
        match drop_while is_space r with
        | 58 :: r' => match strip r' with [] => None | v => Some (k, unquote v) end
        | _ => None
        end
      else None
  | [] => None
  end.

(** scripts/agents/resolve_phase.py, lines 226-280: [load_phase_records] of
    files given by prefix, frontmatter id, status, prose and learnings; a later
    file with the same id replaces an earlier one, at its place. *)
Record phase_file := mk_file {
  f_prefix : text;
  f_phase : option text;
  f_status : option text;
  f_prose : text;
  f_learnings : nat
}.

Definition file_id (f : phase_file) : option text :=
  match phase_id_from_prefix (f_prefix f) with
  | None => None
  | Some id => match f_phase f with
               | Some (c :: v) => match normalize_phase_id (c :: v) with
                                  | Some n => Some n
                                  | None => Some id
                                  end
               | _ => Some id
               end
  end.

Fixpoint set_phase (d : list phase) (p : phase) : list phase :=
  match d with
  | [] => [p]
  | q :: r => if eqt (p_id q) (p_id p) then p :: r else q :: set_phase r p
  end.

Definition load_phases (files : list phase_file) : list phase :=
  fold_left (fun d f =>
    match file_id f with
    | None => d
    | Some id => let (ids, ok) := extract_prereqs (f_prose f) in
                 set_phase d (mk_phase id (f_status f) ids ok (f_learnings f))
    end) files [].

(** [phases.get]. *)
Definition get_phase (phases : list phase) (id : text) : option phase :=
  find (fun p => eqt (p_id p) id) phases.

(** scripts/agents/resolve_phase.py, lines 294-311: the number of reasons of
    [phase_closeout_issues]. *)
Definition closeout_issues (p : phase) : nat :=
  (if status_is_complete (p_status p) then 0 else 1) +
  (if p_learnings p =? 0 then 1 else 0).

(** scripts/agents/resolve_phase.py, lines 314-342: [prerequisite_blockers]. *)
Definition prerequisite_blockers (phases : list phase) (p : phase) : list text * list text :=
  let ids := sort_by leb_phase (p_prereqs p) in
  (flat_map (fun i => match get_phase phases i with
                      | Some q => if closeout_issues q =? 0 then [] else [p_id q]
                      | None => []
                      end) ids,
   filter (fun i => match get_phase phases i with Some _ => false | None => true end) ids).

Definition no_blockers (phases : list phase) (p : phase) : bool :=
  match prerequisite_blockers phases p with ([], []) => true | _ => false end.

Definition by_phase (a b : phase) : bool := leb_phase (p_id a) (p_id b).

(** scripts/agents/resolve_phase.py, lines 345-363: [eligible_frontier]. *)
Definition eligible_frontier (phases : list phase) : list text :=
  map p_id
    (filter (fun p => status_is_not_started (p_status p) && p_resolvable p &&
                      no_blockers phases p)
       (sort_by by_phase phases)).

(** scripts/agents/resolve_phase.py, lines 366-419: the ids of
    [blocked_frontier_candidates]. *)
Definition blocked_candidates (phases : list phase) : list text :=
  map p_id
    (filter (fun p =>
        status_is_not_started (p_status p) &&
        let (blockers, unknown) := prerequisite_blockers phases p in
        negb ((if p_resolvable p then 0 else 1) + List.length unknown +
              List.length blockers =? 0))
       (sort_by by_phase phases)).

Inductive phase_result :=
  phase_ready (id : text) | phase_choose (ids : list text) | phase_blocked (ids : list text)
| phase_error.

(** scripts/agents/resolve_phase.py, lines 594-804: [resolve_phase] from the
    records and the arguments [--completed-phase] and [--target-phase].  Of a
    payload only the state and the ids are kept. *)
Definition argument (a : option text) : option (option text) :=
  match a with
  | None | Some [] => Some None
  | Some v => match normalize_phase_id v with Some n => Some (Some n) | None => None end
  end.

Definition resolve_phase (phases : list phase) (completed target : option text)
    : phase_result :=
  match phases with
  | [] => phase_error
  | _ =>
  match argument completed, argument target with
  | Some c, Some t =>
      let known o := match o with
                     | None => true
                     | Some i => match get_phase phases i with Some _ => true | None => false end
                     end in
      if negb (known c) || negb (known t) then phase_error
      else
        let frontier := eligible_frontier phases in
        match t with
        | Some i =>
            match get_phase phases i with
            | None => phase_error
            | Some p =>
                if status_is_complete (p_status p) then phase_blocked [i]
                else if negb (status_is_not_started (p_status p)) then phase_blocked [i]
                else if negb (p_resolvable p) then phase_blocked [i]
                else match prerequisite_blockers phases p with
                     | ([], []) => phase_ready i
                     | (bs, us) => phase_blocked (bs ++ us)
                     end
            end
        | None =>
            let chosen :=
              match c with
              | None => frontier
              | Some d =>
                  match filter (fun i => match get_phase phases i with
                                         | Some p => mem d (p_prereqs p)
                                         | None => false
                                         end) frontier with
                  | [] => frontier
                  | us => us
                  end
              end in
            match chosen with
            | [] => phase_blocked (blocked_candidates phases)
            | [i] => phase_ready i
            | is => phase_choose is
            end
        end
  | _, _ => phase_error
  end
  end.

(** scripts/agents/resolve_phase.py, lines 455-463 and 499-500: the directory
    of the task notes that the prompt of a phase names. *)
Definition prompt_directory (f : phase_file) : text := codes "phase-" ++ lower (f_prefix f).

(** scripts/agents/resolve_task.py, lines 300-302: the directory in which the
    tasks of a phase file are looked for. *)
Definition task_directory (file_name : text) : option text :=
  match task_phase_number file_name with
  | Some n => Some (codes "phase-" ++ n)
  | None => None
  end.
