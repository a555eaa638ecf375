(** The tables of photon spectra: what a well written file is read as, and which files are refused. *)
From Coq Require Import List Arith Bool Reals Lra Lia.
From Verif Require Import RustBase RustMath Area ScrModel ScrProofs BoostModel BoostProofs BoostProps TabModel.
Import ListNotations.

(** ** Specification *)
Section Spec.
Context {A : Type}.
Variable parse_f64 : text -> option A.
(** White space of ASCII *)
Definition white (c : nat) : Prop := c = 9 \/ c = 11 \/ c = 12 \/ c = 13 \/ c = 32.
Definition plain (c : nat) : Prop := 33 <= c <= 126 /\ c <> 44.
(** A number written without spaces, commas or a leading mark of comment *)
Definition written (v : text) (x : A) : Prop := Forall plain v /\ v <> [] /\ hd 0 v <> 35 /\ parse_f64 v = Some x.
(** The line of one energy and its columns *)
Definition row (e : text) (vs : list text) : text := e ++ concat (map (cons 44) vs).
Inductive line_means : text -> option (A * list A) -> Prop :=
| blank_line p : Forall white p -> line_means p None
| comment_line p r : Forall white p -> ~ In 10 r -> line_means (p ++ 35 :: r) None
| row_line p q ve e vs cols : Forall white p -> Forall white q -> written ve e -> Forall2 written vs cols -> vs <> [] ->
    line_means (p ++ row ve vs ++ q) (Some (e, cols)).
Fixpoint somes (ms : list (option (A * list A))) : list (A * list A) :=
  match ms with [] => [] | Some r :: l => r :: somes l | None :: l => somes l end.
(** A line with a field that is no number, or with one field only *)
Definition bad_line (l : text) : Prop :=
  exists p q ve vs, Forall white p /\ Forall white q /\ Forall plain ve /\ ve <> [] /\ hd 0 ve <> 35 /\ Forall (Forall plain) vs /\
    l = p ++ row ve vs ++ q /\ (vs = [] \/ exists v, In v (ve :: vs) /\ parse_f64 v = None).
End Spec.
Definition file (ls : list text) : text := concat (map (fun l => l ++ [10]) ls).

(** ** Proofs *)
Lemma white_is c : white c -> is_white c = true.
Proof. unfold white. intros [-> | [-> | [-> | [-> | ->]]]]; reflexivity. Qed.
Lemma plain_is c : plain c -> is_white c = false.
Proof.
  unfold plain, is_white. intros [H _].
  destruct (Nat.leb_spec 9 c), (Nat.leb_spec c 13), (Nat.eqb_spec c 32), (Nat.eqb_spec c 133), (Nat.eqb_spec c 160);
    try reflexivity; lia.
Qed.
Lemma drop_while_app f p t : Forall (fun c => f c = true) p -> drop_while f (p ++ t) = drop_while f t.
Proof.
  unfold drop_while. induction 1 as [|c p Hc _ IH]; [reflexivity|]. cbn. rewrite Hc.
  destruct (span f (p ++ t)) as [a b]. cbn in *. exact IH.
Qed.
Lemma drop_while_head f c t : f c = false -> drop_while f (c :: t) = c :: t.
Proof. unfold drop_while. cbn. intros ->. reflexivity. Qed.
Lemma drop_end_app f t q : Forall (fun c => f c = true) q -> drop_end_while f (t ++ q) = drop_end_while f t.
Proof. intros H. unfold drop_end_while. rewrite rev_app_distr, drop_while_app; [reflexivity | apply Forall_rev; exact H]. Qed.
Lemma drop_end_plain f t : Forall (fun c => f c = false) t -> drop_end_while f t = t.
Proof.
  intros H. unfold drop_end_while. apply Forall_rev in H. rewrite <- (rev_involutive t) at 2. f_equal.
  destruct H; [reflexivity | apply drop_while_head; assumption].
Qed.
Lemma drop_while_snoc f t c : f c = false -> exists u, drop_while f (t ++ [c]) = u ++ [c].
Proof.
  intros Hc. induction t as [|d t IH]; cbn [app].
  - exists []. apply drop_while_head, Hc.
  - destruct (f d) eqn:E.
    + destruct IH as [u Hu]. exists u. rewrite <- Hu. unfold drop_while. cbn. rewrite E. destruct (span f (t ++ [c])); reflexivity.
    + exists (d :: t). rewrite drop_while_head by exact E. reflexivity.
Qed.
Lemma drop_end_head f c t : f c = false -> exists u, drop_end_while f (c :: t) = c :: u.
Proof.
  intros Hc. unfold drop_end_while. cbn [rev]. destruct (drop_while_snoc f (rev t) c Hc) as [u ->].
  exists (rev u). rewrite rev_app_distr. reflexivity.
Qed.
Lemma whites p : Forall white p -> Forall (fun c => is_white c = true) p.
Proof. apply Forall_impl, white_is. Qed.
Lemma plains p : Forall plain p -> Forall (fun c => is_white c = false) p.
Proof. apply Forall_impl, plain_is. Qed.
Lemma drop_while_plain t : Forall (fun c => is_white c = false) t -> drop_while is_white t = t.
Proof. intros H. destruct H; [reflexivity | apply drop_while_head; assumption]. Qed.
Lemma trim_pad p v q : Forall white p -> Forall white q -> Forall (fun c => is_white c = false) v -> trim (p ++ v ++ q) = v.
Proof.
  intros Hp Hq Hv. unfold trim. rewrite drop_while_app by (apply whites, Hp). destruct v as [|c v].
  - cbn [app]. replace q with (q ++ []) by apply app_nil_r. rewrite drop_while_app by (apply whites, Hq). reflexivity.
  - cbn [app]. rewrite drop_while_head by (inversion Hv; assumption). change (c :: v ++ q) with ((c :: v) ++ q).
    rewrite drop_end_app by (apply whites, Hq). apply drop_end_plain, Hv.
Qed.
Lemma trim_white p : Forall white p -> trim p = [].
Proof. intros H. rewrite <- (app_nil_r p). apply (trim_pad p [] []); auto. Qed.
Lemma trim_plain v : Forall plain v -> trim v = v.
Proof.
  intros H. rewrite <- (app_nil_r v) at 1. apply (trim_pad [] v []); auto. apply plains, H.
Qed.
Lemma trim_comment p r : Forall white p -> exists u, trim (p ++ 35 :: r) = 35 :: u.
Proof.
  intros Hp. unfold trim. rewrite drop_while_app by (apply whites, Hp). rewrite drop_while_head by reflexivity.
  apply drop_end_head. reflexivity.
Qed.
Lemma drop_white_snoc f t c : f c = true -> drop_while f (t ++ [c]) = drop_while f t ++ [c] \/
  (drop_while f (t ++ [c]) = [] /\ drop_while f t = []).
Proof.
  intros Hc. induction t as [|d t IH]; cbn [app].
  - right. unfold drop_while. cbn. rewrite Hc. split; reflexivity.
  - destruct (f d) eqn:E.
    + assert (K : forall u, drop_while f (d :: u) = drop_while f u) by
        (intros u; unfold drop_while; cbn; rewrite E; destruct (span f u); reflexivity).
      rewrite !K. exact IH.
    + left. rewrite !drop_while_head by exact E. reflexivity.
Qed.
Lemma trim_cr t : trim (strip_cr t) = trim t.
Proof.
  unfold strip_cr. destruct (rev t) as [|c r] eqn:E; [reflexivity|].
  assert (Et : t = rev r ++ [c]) by (rewrite <- (rev_involutive t), E; reflexivity).
  destruct (Nat.eq_dec c 13) as [-> | n].
  - rewrite Et. symmetry. unfold trim. destruct (drop_white_snoc is_white (rev r) 13 eq_refl) as [-> | [-> ->]]; [|reflexivity].
    apply drop_end_app. constructor; [reflexivity | constructor].
  - do 14 (destruct c as [|c]; [try reflexivity; exfalso; lia|]). reflexivity.
Qed.
Lemma split_file ls : Forall (fun l => ~ In 10 l) ls -> split_at 10 (file ls) = ls ++ [[]].
Proof.
  unfold file. induction 1 as [|l ls Hl _ IH]; [reflexivity|]. cbn [map concat]. rewrite <- app_assoc. cbn [app].
  rewrite split_at_app by exact Hl. rewrite IH. reflexivity.
Qed.
Lemma lines_of_file ls : Forall (fun l => ~ In 10 l) ls -> lines_of (file ls) = map strip_cr ls.
Proof. intros H. unfold lines_of. rewrite split_file by exact H. rewrite removelast_last, last_last. apply app_nil_r. Qed.
Lemma plain_not_comma v : Forall plain v -> ~ In 44 v.
Proof. intros H I. rewrite Forall_forall in H. destruct (H _ I) as [_ K]. apply K. reflexivity. Qed.
Lemma split_row ve vs : Forall plain ve -> Forall (Forall plain) vs -> split_at 44 (row ve vs) = ve :: vs.
Proof.
  unfold row. intros He Hv. revert ve He. induction Hv as [|v vs Hv _ IH]; intros ve He; cbn [map concat].
  - rewrite app_nil_r. apply split_at_plain, plain_not_comma, He.
  - cbn [app]. rewrite split_at_app by apply plain_not_comma, He. rewrite IH by exact Hv. reflexivity.
Qed.
Lemma row_plain ve vs : Forall plain ve -> Forall (Forall plain) vs -> Forall (fun c => is_white c = false) (row ve vs).
Proof.
  unfold row. intros He Hv. apply Forall_app. split; [apply plains, He|].
  induction Hv as [|v vs Hv _ IH]; [constructor|]. cbn [map concat app]. constructor; [reflexivity|].
  apply Forall_app. split; [apply plains, Hv | exact IH].
Qed.
Lemma row_head ve vs : ve <> [] -> hd 0 ve <> 35 -> exists c r, row ve vs = c :: r /\ c <> 35.
Proof. destruct ve as [|c ve]; [congruence|]. intros _ H. exists c, (ve ++ concat (map (cons 44) vs)). split; [reflexivity | exact H]. Qed.
Lemma white_no_newline p : Forall white p -> ~ In 10 p.
Proof. intros H I. rewrite Forall_forall in H. specialize (H _ I). unfold white in H. lia. Qed.
Lemma dark_no_newline p : Forall (fun c => is_white c = false) p -> ~ In 10 p.
Proof. intros H I. rewrite Forall_forall in H. specialize (H _ I). discriminate H. Qed.

Section Reading.
Variable M : Math.
Variable parse_f64 : text -> option (F M).
Notation parse_lines := (parse_lines M parse_f64).
Notation line_means := (line_means parse_f64).
Notation written := (written parse_f64).

Lemma written_plain vs cols : Forall2 written vs cols -> Forall (Forall plain) vs.
Proof. induction 1 as [|v x vs cols [H _] _ IH]; constructor; assumption. Qed.
Lemma fields_read vs cols : Forall2 written vs cols -> parse_fields M parse_f64 vs = Ok cols.
Proof.
  induction 1 as [|v x vs cols [Hp [_ [_ Hx]]] _ IH]; [reflexivity|]. cbn [parse_fields].
  rewrite (trim_plain v Hp), Hx, IH. reflexivity.
Qed.
(** The step of one line, by what is left of it *)
Lemma step_row line rest es ds c r : trim line = c :: r -> c <> 35 ->
  parse_lines (line :: rest) es ds =
    (fields <- parse_fields M parse_f64 (split_at 44 (c :: r)) ;;
     match fields with
     | [] => Panic
     | energy :: components =>
         match components with
         | [] => Panic
         | _ => s <- pairwise_sum M components ;; parse_lines rest (es ++ [energy]) (ds ++ [s])
         end
     end).
Proof.
  intros E n. cbn [TabModel.parse_lines]. rewrite E. cbv zeta.
  do 36 (destruct c as [|c]; [try reflexivity; exfalso; lia|]). reflexivity.
Qed.
Lemma means_no_newline l m : line_means l m -> ~ In 10 l.
Proof.
  intros [p H | p r H Hr | p q ve e vs cols Hp Hq [He _] Hv _].
  - apply white_no_newline, H.
  - intros I. apply in_app_or in I as [I | [I | I]]; [exact (white_no_newline p H I) | discriminate I | exact (Hr I)].
  - intros I. apply in_app_or in I as [I | I]; [exact (white_no_newline p Hp I)|].
    apply in_app_or in I as [I | I]; [|exact (white_no_newline q Hq I)].
    exact (dark_no_newline _ (row_plain ve vs He (written_plain _ _ Hv)) I).
Qed.
Lemma lines_read ls ms : Forall2 line_means ls ms -> forall es ds,
  exists sums, Forall2 (fun r s => pairwise_sum M (snd r) = Ok s) (somes ms) sums /\
    parse_lines (map strip_cr ls) es ds = Ok (es ++ map fst (somes ms), ds ++ sums).
Proof.
  induction 1 as [|l m ls ms Hl _ IH]; intros es ds.
  { exists []. split; [constructor|]. cbn. rewrite !app_nil_r. reflexivity. }
  cbn [map]. destruct Hl as [p Hp | p r Hp Hr | p q ve e vs cols Hp Hq He Hv n].
  - destruct (IH es ds) as [sums [H1 H2]]. exists sums. split; [exact H1|]. cbn [TabModel.parse_lines].
    rewrite trim_cr, (trim_white p Hp). exact H2.
  - destruct (IH es ds) as [sums [H1 H2]]. exists sums. split; [exact H1|]. cbn [TabModel.parse_lines].
    rewrite trim_cr. destruct (trim_comment p r Hp) as [u ->]. exact H2.
  - destruct (pairwise_sum_ok M cols) as [s Hs]. destruct (IH (es ++ [e]) (ds ++ [s])) as [sums [H1 H2]].
    exists (s :: sums). split; [constructor; assumption|].
    pose proof (written_plain _ _ Hv) as Pv. destruct He as [Pe [ne [nh He]]].
    destruct (row_head ve vs ne nh) as [c [r [Er nc]]].
    rewrite (step_row _ _ _ _ c r); [| rewrite trim_cr, (trim_pad p (row ve vs) q Hp Hq (row_plain ve vs Pe Pv)); exact Er | exact nc].
    assert (Ef : parse_fields M parse_f64 (split_at 44 (c :: r)) = Ok (e :: cols)).
    { rewrite <- Er, (split_row ve vs Pe Pv). apply (fields_read (ve :: vs) (e :: cols)).
      constructor; [repeat split; assumption | exact Hv]. }
    rewrite Ef.
    cbn [rbind]. destruct cols as [|x cols]; [inversion Hv; subst; congruence|]. rewrite Hs. cbn [rbind].
    rewrite H2. cbn [somes map fst]. rewrite <- !app_assoc. reflexivity.
Qed.

(** Every written file of at least one row is read as its energies and the sums of their columns *)
Theorem table_read ls ms : Forall2 line_means ls ms -> somes ms <> [] ->
  exists sums, Forall2 (fun r s => pairwise_sum M (snd r) = Ok s) (somes ms) sums /\
    table_parse M parse_f64 (file ls) = Ok (map fst (somes ms), sums).
Proof.
  intros H n. destruct (lines_read ls ms H [] []) as [sums [H1 H2]]. exists sums. split; [exact H1|].
  unfold table_parse. rewrite lines_of_file.
  - rewrite H2. cbn [rbind app fst]. destruct (somes ms) as [|r rows]; [congruence | reflexivity].
  - clear - H. induction H as [|l m ls ms Hl _ IH]; constructor; [exact (means_no_newline l m Hl) | exact IH].
Qed.

(** A file without rows is refused *)
Theorem empty_table_refused ls ms : Forall2 line_means ls ms -> somes ms = [] -> table_parse M parse_f64 (file ls) = Panic.
Proof.
  intros H n. destruct (lines_read ls ms H [] []) as [sums [H1 H2]].
  unfold table_parse. rewrite lines_of_file.
  - rewrite H2, n. reflexivity.
  - clear - H. induction H as [|l m ls ms Hl _ IH]; constructor; [exact (means_no_newline l m Hl) | exact IH].
Qed.

Lemma fields_bad fs v : Forall (Forall plain) fs -> In v fs -> parse_f64 v = None -> parse_fields M parse_f64 fs = Panic.
Proof.
  induction 1 as [|f fs Hf _ IH]; intros I Hv; [destruct I|]. cbn [parse_fields]. rewrite (trim_plain f Hf).
  destruct I as [-> | I]; [rewrite Hv; reflexivity|]. destruct (parse_f64 f); [rewrite (IH I Hv)|]; reflexivity.
Qed.
Lemma fields_no_err fs e : parse_fields M parse_f64 fs <> Err e.
Proof.
  induction fs as [|f fs IH]; [discriminate|]. cbn [parse_fields]. destruct (parse_f64 (trim f)); [|discriminate].
  destruct (parse_fields M parse_f64 fs); cbn; congruence.
Qed.
Lemma lines_bad ls l : In l ls -> bad_line parse_f64 l -> forall es ds, parse_lines (map strip_cr ls) es ds = Panic.
Proof.
  intros I B. induction ls as [|k ls IH]; [destruct I|]. intros es ds. cbn [map]. destruct I as [-> | I].
  - destruct B as [p [q [ve [vs [Hp [Hq [He [ne [nh [Hv [-> B]]]]]]]]]]]. destruct (row_head ve vs ne nh) as [c [r [Er nc]]].
    rewrite (step_row _ _ _ _ c r); [| rewrite trim_cr, (trim_pad p (row ve vs) q Hp Hq (row_plain ve vs He Hv)); exact Er | exact nc].
    rewrite <- Er, (split_row ve vs He Hv). destruct B as [-> | [v [I B]]].
    + cbn [parse_fields]. destruct (parse_f64 (trim ve)); reflexivity.
    + assert (Ef : parse_fields M parse_f64 (ve :: vs) = Panic) by
        (apply (fields_bad (ve :: vs) v); [constructor; assumption | exact I | exact B]).
      unfold text in Ef |- *. rewrite Ef. reflexivity.
  - specialize (IH I). destruct (trim (strip_cr k)) as [|c r] eqn:E.
    { cbn [TabModel.parse_lines]. rewrite E. apply IH. }
    destruct (Nat.eq_dec c 35) as [-> | n].
    { cbn [TabModel.parse_lines]. rewrite E. apply IH. }
    rewrite (step_row _ _ _ _ c r E n). destruct (parse_fields M parse_f64 (split_at 44 (c :: r))) as [[|x [|y xs]] | e |] eqn:Ef;
      try reflexivity; [|destruct (fields_no_err _ _ Ef)].
    cbn [rbind]. destruct (pairwise_sum_ok M (y :: xs)) as [s ->]. cbn [rbind]. apply IH.
Qed.

(** A line with a field that is no number, or without columns, refuses the whole file *)
Theorem malformed_line_refused ls l : Forall (fun l => ~ In 10 l) ls -> In l ls -> bad_line parse_f64 l ->
  table_parse M parse_f64 (file ls) = Panic.
Proof. intros H I B. unfold table_parse. rewrite lines_of_file by exact H. rewrite (lines_bad ls l I B). reflexivity. Qed.
End Reading.

Lemma sums_real (rows : list (R * list R)) : forall sums : list R,
  Forall2 (fun r s => pairwise_sum RMath (snd r) = Ok s) rows sums -> sums = map (fun r => fold_right Rplus 0%R (snd r)) rows.
Proof.
  induction rows as [|r rows IH]; intros sums H; inversion H as [|x s y l Hs Hl]; subst; [reflexivity|].
  cbn [map]. rewrite <- (IH l Hl). f_equal. rewrite pairwise_sum_is_the_sum in Hs. injection Hs as <-. reflexivity.
Qed.
(** Over the reals the table holds the sums of the columns *)
Theorem table_read_real parse_f64 ls ms : Forall2 (line_means (A := R) parse_f64) ls ms -> somes ms <> [] ->
  table_parse RMath parse_f64 (file ls) = Ok (map fst (somes ms), map (fun r => fold_right Rplus 0%R (snd r)) (somes ms)).
Proof.
  intros H n. destruct (table_read RMath parse_f64 ls ms H n) as [sums [H1 ->]]. do 2 f_equal. exact (sums_real _ _ H1).
Qed.

(** ** Examples *)
(** Numbers of one digit *)
Definition digit (v : text) : option R := match v with [c] => if (48 <=? c) && (c <=? 57) then Some (INR (c - 48)) else None | _ => None end.
Lemma digit_written c : 48 <= c <= 57 -> written digit [c] (INR (c - 48)).
Proof.
  intros H. repeat split; try (cbn; lia); try discriminate.
  - constructor; [unfold plain; lia | constructor].
  - unfold digit. destruct (Nat.leb_spec 48 c), (Nat.leb_spec c 57); try lia. reflexivity.
Qed.
(** "# e,a", "1,2", "", " 3,4,5\r" *)
Definition a_file : list text := [[35; 32; 101; 44; 97]; [49; 44; 50]; []; [32; 51; 44; 52; 44; 53; 13]].
Definition its_rows : list (option (R * list R)) := [None; Some (INR 1, [INR 2]); None; Some (INR 3, [INR 4; INR 5])].
Lemma file_example : Forall2 (line_means digit) a_file its_rows.
Proof.
  unfold a_file, its_rows. constructor; [|constructor; [|constructor; [|constructor; [|constructor]]]].
  - apply (comment_line digit [] [32; 101; 44; 97]); [constructor | cbn; lia].
  - apply (row_line digit [] [] [49] _ [[50]]); try discriminate.
    + constructor.
    + constructor.
    + apply (digit_written 49); lia.
    + constructor; [apply (digit_written 50); lia | constructor].
  - apply blank_line. constructor.
  - apply (row_line digit [32] [13] [51] _ [[52]; [53]]); try discriminate.
    + constructor; [unfold white; lia | constructor].
    + constructor; [unfold white; lia | constructor].
    + apply (digit_written 51); lia.
    + constructor; [apply (digit_written 52); lia | constructor; [apply (digit_written 53); lia | constructor]].
Qed.
Example table_read_example : table_parse RMath digit (file a_file) = Ok ([INR 1; INR 3], [(INR 2 + 0)%R; (INR 4 + (INR 5 + 0))%R]).
Proof. exact (table_read_real digit a_file its_rows file_example ltac:(discriminate)). Qed.
Example empty_example : table_parse RMath digit (file [[]; [35; 32]]) = Panic.
Proof.
  apply (empty_table_refused RMath digit _ [None; None]); [|reflexivity]. constructor; [apply blank_line; constructor|].
  constructor; [apply (comment_line digit [] [32]); [constructor | cbn; lia] | constructor].
Qed.
Lemma plain_digit c : 48 <= c <= 122 -> Forall plain [c].
Proof. intros H. constructor; [unfold plain; lia | constructor]. Qed.
Example malformed_example : bad_line digit [49; 44; 120] /\ bad_line digit [49].
Proof.
  split.
  - exists [], [], [49], [[120]]. repeat split; try discriminate; try (apply Forall_nil).
    + apply plain_digit; lia.
    + constructor; [apply plain_digit; lia | constructor].
    + right. exists [120]. split; [right; left; reflexivity | reflexivity].
  - exists [], [], [49], []. repeat split; try discriminate; try (apply Forall_nil).
    + apply plain_digit; lia.
    + left. reflexivity.
Qed.

(** ** The source says that a ragged file panics; it is read *)
Theorem ragged_table_refused_refuted :
  exists ls ms r1 r2, Forall2 (line_means digit) ls ms /\ In r1 (somes ms) /\ In r2 (somes ms) /\
    length (snd r1) <> length (snd r2) /\ table_parse RMath digit (file ls) <> Panic.
Proof.
  exists a_file, its_rows, (INR 1, [INR 2]), (INR 3, [INR 4; INR 5]).
  split; [exact file_example|]. split; [left; reflexivity|]. split; [right; left; reflexivity|]. split; [discriminate|].
  rewrite (table_read_real digit a_file its_rows file_example ltac:(discriminate)). discriminate.
Qed.

Print Assumptions table_read.
Print Assumptions empty_table_refused.
Print Assumptions malformed_line_refused.
Print Assumptions table_read_real.
Print Assumptions ragged_table_refused_refuted.
