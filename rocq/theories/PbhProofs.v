(** How a table of black-hole spectra is written, and lemmas on reading it back. *)
From Coq Require Import Arith Bool String ZArith Reals Lra Lia List.
From Verif Require Import PyBase ScrModel SingleModel PbhModel.
Import ListNotations.
Local Open Scope R_scope.
Local Open Scope list_scope.

(** * Specification *)

(** digits, most significant first *)
Fixpoint number (l : list nat) : nat :=
  match l with [] => 0 | d :: r => d * 10 ^ length r + number r end%nat.
(** digits after a point *)
Fixpoint fraction (l : list nat) : R :=
  match l with [] => 0 | d :: r => (INR d + fraction r) / 10 end.
Definition digits (l : list nat) : Prop := Forall (fun d => (d < 10)%nat) l.
Definition write_digits (l : list nat) : text := map (fun d => (48 + d)%nat) l.

(** a decimal number, with or without a point *)
Record decimal : Type := Dec { neg : bool; whole : list nat; frac : option (list nat) }.
Definition after_point (n : decimal) : list nat := match frac n with Some f => f | None => [] end.
Definition decimal_ok (n : decimal) : Prop :=
  digits (whole n) /\ digits (after_point n) /\ (whole n <> [] \/ after_point n <> []).
Definition write_decimal (n : decimal) : text :=
  (if neg n then codes "-" else []) ++ write_digits (whole n)
  ++ match frac n with Some f => codes "." ++ write_digits f | None => [] end.
Definition decimal_value (n : decimal) : R :=
  (if neg n then -1 else 1) * (INR (number (whole n)) + fraction (after_point n)).

(** a number as [float] takes it, and the form of the masses in the header, with a decimal exponent *)
Inductive numeral : Type :=
| Plain (n : decimal)
| Exp (n : decimal) (x_neg : bool) (x : list nat)
| Odd (n : decimal) (x : decimal).
Definition numeral_ok (a : numeral) : Prop :=
  match a with
  | Plain n => decimal_ok n
  | Exp n _ x => decimal_ok n /\ digits x /\ x <> []
  | Odd n x => decimal_ok n /\ decimal_ok x /\ frac x <> None
  end.
Definition ordinary (a : numeral) : Prop := match a with Odd _ _ => False | _ => True end.
Definition write (a : numeral) : text :=
  match a with
  | Plain n => write_decimal n
  | Exp n s x => write_decimal n ++ codes "e" ++ (if s then codes "-" else []) ++ write_digits x
  | Odd n x => write_decimal n ++ codes "e" ++ write_decimal x
  end.
Definition value (a : numeral) : R :=
  match a with
  | Plain n => decimal_value n
  | Exp n s x => decimal_value n * (if s then / 10 ^ number x else 10 ^ number x)
  | Odd n x => decimal_value n * Rpower 10 (decimal_value x)
  end.

(** a cell: a number and the white space after it, such as the end of the line *)
Definition spaces (t : text) : Prop := forallb is_space t = true.
Definition cell : Type := (numeral * text)%type.
Definition cell_ok (c : cell) : Prop := numeral_ok (fst c) /\ spaces (snd c).
Definition write_cell (c : cell) : text := write (fst c) ++ snd c.
Definition cell_value (c : cell) : R := value (fst c).
Fixpoint join (l : list text) : text :=
  match l with [] => [] | [a] => a | a :: r => a ++ codes "," ++ join r end.
Definition no_comma (t : text) : Prop := ~ In 44%nat t.

(** a table: a column of labels, a column of energies and a column for each mass *)
Record sheet : Type := Sheet {
  corner : text * text;
  masses : list cell;
  rows : list (text * (cell * list cell)) }.
Definition sheet_ok (s : sheet) : Prop :=
  no_comma (fst (corner s)) /\ no_comma (snd (corner s)) /\ Forall cell_ok (masses s) /\ rows s <> [] /\
  Forall (fun r => no_comma (fst r) /\ cell_ok (fst (snd r)) /\ ordinary (fst (fst (snd r))) /\
                   Forall (fun c => cell_ok c /\ ordinary (fst c)) (snd (snd r)) /\
                   length (snd (snd r)) = length (masses s)) (rows s).
Definition write_sheet (s : sheet) : list text :=
  join (fst (corner s) :: snd (corner s) :: map write_cell (masses s))
  :: map (fun r => join (fst r :: write_cell (fst (snd r)) :: map write_cell (snd (snd r)))) (rows s).

(** * Lemmas *)

Definition clean (t : text) : Prop := forallb (fun c => negb (is_space c)) t = true.

Lemma drop_all : forall f a b, forallb f a = true -> drop_while f (a ++ b) = drop_while f b.
Proof.
  intros f a b. induction a as [|c a IH]; intro H; [reflexivity|]. cbn in H. apply andb_prop in H as (Hc & Ha).
  unfold drop_while in *. cbn. rewrite Hc. destruct (span f (a ++ b)) eqn:E. cbn. rewrite <- IH by assumption. reflexivity.
Qed.
Lemma drop_none : forall f a, forallb (fun c => negb (f c)) a = true -> forall b, a <> [] -> drop_while f (a ++ b) = a ++ b.
Proof.
  intros f [|c a] H b N; [congruence|]. cbn in H. apply andb_prop in H as (Hc & _). apply negb_true_iff in Hc.
  unfold drop_while. cbn. rewrite Hc. reflexivity.
Qed.
Lemma forallb_rev : forall (f : nat -> bool) a, forallb f (rev a) = forallb f a.
Proof.
  intros f a. induction a; [reflexivity|]. cbn. rewrite forallb_app, IHa. cbn. rewrite andb_true_r. apply andb_comm.
Qed.
Lemma strip_clean : forall t w, clean t -> t <> [] -> spaces w -> strip (t ++ w) = t.
Proof.
  intros t w Ht N Hw. unfold strip, drop_end_while. rewrite (drop_none is_space t Ht w N).
  rewrite rev_app_distr, drop_all by (rewrite forallb_rev; exact Hw).
  rewrite <- (app_nil_r (rev t)). rewrite (drop_none is_space (rev t)).
  - rewrite app_nil_r. apply rev_involutive.
  - rewrite forallb_rev. exact Ht.
  - intro E. apply N. rewrite <- (rev_involutive t), E. reflexivity.
Qed.

Lemma digit_char : forall d, (d < 10)%nat -> is_digit (48 + d) = true /\ is_space (48 + d) = false.
Proof. intros d H. do 10 (destruct d as [|d]; [split; reflexivity|]). lia. Qed.
Lemma clean_digits : forall l, digits l -> clean (write_digits l).
Proof.
  unfold clean. induction 1 as [|d l Hd _ IH]; [reflexivity|]. cbn [write_digits map forallb]. destruct (digit_char d Hd) as (_ & E).
  rewrite E. exact IH.
Qed.
Definition stops (t : text) : Prop := match t with [] => True | c :: _ => is_digit c = false end.
Lemma span_digits : forall l t, digits l -> stops t -> span is_digit (write_digits l ++ t) = (write_digits l, t).
Proof.
  intros l t Hl Ht. induction Hl as [|d l Hd _ IH].
  - destruct t; [reflexivity|]. cbn in *. rewrite Ht. reflexivity.
  - cbn [write_digits map app span]. destruct (digit_char d Hd) as (E & _). rewrite E.
    change (map (fun d => (48 + d)%nat) l) with (write_digits l). rewrite IH. reflexivity.
Qed.
Lemma digits_value_write : forall l, digits_value (write_digits l) = Z.of_nat (number l).
Proof.
  intro l. unfold digits_value.
  assert (G : forall a, fold_left (fun a c => (10 * a + (Z.of_nat c - 48))%Z) (write_digits l) a
    = (a * 10 ^ Z.of_nat (length l) + Z.of_nat (number l))%Z).
  { induction l as [|d l IH]; intro a; [cbn; lia|]. cbn [write_digits map fold_left number length].
    change (map (fun d => (48 + d)%nat) l) with (write_digits l). rewrite IH.
    rewrite Nat2Z.inj_succ, Z.pow_succ_r by lia. rewrite !Nat2Z.inj_add, Nat2Z.inj_mul, Nat2Z.inj_pow. change (Z.of_nat 10) with 10%Z. change (Z.of_nat 48) with 48%Z. lia. }
  rewrite G. lia.
Qed.
Lemma number_app : forall a b, number (a ++ b) = (number a * 10 ^ length b + number b)%nat.
Proof. induction a; intro b; [reflexivity|]. cbn [app number]. rewrite IHa, app_length, Nat.pow_add_r. lia. Qed.
Lemma fraction_number : forall l, fraction l = INR (number l) / 10 ^ length l.
Proof.
  induction l as [|d l IH]; [cbn; field|]. cbn [fraction number length]. rewrite IH, plus_INR, mult_INR, pow_INR.
  replace (INR 10) with 10 by (cbn; ring). cbn [pow]. field. apply pow_nonzero. lra.
Qed.

Lemma sign_digits : forall l t, digits l -> l <> [] -> take_sign (write_digits l ++ t) = (1%Z, write_digits l ++ t).
Proof.
  intros [|d l] t H N; [congruence|]. inversion H as [|? ? Hd]; subst. cbn [write_digits map app take_sign].
  do 10 (destruct d as [|d]; [reflexivity|]). lia.
Qed.

(** the text of a decimal *)
Lemma decimal_clean : forall n, decimal_ok n -> clean (write_decimal n) /\ write_decimal n <> [].
Proof.
  intros [s w f] (Hw & Hf & N). cbn [neg whole frac after_point] in *. unfold write_decimal, clean. cbn [neg whole frac]. split.
  - rewrite !forallb_app, (clean_digits w Hw). destruct s; destruct f as [f|]; try reflexivity;
      cbn [after_point frac] in Hf; rewrite forallb_app, (clean_digits f Hf); reflexivity.
  - destruct s; [discriminate|]. destruct w; [|discriminate]. destruct f; [discriminate|]. destruct N as [N|N]; exfalso; apply N; reflexivity.
Qed.

(** reading the mantissa leaves the rest to the exponent *)
Definition opens (t : text) : Prop := match t with [] => True | c :: _ => is_digit c = false /\ c <> 46%nat end.
Lemma float_mantissa : forall n t w, decimal_ok n -> clean t -> opens t -> spaces w ->
  py_float (write_decimal n ++ t ++ w) = option_map (fun x => decimal_value n * powerRZ 10 x) (exponent_part t).
Proof.
  intros n t w Hn Ht Ho Hw. destruct (decimal_clean n Hn) as (Cn & Nn). destruct Hn as (Hd & Hf & N).
  unfold py_float. rewrite app_assoc, strip_clean; [|unfold clean; rewrite forallb_app; unfold clean in Cn, Ht; rewrite Cn; exact Ht
    |intro E; apply Nn; apply app_eq_nil in E; tauto|exact Hw].
  destruct n as [s wh f]. unfold decimal_value, write_decimal, after_point in *. cbn [neg whole frac] in *.
  set (tail := match f with Some f => codes "." ++ write_digits f | None => [] end) in *.
  assert (St : stops (tail ++ t)).
  { unfold tail. destruct f as [f|]; [reflexivity|]. cbn. destruct t; [exact I|]. apply Ho. }
  assert (TS : take_sign (((if s then codes "-" else []) ++ write_digits wh ++ tail) ++ t)
    = ((if s then -1 else 1)%Z, write_digits wh ++ (tail ++ t))).
  { destruct s; cbn [app].
    - rewrite <- !app_assoc. reflexivity.
    - rewrite <- !app_assoc. destruct wh as [|d wh]; [|apply sign_digits; [exact Hd|discriminate]].
      cbn [write_digits map app]. unfold tail. destruct f as [f|]; [reflexivity|]. exfalso. destruct N as [N|N]; apply N; reflexivity. }
  rewrite TS. rewrite (span_digits wh (tail ++ t) Hd St).
  assert (SP : point_part (tail ++ t)
    = (write_digits (match f with Some f => f | None => [] end), t)).
  { unfold tail. destruct f as [f|].
    - change (codes ".") with [46%nat]. cbn [app point_part]. change (Nat.eqb 46 46) with true. cbv iota.
      apply span_digits; [exact Hf|]. destruct t; [exact I|]. apply Ho.
    - cbn [app write_digits map]. destruct t as [|c t]; [reflexivity|]. destruct Ho as (_ & Hc). apply Nat.eqb_neq in Hc. cbn [point_part]. rewrite Hc. reflexivity. }
  rewrite SP. set (fr := match f with Some f => f | None => [] end) in *.
  assert (ED : write_digits wh ++ write_digits fr = write_digits (wh ++ fr)) by (unfold write_digits; symmetry; apply map_app).
  rewrite ED. destruct (write_digits (wh ++ fr)) as [|c d] eqn:E.
  { exfalso. apply map_eq_nil, app_eq_nil in E. tauto. }
  rewrite <- E, digits_value_write. destruct (exponent_part t) as [x|]; [|reflexivity]. cbn [option_map]. f_equal. f_equal.
  rewrite mult_IZR, <- INR_IZR_INZ, number_app, plus_INR, mult_INR, pow_INR, fraction_number.
  replace (INR 10) with 10 by (cbn; ring). unfold write_digits. rewrite map_length.
  destruct s; field; apply pow_nonzero; lra.
Qed.

Lemma float_plain : forall n w, decimal_ok n -> spaces w -> py_float (write_decimal n ++ w) = Some (decimal_value n).
Proof.
  intros n w Hn Hw. pose proof (float_mantissa n [] w Hn eq_refl I Hw) as E. cbn [app] in E. rewrite E. cbn. f_equal. ring.
Qed.
Lemma float_exp : forall n s x w, decimal_ok n -> digits x -> x <> [] -> spaces w ->
  py_float (write (Exp n s x) ++ w) = Some (value (Exp n s x)).
Proof.
  intros n s x w Hn Hx Nx Hw. cbn [write value].
  set (t := codes "e" ++ (if s then codes "-" else []) ++ write_digits x).
  rewrite <- app_assoc, (float_mantissa n t w Hn).
  - assert (E : exponent_part t = Some ((if s then -1 else 1) * Z.of_nat (number x))%Z).
    { unfold t. change (codes "e") with [101%nat]. cbn [app exponent_part Nat.eqb orb].
      assert (TS : take_sign ((if s then codes "-" else []) ++ write_digits x) = ((if s then -1 else 1)%Z, write_digits x)).
      { destruct s; [reflexivity|]. cbn [app]. pose proof (sign_digits x [] Hx Nx) as E. rewrite app_nil_r in E. exact E. }
      rewrite TS. pose proof (span_digits x [] Hx I) as E. rewrite app_nil_r in E. rewrite E, <- digits_value_write.
      destruct x; [congruence|]. reflexivity. }
    rewrite E. cbn [option_map]. f_equal. f_equal. destruct s.
    + replace (-1 * Z.of_nat (number x))%Z with (- Z.of_nat (number x))%Z by lia. rewrite powerRZ_neg', <- pow_powerRZ.
      reflexivity.
    + rewrite Z.mul_1_l, <- pow_powerRZ. reflexivity.
  - unfold t, clean. rewrite !forallb_app. pose proof (clean_digits x Hx) as C. unfold clean in C. rewrite C. destruct s; reflexivity.
  - split; [reflexivity|]. unfold t. cbn. discriminate.
  - exact Hw.
Qed.

Lemma split_none : forall c t, ~ In c t -> split_at c t = [t].
Proof.
  intros c t. induction t as [|d t IH]; intro H; [reflexivity|]. cbn in *. destruct (Nat.eqb_spec d c) as [E|_]; [tauto|].
  rewrite IH by tauto. reflexivity.
Qed.
Lemma split_first : forall c a t, ~ In c a -> split_at c (a ++ c :: t) = a :: split_at c t.
Proof.
  intros c a t. induction a as [|d a IH]; intro H; cbn in *.
  - rewrite Nat.eqb_refl. reflexivity.
  - destruct (Nat.eqb_spec d c) as [E|_]; [tauto|]. rewrite IH by tauto. reflexivity.
Qed.
Lemma split_join : forall l, l <> [] -> Forall no_comma l -> split_at 44 (join l) = l.
Proof.
  intros l N H. induction H as [|a l Ha Hl IH]; [congruence|]. destruct l as [|b l].
  - cbn [join]. apply split_none, Ha.
  - cbn [join]. change (codes ",") with [44%nat]. cbn [app]. rewrite split_first by exact Ha. f_equal. apply IH. discriminate.
Qed.

(** letters that a number does not have *)
Lemma in_digits : forall l c, digits l -> In c (write_digits l) -> (48 <= c <= 57)%nat.
Proof.
  intros l c H Hc. apply in_map_iff in Hc as (d & <- & Hd). unfold digits in H. rewrite Forall_forall in H. specialize (H d Hd). lia.
Qed.
Lemma in_decimal : forall n c, decimal_ok n -> In c (write_decimal n) -> (45 <= c <= 57)%nat.
Proof.
  intros [s w f] c (Hw & Hf & _) Hc. unfold write_decimal, after_point in *. cbn [neg whole frac] in *.
  apply in_app_or in Hc as [Hc|Hc].
  { destruct s; [|destruct Hc]. cbn in Hc. lia. }
  apply in_app_or in Hc as [Hc|Hc].
  { pose proof (in_digits _ _ Hw Hc). lia. }
  destruct f as [f|]; [|destruct Hc]. apply in_app_or in Hc as [Hc|Hc]; [cbn in Hc; lia|]. pose proof (in_digits _ _ Hf Hc). lia.
Qed.
Lemma in_spaces : forall t c, spaces t -> In c t -> is_space c = true.
Proof. intros t c H Hc. unfold spaces in H. rewrite forallb_forall in H. auto. Qed.
Lemma cell_no_comma : forall c, cell_ok c -> no_comma (write_cell c).
Proof.
  intros (a & w) (Ha & Hw) Hc. unfold write_cell in Hc. cbn [fst snd] in *.
  apply in_app_or in Hc as [Hc|Hc]; [|apply in_spaces in Hc; [discriminate|exact Hw]].
  destruct a as [n|n s x|n x]; cbn [write numeral_ok] in *.
  - pose proof (in_decimal _ _ Ha Hc). lia.
  - destruct Ha as (Hn & Hx & _). apply in_app_or in Hc as [Hc|Hc]; [pose proof (in_decimal _ _ Hn Hc); lia|].
    apply in_app_or in Hc as [Hc|Hc]; [cbn in Hc; lia|]. apply in_app_or in Hc as [Hc|Hc].
    + destruct s; [cbn in Hc; lia|destruct Hc].
    + pose proof (in_digits _ _ Hx Hc). lia.
  - destruct Ha as (Hn & Hx & _). apply in_app_or in Hc as [Hc|Hc]; [pose proof (in_decimal _ _ Hn Hc); lia|].
    apply in_app_or in Hc as [Hc|Hc]; [cbn in Hc; lia|]. pose proof (in_decimal _ _ Hx Hc). lia.
Qed.

Lemma float_ordinary : forall c, cell_ok c -> ordinary (fst c) -> py_float (write_cell c) = Some (cell_value c).
Proof.
  intros ([n|n s x|n x] & w) (Ha & Hw) O; cbn [fst snd numeral_ok ordinary] in *; unfold write_cell, cell_value; cbn [fst snd].
  - apply float_plain; assumption.
  - destruct Ha as (Hn & Hx & N). apply float_exp; assumption.
  - destruct O.
Qed.
(** the odd form is not one of [float] *)
Lemma float_odd : forall n x w, decimal_ok n -> decimal_ok x -> frac x <> None -> spaces w ->
  py_float (write (Odd n x) ++ w) = None.
Proof.
  intros n x w Hn Hx F Hw. cbn [write]. rewrite <- app_assoc.
  rewrite (float_mantissa n (codes "e" ++ write_decimal x) w Hn).
  - change (codes "e") with [101%nat]. cbn [app exponent_part Nat.eqb orb].
    destruct x as [s wh f]. destruct f as [f|]; [|cbn in F; congruence]. destruct Hx as (Hd & _ & _). unfold write_decimal. cbn [neg whole frac] in *.
    assert (TS : take_sign ((if s then codes "-" else []) ++ write_digits wh ++ codes "." ++ write_digits f)
      = ((if s then -1 else 1)%Z, write_digits wh ++ codes "." ++ write_digits f)).
    { destruct s; [reflexivity|]. cbn [app]. destruct wh as [|d wh]; [reflexivity|]. apply sign_digits; [exact Hd|discriminate]. }
    rewrite TS, span_digits; [|exact Hd|reflexivity]. destruct (write_digits wh); reflexivity.
  - destruct (decimal_clean x Hx) as (C & _). unfold clean in *. rewrite forallb_app, C. reflexivity.
  - split; [reflexivity|discriminate].
  - exact Hw.
Qed.
Lemma parse_cell : forall c, cell_ok c -> parse_float (write_cell c) = Ret (cell_value c).
Proof.
  intros c Hc. destruct c as ([n|n s x|n x] & w).
  - unfold parse_float. rewrite (float_ordinary _ Hc I). reflexivity.
  - unfold parse_float. rewrite (float_ordinary _ Hc I). reflexivity.
  - destruct Hc as ((Hn & Hx & F) & Hw). cbn [fst snd] in *. unfold parse_float, write_cell, cell_value. cbn [fst snd].
    rewrite float_odd by assumption. cbn [write]. rewrite <- !app_assoc. change (codes "e") with [101%nat]. cbn [app].
    rewrite split_first by (intro H; pose proof (in_decimal _ _ Hn H); lia). rewrite split_none.
    + pose proof (float_plain n [] Hn eq_refl) as E. rewrite app_nil_r in E. rewrite E, float_plain by assumption. reflexivity.
    + intro H. apply in_app_or in H as [H|H]; [pose proof (in_decimal _ _ Hx H); lia|]. apply in_spaces in H; [discriminate|exact Hw].
Qed.

Lemma map_res_map : forall {A B C} (f : B -> res C) (g : A -> B) (h : A -> C) l,
  (forall x, In x l -> f (g x) = Ret (h x)) -> map_res f (map g l) = Ret (map h l).
Proof.
  intros A B C f g h l. induction l as [|x l IH]; intro H; [reflexivity|]. cbn [map map_res].
  rewrite (H x) by (left; reflexivity). cbn [bind]. rewrite IH by (intros; apply H; right; assumption). reflexivity.
Qed.
