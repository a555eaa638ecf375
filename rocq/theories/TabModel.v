(** Model of the reading of the shipped tables of photon spectra, rust/src/kernels/photon_tables.rs [Table::parse].  A text is a
    list of code points (ScrModel). *)
From Coq Require Import List Arith Bool.
From Verif Require Import RustBase RustMath ScrModel BoostModel.
Import ListNotations.

(** [char::is_whitespace]; those beyond U+00FF are left out *)
Definition is_white (c : nat) : bool := ((9 <=? c) && (c <=? 13)) || (c =? 32) || (c =? 133) || (c =? 160).
(** [str::trim], photon_tables.rs 195 and 203 *)
Definition trim (t : text) : text := drop_end_while is_white (drop_while is_white t).
(** [str::lines], photon_tables.rs 194: the ends of lines are taken off, with a carriage return before them, and a last empty line
    is no line *)
Definition strip_cr (w : text) : text := match rev w with 13 :: r => rev r | _ => w end.
Definition lines_of (t : text) : list text :=
  let ws := split_at 10 t in
  map strip_cr (removelast ws) ++ match last ws [] with [] => [] | w => [w] end.

Section Table.
Variable M : Math.
(** [str::parse::<f64>] *)
Variable parse_f64 : text -> option (F M).

(** photon_tables.rs 200-207: every field, the first being the energy *)
Fixpoint parse_fields (fs : list text) : rr unit (list (F M)) :=
  match fs with
  | [] => Ok []
  | f :: r => match parse_f64 (trim f) with
              | None => Panic
              | Some x => xs <- parse_fields r ;; Ok (x :: xs)
              end
  end.

(** photon_tables.rs 194-214 *)
Fixpoint parse_lines (ls : list text) (energies dnde : list (F M)) : rr unit (list (F M) * list (F M)) :=
  match ls with
  | [] => Ok (energies, dnde)
  | line :: rest =>
      let line := trim line in
      match line with
      | [] => parse_lines rest energies dnde
      | 35 :: _ => parse_lines rest energies dnde
      | _ =>
          fields <- parse_fields (split_at 44 line) ;;
          match fields with
          | [] => Panic
          | energy :: components =>
              match components with
              | [] => Panic
              | _ => s <- pairwise_sum M components ;; parse_lines rest (energies ++ [energy]) (dnde ++ [s])
              end
          end
      end
  end.

(** photon_tables.rs 189-218 *)
Definition table_parse (csv : text) : rr unit (list (F M) * list (F M)) :=
  t <- parse_lines (lines_of csv) [] [] ;;
  match fst t with [] => Panic | _ => Ok t end.
End Table.
