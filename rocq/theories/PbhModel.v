(** Model of hazma/pbh.py, the tables of black-hole spectra: reading the file, the units and the column of
    a mass.  A text is a list of Unicode code points (ScrModel).  Numbers are reals: rounding to binary64 is
    left out. *)
From Coq Require Import Arith Bool String Reals List.
From Verif Require Import PyBase ScrModel SingleModel.
Import ListNotations.
Local Open Scope R_scope.
Local Open Scope list_scope.

(** parameters.py 16-35: the mass of one gram in MeV, from the speed of light, Planck's constant over 2 pi
    and the joule in MeV *)
Definition speed_of_light : R := 299792458.
Definition hbar_joule_sec : R := 662607015 / 10 ^ 8 / 10 ^ 34 / (2 * PI).
Definition joule_to_mev : R := 1 / (1602176634 / 10 ^ 9 / 10 ^ 19) * / 10 ^ 6.
Definition s_to_inv_mev : R := 1 / (hbar_joule_sec * joule_to_mev).
Definition m_to_inv_mev : R := s_to_inv_mev / speed_of_light.
Definition g_to_mev : R := s_to_inv_mev / m_to_inv_mev ^ 2 / hbar_joule_sec * / 10 ^ 3.
Definition mev_to_g : R := 1 / g_to_mev.

(** The number a run of digits writes *)
Definition digits_value (d : text) : Z := fold_left (fun a c => (10 * a + (Z.of_nat c - 48))%Z) d 0%Z.

(** An optional sign (43 is plus, 45 is minus) *)
Definition take_sign (t : text) : Z * text :=
  match t with
  | c :: r => if Nat.eqb c 45 then ((-1)%Z, r) else if Nat.eqb c 43 then (1%Z, r) else (1%Z, t)
  | [] => (1%Z, t)
  end.

(** The part after the mantissa: nothing, or e or E (101, 69), a sign and at least one digit *)
Definition exponent_part (t : text) : option Z :=
  match t with
  | [] => Some 0%Z
  | c :: r =>
      if Nat.eqb c 101 || Nat.eqb c 69 then
        let (s, r1) := take_sign r in
        match span is_digit r1 with
        | (((_ :: _) as d), []) => Some (s * digits_value d)%Z
        | _ => None
        end
      else None
  end.

(** A point (46) and the digits after it, if there is one *)
Definition point_part (t : text) : text * text :=
  match t with
  | c :: r => if Nat.eqb c 46 then span is_digit r else ([], t)
  | [] => ([], t)
  end.

(** Python's [float] of a text, called in pbh.py 64, 67 and 71: white space around it, a sign, digits with
    or without a point, an exponent; None is the ValueError.  Simplified: "inf", "nan" and underscores
    between digits, which [float] accepts, are refused. *)
Definition py_float (t : text) : option R :=
  let (s, r0) := take_sign (strip t) in
  let (a, r1) := span is_digit r0 in
  let (b, r2) := point_part r1 in
  match a ++ b with
  | [] => None
  | d => match exponent_part r2 with
         | Some x => Some (IZR (s * digits_value d) * / 10 ^ length b * powerRZ 10 x)
         | None => None
         end
  end.

(** pbh.py 62-67; 101 is "e"; unpacking anything but two parts raises ValueError, as does [float] *)
Definition parse_float (t : text) : res R :=
  match py_float t with
  | Some v => Ret v
  | None =>
      match split_at 101 t with
      | [sig; exponent] =>
          match py_float sig, py_float exponent with
          | Some v, Some x => Ret (v * Rpower 10 x)
          | _, _ => Raise ValueError
          end
      | _ => Raise ValueError
      end
  end.

Fixpoint map_res {A B} (f : A -> res B) (l : list A) : res (list B) :=
  match l with
  | [] => Ret []
  | x :: r => let* y := f x in let* ys := map_res f r in Ret (y :: ys)
  end.

(** pbh.py 69-71; 44 is a comma *)
Definition parse_line (line : text) : res (list R) :=
  map_res (fun t => match py_float t with Some v => Ret v | None => Raise ValueError end) (tl (split_at 44 line)).

(** np.array of lists in pbh.py 80: lists of different lengths raise ValueError *)
Definition rectangular (rows : list (list R)) : bool :=
  match rows with
  | [] => true
  | r :: rest => forallb (fun x => Nat.eqb (length x) (length r)) rest
  end.

(** What the object holds after loading (pbh.py 82-86) *)
Record pbh_table : Type := MkTable { t_mxs : list R; t_egams : list R; t_d2n : list (list R) }.

(** pbh.py 73-86 for a file given as its lines, newlines included; [g] is g_to_MeV.  An empty file has the
    empty first line.  [data[:, 0]] raises IndexError without rows (the array is one-dimensional) and with
    empty rows. *)
Definition load_table (g : R) (lines : list text) : res pbh_table :=
  let header := match lines with [] => [] | h :: _ => h end in
  let* masses := map_res parse_float (tl (tl (split_at 44 header))) in
  let* data := map_res parse_line (tl lines) in
  if rectangular data then
    match data with
    | [] => Raise IndexError
    | r :: _ =>
        if Nat.eqb (length r) 0 then Raise IndexError
        else Ret (MkTable (map (fun m => m * g) masses)
                          (map (fun r => hd 0 r * 1000) data)
                          (map (fun r => map (fun v => v * / 1000) (tl r)) data))
    end
  else Raise ValueError.

(** pbh.py 52-60 *)
Definition table_file (kind : string) (bh_secondary : bool) : res string :=
  if String.eqb kind "primary" then Ret "pbh_primary_spectra_bh.csv"%string
  else if String.eqb kind "secondary" && bh_secondary then Ret "pbh_secondary_spectra_bh.csv"%string
  else if String.eqb kind "secondary" then Ret "pbh_secondary_spectra.csv"%string
  else Raise ValueError.

(** pbh.py 37-43: the file is read before the mass is looked up; [disk] gives the lines of a file of the
    package *)
Definition pbh_init (g : R) (disk : string -> list text) (mx : R) (kind : string) (bh_secondary : bool)
  : res (pbh_table * pbh) :=
  let* name := table_file kind bh_secondary in
  let* t := load_table g (disk name) in
  let* o := pbh_new (t_mxs t) mx in
  Ret (t, o).

(** pbh.py 112-115: the column handed to the interpolation; an index outside the columns raises IndexError *)
Definition column (t : pbh_table) (o : pbh) : res (list R) :=
  match p_col o with
  | None => Raise IndexError
  | Some i => map_res (fun r => match nth_error r i with Some v => Ret v | None => Raise IndexError end) (t_d2n t)
  end.
