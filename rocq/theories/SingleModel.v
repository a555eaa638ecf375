(** Models of hazma/single_channel.py and hazma/pbh.py: objects with setters. *)
From Coq Require Import String Ascii Bool Reals List.
From Verif Require Import PyBase LimitsModel.
Import ListNotations.
Local Open Scope string_scope.
Local Open Scope list_scope.
Local Open Scope R_scope.

(** Python's str.split(" "): one piece per separator, pieces may be empty. *)
Fixpoint split_aux (s : string) (cur : string) : list string :=
  match s with
  | EmptyString => [cur]
  | String c r =>
      if Ascii.eqb c " "%char then cur :: split_aux r ""
      else split_aux r (cur ++ String c "")
  end.
Definition split_space (s : string) : list string := split_aux s "".

(** A line energy as stored by the code: a number, or a nested dictionary. *)
Inductive pyline : Type := PyNum (x : R) | PyDict (d : dict R).

Section Masses.
(** hazma/parameters.py standard_model_masses *)
Variable sm : dict R.

Definition lookup_masses (names : list string) : res (list R) := mapM (fun s => dindex sm s) names.

(** ** SingleChannelAnn *)

(** single_channel.py 16-21: the attributes *)
Record ann : Type := {
  a_mx : R; a_fs : string; a_sigma : R; a_states : list string; a_masses : list R
}.

(** single_channel.py 16-21 *)
Definition ann_new (mx : R) (fs : string) (sigma : R) : res ann :=
  let* ms := lookup_masses (split_space fs) in
  Ret {| a_mx := mx; a_fs := fs; a_sigma := sigma; a_states := split_space fs; a_masses := ms |}.

Inductive ann_op : Type := AnnSetFs (fs : string) | AnnSetMx (mx : R) | AnnSetSigma (s : R).

(** single_channel.py 37-41, 48-50; the object survives a KeyError half
    updated, so the new object is returned along with the outcome. *)
Definition ann_step (o : ann) (op : ann_op) : ann * res unit :=
  match op with
  | AnnSetFs fs =>
      match lookup_masses (split_space fs) with
      | Ret ms => ({| a_mx := a_mx o; a_fs := fs; a_sigma := a_sigma o;
                      a_states := split_space fs; a_masses := ms |}, Ret tt)
      | Raise e => ({| a_mx := a_mx o; a_fs := fs; a_sigma := a_sigma o;
                       a_states := split_space fs; a_masses := a_masses o |}, Raise e)
      end
  | AnnSetMx mx => ({| a_mx := mx; a_fs := a_fs o; a_sigma := a_sigma o;
                       a_states := a_states o; a_masses := a_masses o |}, Ret tt)
  | AnnSetSigma s => ({| a_mx := a_mx o; a_fs := a_fs o; a_sigma := s;
                         a_states := a_states o; a_masses := a_masses o |}, Ret tt)
  end.
Definition ann_run (o : ann) (ops : list ann_op) : ann :=
  fold_left (fun o op => fst (ann_step o op)) ops o.

(** single_channel.py 52-55 *)
Definition ann_fs_mass (o : ann) : res R :=
  let* ms := lookup_masses (a_states o) in Ret (fold_left Rplus ms 0).
(** single_channel.py 65-69 *)
Definition ann_list (o : ann) : list string := [a_fs o].
(** single_channel.py 57-63 *)
Definition ann_xsec (o : ann) (e_cm : R) : res R :=
  if Rlt_dec e_cm (2 * a_mx o) then Ret 0
  else let* m := ann_fs_mass o in
       if Rlt_dec e_cm m then Ret 0 else Ret (a_sigma o).

(** single_channel.py 87-104 (and 200-218 with mx for e_cm) *)
Definition gamma_line_energies (fs : string) (states : list string) (masses : list R) (Q : R)
  : res (dict pyline) :=
  match states with
  | [s1; s2] =>
      match masses with
      | [m1; m2] =>
          let e1 := (Q ^ 2 + m1 ^ 2 - m2 ^ 2) / (2 * Q) in
          let e2 := (Q ^ 2 - m1 ^ 2 + m2 ^ 2) / (2 * Q) in
          Ret (if andb (String.eqb s1 "g") (String.eqb s2 "g") then [(fs, PyDict [("g g", e1)])]
               else if String.eqb s1 "g" then [(fs, PyDict [("g g", e1)])]
               else if String.eqb s2 "g" then [(fs, PyDict [("g g", e2)])]
               else [])
      | _ => Raise ValueError     (* unpacking mismatch *)
      end
  | _ => Ret []
  end.

(** single_channel.py 109-124 (and 223-239 with mx for e_cm) *)
Definition positron_line_energies (fs : string) (states : list string) (masses : list R) (Q : R)
  : res (dict pyline) :=
  match states with
  | [s1; s2] =>
      match masses with
      | [m1; m2] =>
          let e1 := (Q ^ 2 + m1 ^ 2 - m2 ^ 2) / (2 * Q) in
          let e2 := (Q ^ 2 - m1 ^ 2 + m2 ^ 2) / (2 * Q) in
          Ret (if String.eqb s1 "e" then [(fs, PyDict [(fs, e1)])]
               else if String.eqb s2 "e" then [(fs, PyDict [(fs, e2)])]
               else [])
      | _ => Raise ValueError
      end
  | _ => Ret []
  end.

(** ** SingleChannelDec *)

(** single_channel.py 135-140 *)
Record dec : Type := {
  d_mx : R; d_fs : string; d_width : R; d_states : list string; d_masses : list R
}.
Definition dec_new (mx : R) (fs : string) (width : R) : res dec :=
  let* ms := lookup_masses (split_space fs) in
  Ret {| d_mx := mx; d_fs := fs; d_width := width; d_states := split_space fs; d_masses := ms |}.

Inductive dec_op : Type := DecSetFs (fs : string) | DecSetMx (mx : R) | DecSetWidth (w : R).

(** single_channel.py 156-158 (only [_fs] is written), 165-167 *)
Definition dec_step (o : dec) (op : dec_op) : dec :=
  match op with
  | DecSetFs fs => {| d_mx := d_mx o; d_fs := fs; d_width := d_width o;
                      d_states := d_states o; d_masses := d_masses o |}
  | DecSetMx mx => {| d_mx := mx; d_fs := d_fs o; d_width := d_width o;
                      d_states := d_states o; d_masses := d_masses o |}
  | DecSetWidth w => {| d_mx := d_mx o; d_fs := d_fs o; d_width := w;
                        d_states := d_states o; d_masses := d_masses o |}
  end.
Definition dec_run (o : dec) (ops : list dec_op) : dec := fold_left dec_step ops o.

(** single_channel.py 169-172 *)
Definition dec_fs_mass (o : dec) : res R :=
  let* ms := lookup_masses (d_states o) in Ret (fold_left Rplus ms 0).
(** single_channel.py 174-176 *)
Definition dec_list (o : dec) : list string := [d_fs o].
(** single_channel.py 178-179 *)
Definition dec_widths (o : dec) : dict R := [(d_fs o, d_width o)].

End Masses.

(** theory/_theory_cmb.py 107-122 again, on line energies as the code stores
    them: comparing a dictionary with a number raises TypeError. *)
Fixpoint line_sum_py (fs : string) (e_cm e_min : R) (f : R -> R)
    (lines : dict (pyline * R)) (acc : R) : res R :=
  match lines with
  | [] => Ret acc
  | (ch, (PyDict _, _)) :: _ => Raise TypeError
  | (ch, (PyNum energy, bf)) :: rest =>
      let acc' :=
        if Rlt_dec e_min energy
        then acc + energy * bf * f energy * (if String.eqb ch fs then 2 else 1) / e_cm
        else acc in
      line_sum_py fs e_cm e_min f rest acc'
  end.

(** ** PBH *)

(** pbh.py 24-43, 104-117: [p_col] is the table column behind the current
    interpolating function.  Table masses are compared with == . *)
Record pbh : Type := { p_mx : R; p_col : option nat }.

Fixpoint find_index (l : list R) (x : R) (i : nat) : option nat :=
  match l with
  | [] => None
  | y :: r => if Req_EM_T y x then Some i else find_index r x (S i)
  end.

(** pbh.py 108-117; np.where(...)[0][0] raises IndexError when absent, after
    [_mx] has been assigned. *)
Definition pbh_set (mxs : list R) (o : pbh) (mx : R) : pbh * res unit :=
  match find_index mxs mx 0 with
  | Some i => ({| p_mx := mx; p_col := Some i |}, Ret tt)
  | None => ({| p_mx := mx; p_col := p_col o |}, Raise IndexError)
  end.
Definition pbh_new (mxs : list R) (mx : R) : res pbh :=
  let '(o, r) := pbh_set mxs {| p_mx := mx; p_col := None |} mx in
  let* _ := r in Ret o.
Definition pbh_run (mxs : list R) (o : pbh) (vals : list R) : pbh :=
  fold_left (fun o v => fst (pbh_set mxs o v)) vals o.
