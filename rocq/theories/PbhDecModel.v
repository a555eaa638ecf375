(** Model of hazma/pbh.py as a decaying theory: what the object answers to the queries of
    hazma/theory/__init__.py.  [__metaclass__ = ABCMeta] (theory/__init__.py 454) has no effect in Python 3, so
    the object is made although it does not define every abstract method; the bodies inherited return None. *)
From Coq Require Import Bool String Reals List.
From Verif Require Import PyBase KinModel DistModel TheoryModel SingleModel PbhModel.
Import ListNotations.
Local Open Scope string_scope.
Local Open Scope list_scope.
Local Open Scope R_scope.

(** pbh.py 113-115: scipy's interp1d of first order with [bounds_error=False, fill_value=0], which is np.interp
    inside the table and 0 outside.  Simplified: the energies are taken in the order of the file (interp1d sorts
    them), and a float is answered by a float (interp1d answers by an array without axes). *)
Definition interp1d_zero (es col : list R) (e : val) : val :=
  match e with
  | VF x => VF (np_interp_zero x es col)
  | VA xs => VA (map (fun x => np_interp_zero x es col) xs)
  end.

(** What the class supplies; None is the value of an inherited body [pass].  pbh.py 117 (_spectrum_funcs),
    123-124 (_decay_widths) and 126-127 (_gamma_ray_line_energies); theory/__init__.py 459-465, 592-598 and
    633-635 for the three that the class does not define. *)
Definition pbh_spectrum_funcs (es col : list R) : dict (val -> res val) := [("all", fun e => Ret (interp1d_zero es col e))].
Definition pbh_decay_widths (f : R) : dict R := [("all", f)].
Definition pbh_line_energies : dict R := [].
Definition pbh_list_decay_final_states : option (list string) := None.
Definition pbh_list_final_decay_states : option (list string) := Some ["all"].  (* pbh.py 119-121 *)
Definition pbh_positron_funcs : option (dict (val -> res val)) := None.
Definition pbh_positron_energies : option (dict R) := None.

(** [x.items()] for x a dictionary or None *)
Definition items {A : Type} (o : option (dict A)) : res (dict A) :=
  match o with None => Raise (AttributeError "items") | Some d => Ret d end.

(** The part of the record of TheoryModel the photon queries read *)
Definition pbh_theory (f : R) (es col : list R) : theory_dec :=
  {| d_widths := pbh_decay_widths f; d_cont_funcs := pbh_spectrum_funcs es col; d_line_energies := pbh_line_energies;
     d_pos_funcs := []; d_pos_line_energies := [] |}.
Definition with_positrons (th : theory_dec) (fs : dict (val -> res val)) (ls : dict R) : theory_dec :=
  {| d_widths := d_widths th; d_cont_funcs := d_cont_funcs th; d_line_energies := d_line_energies th;
     d_pos_funcs := fs; d_pos_line_energies := ls |}.

(** An object with its table: the answers of spectra, total_spectrum, gamma_ray_lines
    (theory/__init__.py 520-580) *)
Definition pbh_object (f : R) (t : pbh_table) (o : pbh) : res theory_dec :=
  let* col := column t o in Ret (pbh_theory f (t_egams t) col).
Definition pbh_spectra (f : R) (t : pbh_table) (o : pbh) (e : val) : res (dict val) :=
  let* th := pbh_object f t o in d_spectra th e.
Definition pbh_total_spectrum (f : R) (t : pbh_table) (o : pbh) (e : val) : res val :=
  let* th := pbh_object f t o in d_total_spectrum th e.
Definition pbh_gamma_ray_lines (f : R) (t : pbh_table) (o : pbh) : res (dict (R * R)) :=
  let* th := pbh_object f t o in d_gamma_ray_lines th.

(** theory/__init__.py 616-625 (through 600-614), 627-631 and 637-644: the branching fractions are computed first,
    then the items of what _positron_spectrum_funcs or _positron_line_energies returns *)
Definition pbh_positron_spectra (f : R) (t : pbh_table) (o : pbh) (e : val) : res (dict val) :=
  let* th := pbh_object f t o in
  let* _ := decay_branching_fractions th in
  let* fs := items pbh_positron_funcs in d_positron_spectra (with_positrons th fs []) e.
Definition pbh_total_positron_spectrum (f : R) (t : pbh_table) (o : pbh) (e : val) : res val :=
  let* s := pbh_positron_spectra f t o (match e with VA _ => e | VF x => VA [x] end) in dindex s "total".
Definition pbh_positron_lines (f : R) (t : pbh_table) (o : pbh) : res (dict (R * R)) :=
  let* th := pbh_object f t o in
  let* _ := decay_branching_fractions th in
  let* ls := items pbh_positron_energies in d_positron_lines (with_positrons th [] ls).
