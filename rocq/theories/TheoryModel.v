(** Model of hazma/theory/__init__.py: the aggregation layer of annihilating and
    decaying theories.  Subclass-provided functions are fields of a record. *)
From Coq Require Import String Reals List.
From Verif Require Import PyBase.
Import ListNotations.
Local Open Scope string_scope.
Local Open Scope list_scope.
Local Open Scope R_scope.

(** A Python float or a one-dimensional numpy array of floats.
    Simplified: 0-d arrays, int arrays and plain lists are not represented. *)
Inductive val : Type :=
| VF (x : R)
| VA (l : list R).

(** [np.zeros_like(v)] and the [type(e) == float] split of
    theory/__init__.py 181-184 (float gives 0, array gives zeros). *)
Definition zeros_like (v : val) : val :=
  match v with
  | VF _ => VF 0
  | VA l => VA (map (fun _ => 0) l)
  end.

(** float * val *)
Definition vscale (c : R) (v : val) : val :=
  match v with
  | VF x => VF (c * x)
  | VA l => VA (map (fun x => c * x) l)
  end.

Fixpoint zip_add (l m : list R) : list R :=
  match l, m with
  | x :: l', y :: m' => (x + y) :: zip_add l' m'
  | _, _ => []
  end.

(** val + val with numpy broadcasting of scalars, of length-one arrays, and
    equal lengths; other shapes raise ValueError. *)
Definition vadd (v w : val) : res val :=
  match v, w with
  | VF x, VF y => Ret (VF (x + y))
  | VF x, VA m => Ret (VA (map (fun y => x + y) m))
  | VA l, VF y => Ret (VA (map (fun x => x + y) l))
  | VA l, VA m =>
      if Nat.eqb (length l) (length m) then Ret (VA (zip_add l m))
      else match l, m with
           | [x], _ => Ret (VA (map (fun y => x + y) m))
           | _, [y] => Ret (VA (map (fun x => x + y) l))
           | _, _ => Raise ValueError
           end
  end.

(** Python [sum(values)]: starts from the integer 0. *)
Fixpoint vsum_from (acc : val) (l : list val) : res val :=
  match l with
  | [] => Ret acc
  | v :: r => let* a := vadd acc v in vsum_from a r
  end.
Definition vsum (l : list val) : res val := vsum_from (VF 0) l.

Definition rsum_py (l : list R) : R := fold_left Rplus l 0.

(** What a subclass of TheoryAnn supplies (abstract methods, theory/__init__.py
    37-51, 112-129, 211-229, 287-302, 375-393). *)
Record theory_ann : Type := {
  sigma_funcs : dict (R -> R);                 (* annihilation_cross_section_funcs *)
  cont_funcs : dict (val -> R -> res val);     (* _spectrum_funcs *)
  line_energies : R -> dict R;                 (* _gamma_ray_line_energies *)
  pos_funcs : dict (val -> R -> res val);      (* _positron_spectrum_funcs *)
  pos_line_energies : R -> dict R              (* _positron_line_energies *)
}.

(** theory/__init__.py 53-73 *)
Definition annihilation_cross_sections (th : theory_ann) (e_cm : R) : dict R :=
  let sigmas := dmap (fun sigma_fn => sigma_fn e_cm) (sigma_funcs th) in
  dset sigmas "total" (rsum_py (dvals sigmas)).

Definition not_total {A : Type} (kv : string * A) : bool :=
  negb (String.eqb (fst kv) "total").

(** theory/__init__.py 89-96 and 486-492: the same code on a dictionary that
    holds a "total" entry. *)
Definition fractions_of (cs : dict R) : res (dict R) :=
  let* tot := dindex cs "total" in
  if Req_EM_T tot 0
  then Ret (dmap (fun _ => 0) (filter not_total cs))
  else Ret (dmap (fun sigma => sigma / tot) (filter not_total cs)).

(** theory/__init__.py 75-96 *)
Definition annihilation_branching_fractions (th : theory_ann) (e_cm : R)
  : res (dict R) :=
  fractions_of (annihilation_cross_sections th e_cm).

(** theory/__init__.py 141-148 (and 312-319): [make_dnde_wrapped(fs)]; [fs] is a
    parameter of the factory, so each closure keeps its own value. *)
Definition make_dnde_wrapped (sigmas : dict (R -> R))
    (funcs : dict (val -> R -> res val)) (fs : string)
  : val -> R -> res val :=
  fun e_gams e_cm =>
    let* sigma := dindex sigmas fs in
    if Rlt_dec 0 (sigma e_cm)
    then (let* f := dindex funcs fs in f e_gams e_cm)
    else Ret (zeros_like e_gams).

(** theory/__init__.py 131-150 *)
Definition spectrum_funcs (th : theory_ann) : dict (val -> R -> res val) :=
  map (fun fs => (fs, make_dnde_wrapped (sigma_funcs th) (cont_funcs th) fs))
      (dkeys (sigma_funcs th)).

(** theory/__init__.py 304-321 *)
Definition positron_spectrum_funcs (th : theory_ann) : dict (val -> R -> res val) :=
  map (fun fs => (fs, make_dnde_wrapped (sigma_funcs th) (pos_funcs th) fs))
      (dkeys (sigma_funcs th)).

(** theory/__init__.py 186 / 350 / 541 / 623: [specs["total"] = sum(specs.values())] *)
Definition add_total (specs : dict val) : res (dict val) :=
  let* t := vsum (dvals specs) in Ret (dset specs "total" t).

(** theory/__init__.py 152-188.  The loop assigns each key once, in order, so it
    is the comprehension [dmapM]. *)
Definition spectra (th : theory_ann) (e_gams : val) (e_cm : R) : res (dict val) :=
  let* bfs := annihilation_branching_fractions th e_cm in
  let* specs :=
    dmapM (fun fs dnde_func =>
             let* bf := dindex bfs fs in
             if Req_EM_T bf 0
             then Ret (zeros_like e_gams)
             else (let* s := dnde_func e_gams e_cm in Ret (vscale bf s)))
          (spectrum_funcs th) in
  add_total specs.

(** theory/__init__.py 190-209: scalars are wrapped in a one-element array. *)
Definition total_spectrum (th : theory_ann) (e_gams : val) (e_cm : R) : res val :=
  match e_gams with
  | VA _ => let* s := spectra th e_gams e_cm in dindex s "total"
  | VF e => let* s := spectra th (VA [e]) e_cm in dindex s "total"
  end.

(** theory/__init__.py 323-352: no test on the branching fraction here. *)
Definition positron_spectra (th : theory_ann) (e_ps : val) (e_cm : R)
  : res (dict val) :=
  let* bfs := annihilation_branching_fractions th e_cm in
  let* specs :=
    dmapM (fun fs dnde_func =>
             let* bf := dindex bfs fs in
             let* s := dnde_func e_ps e_cm in Ret (vscale bf s))
          (positron_spectrum_funcs th) in
  add_total specs.

(** theory/__init__.py 231-245 and 395-409: the value is the pair
    (energy, branching fraction). *)
Definition lines_of (bfs : dict R) (energies : dict R) : res (dict (R * R)) :=
  dmapM (fun fs e => let* bf := dindex bfs fs in Ret (e, bf)) energies.

Definition gamma_ray_lines (th : theory_ann) (e_cm : R) : res (dict (R * R)) :=
  let* bfs := annihilation_branching_fractions th e_cm in
  lines_of bfs (line_energies th e_cm).

Definition positron_lines (th : theory_ann) (e_cm : R) : res (dict (R * R)) :=
  let* bfs := annihilation_branching_fractions th e_cm in
  lines_of bfs (pos_line_energies th e_cm).

(** Decaying theories: what a subclass of TheoryDec supplies
    (theory/__init__.py 467-472, 494-500, 565-571, 592-598, 633-635). *)
Record theory_dec : Type := {
  d_widths : dict R;
  d_cont_funcs : dict (val -> res val);
  d_line_energies : dict R;
  d_pos_funcs : dict (val -> res val);
  d_pos_line_energies : dict R
}.

(** theory/__init__.py 474-480 *)
Definition decay_widths (th : theory_dec) : dict R :=
  let widths := d_widths th in
  dset widths "total" (rsum_py (dvals widths)).

(** theory/__init__.py 482-492 *)
Definition decay_branching_fractions (th : theory_dec) : res (dict R) :=
  fractions_of (decay_widths th).

(** theory/__init__.py 502-518 *)
Definition d_spectrum_funcs (th : theory_dec) : res (dict (val -> res val)) :=
  let widths := decay_widths th in
  dmapM (fun fs dnde =>
           let* w := dindex widths fs in
           if Rlt_dec 0 w
           then Ret dnde
           else Ret (fun e_gams => Ret (zeros_like e_gams)))
        (d_cont_funcs th).

(** theory/__init__.py 535-543 and 617-625, the weighting loop *)
Definition weigh (bfs : dict R) (funcs : dict (val -> res val)) (e : val)
  : res (dict val) :=
  let* specs :=
    dmapM (fun fs dnde_func =>
             let* bf := dindex bfs fs in
             let* s := dnde_func e in Ret (vscale bf s)) funcs in
  add_total specs.

(** theory/__init__.py 520-543 *)
Definition d_spectra (th : theory_dec) (e_gams : val) : res (dict val) :=
  let* bfs := decay_branching_fractions th in
  let* funcs := d_spectrum_funcs th in
  weigh bfs funcs e_gams.

(** theory/__init__.py 545-563 *)
Definition d_total_spectrum (th : theory_dec) (e_gams : val) : res val :=
  match e_gams with
  | VA _ => let* s := d_spectra th e_gams in dindex s "total"
  | VF e => let* s := d_spectra th (VA [e]) in dindex s "total"
  end.

(** theory/__init__.py 573-580, 637-644 *)
Definition d_gamma_ray_lines (th : theory_dec) : res (dict (R * R)) :=
  let* bfs := decay_branching_fractions th in
  lines_of bfs (d_line_energies th).
Definition d_positron_lines (th : theory_dec) : res (dict (R * R)) :=
  let* bfs := decay_branching_fractions th in
  lines_of bfs (d_pos_line_energies th).

(** Python closures.  A function defined inside a loop does not copy the loop
    variables: it reads the enclosing frame when it is called.  [frame] holds the
    cells [fs] and [dnde] of [positron_spectrum_funcs]; a closure is a function
    of the frame in force at call time. *)
Definition frame : Type := option (string * (val -> res val)).
Definition closure : Type := frame -> val -> res val.

(** theory/__init__.py 606-610: the body of [dnde_wrapped] *)
Definition dnde_wrapped_body (widths : dict R) : closure :=
  fun fr e_ps =>
    match fr with
    | None => Raise (NameError "fs")
    | Some (fs, dnde) =>
        let* w := dindex widths fs in
        if Rlt_dec 0 w then dnde e_ps else Ret (zeros_like e_ps)
    end.

(** theory/__init__.py 604-612: one pass of the loop binds the cells and stores a
    closure under the current key. *)
Fixpoint positron_loop (widths : dict R) (items : dict (val -> res val))
    (fr : frame) (acc : dict closure) : frame * dict closure :=
  match items with
  | [] => (fr, acc)
  | (fs, dnde) :: rest =>
      positron_loop widths rest (Some (fs, dnde))
                    (dset acc fs (dnde_wrapped_body widths))
  end.

(** theory/__init__.py 600-614: callers only see the closures after the loop has
    ended, hence with the final frame. *)
Definition d_positron_spectrum_funcs (th : theory_dec) : dict (val -> res val) :=
  let (fr, cls) := positron_loop (decay_widths th) (d_pos_funcs th) None [] in
  dmap (fun c => c fr) cls.

(** theory/__init__.py 616-625 *)
Definition d_positron_spectra (th : theory_dec) (e_ps : val) : res (dict val) :=
  let* bfs := decay_branching_fractions th in
  weigh bfs (d_positron_spectrum_funcs th) e_ps.

(** theory/__init__.py 627-631 *)
Definition d_total_positron_spectrum (th : theory_dec) (e_ps : val) : res val :=
  match e_ps with
  | VA _ => let* s := d_positron_spectra th e_ps in dindex s "total"
  | VF e => let* s := d_positron_spectra th (VA [e]) in dindex s "total"
  end.
