(** Model of the attributes of the mediator classes (hazma/scalar_mediator/__init__.py and
    hazma/vector_mediator/__init__.py): constructors, property setters, cached width.

    An object is a record; an assignment [o.attr = x] gives the object afterwards and what it raised, since
    an exception does not undo what the setter already stored.  Simplifications: real numbers instead of
    floats; a name that is no property of the class is a plain Python attribute that nothing reads, so
    assigning it leaves the record alone; assigning [width_s], [width_v], [vs] or an underscored name
    directly is left out. *)
From Coq Require Import String Reals Bool List.
From Verif Require Import PyBase MedModel.
Import ListNotations.
Local Open Scope R_scope.

Section Classes.
Variable C : consts.

(** * Scalar mediator *)

Inductive sclass : Type := ScalarMediator | HiggsPortal | HeavyQuark.

(** scalar_mediator/__init__.py 113-123; the last four fields are those of HiggsPortal (313) and
    HeavyQuark (387-389) *)
Record sobj : Type := MkSobj {
  so_class : sclass; so_par : sparams; so_width : R;
  so_stheta : R; so_gsQ : R; so_mQ : R; so_QQ : R }.

Inductive sattr : Type :=
| S_mx | S_ms | S_gsxx | S_gsff | S_gsGG | S_gsFF | S_lam | S_stheta | S_gsQ | S_mQ | S_QQ.

(** scalar_mediator/__init__.py 208-240: both branches return zero *)
Definition compute_vs (P : sparams) : R :=
  if Req_EM_T (3 * s_gsff P + 2 * s_gsGG P) 0 then 0 else 0.

Definition with_vs (P : sparams) (v : R) : sparams :=
  MkS (s_mx P) (s_ms P) (s_gsxx P) (s_gsff P) (s_gsGG P) (s_gsFF P) (s_lam P) v.
Definition with_spar (o : sobj) (P : sparams) : sobj :=
  MkSobj (so_class o) P (so_width o) (so_stheta o) (so_gsQ o) (so_mQ o) (so_QQ o).
Definition with_swidth (o : sobj) (w : R) : sobj :=
  MkSobj (so_class o) (so_par o) w (so_stheta o) (so_gsQ o) (so_mQ o) (so_QQ o).

(** scalar_mediator/__init__.py 244: [partial_widths()["total"]].  _scalar_mediator_widths.py 17 divides
    by lam**2 unconditionally, and line 109 by ms**2 when ms > 2 mx; the other divisors vanish only with
    these. *)
Definition s_total (P : sparams) : res R :=
  if Req_EM_T (s_lam P) 0 then Raise ZeroDivisionError
  else if Req_EM_T (s_ms P) 0 then
    if Rlt_dec (2 * s_mx P) (s_ms P) then Raise ZeroDivisionError
    else let* d := s_partial_widths C P in dindex d "total"
  else let* d := s_partial_widths C P in dindex d "total".

(** scalar_mediator/__init__.py 242-244 *)
Definition compute_width_s (o : sobj) : sobj * option exn :=
  match s_total (so_par o) with
  | Ret w => (with_swidth o w, None)
  | Raise x => (o, Some x)
  end.

(** The last two lines of every setter of ScalarMediator, e.g. 145-146 *)
Definition s_refresh (o : sobj) : sobj * option exn :=
  let o1 := with_spar o (with_vs (so_par o) (compute_vs (so_par o))) in compute_width_s o1.

(** scalar_mediator/__init__.py 113-123; a constructor that raises leaves no object *)
Definition s_init (o : sobj) : res sobj :=
  match s_refresh o with
  | (o1, None) => Ret o1
  | (_, Some x) => Raise x
  end.
Definition new_scalar (mx ms gsxx gsff gsGG gsFF lam : R) : res sobj :=
  s_init (MkSobj ScalarMediator (MkS mx ms gsxx gsff gsGG gsFF lam 0) 0 0 0 0 0).

(** scalar_mediator/__init__.py 312-317 *)
Definition new_higgs (mx ms gsxx stheta : R) : res sobj :=
  s_init (MkSobj HiggsPortal (MkS mx ms gsxx stheta (3 * stheta) (- 5 * stheta / 6) (c_vh C) 0) 0
            stheta 0 0 0).

(** scalar_mediator/__init__.py 386-391 *)
Definition new_heavy (mx ms gsxx gsQ mQ QQ : R) : res sobj :=
  s_init (MkSobj HeavyQuark (MkS mx ms gsxx 0 gsQ (2 * gsQ * QQ ^ 2) mQ 0) 0 0 gsQ mQ QQ).

(** scalar_mediator/__init__.py 142-206: the setters of ScalarMediator *)
Definition s_store (P : sparams) (a : sattr) (x : R) : sparams :=
  match a with
  | S_mx => MkS x (s_ms P) (s_gsxx P) (s_gsff P) (s_gsGG P) (s_gsFF P) (s_lam P) (s_vs P)
  | S_ms => MkS (s_mx P) x (s_gsxx P) (s_gsff P) (s_gsGG P) (s_gsFF P) (s_lam P) (s_vs P)
  | S_gsxx => MkS (s_mx P) (s_ms P) x (s_gsff P) (s_gsGG P) (s_gsFF P) (s_lam P) (s_vs P)
  | S_gsff => MkS (s_mx P) (s_ms P) (s_gsxx P) x (s_gsGG P) (s_gsFF P) (s_lam P) (s_vs P)
  | S_gsGG => MkS (s_mx P) (s_ms P) (s_gsxx P) (s_gsff P) x (s_gsFF P) (s_lam P) (s_vs P)
  | S_gsFF => MkS (s_mx P) (s_ms P) (s_gsxx P) (s_gsff P) (s_gsGG P) x (s_lam P) (s_vs P)
  | S_lam => MkS (s_mx P) (s_ms P) (s_gsxx P) (s_gsff P) (s_gsGG P) (s_gsFF P) x (s_vs P)
  | _ => P
  end.
Definition s_base_set (o : sobj) (a : sattr) (x : R) : sobj * option exn :=
  s_refresh (with_spar o (s_store (so_par o) a x)).

Definition s_set (o : sobj) (a : sattr) (x : R) : sobj * option exn :=
  let P := so_par o in
  match so_class o, a with
  (* 341-352, 442-453: hidden setters *)
  | (HiggsPortal | HeavyQuark), S_gsff => (o, Some (AttributeError "Cannot set gsff"))
  | (HiggsPortal | HeavyQuark), S_gsGG => (o, Some (AttributeError "Cannot set gsGG"))
  | (HiggsPortal | HeavyQuark), S_gsFF => (o, Some (AttributeError "Cannot set gsFF"))
  (* 142-206 *)
  | _, (S_mx | S_ms | S_gsxx | S_gsff | S_gsGG | S_gsFF | S_lam) => s_base_set o a x
  (* 332-339; the value of compute_vs() is dropped *)
  | HiggsPortal, S_stheta =>
      compute_width_s
        (MkSobj HiggsPortal
           (MkS (s_mx P) (s_ms P) (s_gsxx P) x (3 * x) (- 5 * x / 6) (s_lam P) (s_vs P))
           (so_width o) x (so_gsQ o) (so_mQ o) (so_QQ o))
  (* 412-418 *)
  | HeavyQuark, S_gsQ =>
      compute_width_s
        (MkSobj HeavyQuark
           (MkS (s_mx P) (s_ms P) (s_gsxx P) (s_gsff P) x (2 * x * so_QQ o ^ 2) (s_lam P) (s_vs P))
           (so_width o) (so_stheta o) x (so_mQ o) (so_QQ o))
  (* 424-429 *)
  | HeavyQuark, S_mQ =>
      compute_width_s
        (MkSobj HeavyQuark
           (MkS (s_mx P) (s_ms P) (s_gsxx P) (s_gsff P) (s_gsGG P) (s_gsFF P) x (s_vs P))
           (so_width o) (so_stheta o) (so_gsQ o) x (so_QQ o))
  (* 435-440 *)
  | HeavyQuark, S_QQ =>
      compute_width_s
        (MkSobj HeavyQuark
           (MkS (s_mx P) (s_ms P) (s_gsxx P) (s_gsff P) (s_gsGG P) (2 * so_gsQ o * x ^ 2) (s_lam P)
              (s_vs P))
           (so_width o) (so_stheta o) (so_gsQ o) (so_mQ o) x)
  (* not a property of the class *)
  | _, _ => (o, None)
  end.

(** A script of assignments, each inside its own try/except *)
Definition s_run (o : sobj) (script : list (sattr * R)) : sobj :=
  fold_left (fun o ax => fst (s_set o (fst ax) (snd ax))) script o.

(** * Vector mediator *)

Inductive vclass : Type := VectorMediator | KineticMixing | QuarksOnly.

(** vector_mediator/__init__.py 52-72; the last field is that of KineticMixing (212) *)
Record vobj : Type := MkVobj { vo_class : vclass; vo_par : vparams; vo_width : R; vo_eps : R }.

Inductive vattr : Type :=
| V_mx | V_mv | V_gvxx | V_gvuu | V_gvdd | V_gvss | V_gvee | V_gvmumu | V_eps.

(** vector_mediator/__init__.py 161; the divisor mv**2 of _vector_mediator_widths.py 52 can vanish only
    when mv > 2 mx *)
Definition v_total (P : vparams) : res R :=
  if Req_EM_T (v_mv P) 0 then
    if Rlt_dec (2 * v_mx P) (v_mv P) then Raise ZeroDivisionError
    else dindex (v_partial_widths C P) "total"
  else dindex (v_partial_widths C P) "total".

(** vector_mediator/__init__.py 159-161 *)
Definition compute_width_v (o : vobj) : vobj * option exn :=
  match v_total (vo_par o) with
  | Ret w => (MkVobj (vo_class o) (vo_par o) w (vo_eps o), None)
  | Raise x => (o, Some x)
  end.

Definition v_init (o : vobj) : res vobj :=
  match compute_width_v o with
  | (o1, None) => Ret o1
  | (_, Some x) => Raise x
  end.

(** vector_mediator/__init__.py 52-72 *)
Definition new_vector (mx mv gvxx gvuu gvdd gvss gvee gvmumu : R) : res vobj :=
  v_init (MkVobj VectorMediator (MkV mx mv gvxx gvuu gvdd gvss gvee gvmumu) 0 0).

(** parameters.py 211, 235-239 *)
Definition qe : R := sqrt (4 * PI * c_alpha C).
Definition Qu : R := 2 / 3.
Definition Qd : R := - 1 / 3.
Definition Qe : R := - 1.

(** vector_mediator/__init__.py 217-225 and 241-245 *)
Definition mixing_params (mx mv gvxx eps : R) : vparams :=
  MkV mx mv gvxx (- Qu * eps * qe) (- Qd * eps * qe) (- Qd * eps * qe) (- Qe * eps * qe) (- Qe * eps * qe).

(** vector_mediator/__init__.py 211-225 *)
Definition new_mixing (mx mv gvxx eps : R) : res vobj :=
  v_init (MkVobj KineticMixing (mixing_params mx mv gvxx eps) 0 eps).

(** vector_mediator/__init__.py 290-293 *)
Definition new_quarks (mx mv gvxx gvuu gvdd gvss : R) : res vobj :=
  v_init (MkVobj QuarksOnly (MkV mx mv gvxx gvuu gvdd gvss 0 0) 0 0).

(** vector_mediator/__init__.py 92-157 *)
Definition v_store (P : vparams) (a : vattr) (x : R) : vparams :=
  let '(MkV mx mv gxx guu gdd gss gee gmm) := P in
  match a with
  | V_mx => MkV x mv gxx guu gdd gss gee gmm
  | V_mv => MkV mx x gxx guu gdd gss gee gmm
  | V_gvxx => MkV mx mv x guu gdd gss gee gmm
  | V_gvuu => MkV mx mv gxx x gdd gss gee gmm
  | V_gvdd => MkV mx mv gxx guu x gss gee gmm
  | V_gvss => MkV mx mv gxx guu gdd x gee gmm
  | V_gvee => MkV mx mv gxx guu gdd gss x gmm
  | V_gvmumu => MkV mx mv gxx guu gdd gss gee x
  | V_eps => P
  end.

Definition v_set (o : vobj) (a : vattr) (x : R) : vobj * option exn :=
  let P := vo_par o in
  match vo_class o, a with
  (* 248-267 and 311-318: hidden setters *)
  | KineticMixing, V_gvuu => (o, Some (AttributeError "Cannot set gvuu"))
  | KineticMixing, V_gvdd => (o, Some (AttributeError "Cannot set gvdd"))
  | KineticMixing, V_gvss => (o, Some (AttributeError "Cannot set gvss"))
  | (KineticMixing | QuarksOnly), V_gvee => (o, Some (AttributeError "Cannot set gvee"))
  | (KineticMixing | QuarksOnly), V_gvmumu => (o, Some (AttributeError "Cannot set gvmumu"))
  (* 238-246 *)
  | KineticMixing, V_eps =>
      compute_width_v
        (MkVobj KineticMixing (mixing_params (v_mx P) (v_mv P) (v_gvxx P) x) (vo_width o) x)
  (* not a property of the class *)
  | _, V_eps => (o, None)
  (* 92-157 *)
  | _, _ => compute_width_v (MkVobj (vo_class o) (v_store P a x) (vo_width o) (vo_eps o))
  end.

Definition v_run (o : vobj) (script : list (vattr * R)) : vobj :=
  fold_left (fun o ax => fst (v_set o (fst ax) (snd ax))) script o.

End Classes.
