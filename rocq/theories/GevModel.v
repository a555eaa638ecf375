(** Model of the attributes and the width cache of the GeV vector-mediator classes
    (hazma/vector_mediator/_gev/model.py): constructors, property setters, the caching decorator, partial
    and total widths.

    An object is a record; a method call or an assignment gives the object afterwards and what it returned
    or raised, since an exception does not undo what was stored before it.  Simplifications: real numbers
    instead of floats; the widths of the form-factor classes are a parameter [ffw], a function of the
    mediator mass, the quark couplings and the number of points (some of them are Monte Carlo estimates in
    /repo, here they are deterministic); keyword arguments of the width methods are modelled by the one
    keyword that exists, npts. *)
From Coq Require Import String Reals Bool NArith List.
From Verif Require Import PyBase.
Import ListNotations.
Local Open Scope R_scope.

(** The width methods model.py 642-877, in the order of definition *)
Inductive chan : Type :=
| EE | MuMu | VeVe | VmVm | VtVt | XX | PiPi | Pi0Pi0 | K0K0 | KK | Pi0A | EtaA | Pi0Phi | EtaPhi
| EtaOmega | Pi0Pi0A | PiPiPi0 | PiPiEta | PiPiEtap | PiPiOmega | Pi0Pi0Omega | Pi0K0K0 | Pi0KK | PiKK0
| PiPiPiPi | PiPiPi0Pi0.

(** The names the decorators of model.py 642-861 are given *)
Definition cname (c : chan) : string :=
  match c with
  | EE => "e e" | MuMu => "mu mu" | VeVe => "ve ve" | VmVm => "vm vm" | VtVt => "vt vt" | XX => "x x"
  | PiPi => "pi pi" | Pi0Pi0 => "pi0 pi0" | K0K0 => "k0 k0" | KK => "k k" | Pi0A => "pi0 gamma"
  | EtaA => "eta gamma" | Pi0Phi => "pi0 phi" | EtaPhi => "eta phi" | EtaOmega => "eta omega"
  | Pi0Pi0A => "pi0 pi0 gamma" | PiPiPi0 => "pi pi pi0" | PiPiEta => "pi pi eta"
  | PiPiEtap => "pi pi etap" | PiPiOmega => "pi pi omega" | Pi0Pi0Omega => "pi0 pi0 omega"
  | Pi0K0K0 => "pi0 k0 k0" | Pi0KK => "pi0 k k" | PiKK0 => "pi k k0" | PiPiPiPi => "pi pi pi pi"
  | PiPiPi0Pi0 => "pi pi pi0 pi0"
  end%string.

(** model.py 929-954: list_annihilation_final_states *)
Definition list_annihilation_final_states : list string :=
  ["e e"; "mu mu"; "ve ve"; "vt vt"; "vm vm"; "pi pi"; "k0 k0"; "k k"; "pi0 gamma"; "eta gamma"; "pi0 phi";
   "eta phi"; "eta omega"; "pi0 pi0 gamma"; "pi pi pi0"; "pi pi eta"; "pi pi etap"; "pi pi omega";
   "pi0 pi0 omega"; "pi0 k0 k0"; "pi0 k k"; "pi k k0"; "pi pi pi pi"; "pi pi pi0 pi0"]%string.

(** model.py 171-181: the eleven stored parameters *)
Record gpar : Type := MkGpar {
  g_mx : R; g_mv : R; g_xx : R; g_uu : R; g_dd : R; g_ss : R; g_ee : R; g_mm : R; g_ve : R; g_vm : R;
  g_vt : R }.

(** One entry of [_width_cache] (185-188); [en_kw] is the npts keyword, [None] for no keyword *)
Record entry : Type := MkEntry { en_value : R; en_valid : bool; en_kw : option N }.

Inductive gclass : Type := VectorMediatorGeV | KineticMixingGeV | BLGeV.

(** [go_coup] is [_couplings] (182), [go_charge] is [_eps] (1112) or [_g] (1213) *)
Record gobj : Type := MkGobj {
  go_class : gclass; go_par : gpar; go_coup : R * R * R; go_cache : dict entry; go_charge : R }.

Inductive gattr : Type :=
| A_mx | A_mv | A_gvxx | A_gvuu | A_gvdd | A_gvss | A_gvee | A_gvmumu | A_gvveve | A_gvvmvm | A_gvvtvt
| A_eps | A_g.

Definition with_gpar (o : gobj) (P : gpar) : gobj :=
  MkGobj (go_class o) P (go_coup o) (go_cache o) (go_charge o).
Definition with_coup (o : gobj) (c : R * R * R) : gobj :=
  MkGobj (go_class o) (go_par o) c (go_cache o) (go_charge o).
Definition with_gcache (o : gobj) (d : dict entry) : gobj :=
  MkGobj (go_class o) (go_par o) (go_coup o) d (go_charge o).
Definition with_charge (o : gobj) (x : R) : gobj :=
  MkGobj (go_class o) (go_par o) (go_coup o) (go_cache o) x.

(** model.py 184-188 *)
Definition empty_entry : entry := MkEntry 0 false None.
Definition empty_cache : dict entry :=
  dset (map (fun n => (n, empty_entry)) list_annihilation_final_states) "x x" empty_entry.

(** model.py 194-197 *)
Definition invalidate (o : gobj) : gobj :=
  with_gcache o
    (map (fun ke => (fst ke, MkEntry (en_value (snd ke)) false (en_kw (snd ke)))) (go_cache o)).

(** The masses the widths use (parameters.py) *)
Record gconsts : Type := MkGconsts { k_me : R; k_mmu : R; k_mpi : R; k_mpi0 : R; k_qe : R }.

Section Widths.
Variable K : gconsts.
(** [ffw c mv couplings npts]: the method [width] of the form-factor object of channel [c] *)
Variable ffw : chan -> R -> R * R * R -> N -> R.

(** model.py 634-640 *)
Definition width_v_to_f_f (mv mass coupling : R) : R :=
  (coupling ^ 2 * sqrt (Rmax (- 4 * mass ^ 2 + mv ^ 2) 0) * (2 * mass ^ 2 + mv ^ 2))
    / (12 * mv ^ 2 * PI).

(** The default of the keyword npts (775, 818, 828, 836, 844, 862); [None]: the method has no keyword.
    The form factors without the keyword get 0 points, which they ignore. *)
Definition default_npts (c : chan) : option N :=
  match c with
  | PiPiPi0 => Some 10000%N
  | Pi0K0K0 | Pi0KK | PiKK0 => Some 50000%N
  | PiPiPiPi | PiPiPi0Pi0 => Some 16384%N
  | _ => None
  end.

(** The bodies of the width methods, model.py 642-877, without the decorator *)
Definition width_body (P : gpar) (cp : R * R * R) (c : chan) (n : N) : R :=
  let mv := g_mv P in
  match c with
  | EE => width_v_to_f_f mv (k_me K) (g_ee P)
  | MuMu => width_v_to_f_f mv (k_mmu K) (g_mm P)
  | VeVe => width_v_to_f_f mv 0 (g_ve P) / 2
  | VmVm => width_v_to_f_f mv 0 (g_vm P) / 2
  | VtVt => width_v_to_f_f mv 0 (g_vt P) / 2
  | XX => width_v_to_f_f mv (g_mx P) (g_xx P)
  | Pi0Pi0A => 834 / 10000 * ffw Pi0Pi0A mv cp n
  | PiPiPiPi => if Rlt_dec mv (4 * k_mpi K) then 0 else ffw PiPiPiPi mv cp n
  | PiPiPi0Pi0 => if Rlt_dec mv (2 * k_mpi K + 2 * k_mpi0 K) then 0 else ffw PiPiPi0Pi0 mv cp n
  | _ => ffw c mv cp n
  end.

(** The undecorated method called with [npts = n] or without keyword *)
Definition width_method (o : gobj) (c : chan) (kw : option N) : res R :=
  match default_npts c, kw with
  | None, None => Ret (width_body (go_par o) (go_coup o) c 0%N)
  | None, Some _ => Raise TypeError
  | Some n, None => Ret (width_body (go_par o) (go_coup o) c n)
  | Some _, Some n => Ret (width_body (go_par o) (go_coup o) c n)
  end.

Definition kw_eqb (a b : option N) : bool :=
  match a, b with
  | None, None => true
  | Some n, Some m => N.eqb n m
  | _, _ => false
  end.

(** model.py 47-60: the decorated method *)
Definition width_v_to (o : gobj) (c : chan) (kw : option N) : gobj * res R :=
  match dget (go_cache o) (cname c) with
  | None => (o, Raise AssertionError)
  | Some e =>
      if andb (en_valid e) (kw_eqb (en_kw e) kw) then (o, Ret (en_value e))
      else match width_method o c kw with
           | Ret v => (with_gcache o (dset (go_cache o) (cname c) (MkEntry v true kw)), Ret v)
           | Raise x => (o, Raise x)
           end
  end.

(** model.py 883-909: the channels of partial_widths, in order, and which of them get npts *)
Definition partial_width_calls : list (chan * bool) :=
  [(EE, false); (MuMu, false); (VeVe, false); (VmVm, false); (VtVt, false); (XX, false); (PiPi, false);
   (K0K0, false); (KK, false); (Pi0A, false); (EtaA, false); (Pi0Phi, false); (EtaPhi, false);
   (EtaOmega, false); (Pi0Pi0A, false); (PiPiPi0, true); (PiPiEta, false); (PiPiEtap, false);
   (PiPiOmega, false); (Pi0Pi0Omega, false); (Pi0K0K0, true); (Pi0KK, true); (PiKK0, true);
   (PiPiPiPi, true); (PiPiPi0Pi0, true)].

Fixpoint call_widths (o : gobj) (n : N) (cs : list (chan * bool)) : gobj * res (dict R) :=
  match cs with
  | [] => (o, Ret [])
  | (c, takes) :: r =>
      match width_v_to o c (if takes then Some n else None) with
      | (o1, Ret v) =>
          match call_widths o1 n r with
          | (o2, Ret d) => (o2, Ret ((cname c, v) :: d))
          | (o2, Raise x) => (o2, Raise x)
          end
      | (o1, Raise x) => (o1, Raise x)
      end
  end.

(** model.py 879-909 *)
Definition partial_widths (o : gobj) (n : N) : gobj * res (dict R) := call_widths o n partial_width_calls.

(** model.py 911-913: [sum] starts at 0; partial_widths' default is 50_000 points *)
Definition width_v (o : gobj) : gobj * res R :=
  match partial_widths o 50000%N with
  | (o1, Ret d) => (o1, Ret (fold_left Rplus (dvals d) 0))
  | (o1, Raise x) => (o1, Raise x)
  end.

(** model.py 199-204 *)
Definition update_width_cache (o : gobj) (name : string) (v : R) : gobj * option exn :=
  match dget (go_cache o) name with
  | None => (o, Some AssertionError)
  | Some e => (with_gcache o (dset (go_cache o) name (MkEntry v true (en_kw e))), None)
  end.

(** model.py 285-288, 308-331: store the parameter, then [_update_width_cache(name, width_v_to_...())] *)
Definition store_and_update (o : gobj) (P : gpar) (c : chan) : gobj * option exn :=
  match width_v_to (with_gpar o P) c None with
  | (o1, Ret v) => update_width_cache o1 (cname c) v
  | (o1, Raise x) => (o1, Some x)
  end.

(** model.py 226-229: [_width_cache["x x"]["value"] = self.width_v_to_x_x()] *)
Definition store_mx (o : gobj) (P : gpar) : gobj * option exn :=
  match width_v_to (with_gpar o P) XX None with
  | (o1, Ret v) =>
      match dget (go_cache o1) "x x" with
      | Some e => (with_gcache o1 (dset (go_cache o1) "x x" (MkEntry v (en_valid e) (en_kw e))), None)
      | None => (o1, Some (KeyError "x x"))
      end
  | (o1, Raise x) => (o1, Some x)
  end.

(** model.py 290-306: store, rebuild [_couplings], invalidate *)
Definition store_quark (o : gobj) (P : gpar) : gobj * option exn :=
  (invalidate (with_coup (with_gpar o P) (g_uu P, g_dd P, g_ss P)), None).

(** The attributes of VectorMediatorGeV as plain storage *)
Definition gstore (P : gpar) (a : gattr) (x : R) : gpar :=
  let 'MkGpar mx mv xx uu dd ss ee mm ve vm vt := P in
  match a with
  | A_mx => MkGpar x mv xx uu dd ss ee mm ve vm vt
  | A_mv => MkGpar mx x xx uu dd ss ee mm ve vm vt
  | A_gvxx => MkGpar mx mv x uu dd ss ee mm ve vm vt
  | A_gvuu => MkGpar mx mv xx x dd ss ee mm ve vm vt
  | A_gvdd => MkGpar mx mv xx uu x ss ee mm ve vm vt
  | A_gvss => MkGpar mx mv xx uu dd x ee mm ve vm vt
  | A_gvee => MkGpar mx mv xx uu dd ss x mm ve vm vt
  | A_gvmumu => MkGpar mx mv xx uu dd ss ee x ve vm vt
  | A_gvveve => MkGpar mx mv xx uu dd ss ee mm x vm vt
  | A_gvvmvm => MkGpar mx mv xx uu dd ss ee mm ve x vt
  | A_gvvtvt => MkGpar mx mv xx uu dd ss ee mm ve vm x
  | A_eps | A_g => P
  end.

(** The setters of VectorMediatorGeV, model.py 226-331 *)
Definition base_set (o : gobj) (a : gattr) (x : R) : gobj * option exn :=
  let P := gstore (go_par o) a x in
  match a with
  | A_mx => store_mx o P
  | A_mv => (invalidate (with_gpar o P), None)
  | A_gvuu | A_gvdd | A_gvss => store_quark o P
  | A_gvxx => store_and_update o P XX
  | A_gvee => store_and_update o P EE
  | A_gvmumu => store_and_update o P MuMu
  | A_gvveve => store_and_update o P VeVe
  | A_gvvmvm => store_and_update o P VmVm
  | A_gvvtvt => store_and_update o P VtVt
  | A_eps | A_g => (o, None)
  end.

Definition attr_name (a : gattr) : string :=
  match a with
  | A_mx => "mx" | A_mv => "mv" | A_gvxx => "gvxx" | A_gvuu => "gvuu" | A_gvdd => "gvdd" | A_gvss => "gvss"
  | A_gvee => "gvee" | A_gvmumu => "gvmumu" | A_gvveve => "gvveve" | A_gvvmvm => "gvvmvm"
  | A_gvvtvt => "gvvtvt" | A_eps => "eps" | A_g => "g"
  end%string.

(** model.py 1156-1186 and 1266-1296: the setters the two derived classes hide *)
Definition hidden (a : gattr) : bool :=
  match a with
  | A_gvuu | A_gvdd | A_gvss | A_gvee | A_gvmumu | A_gvveve | A_gvvmvm | A_gvvtvt => true
  | _ => false
  end.

(** [o.a = x].  [eps] of KineticMixingGeV (1141-1148) stores [_eps] and then assigns [self.gvuu], whose
    setter (1156-1158) raises.  [g] of BLGeV (1243-1253, 1260-1263) writes the underscored couplings and
    nothing else.  [eps] on another class, or [g], is a plain attribute nothing reads. *)
Definition gset (o : gobj) (a : gattr) (x : R) : gobj * option exn :=
  match go_class o, a with
  | (KineticMixingGeV | BLGeV), _ =>
      if hidden a then (o, Some (AttributeError (attr_name a)))
      else match go_class o, a with
           | KineticMixingGeV, A_eps => (with_charge o x, Some (AttributeError "gvuu"))
           | BLGeV, A_g =>
               let P := go_par o in
               (with_charge
                  (with_gpar o
                     (MkGpar (g_mx P) (g_mv P) (g_xx P) (x * (1 / 3)) (x * (1 / 3)) (x * (1 / 3))
                        (x * -1) (x * -1) (x * -1) (x * -1) (x * -1))) x, None)
           | _, _ => base_set o a x
           end
  | VectorMediatorGeV, _ => base_set o a x
  end.

(** model.py 171-188 *)
Definition new_object (cl : gclass) (P : gpar) (q : R) : gobj :=
  MkGobj cl P (g_uu P, g_dd P, g_ss P) empty_cache q.
Definition new_gev (P : gpar) : gobj := new_object VectorMediatorGeV P 0.

(** model.py 1111-1126; parameters.py 235-239: Qu = 2/3, Qd = -1/3, Qe = -1 *)
Definition new_kinetic_mixing (mx mv gvxx eps : R) : gobj :=
  let u := - (2 / 3) * eps * k_qe K in
  let d := - (-1 / 3) * eps * k_qe K in
  let l := - (-1) * eps * k_qe K in
  new_object KineticMixingGeV (MkGpar mx mv gvxx u d d l l 0 0 0) eps.

(** model.py 1210-1227 *)
Definition new_bl (mx mv gvxx g : R) : gobj :=
  new_object BLGeV
    (MkGpar mx mv gvxx (g * (1 / 3)) (g * (1 / 3)) (g * (1 / 3)) (g * -1) (g * -1) (g * -1) (g * -1)
       (g * -1)) g.

(** What a program does with an object: assign an attribute, call one width method, or ask for the
    partial widths or the total width.  Exceptions are caught and the object is used further. *)
Inductive gop : Type :=
| Assign (a : gattr) (x : R)
| CallWidth (c : chan) (kw : option N)
| CallPartial (n : N)
| CallTotal.

Definition gstep (o : gobj) (op : gop) : gobj :=
  match op with
  | Assign a x => fst (gset o a x)
  | CallWidth c kw => fst (width_v_to o c kw)
  | CallPartial n => fst (partial_widths o n)
  | CallTotal => fst (width_v o)
  end.
Definition grun (o : gobj) (ops : list gop) : gobj := fold_left gstep ops o.

End Widths.
