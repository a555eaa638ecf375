(** Models of limit setting: hazma/parameters.py (units), hazma/theory/_theory_cmb.py,
    hazma/limits/*.py, hazma/theory/_theory_gamma_ray_limits.py,
    hazma/theory/_theory_constrain.py (binned helper), hazma/flux_measurement.py. *)
From Coq Require Import String Bool Reals List.
From Verif Require Import PyBase.
Import ListNotations.
Local Open Scope string_scope.
Local Open Scope list_scope.
Local Open Scope R_scope.

(** ** Units *)

(** parameters.py 371: hbar^2 c^3 = (3.0e10)**3 * (6.58e-22)**2 *)
Definition hbar2_c3 : R := (3 * 10 ^ 10) ^ 3 * (6.58 / 10 ^ 22) ^ 2.

(** parameters.py 354-376.  A Python function that falls off its end returns
    None. *)
Definition convert_sigmav (sv : R) (target : string) : option R :=
  if String.eqb target "cm^3 / s" then Some (sv * hbar2_c3)
  else if String.eqb target "MeV^-2" then Some (sv / hbar2_c3)
  else None.

(** ** CMB limits *)

(** _theory_cmb.py 107-122 (and limits/_cmb.py 179-193): the line sum.  [f] is
    the base efficiency, a line is (energy, branching fraction). *)
Fixpoint line_sum (fs : string) (e_cm e_min : R) (f : R -> R)
    (lines : dict (R * R)) (acc : R) : R :=
  match lines with
  | [] => acc
  | (ch, (energy, bf)) :: rest =>
      let acc' :=
        if Rlt_dec e_min energy
        then acc + energy * bf * f energy * (if String.eqb ch fs then 2 else 1) / e_cm
        else acc in
      line_sum fs e_cm e_min f rest acc'
  end.

(** What the CMB code needs of a theory.  [spec] and [pos_spec] are
    total_spectrum and total_positron_spectrum at one energy. *)
Record cmb_theory : Type := {
  c_mx : R;
  c_lines : R -> dict (R * R);
  c_pos_lines : R -> dict (R * R);
  c_spec : R -> R -> R;
  c_pos_spec : R -> R -> R
}.

(** Tabulated efficiencies and scipy's quad are given from outside. *)
Record cmb_env : Type := {
  f_g : R -> R; e_min_g : R;
  f_ep : R -> R; e_min_ep : R;
  vx_cmb : R -> R -> R;
  quad : (R -> R) -> R -> R -> R
}.

(** _theory_cmb.py 66-124, mode "quad", for fs = "g g" *)
Definition f_eff_g (env : cmb_env) (th : cmb_theory) (x_kd : R) : R :=
  let mx := c_mx th in
  let e_cm := 2 * mx * (1 + 0.5 * (vx_cmb env mx x_kd) ^ 2) in
  quad env (fun e => e * c_spec th e e_cm * f_g env e) (e_min_g env) (e_cm / 2) / e_cm
  + line_sum "g g" e_cm (e_min_g env) (f_g env) (c_lines th e_cm) 0.

(** _theory_cmb.py 66-124, mode "quad", for fs = "e e" *)
Definition f_eff_ep (env : cmb_env) (th : cmb_theory) (x_kd : R) : R :=
  let mx := c_mx th in
  let e_cm := 2 * mx * (1 + 0.5 * (vx_cmb env mx x_kd) ^ 2) in
  quad env (fun e => e * (2 * c_pos_spec th e e_cm) * f_ep env e) (e_min_ep env) (e_cm / 2) / e_cm
  + line_sum "e e" e_cm (e_min_ep env) (f_ep env) (c_pos_lines th e_cm) 0.

(** _theory_cmb.py 132-138 *)
Definition f_eff (env : cmb_env) (th : cmb_theory) (x_kd : R) : R :=
  f_eff_ep env th x_kd + f_eff_g env th x_kd.

(** _theory_cmb.py 44 (real division; a vanishing f_eff would divide by zero) *)
Definition cmb_limit (env : cmb_env) (th : cmb_theory) (x_kd p_ann : R) : R :=
  p_ann * c_mx th / f_eff env th x_kd.

(** limits/_cmb.py: the [model] argument is an arbitrary Python object. *)
Inductive pyobj : Type :=
| PModel (th : cmb_theory)
| PFloat (x : R).

(** attribute access [model.mx] *)
Definition attr_mx (o : pyobj) : res R :=
  match o with
  | PModel th => Ret (c_mx th)
  | PFloat _ => Raise (AttributeError "mx")
  end.

Definition the_theory (o : pyobj) (attr : string) : res cmb_theory :=
  match o with
  | PModel th => Ret th
  | PFloat _ => Raise (AttributeError attr)
  end.

(** limits/_cmb.py 113-195, mode "quad", fs = "g g"; the velocity is squared
    twice (134-135). *)
Definition limit_f_eff_g (env : cmb_env) (x_kd : R) (model : pyobj) : res R :=
  let* mx := attr_mx model in
  let vx := (vx_cmb env mx x_kd) ^ 2 in
  let e_cm := 2 * mx * (1 + 0.5 * vx ^ 2) in
  let* th := the_theory model "gamma_ray_lines" in
  Ret (quad env (fun e => e * c_spec th e e_cm * f_g env e) (e_min_g env) (e_cm / 2) / e_cm
       + line_sum "g g" e_cm (e_min_g env) (f_g env) (c_lines th e_cm) 0).

Definition limit_f_eff_ep (env : cmb_env) (x_kd : R) (model : pyobj) : res R :=
  let* mx := attr_mx model in
  let vx := (vx_cmb env mx x_kd) ^ 2 in
  let e_cm := 2 * mx * (1 + 0.5 * vx ^ 2) in
  let* th := the_theory model "positron_lines" in
  Ret (quad env (fun e => e * (2 * c_pos_spec th e e_cm) * f_ep env e) (e_min_ep env) (e_cm / 2) / e_cm
       + line_sum "e e" e_cm (e_min_ep env) (f_ep env) (c_pos_lines th e_cm) 0).

(** limits/_cmb.py 203-209 *)
Definition limit_f_eff (env : cmb_env) (x_kd : R) (model : pyobj) : res R :=
  let* a := limit_f_eff_ep env x_kd model in
  let* b := limit_f_eff_g env x_kd model in
  Ret (a + b).

(** limits/_cmb.py 83-111: the body is
    [self.p_ann * model.mx / self.f_eff(self.x_kd)]: [f_eff] takes a model but is
    given the number x_kd. *)
Definition cmb_limit_constrain (env : cmb_env) (x_kd p_ann : R) (model : pyobj) : res R :=
  let* mx := attr_mx model in
  let* f := limit_f_eff env x_kd (PFloat x_kd) in
  Ret (p_ann * mx / f).

(** ** Elementwise constrainers *)

Section Constrainers.
Variable Model : Type.

(** limits/_abstract.py 39-44: zeros, then one assignment per model *)
Fixpoint constrain_loop (c : Model -> res R) (i : nat) (ms : list Model) (out : list R)
  : res (list R) :=
  match ms with
  | [] => Ret out
  | m :: rest =>
      let* v := c m in
      let* out' := lupd out i v in
      constrain_loop c (S i) rest out'
  end.
Definition abstract_constrain (c : Model -> res R) (ms : list Model) : res (list R) :=
  constrain_loop c 0 ms (repeat 0 (length ms)).

End Constrainers.

(** limits/_abstract.py 47-63: CompositeConstrainer.  The heap holds list
    objects; reference 0 is the list created once for the default argument. *)
Record heap : Type := { lists : list (list string); objs : list nat }.
Definition heap0 : heap := {| lists := [[]]; objs := [] |}.

Inductive cop : Type :=
| NewDefault                       (* CompositeConstrainer() *)
| NewWith (l : list string)        (* CompositeConstrainer([...]), a fresh list *)
| Add (obj : nat) (c : string)     (* obj.add_constrainer(c) *)
| Reset (obj : nat).               (* obj.reset_constrainers() *)

Definition set_nth {A} (l : list A) (i : nat) (v : A) : list A :=
  match lupd l i v with Ret l' => l' | Raise _ => l end.

(** operations on objects that do not exist are ignored *)
Definition cstep (h : heap) (o : cop) : heap :=
  match o with
  | NewDefault => {| lists := lists h; objs := objs h ++ [0%nat] |}
  | NewWith l => {| lists := lists h ++ [l]; objs := objs h ++ [length (lists h)] |}
  | Add k c =>
      match nth_error (objs h) k with
      | None => h
      | Some r =>
          match nth_error (lists h) r with
          | None => h
          | Some l => {| lists := set_nth (lists h) r (l ++ [c]); objs := objs h |}
          end
      end
  | Reset k =>
      match nth_error (objs h) k with
      | None => h
      | Some _ => {| lists := lists h ++ [[]];
                     objs := set_nth (objs h) k (length (lists h)) |}
      end
  end.
Definition crun (ops : list cop) : heap := fold_left cstep ops heap0.

(** what the user sees of object [k] *)
Definition contents (h : heap) (k : nat) : option (list string) :=
  match nth_error (objs h) k with
  | None => None
  | Some r => nth_error (lists h) r
  end.

(** ** Gamma-ray limits *)

(** A float that may be +inf. *)
Inductive ext : Type := Fin (x : R) | Inf.

Definition ext_min (a b : ext) : ext :=
  match a, b with
  | Fin x, Fin y => if Rlt_dec y x then Fin y else Fin x
  | Inf, b => b
  | a, Inf => a
  end.

(** np.min / Python min of a list; empty raises ValueError *)
Definition min_list (l : list ext) : res ext :=
  match l with
  | [] => Raise ValueError
  | x :: r => Ret (fold_left ext_min r x)
  end.

(** flux_measurement.py 67-81: the arrays kept by a measurement *)
Record measurement : Type := {
  e_lows : list R; e_highs : list R; fluxes : list R;
  upper_errors : list R; lower_errors : list R;
  dOmega : R
}.

Record bin : Type := { b_low : R; b_high : R; b_flux : R; b_err : R; b_phi : R }.

(** _theory_gamma_ray_limits.py 45-76 for one bin: the maximal integrated flux
    and the limit ([sv_lims] entry). *)
Definition phi_max (dw n_sigma : R) (b : bin) : R :=
  dw * (b_high b - b_low b) * (b_flux b + n_sigma * b_err b).
Definition sv_lim (dw n_sigma : R) (b : bin) : ext :=
  if Rlt_dec 0 (b_phi b) then Fin (phi_max dw n_sigma b / b_phi b) else Inf.

(** _theory_gamma_ray_limits.py 45-76; the arrays are zipped into bins. *)
Definition constrain_one_bin (dw n_sigma : R) (bins : list bin) : res ext :=
  min_list (map (sv_lim dw n_sigma) bins).

(** _theory_gamma_ray_limits.py 83-88 *)
Definition chi2_obs (dw : R) (bins : list bin) : R :=
  fold_left Rplus
    (map (fun b => (Rmax (b_phi b - dw * (b_high b - b_low b) * b_flux b) 0) ^ 2
                   / (dw * (b_high b - b_low b) * b_err b) ^ 2) bins) 0.

(** _theory_gamma_ray_limits.py 79-96; [chi2_crit] is the critical value from
    scipy.stats. *)
Definition constrain_chi_squared (dw : R) (chi2_crit : R) (bins : list bin) : ext :=
  if Req_EM_T (chi2_obs dw bins) 0 then Inf else Fin (sqrt (chi2_crit / chi2_obs dw bins)).

(** _theory_gamma_ray_limits.py 584-591: all windows of the grid *)
Fixpoint windows (grid : list R) : list (R * R) :=
  match grid with
  | [] => []
  | e_low :: rest => map (fun e_high => (e_low, e_high)) rest ++ windows rest
  end.

(** np.nanmax of a non-empty list (no NaN over R) *)
Definition max_list (l : list R) : option R :=
  match l with
  | [] => None
  | x :: r => Some (fold_left Rmax r x)
  end.

(** _theory_gamma_ray_limits.py 580-601.  np.stack of an empty list raises
    ValueError, outside the try block. *)
Definition unbinned_bound (prefactor n_sigma : R) (I_S I_B : R -> R -> R) (grid : list R)
  : res R :=
  match max_list (map (fun w => I_S (fst w) (snd w) / sqrt (I_B (fst w) (snd w))) (windows grid)) with
  | None => Raise ValueError
  | Some m => Ret (prefactor * n_sigma / m)
  end.

(** _theory_constrain.py 139-155: the constraint from one bin; the assertion of
    line 152 is an AssertionError. *)
Definition bin_constraint (dw n_sigma : R) (b : bin) : res ext :=
  if Rlt_dec 0 (b_phi b)
  then (let m := dw * (b_high b - b_low b) * (n_sigma * b_err b + b_flux b) in
        if Rlt_dec 0 m then Ret (Fin (m - b_phi b)) else Raise AssertionError)
  else Ret Inf.

Fixpoint mapM {A B : Type} (f : A -> res B) (l : list A) : res (list B) :=
  match l with
  | [] => Ret []
  | x :: r => let* y := f x in let* r' := mapM f r in Ret (y :: r')
  end.

(** _theory_constrain.py 157-171, method "1bin"; b_phi is phi_dm *)
Definition binned_gamma_helper (dw n_sigma : R) (bins : list bin) : res ext :=
  let* cs := mapM (bin_constraint dw n_sigma) bins in min_list cs.

(** ** FluxMeasurement: arrays are heap objects, passed by reference *)

Definition zip2 {A B C} (f : A -> B -> C) (l : list A) (m : list B) : list C :=
  map (fun p => f (fst p) (snd p)) (combine l m).

(** The heap of float arrays. *)
Definition aheap : Type := list (list R).
Definition deref (h : aheap) (r : nat) : list R := nth r h [].

(** The references held by a measurement object. *)
Record fm : Type := { m_lows : nat; m_highs : nat; m_flux : nat; m_upper : nat; m_lower : nat }.

(** flux_measurement.py 67-81.  [self.fluxes /= ...] (77) writes into the
    caller's array; 80 and 81 allocate new arrays. *)
Definition fm_init (h : aheap) (lows highs flux upper lower : nat) (power : nat) : aheap * fm :=
  let bins := zip2 (fun a b => 0.5 * (a + b)) (deref h lows) (deref h highs) in
  let flux' := zip2 (fun f e => f / e ^ power) (deref h flux) bins in
  let h1 := set_nth h flux flux' in
  let up' := zip2 (fun p f => p - f)
               (zip2 (fun u e => u / e ^ power) (deref h1 upper) bins) (deref h1 flux) in
  let lo' := zip2 (fun f p => f - p) (deref h1 flux)
               (zip2 (fun u e => u / e ^ power) (deref h1 lower) bins) in
  (h1 ++ [up'; lo'],
   {| m_lows := lows; m_highs := highs; m_flux := flux;
      m_upper := length h1; m_lower := S (length h1) |}).
