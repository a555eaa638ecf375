(** Model of hazma/limits/_existing_telescope.py and of the dictionary made by CompositeConstrainer
    (hazma/limits/_abstract.py). *)
From Coq Require Import String Reals List.
From Verif Require Import PyBase LimitsModel FluxModel.
Import ListNotations.
Local Open Scope R_scope.
Local Open Scope string_scope.

(** A measured flux: the target and the bins (flux_measurement.py 67-81 keeps these and the resolution) *)
Record observed : Type := { ob_target : target; ob_bins : list mbin }.

(** The method [binned_limit] of an object: measurement, n_sigma and method are given by position *)
Definition limit_method : Type := observed -> R -> string -> res ext.
(** An object passed as model: with or without the attribute [binned_limit] *)
Definition pyobj : Type := option limit_method.

(** theory/_theory_gamma_ray_limits.py 436-477 for a theory of this kind; [conv m a b] is the spectrum convolved with the
    resolution of [m] and integrated over a bin; [crit n k] is chi2.ppf(norm.cdf(n), df=k) of lines 94-95 *)
Definition theory_limit (kind : string) (mx : R) (conv : observed -> R -> R -> R) (crit : R -> nat -> R) : limit_method :=
  fun m n method => binned_limit kind mx (ob_target m) (conv m) (ob_bins m) n method (crit n (length (ob_bins m))).
(** 436: n_sigma=2.0, method="1bin" *)
Definition limit_default (f : limit_method) (m : observed) : res ext := f m 2 "1bin".

(** _existing_telescope.py 12-16 *)
Record telescope : Type := { tel_name : string; tel_data : observed; tel_sigma : R; tel_method : string }.
(** 26-75; the data files are arbitrary, the targets are gamma_ray_parameters.py 126-130 *)
Record data_files : Type := { df_comptel : list mbin; df_egret : list mbin; df_fermi : list mbin; df_integral : list mbin }.
Definition comptel_limit (d : data_files) (sigma : R) (method : string) : telescope :=
  {| tel_name := "comptel"; tel_data := {| ob_target := region (9.308 * 10 ^ 28) (4.866 * 10 ^ 25) 1.433; ob_bins := df_comptel d |};
     tel_sigma := sigma; tel_method := method |}.
Definition egret_limit (d : data_files) (sigma : R) (method : string) : telescope :=
  {| tel_name := "egret"; tel_data := {| ob_target := region (1.253 * 10 ^ 28) (3.42 * 10 ^ 25) 6.585; ob_bins := df_egret d |};
     tel_sigma := sigma; tel_method := method |}.
Definition fermi_limit (d : data_files) (sigma : R) (method : string) : telescope :=
  {| tel_name := "fermi"; tel_data := {| ob_target := region (1.695 * 10 ^ 28) (3.563 * 10 ^ 25) 10.82; ob_bins := df_fermi d |};
     tel_sigma := sigma; tel_method := method |}.
Definition integral_limit (d : data_files) (sigma : R) (method : string) : telescope :=
  {| tel_name := "integral"; tel_data := {| ob_target := region (2.086 * 10 ^ 29) (7.301 * 10 ^ 25) 0.5421; ob_bins := df_integral d |};
     tel_sigma := sigma; tel_method := method |}.
(** 27, 40, 53, 66: sigma=2.0, method="chi2" *)
Definition tel_default (make : R -> string -> telescope) : telescope := make 2 "chi2".

(** _existing_telescope.py 18-23 *)
Definition tel_one (t : telescope) (model : pyobj) : res ext :=
  match model with
  | None => Raise AssertionError
  | Some f => f (tel_data t) (tel_sigma t) (tel_method t)
  end.

(** _abstract.py 39-44: zeros, then one assignment per model *)
Fixpoint tel_loop (t : telescope) (i : nat) (models : list pyobj) (out : list ext) : res (list ext) :=
  match models with
  | [] => Ret out
  | m :: rest => let* v := tel_one t m in let* out' := lupd out i v in tel_loop t (S i) rest out'
  end.
Definition tel_constrain (t : telescope) (models : list pyobj) : res (list ext) :=
  tel_loop t 0 models (repeat (Fin 0) (length models)).

(** _abstract.py 65-71: a dictionary by name, in the order of the constrainers *)
Fixpoint composite_loop (cs : list telescope) (models : list pyobj) (d : dict (list ext)) : res (dict (list ext)) :=
  match cs with
  | [] => Ret d
  | c :: rest => let* v := tel_constrain c models in composite_loop rest models (dset d (tel_name c) v)
  end.
Definition composite_constrain (cs : list telescope) (models : list pyobj) : res (dict (list ext)) :=
  composite_loop cs models [].
