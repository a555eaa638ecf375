(** Model of the entry points of the compiled extension for tabulated photon spectra, rust/src/photon.rs: the guard on the energy
    of the parent (BoostModel) before the dispatch of the argument (DispatchModel). *)
From Coq Require Import String List ZArith.
From Verif Require Import PyBase RustBase RustMath DispatchModel BoostModel.
Import ListNotations.
Local Open Scope string_scope.

Section Entry.
Variable M : Math.
Variable f0 : F M.
Variable of_int : Z -> option (F M).
Variable of_bool : bool -> F M.
Notation heap := (list (list (F M))).

(** A panic of a kernel reaches Python as an exception, written RuntimeError here *)
Definition kernel_result (r : rr unit (F M)) : res (F M) := match r with Ok x => Ret x | _ => Raise RuntimeError end.

(** photon.rs 45-59: the branch is resolved once, before the argument is looked at *)
Definition dnde_tabulated (h : heap) (v : val (F M)) (parent_energy : F M) (s : Spectrum M) : heap * res (val (F M)) :=
  match branch M parent_energy (smass M s) with
  | Ok b => map_unary_try (F M) f0 of_int of_bool h v (fun e => kernel_result (dnde M e b s))
  | Err _ => (h, Raise ValueError)
  | Panic => (h, Raise RuntimeError)
  end.

(** photon_tables.rs 277-364: the seven spectra, of any contents *)
Record tables : Type := { t_charged_kaon : Spectrum M; t_long_kaon : Spectrum M; t_short_kaon : Spectrum M; t_eta : Spectrum M;
  t_eta_prime : Spectrum M; t_omega : Spectrum M; t_phi : Spectrum M }.
(** photon.rs 175-234 and the registrations 243-249 *)
Definition tabulated_entries (t : tables) : dict (heap -> val (F M) -> F M -> heap * res (val (F M))) :=
  [("dnde_photon_charged_kaon", fun h v e => dnde_tabulated h v e (t_charged_kaon t));
   ("dnde_photon_long_kaon", fun h v e => dnde_tabulated h v e (t_long_kaon t));
   ("dnde_photon_short_kaon", fun h v e => dnde_tabulated h v e (t_short_kaon t));
   ("dnde_photon_eta", fun h v e => dnde_tabulated h v e (t_eta t));
   ("dnde_photon_eta_prime", fun h v e => dnde_tabulated h v e (t_eta_prime t));
   ("dnde_photon_omega", fun h v e => dnde_tabulated h v e (t_omega t));
   ("dnde_photon_phi", fun h v e => dnde_tabulated h v e (t_phi t))].
End Entry.
