(** Model of hazma/experimental/axial_vector_mediator/_axial_vector_mediator_cross_sections.py over exact real arithmetic.  (The
    package imports modules by old names and cannot be imported as it stands; the class is modelled as written.) *)
From Coq Require Import Reals Bool List String.
From Verif Require Import PyBase PseudoModel.
Import ListNotations.
Local Open Scope R_scope.
Local Open Scope string_scope.

Section Axial.
Variable k : consts.
(** scipy.integrate.quad: a function and the two limits; the value of the integral *)
Variable quad : (R -> res R) -> R -> R -> res R.
(** __init__.py 42-58: self.mx and self.ma *)
Variables mx ma : R.

(** 31-36: no [else]; the UnboundLocalError of line 38 is a NameError *)
Definition ff_mass (f : string) : res R :=
  if String.eqb f "e" then Ret (k_me k) else if String.eqb f "mu" then Ret (k_mmu k) else Raise (NameError "mf").
(** 13-47; the value 0.0 of line 42 is checked and returned *)
Definition sigma_xx_to_a_to_ff (Q : R) (f : string) : res R :=
  let* mf := ff_mass f in
  if Rle_dec (2 * mf) Q then if Rle_dec (2 * mx) Q then checked 0 else Ret 0 else Ret 0.
(** 49-70 *)
Definition dsigma_ds_xx_to_a_to_pi0pipi (s Q : R) : res R :=
  if Rlt_dec (2 * k_mpi k + k_mpi0 k) Q then
    if Rlt_dec (2 * mx) Q then
      if Rlt_dec (4 * k_mpi k ^ 2) s then if Rlt_dec s ((Q - k_mpi0 k) ^ 2) then Ret 0 else Ret 0
      else Ret 0
    else Ret 0
  else Ret 0.
(** 72-84 *)
Definition sigma_xx_to_a_to_pi0pipi (Q : R) : res R :=
  if Rlt_dec (2 * k_mpi k + k_mpi0 k) Q then
    if Rlt_dec (2 * mx) Q then
      let* v := quad (fun s => dsigma_ds_xx_to_a_to_pi0pipi s Q) (4 * k_mpi k ^ 2) ((Q - k_mpi0 k) ^ 2) in checked v
    else Ret 0
  else Ret 0.
(** 86-100 *)
Definition sigma_xx_to_aa (Q : R) : res R :=
  if Rle_dec (2 * ma) Q then if Rle_dec (2 * mx) Q then checked 0 else Ret 0 else Ret 0.
(** 102-133 *)
Definition axial_cross_sections (Q : R) : res (dict R) :=
  let* muon := sigma_xx_to_a_to_ff Q "mu" in
  let* electron := sigma_xx_to_a_to_ff Q "e" in
  let* pi0pipi := sigma_xx_to_a_to_pi0pipi Q in
  let* aa := sigma_xx_to_aa Q in
  Ret [("mu mu", muon); ("e e", electron); ("pi0 pi pi", pi0pipi); ("a a", aa); ("total", muon + electron + pi0pipi + aa)].

(** The methods of the class that answer a dictionary, and those of the classes beside it *)
Definition methods (others : dict (R -> res (dict R))) : dict (R -> res (dict R)) :=
  ("annihilation_cross_sections", axial_cross_sections) :: others.
(** 135-161; line 151 asks for [cross_sections] *)
Definition axial_branching_fractions (others : dict (R -> res (dict R))) (Q : R) : res (dict R) :=
  match dget (methods others) "cross_sections" with
  | None => Raise (AttributeError "cross_sections")
  | Some cross_sections =>
      let* cs := cross_sections Q in
      let* total := dindex cs "total" in
      if Req_EM_T total 0 then Ret [("mu mu", 0); ("e e", 0); ("pi0 pi pi", 0); ("a a", 0)]
      else
        let* m := dindex cs "mu mu" in
        let* e := dindex cs "e e" in
        let* p := dindex cs "pi0 pi pi" in
        let* a := dindex cs "a a" in
        Ret [("mu mu", m / total); ("e e", e / total); ("pi0 pi pi", p / total); ("a a", a / total)]
  end.
End Axial.

(** __init__.py 118-128 *)
Definition axial_final_states : list string := ["pi0 pi pi"].
