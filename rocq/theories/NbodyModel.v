(** Model over exact real arithmetic of radiation in the Altarelli-Parisi approximation
    (hazma/spectra/altarelli_parisi.py and the deprecated functions of hazma/utils.py) and of the spectra of
    n-body final states (hazma/spectra/_nbody.py).

    Arrays of product energies are modelled one energy at a time: every operation in these files is elementwise
    in them. A spectrum at one energy is a list of rows, one row, or three for all neutrino flavours; NumPy adds
    one row to three by broadcasting. Spectra of single particles and the phase-space distributions are
    parameters (they are modelled in the files Spec, Pion, MedSpec, Kin and Rambo). *)
From Coq Require Import String Bool Reals List Arith.
From Verif Require Import PyBase KinModel.
Import ListNotations.
Local Open Scope string_scope.
Local Open Scope list_scope.
Local Open Scope R_scope.

(** * Altarelli-Parisi *)
Section AP.
(** hazma.parameters.alpha_em *)
Variable alpha_em : R.
(** altarelli_parisi.py 21-26; utils.py 269-274 are the same *)
Definition scalar_splitting (x : R) : R := 2 * (1 - x) / x.
Definition fermion_splitting (x : R) : R := (1 + (1 - x) ^ 2) / x.
(** altarelli_parisi.py 29-37: the kernel is zero where the mask is false *)
Definition dndx_photon_fsr (x s m : R) (split : R -> R) (q : R) : R :=
  let pre := q ^ 2 * alpha_em / (2 * PI) in
  let xm := 1 - x in
  let kernel := if Rlt_dec (exp 1) (s * xm / m ^ 2) then split x * (ln (s * xm / m ^ 2) - 1) else 0 in
  pre * kernel.
(** altarelli_parisi.py 40-43 *)
Definition dnde_photon_fsr_ap (e s m : R) (split : R -> R) (q : R) : R :=
  let e_to_x := 2 / sqrt s in
  dndx_photon_fsr (e * e_to_x) s m split q * e_to_x.
(** altarelli_parisi.py 46-124 *)
Definition dndx_photon_ap_fermion (x s mass charge : R) : R := dndx_photon_fsr x s mass fermion_splitting charge.
Definition dndx_photon_ap_scalar (x s mass charge : R) : R := dndx_photon_fsr x s mass scalar_splitting charge.
Definition dnde_photon_ap_fermion (e s mass charge : R) : R := dnde_photon_fsr_ap e s mass fermion_splitting charge.
Definition dnde_photon_ap_scalar (e s mass charge : R) : R := dnde_photon_fsr_ap e s mass scalar_splitting charge.
(** utils.py 277-336 *)
Definition dnde_altarelli_parisi (eng cme mass : R) (splitting : R -> R) : R :=
  let mu := mass / cme in
  let x := 2 * eng / cme in
  if Rlt_dec (1 - exp 1 * mu ^ 2) x then 0
  else 2 * alpha_em / (PI * cme) * splitting x * (ln ((1 - x) / mu ^ 2) - 1).
Definition dnde_altarelli_parisi_fermion (e cme mf : R) : R := dnde_altarelli_parisi e cme mf fermion_splitting.
Definition dnde_altarelli_parisi_scalar (e cme ms : R) : R := dnde_altarelli_parisi e cme ms scalar_splitting.
(** _nbody.py 46-54 *)
Definition make_fsr (mass charge : R) (scalar : bool) (ep sqrts : R) : R :=
  (if scalar then dnde_photon_ap_scalar else dnde_photon_ap_fermion) ep (sqrts ^ 2) mass charge.
End AP.

(** * n-body spectra *)
(** A distribution: bin centres and probabilities *)
Definition pdist : Type := (list R * list R)%type.
(** np.interp(x, xs, ys, left=0, right=0) *)
Fixpoint np_interp (x : R) (xs ys : list R) : R :=
  match xs, ys with
  | x0 :: ((x1 :: _) as xs1), y0 :: ((y1 :: _) as ys1) =>
      if Rlt_dec x x0 then 0
      else if Rlt_dec x x1 then y0 + (y1 - y0) / (x1 - x0) * (x - x0) else np_interp x xs1 ys1
  | [x0], [y0] => if Req_EM_T x x0 then y0 else 0
  | _, _ => 0
  end.
(** a + b for arrays of one or three rows *)
Definition badd (a b : list R) : list R :=
  match a, b with
  | [x], _ => map (fun y => x + y) b
  | _, [y] => map (fun x => x + y) a
  | _, _ => map (fun xy => fst xy + snd xy) (combine a b)
  end.
(** the keys of the dictionaries of _nbody.py 57-121: the same for photon, positron and neutrino *)
Definition spectrum_keys : list string :=
  ["e"; "ve"; "vm"; "vt"; "mu"; "pi"; "pi0"; "k"; "kl"; "ks"; "eta"; "etap"; "rho"; "rho0"; "omega"; "phi"].
Definition mem (s : string) (l : list string) : bool := existsb (String.eqb s) l.

Section Nbody.
(** sm_masses; the spectra of the photon, positron and neutrino dictionaries other than the zero functions;
    the radiation functions of the fsr dictionary *)
Variable sm_masses : string -> option R.
Variable photon positron : string -> R -> R -> R.
Variable neutrino : string -> R -> R -> R * R * R.
Variable fsr : string -> R -> R -> R.

(** _nbody.py 36-43: the zero functions, and where they are entered (57-121); 77-82: the fsr dictionary *)
Definition zero_photon : list string := ["e"; "ve"; "vm"; "vt"].
Definition zero_positron : list string := ["e"; "ve"; "vm"; "vt"; "pi0"; "rho0"].
Definition zero_neutrino : list string := ["e"; "ve"; "vm"; "vt"; "pi0"; "rho0"].
Definition fsr_keys : list string := ["e"; "mu"; "pi"; "k"].
Definition nu_rows (state : string) (ep e : R) : R * R * R :=
  if mem state zero_neutrino then (0, 0, 0) else neutrino state ep e.
(** _nbody.py 57-144, _spectra_dict[product].get(state); the flavour dictionaries (123-133) fix [flavor] and give one row *)
Definition spectrum (product state : string) : option (R -> R -> list R) :=
  if String.eqb product "fsr" then
    if mem state fsr_keys then Some (fun ep e => [fsr state ep e]) else None
  else if mem state spectrum_keys then
    if String.eqb product "photon" then Some (fun ep e => [if mem state zero_photon then 0 else photon state ep e])
    else if String.eqb product "positron" then Some (fun ep e => [if mem state zero_positron then 0 else positron state ep e])
    else if String.eqb product "neutrino" then Some (fun ep e => let '(a, b, c) := nu_rows state ep e in [a; b; c])
    else if String.eqb product "ve" then Some (fun ep e => [fst (fst (nu_rows state ep e))])
    else if String.eqb product "vm" then Some (fun ep e => [snd (fst (nu_rows state ep e))])
    else if String.eqb product "vt" then Some (fun ep e => [snd (nu_rows state ep e)])
    else None
  else None.

(** _nbody.py 147-167 *)
Fixpoint get_masses (final_states : list string) : res (list R) :=
  match final_states with
  | [] => Ret []
  | s :: r => match sm_masses s with None => Raise ValueError | Some m => let* ms := get_masses r in Ret (m :: ms) end
  end.
(** number of rows of a product: 3 for "neutrino" *)
Definition rows (product : string) : nat := if String.eqb product "neutrino" then 3 else 1.
(** _nbody.py 257-303: the spectrum at each energy of the distribution, weighted, and the trapezoidal rule, row by row *)
Definition conv_dnde_dist (ep : R) (d : pdist) (state product : string) : res (list R) :=
  match spectrum product state with
  | None => Raise AssertionError
  | Some dnde_fn =>
      let '(centers, probs) := d in
      let dndes := map (fun e => dnde_fn ep e) centers in
      Ret (map (fun k => trapezoid centers (map (fun pr => fst pr * nth k (snd pr) 0) (combine probs dndes))) (seq 0 (rows product)))
  end.

(** _nbody.py 306-392. [dists] is the dictionary of invariant-mass distributions in its order; the loop over its items and
    over the two members of a pair is a loop over the list of (name, distribution) *)
Definition fsr_events (final_states : list string) (dists : list ((nat * nat) * pdist)) : list (string * pdist) :=
  flat_map (fun pd => [(nth (fst (fst pd)) final_states "", snd pd); (nth (snd (fst pd)) final_states "", snd pd)]) dists.
Definition count_of (counts : dict nat) (s : string) : nat := match dget counts s with Some n => n | None => 0 end.
Definition value_of (dndes : dict R) (s : string) : R := match dget dndes s with Some v => v | None => 0 end.
Fixpoint fsr_loop (ep : R) (average_fsr : bool) (events : list (string * pdist)) (dndes : dict R) (counts : dict nat) : res (dict R * dict nat) :=
  match events with
  | [] => Ret (dndes, counts)
  | (s, d) :: rest =>
      match dget dndes s with
      | None => fsr_loop ep average_fsr rest dndes counts
      | Some v =>
          if average_fsr || Nat.eqb (count_of counts s) 0 then
            let* c := conv_dnde_dist ep d s "fsr" in
            fsr_loop ep average_fsr rest (dset dndes s (v + nth 0 c 0)) (dset counts s (S (count_of counts s)))
          else fsr_loop ep average_fsr rest dndes counts
      end
  end.
Definition dnde_photon_fsr (ep : R) (final_states : list string) (dists : list ((nat * nat) * pdist)) (average_fsr : bool) : res R :=
  if existsb (fun s => mem s fsr_keys) final_states then
    let dndes := fold_left (fun d s => if mem s fsr_keys then dset d s 0 else d) final_states [] in
    let* r := fsr_loop ep average_fsr (fsr_events final_states dists) dndes [] in
    Ret (fold_left (fun acc kv => acc + snd kv / INR (count_of (snd r) (fst kv))) (fst r) 0)
  else Ret 0.

(** _nbody.py 395-445 *)
Definition dnde_two_body (ep cme : R) (s1 s2 product : string) (include_fsr : bool) : res (list R) :=
  let* ms := get_masses [s1; s2] in
  let m1 := nth 0 ms 0 in
  let m2 := nth 1 ms 0 in
  let e1 := (cme ^ 2 + m1 ^ 2 - m2 ^ 2) / (2 * cme) in
  let e2 := (cme ^ 2 - m1 ^ 2 + m2 ^ 2) / (2 * cme) in
  let dnde := map (fun _ => 0) (seq 0 (rows product)) in
  let dnde := match spectrum product s1 with Some f => badd dnde (f ep e1) | None => dnde end in
  let dnde := match spectrum product s2 with Some f => badd dnde (f ep e2) | None => dnde end in
  if String.eqb product "photon" && include_fsr then
    let dnde := match spectrum "fsr" s1 with Some f => badd dnde (f ep cme) | None => dnde end in
    let dnde := match spectrum "fsr" s2 with Some f => badd dnde (f ep cme) | None => dnde end in
    Ret dnde
  else Ret dnde.

(** _nbody.py 448-524. [edists] and [mdists] are what _make_energy_distributions and _make_invariant_mass_distributions
    return for these final states *)
Fixpoint multi_loop (ep : R) (product : string) (l : list (pdist * string)) (dnde : list R) : res (list R) :=
  match l with
  | [] => Ret dnde
  | (d, state) :: rest =>
      let* c := conv_dnde_dist ep d state product in
      let dnde := badd dnde c in
      let cond := String.eqb state product || (String.eqb state "e" && String.eqb product "positron")
                  || (mem state ["ve"; "vm"; "vt"] && String.eqb product "neutrino") in
      let dnde := if cond then badd dnde [np_interp ep (fst d) (snd d)] else dnde in
      multi_loop ep product rest dnde
  end.
Definition dnde_multi_particle (ep : R) (final_states : list string) (product : string)
    (edists : list pdist) (mdists : list ((nat * nat) * pdist)) (include_fsr average_fsr : bool) : res (list R) :=
  let* dnde := multi_loop ep product (combine edists final_states) [0] in
  if String.eqb product "photon" && include_fsr then
    let* f := dnde_photon_fsr ep final_states mdists average_fsr in Ret (badd dnde [f])
  else Ret dnde.

(** _nbody.py 527-589: the final states are a string or a list of strings *)
Inductive final := One (state : string) | Several (states : list string).
Definition dnde_nbody (ep cme : R) (fs : final) (product : string)
    (edists : list pdist) (mdists : list ((nat * nat) * pdist)) (include_fsr average_fsr : bool) : res (list R) :=
  let* msum := match fs with
    | One s => match sm_masses s with Some m => Ret m | None => Raise (KeyError s) end
    | Several l => let* ms := get_masses l in Ret (fold_left Rplus ms 0)
    end in
  if Rlt_dec cme msum then Raise ValueError else
  let single s := match spectrum product s with Some f => Ret (f ep cme) | None => Raise (KeyError s) end in
  match fs with
  | One s => single s
  | Several [s] => single s
  | Several [s1; s2] => dnde_two_body ep cme s1 s2 product include_fsr
  | Several l => dnde_multi_particle ep l product edists mdists include_fsr average_fsr
  end.
(** _nbody.py 592-885: the public functions; a flavour picks the product *)
Definition dnde_photon (ep cme : R) (fs : final) edists mdists (include_fsr average_fsr : bool) : res (list R) :=
  dnde_nbody ep cme fs "photon" edists mdists include_fsr average_fsr.
Definition dnde_positron (ep cme : R) (fs : final) edists mdists : res (list R) :=
  dnde_nbody ep cme fs "positron" edists mdists false false.
Definition dnde_neutrino (ep cme : R) (fs : final) edists mdists (flavor : option string) : res (list R) :=
  let* product := match flavor with
    | None => Ret "neutrino"
    | Some f => if String.eqb f "e" then Ret "ve" else if String.eqb f "mu" then Ret "vm"
                else if String.eqb f "tau" then Ret "vt" else Raise ValueError
    end in
  dnde_nbody ep cme fs product edists mdists false false.
End Nbody.
