(** Model over exact real arithmetic of the tabulated spectra of hazma/spectra/_positron (_utils.py, __init__.py) and
    hazma/spectra/_neutrino (_utils.py, __init__.py): tables at rest, splines, the boost, and what the functions
    return for the various kinds of arguments.

    Simplifications. A spline is what the code uses of it, the call and the method [integral]. The linear splines
    of the positrons are modelled concretely; the quadratic ones of the neutrinos are a parameter [spline2]. Arrays
    of rank above one are not represented, nor are integer dtypes of results. [None] as a number is NaN. *)
From Coq Require Import Reals ZArith String Bool List.
From Verif Require Import PyBase TableData.
Import ListNotations.
Local Open Scope R_scope.

(** hazma/parameters.py 50, 60-76 *)
Definition me : R := 5109989461 / 10 ^ 10.
Definition eta_mass : R := 547862 / 1000.
Definition eta_prime_mass : R := 95778 / 100.
Definition charged_kaon_mass : R := 493677 / 1000.
Definition neutral_kaon_mass : R := 497611 / 1000.
Definition rho_mass : R := 77526 / 100.
Definition omega_mass : R := 78266 / 100.
Definition phi_mass : R := 1019461 / 1000.
(** np.finfo(np.float64).eps *)
Definition eps : R := / 2 ^ 52.

(** * Arguments and results *)

(** the energies: a float, an int, a list of floats, a float64 array of rank 1, an integer one, an array of rank 0 *)
Inductive energies :=
| AFloat (x : R) | AInt (z : Z) | AList (xs : list R) | AArr (xs : list R) | AArrInt (zs : list Z) | AArr0 (x : R).
Definition num : Type := option R.
(** a float (or np.float64), an array of rank 0, 1 or 2 *)
Inductive value := VFloat (x : num) | VArr0 (x : num) | VArr (xs : list num) | VRows (rows : list (list num)).
(** np.zeros_like: an array, of rank 0 for numbers *)
Definition zeros_like (e : energies) : value :=
  match e with
  | AFloat _ | AInt _ | AArr0 _ => VArr0 (Some 0)
  | AList xs | AArr xs => VArr (map (fun _ => Some 0) xs)
  | AArrInt zs => VArr (map (fun _ => Some 0) zs)
  end.
(** np.sqrt *)
Definition nsqrt (x : R) : num := if Rlt_dec x 0 then None else Some (sqrt x).
Definition nscale (c : R) (x : num) : num := match x with Some v => Some (c * v) | None => None end.

(** * Splines *)

(** InterpolatedUnivariateSpline: the call and the method [integral] *)
Record spline := Spline { ev : R -> R; integral : R -> R -> R }.
Definition line (p q : R * R) (x : R) : R := snd p + (snd q - snd p) / (fst q - fst p) * (x - fst p).
(** degree 1: between data points the straight line; outside the data the first and last lines are continued
    (ext = 0, the default) *)
Fixpoint lin_ev (pts : list (R * R)) (x : R) : R :=
  match pts with
  | p :: ((q :: _ :: _) as tl) => if Rlt_dec x (fst q) then line p q x else lin_ev tl x
  | [p; q] => line p q x
  | _ => 0
  end.
(** its integral, for a <= b: FITPACK's splint takes the spline to be zero outside the data *)
Definition segment (p q : R * R) (a b : R) : R :=
  let l := Rmax a (fst p) in
  let h := Rmin b (fst q) in
  if Rlt_dec l h then (h - l) * (line p q l + line p q h) / 2 else 0.
Fixpoint lin_int (pts : list (R * R)) (a b : R) : R :=
  match pts with
  | p :: ((q :: _) as tl) => segment p q a b + lin_int tl a b
  | _ => 0
  end.
Definition spline1 (pts : list (R * R)) : spline := Spline (lin_ev pts) (lin_int pts).

(** A file: rows of an energy and the columns of the decay modes *)
Definition table : Type := list (R * list R).
Definition row_sum (cols : list R) : R := fold_left Rplus cols 0.

(** * Positrons *)
(** _positron/_utils.py 13-27 *)
Definition load_positron (t : table) : spline :=
  spline1 (map (fun row => (fst row, row_sum (snd row) / sqrt (fst row ^ 2 - me ^ 2))) t).
(** _positron/_utils.py 30-53 *)
Definition positron_point (e parent mass : R) (interp : spline) : R :=
  if Rlt_dec parent mass then 0 else if Rlt_dec e me then 0 else
  if Rlt_dec (parent - mass) eps then ev interp e * sqrt (e ^ 2 - me ^ 2) else
  let gamma := parent / mass in
  let beta := sqrt (1 - / gamma ^ 2) in
  let k := sqrt (e ^ 2 - me ^ 2) in
  let lb := gamma * (e - beta * k) in
  let ub := gamma * (e + beta * k) in
  integral interp lb ub / (2 * beta * gamma).
(** _positron/_utils.py 56-82 *)
Definition positron_array (es : list R) (parent mass : R) (interp : spline) : list num :=
  if Rlt_dec parent mass then map (fun _ => Some 0) es else
  if Rlt_dec (parent - mass) eps then map (fun e => nscale (ev interp e) (nsqrt (e ^ 2 - me ^ 2))) es else
  map (fun e => Some (positron_point e parent mass interp)) es.
(** _positron/_utils.py 85-114: an int has no __len__; a list has no dtype; np.finfo refuses integer dtypes; an array
    of rank 0 cannot be iterated over *)
Definition dnde_positron (e : energies) (parent mass : R) (interp : spline) : res value :=
  if Rlt_dec parent mass then Ret (zeros_like e) else
  match e with
  | AFloat x => Ret (VFloat (Some (positron_point x parent mass interp)))
  | AInt _ => Raise AssertionError
  | AList _ => Raise (AttributeError "dtype")
  | AArrInt _ => Raise ValueError
  | AArr xs => Ret (VArr (positron_array xs parent mass interp))
  | AArr0 x => if Rlt_dec (parent - mass) eps
               then Ret (VFloat (nscale (ev interp x) (nsqrt (x ^ 2 - me ^ 2)))) else Raise TypeError
  end.

(** * Neutrinos *)
(** _neutrino/_utils.py 29-50 *)
Definition neutrino_point (e parent mass : R) (interp : spline) : R :=
  if Rlt_dec parent mass then 0 else
  if Rlt_dec (parent - mass) eps then ev interp e * e else
  let gamma := parent / mass in
  let beta := sqrt (1 - / gamma ^ 2) in
  let k := e in
  let lb := gamma * (e - beta * k) in
  let ub := gamma * (e + beta * k) in
  integral interp lb ub / (2 * beta * gamma).
(** _neutrino/_utils.py 53-80 *)
Definition neutrino_array (es : list R) (parent mass : R) (interp : spline) : list R :=
  if Rlt_dec parent mass then map (fun _ => 0) es else
  if Rlt_dec (parent - mass) eps then map (fun e => ev interp e * e) es else
  map (fun e => neutrino_point e parent mass interp) es.
(** np.isscalar, and np.atleast_1d followed by the cast to float64 *)
Definition isscalar (e : energies) : bool := match e with AFloat _ | AInt _ => true | _ => false end.
Definition atleast_1d (e : energies) : list R :=
  match e with
  | AFloat x | AArr0 x => [x] | AInt z => [IZR z] | AList xs | AArr xs => xs | AArrInt zs => map IZR zs
  end.
(** [not flavor] *)
Definition no_flavor (flavor : option string) : bool := match flavor with None | Some ""%string => true | _ => false end.
Definition is_flavor (flavor : option string) (s : string) : bool := match flavor with Some f => String.eqb f s | None => false end.
Definition fin (xs : list R) : list num := map Some xs.
(** _neutrino/_utils.py 83-117; the loop over the two flavours is unrolled *)
Definition dnde_neutrino (e : energies) (parent mass : R) (interp_e interp_mu : spline) (flavor : option string) : res value :=
  let scalar := isscalar e in
  let enu := atleast_1d e in
  let zero := map (fun _ => 0) enu in
  if is_flavor flavor "tau" then Ret (VArr (fin zero)) else
  let de := neutrino_array enu parent mass interp_e in
  if is_flavor flavor "e" then Ret (VArr (fin de)) else
  let row_e := if no_flavor flavor then de else zero in
  let dmu := neutrino_array enu parent mass interp_mu in
  if is_flavor flavor "mu" then Ret (VArr (fin dmu)) else
  let row_mu := if no_flavor flavor then dmu else zero in
  let dnde := [fin row_e; fin row_mu; fin zero] in
  if scalar then Ret (VArr (map (fun row => nth 0 row None) dnde)) else Ret (VRows dnde).

Section Neutrino.
(** InterpolatedUnivariateSpline(x, y, k=2) *)
Variable spline2 : list (R * R) -> spline.
(** _neutrino/_utils.py 11-26 *)
Definition load_neutrino (t : table) : spline := spline2 (map (fun row => (fst row, row_sum (snd row) / fst row)) t).
End Neutrino.

(** * The public functions: which mass and which files *)
(** _positron/__init__.py 18-25 and 101-361 *)
Definition positron_parents : dict (R * string) :=
  [("charged_kaon", (charged_kaon_mass, "charged_kaon")); ("long_kaon", (neutral_kaon_mass, "long_kaon"));
   ("short_kaon", (neutral_kaon_mass, "short_kaon")); ("eta", (eta_mass, "eta")); ("omega", (omega_mass, "omega"));
   ("neutral_rho", (rho_mass, "rho")); ("charged_rho", (rho_mass, "rho")); ("eta_prime", (eta_prime_mass, "eta_prime"));
   ("phi", (phi_mass, "phi"))]%string.
(** _neutrino/__init__.py 17-34 and 132-467; the two files of a parent end in _e and _mu *)
Definition neutrino_parents : dict (R * string) :=
  [("charged_kaon", (charged_kaon_mass, "charged_kaon")); ("long_kaon", (neutral_kaon_mass, "long_kaon"));
   ("short_kaon", (neutral_kaon_mass, "short_kaon")); ("eta", (eta_mass, "eta")); ("omega", (omega_mass, "omega"));
   ("neutral_rho", (rho_mass, "neutral_rho")); ("charged_rho", (rho_mass, "charged_rho"));
   ("eta_prime", (eta_prime_mass, "eta_prime")); ("phi", (phi_mass, "phi"))]%string.
(** The first lines of the files in _positron/data, without the column energy: decay modes *)
Definition positron_header : dict (list string) :=
  [("charged_kaon", ["mu_nu"; "pi_pi0"; "pi_pi_pi"; "pi0_e_nu"; "pi0_mu_nu"; "pi_pi0_pi0"; "e_nu"]);
   ("long_kaon", ["pi0_pi0_pi0"; "pi_pi_pi0"; "pi_e_nu"; "pi_mu_nu"; "pi_pi"]);
   ("short_kaon", ["pi_pi"; "pi0_pi0"]);
   ("eta", ["pi_pi_pi0"; "pi_pi_a"; "mu_mu"]);
   ("omega", ["pi_pi_pi0"; "pi0_a"; "pi_pi"; "eta_a"; "e_e"; "mu_mu"]);
   ("eta_prime", ["pi_pi_eta"; "rho0_a"; "pi0_pi0_eta"; "omega_a"; "a_a"; "pi_rho"]);
   ("phi", ["k_k"; "kS_kL"; "pi_pi_pi0"; "eta_a"; "pi0_a"; "e_e"; "mu_mu"; "pi_pi"; "omega_pi0"; "etap_a"])]%string.
(** The same for _neutrino/data; the files of the two flavours have the same columns *)
Definition neutrino_header : dict (list string) :=
  [("charged_kaon", ["mu_vm"; "pi_pi0"; "pi_pi_pi"; "pi0_e_ve"; "pi0_mu_vm"; "pi_pi0_pi0"]);
   ("long_kaon", ["pi_pi_pi0"; "pi_e_ve"; "pi_mu_vm"; "pi_pi"]);
   ("short_kaon", ["pi_pi"]);
   ("eta", ["pi_pi_pi0"; "pi_pi_a"; "mu_mu"]);
   ("omega", ["pi_pi_pi0"; "pi_pi"; "mu_mu"]);
   ("neutral_rho", ["pi_pi0"]);
   ("charged_rho", ["pi_pi"]);
   ("eta_prime", ["pi_pi_eta"; "pi_rho"]);
   ("phi", ["pi_pi_pi0"; "mu_mu"; "pi_pi"])]%string.
Definition public_positron (tables : string -> table) (parent : string) (e : energies) (energy : R) : res value :=
  let* mf := dindex positron_parents parent in
  dnde_positron e energy (fst mf) (load_positron (tables (snd mf))).
Definition public_neutrino (spline2 : list (R * R) -> spline) (tables : string -> string -> table) (parent : string)
    (e : energies) (energy : R) (flavor : option string) : res value :=
  let* mf := dindex neutrino_parents parent in
  dnde_neutrino e energy (fst mf) (load_neutrino spline2 (tables (snd mf) "e"%string)) (load_neutrino spline2 (tables (snd mf) "mu"%string)) flavor.

(** The files transcribed in TableData as tables *)
Definition in_MeV (z : Z) : R := IZR z / 10 ^ 17.
Definition per_MeV (z : Z) : R := IZR z / 10 ^ 35.
(** _positron/data/short_kaon_positron.csv, with both columns *)
Definition short_kaon_table : table :=
  map (fun p => (in_MeV (fst p), [per_MeV (snd p); 0])) (combine short_kaon_energy short_kaon_pi_pi).
(** _neutrino/data/charged_rho_neutrino_{e,mu}.csv and neutral_rho_neutrino_{e,mu}.csv *)
Definition one_column (es cs : list Z) : table := map (fun p => (in_MeV (fst p), [per_MeV (snd p)])) (combine es cs).
Definition rho_table (file flavor : string) : table :=
  one_column rho_neutrino_energy
    (if String.eqb file "charged_rho"
     then if String.eqb flavor "e" then charged_rho_neutrino_e else charged_rho_neutrino_mu
     else if String.eqb flavor "e" then neutral_rho_neutrino_e else neutral_rho_neutrino_mu).
(** the column pi_mu_vm of _neutrino/data/long_kaon_neutrino_{e,mu}.csv *)
Definition long_kaon_pi_mu_vm (flavor : string) : table :=
  one_column long_kaon_neutrino_energy (if String.eqb flavor "e" then long_kaon_pi_mu_vm_e else long_kaon_pi_mu_vm_mu).
