(** Model of the methods integrate, decay_width, cross_section, energy_distributions and invariant_mass_distributions of the
    class Rambo, hazma/phase_space/_rambo.py.  What generate and generator give is a parameter: events with their weights,
    which are numbers here (no NaN). *)
From Coq Require Import Reals ZArith Bool List.
From Verif Require Import PyBase RamboModel KinModel TriModel VffModel.
Import ListNotations.
Local Open Scope R_scope.

Definition sample : Type := list (list vec * R).

(** 452, 588, 657: a batch size is given and is not [n] *)
Definition batched (n : Z) (batch_size : option Z) : bool :=
  match batch_size with Some b => negb (Z.eqb b n) | None => false end.

(** * Integrals *)

(** np.nanstd(ws, ddof=1); [None] is NaN *)
Definition nanstd (ws : list R) : option R :=
  if Nat.leb (length ws) 1 then None
  else Some (sqrt (total (map (fun w => (w - mean ws) ^ 2) ws) / INR (length ws - 1))).
(** np.nansum of squares *)
Definition nan_square (e : option R) : R := match e with Some e => e ^ 2 | None => 0 end.

(** 452-472: the integral and the estimate of its error.  [all] is what generate(n) gives and [batches] what the generator
    yields. *)
Definition rambo_integrate (all : sample) (batches : list sample) (n : Z) (batch_size : option Z) : R * option R :=
  if batched n batch_size then
    let b := match batch_size with Some b => IZR b | None => 0 end in
    let integrals := map (fun s => mean (map snd s)) batches in
    let errors := map (fun s => option_map (fun d => d / sqrt b) (nanstd (map snd s))) batches in
    (mean integrals, Some (sqrt (total (map nan_square errors)) / INR (length errors)))
  else
    let ws := map snd all in
    (mean ws, option_map (fun d => d / sqrt (IZR n)) (nanstd ws)).

(** 500-506 *)
Definition rambo_width (cme : R) (r : R * option R) : R * option R :=
  let pre := 1 / 2 / cme in (pre * fst r, option_map (fun e => pre * e) (snd r)).
(** 540-546 *)
Definition rambo_cross_section (cme m1 m2 : R) (r : R * option R) : R * option R :=
  let pre := cross_section_prefactor m1 m2 cme in (pre * fst r, option_map (fun e => pre * e) (snd r)).

(** * Distributions *)

(** np.histogram with explicit edges: differences of the running sums up to each edge, the last edge included *)
Definition up_to (last : bool) (xs : list (R * R)) (e : R) : R :=
  total (map (fun xw => if last then (if Rle_dec (fst xw) e then snd xw else 0)
                        else (if Rlt_dec (fst xw) e then snd xw else 0)) xs).
Fixpoint running (xs : list (R * R)) (edges : list R) : list R :=
  match edges with
  | [] => []
  | [e] => [up_to true xs e]
  | e :: r => up_to false xs e :: running xs r
  end.
Fixpoint differences (l : list R) : list R :=
  match l with x :: ((y :: _) as r) => (y - x) :: differences r | _ => [] end.
Definition histogram (xs : list (R * R)) (edges : list R) : list R := differences (running xs edges).

(** An array of counts: whole numbers if there were no weights, floats otherwise *)
Inductive counts : Type := Ints (l : list R) | Floats (l : list R).
Definition numbers (c : counts) : list R := match c with Ints l => l | Floats l => l end.
(** a += d with floats in d: numpy refuses to store floats in whole numbers, UFuncTypeError, a TypeError *)
Definition add_in_place (c : counts) (d : list R) : res counts :=
  match c with
  | Ints _ => Raise TypeError
  | Floats l => Ret (Floats (map (fun xy => fst xy + snd xy) (combine l d)))
  end.

Section Distributions.
Variable all : sample.
Variable batches : list sample.

(** What is histogrammed, and its limits *)
Definition axis : Type := ((list vec -> R) * (R * R))%type.
Definition fill (s : sample) (f : list vec -> R) (edges : list R) : list R :=
  histogram (map (fun pw => (f (fst pw), snd pw)) s) edges.
(** 590-593, 659-662: the batches are added in turn *)
Fixpoint add_batches (axes : list (list vec -> R)) (edges : list (list R)) (bs : list sample) (ds : list counts) : res (list counts) :=
  match bs with
  | [] => Ret ds
  | s :: r =>
      let* ds' := mapM (fun q => add_in_place (fst q) (fill s (fst (snd q)) (snd (snd q)))) (combine ds (combine axes edges)) in
      add_batches axes edges r ds'
  end.
(** 582-602 and 651-675; the dictionary is filled once per particle with the same values *)
Definition histograms (axes : list axis) (nbins : nat) (n : Z) (batch_size : option Z) : res (list dist) :=
  let edges := map (fun a => linspace (fst (snd a)) (snd (snd a)) nbins) axes in
  let start := map (fun b => Ints (histogram (repeat (0, 1) nbins) b)) edges in
  let* ds :=
    if batched n batch_size then add_batches (map fst axes) edges batches start
    else Ret (map (fun fb => Floats (fill all (fst fb) (snd fb))) (combine (map fst axes) edges)) in
  mapM (fun bd => dist_new (fst bd) (numbers (snd bd))) (combine edges ds).

(** 579-602 *)
Definition energy_of (i : nat) (ps : list vec) : R := en (nth i ps (V4 0 0 0 0)).
Definition rambo_energy_distributions (cme : R) (masses : list R) (nbins : nat) (n : Z) (batch_size : option Z) : res (list dist) :=
  histograms (combine (map energy_of (seq 0 (length masses))) (energy_limits cme masses)) nbins n batch_size.
(** 638-675 *)
Definition inv_mass (pair : nat * nat) (ps : list vec) : R :=
  sqrt (Rabs (lnorm_sqr (vplus (nth (fst pair) ps (V4 0 0 0 0)) (nth (snd pair) ps (V4 0 0 0 0))))).
Definition rambo_invariant_mass_distributions (cme : R) (masses : list R) (nbins : nat) (n : Z) (batch_size : option Z)
  : res (list ((nat * nat) * dist)) :=
  let bounds := invariant_mass_limits cme masses in
  let* ds := histograms (map (fun pl => (inv_mass (fst pl), snd pl)) bounds) nbins n batch_size in
  Ret (combine (map fst bounds) ds).
End Distributions.
