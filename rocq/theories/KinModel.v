(** Model of the phase-space kinematics over exact real arithmetic: hazma/utils.py,
    hazma/phase_space/_utils.py, _dist.py, _two_body.py, _three_body.py and the two-body kinematics of
    hazma/spectra/_fsr.py.  np.sqrt of a negative number is NaN in NumPy and 0 here; every statement
    that depends on it excludes that case or mentions it. *)
From Coq Require Import Reals Arith ZArith Bool List.
From Verif Require Import PyBase RamboModel.
Import ListNotations.
Local Open Scope R_scope.

(** utils.py 75-89 *)
Definition kallen_lambda (a b c : R) : R := a ^ 2 + b ^ 2 + c ^ 2 - 2 * a * b - 2 * a * c - 2 * b * c.
(** utils.py 155-161 *)
Definition two_body_momentum (cme m1 m2 : R) : R :=
  let heavy := Rmax m1 m2 in
  let light := Rmin m1 m2 in
  let upper := sqrt ((cme - heavy - light) * (cme + heavy + light)) in
  let lower := sqrt ((cme - heavy + light) * (cme + heavy - light)) in
  upper * lower / (2 * cme).
(** utils.py 187-188 *)
Definition cross_section_prefactor (m1 m2 cme : R) : R := 1 / (4 * two_body_momentum cme m1 m2 * cme).
(** utils.py 242-263 for one vector *)
Definition lnorm_sqr (p : vec) : R := en p ^ 2 - px p ^ 2 - py p ^ 2 - pz p ^ 2.

(** phase_space/_utils.py 10-17 and _dist.py 18-39 (same code).  [None] stands for the all-NaN array.
    [edges[i + 1]] past the end raises IndexError; np.min of an empty array raises ValueError. *)
Definition edge (edges : list R) (i : nat) : res R :=
  match nth_error edges i with Some x => Ret x | None => Raise IndexError end.
Fixpoint norm_terms (edges : list R) (i : nat) (ps : list R) : res (list R) :=
  match ps with
  | [] => Ret []
  | p :: r =>
      let* hi := edge edges (i + 1) in
      let* lo := edge edges i in
      let* l := norm_terms edges (S i) r in
      Ret (p * (hi - lo) :: l)
  end.
Definition np_min (l : list R) : res R :=
  match l with [] => Raise ValueError | x :: r => Ret (fold_left Rmin r x) end.
Definition normalize_distribution (ps edges : list R) : res (option (list R)) :=
  let* terms := norm_terms edges 0 ps in
  let norm := total terms in
  if Rle_dec norm 0 then
    let* m := np_min ps in
    if Rlt_dec m 0 then Ret None else Ret (Some ps)
  else Ret (Some (map (fun p => p / norm) ps)).

(** _utils.py 20-45 *)
Definition energy_limits (q : R) (masses : list R) : list (R * R) :=
  let msum := total masses in
  map (fun m => (m, (q ^ 2 + m ^ 2 - (msum - m) ^ 2) / (2 * q))) masses.

(** itertools.combinations(range(n), 2) in order *)
Definition index_pairs (n : nat) : list (nat * nat) :=
  flat_map (fun i => map (fun j => (i, j)) (seq (S i) (n - S i))) (seq 0 n).
(** _utils.py 48-79; [masses[i]] is in range by construction *)
Definition invariant_mass_limits (q : R) (masses : list R) : list ((nat * nat) * (R * R)) :=
  map (fun ij =>
    let '(i, j) := ij in
    let others := filter (fun k => negb (Nat.eqb k i || Nat.eqb k j)) (seq 0 (length masses)) in
    let msum := total (map (fun k => nth k masses 0) others) in
    (ij, (nth i masses 0 + nth j masses 0, q - msum))) (index_pairs (length masses)).

(** _utils.py 82-98; np.clip(x, 0, None) *)
Definition two_body_phase_space_prefactor (q m1 m2 : R) : R :=
  let s := q ^ 2 in
  sqrt (Rmax (kallen_lambda s (m1 ^ 2) (m2 ^ 2)) 0) / (8 * PI * s).

(** spectra/_fsr.py 85-90 *)
Definition dphi2 (s m1 m2 : R) : R :=
  let lam := kallen_lambda s (m1 ^ 2) (m2 ^ 2) in
  if Rle_dec lam 0 then 0 else sqrt lam / (8 * PI * s).
(** spectra/_fsr.py 129-145 *)
Definition two_body_momenta (cme m1 m2 ct : R) : vec * vec :=
  let e1 := (cme ^ 2 + m1 ^ 2 - m2 ^ 2) / (2 * cme) in
  let p := sqrt (Rmax (e1 ^ 2 - m1 ^ 2) 0) in
  let st := sqrt (Rmax (1 - ct ^ 2) 0) in
  (V4 e1 (p * st) 0 (p * ct), V4 (cme - e1) (- p * st) 0 (- p * ct)).
(** spectra/_fsr.py 205-219 (quadrature) and 243-256 (Monte Carlo): the momenta handed to the matrix
    element at photon energy [e]: None when the spectrum is set to zero *)
Definition radiative_system (e cme msum : R) : option (R * vec) :=
  let sp := cme * (cme - 2 * e) in
  if Rlt_dec 0 e then
    if Rlt_dec (msum ^ 2) sp then
      let cme_rf := sqrt sp in
      let eg_rf := e * cme / cme_rf in
      Some (cme_rf, V4 eg_rf 0 0 eg_rf)
    else None
  else None.

(** * Two-body integrator *)
Inductive arg : Type := Scalar (x : R) | Array (l : list R).
(** _two_body.py 15-19 *)
Definition msqrd_flat2 (z : arg) : arg :=
  match z with Scalar _ => Scalar 1 | Array l => Array (map (fun _ => 0) l) end.
(** _two_body.py 123 and 137: the prefactor of the angular integral *)
Definition two_body_pre (cme m1 m2 : R) : R := 1 / (8 * PI) * two_body_momentum cme m1 m2 / cme.

(** * Three-body integrator *)
(** _three_body.py 30-40 *)
Definition msqrd_flat3 (s t : arg) : arg :=
  match s, t with
  | Scalar _, Scalar _ => Scalar 1
  | Scalar _, Array l => Array (map (fun _ => 0) l)
  | Array l, _ => Array (map (fun _ => 0) l)
  end.
(** _three_body.py 465-468 on the events of one Monte-Carlo sample, and _rambo.py 342-343, 396-397, 468-469:
    each weight is multiplied by the squared matrix element and the integral is the mean.  nanmean
    skips NaN weights, which do not occur here. *)
Definition mean (l : list R) : R := total l / INR (length l).
Definition invariants (ps : list vec) : R * R :=
  match ps with
  | [p1; p2; p3] => (lnorm_sqr (vplus p2 p3), lnorm_sqr (vplus p1 p3))
  | _ => (0, 0)
  end.
Definition msqrd_rambo (msqrd : arg -> arg -> arg) (events : list (list vec)) : arg :=
  msqrd (Array (map (fun ps => fst (invariants ps)) events)) (Array (map (fun ps => snd (invariants ps)) events)).
Definition weighted (ws : list R) (a : arg) : list R :=
  match a with Scalar x => map (fun w => w * x) ws | Array l => map (fun wx => fst wx * snd wx) (combine ws l) end.
(** The Monte-Carlo integral of ThreeBody.integrate(method="rambo") on a sample of momenta and
    weights drawn by RAMBO *)
Definition integrate_rambo3 (msqrd : arg -> arg -> arg) (sample : list (list vec * R)) : R :=
  mean (weighted (map snd sample) (msqrd_rambo msqrd (map fst sample))).
(** the same sample through Rambo.integrate without matrix element (_rambo.py 468-469) *)
Definition integrate_rambo (sample : list (list vec * R)) : R := mean (map snd sample).

(** _three_body.py 43-76 for scalars *)
Definition mandelstam_to_momenta (s t q m1 m2 m3 : R) : list vec :=
  let m1_2 := m1 ^ 2 in let m2_2 := m2 ^ 2 in let m3_2 := m3 ^ 2 in
  let q_2 := q ^ 2 in
  let e1 := (q_2 + m1_2 - s) / (2 * q) in
  let e2 := (q_2 + m2_2 - t) / (2 * q) in
  let p1 := sqrt (e1 ^ 2 - m1_2) in
  let p2 := sqrt (e2 ^ 2 - m2_2) in
  let u := q_2 + m1_2 + m2_2 + m3_2 - s - t in
  let ct := (e1 * e2 - 0.5 * (u - m1_2 - m2_2)) / (p1 * p2) in
  let st := sqrt (1 - ct ^ 2) in
  let p2z := p2 * ct in
  let p2x := p2 * st in
  [V4 e1 0 0 p1; V4 e2 p2x 0 p2z; V4 (q - e1 - e2) (- p2x) 0 (- p2z - p1)].

(** _three_body.py 225-256 *)
Definition bounds_t (m m1 m2 m3 s : R) : R * R :=
  let msqr := m ^ 2 in let m12 := m1 ^ 2 in let m22 := m2 ^ 2 in let m32 := m3 ^ 2 in
  let pfac := - (msqr - m12) * (m22 - m32) + (msqr + m12 + m22 + m32) * s - s ^ 2 in
  let sfac := sqrt (kallen_lambda s m12 m22 * kallen_lambda s m22 m32) in
  (0.5 * (pfac - sfac) / s, 0.5 * (pfac + sfac) / s).
(** _three_body.py 258-275 *)
Definition bounds_s (m m1 m2 m3 : R) : R * R := ((m2 + m3) ^ 2, (m - m1) ^ 2).
(** _three_body.py 277-304 *)
Definition bounds_y (cme m1 m2 m3 x : R) : R * R :=
  let mu1 := m1 / cme in let mu2 := m2 / cme in let mu3 := m3 / cme in
  let pfac := (2 - x) * (1 - x + mu1 ^ 2 + mu2 ^ 2 - mu3 ^ 2) in
  let sfac := sqrt (kallen_lambda 1 (mu1 ^ 2) (1 - x + mu1 ^ 2) * kallen_lambda (1 - x + mu1 ^ 2) (mu2 ^ 2) (mu3 ^ 2)) in
  (0.5 * (pfac - sfac) / (1 - x + mu1 ^ 2), 0.5 * (pfac + sfac) / (1 - x + mu1 ^ 2)).
(** _three_body.py 306-322 *)
Definition bounds_x (cme m1 m2 m3 : R) : R * R :=
  let mu1 := m1 / cme in let mu2 := m2 / cme in let mu3 := m3 / cme in
  (2 * mu1, mu1 ^ 2 + (1 - (mu2 + mu3) ^ 2)).
(** _three_body.py 370-373: the invariants at the scaled energies x, y of particles 1 and 2 *)
Definition invariants_at (q m1 m2 x y : R) : R * R :=
  (q ^ 2 * (1 - x + (m1 / q) ^ 2), q ^ 2 * (1 - y + (m2 / q) ^ 2)).
(** _three_body.py 375-398: masses and integrand for the energy distribution of particle [i]; the
    integrand receives the scaled energies of the first two particles after relabelling *)
Definition relabel (i : nat) (m1 m2 m3 : R) : res ((R * R * R) * (R -> R -> R * R)) :=
  match i with
  | 0%nat => Ret ((m1, m2, m3), fun x y => (x, y))
  | 1%nat => Ret ((m2, m1, m3), fun x y => (y, x))
  | 2%nat => Ret ((m3, m2, m1), fun x y => (2 - (x + y), y))
  | _ => Raise AssertionError
  end.
(** _three_body.py 365-421 for one energy; [integ f lb ub] stands for the one-dimensional integrator *)
Definition three_body_density (integ : (R -> R) -> R -> R -> R) (msqrd : R -> R -> R) (q m1 m2 m3 : R) (i : nat) (e : R) : res R :=
  let* mf := relabel i m1 m2 m3 in
  let '((m1', m2', m3'), f) := mf in
  let pre := q / (64 * PI ^ 3) in
  let x := 2 * e / q in
  if Rlt_dec x (fst (bounds_x q m1' m2' m3')) then Ret 0
  else if Rlt_dec (snd (bounds_x q m1' m2' m3')) x then Ret 0
  else
    let integrand := fun y => let '(x0, y0) := f x y in let '(s, t) := invariants_at q m1 m2 x0 y0 in msqrd s t in
    Ret (pre * integ integrand (fst (bounds_y q m1' m2' m3' x)) (snd (bounds_y q m1' m2' m3' x))).
(** spectra/_fsr.py 205-226: the radiative integral at photon energy [e] for a pair *)
Definition radiative_density (integ : (R -> R) -> R -> R -> R) (msqrd : list vec -> R) (e cme m1 m2 : R) : R :=
  match radiative_system e cme (m1 + m2) with
  | None => 0
  | Some (cme_rf, photon) =>
      let integrand := fun ct => let '(p1, p2) := two_body_momenta cme_rf m1 m2 ct in msqrd [p1; p2; photon] in
      let angular := integ integrand (-1) 0 + integ integrand 0 1 in
      let pre := e / (4 * PI ^ 2) * dphi2 (cme * (cme - 2 * e)) m1 m2 * 0.5 in
      pre * angular
  end.
(** spectra/_fsr.py 232-266 on the events RAMBO drew at the reduced energy *)
Definition radiative_density_rambo (msqrd : list vec -> R) (sample : list (list vec * R)) (e cme msum : R) : R :=
  match radiative_system e cme msum with
  | None => 0
  | Some (_, photon) => e / (4 * PI ^ 2) * mean (map (fun pw => snd pw * msqrd (fst pw ++ [photon])) sample)
  end.

(** * Distributions *)
(** np.trapezoid(ys, x=xs) *)
Fixpoint trapezoid (xs ys : list R) : R :=
  match xs, ys with
  | x0 :: ((x1 :: _) as xs1), y0 :: ((y1 :: _) as ys1) => (x1 - x0) * (y0 + y1) / 2 + trapezoid xs1 ys1
  | _, _ => 0
  end.
(** _dist.py 69: 0.5 * (x[1:] + x[:-1]) *)
Fixpoint bin_centers (xs : list R) : list R :=
  match xs with x0 :: ((x1 :: _) as r) => 0.5 * (x1 + x0) :: bin_centers r | _ => [] end.
(** _dist.py 62-70: PhaseSpaceDistribution1D(x, y); the all-NaN case is [None] *)
Record dist : Type := { bins : list R; centers : list R; probabilities : option (list R) }.
Definition dist_new (x y : list R) : res dist :=
  if Nat.eqb (length x) (length y + 1) then
    let* ps := normalize_distribution y x in
    Ret {| bins := x; centers := bin_centers x; probabilities := ps |}
  else Raise AssertionError.
(** _dist.py 94-107 with np.trapezoid and a scalar function: expect(fn, "trapz"), the default *)
Definition expect_trapz (d : dist) (fn : R -> R) : option R :=
  match probabilities d with
  | None => None
  | Some ps => Some (trapezoid (centers d) (map (fun xp => snd xp * fn (fst xp)) (combine (centers d) ps)))
  end.

(** vector_mediator/_vector_mediator_spectra.py 104-108: energies of the pion and of the mediator *)
Definition pi0v_energies (mpi0 mv e_cm : R) : R * R :=
  ((e_cm ^ 2 + mpi0 ^ 2 - mv ^ 2) / (2 * e_cm), (e_cm ^ 2 - mpi0 ^ 2 + mv ^ 2) / (2 * e_cm)).
