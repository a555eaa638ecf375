(** Model of hazma/phase_space/_rambo.py over exact real arithmetic.  NumPy arrays of shape
    (4, particles, events) are lists of events; an event is a list of four-vectors. *)
From Coq Require Import Reals Arith ZArith Bool List.
From Verif Require Import PyBase.
Import ListNotations.
Local Open Scope R_scope.

Record vec : Type := V4 { en : R; px : R; py : R; pz : R }.

(** np.sum(ps, axis=1) *)
Definition vplus (a b : vec) : vec := V4 (en a + en b) (px a + px b) (py a + py b) (pz a + pz b).
Definition vsum (ps : list vec) : vec := fold_right vplus (V4 0 0 0 0) ps.
(** np.sum *)
Definition total (l : list R) : R := fold_right Rplus 0 l.
(** np.hypot *)
Definition hypot (a b : R) : R := sqrt (a * a + b * b).
(** np.max; raises ValueError on an empty array *)
Definition np_max (l : list R) : res R :=
  match l with [] => Raise ValueError | x :: r => Ret (fold_left Rmax r x) end.
(** 1 / n! as used by math.factorial *)
Definition factorial (n : nat) : R := INR (fact n).

(** _rambo.py 107-122.  For n < 2 math.factorial raises ValueError. *)
Definition compute_base_weight (cme : R) (n : nat) : res R :=
  if Nat.ltb n 2 then Raise ValueError else
  let fact_nm2 := factorial (n - 2) in
  let fact := 1 / (INR (n - 1) * fact_nm2 ^ 2) in
  Ret (fact * (0.5 * PI) ^ (n - 1) * cme ^ (2 * n - 4) * (0.5 / PI) ^ (3 * n - 4)).

(** _rambo.py 62-74: the attributes (the squared matrix element, the random generator and eps are
    arguments below) *)
Record rambo : Type := { cme : R; masses : list R; xi0 : R; base_wgt : R }.

(** _rambo.py 59-71 *)
Definition rambo_new (q : R) (ms : list R) : res rambo :=
  let* w := compute_base_weight q (length ms) in
  Ret {| cme := q; masses := ms; xi0 := sqrt (1 - (total ms / q) ^ 2); base_wgt := w |}.

(** _rambo.py 82-85 and 94-98; xi0 is not recomputed *)
Definition set_cme (o : rambo) (q : R) : res rambo :=
  let* w := compute_base_weight q (length (masses o)) in
  Ret {| cme := q; masses := masses o; xi0 := xi0 o; base_wgt := w |}.
Definition set_masses (o : rambo) (ms : list R) : res rambo :=
  let* w := compute_base_weight (cme o) (length ms) in
  Ret {| cme := cme o; masses := ms; xi0 := xi0 o; base_wgt := w |}.

(** _rambo.py 143-157 for one particle; the four numbers are drawn by the generator *)
Definition initial_momentum (rho : R * R * R * R) : vec :=
  let '(rho1, rho2, rho3, rho4) := rho in
  let ctheta := 2 * rho1 - 1 in
  let stheta := sqrt (1 - ctheta ^ 2) in
  let phi := 2 * PI * rho2 in
  let e := - ln (rho3 * rho4) in
  V4 e (e * stheta * cos phi) (e * stheta * sin phi) (e * ctheta).

(** _rambo.py 175-197 for one event *)
Definition boost (q : R) (ps : list vec) : list vec :=
  let s := vsum ps in
  let inv_mass := 1 / sqrt (en s ^ 2 - px s ^ 2 - py s ^ 2 - pz s ^ 2) in
  let bx := - inv_mass * px s in
  let by' := - inv_mass * py s in
  let bz := - inv_mass * pz s in
  let x := q * inv_mass in
  let g := en s * inv_mass in
  let a := 1 / (1 + g) in
  map (fun p =>
    let bdotp := bx * px p + by' * py p + bz * pz p in
    let fact := a * bdotp + en p in
    V4 (x * (g * en p + bdotp)) (x * (fact * bx + px p)) (x * (fact * by' + py p)) (x * (fact * bz + pz p)))
    ps.

(** _rambo.py 225-228 for one event: f and df at xi *)
Definition newton_f (q : R) (ms : list R) (ps : list vec) (xi : R) : R :=
  total (map (fun em => hypot (en (fst em) * xi) (snd em)) (combine ps ms)) - q.
Definition newton_df (ms : list R) (ps : list vec) (xi : R) : R :=
  total (map (fun em => xi * en (fst em) ^ 2 / hypot (en (fst em) * xi) (snd em)) (combine ps ms)).

(** _rambo.py 224-236: the loop, on a batch of events and their scale factors.  [k] is the number
    of iterations left. *)
Fixpoint scale_loop (k : nat) (tol q : R) (ms : list R) (events : list (list vec * R)) : res (list (list vec * R)) :=
  match k with
  | O => Ret events
  | S k =>
      let next := map (fun ex => (fst ex, snd ex - newton_f q ms (fst ex) (snd ex) / newton_df ms (fst ex) (snd ex))) events in
      let* m := np_max (map (fun ex => newton_f q ms (fst ex) (snd ex)) events) in
      if Rlt_dec m tol then Ret next
      else match k with O => Ret next | _ => scale_loop k tol q ms next end
  end.

(** _rambo.py 199-238 with the default of five iterations; eps is 2^-52 or 2^-23 (329-332, 385-388) *)
Definition compute_scale_factor (o : rambo) (eps : R) (batch : list (list vec)) : res (list (list vec * R)) :=
  scale_loop 5 (sqrt eps) (cme o) (masses o) (map (fun ps => (ps, xi0 o)) batch).

(** _rambo.py 255-257 for one event *)
Definition rescale (ms : list R) (ps : list vec) (xi : R) : list vec :=
  map (fun em => V4 (hypot (xi * en (fst em)) (snd em)) (xi * px (fst em)) (xi * py (fst em)) (xi * pz (fst em)))
      (combine ps ms).
(** _rambo.py 240-257 *)
Definition correct_masses (o : rambo) (eps : R) (batch : list (list vec)) : res (list (list vec)) :=
  let* evs := compute_scale_factor o eps batch in
  Ret (map (fun ex => rescale (masses o) (fst ex) (snd ex)) evs).

(** _rambo.py 275-284 for one event *)
Definition modsqr (p : vec) : R := px p ^ 2 + py p ^ 2 + pz p ^ 2.
Definition weight (o : rambo) (ps : list vec) : R :=
  let n := length (masses o) in
  let t1 := total (map (fun p => sqrt (modsqr p) / cme o) ps) ^ (2 * n - 3) in
  let t2 := total (map (fun p => modsqr p / en p) ps) in
  let t3 := fold_right Rmult 1 (map (fun p => sqrt (modsqr p) / en p) ps) in
  t1 / t2 * t3 * cme o * base_wgt o.

(** _rambo.py 337-344 and 392-397: one batch.  [rhos] holds the random numbers, one list of
    particles per event; [msqrd] is 1 when there is no squared matrix element. *)
Definition generate (o : rambo) (eps : R) (msqrd : list vec -> R) (rhos : list (list (R * R * R * R)))
  : res (list (list vec * R)) :=
  let batch := map (fun r => boost (cme o) (map initial_momentum r)) rhos in
  let* evs := correct_masses o eps batch in
  Ret (map (fun ps => (ps, weight o ps * msqrd ps)) evs).

(** _rambo.py 336-337: number of batches yielded by generator(n, batch_size); floor division by zero
    raises ZeroDivisionError, and [range] of a negative number is empty. *)
Definition niters (n batch_size : Z) : res Z :=
  if Z.eqb batch_size 0 then Raise ZeroDivisionError else
  let k := (n / batch_size)%Z in
  let k := (k + (if Z.eqb (batch_size * k) n then 0 else 1))%Z in
  Ret (Z.max 0 k).
