(** Model of rust/src/boost.rs (all of it), of the branch selection of
    rust/src/kernels/photon_tables.rs, and of hazma/spectra/boost.py. *)
From Coq Require Import String List Arith Bool ZArith QArith.
From Verif Require Import PyBase RustBase RustMath InterpModel.
Import ListNotations.
Local Open Scope nat_scope.

Section Rust.
Variable M : Math.
Notation FN := (F M).
Local Infix "+." := (fadd M) (at level 50, left associativity).
Local Infix "-." := (fsub M) (at level 50, left associativity).
Local Infix "*." := (fmul M) (at level 40, left associativity).
Local Infix "/." := (fdiv M) (at level 40, left associativity).
Local Infix "<." := (flt M) (at level 70).
Local Infix "<=." := (fle M) (at level 70).
Local Notation "# q" := (lit M q%Q) (at level 5, q at level 0).
Local Notation abs := (fabs M).

(** boost.rs 65-95; the payloads of the first two are dropped *)
Inductive BoostError : Type := BetaOutOfRange | LengthMismatch | EmptyTable.

(** boost.rs 123-125 *)
Definition boost_gamma (energy mass : FN) : FN := energy /. mass.

(** boost.rs 143-146 *)
Definition boost_beta (energy mass : FN) : FN :=
  let ratio := mass /. energy in
  fsqrt M (#1 -. ratio *. ratio).

(** boost.rs 167-183 *)
Definition boost_delta_function (e0 e m beta : FN) : FN :=
  if (#1 <. beta) || (beta <=. #0) || (e <. m) then #0 else
  let gamma := #1 /. fsqrt M (fma M (fneg M beta) beta #1) in
  let k := fsqrt M (fma M e e (fneg M (m *. m))) in
  let eminus := gamma *. fma M (fneg M beta) k e in
  let eplus := gamma *. fma M beta k e in
  if (eminus <. e0) && (e0 <. eplus) then
    let k0 := fsqrt M (fma M e0 e0 (fneg M (m *. m))) in
    #1 /. (#2 *. gamma *. beta *. k0)
  else #0.

(** boost.rs 426-444: one block of at most 128 values.  The eight accumulators are a list; the outer
    [while] advances by 8, so iteration [j] works at i = 8 j. *)
Definition block_sum (values : list FN) : rr unit FN :=
  let n := length values in
  r0 <- get values 0 ;; r1 <- get values 1 ;; r2 <- get values 2 ;; r3 <- get values 3 ;;
  r4 <- get values 4 ;; r5 <- get values 5 ;; r6 <- get values 6 ;; r7 <- get values 7 ;;
  let unrolled := n - n mod 8 in
  r <- loop (unrolled / 8 - 1) 1 (fun j r =>
         r <- loop 8 0 (fun k r =>
                slot <- get r k ;; v <- get values (8 * j + k) ;;
                r <- set r k (slot +. v) ;; Ok (Cont r)) r ;;
         Ok (Cont r)) [r0; r1; r2; r3; r4; r5; r6; r7] ;;
  r0 <- get r 0 ;; r1 <- get r 1 ;; r2 <- get r 2 ;; r3 <- get r 3 ;;
  r4 <- get r 4 ;; r5 <- get r 5 ;; r6 <- get r 6 ;; r7 <- get r 7 ;;
  let res := ((r0 +. r1) +. (r2 +. r3)) +. ((r4 +. r5) +. (r6 +. r7)) in
  loop (n - unrolled) unrolled (fun i res => v <- get values i ;; Ok (Cont (res +. v))) res.

(** boost.rs 419-448.  [fuel] bounds the recursion depth; [pairwise_sum] supplies the length, which
    is enough (running out is a panic, excluded by [pairwise_sum_ok]). *)
Fixpoint psum (fuel : nat) (values : list FN) : rr unit FN :=
  match fuel with
  | O => Panic
  | Datatypes.S fuel =>
      let n := length values in
      if Nat.ltb n 8 then Ok (fold_left (fun acc v => acc +. v) values #0)
      else if Nat.leb n 128 then block_sum values
      else
        let half := n / 2 - (n / 2) mod 8 in
        a <- psum fuel (firstn half values) ;;
        b <- psum fuel (skipn half values) ;;
        Ok (a +. b)
  end.
Definition pairwise_sum (values : list FN) : rr unit FN := psum (S (length values)) values.

(** The panics of [pairwise_sum] inside a function with another error type. *)
Definition lift {E A} (r : rr unit A) : rr E A :=
  match r with Ok a => Ok a | _ => Panic end.

(** [(0..n).map(f).collect()] starting at [i] *)
Fixpoint collect {E A} (n i : nat) (f : nat -> rr E A) : rr E (list A) :=
  match n with
  | O => Ok []
  | S n => a <- f i ;; r <- collect n (S i) f ;; Ok (a :: r)
  end.

(** boost.rs 387-398; [yy] reads by absolute index *)
Definition trapezoid {E} (xs : list FN) (offset : nat) (yy : nat -> rr E FN) : rr E FN :=
  if Nat.ltb (length xs) 2 then Ok #0 else
  terms <- collect (length xs - 1) 0 (fun i =>
    x1 <- get xs (i + 1) ;; x0 <- get xs i ;;
    y1 <- yy (offset + i + 1) ;; y0 <- yy (offset + i) ;;
    Ok (((x1 -. x0) *. (y1 +. y0)) /. #2)) ;;
  lift (pairwise_sum terms).

(** [(0..npts).find(|&i| bound <= x[i]).expect(..)] *)
Fixpoint find_from {E} (bound : FN) (x : list FN) (i : nat) : rr E nat :=
  match x with
  | [] => Panic
  | v :: r => if bound <=. v then Ok i else find_from bound r (S i)
  end.

(** boost.rs 333-339 and 340-348: the two indices, unless already decided *)
Definition find_low (lb : FN) (x : list FN) (ilow : option nat) : rr BoostError nat :=
  match ilow with Some i => Ok i | None => find_from lb x 0 end.
Definition find_high (ub : FN) (x : list FN) (ihigh : option nat) : rr BoostError nat :=
  match ihigh with
  | Some i => Ok i
  | None =>
      first <- find_from ub x 0 ;;
      v <- get x first ;;
      if #(1e-6) <. abs (v -. ub) then csub first 1 else Ok first
  end.

(** boost.rs 254-376 *)
Definition boost_integrate_linear_interp (photon_energy beta : FN) (x y : list FN) : rr BoostError FN :=
  if negb ((#0 <. beta) && (beta <. #1)) then Err BetaOutOfRange else
  if negb (Nat.eqb (length x) (length y)) then Err LengthMismatch else
  let npts := length x in
  if Nat.eqb npts 0 then Err EmptyTable else
  xmax <- get x (npts - 1) ;;
  x0 <- get x 0 ;;
  y0 <- get y 0 ;;
  let gamma := #1 /. fsqrt M (fma M (fneg M beta) beta #1) in
  let lb := photon_energy *. gamma *. (#1 -. beta) in
  let ub := photon_energy *. gamma *. (#1 +. beta) in
  if is_nan M lb || is_nan M ub then Ok (fnan M) else
  if xmax <. lb then Ok #0 else
  if ub <. x0 then Ok (y0 *. x0 /. photon_energy) else
  let '(ub, ihigh) := if xmax <. ub then (xmax, Some (npts - 1)) else (ub, None) in
  let '(integral, lb, ilow) :=
    if lb <. x0 then
      let rat := (#1 -. beta) *. photon_energy *. gamma /. x0 in
      (#0 +. y0 *. (#1 -. rat) /. rat, x0, Some 0)
    else (#0, lb, None) in
  let yy i := a <- get y i ;; b <- get x i ;; Ok (a /. b) in
  ilow <- find_low lb x ilow ;;
  ihigh <- find_high ub x ihigh ;;
  integral <- (if Nat.ltb ilow ihigh
               then t <- trapezoid (firstn (ihigh - ilow) (skipn ilow x)) ilow yy ;; Ok (integral +. t)
               else Ok integral) ;;
  xl <- get x ilow ;;
  integral <- (if Nat.ltb 0 ilow && (#(1e-6) <. abs (xl -. lb)) then
                 x1 <- get x (ilow - 1) ;;
                 y2 <- yy ilow ;; y1 <- yy (ilow - 1) ;;
                 let m := (y2 -. y1) /. (xl -. x1) in
                 let b := fma M (fneg M m) x1 y1 in
                 let inner := fma M (#0.5 *. m) (xl +. lb) b in
                 Ok (fma M (xl -. lb) inner integral)
               else Ok integral) ;;
  integral <- (if Nat.ltb ihigh (npts - 1) then
                 xh <- get x ihigh ;;
                 if #(1e-6) <. abs (ub -. xh) then
                   x2 <- get x (ihigh + 1) ;;
                   y2 <- yy (ihigh + 1) ;; y1 <- yy ihigh ;;
                   let m := (y2 -. y1) /. (x2 -. xh) in
                   let b := fma M (fneg M m) xh y1 in
                   let inner := fma M (#0.5 *. m) (ub +. xh) b in
                   Ok (fma M (ub -. xh) inner integral)
                 else Ok integral
               else Ok integral) ;;
  Ok (integral /. (#2 *. gamma *. beta)).

(** photon_tables.rs 376-431 *)
Inductive Branch : Type := BelowThreshold | RestFrame | InFlight (beta : FN).
Definition branch (parent_energy mass : FN) : rr BoostError Branch :=
  if parent_energy <. mass then Ok BelowThreshold else
  if (parent_energy -. mass) <. epmach M then Ok RestFrame else
  let beta := boost_beta parent_energy mass in
  if negb ((#0 <. beta) && (beta <. #1)) then Err BetaOutOfRange
  else Ok (InFlight beta).

(** photon_tables.rs 165-171, 249-265 (after parsing) *)
Record Spectrum : Type := {
  energies : list FN; values : list FN;   (* table.energies, table.dnde *)
  smass : FN;
  lines : list (FN * FN)                  (* energy, weight *)
}.

(** photon_tables.rs 237-245 *)
Definition rest_frame (s : Spectrum) (photon_energy : FN) : rr unit FN :=
  n <- csub (length (energies s)) 1 ;;
  emax <- get (energies s) n ;;
  if emax <. photon_energy then Ok #0 else
  emin <- get (energies s) 0 ;;
  if photon_energy <. emin then
    d0 <- get (values s) 0 ;; Ok (d0 *. emin /. photon_energy)
  else interp M photon_energy (energies s) (values s).

(** photon_tables.rs 447-471; the [expect] is a panic *)
Definition dnde (photon_energy : FN) (b : Branch) (s : Spectrum) : rr unit FN :=
  match b with
  | BelowThreshold => Ok #0
  | RestFrame => rest_frame s photon_energy
  | InFlight beta =>
      match boost_integrate_linear_interp photon_energy beta (energies s) (values s) with
      | Ok result =>
          Ok (fold_left (fun result l =>
                fma M (boost_delta_function (fst l) photon_energy #0 beta) (snd l) result)
              (lines s) result)
      | _ => Panic
      end
  end.
End Rust.
Arguments InFlight {M} beta.
Arguments BelowThreshold {M}.
Arguments RestFrame {M}.

(** ** hazma/spectra/boost.py *)
Section Py.
Variable M : Math.
Notation FN := (F M).
Local Infix "+." := (fadd M) (at level 50, left associativity).
Local Infix "-." := (fsub M) (at level 50, left associativity).
Local Infix "*." := (fmul M) (at level 40, left associativity).
Local Infix "/." := (fdiv M) (at level 40, left associativity).
Local Infix "<." := (flt M) (at level 70).
Local Infix "<=." := (fle M) (at level 70).
Local Notation "# q" := (lit M q%Q) (at level 5, q at level 0).

(** A NumPy array argument: floats, or integers (dtype int64), whose [zeros_like] holds integers
    and truncates what is stored into it. *)
Inductive arr : Type := Floats (v : list FN) | Ints (v : list Z).
Variable of_int : Z -> FN.        (* int64 -> float64 *)
Variable trunc : FN -> Z.         (* float64 -> int64 *)
Definition as_floats (a : arr) : list FN := match a with Floats v => v | Ints v => map of_int v end.
(** [out = np.zeros_like(a); out[mask] = ...] : the entries [v] stored with the dtype of [a] *)
Definition stored_like (a : arr) (v : list FN) : arr :=
  match a with Floats _ => Floats v | Ints _ => Ints (map trunc v) end.

(** boost.py 95-130, for an array (lines 111, 112, 128, 129 wrap a scalar as a one-element array and
    unwrap it; a Python int becomes an integer array).  The masked assignment is written
    elementwise. *)
Definition py_boost_delta_function (product_energy : arr) (e0 m beta : FN) : arr :=
  let entry e :=
    if (#0 <. beta) && (beta <. #1) then
      let gamma := #1 /. fsqrt M (#1 -. beta *. beta) in
      let k := fsqrt M (e *. e -. m *. m) in
      let eminus := gamma *. (e -. beta *. k) in
      let eplus := gamma *. (e +. beta *. k) in
      if (m <=. e) && ((eminus <. e0) && (e0 <. eplus))
      then #1 /. (#2 *. gamma *. beta *. fsqrt M (e0 *. e0 -. m *. m))
      else #0
    else #0 in
  stored_like product_energy (map entry (as_floats product_energy)).

(** boost.py 184-230 for float arrays.  The SciPy linear spline with [ext=1] is a parameter: it
    takes the sample points and the two ends of the integral. *)
Variable spline_integral : list (FN * FN) -> FN -> FN -> FN.
Definition dnde_boost_array (dnde energies : list FN) (beta mass : FN) : list FN :=
  if beta <. epmach M then dnde else
  if (beta <. #0) || (#1 <. beta) then map (fun _ => #0) energies else
  let gamma := #1 /. fsqrt M (#1 -. beta *. beta) in
  let k es := fsqrt M (es *. es -. mass *. mass) in
  let emax es := gamma *. (es +. beta *. k es) in
  let emin es := gamma *. (es -. beta *. k es) in
  let pts := map (fun p => (snd p, fst p /. k (snd p)))
                 (filter (fun p => mass <. snd p) (combine dnde energies)) in
  let pre := #1 /. (#2 *. beta *. gamma) in
  map (fun e => pre *. (if mass <. e then spline_integral pts (emin e) (emax e) else #0)) energies.

(** boost.py 233-367 ([make_boost_function] applied to its arguments).  [fn] gets the extra
    arguments; [integrate] is the integrator chosen by [_make_integrator] (boost.py 55-92), for a
    known method. *)
Variable Args : Type.
Variable no_args : Args.
Variable fn : FN -> Args -> FN.
Variable integrate : string -> (FN -> FN) -> FN -> FN -> FN.
Definition methods : list string := ["quad"; "trapz"; "simps"; "quadrature"]%string.
Definition fn_boosted (mass : FN) (energies : list FN) (beta : FN) (method : string) (args : Args)
  : res (list FN) :=
  if negb (existsb (String.eqb method) methods) then Raise ValueError else
  if beta <. epmach M then Ret (map (fun e => fn e no_args) energies) else
  if (beta <. #0) || (#1 <. beta) then Ret (map (fun _ => #0) energies) else
  let gamma := #1 /. fsqrt M (#1 -. beta *. beta) in
  let k es := fsqrt M (es *. es -. mass *. mass) in
  let emin es := gamma *. (es -. beta *. k es) in
  let emax es := gamma *. (es +. beta *. k es) in
  let integrand e := fn e args /. fsqrt M (e *. e -. mass *. mass) in
  Ret (map (fun e =>
         #0.5 *. (if mass <. e then integrate method integrand (emin e) (emax e) else #0)
         /. (beta *. gamma)) energies).
End Py.
Arguments Floats {M} v.
Arguments Ints {M} v.
