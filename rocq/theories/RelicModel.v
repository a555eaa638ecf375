(** Model of hazma/relic_density: equilibrium densities, thermal averages, the Boltzmann equation and the
    semi-analytic relic density; and of the two thermal averages in rust/src/kernels.

    Arithmetic is that of the reals.  Parameters: the Bessel functions [K1] and [K2] (scipy's k1 and kn(2, .)),
    the splines [heff], [dheff] and [sqrt_gstar] read from smdof.dat, and the quadrature [quad]
    (scipy.integrate.quad, first component of its result). Only the scalar branches are modelled: on arrays the
    same expressions are evaluated element by element. *)
From Coq Require Import List Reals.
Import ListNotations.
Local Open Scope R_scope.

(** hazma/parameters.py 215, 218, 220 *)
Definition plank_mass : R := 122091 * 10 ^ 17.
Definition rho_crit : R := 105375 / 10 ^ 7.
Definition sm_entropy_density_today : R := 28912 / 10.

(** What the functions below use of a model: the mass of the dark matter, the total annihilation cross section
    as a function of the centre-of-mass energy, and the method thermal_cross_section if the model has one. *)
Record theory := Theory { mx : R; sigma : R -> R; own_thermal : option (R -> R) }.

Section Relic.
Variables K1 K2 heff dheff sqrt_gstar : R -> R.
Variable quad : (R -> R) -> R -> R -> R.

(** _thermal_functions.py 85-99 *)
Definition sm_entropy_density (T : R) : R := 2 * PI ^ 2 / 45 * heff T * T ^ 3.
(** _thermal_functions.py 110-132 *)
Definition sm_entropy_density_deriv (T : R) : R := 2 * PI ^ 2 / 45 * (dheff T * T + 3 * heff T) * T ^ 2.

(** np.sum over ns = 1, 2, 3, 4, 5 *)
Definition sum5 (f : nat -> R) : R := fold_right Rplus 0 (map f [1; 2; 3; 4; 5]%nat).
(** eta = -1 if is_fermion else 1 *)
Definition eta (is_fermion : bool) : R := if is_fermion then -1 else 1.
(** The massless value, _thermal_functions.py 172 and 235 *)
Definition nbar_massless (is_fermion : bool) : R :=
  if is_fermion then 913453711751798 / 10 ^ 16 else 121793828233573 / 10 ^ 15.
(** _thermal_functions.py 183-187 and 245-249 *)
Definition nbar_massive (x : R) (is_fermion : bool) : R :=
  x ^ 2 * sum5 (fun n => eta is_fermion ^ (n + 1) / INR n * K2 (INR n * x)) / (2 * PI ^ 2).

(** _thermal_functions.py 145-188 *)
Definition neq (T mass g : R) (is_fermion : bool) : R :=
  let nbar := if Req_EM_T mass 0 then nbar_massless is_fermion else nbar_massive (mass / T) is_fermion in
  g * nbar * T ^ 3.
(** _thermal_functions.py 203-250 *)
Definition neq_deriv (T mass g : R) (is_fermion : bool) : R :=
  let dnbar := if Req_EM_T mass 0 then 0 else
    (mass / T) ^ 2 * sum5 (fun n => eta is_fermion ^ n * K1 (INR n * (mass / T))) / (2 * PI ^ 2) in
  let nbar := if Req_EM_T mass 0 then nbar_massless is_fermion else nbar_massive (mass / T) is_fermion in
  g * T * (3 * T * nbar - mass * dnbar).
(** _thermal_functions.py 263-290 *)
Definition yeq (T mass g : R) (is_fermion : bool) : R := neq T mass g is_fermion / sm_entropy_density T.
(** _thermal_functions.py 305-333 *)
Definition yeq_deriv (T mass g : R) (is_fermion : bool) : R :=
  let s := sm_entropy_density T in
  let ds := sm_entropy_density_deriv T in
  let n := neq T mass g is_fermion in
  let dn := neq_deriv T mass g is_fermion in
  (dn * s - ds * n) / s ^ 2.
(** _thermal_functions.py 348-372 *)
Definition yeq_derivx (x mass g : R) (is_fermion : bool) : R :=
  - mass * yeq_deriv (mass / x) mass g is_fermion / x ^ 2.
(** _thermal_functions.py 385-413; [None] is minus infinity *)
Definition weq (T mass g : R) (is_fermion : bool) : option R :=
  let s := sm_entropy_density T in
  let n := neq T mass g is_fermion in
  if Rlt_dec 0 n then Some (ln (n / s)) else None.

(** _thermal_functions.py 416-438 *)
Definition thermal_cross_section_integrand (model : theory) (x z : R) : R :=
  let sig := sigma model (mx model * z) in
  let kernal := z ^ 2 * (z ^ 2 - 4) * K1 (x * z) in
  sig * kernal.
(** _thermal_functions.py 441-485; the breakpoint 2.0 passed to quad is its lower limit *)
Definition thermal_cross_section (x : R) (model : theory) : R :=
  match own_thermal model with
  | Some f => f x
  | None =>
    if Rlt_dec 300 x then 0 else
    let pf := x / (2 * K2 x) ^ 2 in
    pf * quad (thermal_cross_section_integrand model x) 2 (50 / x)
  end.

(** exp of 2 weq - w; the exponential of minus infinity is 0 *)
Definition exp_eq (weq_ : option R) (w : R) : R :=
  match weq_ with Some v => exp (2 * v - w) | None => 0 end.
(** _diffeq.py 20-49 and 52-81; the one entry of the returned arrays *)
Definition boltzmann_eqn (model : theory) (logx w : R) : R :=
  let x := exp logx in
  let T := mx model / x in
  let pf := - sqrt (PI / 45) * plank_mass * mx model * sqrt_gstar T / x in
  let sv := thermal_cross_section x model in
  pf * sv * (exp w - exp_eq (weq T (mx model) 2 true) w).
Definition jacobian_boltzmann_eqn (model : theory) (logx w : R) : R :=
  let x := exp logx in
  let T := mx model / x in
  let pf := - sqrt (PI / 45) * plank_mass * mx model * sqrt_gstar T / x in
  let sv := thermal_cross_section x model in
  pf * sv * (exp w + exp_eq (weq T (mx model) 2 true) w).

(** _approx.py 19-52 *)
Definition deltabar (delta : option R) : R :=
  match delta with None => 1 | Some d => d * (2 + d) / (1 + d) end.
Definition xstar_root_eqn (xstar : R) (model : theory) (delta : option R) : R :=
  let T := mx model / xstar in
  let lam := sqrt (PI / 45) * mx model * plank_mass * sqrt_gstar T in
  let tcs := thermal_cross_section xstar model in
  xstar ^ 2 * yeq_derivx xstar (mx model) 2 true + lam * deltabar delta * tcs * yeq T (mx model) 2 true ^ 2.
(** _approx.py 81-99 *)
Definition compute_alpha (model : theory) (xstar : R) : R :=
  let pf := sqrt (PI / 45) * mx model * plank_mass in
  pf * quad (fun x => sqrt_gstar (mx model / x) * thermal_cross_section x model / x ^ 2) xstar (100 * xstar).
(** _rd.py 71-89, the semi-analytic branch, at the point [xstar] that the root finder of _approx.py 76-78
    returns; and the other branch, at the last component [w] of the solution *)
Definition comoving_semi_analytic (model : theory) (xstar : R) : R :=
  let alpha := compute_alpha model xstar in
  let ystar := yeq (mx model / xstar) (mx model) 2 true in
  ystar / (1 + ystar * alpha).
Definition omega (model : theory) (Y0 : R) : R := Y0 * mx model * sm_entropy_density_today / rho_crit.
Definition relic_density_semi_analytic (model : theory) (xstar : R) : R :=
  omega model (comoving_semi_analytic model xstar).
Definition relic_density_solved (model : theory) (w : R) : R := omega model (exp w).

(** rust/src/kernels/scalar_xs.rs 895-961 and vector_xs.rs 413-481, for an integrand that never fails: [sig] is
    sigma_xx_to_all as a function of the energy, [m] the mass of the dark matter. The breakpoints are given to
    [quad_points], which is quad.rs's quad with the options listed there. *)
Variable quad_points : (R -> R) -> R -> R -> list R -> R.
Definition thermal_scalar (sig : R -> R) (m ms x : R) : R :=
  if Rlt_dec 300 x then 0 else
  let two_k2 := 2 * K2 x in
  let prefactor := x / (two_k2 * two_k2) in
  let floor := 50 / x in
  let upper := if Rlt_dec floor 100 then 100 else floor in
  let ratio := ms / m in
  prefactor * quad_points (fun z => sig (m * z) * (z * z) * (z * z - 4) * K1 (x * z)) 2 upper [2; ratio; 2 * ratio].
Definition thermal_vector (sig : R -> R) (m mv x : R) : R :=
  let xnew := if Rlt_dec x 300 then x else 300 in
  let two_k2 := 2 * K2 xnew in
  let prefactor := xnew / (two_k2 * two_k2) in
  let floor := 50 / xnew in
  let upper := if Rlt_dec floor 150 then 150 else floor in
  let ratio := mv / m in
  prefactor * quad_points (fun z => sig (m * z) * (z * z) * (z * z - 4) * K1 (xnew * z)) 2 upper [2; ratio; 2 * ratio].
End Relic.
