(** Model of the four-pion final states of hazma/form_factors/vector/_pi_pi_pi_pi.py over exact real
    arithmetic, for one phase-space point (the arrays of the code run over points and every operation
    below acts on each of them separately).  Complex numbers are pairs, complex four-vectors are pairs
    of real ones.  A division by zero is NaN or infinity in NumPy and a number here; the statements
    that depend on one exclude it. *)
From Coq Require Import Reals List.
From Verif Require Import PyBase RamboModel KinModel VffModel RareModel.
Import ListNotations.
Local Open Scope R_scope.

(** hazma/utils.py 191-212 with axis = 0 *)
Definition ldot (a b : vec) : R := en a * en b - px a * px b - py a * py b - pz a * pz b.
(** NumPy arithmetic on four-vectors *)
Definition vminus (a b : vec) : vec := V4 (en a - en b) (px a - px b) (py a - py b) (pz a - pz b).
Definition vscale (c : R) (a : vec) : vec := V4 (c * en a) (c * px a) (c * py a) (c * pz a).
Definition vzero : vec := V4 0 0 0 0.
Record cvec := CV { cre : vec; cim : vec }.
Definition cvplus (a b : cvec) : cvec := CV (vplus (cre a) (cre b)) (vplus (cim a) (cim b)).
Definition cvminus (a b : cvec) : cvec := CV (vminus (cre a) (cre b)) (vminus (cim a) (cim b)).
(** complex number times complex vector, and times real vector *)
Definition cvscale (z : cplx) (a : cvec) : cvec :=
  CV (vminus (vscale (fst z) (cre a)) (vscale (snd z) (cim a))) (vplus (vscale (fst z) (cim a)) (vscale (snd z) (cre a))).
Definition ctimes (z : cplx) (a : vec) : cvec := CV (vscale (fst z) a) (vscale (snd z) a).
(** ldot of a real vector with a complex one *)
Definition rcdot (a : vec) (b : cvec) : cplx := (ldot a (cre b), ldot a (cim b)).

(** _pi_pi_pi_pi.py 18-31 *)
Definition MPI_GEV : R := 13957061 / 100000000.
Definition MPI0_GEV : R := 1349770 / 10000000.
Definition MRHO_GEV : R := 7755 / 10000.
Definition GRHO_GEV : R := 1494 / 10000.
Definition M_RHO1 : R := 1459 / 1000.
Definition G_RHO1 : R := 4 / 10.
Definition M_RHO2 : R := 172 / 100.
Definition G_RHO2 : R := 25 / 100.
Definition M_A1 : R := 123 / 100.
Definition G_A1 : R := 2 / 10.
Definition M_F0 : R := 135 / 100.
Definition G_F0 : R := 2 / 10.
Definition M_OMEGA : R := 78265 / 100000.
Definition G_OMEGA : R := 849 / 100000.

(** _pi_pi_pi_pi.py 40-104: the fields the currents read *)
Record fit := Fit {
  mass_rho_bar_1 : R; mass_rho_bar_2 : R; mass_rho_bar_3 : R;
  width_rho_bar_1 : R; width_rho_bar_2 : R; width_rho_bar_3 : R;
  beta_a1_1 : R; beta_a1_2 : R; beta_a1_3 : R;
  beta_f0_1 : R; beta_f0_2 : R; beta_f0_3 : R;
  beta_omega_1 : R; beta_omega_2 : R; beta_omega_3 : R;
  beta_b_rho : R; beta_t_rho1 : R; beta_t_rho2 : R;
  coupling_f0 : R; coupling_a1 : R; coupling_rho : R; coupling_omega : R;
  coupling_rho_gamma : R; coupling_rho_pi_pi : R; coupling_omega_pi_rho : R }.
(** a ThreeTup *)
Definition three : Type := R * R * R.
Definition t0 (t : three) : R := fst (fst t).
Definition t1 (t : three) : R := snd (fst t).
Definition t2 (t : three) : R := snd t.
(** _pi_pi_pi_pi.py 144-194: the constructor (line 186 reads entry 1 again) *)
Definition make_fit (mass_rho_bars width_rho_bars beta_a1s beta_f0s beta_omegas beta_b_rhos : three)
    (coupling_f0 coupling_a1 coupling_rho coupling_omega coupling_rho_gamma coupling_rho_pi_pi coupling_omega_pi_rho : R) : fit :=
  Fit (t0 mass_rho_bars) (t1 mass_rho_bars) (t2 mass_rho_bars)
    (t0 width_rho_bars) (t1 width_rho_bars) (t2 width_rho_bars)
    (t0 beta_a1s) (t1 beta_a1s) (t2 beta_a1s)
    (t0 beta_f0s) (t1 beta_f0s) (t2 beta_f0s)
    (t0 beta_omegas) (t1 beta_omegas) (t2 beta_omegas)
    (t0 beta_b_rhos) (t1 beta_b_rhos) (t1 beta_b_rhos)
    coupling_f0 coupling_a1 coupling_rho coupling_omega coupling_rho_gamma coupling_rho_pi_pi coupling_omega_pi_rho.
(** _pi_pi_pi_pi.py 114-142: the default arguments *)
Definition default_fit : fit :=
  make_fit (1437 / 1000, 1738 / 1000, 212 / 100)
    (6784824438511003 / 10000000000000000, 8049287553822373 / 10000000000000000, 20919646790795576 / 100000000000000000)
    (- (51871563361440096 / 1000000000000000000), - (41610293030827125 / 1000000000000000000), - (18934309483457441 / 10000000000000000000))
    (7386028659732222 / 100000000000, - (26182725634782986 / 1000000000000), 3336314358023821 / 10000000000000)
    (- (36687866443745953 / 100000000000000000), 36253295280213906 / 1000000000000000000, - (4717302695776386 / 1000000000000000000))
    (- (145 / 1000), 8 / 100, - (75 / 10000))
    (12410534971287902 / 100000000000000) (- (20179098091602876 / 100000000000000)) (- (23089567893904537 / 10000000000000000))
    (- (15791482789120541 / 10000000000000000)) (1212 / 10000) (5997 / 1000) (423 / 10).

(** _pi_pi_pi_pi.py 158-163: the masses in GeV by mode *)
Definition fsp_masses_gev (imode : nat) : res (list R) :=
  match imode with
  | 0%nat => Ret [MPI_GEV; MPI_GEV; MPI0_GEV; MPI0_GEV]
  | 1%nat => Ret [MPI_GEV; MPI_GEV; MPI_GEV; MPI_GEV]
  | _ => Raise ValueError
  end.

(** _pi_pi_pi_pi.py 200-205 *)
Definition breit_wigner (s mass width : R) : cplx := cdiv (mass ^ 2, 0) (mass ^ 2 - s, - (mass * width)).
(** _pi_pi_pi_pi.py 207-212 *)
Definition clip_pos (x : R) : R := Rmax x 0.
(** _pi_pi_pi_pi.py 228-234 *)
Definition a1_g (x : R) : R :=
  let y := x - 9 * MPI_GEV ^ 2 in
  if Rlt_dec (838968432668 / 1000000000000) x
  then 1623 / 1000 * x + 1038 / 100 + - (932 / 100) / x + 65 / 100 / x ^ 2
  else 41 / 10 * y ^ 3 * (1 + - (33 / 10) * y + 58 / 10 * y ^ 2).
(** _pi_pi_pi_pi.py 214-236 *)
Definition propagator_a1 (s : R) : cplx := breit_wigner s M_A1 (G_A1 * a1_g s / a1_g (M_A1 ^ 2)).
(** _pi_pi_pi_pi.py 238-255 *)
Definition propagator_f0 (s : R) : cplx :=
  let mf2 := M_F0 ^ 2 in
  let mu := 4 * MPI_GEV ^ 2 in
  breit_wigner s M_F0 (G_F0 * sqrt (clip_pos (mf2 / s * (s - mu) / (mf2 - mu)))).
(** _pi_pi_pi_pi.py 257-267 *)
Definition propagator_omega (s : R) : cplx := breit_wigner s M_OMEGA G_OMEGA.
(** _pi_pi_pi_pi.py 325-347 *)
Definition breit_wigner3 (s mass width : R) : cplx :=
  let m2 := mass ^ 2 in
  let mu := 4 * MPI_GEV ^ 2 in
  let gt := clip_pos (m2 / s * ((s - mu) / (m2 - mu)) ^ 3) in
  let gt' := (if Rlt_dec 0 gt then 1 else -1) * sqrt (Rabs gt) in
  breit_wigner s mass (width * gt').
(** _pi_pi_pi_pi.py 282-299 *)
Definition csub (a b : cplx) : cplx := (fst a - fst b, snd a - snd b).
Definition propagator_rho_double (s : R) : cplx :=
  csub (cscale (/ MRHO_GEV ^ 2) (breit_wigner3 s MRHO_GEV GRHO_GEV)) (cscale (/ M_RHO1 ^ 2) (breit_wigner3 s M_RHO1 G_RHO1)).
(** _pi_pi_pi_pi.py 269-280 *)
Definition propagator_rho_g (q1 q2 q3 q4 : vec) : cvec :=
  let prop13 := propagator_rho_double (lnorm_sqr (vplus q1 q3)) in
  let prop24 := propagator_rho_double (lnorm_sqr (vplus q2 q4)) in
  let d := ldot (vplus (vplus (vplus q1 q2) (vscale 3 q3)) q4) (vminus q2 q4) in
  ctimes (cmul prop13 (cadd (cscale d prop24) (2, 0))) q1.

Section WithFit.
Variable f : fit.
(** _pi_pi_pi_pi.py 301-323 *)
Definition propagator_rho_f (s b1 b2 b3 : R) : cplx :=
  let prop0 := breit_wigner3 s MRHO_GEV GRHO_GEV in
  let prop1 := breit_wigner3 s (mass_rho_bar_1 f) (width_rho_bar_1 f) in
  let prop2 := breit_wigner3 s (mass_rho_bar_2 f) (width_rho_bar_2 f) in
  let prop3 := breit_wigner3 s (mass_rho_bar_3 f) (width_rho_bar_3 f) in
  cscale (/ (1 + b1 + b2 + b3)) (cadd (cadd (cadd prop0 (cscale b1 prop1)) (cscale b2 prop2)) (cscale b3 prop3)).
(** _pi_pi_pi_pi.py 349-362 *)
Definition propagator_rho_b (s : R) : cplx :=
  let b1 := beta_b_rho f in
  cscale (/ (1 + b1)) (cadd (breit_wigner3 s MRHO_GEV GRHO_GEV) (cscale b1 (breit_wigner3 s M_RHO1 G_RHO1))).
(** _pi_pi_pi_pi.py 364-378 *)
Definition propagator_rho_t (s : R) : cplx :=
  let b1 := beta_t_rho1 f in
  let b2 := beta_t_rho2 f in
  cscale (/ (1 + b1 + b2))
    (cadd (cadd (breit_wigner3 s MRHO_GEV GRHO_GEV) (cscale b1 (breit_wigner3 s M_RHO1 G_RHO1)))
       (cscale b2 (breit_wigner3 s M_RHO2 G_RHO2))).
(** _pi_pi_pi_pi.py 380-392 *)
Definition propagator_rho_h (s1 s2 s3 : R) : cplx :=
  cadd (cadd (breit_wigner3 s1 MRHO_GEV GRHO_GEV) (breit_wigner3 s2 MRHO_GEV GRHO_GEV)) (breit_wigner3 s3 MRHO_GEV GRHO_GEV).

(** [v - Q * ldot(Q, v) / Q2] of lines 431, 453 and 525 *)
Definition project (Q : vec) (Q2 : R) (v : vec) : vec := vminus v (vscale (ldot Q v / Q2) Q).
(** _pi_pi_pi_pi.py 410-433 *)
Definition current_a1_t (Q : vec) (Q2 : R) (q1 q2 q3 q4 : vec) : cvec :=
  let qmq1_sqr := lnorm_sqr (vminus Q q1) in
  let prop0 := propagator_rho_f Q2 (beta_a1_1 f) (beta_a1_2 f) (beta_a1_3 f) in
  let prop1 := propagator_a1 qmq1_sqr in
  let prop2 := propagator_rho_b (lnorm_sqr (vplus q3 q4)) in
  let prop := cmul (cmul prop0 prop1) prop2 in
  let qq := vplus (vminus q3 q4) (vscale (ldot q2 (vminus q3 q4) / qmq1_sqr) q1) in
  ctimes (cscale (coupling_a1 f) prop) (project Q Q2 qq).
(** _pi_pi_pi_pi.py 398-408 *)
Definition current_a1 (Q : vec) (Q2 : R) (q1 q2 q3 q4 : vec) : cvec :=
  cvminus (cvminus (cvplus (current_a1_t Q Q2 q3 q2 q1 q4) (current_a1_t Q Q2 q3 q1 q2 q4))
    (current_a1_t Q Q2 q4 q2 q1 q3)) (current_a1_t Q Q2 q4 q1 q2 q3).
(** _pi_pi_pi_pi.py 435-455 *)
Definition current_f0 (Q : vec) (Q2 : R) (q1 q2 q3 q4 : vec) : cvec :=
  let prop0 := propagator_rho_f Q2 (beta_f0_1 f) (beta_f0_2 f) (beta_f0_3 f) in
  let prop1 := propagator_rho_t (lnorm_sqr (vplus q3 q4)) in
  let prop2 := propagator_f0 (lnorm_sqr (vplus q1 q2)) in
  let prop := cmul (cmul prop0 prop1) prop2 in
  ctimes (cscale (coupling_f0 f) prop) (project Q Q2 (vminus q3 q4)).
(** _pi_pi_pi_pi.py 467-498 *)
Definition current_omega_t (Q : vec) (Q2 : R) (q1 q2 q3 q4 : vec) : cvec :=
  let coupling := 2 * coupling_omega f * coupling_omega_pi_rho f * coupling_rho_pi_pi f in
  let prop0 := propagator_rho_f Q2 (beta_omega_1 f) (beta_omega_2 f) (beta_omega_3 f) in
  let prop1 := propagator_omega (lnorm_sqr (vminus Q q1)) in
  let prop2 := propagator_rho_h (lnorm_sqr (vplus q2 q3)) (lnorm_sqr (vplus q2 q4)) (lnorm_sqr (vplus q3 q4)) in
  let prop := cmul (cmul prop0 prop1) prop2 in
  let lorentz :=
    vplus (vplus (vscale (ldot q1 q4 * ldot q3 Q - ldot q1 q3 * ldot q4 Q) q2)
                 (vscale (ldot q1 q2 * ldot q4 Q - ldot q1 q4 * ldot q2 Q) q3))
          (vscale (ldot q1 q3 * ldot q2 Q - ldot q1 q2 * ldot q3 Q) q4) in
  ctimes (cscale coupling prop) lorentz.
(** _pi_pi_pi_pi.py 457-465 *)
Definition current_omega (Q : vec) (Q2 : R) (q1 q2 q3 q4 : vec) : cvec :=
  cvplus (current_omega_t Q Q2 q1 q2 q3 q4) (current_omega_t Q Q2 q2 q1 q3 q4).
(** _pi_pi_pi_pi.py 500-527 *)
Definition rho_sum (q1 q2 q3 q4 : vec) : cvec :=
  cvminus (cvminus (cvplus (cvplus (cvminus (cvminus (cvplus
    (propagator_rho_g q1 q2 q3 q4) (propagator_rho_g q4 q1 q2 q3)) (propagator_rho_g q1 q2 q4 q3)) (propagator_rho_g q3 q1 q2 q4))
    (propagator_rho_g q2 q1 q3 q4)) (propagator_rho_g q4 q2 q1 q3)) (propagator_rho_g q2 q1 q4 q3)) (propagator_rho_g q3 q2 q1 q4).
Definition current_rho (Q : vec) (Q2 : R) (q1 q2 q3 q4 : vec) : cvec :=
  let coupling := coupling_rho f * coupling_rho_pi_pi f ^ 3 * coupling_rho_gamma f in
  let prop := propagator_rho_double Q2 in
  let gnu := rho_sum q1 q2 q3 q4 in
  let lorentz := cvminus gnu (ctimes (cscale (/ Q2) (rcdot Q gnu)) Q) in
  cvscale (cscale coupling prop) lorentz.
(** _pi_pi_pi_pi.py 529-551; the first two momenta are documented as those of the neutral pions *)
Definition current_neutral (Q : vec) (Q2 : R) (q1 q2 q3 q4 : vec) : cvec :=
  cvplus (cvplus (cvplus (cvplus (CV vzero vzero) (current_a1 Q Q2 q1 q2 q3 q4)) (current_f0 Q Q2 q1 q2 q3 q4))
    (current_omega Q Q2 q1 q2 q3 q4)) (current_rho Q Q2 q1 q2 q3 q4).
(** _pi_pi_pi_pi.py 553-578; momenta in the order pi+, pi-, pi+, pi- *)
Definition current_charged (Q : vec) (Q2 : R) (q1 q2 q3 q4 : vec) : cvec :=
  let j1 := current_neutral Q Q2 q3 q4 q1 q2 in
  let j2 := current_neutral Q Q2 q1 q4 q3 q2 in
  let j3 := current_neutral Q Q2 q3 q2 q1 q4 in
  let j4 := current_neutral Q Q2 q1 q2 q3 q4 in
  cvplus (cvplus (cvplus j1 j2) j3) j4.
(** _pi_pi_pi_pi.py 580-595; [_imode] is 0 or 1 *)
Definition form_factor_at (imode : nat) (Q : vec) (Q2 : R) (q1 q2 q3 q4 : vec) : cvec :=
  match imode with 0%nat => current_neutral Q Q2 q1 q2 q3 q4 | _ => current_charged Q Q2 q1 q2 q3 q4 end.
(** the hadronic current of _pi_pi_pi_pi.py 640-651, momenta in GeV *)
Definition msqrd_current (imode : nat) (q1 q2 q3 q4 : vec) : cvec :=
  let Q := vplus (vplus (vplus q1 q2) q3) q4 in
  form_factor_at imode Q (lnorm_sqr Q) q1 q2 q3 q4.
(** _pi_pi_pi_pi.py 620-661: the real part of [ldot(current, conj(current))] is the sum over the real
    and the imaginary parts *)
Definition msqrd (imode : nat) (q1 q2 q3 q4 : vec) (gvuu gvdd : R) : R :=
  let Q2 := lnorm_sqr (vplus (vplus (vplus q1 q2) q3) q4) in
  let current := msqrd_current imode q1 q2 q3 q4 in
  let j := - (ldot (cre current) (cre current) + ldot (cim current) (cim current)) in
  let weights := j / (3 * Q2) in
  let c1 := gvuu - gvdd in
  let pre := match imode with 0%nat => c1 ^ 2 / 2 | _ => c1 ^ 2 / 4 end in
  pre * weights.
(** * The public form_factor method

    An argument of the currents is an array holding a four-vector or a number; NumPy adds the number to every
    component, and [ldot] and [lnorm_sqr] raise IndexError for it because its shape is the empty tuple
    (hazma/utils.py 203-205 and 254). *)
Inductive narr : Type := Num (c : R) | Arr (v : vec).
Definition bcast (a : narr) : vec := match a with Num c => V4 c c c c | Arr v => v end.
Definition nplus (a b : narr) : narr :=
  match a, b with Num x, Num y => Num (x + y) | _, _ => Arr (vplus (bcast a) (bcast b)) end.
Definition nminus (a b : narr) : narr :=
  match a, b with Num x, Num y => Num (x - y) | _, _ => Arr (vminus (bcast a) (bcast b)) end.
Definition ldot_any (a b : narr) : res R :=
  match a, b with Arr x, Arr y => Ret (ldot x y) | _, _ => Raise IndexError end.
(** _pi_pi_pi_pi.py 410-433: the scalar products in the order of the code *)
Definition current_a1_t_any (Q : vec) (Q2 : R) (q1 q2 q3 q4 : narr) : res cvec :=
  let* _ := ldot_any (nminus (Arr Q) q1) (nminus (Arr Q) q1) in
  let* _ := ldot_any (nplus q3 q4) (nplus q3 q4) in
  let* _ := ldot_any q2 (nminus q3 q4) in
  Ret (current_a1_t Q Q2 (bcast q1) (bcast q2) (bcast q3) (bcast q4)).
(** _pi_pi_pi_pi.py 398-408 *)
Definition current_a1_any (Q : vec) (Q2 : R) (q1 q2 q3 q4 : narr) : res cvec :=
  let* a := current_a1_t_any Q Q2 q3 q2 q1 q4 in
  let* b := current_a1_t_any Q Q2 q3 q1 q2 q4 in
  let* c := current_a1_t_any Q Q2 q4 q2 q1 q3 in
  let* d := current_a1_t_any Q Q2 q4 q1 q2 q3 in
  Ret (cvminus (cvminus (cvplus a b) c) d).
(** _pi_pi_pi_pi.py 529-551: the other three currents follow the first one; their own scalar products
    can raise only after it *)
Definition current_neutral_any (Q : vec) (Q2 : R) (q1 q2 q3 q4 : narr) : res cvec :=
  let* _ := current_a1_any Q Q2 q1 q2 q3 q4 in
  Ret (current_neutral Q Q2 (bcast q1) (bcast q2) (bcast q3) (bcast q4)).
(** _pi_pi_pi_pi.py 553-578 *)
Definition current_charged_any (Q : vec) (Q2 : R) (q1 q2 q3 q4 : narr) : res cvec :=
  let* j1 := current_neutral_any Q Q2 q3 q4 q1 q2 in
  let* j2 := current_neutral_any Q Q2 q1 q4 q3 q2 in
  let* j3 := current_neutral_any Q Q2 q3 q2 q1 q4 in
  let* j4 := current_neutral_any Q Q2 q1 q2 q3 q4 in
  Ret (cvplus (cvplus (cvplus j1 j2) j3) j4).
(** _pi_pi_pi_pi.py 580-595 *)
Definition form_factor_any (imode : nat) (Q : vec) (Q2 : R) (q1 q2 q3 q4 : narr) : res cvec :=
  match imode with 0%nat => current_neutral_any Q Q2 q1 q2 q3 q4 | _ => current_charged_any Q Q2 q1 q2 q3 q4 end.
(** _pi_pi_pi_pi.py 597-618 for momenta of shape (4, 4, 1), in MeV: line 614 stores the energy of the event in
    [q2], which is then passed as the squared energy and as the second momentum *)
Definition form_factor (imode : nat) (p1 p2 p3 p4 : vec) : res cvec :=
  let s := vscale (1 / 1000) in
  let q := vplus (vplus (vplus (s p1) (s p2)) (s p3)) (s p4) in
  let q2 := en (s p1) + en (s p2) + en (s p3) + en (s p4) in
  form_factor_any imode q q2 (Arr (s p1)) (Num q2) (Arr (s p3)) (Arr (s p4)).
End WithFit.
