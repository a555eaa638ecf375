(** Model of the resonance sums of hazma/vector_mediator/form_factors with their default fits, of the methods
    [width] and [cross_section] built on them at one energy, and of the default fits of the classes of
    hazma/form_factors/vector whose sums are in FitModel.

    Exact real arithmetic; complex numbers are pairs; NumPy arrays of fit values are lists or functions of the
    index.  The square of [np.abs] is passed to the functions of OldModel.  SciPy's gamma function and the
    solution of [_find_beta] (kk.py 80-114 and _k_k.py 85-117, the same text) are arguments. *)
From Coq Require Import Reals Bool List ZArith.
From Verif Require Import PyBase RamboModel KinModel VffModel RareModel FourPiModel FitModel OldModel.
Import ListNotations.
Local Open Scope R_scope.

(** hazma/parameters.py 76 and 312 *)
Definition par_mphi : R := 1019.461.
Definition par_fpi : R := 92.2138.
(** An entry of an array, and np.sum over the entries 0 .. n - 1 *)
Definition at_ (l : list R) (i : nat) : R := nth i l 0.
Definition row_total (n : nat) (f : nat -> cplx) : cplx := csum (map f (seq 0 n)).
(** amps * np.exp(1j * phases) *)
Definition owgt (amps phases : list R) (i : nat) : cplx := cscale (at_ amps i) (cis (at_ phases i)).
(** phases * np.pi / 180.0 *)
Definition degrees (l : list R) : list R := map (fun x => x * PI / 180) l.

(** * utils.py at one energy *)
(** 62-64 and 89; np.clip(x, 0.0, None) *)
Definition obeta2 (s m1 m2 : R) : R := Rmax 0 ((1 - (m1 + m2) ^ 2 / s) * (1 - (m1 - m2) ^ 2 / s)).
Definition obeta (s m1 m2 : R) : R := sqrt (obeta2 s m1 m2).
(** 122-134 *)
Definition odhhatds (mres gamma m1 m2 : R) : R :=
  let v2 := obeta2 (mres ^ 2) m1 m2 in
  let v := sqrt v2 in
  let r := (m1 ^ 2 + m2 ^ 2) / mres ^ 2 in
  gamma / PI / mres / v2 * ((3 - 2 * v2 - 3 * r) * ln ((1 + v) / (1 - v)) + 2 * v * (1 - r / (1 - v2))).
(** 171-183 *)
Definition ohhat (s mres gamma m1 m2 : R) : R :=
  let vr := obeta (mres ^ 2) m1 m2 in
  let v := obeta s m1 m2 in
  gamma / mres / PI * s * (v / vr) ^ 3 * ln ((1 + v) / (1 - v)).
(** 227-233 and 236; s <> 0 *)
Definition oh (s mres gamma m1 m2 dh hres : R) : R := ohhat s mres gamma m1 m2 - hres - (s - mres ^ 2) * dh.
(** 238-242: s = 0 *)
Definition oh_0 (mres gamma m1 m2 dh hres : R) : R :=
  - 2 * (m1 + m2) ^ 2 / PI * gamma / mres / obeta (mres ^ 2) m1 m2 ^ 3 - hres + mres ^ 2 * dh.
(** 279-289 *)
Definition ogamma_p (s mres gamma m1 m2 : R) : R :=
  let rp := sqrt (Rmax 0 (obeta2 s m1 m2 / obeta2 (mres ^ 2) m1 m2)) in
  sqrt s / mres * rp ^ 3 * gamma.
(** 338-349 *)
Definition obreit_wigner_gs (s mass width m1 m2 h0 dh hres : R) : cplx :=
  cdiv (mass ^ 2 + h0, 0)
       (mass ^ 2 - s + oh s mass width m1 m2 dh hres, - (sqrt s * ogamma_p s mass width m1 m2)).
(** 386-389 *)
Definition obreit_wigner_fw (s mass width : R) : cplx := cdiv (mass ^ 2, 0) (mass ^ 2 - s, - (mass * width)).
(** 401-410 *)
Definition obreit_wigner_pwave (s mres gamma m1 m2 : R) : cplx :=
  cdiv (mres ^ 2, 0) (mres ^ 2 - s, - (sqrt s * ogamma_p s mres gamma m1 m2)).
(** 437-443: entry [n] of the values yielded *)
Fixpoint ogamma_gen (gamma : R -> R) (beta : R) (n : nat) : R :=
  match n with
  | O => gamma (2 - beta)
  | S k => ogamma_gen gamma beta k * ((1 - beta + INR n) / INR n)
  end.
(** pipi.py 98-106 and kk.py 180-182: hres, dh and h0 of one resonance, and its propagator *)
Definition ogs (s mass width : R) : cplx :=
  let m := gev par_mpi in
  let hres := ohhat (mass ^ 2) mass width m m in
  let dh := odhhatds mass width m m in
  obreit_wigner_gs s mass width m m (oh_0 mass width m m dh hres) dh hres.

(** * Two-body sums *)
(** eta_phi.py 21-24 and 46-56 *)
Definition oeta_phi (s gvss : R) : cplx :=
  let masses := [1.67; 2.14] in
  let widths := [0.122; 0.0435] in
  let amps := [0.175; 0.00409] in
  let phases := [0; 2.19] in
  cscale (- 3 * gvss * sqrt s)
    (row_total 2 (fun i => cmul (owgt amps phases i) (obreit_wigner_fw s (at_ masses i) (at_ widths i)))).
(** eta_omega.py 22-25 and 52-62 *)
Definition oeta_omega (s gvuu gvdd : R) : cplx :=
  let masses := [1.43; 1.67] in
  let widths := [0.215; 0.113] in
  let amps := [0.0862; 0.0648] in
  let phases := [0; PI] in
  cscale (3 * (gvuu + gvdd) * sqrt s)
    (row_total 2 (fun i => cmul (owgt amps phases i) (obreit_wigner_fw s (at_ masses i) (at_ widths i)))).
(** phi_pi.py 32-36 and 60-88 *)
Definition ophi_pi (s gvuu gvdd : R) : cplx :=
  let amps := [0.177522453644825; 0.023840592398187477; 0] in
  let phases := degrees [0; 123.82008351626034; 0] in
  let masses := [0.77526; 1.593; 1.909] in
  let widths := [0.1491; 0.203; 0.048] in
  let br4pi := [0; 0.33; 0] in
  let ci1 := gvuu - gvdd in
  let m0 := gev par_mpi0 in
  let ws i := at_ widths i
    * (1 - at_ br4pi i + at_ br4pi i * at_ masses i ^ 2 / s * pow15 ((s - 16 * m0 ^ 2) / (at_ masses i ^ 2 - 16 * m0 ^ 2))) in
  cscale (sqrt s)
    (row_total 3 (fun i => cdiv (cscale (at_ masses i ^ 2) (cscale ci1 (owgt amps phases i)))
                           (at_ masses i ^ 2 - s, - (sqrt s * ws i)))).
(** omega_pi.py 22-27 and 29-45: the widths *)
Definition oomega_pi_width (s : R) (i : nat) : R :=
  let masses := [0.77526; 1.510; 1.720] in
  let widths := [0.1491; 0.44; 0.25] in
  let g := 15.9 in
  let q := sqrt s in
  let mu2p := gev par_mpi0 ^ 2 / s in
  let mu2w := gev par_momega ^ 2 / s in
  let mu2r := at_ masses 0 ^ 2 / s in
  let p := 0.5 * q * sqrt (kallen_lambda 1 mu2p mu2w) in
  if Nat.eqb i 0
  then at_ widths 0 * mu2r * pow15 ((1 - 4 * mu2p) / (mu2r - 4 * mu2p)) + g ^ 2 * p ^ 3 / (12 * PI)
  else at_ widths i.
(** omega_pi.py 69-78 *)
Definition oomega_pi (s gvuu gvdd : R) : cplx :=
  let amps := [1; 0.175; 0.014] in
  let phases := degrees [0; 124; -63] in
  let masses := [0.77526; 1.510; 1.720] in
  let ci1 := gvuu - gvdd in
  cscale (15.9 * ci1 / 5.06325 * sqrt s)
    (row_total 3 (fun i => cdiv (cscale (at_ masses i ^ 2) (owgt amps phases i))
                           (at_ masses i ^ 2 - s, - (sqrt s * oomega_pi_width s i)))).
(** eta_gamma.py 47-79 and pi_gamma.py 45-83 without the clipping of line 66-70 *)
Definition ogamma_sum (coups masses widths amps phases : list R) (clip : R -> R) (s : R) : cplx :=
  let m := gev par_mpi in
  let w i := if Nat.eqb i 0
             then at_ widths 0 * at_ masses 0 ^ 2 / s * pow15 (clip ((s - 4 * m ^ 2) / (at_ masses 0 ^ 2 - 4 * m ^ 2)))
             else at_ widths i in
  row_total 5 (fun i => cscale (sqrt s)
    (cdiv (cscale (at_ coups i) (cscale (at_ masses i ^ 2) (owgt amps phases i)))
          (at_ masses i ^ 2 - s, - (sqrt s * w i)))).
(** eta_gamma.py 19-22 and 47-51 *)
Definition oeta_gamma (s gvuu gvdd gvss : R) : cplx :=
  let ci0 := 3 * (gvuu + gvdd) in
  let ci1 := gvuu - gvdd in
  let cs := - 3 * gvss in
  ogamma_sum [ci1; ci0; cs; ci1; cs] [0.77526; 0.78284; 1.01952; 1.465; 1.70] [0.1491; 0.00868; 0.00421; 0.40; 0.30]
    [0.0861; 0.00824; 0.0158; 0.0147; 0] (degrees [0; 11.3; 170; 61; 0]) (fun x => x) s.
(** pi_gamma.py 16-19 and 45-49; np.clip(x, 0.0, np.inf) in lines 66-70 *)
Definition opi_gamma (s gvuu gvdd gvss : R) : cplx :=
  let ci0 := 3 * (gvuu + gvdd) in
  let ci1 := gvuu - gvdd in
  let cs := - 3 * gvss in
  ogamma_sum [ci1; ci0; cs; ci0; ci0] [0.77526; 0.78284; 1.01952; 1.45; 1.70] [0.1491; 0.00868; 0.00421; 0.40; 0.30]
    [0.0426; 0.0434; 0.00303; 0.00523; 0] (degrees [-12.7; 0; 158; 180; 0]) (Rmax 0) s.

(** pipi.py 59-69 *)
Definition opi_mag : list R := [1; 1; 0.59; 0.048; 0.40; 0.43].
Definition opi_phase : list R := [0; 0; -2.2; -2.0; -2.9; 1.19].
Definition opi_masses : list R := [0.77337; 1.490; 1.870; 2.12; 2.321; 2.567].
Definition opi_widths : list R := [0.1471; 0.429; 0.357; 0.3; 0.444; 0.491].
(** 74-85: an entry of the array, before and after [coup[1::2] *= -1]; also kk.py 131-145 *)
Definition odual (gamma : R -> R) (beta : R) (i : nat) : R :=
  let c := gamma (beta - 0.5) / (0.5 + INR i) / sqrt PI * sin (PI * (beta - 1 - INR i)) / PI * ogamma_gen gamma beta i in
  if Nat.odd i then - c else c.
(** 87-88 *)
Definition opi_coup0 (gamma : R -> R) (i : nat) : R := if Nat.eqb i 0 then 1.087633403691967 else odual gamma 2.148 i.
(** 92-96: the first entries are overwritten *)
Definition opi_mass (i : nat) : R := nth i opi_masses (at_ opi_masses 0 * sqrt (1 + 2 * INR i)).
Definition opi_width (i : nat) : R := nth i opi_widths (at_ opi_widths 0 / at_ opi_masses 0 * opi_mass i).
(** 108-111 *)
Definition opi_coup (gamma : R -> R) (i : nat) : cplx :=
  let cwgt := csum (map (fun j => (opi_coup0 gamma j, 0)) [1; 2; 3; 4; 5]%nat) in
  let rho_sum := csum (map (owgt opi_mag opi_phase) [1; 2; 3; 4; 5]%nat) in
  if (Nat.leb 1 i && Nat.ltb i 6)%bool then cdiv (cmul (owgt opi_mag opi_phase i) cwgt) rho_sum
  else (opi_coup0 gamma i, 0).
(** 33-37 and 72, 121-155; [neutral] is imode == 0 *)
Definition opi_pi (gamma : R -> R) (nmax : nat) (neutral : bool) (s gvuu gvdd : R) : cplx :=
  let ci1 := gvuu - gvdd in
  let omega_weight := cscale 0.00187 (cis 0.106) in
  let term i := cmul (cscale ci1 (opi_coup gamma i)) (ogs s (opi_mass i) (opi_width i)) in
  let mixing := cmul (cdiv (1, 0) (cadd (1, 0) omega_weight))
                     (cadd (1, 0) (cmul omega_weight (obreit_wigner_fw s 0.7824 0.00833))) in
  let row i := if (negb neutral && Nat.eqb i 0)%bool then cmul (term i) mixing else term i in
  let ff := row_total nmax row in
  if neutral then cscale (sqrt 2) ff else ff.

(** kk.py 38-77 *)
Definition okk_rho_mag : list R :=
  [1.1148916618504967; -0.050374779737077324; -0.014908906283692132; -0.03902475997619905; -0.038341465215871416].
Definition okk_rho_masses : list R := [0.77549; 1.5206995754050117; 1.7409719246639341; 1.9922811314327789].
Definition okk_rho_widths : list R := [0.1494; 0.21341728317817743; 0.08412224414791908; 0.2899733272437917].
Definition okk_omega_mag : list R := [1.3653229680598022; -0.02775156567495144; -0.32497165559032715; 1.3993153161869765].
Definition okk_omega_masses : list R := [0.78265; 1.4144344268685891; 1.655375231284883].
Definition okk_omega_widths : list R := [0.00849; 0.0854413887755723; 0.16031760444832305].
Definition okk_phi_mag : list R := [0.965842498579515; -0.002379766320723148; -0.1956211640216197; 0.16527771485190898].
Definition okk_phi_masses : list R := [1.0194209171596993; 1.594759278457624; 2.156971341201067].
Definition okk_phi_widths : list R := [0.004252653332329334; 0.028741821847408196; 0.6737556174184005].
(** 147-152 *)
Definition okk_mass (masses : list R) (i : nat) : R := nth i masses (at_ masses 0 * sqrt (1 + 2 * INR i)).
Definition okk_width (masses widths : list R) (gam : option R) (i : nat) : R :=
  nth i widths (okk_mass masses i * match gam with None => at_ widths 0 / at_ masses 0 | Some g => g end).
(** 128 and 154-159; the phases are zero (47, 63, 75) *)
Definition okk_coup (gamma beta_of : R -> R) (mags : list R) (nmax i : nat) : cplx :=
  let beta := beta_of (at_ mags 0) in
  let n := length mags in
  let coup j := if Nat.ltb j n then owgt mags [] j else (odual gamma beta j, 0) in
  if Nat.eqb i n then cadd (coup i) (csub (1, 0) (row_total nmax coup)) else coup i.
(** 360-418 for one energy, which is the first of its array *)
Definition okk (gamma beta_of : R -> R) (nmax : nat) (neutral : bool) (s gvuu gvdd gvss : R) : cplx :=
  let mk := gev (if neutral then par_mk0 else par_mk) in
  let ci0 := 3 * (gvuu + gvdd) in
  let ci1 := gvuu - gvdd in
  let cs := - 3 * gvss in
  let rho_pre := if neutral then -0.5 else 0.5 in
  let rho i := cscale rho_pre (cmul (cscale ci1 (okk_coup gamma beta_of okk_rho_mag nmax i))
    (ogs s (okk_mass okk_rho_masses i) (okk_width okk_rho_masses okk_rho_widths None i))) in
  let omega i := cmul (cscale (1 / 6 * ci0) (okk_coup gamma beta_of okk_omega_mag nmax i))
    (obreit_wigner_fw s (okk_mass okk_omega_masses i) (okk_width okk_omega_masses okk_omega_widths (Some 0.5) i)) in
  let phi i := cmul (cscale (1 / 3 * cs) (okk_coup gamma beta_of okk_phi_mag nmax i))
    (obreit_wigner_pwave s (okk_mass okk_phi_masses i) (okk_width okk_phi_masses okk_phi_widths (Some 0.2) i) mk mk) in
  let phi' i := if neutral then cscale 1.055 (phi i) else phi i in
  row_total nmax (fun i => cadd (cadd (rho i) (omega i)) (phi' i)).

(** * The methods at one energy *)
(** The mask of the methods form_factor (for example eta_phi.py 80-91): [thr] is the threshold in MeV *)
Definition omasked (thr : R) (core : R -> cplx) (q : R) : cplx :=
  let qq := 1 / 1000 * q in
  if Rlt_dec (thr * (1 / 1000)) qq then core (qq ^ 2) else (0, 0).
(** The form factors of the old tree: masses of the two mesons (0 for a photon) and the core *)
Definition ocore (gamma beta_of : R -> R) (nmax_pi nmax_k : nat) (c : quarks) (st : two_body_state) (s : R) : cplx :=
  match st with
  | S_PiPi => opi_pi gamma nmax_pi false s (gu c) (gd c)
  | S_Pi0Pi0 => opi_pi gamma nmax_pi true s (gu c) (gd c)
  | S_KK => okk gamma beta_of nmax_k false s (gu c) (gd c) (gs c)
  | S_K0K0 => okk gamma beta_of nmax_k true s (gu c) (gd c) (gs c)
  | S_PiGamma => opi_gamma s (gu c) (gd c) (gs c)
  | S_EtaGamma => oeta_gamma s (gu c) (gd c) (gs c)
  | S_PiPhi => ophi_pi s (gu c) (gd c)
  | S_EtaPhi => oeta_phi s (gs c)
  | S_EtaOmega => oeta_omega s (gu c) (gd c)
  | S_PiOmega => oomega_pi s (gu c) (gd c)
  end.
(** eta_phi.py 85, eta_omega.py 93, phi_pi.py 119, omega_pi.py 109, eta_gamma.py 111, pi_gamma.py 111,
    pipi.py 188, kk.py 450 *)
Definition othreshold (st : two_body_state) : R :=
  match st with
  | S_PiPi => 2 * par_mpi
  | S_Pi0Pi0 => 2 * par_mpi0
  | S_KK => 2 * par_mk
  | S_K0K0 => 2 * par_mk0
  | S_PiGamma => par_mpi0
  | S_EtaGamma => par_meta
  | S_PiPhi => par_mpi0 + par_mphi
  | S_EtaPhi => par_meta + par_mphi
  | S_EtaOmega => par_meta + par_momega
  | S_PiOmega => par_mpi0 + par_momega
  end.
(** The methods [width]: pipi.py 203-209, kk.py 466-472, pi_gamma.py 124-127, eta_gamma.py 125-128,
    phi_pi.py 127-131, eta_phi.py 93-97, eta_omega.py 102-106, omega_pi.py 117-121 *)
Definition owidth (gamma beta_of : R -> R) (nmax_pi nmax_k : nat) (c : quarks) (st : two_body_state) (mv : R) : onum :=
  let ff2 := cabs2 (omasked (othreshold st) (ocore gamma beta_of nmax_pi nmax_k c st) mv) in
  match st with
  | S_PiPi => width_v_to_p_p mv par_mpi ff2 1
  | S_Pi0Pi0 => width_v_to_p_p mv par_mpi0 ff2 1
  | S_KK => width_v_to_p_p mv par_mk ff2 1
  | S_K0K0 => width_v_to_p_p mv par_mk0 ff2 1
  | S_PiGamma => width_v_to_p_a mv par_mpi0 ff2
  | S_EtaGamma => width_v_to_p_a mv par_meta ff2
  | S_PiPhi => width_v_to_v_p mv ff2 par_mphi par_mpi0
  | S_EtaPhi => width_v_to_v_p mv ff2 par_mphi par_meta
  | S_EtaOmega => width_v_to_v_p mv ff2 par_momega par_meta
  | S_PiOmega => width_v_to_v_p mv ff2 par_momega par_mpi0
  end.
(** The methods [cross_section]: pipi.py 211-218, kk.py 474-481, pi_gamma.py 129-131, eta_gamma.py 130-132,
    phi_pi.py 133-138, eta_phi.py 99-104, eta_omega.py 108-113, omega_pi.py 123-128 *)
Definition ocross_section (gamma beta_of : R -> R) (nmax_pi nmax_k : nat) (c : quarks) (st : two_body_state)
    (cme mx mv gamv : R) : onum :=
  let ff2 := cabs2 (omasked (othreshold st) (ocore gamma beta_of nmax_pi nmax_k c st) cme) in
  let s := cme ^ 2 in
  let pp mp := cross_section_x_x_to_p_p s mx mp ff2 mv gamv in
  let pv mp mvec := cross_section_x_x_to_p_v s mx mp mvec ff2 mv gamv in
  let pa := let? rescale := width_to_cs cme mx mv gamv in
            let? w := owidth gamma beta_of nmax_pi nmax_k c st cme in Some (rescale * w) in
  match st with
  | S_PiPi => pp par_mpi
  | S_Pi0Pi0 => pp par_mpi0
  | S_KK => pp par_mk
  | S_K0K0 => pp par_mk0
  | S_PiGamma | S_EtaGamma => pa
  | S_PiPhi => pv par_mpi0 par_mphi
  | S_EtaPhi => pv par_meta par_mphi
  | S_EtaOmega => pv par_meta par_momega
  | S_PiOmega => pv par_mpi0 par_momega
  end.

(** * Three-body sums *)
(** pi_pi_eta.py 37-52 and pi_pi_etap.py 27-42 *)
Definition obw0 (masses widths : list R) (s : R) : cplx :=
  let m0 := at_ masses 0 in
  let w0 := at_ widths 0 in
  let m := gev par_mpi in
  let w := w0 * m0 ^ 2 / s * pow15 ((s - 4 * m ^ 2) / (m0 ^ 2 - 4 * m ^ 2)) in
  cdiv (m0 ^ 2, 0) (m0 ^ 2 - s, - (sqrt s * w)).
Definition obw (masses widths : list R) (s : R) (i : nat) : cplx :=
  if Nat.eqb i 0 then obw0 masses widths s
  else
    let w := at_ widths i * s / at_ masses i ^ 2 in
    cdiv (at_ masses i ^ 2, 0) (at_ masses i ^ 2 - s, - (sqrt s * w)).
(** pi_pi_eta.py 64-70 and pi_pi_etap.py 49-55 after the prefactor *)
Definition oeta_sum (pre : R) (masses widths amps phases : list R) (cme s gvuu gvdd : R) : cplx :=
  let ci1 := gvuu - gvdd in
  let total := row_total 4 (owgt amps phases) in
  cmul (cscale (pre * ci1) (obw0 masses widths s))
       (row_total 4 (fun i => cmul (cdiv (owgt amps phases i) total) (obw masses widths (cme ^ 2) i))).
(** pi_pi_eta.py 32-35 and 54-70, GeV *)
Definition opi_pi_eta (cme s gvuu gvdd : R) : cplx :=
  oeta_sum (1 / (4 * sqrt 3 * PI ^ 2 * gev par_fpi ^ 3)) [0.77549; 1.54; 1.76; 2.15] [0.1494; 0.356; 0.113; 0.32]
    [1; 0.326; 0.0115; 0] [0; 3.14; 3.14; 0] cme s gvuu gvdd.
(** pi_pi_etap.py 22-25 and 44-55 *)
Definition opi_pi_etap (cme s gvuu gvdd : R) : cplx :=
  oeta_sum (sqrt 2 / (4 * sqrt 3 * PI ^ 2 * gev par_fpi ^ 3)) [0.77549; 1.54; 1.76; 2.11] [0.1494; 0.356; 0.113; 0.176]
    [1; 0; 0; 0.02] [0; PI; PI; PI] cme s gvuu gvdd.
(** pi_pi_omega.py 14-17 and 24-30 *)
Definition opi_pi_omega (cme gvuu gvdd : R) : cplx :=
  let masses := [0.783; 1.420; 1.6608543573197] in
  let widths := [0.00849; 0.315; 0.3982595005228462] in
  let amps := [0; 0; 2.728870588760009] in
  let phases := [0; PI; 0] in
  cscale (3 * (gvuu + gvdd))
    (row_total 3 (fun i => cdiv (cscale (at_ masses i ^ 2) (owgt amps phases i))
                           (at_ masses i ^ 2 - cme ^ 2, - (cme * at_ widths i)))).
(** pi_pi_pi0.py 36-51 *)
Definition ogamma_rho (s mass width mj mk : R) : R :=
  width * mass ^ 2 / s * pow15 ((s - (mj + mk) ^ 2) / (mass ^ 2 - (mj + mk) ^ 2)).
Definition obw_rho (qi2 mrho grho mj mk : R) : cplx :=
  cdiv (mrho ^ 2, 0) (qi2 - mrho ^ 2, sqrt qi2 * ogamma_rho qi2 mrho grho mj mk).
(** 53-58 *)
Definition ohrho (s t u mrho grho : R) : cplx :=
  let m := gev par_mpi in
  let m0 := gev par_mpi0 in
  cadd (cadd (obw_rho s mrho grho m m) (obw_rho t mrho grho m0 m)) (obw_rho u mrho grho m0 m).
(** 21-34 and 60-81 *)
Definition oiso0_masses : list R := [0.7824; 1.01924; 1.375; 1.631].
Definition oiso0_widths : list R := [0.00869; 0.00414; 0.250; 0.245].
Definition oiso0_coups : list R := [18.20; -0.87; -0.77; -1.12].
Definition orho0_masses : list R := [0.77609; 1.465; 1.7].
Definition orho0_widths : list R := [0.14446; 0.31; 0.235].
Definition orho0_coups : list R := [0; -0.72; -0.59].
Definition oiso_spin_zero (q2 s t u ci0 cs : R) : cplx :=
  let bw i := obreit_wigner_fw q2 (at_ oiso0_masses i) (at_ oiso0_widths i) in
  let h i := ohrho s t u (at_ orho0_masses i) (at_ orho0_widths i) in
  let coups i := if Nat.eqb i 1 then cs else ci0 in
  let c0 := row_total 4 (fun i => cscale (coups i * at_ oiso0_coups i) (bw i)) in
  let f0 := cmul c0 (h 0%nat) in
  let f0 := cadd f0 (cmul (cscale (cs * at_ orho0_coups 1) (bw 1%nat)) (h 1%nat)) in
  cadd f0 (cmul (cscale (ci0 * at_ orho0_coups 2) (bw 3%nat)) (h 2%nat)).
(** 83-110 *)
Definition oiso_spin_one (q2 s ci1 : R) : cplx :=
  if Req_EM_T ci1 0 then (0, 0)
  else
    let m := gev par_mpi in
    let f1 := cscale (/ 0.77609 ^ 2) (obw_rho s 0.77609 0.14446 m m) in
    let f1 := cadd f1 (cscale (/ 1.7 ^ 2) (cscale (-0.1) (obw_rho s 1.7 0.26 m m))) in
    let gw := 3.768 * 0.77609 ^ 2 * 0.185 in
    cmul f1 (cscale (/ 0.78259 ^ 2) (cscale (ci1 * gw) (obreit_wigner_fw q2 0.78259 0.00849))).
(** 128-134 *)
Definition opi3 (q2 s t u : R) (c : quarks) : cplx :=
  cadd (oiso_spin_zero q2 s t u (3 * (gu c + gd c)) (- 3 * gs c)) (oiso_spin_one q2 s (gu c - gd c)).
(** pi_k_k.py 50-59, 85-107 *)
Definition okk_iso_amps (m : R) (c : quarks) : cplx * cplx :=
  let ci1 := gu c - gd c in
  let cs := - 3 * gs c in
  let sum k masses widths amps phases :=
    row_total 3 (fun i => cmul (cscale k (owgt amps phases i)) (obreit_wigner_fw (m ^ 2) (at_ masses i) (at_ widths i))) in
  (sum cs [1.019461; 1.6334; 1.957] [0.004249; 0.218; 0.267] [0; 0.233; 0.0405] [0; 0.00000011; 5.19],
   sum ci1 [0.77526; 1.470; 1.720] [0.1491; 0.400; 0.250] [-2.34; 0.594; -0.0179] [0; 0.317; 2.57]).
(** 12-13 and 122-125 *)
Definition okstar (s m1 m2 : R) : cplx := cscale (/ 0.8956 ^ 2) (obreit_wigner_pwave s 0.8956 0.047 m1 m2).
(** The three final states and their masses in GeV: 203-209, 224-230, 245-251 *)
Inductive pikk_state : Type := Pi0K0K0 | Pi0KK | PiKK0.
Definition opikk_masses (st : pikk_state) : R * R * R :=
  match st with
  | Pi0K0K0 => (gev par_mk0, gev par_mk0, gev par_mpi0)
  | Pi0KK => (gev par_mk, gev par_mk, gev par_mpi0)
  | PiKK0 => (gev par_mk0, gev par_mk, gev par_mpi)
  end.
(** The sums inside [_integrand]: 212-219, 233-240, 254-262 *)
Definition opikk (st : pikk_state) (s t m : R) (c : quarks) : cplx :=
  let '(m1, m2, m3) := opikk_masses st in
  let '(a0, a1) := okk_iso_amps m c in
  let g := 5.37392360229 in
  let norm z := cscale (/ sqrt 6 * 2 * g) z in
  match st with
  | Pi0K0K0 => cmul (norm (cadd a0 a1)) (cadd (okstar s m2 m3) (okstar t m1 m3))
  | Pi0KK => cmul (norm (csub a0 a1)) (cadd (okstar s m2 m3) (okstar t m1 m3))
  | PiKK0 => cadd (cmul (norm (csub a0 a1)) (okstar s m2 m3)) (cmul (norm (cadd a0 a1)) (okstar t m1 m3))
  end.
(** [_integrand]: 221, 242, 264 *)
Definition opikk_integrand (st : pikk_state) (s t m : R) (c : quarks) : R :=
  let '(m1, m2, m3) := opikk_masses st in cabs2 (opikk st s t m c) * pikk_lorentz m1 m2 m3 s t m.

(** * The default fits of hazma/form_factors/vector *)
(** The masses in MeV of _utils.py 17-33, parameters.py 56-76 *)
Definition new_masses : vff_masses := MkVffMasses 139.57039 134.9768 493.677 497.611 547.862 782.66 1019.461.
(** _eta_phi.py 60-63, _eta_omega.py 64-67, _pi_phi.py 73-81, _pi_omega.py 68-75, _eta_gamma.py 64-75 *)
Definition new_eta_phi : list reso := [Reso 1.67 0.122 0.175 0; Reso 2.14 0.0435 0.00409 2.19].
Definition new_eta_omega : list reso := [Reso 1.43 0.215 0.0862 0; Reso 1.67 0.113 0.0648 PI].
Definition new_pi_phi : list (reso * R) :=
  [(Reso 0.77526 0.1491 0.177522453644825 (0 * PI / 180), 0);
   (Reso 1.593 0.203 0.023840592398187477 (123.82008351626034 * PI / 180), 0.33);
   (Reso 1.909 0.048 0 (0 * PI / 180), 0)].
Definition new_pi_omega : list reso :=
  [Reso 0.77526 0.1491 1 (0 * PI / 180); Reso 1.510 0.44 0.175 (124 * PI / 180); Reso 1.720 0.25 0.014 (-63 * PI / 180)].
Definition new_eta_gamma : list reso :=
  [Reso 0.77526 0.1491 0.0861 (0 * PI / 180); Reso 0.78284 0.00868 0.00824 (11.3 * PI / 180);
   Reso 1.01952 0.00421 0.0158 (170 * PI / 180); Reso 1.465 0.40 0.0147 (61 * PI / 180);
   Reso 1.70 0.30 0 (0 * PI / 180)].
(** _pi_pi.py 64-103: masses, widths and couplings of the rho resonances; nmax >= 6 *)
Definition overwrite {A} (first all : list A) : list A := first ++ skipn (length first) all.
Definition tower (m0 : R) (nmax : nat) : list R := map (fun n => m0 * sqrt (1 + 2 * INR n)) (seq 0 nmax).
Definition cresos (ms ws : list R) (cs : list cplx) : list creso :=
  map (fun x => CReso (fst (fst x)) (snd (fst x)) (snd x)) (combine (combine ms ws) cs).
Definition new_pi_pi (gamma : R -> R) (nmax : nat) : list creso :=
  let rho_wgt := [cscale 1 (cis 0); cscale 1 (cis 0); cscale 0.59 (cis (-2.2)); cscale 0.048 (cis (-2.0));
                  cscale 0.40 (cis (-2.9)); cscale 0.43 (cis 1.19)] in
  let coup := 1.087633403691967 :: tl (dual_coups gamma 2.148 nmax) in
  let masses := overwrite [0.77337; 1.490; 1.870; 2.12; 2.321; 2.567] (tower 0.77337 nmax) in
  let widths := overwrite [0.1471; 0.429; 0.357; 0.3; 0.444; 0.491] (map (Rmult (0.1471 / 0.77337)) masses) in
  cresos masses widths (pipi_couplings rho_wgt (map (fun x => (x, 0)) coup)).
(** _k_k.py 120-167 with zero phases; nmax > len(magnitudes) *)
Definition new_kk (gamma beta_of : R -> R) (masses widths mags : list R) (gam : option R) (nmax : nat) : list creso :=
  let wgt := map (fun a => cscale a (cis 0)) mags in
  let coup := map (fun x => (x, 0)) (dual_coups gamma (beta_of (hd 0 mags)) nmax) in
  let mass := overwrite masses (tower (hd 0 masses) nmax) in
  let width := overwrite widths (map (fun m => m * match gam with None => hd 0 widths / hd 0 masses | Some g => g end) mass) in
  cresos mass width (kk_couplings wgt coup).
(** _k_k.py 43-82, 256-257 and 290-333 *)
Definition new_kk_rho (gamma beta_of : R -> R) : nat -> list creso :=
  new_kk gamma beta_of [0.77549; 1.5206995754050117; 1.7409719246639341; 1.9922811314327789]
    [0.1494; 0.21341728317817743; 0.08412224414791908; 0.2899733272437917]
    [1.1148916618504967; -0.050374779737077324; -0.014908906283692132; -0.03902475997619905; -0.038341465215871416] None.
Definition new_kk_omega (gamma beta_of : R -> R) : nat -> list creso :=
  new_kk gamma beta_of [0.78265; 1.4144344268685891; 1.655375231284883] [0.00849; 0.0854413887755723; 0.16031760444832305]
    [1.3653229680598022; -0.02775156567495144; -0.32497165559032715; 1.3993153161869765] (Some 0.5).
Definition new_kk_phi (gamma beta_of : R -> R) : nat -> list creso :=
  new_kk gamma beta_of [1.0194209171596993; 1.594759278457624; 2.156971341201067]
    [0.004252653332329334; 0.028741821847408196; 0.6737556174184005]
    [0.965842498579515; -0.002379766320723148; -0.1956211640216197; 0.16527771485190898] (Some 0.2).
(** The private form factors of the new classes with their default fits at [q] in GeV.  _pi_pi.py 45-49 (rho-omega
    mixing), _pi_gamma.py 68-81; two neutral kaons are split as VffModel needs it *)
Definition new_kk_part (gamma beta_of : R -> R) (nmax : nat) (c : quarks) (phi : bool) (q : R) : cplx :=
  let rho := new_kk_rho gamma beta_of nmax in
  let omega := new_kk_omega gamma beta_of nmax in
  let phis := new_kk_phi gamma beta_of nmax in
  if phi then kk_ff true false (0.001 * 497.611) [] [] phis (q ^ 2) c else kk_ff true false (0.001 * 497.611) rho omega [] (q ^ 2) c.
Definition new_core (gamma beta_of : R -> R) (nmax_pi nmax_k : nat) (c : quarks) (st : two_body_state) (q : R) : cplx :=
  let s := q ^ 2 in
  match st with
  | S_PiPi => pi_pi_ff false (new_pi_pi gamma nmax_pi) 0.7824 0.00833 (cscale 0.00187 (cis 0.106)) s c
  | S_Pi0Pi0 => pi_pi_ff true (new_pi_pi gamma nmax_pi) 0.7824 0.00833 (cscale 0.00187 (cis 0.106)) s c
  | S_KK | S_K0K0 =>
      kk_ff false true (0.001 * 493.677) (new_kk_rho gamma beta_of nmax_k) (new_kk_omega gamma beta_of nmax_k)
        (new_kk_phi gamma beta_of nmax_k) s c
  | S_PiGamma =>
      pi_gamma_ff 0.09266 0.007594981126020603 1 0.8846540224221084 (-0.06460651106718258)
        (0.77526, 0.1491) (0.78265, 0.00849) (1.01946, 0.004247)
        match alpha_em s with Some a => a | None => 0 end q c
  | S_EtaGamma => eta_gamma_ff new_eta_gamma s c
  | S_PiPhi => pi_phi_ff new_pi_phi s c
  | S_EtaPhi => eta_phi_ff new_eta_phi s c
  | S_EtaOmega => eta_omega_ff new_eta_omega s c
  | S_PiOmega => pi_omega_ff 15.9 5.06325 (0.001 * 782.66) new_pi_omega s c
  end.
(** The method [width] of the two-body classes of the new tree *)
Definition new_width (gamma beta_of : R -> R) (nmax_pi nmax_k : nat) (c : quarks) (st : two_body_state) (mv : arg) : res arg :=
  tb_width new_masses (new_core gamma beta_of nmax_pi nmax_k c) (new_kk_part gamma beta_of nmax_k c false)
    (new_kk_part gamma beta_of nmax_k c true) st mv.
(** _base.py 183-206 at one energy: the array form of integrated_form_factor is what [_cross_section] calls *)
Definition new_cross_section (gamma beta_of : R -> R) (nmax_pi nmax_k : nat) (c : quarks) (st : two_body_state)
    (q mx mv gvxx wv : R) : onum :=
  let j x := match iff_array new_masses (new_core gamma beta_of nmax_pi nmax_k c) (new_kk_part gamma beta_of nmax_k c false)
                     (new_kk_part gamma beta_of nmax_k c true) st [x] with Ret [y] => y | _ => 0 end in
  base_cross_section (tb_threshold new_masses st) j q mx mv gvxx wv.

(** _pi_pi_pi0.py 100-119, _pi_pi_eta.py 68-71, _pi_pi_etap.py 80-83, _pi_pi_omega.py 48-55 *)
Definition new_pi3 : pi3_fit :=
  Pi3Fit [(0.7824, 0.00869, 18.20); (1.01924, 0.00414, -0.87); (1.375, 0.250, -0.77); (1.631, 0.245, -1.12)]
    [(0.77609, 0.14446, 0); (1.465, 0.31, -0.72); (1.7, 0.235, -0.59)] [(0.77609, 0.14446); (1.7, 0.26)]
    0.78259 0.00849 3.768 0.185 (-0.1).
Definition new_pi_pi_eta : list reso :=
  [Reso 0.77549 0.1494 1 0; Reso 1.54 0.356 0.326 3.14; Reso 1.76 0.113 0.0115 3.14; Reso 2.15 0.32 0 0].
Definition new_pi_pi_etap : list reso :=
  [Reso 0.77549 0.1494 1 0; Reso 1.54 0.356 0 PI; Reso 1.76 0.113 0 PI; Reso 2.11 0.176 0.02 PI].
Definition new_pi_pi_omega : list reso :=
  [Reso 0.783 0.00849 0 0; Reso 1.420 0.315 0 PI; Reso 1.6608543573197 0.3982595005228462 2.728870588760009 0].
Definition new_fpi : R := 0.001 * 92.2138.
(** The public methods form_factor at MeV: _pi_pi_eta.py 154-160 and _pi_pi_etap.py 158-161 above the
    threshold, _pi_pi_omega.py 107, _pi_k_k.py 209-213 *)
Definition new_pi_pi_eta_mev (q s : R) (c : quarks) : cplx :=
  cscale (1 / 1000000000)
    (pi_pi_eta_ff (1 / (4 * sqrt 3 * PI ^ 2 * new_fpi ^ 3)) new_pi_pi_eta (q * (1 / 1000)) (s * (1 / 1000000)) c).
Definition new_pi_pi_etap_mev (q s : R) (c : quarks) : cplx :=
  cscale (1 / 1000000000)
    (pi_pi_eta_ff (sqrt 2 / (4 * sqrt 3 * PI ^ 2 * new_fpi ^ 3)) new_pi_pi_etap (q * (1 / 1000)) (s * (1 / 1000000)) c).
Definition new_pi_pi_omega_mev (q : R) (c : quarks) : cplx := pi_pi_omega_ff new_pi_pi_omega (q * (1 / 1000)) c.
Definition new_pikk_mev (st : pikk_state) (q s t : R) (c : quarks) : cplx :=
  let q := 1 / 1000 * q in
  let s := 1 / 1000000 * s in
  let t := 1 / 1000000 * t in
  let g := 5.37392360229 in
  cscale (1 / 1000000000)
    match st with
    | Pi0K0K0 => pi0_k0_k0_ff g iso_scalar_fit iso_vector_fit (0.001 * 497.611) (0.001 * 134.9768) q s t c
    | Pi0KK => pi0_k_k_ff g iso_scalar_fit iso_vector_fit (0.001 * 493.677) (0.001 * 134.9768) q s t c
    | PiKK0 => pi_k_k0_ff g iso_scalar_fit iso_vector_fit (0.001 * 497.611) (0.001 * 493.677) (0.001 * 139.57039) q s t c
    end.
(** The masses of the final states in MeV: _pi_k_k.py 592, 632, 672 *)
Definition new_pikk_masses (st : pikk_state) : R * R * R :=
  match st with
  | Pi0K0K0 => (497.611, 497.611, 134.9768)
  | Pi0KK => (493.677, 493.677, 134.9768)
  | PiKK0 => (497.611, 493.677, 139.57039)
  end.
(** The widths, _base.py 150-161 at one energy with _three_body.py 549-569 and 850-873: _pi_pi_eta.py 65 and 188,
    _pi_pi_etap.py 72-74 the same, _pi_pi_omega.py 64-68 and 136-137 *)
Definition new_pieta_width (quad : (R -> R) -> R -> R -> R) (q : R) (c : quarks) : R :=
  0.5 * q * ppp2_integrated quad 547.862 139.57039 139.57039 (fun q s => cabs2 (new_pi_pi_eta_mev q s c)) q.
Definition new_pietap_width (quad : (R -> R) -> R -> R -> R) (q : R) (c : quarks) : R :=
  0.5 * q * ppp2_integrated quad 957.78 139.57039 139.57039 (fun q s => cabs2 (new_pi_pi_etap_mev q s c)) q.
Definition new_piomega_width (quad : (R -> R) -> R -> R -> R) (neutral : bool) (q : R) (c : quarks) : R :=
  let f2 := cabs2 (new_pi_pi_omega_mev q c) in
  0.5 * q * (if neutral then 0.5 * ppv_integrated quad (782.66, 134.9768, 134.9768) f2 q
             else 1 * ppv_integrated quad (782.66, 139.57039, 139.57039) f2 q).
(** The widths of the old tree with its fits: pi_pi_eta.py 72-119, pi_pi_etap.py 57-94 and pi_pi_omega.py 32-73 *)
Definition old_pieta_width (quad : (R -> R) -> R -> R -> R) (mv : R) (c : quarks) : R :=
  pieta_width quad par_meta (fun cme s => cabs2 (opi_pi_eta cme s (gu c) (gd c))) mv.
Definition old_pietap_width (quad : (R -> R) -> R -> R -> R) (mv : R) (c : quarks) : R :=
  pieta_width quad par_metap (fun cme s => cabs2 (opi_pi_etap cme s (gu c) (gd c))) mv.
Definition old_piomega_width (quad : (R -> R) -> R -> R -> R) (neutral : bool) (mv : R) (c : quarks) : R :=
  piomega_width quad (fun cme => cabs2 (opi_pi_omega cme (gu c) (gd c))) (if neutral then 0 else 1)%Z mv.
