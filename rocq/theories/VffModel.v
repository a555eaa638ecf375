(** Model of the vector form factors, hazma/form_factors/vector: the common width and cross section of
    _base.py, the Lorentz structures and phase-space integrals of _two_body.py and _three_body.py, the
    Gounaris-Sakurai functions of _utils.py, the running coupling of _alpha.py and the calling contract of
    the two-body form factors.

    Real numbers instead of floats.  The fits themselves (sums of resonances) are a parameter.  Where a
    formula can produce NaN or an infinity the result is an [option R] and [None] stands for any value
    that is not finite. *)
From Coq Require Import Reals Bool List.
From Verif Require Import PyBase RamboModel KinModel.
Import ListNotations.
Local Open Scope R_scope.

(** * Numbers that may not be finite *)
Definition onum : Type := option R.
Definition oret (x : R) : onum := Some x.
Definition obind (a : onum) (f : R -> onum) : onum := match a with Some x => f x | None => None end.
Notation "'let?' x ':=' a 'in' b" := (obind a (fun x => b)) (at level 200, x name, a at level 100, b at level 200).
(** np.sqrt, division and np.log: NaN or infinite outside their domains *)
Definition osqrt (x : R) : onum := if Rlt_dec x 0 then None else Some (sqrt x).
Definition odiv (x y : R) : onum := if Req_EM_T y 0 then None else Some (x / y).
Definition oln (x : R) : onum := if Rlt_dec 0 x then Some (ln x) else None.

(** * _base.py *)
(** _base.py 84-89 *)
Definition vector_couplings_to_isospin (gvuu gvdd gvss : R) : R * R * R :=
  (3 * (gvuu + gvdd), gvuu - gvdd, - 3 * gvss).

(** Boolean-mask assignment [out[mask] = f(x[mask])] on zeros: the values [vs] are put back in order where
    [keep] holds, NumPy raises ValueError if their number differs from the number of True entries *)
Fixpoint scatter {A} (zero : A) (keep : R -> bool) (xs : list R) (vs : list A) : res (list A) :=
  match xs with
  | [] => match vs with [] => Ret [] | _ => Raise ValueError end
  | x :: r =>
      if keep x then
        match vs with
        | v :: vr => let* l := scatter zero keep r vr in Ret (v :: l)
        | [] => Raise ValueError
        end
      else let* l := scatter zero keep r vs in Ret (zero :: l)
  end.

(** A complex number, and np.abs(z) ** 2 *)
Definition cplx : Type := R * R.
Definition cabs2 (z : cplx) : R := fst z ^ 2 + snd z ^ 2.
Definition cscale (a : R) (z : cplx) : cplx := (a * fst z, a * snd z).

(** q > threshold *)
Definition above (thr q : R) : bool := if Rlt_dec thr q then true else false.

(** _base.py 150-161: [_width], [iff] is the method integrated_form_factor on arrays.  A scalar is made a
    one-element array first (151), so only the array form of integrated_form_factor is called. *)
Definition base_width_array (thr : R) (iff : list R -> res (list R)) (mvs : list R) : res (list R) :=
  let kept := filter (above thr) mvs in
  match kept with
  | [] => Ret (map (fun _ => 0) mvs)
  | _ =>
      let* js := iff kept in
      scatter 0 (above thr) mvs (map (fun qj => 0.5 * fst qj * snd qj) (combine kept js))
  end.
Definition base_width (thr : R) (iff : list R -> res (list R)) (mv : arg) : res arg :=
  match mv with
  | Array l => let* w := base_width_array thr iff l in Ret (Array w)
  | Scalar x =>
      let* w := base_width_array thr iff [x] in
      match w with y :: _ => Ret (Scalar y) | [] => Raise IndexError end
  end.

(** _base.py 195-201: the factor in front of the integrated form factor *)
Definition cs_factor (q mx mv gvxx wv : R) : onum :=
  let s := q ^ 2 in
  let? root := osqrt (s - 4 * mx ^ 2) in
  let? pre := odiv (gvxx ^ 2 * (s + 2 * mx ^ 2)) (root * ((s - mv ^ 2) ^ 2 + (mv * wv) ^ 2)) in
  Some (pre * 0.5 * q).
(** _base.py 188-206: [_cross_section] at one energy; [j] is the integrated form factor there *)
Definition base_cross_section (thr : R) (j : R -> R) (q mx mv gvxx wv : R) : onum :=
  if Rlt_dec thr q then let? pre := cs_factor q mx mv gvxx wv in Some (pre * j q) else Some 0.
(** _pi_pi_pi_pi.py 857-871: the four-pion classes have no threshold of their own *)
Definition four_body_cross_section (j : R -> R) (q mx mv gvxx wv : R) : onum :=
  let? pre := cs_factor q mx mv gvxx wv in Some (pre * j q).

(** * _two_body.py *)
(** 68-71, 100-103, 129-132 *)
Definition lorentz_pp (m1 m2 q : R) : R := let s := q ^ 2 in (s - 2 * m1 ^ 2 - 2 * m2 ^ 2) / (3 * s).
Definition lorentz_pa (m q : R) : R := let s := q ^ 2 in (s - m ^ 2) ^ 2 / (6 * s).
Definition lorentz_pv (mp mv q : R) : R :=
  let s := q ^ 2 in (s - (mp - mv) ^ 2) * (s - (mp + mv) ^ 2) / (6 * s).

(** The two-body states.  [PiOmega] is pi0 omega, the state behind pi0 pi0 gamma *)
Inductive two_body_state : Type :=
| S_PiPi | S_Pi0Pi0 | S_KK | S_K0K0 | S_PiGamma | S_EtaGamma | S_PiPhi | S_EtaPhi | S_EtaOmega | S_PiOmega.

(** The masses in MeV (parameters.py) *)
Record vff_masses : Type := MkVffMasses {
  v_mpi : R; v_mpi0 : R; v_mk : R; v_mk0 : R; v_meta : R; v_momega : R; v_mphi : R }.

Section TwoBody.
Variable M : vff_masses.

(** fsp_masses: _pi_pi.py 141-146, _k_k.py 360-363, _pi_gamma.py 65, _eta_gamma.py 61, _pi_phi.py 70,
    _eta_phi.py 57, _eta_omega.py 60, _pi_omega.py 65 *)
Definition tb_masses (st : two_body_state) : R * R :=
  match st with
  | S_PiPi => (v_mpi M, v_mpi M)
  | S_Pi0Pi0 => (v_mpi0 M, v_mpi0 M)
  | S_KK => (v_mk M, v_mk M)
  | S_K0K0 => (v_mk0 M, v_mk0 M)
  | S_PiGamma => (v_mpi0 M, 0)
  | S_EtaGamma => (v_meta M, 0)
  | S_PiPhi => (v_mpi0 M, v_mphi M)
  | S_EtaPhi => (v_meta M, v_mphi M)
  | S_EtaOmega => (v_meta M, v_momega M)
  | S_PiOmega => (v_mpi0 M, v_momega M)
  end.
Definition tb_threshold (st : two_body_state) : R := fst (tb_masses st) + snd (tb_masses st).

Definition tb_lorentz (st : two_body_state) (q : R) : R :=
  let '(m1, m2) := tb_masses st in
  match st with
  | S_PiPi | S_Pi0Pi0 | S_KK | S_K0K0 => lorentz_pp m1 m2 q
  | S_PiGamma | S_EtaGamma => lorentz_pa m1 q
  | S_PiPhi | S_EtaPhi | S_EtaOmega | S_PiOmega => lorentz_pv m1 m2 q
  end.

(** The factor 1e-3 applied inside the mask (_eta_gamma.py 169) *)
Definition scale_inside (st : two_body_state) : R := match st with S_EtaGamma => 1 / 1000 | _ => 1 end.
(** The factor 1e-3 applied to an array result only (_pi_gamma.py 197, _eta_omega.py 151, _eta_phi.py 146,
    _pi_omega.py 194, _pi_phi.py 193); the others return [ff] (_pi_pi.py 225, _k_k.py 490,
    _eta_gamma.py 174) *)
Definition scale_array (st : two_body_state) : R :=
  match st with S_PiGamma | S_EtaOmega | S_EtaPhi | S_PiOmega | S_PiPhi => 1 / 1000 | _ => 1 end.

(** [core st q] is the private form factor at [q] in GeV for some couplings; it acts on each energy alone,
    except for two neutral kaons: [kk_rest] and [kk_phi] are the sum of the rho and omega terms and the sum
    of the phi terms, and _k_k.py 443-447 multiplies row 0 of [phi_terms], which is the first energy of the
    array, by 1.055 *)
Variable core : two_body_state -> R -> cplx.
Variables kk_rest kk_phi : R -> cplx.
Definition cadd (a b : cplx) : cplx := (fst a + fst b, snd a + snd b).
Definition core_array (st : two_body_state) (qs : list R) : list cplx :=
  match st with
  | S_K0K0 =>
      match qs with
      | [] => []
      | q :: r =>
          cadd (kk_rest q) (cscale (1055 / 1000) (kk_phi q)) :: map (fun q => cadd (kk_rest q) (kk_phi q)) r
      end
  | _ => map (core st) qs
  end.

(** _pi_pi.py 216-225, _k_k.py 480-490, _pi_gamma.py 187-197, _eta_gamma.py 164-174, _eta_omega.py 141-151,
    _eta_phi.py 136-146, _pi_omega.py 182-194, _pi_phi.py 181-193: the array before the return *)
Definition ff_masked (st : two_body_state) (qs : list R) : res (list cplx) :=
  let qq := map (fun q => q * (1 / 1000)) qs in
  let keep := above (1 / 1000 * tb_threshold st) in
  scatter (0, 0) keep qq (map (cscale (scale_inside st)) (core_array st (filter keep qq))).
Inductive carg : Type := CScalar (z : cplx) | CArray (l : list cplx).
Definition form_factor (st : two_body_state) (q : arg) : res carg :=
  match q with
  | Scalar x =>
      let* ff := ff_masked st [x] in
      match ff with z :: _ => Ret (CScalar z) | [] => Raise IndexError end
  | Array l =>
      let* ff := ff_masked st l in Ret (CArray (map (cscale (scale_array st)) ff))
  end.

(** _two_body.py 38-43; the methods integrated_form_factor of the classes return it unchanged *)
Definition integrated_form_factor (st : two_body_state) (q : arg) : res arg :=
  let '(m1, m2) := tb_masses st in
  let* ff := form_factor st q in
  let value x z := two_body_phase_space_prefactor x m1 m2 * tb_lorentz st x * cabs2 z in
  match q, ff with
  | Scalar x, CScalar z => Ret (Scalar (value x z))
  | Array l, CArray zs => Ret (Array (map (fun xz => value (fst xz) (snd xz)) (combine l zs)))
  | _, _ => Raise ValueError
  end.
Definition iff_array (st : two_body_state) (qs : list R) : res (list R) :=
  let* a := integrated_form_factor st (Array qs) in
  match a with Array l => Ret l | Scalar _ => Raise ValueError end.
(** The methods [width] of the two-body classes, all [self._width(mv=mv, couplings=couplings)] *)
Definition tb_width (st : two_body_state) (mv : arg) : res arg :=
  base_width (tb_threshold st) (iff_array st) mv.
End TwoBody.

(** * _three_body.py *)
(** 22-35 *)
Definition lorentz_ppp (m1 m2 m3 q s t : R) : R :=
  let q2 := q ^ 2 in
  let num :=
    - (m1 ^ 4 * m2 ^ 2)
    + m2 ^ 2 * (q2 - s) * (m3 ^ 2 - t)
    - (m3 ^ 2 + q2 - s - t) * (m3 ^ 2 * q2 - s * t)
    + m1 ^ 2 * (- (m2 ^ 4) + (m3 ^ 2 - s) * (q2 - t) + m2 ^ 2 * (m3 ^ 2 + q2 + s + t)) in
  num / (12 * q ^ 2).
(** 498-518: the form factor depends on [s] only, [ff2] is its squared modulus.  np.sqrt of p1 * p2 is
    taken as it is; the callers stay inside phase space. *)
Definition ppp2_partial (m1 m2 m3 : R) (ff2 : R -> R -> R) (q s : R) : R :=
  let pre := 1 / (16 * (2 * PI) ^ 3 * q ^ 2) in
  let p1 := kallen_lambda s (q ^ 2) (m1 ^ 2) in
  let p2 := kallen_lambda s (m2 ^ 2) (m3 ^ 2) in
  let p12 := sqrt (p1 * p2) in
  pre * ff2 q s * p12 ^ 3 / (72 * q ^ 2 * s ^ 2).
(** 549-569 at one energy; [quad f a b] is integrate.quad *)
Definition ppp2_integrand (m1 m2 m3 : R) (ff2 : R -> R -> R) (q x : R) : R :=
  ppp2_partial m1 m2 m3 ff2 q (q ^ 2 * (1 - x + (m1 / q) ^ 2)).
Definition ppp2_limits (m1 m2 m3 q : R) : R * R :=
  let mu1 := m1 / q in let mu2 := m2 / q in let mu3 := m3 / q in
  (2 * mu1, mu1 ^ 2 + (1 - (mu2 + mu3) ^ 2)).
Definition ppp2_integrated (quad : (R -> R) -> R -> R -> R) (m1 m2 m3 : R) (ff2 : R -> R -> R) (q : R) : R :=
  if Rlt_dec (m1 + m2 + m3) q then
    q ^ 2 * quad (ppp2_integrand m1 m2 m3 ff2 q) (fst (ppp2_limits m1 m2 m3 q)) (snd (ppp2_limits m1 m2 m3 q))
  else 0.

(** 713-718: unpacks fsp_masses as m1, m2, mv *)
Definition lorentz_ppv (fsp : R * R * R) (q s t : R) : R :=
  let '(m1, m2, mv) := fsp in
  (2 * mv ^ 2 * q ^ 2 + (- m1 ^ 2 - m2 ^ 2 + s + t) ^ 2 / 4) / (3 * mv ^ 2 * q ^ 4).
(** 776-802: unpacks fsp_masses as mv, m1, m2; [ff2] is the squared modulus of the form factor *)
Definition ppv_partial (fsp : R * R * R) (ff2 : R) (q s : R) : R :=
  let '(mv, m1, m2) := fsp in
  let muv := mv / q in let mu1 := m1 / q in let mu2 := m2 / q in
  let x := 1 - s / q ^ 2 + muv ^ 2 in
  let p1 := kallen_lambda 1 (muv ^ 2) (1 - x + muv ^ 2) in
  let p2 := kallen_lambda (mu1 ^ 2) (mu2 ^ 2) (1 - x + muv ^ 2) in
  let num := q ^ 2 * (x ^ 2 + 8 * muv ^ 2) * sqrt (Rmax (p1 * p2) 0) in
  let den := 1536 * PI ^ 3 * mv ^ 2 * s in
  num / den * ff2.
(** 840-848 *)
Definition ppv_integrand (fsp : R * R * R) (q x : R) : R :=
  let '(mv, m1, m2) := fsp in
  let muv := mv / q in let mu1 := m1 / q in let mu2 := m2 / q in
  let xx := 1 - x + muv ^ 2 in
  let p1 := kallen_lambda 1 (muv ^ 2) xx in
  let p2 := kallen_lambda (mu1 ^ 2) (mu2 ^ 2) xx in
  (x ^ 2 + 8 * muv ^ 2) * sqrt (p1 * p2) / xx.
(** 850-873 at one energy *)
Definition ppv_integrated (quad : (R -> R) -> R -> R -> R) (fsp : R * R * R) (ff2 : R) (q : R) : R :=
  let '(mv, m1, m2) := fsp in
  let muv := mv / q in let mu1 := m1 / q in let mu2 := m2 / q in
  if Rlt_dec (mv + m1 + m2) q then
    let pre := ff2 / (1536 * PI ^ 3 * muv ^ 2) in
    pre * quad (ppv_integrand fsp q) (2 * muv) (muv ^ 2 + (1 - (mu1 + mu2) ^ 2))
  else 0.
(** 901-906, 908-921, 923-937 *)
Definition djde1 (fsp : R * R * R) (ff2 q e : R) : R :=
  let '(mv, m1, m2) := fsp in
  let muv := mv / q in let mu1 := m1 / q in let mu2 := m2 / q in
  let pre := ff2 / (1536 * PI ^ 3 * muv ^ 2) in
  let x := 2 * e / q in
  let xx := 1 - x + muv ^ 2 in
  let p1 := kallen_lambda 1 (muv ^ 2) xx in
  let p2 := kallen_lambda (mu1 ^ 2) (mu2 ^ 2) xx in
  pre * (x ^ 2 + 8 * muv ^ 2) * sqrt (p1 * p2) / xx.
Definition djde2 (fsp : R * R * R) (q e : R) : R :=
  let '(mv, m1, m2) := fsp in
  let muv := mv / q in let mu1 := m1 / q in let mu2 := m2 / q in
  let x := 2 * e / q in
  let xx := 1 - x + mu1 ^ 2 in
  let p1 := kallen_lambda 1 (mu1 ^ 2) xx in
  let p2 := kallen_lambda (mu2 ^ 2) (muv ^ 2) xx in
  let p12 := p1 * p2 in
  (sqrt p12
   * (96 * (1 - x + mu1 ^ 2) ^ 2 * muv ^ 2
      + 3 * (-2 + x) ^ 2 * (1 - x + mu1 ^ 2 - mu2 ^ 2 + muv ^ 2) ^ 2
      + p12)) / (18432 * PI ^ 3 * xx ^ 3 * muv ^ 2).
Definition djde3 (fsp : R * R * R) (q e : R) : R :=
  let '(mv, m1, m2) := fsp in
  let muv := mv / q in let mu1 := m1 / q in let mu2 := m2 / q in
  let x := 2 * e / q in
  let xx := 1 - x + mu2 ^ 2 in
  let p1 := kallen_lambda 1 (mu2 ^ 2) xx in
  let p2 := kallen_lambda (mu1 ^ 2) (muv ^ 2) xx in
  let p12 := p1 * p2 in
  (sqrt p12
   * (96 * (1 - x + mu2 ^ 2) ^ 2 * muv ^ 2
      + 3 * (-2 + x) ^ 2 * (1 - x - mu1 ^ 2 + mu2 ^ 2 + muv ^ 2) ^ 2
      + p12)) / (1 - x + mu2 ^ 2) ^ 3.

(** np.linspace(lo, hi, n + 1) *)
Definition linspace (lo hi : R) (n : nat) : list R :=
  map (fun i => lo + INR i * ((hi - lo) / INR n)) (seq 0 (S n)).
(** 939-948 *)
Definition ppv_energy_distributions (fsp : R * R * R) (ff2 q : R) (nbins : nat) : res (list dist) :=
  let '(mv, m1, m2) := fsp in
  let ebins := map (fun l => linspace (fst l) (snd l) nbins) (energy_limits q [mv; m1; m2]) in
  match ebins with
  | [b0; b1; b2] =>
      let* d0 := dist_new b0 (map (djde1 fsp ff2 q) (bin_centers b0)) in
      let* d1 := dist_new b1 (map (djde2 fsp q) (bin_centers b1)) in
      let* d2 := dist_new b2 (map (djde3 fsp q) (bin_centers b2)) in
      Ret [d0; d1; d2]
  | _ => Raise IndexError
  end.
(** 977-990: the distribution of the invariant mass of the other two particles made from the energy
    distribution [d] of a particle of mass [m]; [None] are NaN probabilities, which stay NaN *)
Definition etosqrts (q m e : R) : R := q * sqrt (1 - 2 * e / q + (m / q) ^ 2).
Definition ppv_invariant_mass (q m : R) (d : dist) : res dist :=
  let sqrts := map (etosqrts q m) (bins d) in
  match probabilities d with
  | None => Ret {| bins := sqrts; centers := bin_centers sqrts; probabilities := None |}
  | Some ps =>
      dist_new sqrts (map (fun cp => 0.5 * fst cp / q * snd cp) (combine (bin_centers sqrts) ps))
  end.

(** * _utils.py *)
(** 60 and 85 *)
Definition beta2 (s m1 m2 : R) : R := Rmax ((1 - (m1 + m2) ^ 2 / s) * (1 - (m1 - m2) ^ 2 / s)) 0.
Definition beta (s m1 m2 : R) : R := sqrt (beta2 s m1 m2).
(** 118-130 *)
Definition dhhatds (mres gamma m1 m2 : R) : R :=
  let v2 := beta2 (mres ^ 2) m1 m2 in
  let v := sqrt v2 in
  let r := (m1 ^ 2 + m2 ^ 2) / mres ^ 2 in
  gamma / PI / mres / v2
    * ((3 - 2 * v2 - 3 * r) * ln ((1 + v) / (1 - v)) + 2 * v * (1 - r / (1 - v2))).
(** 167-179 *)
Definition hhat (s mres gamma m1 m2 : R) : R :=
  let vr := beta (mres ^ 2) m1 m2 in
  let v := beta s m1 m2 in
  gamma / mres / PI * s * (v / vr) ^ 3 * ln ((1 + v) / (1 - v)).
(** 223-238 at one energy *)
Definition hfun (s mres gamma m1 m2 dh hres : R) : R :=
  if Req_EM_T s 0 then
    -2 * (m1 + m2) ^ 2 / PI * gamma / mres / beta (mres ^ 2) m1 m2 ^ 3 - hres + mres ^ 2 * dh
  else hhat s mres gamma m1 m2 - hres - (s - mres ^ 2) * dh.
(** 275-287 for scalars with vr2 <> 0 *)
Definition gamma_p (s mres gamma m1 m2 : R) : R :=
  let v2 := beta2 s m1 m2 in
  let vr2 := beta2 (mres ^ 2) m1 m2 in
  sqrt s / mres * sqrt (Rmax (v2 / vr2) 0) ^ 3 * gamma.
(** 346-351: numerator, and real and imaginary part of the denominator, with the parameters that
    _pi_pi.py 105-119 computes for each resonance *)
Definition gs_hres (mres gamma m1 m2 : R) : R := hhat (mres ^ 2) mres gamma m1 m2.
Definition gs_dh (mres gamma m1 m2 : R) : R := dhhatds mres gamma m1 m2.
Definition gs_h0 (mres gamma m1 m2 : R) : R :=
  hfun 0 mres gamma m1 m2 (gs_dh mres gamma m1 m2) (gs_hres mres gamma m1 m2).
Definition gs_num (mres gamma m1 m2 : R) : R := mres ^ 2 + gs_h0 mres gamma m1 m2.
Definition gs_den (s mres gamma m1 m2 : R) : cplx :=
  (mres ^ 2 - s + hfun s mres gamma m1 m2 (gs_dh mres gamma m1 m2) (gs_hres mres gamma m1 m2),
   - (sqrt s * gamma_p s mres gamma m1 m2)).

(** * _alpha.py *)
(** 3-11 *)
Definition alpha_m_e : R := 510998928 / 10 ^ 12.
Definition alpha_m_mu : R := 1056583715 / 10 ^ 10.
Definition alpha_m_tau : R := 177682 / 10 ^ 5.
Definition alpha_m_top : R := 17321 / 10 ^ 2.
Definition alem : R := 72973525698 / 10 ^ 13.
(** 14-20: np.log1p *)
Definition hadronic (a b c s : R) : onum := let? l := oln (1 + c * s) in Some (a + b * l).
(** 23-47 at one value.  The assignments are made in the order m1, m2, m4 and the masks m1, m2 are
    disjoint; where only m3 holds the zero of line 32 remains.  [acos] is arccos, defined on [-1, 1]. *)
Definition oacos (x : R) : onum := if Rle_dec (Rabs x) 1 then Some (acos x) else None.
Definition real_pi (r : R) : onum :=
  let fvthr := 1666666666666667 / 10 ^ 15 in
  if Rlt_dec r (1 / 1000) then let? l := oln r in Some (- fvthr - l)
  else if Rlt_dec (10 ^ 6) r then
    let? beta := osqrt (4 * r - 1) in
    let? a := oacos (1 - 1 / (2 * r)) in
    Some (1 / 3 - (1 + 2 * r) * (2 - beta * a))
  else if Rlt_dec 1 (4 * r) then Some 0
  else
    let? beta := osqrt (1 - 4 * r) in
    let? l := oln (Rabs ((beta - 1) / (beta + 1))) in
    Some (1 / 3 - (1 + 2 * r) * (2 + beta * l)).
(** np.piecewise(x, [x < b1, ..., x < bn], [f1, ..., fn, default]) at one value: the functions are applied
    one after the other where their condition holds, so that of several true conditions the last one
    counts; the default is used where none holds *)
Definition piecewise (x : R) (pieces : list (R * (R -> onum))) (default : R -> onum) : onum :=
  fold_left (fun (y : onum) (bf : R * (R -> onum)) => if Rlt_dec x (fst bf) then snd bf x else y) pieces (default x).
(** 50-89 at one value *)
Definition alpha_em (s : R) : onum :=
  let eps := 1 / 10 ^ 6 in
  let aempi := alem / (3 * PI) in
  let? repigg :=
    if Rlt_dec s eps then
      let? re := odiv (alpha_m_e ^ 2) s in let? pe := real_pi re in
      let? rmu := odiv (alpha_m_mu ^ 2) s in let? pmu := real_pi rmu in
      let? rtau := odiv (alpha_m_tau ^ 2) s in let? ptau := real_pi rtau in
      let? had :=
        piecewise s
          [(9 / 100, hadronic 0 (835 / 10 ^ 5) 1); (9, hadronic 0 (238 / 10 ^ 5) (3927 / 1000));
           (10 ^ 4, hadronic (165 / 10 ^ 5) (299 / 10 ^ 5) 1)]
          (hadronic (221 / 10 ^ 5) (293 / 10 ^ 5) 1) in
      let? rtop := odiv (alpha_m_top ^ 2) s in let? ptop := real_pi rtop in
      Some (aempi * (pe + pmu + ptau) + had + aempi * ptop)
    else Some 0 in
  odiv alem (1 - repigg).
