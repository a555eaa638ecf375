(** Model of the form factor classes kept in hazma/vector_mediator/form_factors (the tree that
    VectorMediatorGeVBase in hazma/vector_mediator/_gev/base.py builds its form factors from): the
    integrals and Lorentz structures of utils.py, widths.py, cross_sections.py, form_factor.py, and the
    widths and energy distributions of pi_pi_pi0.py, pi_k_k.py, pi_pi_eta.py, pi_pi_etap.py,
    pi_pi_omega.py and four_pi.py.

    Real numbers instead of floats.  The resonance sums themselves are parameters (functions giving the
    squared modulus).  [None] stands for a value that is not finite or for a raised exception where the
    two are not told apart.  [quad f a b] is the first component of scipy.integrate.quad, [sample] the
    momenta and weights that Rambo.generate returns. *)
From Coq Require Import String ZArith Reals Bool List.
From Verif Require Import PyBase RamboModel KinModel VffModel.
Import ListNotations.
Local Open Scope R_scope.

(** * hazma/parameters.py 56, 58, 60, 62, 64, 66, 74 *)
Definition par_mpi0 : R := 134.9768.
Definition par_mpi : R := 139.57039.
Definition par_meta : R := 547.862.
Definition par_metap : R := 957.78.
Definition par_mk : R := 493.677.
Definition par_mk0 : R := 497.611.
Definition par_momega : R := 782.66.
(** utils.py 19-33 *)
Definition gev (m : R) : R := m * (1 / 1000).

(** * utils.py: integrals of rational functions *)
(** Python's [sum] of a list *)
Fixpoint osum (l : list onum) : onum :=
  match l with
  | [] => Some 0
  | a :: l => let? x := a in let? y := osum l in Some (x + y)
  end.
(** [x ** k] for an integer [k]: no number for a negative power of zero *)
Definition ozpow (x : R) (k : Z) : onum :=
  if Z.ltb k 0 then (if Req_EM_T x 0 then None else Some (powerRZ x k)) else Some (powerRZ x k).
(** utils.py 565-585; [Binomial.C] is scipy.special.binom *)
Definition integral_power_div_simple_monomial (n : nat) (z lb ub : R) : onum :=
  if Req_EM_T z 0 then
    match n with
    | O => let? r := odiv ub lb in oln r
    | S p => odiv (ub ^ p - lb ^ p) (INR p)
    end
  else
    let zu := ub - z in
    let zl := lb - z in
    let? r := odiv zu zl in
    let? l := oln r in
    let? rest := osum (map (fun k => odiv (Binomial.C n k * z ^ (n - k) * (zu ^ k - zl ^ k)) (INR k)) (seq 1 n)) in
    Some (z ^ n * l + rest).
(** utils.py 588-610 *)
Definition integral_power_div_monomial (n m : nat) (z lb ub : R) : onum :=
  if Req_EM_T z 0 then
    if Z.eqb (Z.of_nat n) (Z.of_nat m - 1) then let? r := odiv ub lb in oln r
    else
      let p := (Z.of_nat n - Z.of_nat m + 1)%Z in
      let? u := ozpow ub p in let? l := ozpow lb p in odiv (u - l) (IZR p)
  else
    let term k :=
      if Z.eqb (Z.of_nat k) (Z.of_nat m - 1) then
        let? r := odiv (ub - z) (lb - z) in let? l := oln r in Some (z ^ n * l)
      else
        let p := (Z.of_nat k - Z.of_nat m + 1)%Z in
        let? u := ozpow (ub - z) p in
        let? l := ozpow (lb - z) p in
        odiv (Binomial.C n k * z ^ (n - k) * (u - l)) (IZR p) in
    osum (map term (seq 0 (n + 1))).
(** utils.py 613-623 *)
Fixpoint poly_terms (n : nat) (cs : list R) (z lb ub : R) : list onum :=
  match cs with
  | [] => []
  | c :: cs => (let? v := integral_power_div_simple_monomial n z lb ub in Some (c * v)) :: poly_terms (S n) cs z lb ub
  end.
Definition integral_poly_div_simple_factor (cs : list R) (z lb ub : R) : onum := osum (poly_terms 0 cs z lb ub).
(** np.polynomial.Polynomial: evaluation, fromroots and deriv(1) on coefficient lists, lowest power first *)
Fixpoint np_eval (p : list R) (x : R) : R := match p with [] => 0 | c :: p => c + x * np_eval p x end.
Fixpoint np_add (p q : list R) : list R :=
  match p, q with
  | [], _ => q
  | _, [] => p
  | a :: p, b :: q => a + b :: np_add p q
  end.
Definition np_fromroots (zs : list R) : list R :=
  fold_right (fun r p => np_add (map (Rmult (- r)) p) (0 :: p)) [1] zs.
Definition np_deriv (p : list R) : list R :=
  map (fun kc => INR (fst kc) * snd kc) (combine (seq 1 (length p - 1)) (tl p)).
(** utils.py 626-640; Polynomial([]) raises ValueError *)
Definition integral_poly_div_simple_factored (cs zs : list R) (lb ub : R) : onum :=
  match cs with
  | [] => None
  | _ =>
      let den_prime := np_deriv (np_fromroots zs) in
      osum (map (fun z =>
        let? c := odiv (np_eval cs z) (np_eval den_prime z) in
        let? v := integral_poly_div_simple_factor cs z lb ub in
        Some (c * v)) zs)
  end.

(** * Lorentz structures *)
(** utils.py 462 *)
Definition msqrd_lorentz_p_p (s m1 m2 : R) : R := s - 2 * (m1 ^ 2 + m2 ^ 2).
(** utils.py 486 *)
Definition msqrd_lorentz_p_v (s mp mv : R) : R := 0.5 * kallen_lambda s (mp ^ 2) (mv ^ 2).
(** utils.py 515-529 *)
Definition msqrd_lorentz_p_p_p (s t m m1 m2 m3 : R) : R :=
  (- (m1 ^ 4 * m2 ^ 2)
   - m ^ 4 * m3 ^ 2
   + m ^ 2 * (- (m3 ^ 4) + m1 ^ 2 * (m2 ^ 2 + m3 ^ 2 - s) + m3 ^ 2 * s + m2 ^ 2 * (m3 ^ 2 - t) + m3 ^ 2 * t + s * t)
   - s * (m2 ^ 2 * (m3 ^ 2 - t) + t * (- (m3 ^ 2) + s + t))
   + m1 ^ 2 * (- (m2 ^ 4) + (- (m3 ^ 2) + s) * t + m2 ^ 2 * (m3 ^ 2 + s + t))) / 4.
(** utils.py 551-562 *)
Definition msqrd_lorentz_p_p_p_t_coeffs (s m m1 m2 m3 : R) : list R :=
  let t0 := (- ((m1 * m2 - m * m3) * (m1 * m2 + m * m3) * (- (m ^ 2) + m1 ^ 2 + m2 ^ 2 - m3 ^ 2))
             + (- m + m2) * (m + m2) * (m1 - m3) * (m1 + m3) * s) / 4 in
  let t1 := (- ((m - m1) * (m + m1) * (m2 - m3) * (m2 + m3)) + (m ^ 2 + m1 ^ 2 + m2 ^ 2 + m3 ^ 2) * s - s ^ 2) / 4 in
  let t2 := - s / 4 in
  [t0; t1; t2].
(** pi_k_k.py 135-148 *)
Definition pikk_lorentz (m1 m2 m3 s t m : R) : R :=
  (- ((m1 * m2 - m * m3) * (m1 * m2 + m * m3) * (- (m ^ 2) + m1 ^ 2 + m2 ^ 2 - m3 ^ 2))
   - (m - m2) * (m + m2) * (m1 - m3) * (m1 + m3) * s
   - (m - m1) * (m + m1) * (m2 - m3) * (m2 + m3) * t
   + (m ^ 2 + m1 ^ 2 + m2 ^ 2 + m3 ^ 2) * s * t
   - s ^ 2 * t
   - s * t ^ 2) / 4.
(** pi_pi_pi0.py 136-160 at one phase-space point; [mpi0] and [mpi] stand for the module constants,
    [f2 q2 s t u] for the squared modulus of __form_factor *)
Definition pi3_msqrd (mpi0 mpi : R) (f2 : R -> R -> R -> R -> R) (q2 : R) (ps : list vec) : res R :=
  match ps with
  | p1 :: p2 :: p3 :: _ =>
      let s := lnorm_sqr (vplus p2 p3) in
      let t := lnorm_sqr (vplus p1 p3) in
      let u := lnorm_sqr (vplus p1 p2) in
      Ret (f2 q2 s t u
           * (- (mpi ^ 4 * s)
              + mpi ^ 2 * (- (mpi0 ^ 4) - q2 ^ 2 + q2 * s + mpi0 ^ 2 * (2 * q2 + s) + 2 * s * t)
              - s * (mpi0 ^ 2 * (q2 - t) + t * (- q2 + s + t)))
           / 12)
  | _ => Raise IndexError
  end.

(** * widths.py *)
(** [x ** 1.5]: not a real number for negative [x] *)
Definition pow32 (x : R) : onum := if Rlt_dec x 0 then None else Some (x * sqrt x).
(** widths.py 33-43; [ff2] is the squared modulus of the form factor *)
Definition width_v_to_p_p (mv mass ff2 symmetry : R) : onum :=
  if Rlt_dec mv (2 * mass) then Some 0
  else
    let mu := mass / mv in
    let? b := pow32 (1 - 4 * mu ^ 2) in
    Some (symmetry / 48 / PI * mv * b * ff2).
(** widths.py 63-68 *)
Definition width_v_to_p_a (mv mass ff2 : R) : onum :=
  if Rlt_dec mv mass then Some 0
  else
    let mu := mass / mv in
    let? r := osqrt (kallen_lambda 1 (mu ^ 2) 0) in
    Some (mv * (0.5 * r) ^ 3 * ff2 / (12 * PI)).
(** widths.py 85-88 *)
Definition width_v_to_v_p (mv ff2 mvector mscalar : R) : onum :=
  if Rlt_dec mv (mvector + mscalar) then Some 0
  else
    let? r := osqrt (kallen_lambda 1 ((mvector / mv) ^ 2) ((mscalar / mv) ^ 2)) in
    Some (mv * (0.5 * r) ^ 3 * ff2 / (12 * PI)).

(** * cross_sections.py *)
(** 14-21 *)
Definition width_to_cs (cme mx mv wv : R) : onum :=
  let mux2 := (mx / cme) ^ 2 in
  let mug2 := (wv / cme) ^ 2 in
  let muv2 := (mv / cme) ^ 2 in
  let num := 1 + 2 * mux2 in
  let? r := osqrt (1 - 4 * mux2) in
  let den := (1 + (mug2 - 2) * muv2 + muv2 ^ 2) * r * cme ^ 3 in
  odiv num den.
(** 24-28 *)
Definition cross_section_x_x_to_p_p (s mx mp ff2 mv gamv : R) : onum :=
  let prop := (s - mv ^ 2) ^ 2 + (mv * gamv) ^ 2 in
  let? b := pow32 (- 4 * mp ^ 2 + s) in
  let? r := osqrt (- 4 * mx ^ 2 + s) in
  odiv (b * (2 * mx ^ 2 + s) * ff2) (48 * PI * s * r * prop).
(** 31-35 *)
Definition cross_section_x_x_to_p_a (s mx mp ff2 mv gamv : R) : onum :=
  let prop := (s - mv ^ 2) ^ 2 + mv ^ 2 * gamv ^ 2 in
  let? r := osqrt (s * (- 4 * mx ^ 2 + s)) in
  odiv ((- (mp ^ 2) + s) ^ 3 * (2 * mx ^ 2 + s) * ff2) (96 * PI * s * r * prop).
(** 38-44 *)
Definition cross_section_x_x_to_p_v (s mx mp mvec ff2 mv gamv : R) : onum :=
  let prop := (s - mv ^ 2) ^ 2 + mv ^ 2 * gamv ^ 2 in
  let? k := odiv (mp ^ 4 + (mvec ^ 2 - s) ^ 2 - 2 * mp ^ 2 * (mvec ^ 2 + s)) s in
  let? b := pow32 k in
  let? r := osqrt (- 4 * mx ^ 2 + s) in
  odiv ((2 * mx ^ 2 + s) * b * ff2) (96 * PI * r * prop * s).
(** 47-50; [ff] is the integrated form factor *)
Definition cross_section (cme mx mv gamv ff : R) : onum :=
  let s := cme ^ 2 in
  let prop := (s - mv ^ 2) ^ 2 + mv ^ 2 * gamv ^ 2 in
  let? r := osqrt (s * (s - 4 * mx ^ 2)) in
  odiv (s * ff * (s + 2 * mx ^ 2)) (prop * r).
(** form_factor.py 22-35; [width] is the method of the subclass *)
Definition ff_cross_section (width : R -> R) (cme mx mv width_v gvxx : R) : onum :=
  let mux2 := (mx / cme) ^ 2 in
  let mug2 := (width_v / cme) ^ 2 in
  let muv2 := (mv / cme) ^ 2 in
  let num := gvxx ^ 2 * (1 + 2 * mux2) in
  let? r := osqrt (1 - 4 * mux2) in
  let? c := pow32 cme in
  let den := (1 + (mug2 - 2) * muv2 + muv2 ^ 2) * r * c in
  let? f := odiv num den in
  let? fact := odiv f c in
  Some (width cme * fact).

(** * four_pi.py 446-580: form_factor, width and cross_section; [generate] is Rambo.generate followed by
    msqrd, one weight per event; the error estimates are left out *)
Definition m_pi_4pi : R := 0.13957061.
Definition m_pi0_4pi : R := 0.1349770.
Definition four_pi_masses (neutral : bool) : list R :=
  if neutral then [m_pi0_4pi; m_pi0_4pi; m_pi_4pi; m_pi_4pi] else [m_pi_4pi; m_pi_4pi; m_pi_4pi; m_pi_4pi].
Definition four_pi_form_factor (generate : R -> list R -> list R) (neutral : bool) (s : R) : onum :=
  let? r := osqrt s in
  let qq := r * (1 / 1000) in
  let masses := four_pi_masses neutral in
  if Rlt_dec qq (total masses) then Some 0 else Some (mean (generate qq masses)).
Definition four_pi_width (generate : R -> list R -> list R) (neutral : bool) (mv : R) : onum :=
  let? ff := four_pi_form_factor generate neutral (mv ^ 2) in
  Some (ff * mv / 2).
Definition four_pi_cross_section (generate : R -> list R -> list R) (neutral : bool) (cme mx mv widthv : R) : onum :=
  if Rlt_dec cme (2 * mx) then Some 0
  else
    let s := cme ^ 2 in
    let? ff := four_pi_form_factor generate neutral s in
    let prop := (s - mv ^ 2) ^ 2 + mv ^ 2 * widthv ^ 2 in
    let? r := osqrt (s * (s - 4 * mx ^ 2)) in
    let? pre := odiv (s * (s + 2 * mx ^ 2)) (prop * r) in
    Some (pre * ff).

(** * Three-body widths *)
(** pi_pi_pi0.py 162-216: __integrated_form_factor, integrated_form_factor and width; [avg q] is the average
    of weight times __msqrd over the events generated at the energy [q] (GeV) *)
Definition pi3_integrated_gev (avg : R -> R) (q2 : R) : R :=
  if Rlt_dec q2 (gev par_mpi0 + 2 * gev par_mpi) then 0 else avg (sqrt q2).
Definition pi3_integrated (avg : R -> R) (q2 : R) : R := pi3_integrated_gev avg (q2 * (1 / 10 ^ 6)) * 10 ^ 6.
Definition pi3_width (avg : R -> R) (mv : R) : R :=
  if Rlt_dec mv (2 * par_mpi + par_mpi0) then 0 else pi3_integrated avg (mv ^ 2) / (2 * mv).

(** pi_k_k.py 153-181: _integrated_form_factor, integrated_form_factor and width; [avg m] is the average of
    weight times _integrand at the energy [m] (GeV) *)
Definition pikk_integrated_gev (fsp : R * R * R) (avg : R -> R) (m : R) : R :=
  let '(m1, m2, m3) := fsp in
  if Rlt_dec m (m1 + m2 + m3) then 0 else avg m.
Definition pikk_integrated (fsp : R * R * R) (avg : R -> R) (m : R) : R :=
  let '(m1, m2, m3) := fsp in
  if Rlt_dec m (m1 + m2 + m3) then 0 else pikk_integrated_gev fsp avg (m * (1 / 1000)) * 10 ^ 6.
Definition pikk_width (fsp : R * R * R) (avg : R -> R) (m : R) : R := pikk_integrated fsp avg m / (6 * m).

(** pi_pi_eta.py 72-119 and pi_pi_etap.py 57-94, the same text with another mass [meta] (MeV); [f2 cme s] is
    the squared modulus of form_factor.  [(k1 * k2) ** 1.5] is real inside the integration region. *)
Definition pieta_integrand (mpi meta : R) (f2 : R -> R -> R) (cme s : R) : R :=
  let k1 := kallen_lambda s (cme ^ 2) (meta ^ 2) in
  let k2 := kallen_lambda s (mpi ^ 2) (mpi ^ 2) in
  (k1 * k2 * sqrt (k1 * k2)) * f2 cme s / (72 * s ^ 2).
Definition pieta_integrated_gev (quad : (R -> R) -> R -> R -> R) (meta : R) (f2 : R -> R -> R) (cme : R) : R :=
  let mpi := gev par_mpi in
  let meta := gev meta in
  if Rlt_dec cme (2 * mpi + meta) then 0
  else
    let jac := 1 / (128 * PI ^ 3 * cme ^ 2) in
    jac * quad (pieta_integrand mpi meta f2 cme) ((2 * mpi) ^ 2) ((cme - meta) ^ 2).
Definition pieta_width (quad : (R -> R) -> R -> R -> R) (meta : R) (f2 : R -> R -> R) (mv : R) : R :=
  if Rlt_dec mv (2 * par_mpi + meta) then 0
  else pieta_integrated_gev quad meta f2 (mv * (1 / 1000)) * 10 ^ 6 / (2 * mv).

(** pi_pi_omega.py 32-73; [f2 cme] is the squared modulus of __form_factor *)
Definition piomega_integrand (mup muo : R) (f2 z : R) : R :=
  let k1 := kallen_lambda z (mup ^ 2) (mup ^ 2) in
  let k2 := kallen_lambda 1 z (muo ^ 2) in
  let p := (1 + 10 * muo ^ 2 + muo ^ 4 - 2 * (1 + muo ^ 2) * z + z ^ 2) / z in
  p * sqrt (k1 * k2) * f2.
Definition piomega_integrated (quad : (R -> R) -> R -> R -> R) (f2 : R -> R) (imode : Z) (cme : R) : R :=
  let mup := gev par_mpi / cme in
  let muo := gev par_momega / cme in
  let jac := cme ^ 2 / (1536 * PI ^ 3 * muo ^ 2) in
  let res := jac * quad (piomega_integrand mup muo (f2 cme)) ((2 * mup) ^ 2) ((1 - muo) ^ 2) in
  if Z.eqb imode 0 then res / 2 else res.
Definition piomega_form_factor (quad : (R -> R) -> R -> R -> R) (f2 : R -> R) (imode : Z) (cme : R) : R :=
  piomega_integrated quad f2 imode (cme * (1 / 1000)) * 10 ^ 6 / cme ^ 2.
Definition piomega_width (quad : (R -> R) -> R -> R -> R) (f2 : R -> R) (imode : Z) (mv : R) : R :=
  if Rlt_dec mv (2 * par_mpi + par_momega) then 0 else piomega_form_factor quad f2 imode mv * mv / 2.

(** * Energy distributions *)
(** pi_pi_pi0.py 252-256 and four_pi.py 605-610: the conversion of one distribution *)
Definition convert_dist (d : dist) : res dist :=
  match probabilities d with
  | None => Ret {| bins := map (Rmult (1 / 1000)) (bins d); centers := bin_centers (map (Rmult (1 / 1000)) (bins d));
                   probabilities := None |}
  | Some ps => dist_new (map (Rmult (1 / 1000)) (bins d)) (map (Rmult (10 ^ 3)) ps)
  end.
(** hazma/phase_space/_rambo.py 581-582: the bins of Rambo.energy_distributions *)
Definition rambo_bins (cme : R) (masses : list R) (nbins : nat) : list (list R) :=
  map (fun l => linspace (fst l) (snd l) nbins) (energy_limits cme masses).
(** pi_k_k.py 183-200: the bins of energy_distributions(m) *)
Definition pikk_bins (fsp : R * R * R) (m : R) (nbins : nat) : list (list R) :=
  let '(m1, m2, m3) := fsp in rambo_bins m [m1; m2; m3] nbins.
(** pi_pi_eta.py 138-144; outside the region 0, inside it the power 1.5 is real *)
Definition pieta_edist (cme e m1 m2 m3 : R) : R :=
  let s := cme ^ 2 + m1 ^ 2 - 2 * cme * e in
  if Rle_dec s ((m2 + m3) ^ 2) then 0
  else if Rle_dec ((cme - m1) ^ 2) s then 0
  else
    let k1 := kallen_lambda s (m1 ^ 2) (cme ^ 2) in
    let k2 := kallen_lambda s (m2 ^ 2) (m3 ^ 2) in
    (k1 * k2 * sqrt (k1 * k2)) / s ^ 2.
(** pi_pi_eta.py 146-155: the values first, the energies second *)
Definition pieta_make_dist (quad : (R -> R) -> R -> R -> R) (cme m1 m2 m3 : R) (nbins : nat) : list onum * list R :=
  let elow := m1 in
  let ehigh := (cme ^ 2 + m1 ^ 2 - (m2 + m3) ^ 2) / (2 * cme) in
  let es := bin_centers (linspace elow ehigh nbins) in
  let norm := quad (fun e => pieta_edist cme e m1 m2 m3) elow ehigh in
  (map (fun e => odiv (pieta_edist cme e m1 m2 m3) norm) es, es).
(** pi_pi_eta.py 134-160 *)
Definition pieta_distributions (quad : (R -> R) -> R -> R -> R) (cme : R) (nbins : nat) : list (list onum * list R) :=
  if Rlt_dec cme (2 * par_mpi + par_meta) then [([], []); ([], []); ([], [])]
  else
    let dpi := pieta_make_dist quad cme par_mpi par_mpi par_meta nbins in
    let deta := pieta_make_dist quad cme par_meta par_mpi par_mpi nbins in
    [dpi; dpi; deta].
(** pi_pi_etap.py 97-103 and 105-111 *)
Definition pietap_edist_pi (cme e : R) : R :=
  let s := cme ^ 2 + par_mpi ^ 2 - 2 * e * cme in
  if Rle_dec s ((par_mpi + par_metap) ^ 2) then 0
  else if Rle_dec ((cme - par_mpi) ^ 2) s then 0
  else
    let k1 := kallen_lambda s (par_mpi ^ 2) (cme ^ 2) in
    let k2 := kallen_lambda s (par_mpi ^ 2) (par_metap ^ 2) in
    (k1 * k2 * sqrt (k1 * k2)) / s ^ 2.
Definition pietap_edist_eta (cme e : R) : R :=
  let s := cme ^ 2 + par_metap ^ 2 - 2 * e * cme in
  if Rle_dec s (4 * par_mpi ^ 2) then 0
  else if Rle_dec ((cme - par_metap) ^ 2) s then 0
  else
    let k1 := kallen_lambda s (par_mpi ^ 2) (par_mpi ^ 2) in
    let k2 := kallen_lambda s (par_metap ^ 2) (cme ^ 2) in
    (k1 * k2 * sqrt (k1 * k2)) / s ^ 2.
(** One distribution of pi_pi_etap.py 113-123; np.linspace(elow, ehigh, nbins) has nbins points.  Dividing the
    float 0.0 by a vanishing norm raises ZeroDivisionError *)
Definition sample_dist (f : R -> R) (norm : R) (es : list R) : res (list R) :=
  fold_right (fun e r => let* l := r in if Req_EM_T norm 0 then Raise ZeroDivisionError else Ret (f e / norm :: l)) (Ret []) es.
Definition pietap_distributions (quad : (R -> R) -> R -> R -> R) (cme : R) (nbins : nat) : res (list (list R * list R)) :=
  let eps := 1 / 10 ^ 10 in
  let elow := par_mpi * (1 + eps) in
  let ehigh := (cme ^ 2 + par_mpi ^ 2 - (par_mpi + par_metap) ^ 2) / (2 * cme) * (1 - eps) in
  let es_pi := linspace elow ehigh (nbins - 1) in
  let* dist_pi := sample_dist (pietap_edist_pi cme) (quad (pietap_edist_pi cme) elow ehigh) es_pi in
  let elow := par_metap * (1 + eps) in
  let ehigh := (cme ^ 2 + par_metap ^ 2 - 4 * par_mpi ^ 2) / (2 * cme) * (1 - eps) in
  let es_eta := linspace elow ehigh (nbins - 1) in
  let* dist_eta := sample_dist (pietap_edist_eta cme) (quad (pietap_edist_eta cme) elow ehigh) es_eta in
  Ret [(dist_pi, es_pi); (dist_pi, es_pi); (dist_eta, es_eta)].
(** pi_pi_omega.py 102-118 and 120-127 *)
Definition piomega_dnde_pi (mup muw cme e : R) : R :=
  let z := 1 - 2 * e / cme + mup ^ 2 in
  let p1 := kallen_lambda z (mup ^ 2) 1 in
  let p2 := kallen_lambda z (mup ^ 2) (muw ^ 2) in
  let f := ((z - mup ^ 2) ^ 2 * (1 + z + z ^ 2 - 2 * (1 + z) * mup ^ 2 + mup ^ 4)
            + (z * (1 + z * (28 + z)) - 2 * (1 + 2 * z * (1 + z)) * mup ^ 2 + (4 + 5 * z) * mup ^ 4 - 2 * mup ^ 6) * muw ^ 2
            + (1 + z + z ^ 2 - 2 * (1 + z) * mup ^ 2 + mup ^ 4) * muw ^ 4) / (18 * z ^ 3 * muw ^ 2) in
  sqrt (p1 * p2) * f.
Definition piomega_dnde_omega (mup muw cme e : R) : R :=
  let z := 1 - 2 * e / cme + muw ^ 2 in
  let p1 := kallen_lambda z (mup ^ 2) (mup ^ 2) in
  let p2 := kallen_lambda z (muw ^ 2) 1 in
  let f := ((-1 + z) ^ 2 - 2 * (-5 + z) * muw ^ 2 + muw ^ 4) / (6 * z * muw ^ 2) in
  f * sqrt (p1 * p2).
(** pi_pi_omega.py 75-135: the energies first, the values second; the last division of arrays gives NaN for a
    vanishing integral *)
Definition piomega_normalized (es ds : list R) : list onum := map (fun d => odiv d (trapezoid es ds)) ds.
Definition piomega_distributions (imode : Z) (cme : R) (nbins : nat) : res (list (list R * list onum)) :=
  let* mpi := if Z.eqb imode 1 then Ret par_mpi else if Z.eqb imode 0 then Ret par_mpi0 else Raise ValueError in
  let mw := par_momega in
  let mup := mpi / cme in
  let muw := mw / cme in
  let bs_p := map (Rmult cme) (linspace mup (0.5 * (1 + mup ^ 2 - (mup + muw) ^ 2)) nbins) in
  let bs_w := map (Rmult cme) (linspace muw (0.5 * (1 - 4 * mup ^ 2 + muw ^ 2)) nbins) in
  let es_p := bin_centers bs_p in
  let es_w := bin_centers bs_w in
  if Rlt_dec cme (2 * mpi + mw) then
    let zeros l := map (fun _ : R => Some 0) l in
    Ret [(es_p, zeros es_p); (es_p, zeros es_p); (es_w, zeros es_w)]
  else
    let dist_p := piomega_normalized es_p (map (piomega_dnde_pi mup muw cme) es_p) in
    let dist_w := piomega_normalized es_w (map (piomega_dnde_omega mup muw cme) es_w) in
    Ret [(es_p, dist_p); (es_p, dist_p); (es_w, dist_w)].

(** * hazma/vector_mediator/_gev/base.py *)
(** 28-41 and 111-121: what the constructor stores, attribute name and value *)
Definition base_new (mx mv gvxx gvuu gvdd gvss gvee gvmumu gvveve gvvmvm gvvtvt : R) : dict R :=
  [("_mx", mx); ("_mv", mv); ("_gvxx", gvxx); ("_gvuu", gvuu); ("_gvdd", gvdd); ("_gvss", gvss); ("_gvee", gvee);
   ("_gvmumu", gvmumu); ("_gvveve", gvveve); ("_gvvmvm", gvvmvm); ("_gvvtvt", gvvtvt)]%string.
(** 150-158 and 169-212: the attribute each property returns *)
Definition base_properties : dict string :=
  [("mx", "_mx"); ("mv", "_mv"); ("gvxx", "_gvuu"); ("gvuu", "_gvuu"); ("gvdd", "_gvdd"); ("gvss", "_gvss"); ("gvee", "_gvee");
   ("gvmumu", "_gvmumu"); ("gvveve", "_gvveve"); ("gvvmvm", "_gvvmvm"); ("gvvtvt", "_gvvtvt")]%string.
Definition base_get (self : dict R) (name : string) : option R :=
  match dget base_properties name with Some attr => dget self attr | None => None end.
