(** Model of the dark-matter fluxes and what is compared with them: hazma/target_params.py, the targets and
    parametric backgrounds of hazma/gamma_ray_parameters.py, the detector response of hazma/parameters.py, the
    flux factors and the Fisher matrix of hazma/theory/_theory_gamma_ray_limits.py, the flux factor and level
    sets of hazma/theory/_theory_constrain.py, hazma/limits/_relic_density.py and hazma/spectra/convolve.py.

    Real numbers instead of floats.  Splines of degree one on a grid are replaced by the trapezoid of their
    values, [conv a b] is dnde_conv.integral(a, b), root finding, matrix inversion and the normal distribution
    are arguments. *)
From Coq Require Import String Reals Bool List.
From Verif Require Import PyBase VffModel LimitsModel.
Import ListNotations.
Local Open Scope string_scope.
Local Open Scope list_scope.
Local Open Scope R_scope.

(** * Targets *)
(** target_params.py 18-22; an omitted argument is None *)
Record target : Type := { t_J : option R; t_D : option R; t_dOmega : option R; t_vx : R }.

(** TargetParams(J=.., D=.., dOmega=..), with the default vx *)
Definition region (J D w : R) : target :=
  {| t_J := Some J; t_D := Some D; t_dOmega := Some w; t_vx := 1 / 10 ^ 3 |}.

(** gamma_ray_parameters.py 56; the argument is in degrees *)
Definition solid_angle_cone (radius : R) : R := 4 * PI * sin (radius * PI / 180 / 2) ^ 2.

(** gamma_ray_parameters.py 94-107 *)
Definition gc_targets : dict (dict target) :=
  [("nfw", [("1 arcmin cone", region (6.972 * 10 ^ 32) (4.84 * 10 ^ 26) (2.66 / 10 ^ 7));
            ("5 deg cone", region (1.782 * 10 ^ 30) (1.597 * 10 ^ 26) 0.0239);
            ("10 deg cone", region (7.458 * 10 ^ 29) (1.214 * 10 ^ 26) 0.0955);
            ("10x10 deg box", region (2.879 * 10 ^ 30) (1.955 * 10 ^ 26) 0.03042)]);
   ("ein", [("1 arcmin cone", region (1.724 * 10 ^ 32) (5.413 * 10 ^ 26) (2.66 / 10 ^ 7));
            ("5 deg cone", region (4.442 * 10 ^ 30) (2.269 * 10 ^ 26) 0.0239);
            ("10 deg cone", region (1.706 * 10 ^ 30) (1.615 * 10 ^ 26) 0.0955);
            ("10x10 deg box", region (3.99 * 10 ^ 31) (3.974 * 10 ^ 26) 0.03042)])].

(** gamma_ray_parameters.py 109-122 *)
Definition gc_targets_optimistic : dict (dict target) :=
  [("nfw", [("1 arcmin cone", region (1.415 * 10 ^ 33) (6.666 * 10 ^ 26) (2.66 / 10 ^ 7));
            ("5 deg cone", region (3.372 * 10 ^ 30) (2.058 * 10 ^ 26) 0.0239);
            ("10 deg cone", region (1.355 * 10 ^ 30) (1.522 * 10 ^ 26) 0.0955);
            ("10x10 deg box", region (2.879 * 10 ^ 30) (1.955 * 10 ^ 26) 0.03042)]);
   ("ein", [("1 arcmin cone", region (5.987 * 10 ^ 34) (4.179 * 10 ^ 27) (2.66 / 10 ^ 7));
            ("5 deg cone", region (4.965 * 10 ^ 31) (4.345 * 10 ^ 26) 0.0239);
            ("10 deg cone", region (1.404 * 10 ^ 31) (2.62 * 10 ^ 26) 0.0955);
            ("10x10 deg box", region (3.99 * 10 ^ 31) (3.974 * 10 ^ 26) 0.03042)])].

(** gamma_ray_parameters.py 126-130: the names kept for backwards compatibility *)
Definition old_targets : dict target :=
  [("comptel_diffuse_target", region (9.308 * 10 ^ 28) (4.866 * 10 ^ 25) 1.433);
   ("comptel_diffuse_target_optimistic", region (1.751 * 10 ^ 29) (5.541 * 10 ^ 25) 1.433);
   ("egret_diffuse_target", region (1.253 * 10 ^ 28) (3.42 * 10 ^ 25) 6.585);
   ("fermi_diffuse_target", region (1.695 * 10 ^ 28) (3.563 * 10 ^ 25) 10.82);
   ("integral_diffuse_target", region (2.086 * 10 ^ 29) (7.301 * 10 ^ 25) 0.5421)].

(** gamma_ray_parameters.py 134-173, the values of the dictionaries called <name>_diffuse_targets and
    <name>_diffuse_targets_optimistic *)
Definition diffuse_targets : dict (dict target) :=
  [("comptel", [("nfw", region (9.308 * 10 ^ 28) (4.866 * 10 ^ 25) 1.433);
                ("ein", region (1.751 * 10 ^ 29) (5.541 * 10 ^ 25) 1.433)]);
   ("egret", [("nfw", region (6.265 * 10 ^ 27) (1.71 * 10 ^ 25) 6.585);
              ("ein", region (6.994 * 10 ^ 27) (1.738 * 10 ^ 25) 6.585)]);
   ("fermi", [("nfw", region (8.475 * 10 ^ 27) (1.782 * 10 ^ 25) 10.82);
              ("ein", region (1.058 * 10 ^ 28) (1.832 * 10 ^ 25) 10.82)]);
   ("integral", [("nfw", region (2.086 * 10 ^ 29) (7.301 * 10 ^ 25) 0.5421);
                 ("ein", region (4.166 * 10 ^ 29) (8.76 * 10 ^ 25) 0.5421)])].
Definition diffuse_targets_optimistic : dict (dict target) :=
  [("comptel", [("nfw", region (1.53 * 10 ^ 29) (5.571 * 10 ^ 25) 1.433);
                ("ein", region (1.04 * 10 ^ 30) (7.098 * 10 ^ 25) 1.433)]);
   ("egret", [("nfw", region (7.556 * 10 ^ 27) (1.761 * 10 ^ 25) 6.585);
              ("ein", region (9.062 * 10 ^ 27) (1.952 * 10 ^ 25) 6.585)]);
   ("fermi", [("nfw", region (1.106 * 10 ^ 28) (1.854 * 10 ^ 25) 10.82);
              ("ein", region (1.601 * 10 ^ 28) (2.084 * 10 ^ 25) 10.82)]);
   ("integral", [("nfw", region (2.086 * 10 ^ 29) (7.301 * 10 ^ 25) 0.5421);
                 ("ein", region (4.166 * 10 ^ 29) (8.76 * 10 ^ 25) 0.5421)])].

(** gamma_ray_parameters.py 177-182 and 186-190 *)
Definition draco_targets : dict target :=
  [("1 arcmin cone", region (3.418 * 10 ^ 30) (5.949 * 10 ^ 25) (2.66 / 10 ^ 7));
   ("5 deg cone", region (8.058 * 10 ^ 26) (1.986 * 10 ^ 24) 0.0239)].
Definition m31_targets : dict target :=
  [("1 arcmin cone", region (7.116 * 10 ^ 29) (9.449 * 10 ^ 25) (2.66 / 10 ^ 7));
   ("5 deg cone", region (2.639 * 10 ^ 26) (5.507 * 10 ^ 24) 0.0239)].

(** gamma_ray_parameters.py 195-200 *)
Definition fornax_targets : dict target :=
  [("1 arcmin cone", region (5.316 * 10 ^ 29) (2.898 * 10 ^ 26) (2.66 / 10 ^ 7));
   ("2 deg cone", region (2.558 * 10 ^ 26) (9.081 * 10 ^ 24) 0.00383)].

(** * Flux factors *)
(** arithmetic with None raises TypeError *)
Definition num (o : option R) : res R := match o with Some x => Ret x | None => Raise TypeError end.
(** assert o is not None *)
Definition asserted (o : option R) : res R := match o with Some x => Ret x | None => Raise AssertionError end.

(** _theory_gamma_ray_limits.py 404-434: [_compute_fluxes].  The empty measurement (IndexError at 406) is
    not modelled, mx is nonzero. *)
Definition flux_factor (kind : string) (mx : R) (t : target) : res R :=
  let* w := num (t_dOmega t) in
  let f := w / (4 * PI * mx) in
  if kind =? "ann" then (let* J := num (t_J t) in Ret (f * (J / (2 * 2 * mx))))
  else if kind =? "dec" then (let* D := num (t_D t) in Ret (f * D))
  else Raise ValueError.
Definition compute_fluxes (kind : string) (mx : R) (t : target) (conv : R -> R -> R) (bins : list (R * R))
  : res (list R) :=
  let* f := flux_factor kind mx t in Ret (map (fun b => f * conv (fst b) (snd b)) bins).

(** _theory_gamma_ray_limits.py 141-170: [_differential_signal_flux_prefactor] *)
Definition signal_prefactor (kind : string) (mx : R) (t : target) (self_conjugate : bool) : res R :=
  let* dw := asserted (t_dOmega t) in
  if kind =? "ann" then
    (let* J := asserted (t_J t) in
     let f_dm := if self_conjugate then 1 else 2 in
     Ret (dw / (4 * PI * mx ^ 2) * J * (1 / (2 * f_dm))))
  else if kind =? "dec" then (let* D := asserted (t_D t) in Ret (dw / (4 * PI * mx ^ 1) * D * 1))
  else Raise ValueError.

(** _theory_gamma_ray_limits.py 220-239: the values of the signal flux on the grid, for a scale;
    [dnde] is the convolved spectrum.  The kind is looked at first (223-229). *)
Definition signal_flux (kind : string) (mx : R) (t : target) (self_conjugate : bool) (scale : option R)
    (dnde : R -> R) (e : R) : res R :=
  if orb (kind =? "ann") (kind =? "dec") then
    (let* p := signal_prefactor kind mx t self_conjugate in
     Ret (match scale with Some s => s | None => 1 end * p * dnde e))
  else Raise ValueError.

(** _theory_gamma_ray_limits.py 551-567: the prefactor of [unbinned_limit]; the kind is "ann" or "dec" (any
    other value leaves dnde_conv unbound and raises later) *)
Definition unbinned_prefactor (kind : string) (mx T_obs : R) (t : target) : res R :=
  let p := if kind =? "ann" then 2 * 2 * mx ^ 2 else mx in
  let* w := asserted (t_dOmega t) in
  let* f := num (if kind =? "ann" then t_J t else t_D t) in
  Ret (p * (4 * PI / (sqrt (T_obs * w) * f))).

(** _theory_gamma_ray_limits.py 538-601 with the bound of LimitsModel *)
Definition unbinned_limit (kind : string) (mx T_obs : R) (t : target) (I_S I_B : R -> R -> R) (grid : list R)
    (n_sigma : R) : res R :=
  let* p := unbinned_prefactor kind mx T_obs t in unbinned_bound p n_sigma I_S I_B grid.

(** _theory_constrain.py 119-137: the flux factor of the image of [constrain_binned_gamma]; [sigma] is
    annihilation_cross_sections(e_cm)["total"] in MeV^-2 *)
Definition image_flux_factor (kind : string) (mx sigma : R) (t : target) : res R :=
  if kind =? "ann" then
    (let sv := sigma * t_vx t in
     let* J := num (t_J t) in
     let* w := num (t_dOmega t) in
     Ret (sv * J * w / (2 * 2 * mx ^ 2 * 4 * PI)))
  else if kind =? "dec" then Raise NotImplementedError
  else Raise (NameError "dm_flux_factor").

(** One bin of a measurement: energies, flux and upper error; [fill] adds the predicted flux *)
Record mbin : Type := { mb_low : R; mb_high : R; mb_flux : R; mb_err : R }.
Definition fill (phi : R) (b : mbin) : bin :=
  {| b_low := mb_low b; b_high := mb_high b; b_flux := mb_flux b; b_err := mb_err b; b_phi := phi |}.

(** _theory_gamma_ray_limits.py 436-477: [binned_limit]; [crit] is the critical value of the chi-squared *)
Definition binned_limit (kind : string) (mx : R) (t : target) (conv : R -> R -> R) (m : list mbin)
    (n_sigma : R) (method : string) (crit : R) : res ext :=
  let* phi := compute_fluxes kind mx t conv (map (fun b => (mb_low b, mb_high b)) m) in
  let bins := map (fun pb => fill (fst pb) (snd pb)) (combine phi m) in
  let* w := num (t_dOmega t) in
  if method =? "1bin" then constrain_one_bin w n_sigma bins
  else if method =? "chi2" then Ret (constrain_chi_squared w crit bins)
  else Raise NotImplementedError.

(** _theory_constrain.py 113-171: [_constrain_binned_gamma_helper] for the method "1bin" *)
Definition image_value (kind : string) (mx sigma : R) (t : target) (conv : R -> R -> R) (m : list mbin)
    (n_sigma : R) : res ext :=
  let* f := image_flux_factor kind mx sigma t in
  let* w := num (t_dOmega t) in
  binned_gamma_helper w n_sigma (map (fun b => fill (f * conv (mb_low b) (mb_high b)) b) m).

(** * Detector response *)
(** gamma_ray_parameters.py 567 *)
Definition fwhm_factor : R := 1 / (2 * sqrt (2 * ln 2)).

(** parameters.py 440-451: [spec_res_fn] *)
Definition spec_res_fn (ep e : R) (energy_res : R -> R) : R :=
  let sigma := e * energy_res e in
  if Req_EM_T sigma 0 then 0
  else 1 / sqrt (2 * PI * sigma ^ 2) * exp (- (ep - e) ^ 2 / (2 * sigma ^ 2)).

(** The trapezoid rule over the points of a grid *)
Fixpoint trapezoid (f : R -> R) (xs : list R) : R :=
  match xs with
  | x0 :: ((x1 :: _) as r) => (x1 - x0) * (f x0 + f x1) / 2 + trapezoid f r
  | _ => 0
  end.

(** parameters.py 509-541: [convolved_spectrum_fn] at a point [ep] of the grid; [grid] is es_padded; a line
    is (energy, bf) *)
Definition convolved (energy_res : R -> R) (spec : option (R -> R)) (grid : list R)
    (lines : dict (R * R)) (ep : R) : R :=
  match spec with
  | Some s => trapezoid (fun e => s e * spec_res_fn ep e energy_res) grid
  | None => 0
  end
  + fold_right (fun l acc => snd (snd l) * spec_res_fn ep (fst (snd l)) energy_res
                             * (if fst l =? "g g" then 2 else 1) + acc) 0 lines.

(** spectra/convolve.py 53-77: [make_marginal_fn] at one product energy for method "trapz"; any method other
    than "trapz" and "simpson" fails the assertion of 54.  [simpson] is scipy's rule. *)
Definition marginal (simpson : (R -> R) -> list R -> R) (dnde : R -> R -> R) (prob : R -> R) (cmes : list R)
    (method : string) (e : R) : res R :=
  if orb (method =? "trapz") (method =? "simpson") then
    (let f := fun cme => prob cme * dnde e cme in
     Ret (if method =? "trapz" then trapezoid f cmes else simpson f cmes))
  else Raise AssertionError.

(** * Parametric backgrounds *)
Record galactic : Type := {
  g_amp : R; g_index : R; g_cutoff : R; g_exp : R; eg_amp : R; eg_index : R }.

(** gamma_ray_parameters.py 1028-1036: the defaults *)
Definition galactic_default : galactic :=
  {| g_amp := 0.013; g_index := 1.8; g_cutoff := 2; g_exp := 2; eg_amp := 0.004135; eg_index := 2.8956 |}.

(** gamma_ray_parameters.py 1150-1157 *)
Definition galactic_params (b : galactic) : dict R :=
  [("galactic_amplitude", g_amp b); ("galactic_power_law_index", g_index b);
   ("galactic_exponential_cutoff", g_cutoff b); ("galactic_exponential_index", g_cutoff b);
   ("extra_galactic_amplitude", eg_amp b); ("extra_galactic_power_law_index", eg_index b)].

(** gamma_ray_parameters.py 1172-1183; positive energy and cutoff *)
Definition galactic_flux (b : galactic) (energy : R) : R :=
  g_amp b * Rpower energy (- g_index b) * exp (- Rpower (energy / g_cutoff b) (g_exp b))
  + eg_amp b * Rpower energy (- eg_index b).

(** gamma_ray_parameters.py 1199-1226 *)
Definition galactic_derivatives (b : galactic) (energy : R) : dict onum :=
  let eec := energy / g_cutoff b in
  let f_g := g_amp b * Rpower energy (- g_index b) * exp (- Rpower eec (g_exp b)) in
  let f_eg := eg_amp b * Rpower energy (- eg_index b) in
  [("galactic_amplitude", odiv f_g (g_amp b));
   ("galactic_power_law_index", Some (- f_g * ln energy));
   ("galactic_exponential_cutoff", Some (f_g * Rpower eec (g_exp b) * g_exp b / g_cutoff b));
   ("galactic_exponential_index", Some (- f_g * ln eec * Rpower eec (g_exp b)));
   ("extra_galactic_amplitude", odiv f_eg (eg_amp b));
   ("extra_galactic_power_law_index", Some (- f_eg * ln energy))].

Record gecco : Type := { k_amp : R; k_index : R }.
(** gamma_ray_parameters.py 1285-1289 *)
Definition gecco_params (b : gecco) : dict R := [("amplitude", k_amp b); ("power_law_index", k_index b)].
(** gamma_ray_parameters.py 1304-1307 *)
Definition gecco_flux (b : gecco) (energy : R) : R := k_amp b * Rpower energy (- k_index b).
(** gamma_ray_parameters.py 1323-1329 *)
Definition gecco_derivatives (b : gecco) (energy : R) : dict R :=
  [("amplitude", Rpower energy (- k_index b));
   ("power_law_index", k_amp b * Rpower energy (- k_index b) * ln energy)].

(** * The Fisher matrix *)
(** _theory_gamma_ray_limits.py 341-343: a copy of the parameters, with "rate" put in front *)
Definition fisher_params (bg : dict R) : dict R :=
  ("rate", 0) :: filter (fun kv => negb (fst kv =? "rate")) bg.

(** _theory_gamma_ray_limits.py 354-355: a dictionary of functions, one per background parameter *)
Definition fisher_dphi (phi_s : R -> R) (bg : dict R) (deriv : string -> R -> R) : dict (R -> R) :=
  dset (map (fun kv => (fst kv, deriv (fst kv))) bg) "rate" phi_s.

(** _theory_gamma_ray_limits.py 357-365; the spline of degree one through the values, integrated from the
    first to the last point of the grid *)
Definition fisher_element (d1 d2 phib aeff : R -> R) (tobs : R) (energies : list R) : R :=
  trapezoid (fun e => d1 e * d2 e / phib e * aeff e * tobs) energies.

(** _theory_gamma_ray_limits.py 341-376; row k2, column k1.  [bgf] is dPhi_dEdOmega. *)
Definition fisher_matrix (phi_s : R -> R) (bg : dict R) (bgf : R -> R) (deriv : string -> R -> R)
    (aeff : R -> R) (tobs dOmega : R) (energies : list R) : res (list (list R)) :=
  let ks := dkeys (fisher_params bg) in
  let dphi := fisher_dphi phi_s bg deriv in
  mapM (fun k2 => mapM (fun k1 =>
    let* d1 := dindex dphi k1 in
    let* d2 := dindex dphi k2 in
    Ret (fisher_element d1 d2 (fun e => bgf e * dOmega) aeff tobs energies)) ks) ks.

(** position of a key, KeyError if there is none (247) *)
Fixpoint key_index (ks : list string) (k : string) : res nat :=
  match ks with
  | [] => Raise (KeyError k)
  | k' :: r => if k' =? k then Ret 0%nat else let* i := key_index r k in Ret (S i)
  end.

(** _theory_gamma_ray_limits.py 246-257: [limit]; [inv] is np.linalg.inv, [None] for LinAlgError, and the NaN
    that is then returned is [None] *)
Definition fisher_limit (inv : list (list R) -> option (list (list R))) (ppf cdf : R -> R)
    (m : list (list R)) (params : dict R) (key : string) (sigma : R) : res onum :=
  let* i := key_index (dkeys params) key in
  match inv m with
  | None => Ret None
  | Some g => Ret (let? s := osqrt (nth i (nth i g []) 0) in Some (ppf (cdf sigma) * s))
  end.

(** * Level sets *)
(** _theory_constrain.py 207-211: a contour point (row, column) in pixels to values of (p1, p2) *)
Definition contour_point (p1_vals p2_vals : list R) (c : R * R) : R * R :=
  (snd c / INR (length p1_vals) * (last p1_vals 0 - hd 0 p1_vals) + hd 0 p1_vals,
   fst c / INR (length p2_vals) * (last p2_vals 0 - hd 0 p2_vals) + hd 0 p2_vals).

(** * The relic-density limit *)
(** parameters.py 223 *)
Definition omega_h2_cdm : R := 0.1198.

Section Relic.
Variable M : Type.
(** The property is set on a copy of the model; [relic] is relic_density(model, semi_analytic=True), None if
    it raises ValueError; [mass] and [xsec] read the model.  [root f a b] is root_scalar with brentq: a
    point, or None for ValueError.  Other exceptions are not modelled. *)
Variable set : string -> R -> M -> M.
Variable relic : M -> R.
Variable mass : M -> R.
Variable xsec : M -> R -> R.
Variable root : (R -> R) -> R -> R -> option R.
Variable sv_conv : R.

(** _relic_density.py 61-65 *)
Definition relic_sigmav (m : M) (vx : R) : R :=
  let cme := 2 * mass m * (1 + 0.5 * vx ^ 2) in xsec m cme * vx * sv_conv.

(** _relic_density.py 67-71; 10 ** val is a power of ten with a real exponent *)
Definition setprop (log : bool) (prop : string) (m : M) (v : R) : M :=
  set prop (if log then Rpower 10 v else v) m.

(** _relic_density.py 73-92; None stands for NaN.  The code sets the property again and again on one copy;
    here every evaluation starts from the model as given, which is the same when the last value set wins.
    A root that has not converged is used all the same, with a warning (86-87). *)
Definition relic_limit (log : bool) (prop : string) (lo hi vx : R) (m : M) : option R :=
  let lb := if log then ln lo / ln 10 else lo in
  let ub := if log then ln hi / ln 10 else hi in
  match root (fun v => relic (setprop log prop m v) - omega_h2_cdm) lb ub with
  | None => None
  | Some r => Some (relic_sigmav (setprop log prop m r) vx)
  end.
End Relic.
