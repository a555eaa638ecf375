{
 "claims": [
  {
   "property": "C01",
   "status": "proved",
   "theorems": [
    "annihilation_total_is_sum",
    "annihilation_fractions_are_probabilities",
    "lines_carry_their_branching_fraction",
    "line_without_final_state_raises"
   ],
   "note": "Holds for any theory whose final states do not include the reserved name \"total\". Over R."
  },
  {
   "property": "C02",
   "status": "proved",
   "theorems": [
    "annihilation_spectra_are_weighted",
    "annihilation_total_spectrum_is_weighted_sum",
    "annihilation_positron_spectra_are_weighted"
   ],
   "note": "Any theory with at least one final state; closed channels need no function."
  },
  {
   "property": "C03",
   "status": "partial",
   "theorems": [
    "missing_continuum_raises",
    "missing_continuum_refuted"
   ],
   "note": "REFUTED: the documented contract is false of the code; every theory with an open channel lacking a continuum entry raises KeyError."
  },
  {
   "property": "C04",
   "status": "partial",
   "theorems": [
    "decay_positron_functions_are_all_the_last",
    "decay_positron_functions_refuted",
    "decay_positron_total_is_last_spectrum",
    "decay_positron_spectra_single_channel_partial"
   ],
   "note": "REFUTED: late-binding closure; actual behaviour characterised, single-channel case proved."
  },
  {
   "property": "C05",
   "status": "proved",
   "theorems": [
    "decay_fractions_are_probabilities",
    "decay_spectra_are_weighted",
    "lines_carry_their_branching_fraction"
   ],
   "note": "Over R."
  },
  {
   "property": "C06",
   "status": "proved",
   "theorems": [
    "constrain_pixels",
    "constrain_pixels_plain_attributes",
    "constrain_same_parameter_raises"
   ],
   "note": "Any theory whose two setters overwrite earlier assignments."
  },
  {
   "property": "C07",
   "status": "partial",
   "theorems": [
    "custom_constrain_square_images_partial",
    "custom_constrain_wide_grid_raises",
    "custom_constrain_shape_refuted"
   ],
   "note": "REFUTED: images are n_rows by n_rows; holds for square grids, wide grids raise IndexError."
  },
  {
   "property": "C08",
   "status": "partial",
   "theorems": [
    "sigmav_round_trip_partial",
    "sigmav_factor",
    "sigmav_documented_units_refuted"
   ],
   "note": "REFUTED for the documented string \"cm^3/s\" (None is returned); round trip proved for the strings the code recognises."
  },
  {
   "property": "C09",
   "status": "proved",
   "theorems": [
    "cmb_limit_saturates_bound",
    "cmb_efficiency_is_sum",
    "cmb_limit_decreases_with_efficiency",
    "cmb_photon_pair_efficiency"
   ],
   "note": "Over R with the efficiency tables, spectra and quadrature as arguments."
  },
  {
   "property": "C10",
   "status": "partial",
   "theorems": [
    "cmb_constrainer_always_raises",
    "cmb_constrainer_refuted",
    "cmb_constrainer_efficiency"
   ],
   "note": "REFUTED: constraining raises AttributeError for every model; f_eff additionally squares the velocity twice."
  },
  {
   "property": "C11",
   "status": "partial",
   "theorems": [
    "single_channel_ann_history",
    "single_channel_ann_failed_assignment",
    "single_channel_cross_section",
    "channel_split",
    "single_channel_dec_history_refuted",
    "single_channel_dec_history_partial"
   ],
   "note": "Annihilating half proved, including the cross section after any history; REFUTED for the decaying half (fs setter does not refresh the masses)."
  },
  {
   "property": "C12",
   "status": "partial",
   "theorems": [
    "cached_width_scalar",
    "cached_width_vector",
    "scalar_assignments_as_fresh",
    "higgs_assignments_as_fresh",
    "heavy_assignments_as_fresh",
    "vector_assignments_as_fresh",
    "mixing_assignments_as_fresh",
    "quarks_assignments_as_fresh",
    "hidden_scalar_setters",
    "hidden_vector_setters",
    "lam_setter_refuted",
    "failed_assignment_refuted",
    "mixing_sign_refuted"
   ],
   "note": "REFUTED: the setter of lam is not hidden in HiggsPortal and HeavyQuark, so assigning it breaks the documented couplings; KineticMixing has the opposite sign of its documentation; an assignment that fails in the width computation leaves the new value with the old width. Proved: the cached width always matches the current parameters after any script of assignments, the object equals a freshly built one with the latest values (scripts that leave lam alone for the restricted models), hidden setters raise AttributeError and change nothing. Real arithmetic; direct writes to width_s, width_v and vs are outside the model."
  },
  {
   "property": "C13",
   "status": "partial",
   "theorems": [
    "composite_shares_state_refuted",
    "composite_explicit_lists_partial"
   ],
   "note": "REFUTED: the default list object is shared; holds for explicit lists."
  },
  {
   "property": "C14",
   "status": "proved",
   "theorems": [
    "rambo_shell"
   ],
   "note": "For every integrator state and every draw whose massless momenta are not all parallel."
  },
  {
   "property": "C15",
   "status": "proved",
   "theorems": [
    "rambo_boost",
    "rambo_initial"
   ],
   "note": ""
  },
  {
   "property": "C16",
   "status": "partial",
   "theorems": [
    "rambo_energy_partial",
    "rambo_energy_far",
    "rambo_energy_setter_refuted",
    "rambo_energy_fresh_refuted"
   ],
   "note": "REFUTED: assigning cme (or masses) leaves the starting scale xi0 of the old values, so the Newton iteration starts below the root and its one-sided stopping test accepts the first step; and for a fresh integrator near threshold with very unequal masses five iterations do not reach the tolerance. Proved for fresh integrators: the energies never fall short of cme and the excess obeys explicit bounds."
  },
  {
   "property": "C17",
   "status": "proved",
   "theorems": [
    "rambo_batches",
    "rambo_shell"
   ],
   "note": ""
  },
  {
   "property": "C18",
   "status": "partial",
   "theorems": [
    "flat_matrix_element_refuted",
    "flat_three_body_rambo_zero",
    "flat_two_body_array_refuted",
    "flat_three_body_quad"
   ],
   "note": "REFUTED: _msqrd_flat returns zeros for array arguments, so ThreeBody without a matrix element integrates to 0 with method \"rambo\" on every sample, while Rambo alone gives the phase-space volume and the deterministic route gives the massless three-body volume."
  },
  {
   "property": "C19",
   "status": "proved",
   "theorems": [
    "dalitz_momenta",
    "dalitz_y_limits",
    "dalitz_x_limits",
    "dalitz_relabel",
    "dalitz_invariants"
   ],
   "note": "The code's momenta, the exact x- and y-limits (both directions, against the set of all final states), and the relabelling for particles 2 and 3. Exact real arithmetic; the edge x = 2 mu1 and s = 0 (division by zero in the code) are excluded from the y-limits."
  },
  {
   "property": "C20",
   "status": "partial",
   "theorems": [
    "bounds_t_refuted",
    "bounds_t_corrected"
   ],
   "note": "REFUTED: the t-limits use kallen(s, m1^2, m2^2) where kallen(s, M^2, m1^2) is needed; at M = 2, s = 1 and zero masses the code returns [1, 2] although t = 0 and t = 3 occur. The corrected formula is proved to be the image of the exact y-limits."
  },
  {
   "property": "C21",
   "status": "partial",
   "theorems": [
    "energy_limits_partial",
    "energy_limits_two_body_refuted",
    "invariant_mass_limits_true",
    "two_body_prefactors_agree"
   ],
   "note": "REFUTED for two particles: the lower energy limit is the mass although the energy is fixed. For three or more particles both energy limits are proved to bound every final state and to be attained; the invariant-mass limits likewise (the lower one for three or more particles). Prefactor proved."
  },
  {
   "property": "C22",
   "status": "proved",
   "theorems": [
    "normalize_distribution_exact"
   ],
   "note": "Positive integral, all-zero input and non-positive integral with a non-zero entry, for any number of bins. The all-NaN result is modelled as None."
  },
  {
   "property": "C23",
   "status": "partial",
   "theorems": [
    "expect_one_refuted",
    "expect_one_partial"
   ],
   "note": "REFUTED: the default trapezoidal rule runs over bin centres and loses half of the first and last bin; on two equal bins the expectation of 1 is 1/2. On equal bins of width w it is exactly 1 - w (p_first + p_last)/2. C177 covers the other methods."
  },
  {
   "property": "C24",
   "status": "proved",
   "theorems": [
    "boosted_line_is_a_box",
    "boosted_line_counts_one",
    "boosted_line_energy",
    "boosted_line_unphysical",
    "python_boosted_line_agrees",
    "python_boosted_line_integers_refuted"
   ],
   "note": "Box, unit area, mean energy and zero outside, over the reals, for the Rust and the Python helper. Finding: integer energy arrays are answered with truncated (zero) values."
  },
  {
   "property": "C25",
   "status": "partial",
   "theorems": [
    "unphysical_velocity_partial",
    "negative_velocity_refuted",
    "boosted_function_drops_arguments_refuted"
   ],
   "note": "REFUTED: negative velocities return the unboosted spectrum; the same early return drops the extra arguments. Velocities above 1 give zeros, as proved."
  },
  {
   "property": "C26",
   "status": "proved",
   "theorems": [
    "positron_muon_boost",
    "positron_muon_michel",
    "positron_muon_nonnegative",
    "positron_muon_window"
   ],
   "note": "Over the reals, for every pair of masses below 2^51 and every energy; muon energies less than 2^-52 above the mass take the rest-frame branch by design of the code."
  },
  {
   "property": "C27",
   "status": "partial",
   "theorems": [
    "positron_muon_count",
    "positron_muon_normalised_iff",
    "positron_muon_normalised_refuted"
   ],
   "note": "REFUTED: the spectrum divides by R_FACTOR = 1/I(r) instead of multiplying; the exact count is I(r)/R_FACTOR, about 3.7 in 10^4 too small at the code's constants. The exact count and the condition for normalisation are proved for every mass ratio."
  },
  {
   "property": "C28",
   "status": "proved",
   "theorems": [
    "neutrino_muon_boost",
    "neutrino_muon_rest_spectra",
    "neutrino_muon_nonnegative",
    "neutrino_muon_window",
    "neutrino_muon_count",
    "neutrino_muon_count_pdg"
   ],
   "note": "Over the reals, for every pair of masses and every energy; the normalisation of both rows is proved as well."
  },
  {
   "property": "C29",
   "status": "proved",
   "theorems": [
    "neutral_pion_photons",
    "neutral_pion_box",
    "neutral_pion_below"
   ],
   "note": "The code rounds the velocity and the height to single precision; the count and the energy are proved up to relative 2^-24 for any such rounding and exactly without it."
  },
  {
   "property": "C30",
   "status": "partial",
   "theorems": [
    "meson_lines",
    "eta_prime_line_refuted",
    "phi_lines_refuted",
    "meson_lines_in_flight"
   ],
   "note": "REFUTED for the eta prime (one photon instead of two) and the phi (lines at the energy of the recoiling meson); proved for both kaons, eta and omega, with the boosted count and energy for any table."
  },
  {
   "property": "C31",
   "status": "partial",
   "theorems": [
    "vector_radiation_agrees",
    "scalar_radiation_factor_two",
    "scalar_radiation_refuted",
    "radiation_constants_refuted"
   ],
   "note": "REFUTED: the vector formulas agree for all inputs, but both scalar decay formulas are exactly half of the annihilation formulas, and the two files use different numerical constants."
  },
  {
   "property": "C32",
   "status": "proved",
   "theorems": [
    "radiation_nonnegative",
    "radiation_zero_energy"
   ],
   "note": "All four annihilation formulas, over exact reals, on and off the kinematic range; at photon energy exactly zero three of the four raise ZeroDivisionError instead of returning a value."
  },
  {
   "property": "C33",
   "status": "partial",
   "theorems": [
    "scalar_gg_line",
    "scalar_gg_two_photons_refuted",
    "vector_pi0g_line",
    "vector_pi0g_window_refuted",
    "electron_line",
    "electron_line_count_refuted"
   ],
   "note": "REFUTED: S -> gamma gamma holds one photon per decay instead of two; V -> pi0 gamma holds one photon but in the window of energy mv/2 instead of the two-body energy; e+ e- has the right window but the area is the branching fraction times the electron velocity. Proved for every boost."
  },
  {
   "property": "C34",
   "status": "partial",
   "theorems": [
    "scalar_modes_partition",
    "vector_modes_partition",
    "positron_modes_overshoot",
    "positron_modes_partition_refuted"
   ],
   "note": "REFUTED: the photon spectra partition for every mode list (quadrature assumed linear); the positron spectra return the e+ e- line with every mode, so the modes sum to the total plus twice the line."
  },
  {
   "property": "C35",
   "status": "partial",
   "theorems": [
    "scalar_positron_table",
    "vector_positron_table",
    "vector_positron_muon_refuted"
   ],
   "note": "REFUTED: the vector model's muon entry is the photon spectrum; the scalar table and the other vector entries are right."
  },
  {
   "property": "C36",
   "status": "partial",
   "theorems": [
    "scalar_breit_wigner",
    "vector_breit_wigner",
    "scalar_breit_wigner_refuted",
    "vector_pi0g_refuted"
   ],
   "note": "REFUTED: the two sides use different tables of constants, and the pi0 photon cross section of the vector model is 9 times too small. With one table of constants every other s-channel mode factorises, for all couplings, masses and energies above threshold (real arithmetic)."
  },
  {
   "property": "C37",
   "status": "proved",
   "theorems": [
    "detailed_balance"
   ],
   "note": "Real arithmetic."
  },
  {
   "property": "C38",
   "status": "partial",
   "theorems": [
    "scalar_thresholds",
    "vector_thresholds",
    "scalar_nonnegative",
    "vector_nonnegative",
    "vector_pipi_threshold_refuted",
    "vector_pi0pipi_refuted",
    "width_assertions_hold"
   ],
   "note": "REFUTED: at an energy of exactly 2 m_x the charged-pion cross section of the vector model raises, and the three-pion differential cross section is negative just above threshold so that its assertion fires. All other s-channel cross sections vanish below threshold and are non-negative (real arithmetic)."
  },
  {
   "property": "C39",
   "status": "partial",
   "theorems": [
    "scalar_annihilation_units",
    "scalar_scattering_units",
    "vector_units",
    "scalar_lepton_scattering_dimension",
    "scalar_lepton_scattering_units_refuted",
    "xx_to_xx_dimension",
    "xx_to_xx_units_refuted"
   ],
   "note": "REFUTED: sigma_xl_to_xl is dimensionless and the two x x -> x x functions have dimension 1/mass. All other 2 -> 2 cross sections scale as an area (real arithmetic)."
  },
  {
   "property": "C40",
   "status": "proved",
   "theorems": [
    "interpolation_never_panics",
    "interpolation_correct",
    "interpolation_at_node",
    "interpolation_in_cell",
    "interpolation_clamped",
    "interpolation_nan_first_node_panics"
   ],
   "note": "Absence of panics holds for any number type; the values are proved over the reals, rounding of the fused multiply-add is not modelled.  Finding: a table whose first node is NaN makes the search underflow (panic)."
  },
  {
   "property": "C41",
   "status": "proved",
   "theorems": [
    "interpolation_monotone",
    "interpolation_nan",
    "interpolation_one_point"
   ],
   "note": "Monotonicity over the reals; NaN propagation for any number type."
  },
  {
   "property": "C42",
   "status": "partial",
   "theorems": [
    "quadrature_never_panics_partial",
    "quadrature_points_never_panics_partial",
    "quadrature_never_panics_refuted",
    "worst_interval_never_panics"
   ],
   "note": "REFUTED for large limits: with limit 60 an integrand that is NaN at one point overruns the extrapolation table (binary64 witness computed in the kernel). Proved for every number type, integrand, interval and tolerance when limit <= 51 (live call sites use 50), and limit <= 51 + number of break points for the break-point routine."
  },
  {
   "property": "C43",
   "status": "proved",
   "theorems": [
    "quadrature_tiles",
    "quadrature_counts",
    "quadrature_points_tiles",
    "quadrature_points_counts"
   ],
   "note": "For limit <= 51 (resp. 51 + number of break points); above that the run can panic (C42)."
  },
  {
   "property": "C44",
   "status": "proved",
   "theorems": [
    "worst_interval_order",
    "worst_interval_permutation",
    "worst_interval_selected",
    "worst_interval_never_panics"
   ],
   "note": "Over exact reals, for every history of qpsrt calls (any errors, any pointer moves). After half the budget the list is deliberately cut short; the theorems say what is kept and that the top is still the overall maximum."
  },
  {
   "property": "C45",
   "status": "proved",
   "theorems": [
    "rule21_is_tabulated",
    "rule15_is_tabulated",
    "rules_exact_on_polynomials",
    "rule21_on_constants",
    "rule21_looks_only_inside",
    "quadrature_reversed"
   ],
   "note": "Over exact reals; the tables are those of the source, with all moments checked."
  },
  {
   "property": "C46",
   "status": "proved",
   "theorems": [
    "pairwise_sum_is_the_sum",
    "pairwise_sum_never_panics"
   ],
   "note": "Exact over the reals; termination and index safety for every number type."
  },
  {
   "property": "C47",
   "status": "partial",
   "theorems": [
    "table_boost_partial",
    "table_boost_refuted",
    "table_boost_never_panics",
    "table_boost_nan_node_panics"
   ],
   "note": "REFUTED: one cell is left out, or counted extra when the window lies inside a cell. The exact error term is proved, and that no real table panics."
  },
  {
   "property": "C48",
   "status": "partial",
   "theorems": [
    "dispatch_scalar",
    "dispatch_grid",
    "dispatch_no_alias",
    "dispatch_errors",
    "integer_sequence",
    "elementwise_sequence_refuted",
    "dispatch_flavors",
    "dispatch_try",
    "dispatch_vector",
    "scalar_result_refuted",
    "argument_kinds_refuted"
   ],
   "note": "REFUTED: proved for the dispatch layer of the compiled extension, which all its spectra and cross sections go through (np.asarray is modelled for numbers, strings, arrays and nested sequences; complex numbers are left out; a non-empty sequence of integers alone is refused although each member is a scalar, as the documentation says). The tabulated spectra written in Python do not go through it and violate the contract, see C85."
  },
  {
   "property": "C49",
   "status": "proved",
   "theorems": [
    "boltzmann_jacobian",
    "boltzmann_restores",
    "boltzmann_from_expansion"
   ],
   "note": "In exact arithmetic, with the Bessel functions, degrees of freedom and quadrature as parameters."
  },
  {
   "property": "C50",
   "status": "partial",
   "theorems": [
    "neq_derivative_partial",
    "neq_derivative_boson",
    "neq_derivative_refuted",
    "yeq_derivatives"
   ],
   "note": "REFUTED for massive bosons: the returned value is always smaller than the derivative. Holds for fermions and for massless particles of either statistics; Bessel functions are assumed only to satisfy their derivative recurrences."
  },
  {
   "property": "C51",
   "status": "partial",
   "theorems": [
    "thermal_average_partial",
    "thermal_average_vanishes",
    "thermal_average_refuted",
    "thermal_average_nonnegative",
    "thermal_average_freezes",
    "scalar_thermal_average",
    "scalar_thermal_cut",
    "vector_thermal_average"
   ],
   "note": "REFUTED for the Python function: from x = 25 to 300 its window is reversed and the result is zero for every cross section. Below 25, and for the two compiled mediator averages, it is the Gondolo-Gelmini integral and positive."
  },
  {
   "property": "C52",
   "status": "partial",
   "theorems": [
    "flavour_history",
    "flavour_electron",
    "flavour_muon_partial",
    "flavour_invalid",
    "flavour_tau_refuted",
    "flavour_muon_refuted"
   ],
   "note": "REFUTED: assigning \"tau\" configures the muon's final states, generation and widths, and \"mu\" leaves the neutrino name \"vmu\", which names the lines. Proved: only the last assignment matters, \"e\" gives the fresh object, \"mu\" gives it up to the neutrino name, and an unknown name raises ValueError before anything changes."
  },
  {
   "property": "C53",
   "status": "partial",
   "theorems": [
    "gamma_ray_lines_raise",
    "positron_lines_raise",
    "positron_lines_partial",
    "lines_refuted",
    "neutrino_lines_refuted",
    "line_energies_two_body"
   ],
   "note": "REFUTED: for every reachable object the photon lines raise KeyError \"nu g\" and, for the electron flavour, the positron lines raise KeyError \"pi l\"; above the eta mass the pion neutrino line holds the eta energy. The other flavours have the empty positron answer. The photon and positron energies the private methods give are the two-body energies."
  },
  {
   "property": "C54",
   "status": "partial",
   "theorems": [
    "decay_width_names",
    "decay_width_unknown",
    "decay_width_string",
    "decay_width_refuted"
   ],
   "note": "REFUTED for a single string: it is iterated by characters and raises KeyError of the first one. For a sequence of names the widths are those of decay_widths, and an unknown name raises KeyError."
  },
  {
   "property": "C55",
   "status": "partial",
   "theorems": [
    "conjugate_counting",
    "conjugates_partial",
    "conjugates_refuted",
    "total_width_excess"
   ],
   "note": "REFUTED: a neutrino with two different charged leptons is counted four times instead of twice; every other state is counted once per charge assignment. The excess of the total width is given exactly."
  },
  {
   "property": "C56",
   "status": "partial",
   "theorems": [
    "two_body_widths_sign",
    "two_body_widths_mixing",
    "massless_lepton_limit",
    "massless_limit_refuted"
   ],
   "note": "REFUTED for the limit: the width into a lepton and a pseudoscalar tends to (1-x^2)^2 (1+2x^2), the function of a vector meson. Sign, thresholds and the squared mixing are proved for all eight two-body widths. Vud and Vus are parameters."
  },
  {
   "property": "C57",
   "status": "partial",
   "theorems": [
    "lepton_msqrd_nonneg",
    "pion_msqrd_nonneg",
    "neutrino_msqrd_nonneg_partial",
    "msqrd_mixing",
    "neutrino_msqrd_mixing",
    "neutrino_msqrd_refuted",
    "lepton_spectrum_refuted",
    "pion_spectrum_refuted"
   ],
   "note": "REFUTED: the three-neutrino element is linear in the mixing and negative for negative angles; the element for two different leptons is evaluated with the particles in another order than it assumes and is negative there; the pion element assumes equal masses and is negative at points of the real Dalitz region. On the regions the elements were derived for all are non-negative."
  },
  {
   "property": "C58",
   "status": "partial",
   "theorems": [
    "averaged_radiation",
    "averaged_radiation_partial",
    "averaged_radiation_repeated",
    "unaveraged_radiation",
    "averaged_radiation_refuted"
   ],
   "note": "REFUTED: with average_fsr each charged particle contributes its radiation divided by the number of particles of its name (the dictionary is keyed by name), so k equal particles radiate as one; the documented sum holds when no charged name repeats. The two-body function adds both particles (two_body_sum). Exact reals; distributions are parameters."
  },
  {
   "property": "C59",
   "status": "partial",
   "theorems": [
    "ap_fermion_shape",
    "ap_scalar_shape",
    "ap_soft_photons",
    "ap_charge",
    "ap_energy",
    "ap_deprecated",
    "ap_range_refuted"
   ],
   "note": "REFUTED: for negative energy fractions the spectra are negative instead of zero; for positive fractions all clauses are proved (non-negative, positive and strictly decreasing below 1 - e m^2/s, zero beyond, continuous, soft limit, charge squared, change of variable as equality of photon numbers, deprecated functions are twice the new ones). Exact reals."
  },
  {
   "property": "C60",
   "status": "proved",
   "theorems": [
    "one_bin_limit_is_tight",
    "one_bin_limit_infinite",
    "one_bin_limit_decreases",
    "one_bin_image_sign"
   ],
   "note": "Over R."
  },
  {
   "property": "C61",
   "status": "partial",
   "theorems": [
    "flux_measurement_mutates_refuted",
    "flux_measurement_values_partial",
    "flux_measurement_frame_partial"
   ],
   "note": "REFUTED: the caller's flux array is divided in place."
  },
  {
   "property": "C62",
   "status": "proved",
   "theorems": [
    "constrainers_are_elementwise",
    "constrainers_are_total"
   ],
   "note": ""
  },
  {
   "property": "C63",
   "status": "proved",
   "theorems": [
    "kallen_symmetric",
    "kallen_threshold",
    "two_body_momentum_exact",
    "two_body_momentum_threshold",
    "fsr_momenta_exact",
    "cascade_energies_exact"
   ],
   "note": "Over exact reals, above threshold; below threshold NumPy returns NaN."
  },
  {
   "property": "C64",
   "status": "proved",
   "theorems": [
    "bessel_recurrence",
    "bessel_grows",
    "bessel_derivative",
    "bessel_at_zero"
   ],
   "note": "The two seeds (orders 0 and 1, from an external crate) are parameters; growth and derivatives are proved from stated conditions on the seeds, which K0 and K1 satisfy."
  },
  {
   "property": "C65",
   "status": "partial",
   "theorems": [
    "chi_squared_limit_refuted",
    "chi_squared_limit_infinite_refuted",
    "chi_squared_limit_zero_flux_partial"
   ],
   "note": "REFUTED; holds when the observed flux is zero."
  },
  {
   "property": "C66",
   "status": "proved",
   "theorems": [
    "unbinned_limit_is_best_window",
    "unbinned_limit_exists",
    "unbinned_limit_short_grid"
   ],
   "note": "Over R with signal and background integrals as arguments."
  },
  {
   "property": "C67",
   "status": "partial",
   "theorems": [
    "single_channel_lines_refuted",
    "single_channel_gamma_lines_never_numbers",
    "single_channel_positron_lines_never_numbers",
    "single_channel_cmb_raises",
    "single_channel_inner_energy_partial",
    "single_channel_gamma_energy_partial",
    "single_channel_positron_energy_partial"
   ],
   "note": "REFUTED: a nested dictionary is stored; the number inside it is right."
  },
  {
   "property": "C68",
   "status": "partial",
   "theorems": [
    "pbh_mass_and_spectrum_partial",
    "pbh_mass_and_spectrum_refuted"
   ],
   "note": "REFUTED for assignments that raise; holds otherwise."
  },
  {
   "property": "C69",
   "status": "partial",
   "theorems": [
    "tolerance_met_partial",
    "tolerance_met_refuted"
   ],
   "note": "REFUTED when a break-point list is given, none of its points is inside, and limit = 1: success is reported with any error estimate (binary64 witness). Proved over exact reals for limit <= 51 otherwise."
  },
  {
   "property": "C70",
   "status": "partial",
   "theorems": [
    "parent_energy_classified",
    "parent_energy_classified_refuted"
   ],
   "note": "REFUTED in binary64: a huge finite energy gives velocity exactly 1 and an error. Proved over the reals."
  },
  {
   "property": "C71",
   "status": "proved",
   "theorems": [
    "rambo_two_body_weight",
    "rambo_massless_weight"
   ],
   "note": ""
  },
  {
   "property": "C72",
   "status": "proved",
   "theorems": [
    "radiative_kinematics",
    "radiative_window",
    "radiative_flat_is_three_body",
    "radiative_routes_agree"
   ],
   "note": "Exact real arithmetic; the one-dimensional integrator is only assumed right on constants."
  },
  {
   "property": "C73",
   "status": "partial",
   "theorems": [
    "soft_photons",
    "scalar_decay_soft_refuted"
   ],
   "note": "REFUTED: the annihilation formulas and the vector decay formulas have the universal soft limit; the two scalar decay formulas have half of it."
  },
  {
   "property": "C74",
   "status": "proved",
   "theorems": [
    "scalar_photon_boost",
    "vector_photon_boost",
    "mediator_positron_boost"
   ],
   "note": "Quadrature assumed exact where the integral exists; the interpolated muon and pion tables are parameters."
  },
  {
   "property": "C75",
   "status": "partial",
   "theorems": [
    "photon_muon_rest",
    "photon_muon_boost",
    "photon_muon_flight_refuted",
    "photon_muon_rest_nonnegative"
   ],
   "note": "REFUTED: the closed form is the boost of the radiative formula up to the kinematic end, but the function at rest cuts at a lower energy, and above that cut the formula goes negative, so near the forward edge the spectrum in flight is negative. Non-negativity at rest proved for mmu >= 81 me."
  },
  {
   "property": "C76",
   "status": "partial",
   "theorems": [
    "positron_pion_boost",
    "emax_literal_covers",
    "positron_pion_rest_refuted",
    "neutrino_pion_boost",
    "neutrino_pion_line_refuted"
   ],
   "note": "REFUTED: positrons in flight are right but the spectrum at rest is identically zero; neutrinos in flight count the pi -> e nu line twice."
  },
  {
   "property": "C77",
   "status": "partial",
   "theorems": [
    "photon_charged_pion_boost",
    "photon_rho_boost",
    "photon_rho_rest_refuted"
   ],
   "note": "REFUTED: charged pions and moving rho mesons are right; a rho at rest returns the spectrum divided by the photon energy."
  },
  {
   "property": "C78",
   "status": "proved",
   "theorems": [
    "spence_error",
    "spence_identities",
    "spence_negative",
    "photon_muon_spence_error"
   ],
   "note": "Exact real arithmetic with the source's decimal coefficients; floating-point rounding of the evaluation is not bounded."
  },
  {
   "property": "C79",
   "status": "partial",
   "theorems": [
    "xstar_matches",
    "semi_analytic_solves",
    "semi_analytic_underestimates"
   ],
   "note": "The root condition, the default delta and the reported solution are proved. The solution starts from Yeq, not (1+delta) Yeq; starting at the abundance that defines x* leaves strictly more dark matter (semi_analytic_underestimates)."
  },
  {
   "property": "C80",
   "status": "partial",
   "theorems": [
    "decay_contribution",
    "nbody_sum",
    "neutrino_rows",
    "neutrino_rows_partial",
    "neutrino_rows_refuted",
    "two_body_sum",
    "nbody_errors",
    "interp_nodes"
   ],
   "note": "REFUTED: a neutrino in the final state is added to all three flavour rows of flavor=None, which then differ from the results for single flavours; all other clauses are proved, including that a state with a mass but no spectrum raises AssertionError in three or more bodies and is ignored in two. Exact reals, one product energy at a time; single-particle spectra and distributions are parameters."
  },
  {
   "property": "C81",
   "status": "partial",
   "theorems": [
    "lepton_pair_width",
    "pion_widths",
    "three_neutrino_width",
    "three_neutrino_width_refuted"
   ],
   "note": "REFUTED for three neutrinos: the integral of the matrix element is 6/u times the width. Charged-lepton pairs agree up to a proved bound in the tenth power of the mass ratio (the series of the logarithm), pion channels exactly when the quadrature is exact. The state with two different leptons is not covered."
  },
  {
   "property": "C82",
   "status": "partial",
   "theorems": [
    "spectrum_particles_partial",
    "eta_spectrum_refuted",
    "rho_spectrum_refuted",
    "photon_weight_refuted"
   ],
   "note": "REFUTED: the eta channel uses a neutral pion, the charged rho channel a kaon, and photon spectra of states with a conjugate partner have weight two on top of the doubled width. All other states use the n-body spectrum of their own particles."
  },
  {
   "property": "C83",
   "status": "partial",
   "theorems": [
    "boost_conserves",
    "positron_muon_flight_count",
    "positron_muon_flight_refuted",
    "neutrino_muon_flight_count",
    "positron_pion_count",
    "neutrino_pion_count",
    "photon_muon_energy",
    "photon_charged_pion_energy",
    "photon_neutral_rho_energy",
    "photon_charged_rho_energy"
   ],
   "note": "REFUTED: the number of positrons per muon is constant in the muon energy but 3.7 in 10^4 short of one at the constants of the code, and the electron neutrinos of a charged pion count each pi -> e nu twice. Conservation itself is proved in general (any spectrum, any mass, any velocity) and for muons, charged pions and rho mesons; for pions and rho mesons the adaptive quadrature is replaced by an exact rule, for photons of the muon the dilogarithm is characterised by its derivative."
  },
  {
   "property": "C84",
   "status": "partial",
   "theorems": [
    "positron_table_flight",
    "positron_table_rest",
    "neutrino_table_flight",
    "public_positron_parents",
    "public_neutrino_parents",
    "beyond_end_point_refuted"
   ],
   "note": "REFUTED: the boost, the numbers, the energies, the values at the tabulated energies and the mass and files of each parent are proved for every table, but at rest the code continues the last straight line of the table: beyond the end point the positron spectrum of the short kaon is negative (proved from the shipped file, for every energy above it). The quadratic neutrino splines are a parameter with the properties of a spline (continuous, through the points, integral equal to the area inside the data range)."
  },
  {
   "property": "C85",
   "status": "partial",
   "theorems": [
    "positron_elementwise",
    "neutrino_elementwise",
    "positron_array_nan_refuted",
    "scalar_result_refuted",
    "argument_kinds_refuted",
    "unknown_flavor_refuted"
   ],
   "note": "REFUTED: elementwise agreement is proved for floats and float arrays above threshold; refuted for arrays below the electron mass at rest (NaN instead of 0), for numbers below threshold or with a flavour (arrays are returned), for integers, lists and integer arrays of positrons (three different exceptions), and an unknown flavour silently gives zeros."
  },
  {
   "property": "C86",
   "status": "partial",
   "theorems": [
    "modes_conserve_charge",
    "neutrino_modes_lost",
    "rho_charge_refuted",
    "rho_neutrinos_exchanged",
    "neutrino_modes_refuted",
    "short_kaon_one_positron_refuted",
    "long_kaon_flavours_refuted"
   ],
   "note": "REFUTED: charge conservation is proved for all columns but those of the rho, whose charged and neutral neutrino files are exchanged (names and numbers, row by row); ten modes with neutrinos have no neutrino column, among them phi -> K K; a short kaon gives 1.3 positrons per decay, at rest and in flight; K_L -> pi mu nu has as many electron as muon neutrinos. Numbers of the other columns are not modelled."
  },
  {
   "property": "C87",
   "status": "partial",
   "theorems": [
    "width_as_fresh",
    "width_as_fresh_after_reset",
    "hadronic_width_as_fresh",
    "total_width_as_fresh",
    "assignment_ignored",
    "width_as_fresh_refuted",
    "total_width_blind",
    "queries_harmless_refuted",
    "pi0_pi0_width_raises",
    "widths_return"
   ],
   "note": "REFUTED: assigning gvxx, mx, a lepton or neutrino coupling recomputes the width through the still valid cache, so the old width stays (width_as_fresh_refuted, queries_harmless_refuted); the total width is blind to these attributes once asked for. Proved: for every history, a channel whose own attributes were not assigned, or not since the last assignment of the mediator mass or a quark coupling, has the width of a new object; the hadronic widths always do. The pi0 pi0 method always raises. The form-factor widths are a parameter."
  },
  {
   "property": "C88",
   "status": "partial",
   "theorems": [
    "kinetic_mixing_couplings",
    "documented_couplings_refuted",
    "coupling_sign_harmless",
    "bl_couplings",
    "derived_couplings_fixed",
    "eps_assignment_fails",
    "eps_assignment_refuted",
    "bl_assignment_attributes",
    "bl_hadrons_keep_first_coupling",
    "bl_assignment_refuted",
    "bl_assignment_leptons_refuted"
   ],
   "note": "REFUTED: the kinetic-mixing couplings have the sign opposite to the documented one (harmless for widths if the form factors do not see it); assigning eps always raises AttributeError after storing eps; assigning g of the B-L model leaves the form-factor couplings, and cached lepton widths, at the old value. Proved: the couplings the constructors give, and that single couplings cannot be assigned."
  },
  {
   "property": "C89",
   "status": "partial",
   "theorems": [
    "keys_agree",
    "final_states_refuted",
    "neutrino_spectra_value",
    "total_neutrino_refuted",
    "neutrino_lines_value",
    "neutrino_lines_flavour",
    "photon_lines_kinematics",
    "photon_lines_complete",
    "positron_lines_kinematics"
   ],
   "note": "REFUTED: total_neutrino_spectrum returns the whole dictionary; \"v v\" has a cross section and spectra but is no listed final state. Proved: the four dictionaries agree, neutrino_spectra is the weighted spectra and their sum, the lines have two-body energies and the branching fraction of their state."
  },
  {
   "property": "C91",
   "status": "partial",
   "theorems": [
    "matched_iff",
    "matched_refuted",
    "heavy_decay_lost",
    "radiating_pairs_iff",
    "radiating_pair_refuted",
    "pi0_pi0_gamma_kinematics"
   ],
   "note": "REFUTED: of the ten many-body states and three messengers only the photons of pi pi pi0 pi0 fold each particle with its own energies (matched_iff, exact). For pi pi eta, pi pi etap, pi pi omega and pi0 pi0 omega the heavy meson's decays are lost altogether up to twice its mass. The radiation of pi pi pi0 uses a neutral-charged pair; the other states use charged pairs. The distributions are parameters. The boosts and energies of pi0 pi0 gamma are those of its decay chain."
  },
  {
   "property": "C92",
   "status": "partial",
   "theorems": [
    "decays_counted_iff",
    "decays_counted_refuted",
    "radiation_counted_iff",
    "radiation_counted_refuted",
    "four_pions_radiate_like_three",
    "photons_split",
    "two_body_spectra",
    "closed_spectra_zero",
    "pi0_pi0_gamma_photons",
    "pi0_pi0_gamma_photons_refuted"
   ],
   "note": "REFUTED: exact lists of the states that count right are proved for the three messengers. Wrong: kaons for pions in pi pi pi pi (all) and pi pi pi0 pi0 (positron, neutrino), a neutral for a charged pion in pi k k0, both charges of muons and pions for positrons but one of k k for neutrinos; four pions radiate like three and five states with charged particles not at all; pi0 pi0 gamma weighs photons twice with the omega branching ratio. Proved: two-body states have the right energies and factors, closed states give zero."
  },
  {
   "property": "C93",
   "status": "partial",
   "theorems": [
    "rest_frame_complete",
    "photon_vv_closed",
    "photon_vv_boost",
    "photon_vv_lines_refuted",
    "photon_vv_line_energy_refuted",
    "lepton_vv_lost",
    "lepton_vv_refuted",
    "lepton_vv_forbidden_refuted"
   ],
   "note": "REFUTED: positrons and neutrinos of two mediators vanish at every energy above threshold and appear below it (inverted boost factor); the photon lines have no branching fraction and the pion line is at the energy for a charged pion. Proved: the photon continuum at rest is the complete weighted sum, boosted with the right velocity, and zero below threshold. The boost is a parameter."
  },
  {
   "property": "C94",
   "status": "partial",
   "theorems": [
    "alpha_em_frozen_partial",
    "alpha_em_grows_refuted",
    "alpha_em_finite_refuted"
   ],
   "note": "REFUTED: the mask is the wrong way round: the running formula is used below the cut and the constant above, and the value at zero is not a number."
  },
  {
   "property": "C95",
   "status": "partial",
   "theorems": [
    "two_pseudoscalars",
    "pseudoscalar_photon",
    "pseudoscalar_vector",
    "three_pseudoscalars",
    "two_pseudoscalars_vector",
    "vector_first_refuted",
    "unequal_masses"
   ],
   "note": "REFUTED: the two-pion-omega class stores the vector first, and squared_lorentz_structure_ppv takes it last, so for that class the structure is wrong. The structures themselves are proved."
  },
  {
   "property": "C96",
   "status": "proved",
   "theorems": [
    "three_pseudoscalar_width",
    "pseudoscalars_vector_width",
    "pseudoscalars_vector_partial_width"
   ],
   "note": "The quadrature is a parameter assumed to return the area."
  },
  {
   "property": "C97",
   "status": "partial",
   "theorems": [
    "energy_distributions_sample_density",
    "vanishing_form_factor_refuted",
    "invariant_mass_total_partial",
    "invariant_mass_normalised_refuted"
   ],
   "note": "REFUTED: invariant-mass distributions have total minus one half; with a vanishing form factor the first energy distribution is zero and the others are not."
  },
  {
   "property": "C98",
   "status": "partial",
   "theorems": [
    "gounaris_sakurai",
    "gs_continuous_refuted"
   ],
   "note": "REFUTED: the value at s = 0 is a separate formula not equal to the limit. The derivative and resonance statements are proved."
  },
  {
   "property": "C99",
   "status": "partial",
   "theorems": [
    "two_body_width_formula",
    "two_body_width_pointwise",
    "form_factor_scalar_partial",
    "form_factor_scalar_units",
    "neutral_kaon_width_refuted"
   ],
   "note": "REFUTED: five states differ by 1000 between a number and an array, and neutral kaons treat the first array element differently."
  },
  {
   "property": "C90",
   "status": "partial",
   "theorems": [
    "annihilation_is_resonance",
    "hadrons_open_at_their_masses",
    "new_object_width",
    "closed_channels",
    "hadrons_below_dark_matter",
    "total_below_threshold_refuted",
    "leptons_as_in_mev",
    "two_mediators_twice_mev_partial",
    "two_mediators_refuted",
    "massless_limit_doubled",
    "integer_energy_refuted",
    "array_pointwise",
    "array_refuted"
   ],
   "note": "REFUTED: between its own threshold and 2 mx a hadronic cross section is NaN (four pions anywhere below 2 mx), and with it the total; two mediators are twice the MeV class and, without mass, twice the QED value; an integer energy truncates v v to an integer; an array of pi0 pi0 gamma with no open entry raises. Proved: the resonance formula above threshold, the zeros elsewhere, leptons as in the MeV class, arrays with an open entry."
  },
  {
   "property": "C100",
   "status": "partial",
   "theorems": [
    "all_states_but_mediators",
    "default_states",
    "gev_average_partial",
    "gev_average_vanishes",
    "gev_integrand_not_a_number",
    "gev_average_refuted"
   ],
   "note": "REFUTED: v v is never among the averaged states, and from x = 25 on the interval of integration is reversed, where the average is zero or the integrand not a number. Proved: total = averaged + v v, what the flags add, the Gondolo-Gelmini average up to 50 T for x < 25."
  },
  {
   "property": "C101",
   "status": "proved",
   "theorems": [
    "isospin_couplings"
   ],
   "note": "Equivalence: the couplings are the only coefficients of the decomposition; the Example is the photon."
  },
  {
   "property": "C102",
   "status": "proved",
   "theorems": [
    "rare_decay_constraint",
    "rare_decay_unobserved",
    "rare_decay_range",
    "centimetre",
    "constraint_names"
   ],
   "note": ""
  },
  {
   "property": "C103",
   "status": "partial",
   "theorems": [
    "production_width",
    "production_closed",
    "inclusive_width_refuted",
    "inclusive_width"
   ],
   "note": "REFUTED: the inclusive width is that of free quarks, zero at the b quark mass 4180 MeV where the width into a kaon is not; the two-body widths and thresholds are proved"
  },
  {
   "property": "C104",
   "status": "partial",
   "theorems": [
    "rare_decay_evaluable",
    "rare_decay_gap_refuted",
    "stable_mediator_refuted",
    "generic_mediator_refuted"
   ],
   "note": "REFUTED: NaN for K_L -> pi0 e e between 362.6342 and 362.7 MeV and for mediators that cannot decay, AttributeError for models other than the Higgs portal; all other rare decays are proved to give a number"
  },
  {
   "property": "C105",
   "status": "partial",
   "theorems": [
    "beam_dump_events",
    "charm_events",
    "heavy_beam_dump_refuted",
    "stable_beam_dump_refuted",
    "ship_events"
   ],
   "note": "REFUTED: a mediator heavier than the energy of the experiment, or one that cannot decay, fails an assertion; the number of events is proved for all others"
  },
  {
   "property": "C106",
   "status": "proved",
   "theorems": [
    "higgs_invisible"
   ],
   "note": ""
  },
  {
   "property": "C107",
   "status": "proved",
   "theorems": [
    "ckm_unitary",
    "ckm_parameters",
    "ckm_top"
   ],
   "note": ""
  },
  {
   "property": "C108",
   "status": "partial",
   "theorems": [
    "expected_fluxes",
    "signal_flux_photons",
    "flux_errors",
    "unbinned_limit_detectable",
    "binned_limit_allowed",
    "image_agrees_with_limit_partial",
    "image_units_refuted"
   ],
   "note": "REFUTED: the image of constrain_binned_gamma uses the cross section in MeV^-2 without conversion, so its sign does not say whether the model is allowed; it does with converted units (image_agrees_with_limit_partial); fluxes and limits are proved"
  },
  {
   "property": "C109",
   "status": "partial",
   "theorems": [
    "fisher_symmetric_nonnegative",
    "fisher_rate_limit",
    "fisher_limit_errors",
    "fisher_background_refuted"
   ],
   "note": "REFUTED: the derivatives of the background lack the solid angle, so the limits on background parameters are off by it; the limit on the rate does not depend on that and is proved"
  },
  {
   "property": "C110",
   "status": "partial",
   "theorems": [
    "galactic_partial_derivatives",
    "galactic_zero_amplitude_refuted",
    "background_names",
    "galactic_params_partial",
    "galactic_params_refuted",
    "gecco_derivatives_partial",
    "gecco_index_refuted"
   ],
   "note": "REFUTED: params reports the cutoff as the exponential index; the GECCO derivative with respect to the index has the wrong sign; NaN for a zero amplitude; everything else is proved"
  },
  {
   "property": "C111",
   "status": "partial",
   "theorems": [
    "level_sets_partial",
    "level_sets_refuted"
   ],
   "note": "REFUTED: contours are shrunk by (n - 1)/n along both axes; the first pixel is right"
  },
  {
   "property": "C112",
   "status": "proved",
   "theorems": [
    "relic_limit_observed",
    "relic_limit_nan"
   ],
   "note": ""
  },
  {
   "property": "C113",
   "status": "partial",
   "theorems": [
    "response_normalised",
    "response_width",
    "convolution_keeps_photons",
    "perfect_resolution_refuted",
    "marginal_average",
    "marginal_method_refuted"
   ],
   "note": "REFUTED: a detector with zero width loses all photons and the documented method \"trapezoid\" fails an assertion; normalisation, width, photon number and average are proved"
  },
  {
   "property": "C114",
   "status": "partial",
   "theorems": [
    "cone_is_area",
    "table_solid_angles",
    "table_box",
    "tables_consistent_partial",
    "nominal_box_refuted",
    "old_targets_partial",
    "old_targets_refuted",
    "optimistic_exceeds"
   ],
   "note": "REFUTED: the box of the nominal galactic-centre tables has the optimistic values, the old EGRET and Fermi targets are twice the new ones; solid angles and the other entries are proved"
  },
  {
   "property": "C115",
   "status": "proved",
   "theorems": [
    "four_pi_current_conserved"
   ],
   "note": "Both modes, for real arithmetic."
  },
  {
   "property": "C116",
   "status": "proved",
   "theorems": [
    "four_pi_msqrd_rest_frame",
    "four_pi_msqrd_nonneg"
   ],
   "note": "Both modes."
  },
  {
   "property": "C117",
   "status": "proved",
   "theorems": [
    "four_pi_exchange"
   ],
   "note": "Both modes."
  },
  {
   "property": "C118",
   "status": "proved",
   "theorems": [
    "four_pi_lorentz_invariant"
   ],
   "note": "For every linear map that preserves the product."
  },
  {
   "property": "C119",
   "status": "partial",
   "theorems": [
    "four_pi_assignment_refuted",
    "four_pi_exchange"
   ],
   "note": "REFUTED: the sampler lists the charged pions first, the current takes its first two momenta as the neutral ones. Witness with the f0 channel alone; four_pi_exchange shows the roles are swapped for every fit."
  },
  {
   "property": "C120",
   "status": "partial",
   "theorems": [
    "four_pi_rho_weights_refuted"
   ],
   "note": "REFUTED: beta_t_rho2 is read from entry 1, entry 2 is never used."
  },
  {
   "property": "C121",
   "status": "proved",
   "theorems": [
    "four_pi_rho_propagator",
    "four_pi_rho_combinations_normalised",
    "four_pi_poles"
   ],
   "note": "Real arithmetic."
  },
  {
   "property": "C122",
   "status": "partial",
   "theorems": [
    "four_pi_form_factor_refuted"
   ],
   "note": "REFUTED: the energy overwrites the second momentum; every call raises IndexError."
  },
  {
   "property": "C123",
   "status": "partial",
   "theorems": [
    "four_pi_a1_width_refuted"
   ],
   "note": "REFUTED: negative between (2 m_pi + m_pi0)^2 and 9 m_pi^2 and a jump where the parametrisation switches; positive above 9 m_pi^2 (proved)."
  },
  {
   "property": "C124",
   "status": "proved",
   "theorems": [
    "form_factors_linear",
    "g_parity_selection",
    "wrong_g_parity_vanishes"
   ],
   "note": "The three-pion fit has a deliberate isospin-breaking term and is only in the linearity part."
  },
  {
   "property": "C125",
   "status": "partial",
   "theorems": [
    "no_two_neutral_pions_refuted",
    "neutral_pions_follow_charged"
   ],
   "note": "REFUTED: the form factor of two neutral pions is sqrt 2 times the isovector sum of rho propagators, which is not zero (witness: the rho alone at its mass with photon couplings)."
  },
  {
   "property": "C126",
   "status": "partial",
   "theorems": [
    "couplings_normalised",
    "kaon_charges_partial",
    "neutral_kaon_charge_refuted"
   ],
   "note": "REFUTED for the K0 at the first energy of the array, whose strange part carries an extra factor 1.055; the sum rules, the K+ and the K0 at the other energies are proved. That each propagator is one at zero momentum is C98, and is taken as the hypothesis that each family adds up to one."
  },
  {
   "property": "C127",
   "status": "partial",
   "theorems": [
    "find_beta_solves_refuted",
    "find_beta_visits_solution",
    "c_0_is_gamma_ratio"
   ],
   "note": "REFUTED: for c0 = 3/2 = c_0(3) the search raises RuntimeError, and for c0 = 3/2 - 1e-11 it returns 2 although c_0(2) = 1. Proved: c_0 is the ratio of gamma functions, and a value returned is close to a visited solution."
  },
  {
   "property": "C128",
   "status": "proved",
   "theorems": [
    "gamma_generator_values",
    "tower_recurrence"
   ],
   "note": "The gamma function is any function with its functional equation (and the reflection formula for the first term)."
  },
  {
   "property": "C129",
   "status": "proved",
   "theorems": [
    "three_pions_symmetric"
   ],
   "note": ""
  },
  {
   "property": "C130",
   "status": "proved",
   "theorems": [
    "running_widths"
   ],
   "note": ""
  },
  {
   "property": "C131",
   "status": "proved",
   "theorems": [
    "kaon_pion_symmetries"
   ],
   "note": ""
  },
  {
   "property": "C132",
   "status": "partial",
   "theorems": [
    "kstar_isospin_refuted",
    "kstar_charge_refuted"
   ],
   "note": "REFUTED: in the state with a charged pion the factor sqrt 2 is missing and the amplitudes of the neutral and charged K* are exchanged."
  },
  {
   "property": "C133",
   "status": "proved",
   "theorems": [
    "pion_photon_anomaly"
   ],
   "note": ""
  },
  {
   "property": "C134",
   "status": "proved",
   "theorems": [
    "propagators_resonate",
    "coefficients_of_resonances"
   ],
   "note": ""
  },
  {
   "property": "C135",
   "status": "proved",
   "theorems": [
    "mixing_diagonalises",
    "mixing_eigenvector_exists",
    "no_mixing"
   ],
   "note": "The eigenvector exists for angles below sqrt 3 / 2."
  },
  {
   "property": "C136",
   "status": "partial",
   "theorems": [
    "fermion_widths",
    "photon_width_value",
    "photon_width_anomaly_refuted",
    "photon_width_defined_refuted"
   ],
   "note": "REFUTED: the width to photons is half of the anomaly width and negative (an assertion) for some couplings; the lepton widths are as stated."
  },
  {
   "property": "C137",
   "status": "partial",
   "theorems": [
    "fermion_cross_section",
    "photon_cross_section",
    "dark_matter_width_refuted",
    "unitarity_if_widths_add_up",
    "unitarity_refuted"
   ],
   "note": "REFUTED: the width to dark matter is a quarter of the right one, so that the cross section on the resonance exceeds the bound four times; the Breit-Wigner forms and the bound for right widths are proved."
  },
  {
   "property": "C138",
   "status": "partial",
   "theorems": [
    "charged_pions_weinberg",
    "neutral_pions_weinberg",
    "three_pion_cross_sections",
    "charged_width_refuted",
    "neutral_width_refuted"
   ],
   "note": "REFUTED: the matrix elements are as stated; the charged differential width and cross section lack a term in the amplitude, the neutral ones the factor 1/6."
  },
  {
   "property": "C139",
   "status": "partial",
   "theorems": [
    "mediator_pairs_never",
    "three_pions_never",
    "annihilation_table_refuted"
   ],
   "note": "REFUTED: no model and energy has these cross sections; every call raises."
  },
  {
   "property": "C140",
   "status": "partial",
   "theorems": [
    "neutral_exchange_refuted",
    "radiation_factorises",
    "radiation_nonneg",
    "radiation_soft"
   ],
   "note": "REFUTED: the neutral matrix element is not symmetric; the statements about radiation are proved."
  },
  {
   "property": "C141",
   "status": "proved",
   "theorems": [
    "fermion_radiation"
   ],
   "note": ""
  },
  {
   "property": "C142",
   "status": "partial",
   "theorems": [
    "assignment_fresh",
    "assignments_fresh",
    "mfv_assignment_fresh",
    "mfv_assignment_refuted"
   ],
   "note": "REFUTED: for minimal flavour violation an assignment may raise where the new object exists; otherwise proved."
  },
  {
   "property": "C143",
   "status": "partial",
   "theorems": [
    "axial_annihilation",
    "massive_vector_refuted",
    "axial_soft_photon"
   ],
   "note": "REFUTED: the longitudinal part of the propagator is missing; with -g for the propagator the statement is proved."
  },
  {
   "property": "C144",
   "status": "partial",
   "theorems": [
    "photon_muon_port",
    "photon_charged_pion_port",
    "photon_neutral_pion_port",
    "positron_muon_port",
    "positron_charged_pion_port",
    "positron_endpoint_port",
    "boost_delta_port",
    "boost_table_port",
    "boost_table_nan_refuted"
   ],
   "note": "Proved for real arithmetic: every function of the two languages is the same, errors included. REFUTED for NaN: the Cython table integral raises IndexError where the Rust one returns NaN or panics."
  },
  {
   "property": "C145",
   "status": "partial",
   "theorems": [
    "pdg_constants_port",
    "legacy_constants_port",
    "masses_agree",
    "one_value_refuted",
    "legacy_branching_totals",
    "branching_totals_refuted"
   ],
   "note": "REFUTED: the fine structure constant has three values, the width of the rho two, the charged pion mass two; branching ratios of the rho add up to 1.0098. Proved: the Rust tables are those of Cython, the masses of parameters.py are those of constants.pxd, legacy totals are at most 1."
  },
  {
   "property": "C146",
   "status": "partial",
   "theorems": [
    "pion_literals_legacy",
    "pion_literals_refuted",
    "eng_gam_max_muons",
    "eng_gam_max_refuted"
   ],
   "note": "REFUTED: the literals belong to the legacy masses, not to the masses used; photons of pi -> e nu gamma lie above eng_gam_max. Proved: the literals match the legacy masses to 10^-14; muons emit nothing above eng_gam_max."
  },
  {
   "property": "C147",
   "status": "partial",
   "theorems": [
    "boost_eng_invariant",
    "boost_jac_massless",
    "boost_jac_partial",
    "boost_jac_refuted"
   ],
   "note": "REFUTED for massive daughters: boost_jac is the determinant times the velocity of the daughter in the rest frame. Proved: boost_eng is right, boost_jac is right for massless daughters."
  },
  {
   "property": "C148",
   "status": "partial",
   "theorems": [
    "power_over_factor",
    "power_over_x_refuted",
    "power_over_power_partial",
    "power_over_power_refuted",
    "polynomial_over_factor",
    "polynomial_over_product_partial",
    "polynomial_over_product_refuted"
   ],
   "note": "REFUTED: at z = 0 the power is one too low; the logarithm of integral_power_div_monomial has the coefficient z^n without the binomial; integral_poly_div_simple_factored integrates the squared numerator over the denominator. Proved: the simple forms away from z = 0, the exact error of the second, what the third integrates and when it is right."
  },
  {
   "property": "C149",
   "status": "proved",
   "theorems": [
    "old_two_pseudoscalars",
    "old_pseudoscalar_vector",
    "old_three_pseudoscalars"
   ],
   "note": ""
  },
  {
   "property": "C150",
   "status": "partial",
   "theorems": [
    "old_width_two_pseudoscalars",
    "old_width_photon",
    "old_width_vector",
    "old_widths_closed",
    "old_cross_sections_partial",
    "width_to_cs_coupling_refuted",
    "old_cross_sections_refuted"
   ],
   "note": "REFUTED: width_to_cs lacks the coupling of its docstring, the photon cross section has a further factor s, cross_section and the four-pion cross section are twice too large. Proved: all widths, and the other cross sections."
  },
  {
   "property": "C151",
   "status": "partial",
   "theorems": [
    "old_width_pi_pi_eta",
    "old_width_pi_pi_eta_closed",
    "old_width_pi_pi_omega",
    "old_width_omega_neutral_refuted",
    "old_width_three_pions_partial",
    "old_width_pi_k_k",
    "old_width_three_pions_refuted"
   ],
   "note": "REFUTED: three pions compare a squared energy with a sum of masses and vanish up to 644 MeV; neutral pi pi omega uses the threshold of charged pions. Proved: the widths above these."
  },
  {
   "property": "C152",
   "status": "partial",
   "theorems": [
    "old_distributions_eta",
    "old_distributions_etap",
    "old_distributions_closed",
    "old_distributions_omega",
    "old_distributions_omega_other",
    "old_distributions_one_bin_refuted",
    "old_conversion_partial",
    "old_conversion_refuted",
    "old_pi_k_k_bins_refuted"
   ],
   "note": "REFUTED: the conversion to MeV divides the energies by 1000, pi K K mixes GeV masses with an energy in MeV, one bin gives NaN, pi pi eta' raises ZeroDivisionError below threshold. Proved: pi pi eta, eta' and omega above threshold."
  },
  {
   "property": "C153",
   "status": "partial",
   "theorems": [
    "old_base_properties_partial",
    "old_base_gvxx_refuted"
   ],
   "note": "REFUTED: gvxx returns gvuu. Proved: the other ten."
  },
  {
   "property": "C154",
   "status": "partial",
   "theorems": [
    "legacy_charged_meson_partial",
    "legacy_charged_meson_threshold",
    "legacy_charged_meson_refuted",
    "legacy_neutral_meson_inverted",
    "legacy_neutral_meson_refuted",
    "legacy_photon_width_refuted",
    "legacy_two_photons_refuted",
    "legacy_pion_pair_partial",
    "legacy_pion_pair_refuted",
    "legacy_pion_current_partial",
    "legacy_pion_current_refuted"
   ],
   "note": "REFUTED: each width is related exactly to the golden rule (or to the present class), and the difference is proved: one factor sin(theta) missing, inverted threshold, 1/cos^2(theta_W), a term missing in a Kallen function, pi^4, the angle in place of its sine."
  },
  {
   "property": "C155",
   "status": "partial",
   "theorems": [
    "legacy_two_flavours",
    "legacy_two_flavours_symmetric",
    "legacy_lepton_pair_partial",
    "legacy_lepton_pair_refuted",
    "legacy_three_neutrinos_partial",
    "legacy_three_neutrinos_refuted",
    "legacy_neutrino_flavours",
    "legacy_lepton_order",
    "legacy_lepton_index_refuted"
   ],
   "note": "REFUTED: the charged-current width is the golden rule for all masses; the neutral-current ones are it with a coupling enhanced by 1/cos^2(theta_W), so not the golden rule; the tau raises IndexError."
  },
  {
   "property": "C156",
   "status": "proved",
   "theorems": [
    "legacy_meson_radiation",
    "legacy_radiation_range",
    "legacy_splitting",
    "legacy_positrons"
   ],
   "note": "The squared amplitude is specified by traces of slashed vectors and a sum over polarisations; the closed form of the code is its integral over the Dalitz region."
  },
  {
   "property": "C157",
   "status": "partial",
   "theorems": [
    "title_check_exact",
    "title_exit_exact",
    "title_newline_refuted"
   ],
   "note": "REFUTED: exact for all titles without line feed and for all standard input; with a line feed at the end of the scope a bad title is accepted, because $ matches before it. str.isalnum is a parameter."
  },
  {
   "property": "C158",
   "status": "partial",
   "theorems": [
    "citation_resolved",
    "citation_found",
    "citation_unresolved",
    "citations_pass_iff",
    "citation_map_refuted"
   ],
   "note": "REFUTED: the resolver is right without overrides; --map takes every citation with the base name, also one of another package. The regular expression that finds the citations is not modelled."
  },
  {
   "property": "C159",
   "status": "proved",
   "theorems": [
    "task_status_exact",
    "task_key_written",
    "next_task_exact",
    "task_by_id"
   ],
   "note": "The order of ids is that of the numbers and letters for every id of dotted numbers and letters."
  },
  {
   "property": "C160",
   "status": "partial",
   "theorems": [
    "task_table_round_trip",
    "escaped_bar_refuted",
    "link_note_refuted",
    "table_end_refuted"
   ],
   "note": "REFUTED: tables of plain cells are read back; an escaped bar shifts the cells, a note written as a link gives another slug, prose does not end the table, and a heading directly after the heading Tasks does not end the search."
  },
  {
   "property": "C161",
   "status": "partial",
   "theorems": [
    "phase_id_forms",
    "phase_id_canonical",
    "phase_order",
    "phase_order_numbers",
    "phase_prefix_agrees",
    "phase_frontmatter_refuted"
   ],
   "note": "REFUTED: the ids are as stated; the frontmatter wins also when it is inconsistent with the name, and of two files with one id the first is lost."
  },
  {
   "property": "C162",
   "status": "partial",
   "theorems": [
    "prerequisites_exact",
    "prerequisites_plural_refuted"
   ],
   "note": "REFUTED: exact for mentions of the form Phase and number; \"Phases 04 and 05 complete.\" counts as prose without prerequisites."
  },
  {
   "property": "C163",
   "status": "partial",
   "theorems": [
    "loaded_phases",
    "frontier_exact",
    "next_phase_exact",
    "target_phase_exact",
    "offered_phases_eligible",
    "completed_phase_exact",
    "phases_progress",
    "ready_prerequisites_refuted",
    "ready_only_refuted"
   ],
   "note": "REFUTED: exact in terms of the extracted prerequisites; with the prose of phase 6 of projects/cython-to-rust a phase is ready while a phase it names is in progress, and with --completed-phase ready does not mean that only one phase is eligible."
  },
  {
   "property": "C164",
   "status": "partial",
   "theorems": [
    "task_directory_agrees",
    "task_status_agrees",
    "scripts_agree_refuted"
   ],
   "note": "REFUTED: they agree for prefixes of digits and plain statuses; not for 08a or 03_1, nor for an annotated or quoted Complete."
  },
  {
   "property": "C165",
   "status": "partial",
   "theorems": [
    "trees_agree_on_widths",
    "trees_agree_on_pion_photon_refuted"
   ],
   "note": "REFUTED: into a pion and a photon the widths differ by more than a factor of ten for a coupling to strange quarks alone at 2 GeV; proved equal for every other state, all energies and couplings"
  },
  {
   "property": "C166",
   "status": "partial",
   "theorems": [
    "trees_agree_on_cross_sections",
    "trees_agree_below_threshold_refuted"
   ],
   "note": "REFUTED: below the threshold of the final state the old tree gives a value that is not a number, the new one zero; proved equal up to gvxx^2 above the thresholds away from a real pole, for every state but pion and photon"
  },
  {
   "property": "C167",
   "status": "partial",
   "theorems": [
    "trees_agree_on_three_pions",
    "trees_agree_on_two_kaons_and_a_pion",
    "trees_agree_on_pi_pi_eta",
    "trees_agree_on_pi_pi_etap",
    "trees_agree_on_pi_pi_omega",
    "trees_agree_on_neutral_pi_pi_omega_refuted"
   ],
   "note": "REFUTED: into two neutral pions and an omega the old tree uses the mass of the charged pion; proved for the other states, with the quadratures exact"
  },
  {
   "property": "C168",
   "status": "partial",
   "theorems": [
    "decay_spectra_count_neutral_pairs",
    "decay_spectra_halve_charged_pairs",
    "decay_spectra_vanish_when_closed",
    "decay_spectra_match_annihilation",
    "decay_spectra_match_annihilation_everywhere_refuted",
    "decay_spectra_exist_refuted"
   ],
   "note": "REFUTED: pairs of charged particles give half their photons and the states with a phi or with more than two particles have no spectrum at all; the four pairs of neutral particles are right, and closed states give zero."
  },
  {
   "property": "C169",
   "status": "partial",
   "theorems": [
    "assignments_followed",
    "momenta_function_stays",
    "assignments_followed_refuted"
   ],
   "note": "REFUTED: an object made for functions of momenta keeps its first function whatever is assigned, and one made without a function calls the assigned one with the wrong arguments; every other history is followed."
  },
  {
   "property": "C170",
   "status": "proved",
   "theorems": [
    "energy_density_exact",
    "quad_total_is_energy_integral",
    "invariant_mass_density_exact"
   ],
   "note": "Real arithmetic, exact quadrature; energies strictly between the limits."
  },
  {
   "property": "C171",
   "status": "partial",
   "theorems": [
    "energy_distributions_sampled",
    "invariant_mass_distributions_sampled",
    "bin_number_refuted",
    "methods_checked",
    "below_threshold_accepted_refuted"
   ],
   "note": "REFUTED: one bin is missing and one bin raises; below threshold any method integrates to zero and the energy distributions are all zero. Limits, normalisation, proportions and the check of methods above threshold are proved."
  },
  {
   "property": "C172",
   "status": "partial",
   "theorems": [
    "two_body_assignments_followed",
    "two_body_momenta_event",
    "two_body_integral_exact",
    "two_body_volume_refuted"
   ],
   "note": "REFUTED: without a function and with msqrd_signature='momenta' the default function is called with the array of momenta and gives an array, which quad cannot integrate, so there is no value; with the signature 'z' it is the volume. Proved: the assignments, the momenta, and the integral with both kinds of functions."
  },
  {
   "property": "C173",
   "status": "partial",
   "theorems": [
    "rambo_energy_distributions_exact",
    "rambo_invariant_mass_distributions_exact",
    "rambo_batches_raise",
    "rambo_batches_agree_refuted"
   ],
   "note": "REFUTED: in batches both methods raise for every sample, since the arrays made to hold the sums are whole numbers and numpy refuses to add floats to them in place. Proved in one go, for all events."
  },
  {
   "property": "C174",
   "status": "partial",
   "theorems": [
    "rambo_integral_one_go",
    "rambo_integral_batches",
    "rambo_two_body_rates",
    "rambo_error_refuted"
   ],
   "note": "REFUTED: in batches of one event the error is zero whatever the weights, since each deviation is NaN and nansum leaves it out. Proved: the averages, the errors of batches of two or more and of one go, and the two-body rates."
  },
  {
   "property": "C175",
   "status": "partial",
   "theorems": [
    "elastic_cross_sections_equal_mass_kinematics",
    "elastic_below_twice_the_mass",
    "elastic_vertices_give_the_widths",
    "elastic_photon_too_small",
    "elastic_mediator_at_twice_the_mass",
    "elastic_photon_golden_rule_refuted"
   ],
   "note": "REFUTED: the closed forms use the limits and the flux of two particles of mass mx instead of those of the dark matter and its target. Proved: above e = 2 mx they are exactly the golden rule with the target as heavy as the dark matter (leptons without the square of the Higgs vacuum value, neutral pions halved, mediators while u stays below mx^2); below 2 mx they integrate over positive momentum transfers; the vertices are those of the widths; off photons the code is strictly too small at every e >= 2 mx."
  },
  {
   "property": "C176",
   "status": "partial",
   "theorems": [
    "annihilation_into_mediators_golden_rule",
    "self_interaction_amplitudes",
    "self_interaction_energy_times_golden_rule",
    "self_interaction_golden_rule_refuted",
    "spin_sums_are_matrix_traces",
    "dirac_matrices"
   ],
   "note": "REFUTED: annihilation into two mediators and both squared amplitudes of the self-interaction are proved equal to the spin sums of the diagrams, but the cross sections of the self-interaction divide by the energy instead of its square, so they are the energy times the golden rule. The spin sums are proved to be traces of the Dirac matrices written out (spin_sums_are_matrix_traces)."
  },
  {
   "property": "C177",
   "status": "partial",
   "theorems": [
    "distribution_function",
    "distribution_limits",
    "expect_methods",
    "expect_quad_affine",
    "expect_flat",
    "expect_methods_refuted"
   ],
   "note": "REFUTED: the function and the choice of method are proved as claimed; the expectation values of all three methods leave out the outer halves of the first and last bin, with the exact loss proved for a flat distribution and the difference of quad and trapz for any distribution."
  },
  {
   "property": "C178",
   "status": "partial",
   "theorems": [
    "vector_widths_from_diagrams",
    "annihilation_through_mediators_golden_rule",
    "annihilation_through_anomaly_ninth",
    "annihilation_through_anomaly_refuted",
    "fermions_from_matrices",
    "spin_sums_are_matrix_traces",
    "dirac_matrices",
    "documented_anomaly"
   ],
   "note": "REFUTED: the cross sections into a neutral pion and a photon and into a neutral pion and a mediator are exactly one ninth of the golden rule with the coupling of the anomaly (annihilation_through_anomaly_ninth, witness in annihilation_through_anomaly_refuted); the width into a neutral pion and a photon has the colours. The widths and the other cross sections agree for all parameters. The spin sums are proved to be traces of the Dirac matrices written out (spin_sums_are_matrix_traces)."
  },
  {
   "property": "C179",
   "status": "proved",
   "theorems": [
    "table_read_back",
    "column_of_mass",
    "pbh_refusals",
    "gram_in_mev"
   ],
   "note": "Numbers are reals: rounding to binary64 is left out. Of the texts float accepts, inf, nan and underscores between digits are left out."
  },
  {
   "property": "C180",
   "status": "partial",
   "theorems": [
    "black_hole_spectrum",
    "fraction_not_in_the_spectrum",
    "black_hole_queries_refuted"
   ],
   "note": "REFUTED: the part on photons is proved; list_decay_final_states gives None (the class defines list_final_decay_states) and positron_spectra, total_positron_spectrum and positron_lines raise AttributeError because the two positron methods are not defined."
  },
  {
   "property": "C181",
   "status": "partial",
   "theorems": [
    "scalar_widths_from_diagrams",
    "annihilation_through_scalar_golden_rule",
    "documented_pions_differ",
    "documented_width_refuted"
   ],
   "note": "REFUTED: the formulas of the code follow from the amplitudes (proved); the Lagrangian in docs/source/scalar_mediator.rst has 2 gSG / (3 Lambda) in the mass term of the pions where the code and the low-energy theorem have 2 gSG / Lambda, so the documented width of two pions is another."
  },
  {
   "property": "C182",
   "status": "proved",
   "theorems": [
    "hadron_cross_sections_from_currents"
   ],
   "note": "Stated for one energy (an array of length one, as the code makes of a scalar); the widths are C95. Two neutral pions are counted without the factor one half of identical particles on both sides (C125 is about their form factor)."
  },
  {
   "property": "C183",
   "status": "partial",
   "theorems": [
    "telescope_limits",
    "telescope_refuses",
    "telescope_one_bin",
    "composite_keeps_the_last",
    "four_telescopes",
    "telescope_half_limit",
    "telescope_default_refuted",
    "composite_loses_one_refuted"
   ],
   "note": "REFUTED: the constrainers default to the chi-squared method where binned_limit defaults to one bin, so a model whose flux at unit cross section is below the data is bounded by one and not by the other; a composite is a dictionary by name and keeps only the last of two limits from the same telescope. EGRET and Fermi use the old targets, so that annihilation limits by one bin are exactly half of those for the NFW targets of the tables. Proved: values per model and order, refusals, agreement when asked for one bin, and what a composite keeps."
  },
  {
   "property": "C184",
   "status": "partial",
   "theorems": [
    "background_warning",
    "power_law_backgrounds",
    "table_background",
    "background_nan_refuted",
    "default_background_at_zero_refuted"
   ],
   "note": "REFUTED: no background returns NaN outside its range (the docstring says so): the power laws are extrapolated and the table raises ValueError, also for the energies of the array inside the range. The range of the default background contains zero, where a float raises ZeroDivisionError. Proved: when a warning is issued and for which energy, the values of the power laws, and range and interpolation of a table."
  },
  {
   "property": "C185",
   "status": "partial",
   "theorems": [
    "parent_guard",
    "below_threshold_zero",
    "grid_is_elementwise",
    "entries_are_wired",
    "finite_parent_refused_refuted"
   ],
   "note": "REFUTED: the comment that only NaN is refused: an eta of 10^12 MeV is (its velocity rounds to 1). Proved for every number type: the guard, the zeros, the grid and the wiring. A panic inside a kernel is written as an exception."
  },
  {
   "property": "C186",
   "status": "partial",
   "theorems": [
    "table_read",
    "empty_table_refused",
    "malformed_line_refused",
    "table_read_real",
    "ragged_table_refused_refuted"
   ],
   "note": "REFUTED: the documentation says that a ragged file panics; rows of different lengths are read. The other parts are proved for every number type; the reader of a number is arbitrary, and white space beyond U+00FF is left out."
  },
  {
   "property": "C187",
   "status": "partial",
   "theorems": [
    "nan_energy_is_nan",
    "nan_energy_below_threshold_refuted"
   ],
   "note": "REFUTED: below the mass of the parent the answer is zero (the same comment also says so, so its two sentences disagree). Proved for every parent at or above its mass."
  },
  {
   "property": "C188",
   "status": "partial",
   "theorems": [
    "axial_cross_sections_vanish",
    "axial_unknown_fermion",
    "axial_cross_section_refuted",
    "axial_branching_attribute",
    "axial_branching_refuted",
    "axial_branching_sum"
   ],
   "note": "REFUTED: every cross section is zero, also where the squared matrix element of the same package is positive, and the branching fractions ask for a method cross_sections that no class of the package source defines (AttributeError). Proved: the names and zeros of the answer; the fractions would sum to one with that method."
  }
 ]
}