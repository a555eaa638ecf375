{"id": "C01", "title": "Annihilation branching fractions are a probability distribution", "statement": "For any theory, annihilation_cross_sections(e_cm) holds every final state plus a 'total' entry equal to the sum of the others, and annihilation_branching_fractions(e_cm) has exactly the final states as keys (no 'total'), each value being that state's share of the total; the shares lie in [0,1] and add up to 1 whenever some cross section is positive, and are all 0 when the total vanishes.", "quantifier": "every dictionary of final states to non-negative cross-section functions and every centre-of-mass energy", "why_tests_cant": "Tests check a handful of models at a few energies; the claim is about any subclass of the theory base class, with any set of final states.", "anchors": ["hazma/theory/__init__.py: TheoryAnn.annihilation_cross_sections", "hazma/theory/__init__.py: TheoryAnn.annihilation_branching_fractions"]}
{"id": "C02", "title": "Total annihilation spectrum is the branching-fraction-weighted sum over open channels", "statement": "spectra(e_gams, e_cm)['total'] equals the sum over final states of branching fraction times that state's own spectrum, closed channels contribute exactly zero without calling their spectrum function, and total_spectrum of a scalar energy agrees with total_spectrum of the one-element array.", "quantifier": "every theory whose continuum dictionary covers its final states, every energy list and centre-of-mass energy", "why_tests_cant": "A property of the aggregation code for arbitrary user-defined theories; tests only exercise the shipped models.", "anchors": ["hazma/theory/__init__.py: TheoryAnn.spectrum_funcs", "hazma/theory/__init__.py: TheoryAnn.spectra", "hazma/theory/__init__.py: TheoryAnn.total_spectrum"]}
{"id": "C03", "title": "A theory may supply continuum spectra only for the channels that have one", "statement": "The base class asks a subclass for a spectrum function 'for annihilation into each final state that produces a continuum spectrum'. A theory with an open channel that has no continuum entry (such as a pure line channel) should still get spectra, that channel contributing no continuum.", "quantifier": "every theory with an open final state absent from its continuum dictionary", "why_tests_cant": "Shipped models override the aggregation, so no test hits the missing-key path; the claim quantifies over all subclasses that follow the documentation.", "anchors": ["hazma/theory/__init__.py: TheoryAnn._spectrum_funcs", "hazma/theory/__init__.py: TheoryAnn.spectrum_funcs", "hazma/theory/__init__.py: TheoryAnn.spectra"]}
{"id": "C04", "title": "Decaying theory: each final state's positron function is that final state's spectrum", "statement": "positron_spectrum_funcs() of a decaying theory maps every final state to a function that returns that final state's positron spectrum when its width is positive and zero otherwise; total_positron_spectrum is the branching-fraction-weighted sum of those.", "quantifier": "every decaying theory with any number of final states, every energy list", "why_tests_cant": "Models with one channel cannot distinguish the channels; the claim is over any number of channels in any order.", "anchors": ["hazma/theory/__init__.py: TheoryDec.positron_spectrum_funcs", "hazma/theory/__init__.py: TheoryDec.positron_spectra"]}
{"id": "C05", "title": "Decaying theory: gamma-ray spectra and widths aggregate correctly", "statement": "decay_widths() has a 'total' equal to the sum of partial widths; decay_branching_fractions() add to 1 when the total is non-zero; the total photon spectrum is the sum over final states of branching fraction times spectrum, with zero for channels of zero width.", "quantifier": "every decaying theory with non-negative partial widths", "why_tests_cant": "Holds for arbitrary subclasses and any number of channels.", "anchors": ["hazma/theory/__init__.py: TheoryDec.decay_widths", "hazma/theory/__init__.py: TheoryDec.decay_branching_fractions", "hazma/theory/__init__.py: TheoryDec.spectrum_funcs", "hazma/theory/__init__.py: TheoryDec.spectra"]}
{"id": "C06", "title": "Parameter-plane constraint image: every pixel is the constraint at its own point", "statement": "constrain(p1, p1_vals, p2, p2_vals) returns for each constraint an image with len(p2_vals) rows and len(p1_vals) columns in which entry [j,i] is the value of that constraint with p1 set to p1_vals[i] and p2 set to p2_vals[j], independently of the order of evaluation; naming the same parameter twice raises ValueError before anything is changed.", "quantifier": "every pair of parameters, every two lists of values (any lengths), every set of constraint functions of the parameters", "why_tests_cant": "The quantification is over grid sizes, orders and constraint functions; tests use one small grid.", "anchors": ["hazma/theory/_theory_constrain.py: TheoryConstrain.constrain"]}
{"id": "C07", "title": "Custom parameter grid: one pixel per grid point, for grids of any shape", "statement": "custom_constrain(param_grid) returns, for an n-by-m grid of theories, an n-by-m image per constraint whose [i,j] entry is the constraint evaluated at param_grid[i,j].", "quantifier": "every rectangular grid", "why_tests_cant": "Square grids behave; only the general statement over all shapes exposes the difference.", "anchors": ["hazma/theory/_theory_constrain.py: TheoryConstrain.custom_constrain"]}
{"id": "C08", "title": "convert_sigmav converts between its two documented unit systems and back", "statement": "For both documented targets ('cm^3/s' and 'MeV^-2') convert_sigmav returns a number, converting there and back gives the original value, and positive values stay positive.", "quantifier": "every value of <sigma v> and both documented target names", "why_tests_cant": "Round trips must hold for every value; and the documented names must be the accepted ones.", "anchors": ["hazma/parameters.py: convert_sigmav"]}
{"id": "C09", "title": "CMB limit saturates the published bound", "statement": "The returned limit sv satisfies f_eff * sv / m_x = p_ann exactly; f_eff is the photon part plus the electron part; every line at energy E with branching fraction b adds multiplicity * b * E * f(E) / e_cm where the multiplicity is 2 exactly when the channel is two of that particle; the limit never increases when the efficiency increases.", "quantifier": "every dark-matter mass, kinetic-decoupling parameter, efficiency table and set of lines", "why_tests_cant": "Quantifies over all models and efficiency functions; tests compare stored numbers.", "anchors": ["hazma/theory/_theory_cmb.py: TheoryCMB.cmb_limit", "hazma/theory/_theory_cmb.py: TheoryCMB._f_eff_helper", "hazma/limits/_cmb.py: CMBLimit._constrain"]}
{"id": "C10", "title": "The CMBLimit constrainer computes the same limit as the theory method", "statement": "For any model, CMBLimit(x_kd, p_ann).constrain returns, per model, the value the model's own cmb_limit(x_kd, p_ann) gives.", "quantifier": "every model and parameter choice", "why_tests_cant": "Needs an equality over all models; no test calls this constrainer on a model.", "anchors": ["hazma/limits/_cmb.py: CMBLimit", "hazma/theory/_theory_cmb.py: TheoryCMB.cmb_limit"]}
{"id": "C11", "title": "Single-channel models stay coherent after their attributes are reassigned", "statement": "After any sequence of assignments to fs and mx on a single-channel annihilating or decaying theory, the listed final states and the reported final-state mass are those of a freshly built model with the same fs and mx.", "quantifier": "every sequence of setter calls", "why_tests_cant": "Needs all histories of assignments.", "anchors": ["hazma/single_channel.py: SingleChannelAnn.fs", "hazma/single_channel.py: SingleChannelDec.fs", "hazma/single_channel.py: SingleChannelDec.list_decay_final_states"]}
{"id": "C12", "title": "Mediator models: the cached total width and derived couplings always match the current parameters", "statement": "After any sequence of permitted attribute assignments, width_s (width_v) equals the total of partial_widths() at the current parameters, and in the restricted models the fundamental couplings are the documented functions of the model's own parameters (Higgs portal: gsff = sin theta, gsGG = 3 sin theta, gsFF = -5/6 sin theta, Lam = vh; heavy quark: gsff = 0, gsGG = gsQ, gsFF = 2 gsQ QQ^2, Lam = mQ; kinetic mixing: charges times eps). Assigning a hidden coupling raises and changes nothing.", "quantifier": "every sequence of assignments to the public attributes of the five mediator classes", "why_tests_cant": "Coherence over all histories of assignments.", "anchors": ["hazma/scalar_mediator/__init__.py: ScalarMediator", "hazma/scalar_mediator/__init__.py: HiggsPortal", "hazma/scalar_mediator/__init__.py: HeavyQuark", "hazma/vector_mediator/__init__.py: VectorMediator", "hazma/vector_mediator/__init__.py: KineticMixing", "hazma/vector_mediator/__init__.py: QuarksOnly"]}
{"id": "C13", "title": "Composite constrainers do not share state", "statement": "Adding a constrainer to one CompositeConstrainer leaves every other CompositeConstrainer unchanged.", "quantifier": "every interleaving of constructions and additions", "why_tests_cant": "Histories over several objects.", "anchors": ["hazma/limits/_abstract.py: CompositeConstrainer"]}
{"id": "C14", "title": "RAMBO: three-momentum is conserved and every particle is on its mass shell", "statement": "Every event produced by the RAMBO generator, for any random numbers and any intermediate scale factor, has zero total three-momentum and every particle satisfies E^2 = |p|^2 + m^2 with E >= m.", "quantifier": "every number of particles >= 2, every mass list, every draw of random numbers", "why_tests_cant": "Monte-Carlo output can only be sampled; the claim is for every draw.", "anchors": ["hazma/phase_space/_rambo.py: Rambo._boost", "hazma/phase_space/_rambo.py: Rambo._correct_masses"]}
{"id": "C15", "title": "RAMBO: the massless boost conserves energy and masslessness", "statement": "The isotropic massless momenta, after the conformal boost, are massless with non-negative energies, and their total is exactly (cme, 0, 0, 0), whatever the generated momenta are, provided their total is timelike.", "quantifier": "every list of massless momenta with timelike total and every cme > 0", "why_tests_cant": "For every draw.", "anchors": ["hazma/phase_space/_rambo.py: Rambo._initialize_momenta", "hazma/phase_space/_rambo.py: Rambo._boost"]}
{"id": "C16", "title": "RAMBO: generated events conserve energy", "statement": "The energies of a generated event add up to the centre-of-mass energy (within the solver's tolerance), for a fresh integrator and after cme or masses are reassigned: the Newton iteration for the scale factor starts on the side from which it converges monotonically, so its stopping test bounds the energy defect.", "quantifier": "every cme above threshold, every mass list, every momentum configuration, every history of setter calls", "why_tests_cant": "Energy conservation must hold for all draws and after any reassignments; tests generate from fresh objects.", "anchors": ["hazma/phase_space/_rambo.py: Rambo._compute_scale_factor", "hazma/phase_space/_rambo.py: Rambo.cme", "hazma/phase_space/_rambo.py: Rambo.masses"]}
{"id": "C17", "title": "RAMBO batch generator covers the requested number of events", "statement": "generator(n, batch_size) yields batches whose sizes add up to at least n, never a whole extra batch more than needed, and every batch has the same size.", "quantifier": "every n and batch size", "why_tests_cant": "All sizes.", "anchors": ["hazma/phase_space/_rambo.py: Rambo.generator"]}
{"id": "C18", "title": "Default (flat) matrix element means |M|^2 = 1 for every integrator", "statement": "Without a matrix element, the two- and three-body integrators use |M|^2 = 1 for scalar and array arguments alike, so all integration methods compute the same phase-space volume.", "quantifier": "every kinematic argument, scalar or array", "why_tests_cant": "Agreement of the scalar and array paths on all inputs.", "anchors": ["hazma/phase_space/_three_body.py: _msqrd_flat", "hazma/phase_space/_two_body.py: _msqrd_flat", "hazma/phase_space/_three_body.py: ThreeBody.integrate"]}
{"id": "C19", "title": "Three-body Dalitz variables to momenta: on shell, at rest in total, right invariants", "statement": "For every Dalitz point inside the physical region, the three constructed four-momenta are on their mass shells, add to (cme,0,0,0), and have the requested invariant masses s = (p2+p3)^2 and t = (p1+p3)^2; the y-limits used for the double integral are exactly the condition that the opening angle is real.", "quantifier": "every mass triple, cme above threshold, and every (s,t) in the physical region", "why_tests_cant": "A continuum of kinematic points.", "anchors": ["hazma/phase_space/_three_body.py: _mandelstam_to_momenta", "hazma/phase_space/_three_body.py: ThreeBody._integration_bounds_y", "hazma/phase_space/_three_body.py: ThreeBody._integration_bounds_x"]}
{"id": "C20", "title": "Three-body t-limits bound the physical region", "statement": "For every s between its limits, the returned t-limits are the extreme values of t over the physical region at that s (they coincide at both ends of the s range).", "quantifier": "every mass triple and s", "why_tests_cant": "A continuum of kinematic points.", "anchors": ["hazma/phase_space/_three_body.py: ThreeBody._integration_bounds_t", "hazma/phase_space/_three_body.py: ThreeBody._integration_bounds_s"]}
{"id": "C21", "title": "Energy and invariant-mass limits are the true kinematic limits", "statement": "energy_limits and invariant_mass_limits return, for each particle (pair), the smallest and largest energy (invariant mass) consistent with energy-momentum conservation, with lower <= upper above threshold; the two-body prefactor equals the flat two-body phase-space integral p/(4 pi sqrt(s)).", "quantifier": "every cme and mass list above threshold", "why_tests_cant": "A continuum of kinematic points and any number of particles.", "anchors": ["hazma/phase_space/_utils.py: energy_limits", "hazma/phase_space/_utils.py: invariant_mass_limits", "hazma/phase_space/_utils.py: two_body_phase_space_prefactor"]}
{"id": "C22", "title": "Normalised distributions integrate to one", "statement": "normalize_distribution returns probabilities with sum(p * bin width) = 1 whenever the input has positive total weight, keeps ratios of entries, leaves an all-zero input all zero, and yields NaN for a non-positive total with some non-zero entry.", "quantifier": "every histogram with increasing edges", "why_tests_cant": "Any number of bins and contents.", "anchors": ["hazma/phase_space/_utils.py: normalize_distribution", "hazma/phase_space/_dist.py: normalize_distribution"]}
{"id": "C23", "title": "Expectation of the constant one under a phase-space distribution is one", "statement": "PhaseSpaceDistribution1D.expect(f) with f constant 1 returns 1 for every supported method when the distribution is normalised.", "quantifier": "every distribution with at least one bin and every method name", "why_tests_cant": "Over all binnings.", "anchors": ["hazma/phase_space/_dist.py: PhaseSpaceDistribution1D.expect"]}
{"id": "C24", "title": "Boosted line: a normalised box on the kinematic window", "statement": "boost_delta_function(E, e0, m, beta) is constant on gamma*(e0 -+ beta*k0) and zero outside, integrates to 1 over energy, and is zero for beta outside (0,1] or energies below the mass.", "quantifier": "every e0 > m >= 0 and 0 < beta < 1, every energy", "why_tests_cant": "Continuum of energies and boosts.", "anchors": ["hazma/spectra/boost.py: boost_delta_function", "rust/src/boost.rs: boost_delta_function"]}
{"id": "C25", "title": "Boosting with an unphysical velocity is rejected", "statement": "The spectrum-boosting helpers raise (or return zero) for beta < 0 and beta >= 1 as documented, and never return the unboosted spectrum for a non-zero velocity.", "quantifier": "every velocity and energy array", "why_tests_cant": "All velocities.", "anchors": ["hazma/spectra/boost.py: dnde_boost_array", "hazma/spectra/boost.py: make_boost_function"]}
{"id": "C26", "title": "Muon positron spectrum: the in-flight formula is the boost of the rest-frame spectrum", "statement": "dnde_positron_muon at muon velocity beta equals the boost integral (1/2 beta) * integral of rest-frame spectrum over momentum between the two kinematic limits, clipped at the endpoints; it is non-negative, zero outside the kinematic window.", "quantifier": "every positron energy and muon energy", "why_tests_cant": "Equality of a closed form and an integral on a continuum.", "anchors": ["rust/src/kernels/positron_muon.rs: dndx_rest_frame", "rust/src/kernels/positron_muon.rs: dndx"]}
{"id": "C27", "title": "Muon positron spectrum is normalised to one positron per decay", "statement": "The rest-frame positron spectrum of the muon integrates to one.", "quantifier": "the physical electron-to-muon mass ratio (and every ratio below 1)", "why_tests_cant": "An exact statement about an integral; numerical tests would need a tolerance and the deviation is a constant factor close to 1.", "anchors": ["rust/src/kernels/positron_muon.rs", "rust/src/constants.rs"]}
{"id": "C28", "title": "Muon neutrino spectra: in-flight formulas are boosts of rest-frame spectra", "statement": "For both neutrino flavours the in-flight closed form equals the boost integral of the rest-frame spectrum; the tau row is always zero; the spectra are non-negative and vanish outside the kinematic window.", "quantifier": "every neutrino energy and muon energy", "why_tests_cant": "Equality of closed forms and integrals on a continuum.", "anchors": ["rust/src/kernels/neutrino_muon.rs"]}
{"id": "C29", "title": "Neutral pion photon spectrum is a box carrying two photons per two-photon decay", "statement": "dnde_photon_neutral_pion is a constant on (E/2)(1 -+ beta), zero elsewhere, and integrates to 2 * BR(pi0 -> gamma gamma); energy is conserved: its first moment is E * BR.", "quantifier": "every pion energy above the mass", "why_tests_cant": "Continuum of energies.", "anchors": ["rust/src/kernels/photon_pion.rs: dnde_photon_neutral_pion"]}
{"id": "C30", "title": "Photon lines in meson tables carry one photon at the two-body energy", "statement": "Discrete photon lines added to tabulated meson spectra sit at (M^2 - m^2)/(2M) for decays M -> m gamma and carry one photon per decay (two for gamma gamma).", "quantifier": "every tabulated meson", "why_tests_cant": "Relates hard-coded constants to kinematics; only one of many numbers in a table comparison.", "anchors": ["rust/src/kernels/photon_tables.rs"]}
{"id": "C31", "title": "Final-state radiation formulas used in annihilation and in mediator decay agree", "statement": "The photon spectrum radiated off a lepton or pion pair at invariant mass Q is the same function whether used in dark matter annihilation through the mediator or in the decay of an on-shell mediator of mass Q.", "quantifier": "every photon energy, pair mass and lepton/pion mass", "why_tests_cant": "Two independently typed formulas that must agree on a continuum.", "anchors": ["hazma/scalar_mediator/_scalar_mediator_fsr.py", "hazma/vector_mediator/_vector_mediator_fsr.py", "hazma/scalar_mediator/scalar_mediator_decay_spectrum.pyx", "hazma/vector_mediator/vector_mediator_decay_spectrum.pyx"]}
{"id": "C32", "title": "Final-state radiation spectra are never negative", "statement": "The assertions val >= 0 in the final-state-radiation spectra of both mediators can never fire: the spectra are non-negative on their whole kinematic range.", "quantifier": "every photon energy, pair mass and lepton/pion mass in range", "why_tests_cant": "Universal inequality with logarithms.", "anchors": ["hazma/scalar_mediator/_scalar_mediator_fsr.py", "hazma/vector_mediator/_vector_mediator_fsr.py"]}
{"id": "C33", "title": "Lines from boosted mediator decay carry the right number of particles", "statement": "In the boosted decay spectra of the mediators, S -> gamma gamma contributes two photons, V -> pi0 gamma one photon, and S/V -> e+ e- one positron per decay, spread over the true kinematic window of the line.", "quantifier": "every mediator energy above its mass", "why_tests_cant": "A statement about integrals for every boost.", "anchors": ["hazma/scalar_mediator/scalar_mediator_decay_spectrum.pyx: c_scalar_mediator_decay_spectrum_point", "hazma/vector_mediator/vector_mediator_decay_spectrum.pyx: __dnde_decay_v", "hazma/scalar_mediator/scalar_mediator_positron_spec.pyx: __dnde_decay_s"]}
{"id": "C34", "title": "Selecting decay modes partitions the mediator decay spectrum", "statement": "The mediator decay spectrum with fs='total' is the sum of the spectra selected one final state at a time.", "quantifier": "every energy and set of partial widths", "why_tests_cant": "Additivity for all inputs.", "anchors": ["hazma/scalar_mediator/scalar_mediator_positron_spec.pyx: __dnde_decay_s", "hazma/vector_mediator/vector_mediator_positron_spec.pyx: __dnde_decay_v", "hazma/scalar_mediator/scalar_mediator_decay_spectrum.pyx", "hazma/vector_mediator/vector_mediator_decay_spectrum.pyx"]}
{"id": "C35", "title": "Positron spectrum functions of the mediator models are positron spectra", "statement": "For each final state, the function in positron_spectrum_funcs() is the positron spectrum of that final state (muon pairs: the muon's positron spectrum at half the centre-of-mass energy), in both the scalar and vector models.", "quantifier": "every positron energy and centre-of-mass energy", "why_tests_cant": "The wrong function returns plausible numbers; the claim is that the function is identically the right one.", "anchors": ["hazma/vector_mediator/_vector_mediator_positron_spectra.py: VectorMediatorPositronSpectra.dnde_pos_mumu", "hazma/scalar_mediator/_scalar_mediator_positron_spectra.py"]}
{"id": "C36", "title": "s-channel cross sections factorise into the model's own partial widths", "statement": "For every s-channel annihilation mode of both mediators, the cross section at energy Q equals a mode-independent kinematic factor times Gamma(mediator of mass Q -> x x) times Gamma(mediator of mass Q -> mode) over the Breit-Wigner denominator; in particular ratios of cross sections are ratios of widths.", "quantifier": "every coupling, mass and energy above threshold", "why_tests_cant": "Two independently implemented sets of formulas (Rust cross sections, Python widths) must agree on a continuum of parameters.", "anchors": ["rust/src/kernels/scalar_xs.rs", "rust/src/kernels/vector_xs.rs", "hazma/scalar_mediator/_scalar_mediator_widths.py", "hazma/vector_mediator/_vector_mediator_widths.py"]}
{"id": "C37", "title": "Detailed balance between x x -> S S and S S -> x x", "statement": "The two cross sections satisfy detailed balance: sigma(SS->xx) * p_S^2 = 8 * sigma(xx->SS) * p_x^2 at every energy above both thresholds (4 spin states per pair of x and the identical-particle factor 2).", "quantifier": "every coupling, mass and energy above both thresholds", "why_tests_cant": "Two independently typed closed forms must agree on a continuum.", "anchors": ["rust/src/kernels/scalar_xs.rs: sigma_xx_to_ss", "rust/src/kernels/scalar_xs.rs: sigma_ss_to_xx"]}
{"id": "C38", "title": "Cross sections vanish below threshold and are never negative", "statement": "Every s-channel cross section of the mediator models is zero when the energy is below either threshold and non-negative everywhere.", "quantifier": "every parameter and energy", "why_tests_cant": "Universal inequality.", "anchors": ["rust/src/kernels/scalar_xs.rs", "rust/src/kernels/vector_xs.rs"]}
{"id": "C39", "title": "Cross sections have dimension of area", "statement": "Rescaling every mass, width and energy by lambda rescales every 2->2 cross section of the model by lambda^-2 (with dimensionful couplings rescaled accordingly).", "quantifier": "every lambda > 0 and every parameter set", "why_tests_cant": "A functional equation.", "anchors": ["rust/src/kernels/vector_xs.rs", "rust/src/kernels/scalar_xs.rs", "hazma/vector_mediator/_vector_mediator_cross_sections.py: sigma_xx_to_v_to_xx"]}
{"id": "C40", "title": "Table interpolation: the right cell is found and values are clamped", "statement": "interp(x, xp, fp) finds the last node not exceeding x, returns end values outside the grid, node values at nodes, and a value between the two end values of the cell inside it; it never indexes out of range.", "quantifier": "every non-empty sorted grid of any length and every finite x", "why_tests_cant": "All grid lengths and contents.", "anchors": ["rust/src/interp.rs: search", "rust/src/interp.rs: interp"]}
{"id": "C41", "title": "Table interpolation preserves monotonicity and NaN", "statement": "Interpolating non-decreasing data gives a non-decreasing function; a NaN argument gives NaN on grids of two or more points.", "quantifier": "every grid, pair of arguments", "why_tests_cant": "All grids.", "anchors": ["rust/src/interp.rs: interp"]}
{"id": "C42", "title": "Adaptive quadrature never panics", "statement": "The adaptive integrator returns a result or a documented error for every integrand (including ones returning NaN or infinity), every interval, tolerance, limit and list of break points: no index out of range, no arithmetic underflow of indices, no unbounded loop.", "quantifier": "every integrand, interval, tolerances, limit >= 1", "why_tests_cant": "Any of infinitely many integrands decides the control flow.", "anchors": ["rust/src/quad.rs: qagse", "rust/src/quad.rs: qagpe", "rust/src/quad.rs: qpsrt", "rust/src/quad.rs: qelg"]}
{"id": "C43", "title": "Adaptive quadrature: the subintervals tile the range and evaluation counts are reported exactly", "statement": "At every step the stored subintervals chain from a to b without gaps or overlaps, their number never exceeds limit, and the reported number of evaluations is the number of calls made to the integrand.", "quantifier": "every integrand, interval and tolerance", "why_tests_cant": "Invariant over an unbounded adaptive loop.", "anchors": ["rust/src/quad.rs: qagse"]}
{"id": "C44", "title": "Adaptive quadrature bisects the worst interval", "statement": "The bookkeeping that orders intervals keeps an exact permutation of the active intervals, sorted by decreasing error, and selects the largest error not yet exhausted.", "quantifier": "every sequence of error estimates", "why_tests_cant": "Invariant over arbitrary sequences of updates.", "anchors": ["rust/src/quad.rs: qpsrt"]}
{"id": "C45", "title": "Quadrature rules integrate constants exactly and reversing the interval flips the sign", "statement": "The Kronrod rules evaluate only inside the interval, give (b-a)*c for a constant integrand c up to the rounding of the tabulated weights, and integrating from b to a gives minus the integral from a to b.", "quantifier": "every interval and integrand", "why_tests_cant": "All integrands.", "anchors": ["rust/src/quad.rs: qk15", "rust/src/quad.rs: qk21"]}
{"id": "C46", "title": "Pairwise summation is summation", "statement": "The pairwise sum used by the boost integrals equals the plain sum over the reals for any number of terms.", "quantifier": "every list of numbers", "why_tests_cant": "Any length.", "anchors": ["rust/src/boost.rs: pairwise_sum"]}
{"id": "C47", "title": "Boost integral of a tabulated spectrum covers the whole window once", "statement": "boost_integrate_linear_interp integrates the piecewise-linear interpolant of the table over exactly the kinematic window.", "quantifier": "every table and window", "why_tests_cant": "All tables and windows.", "anchors": ["rust/src/boost.rs: boost_integrate_linear_interp"]}
{"id": "C48", "title": "Scalar in, scalar out; array in, array of the same length out", "statement": "Every spectrum function returns a float for a scalar energy and an array of the same length with the elementwise values for an array; multi-dimensional input and non-numeric input raise the documented error; flavour functions return three rows.", "quantifier": "every argument value", "why_tests_cant": "All lengths and argument kinds.", "anchors": ["rust/src/dispatch.rs"]}
{"id": "C49", "title": "The Boltzmann solver's Jacobian is the derivative of its right-hand side", "statement": "jacobian_boltzmann_eqn is the exact derivative of boltzmann_eqn with respect to w = log Y, and the right-hand side vanishes at equilibrium.", "quantifier": "every x, w and model", "why_tests_cant": "Derivative identity on a continuum.", "anchors": ["hazma/relic_density/_diffeq.py: boltzmann_eqn", "hazma/relic_density/_diffeq.py: jacobian_boltzmann_eqn"]}
{"id": "C50", "title": "neq_deriv is the derivative of neq", "statement": "For fermions and bosons, neq_deriv(T) is the derivative of the equilibrium number density with respect to temperature.", "quantifier": "every temperature, mass, degrees of freedom and both statistics", "why_tests_cant": "Derivative identity on a continuum.", "anchors": ["hazma/relic_density/_thermal_functions.py: neq", "hazma/relic_density/_thermal_functions.py: neq_deriv"]}
{"id": "C51", "title": "Thermal average integrates over a non-empty window", "statement": "The thermally averaged cross section is non-negative, and positive whenever the annihilation cross section is positive above threshold, for every x up to the documented cutoff.", "quantifier": "every x and every positive cross section", "why_tests_cant": "All x and cross sections.", "anchors": ["hazma/relic_density/_thermal_functions.py: thermal_cross_section", "rust/src/kernels/scalar_xs.rs: thermal_cross_section", "rust/src/kernels/vector_xs.rs: thermal_cross_section"]}
{"id": "C52", "title": "Right-handed neutrino: reassigning the flavour gives the model for that flavour", "statement": "After assigning flavor, every observable (final states, widths, lepton mass, generation) is that of a freshly constructed RHNeutrino with that flavour.", "quantifier": "every sequence of valid flavour assignments", "why_tests_cant": "All histories.", "anchors": ["hazma/rh_neutrino/_model.py: RHNeutrino.flavor", "hazma/rh_neutrino/_configure.py: configure"]}
{"id": "C53", "title": "Right-handed neutrino: line queries return lines", "statement": "gamma_ray_lines() and positron_lines() of RHNeutrino return a dictionary whose branching fractions are those of the model's own final states, for every mass, mixing angle and flavour.", "quantifier": "every mass, mixing angle and flavour", "why_tests_cant": "All parameters.", "anchors": ["hazma/rh_neutrino/_model.py: RHNeutrino._gamma_ray_line_energies", "hazma/rh_neutrino/_model.py: RHNeutrino._positron_line_energies", "hazma/theory/__init__.py: TheoryDec.gamma_ray_lines"]}
{"id": "C54", "title": "Right-handed neutrino: partial widths can be requested by name", "statement": "decay_width(fs) accepts one final-state name or a sequence of names and returns the widths of exactly those; unknown names raise KeyError; every listed final state is accepted and agrees with decay_widths().", "quantifier": "every final-state name and sequence of names", "why_tests_cant": "All names and sequences.", "anchors": ["hazma/rh_neutrino/_model.py: RHNeutrino.decay_width"]}
{"id": "C55", "title": "Right-handed neutrino: every charge configuration is counted once", "statement": "The total width counts each distinguishable final state, including charge conjugates, exactly once.", "quantifier": "every flavour", "why_tests_cant": "Combinatorial claim over all final states.", "anchors": ["hazma/rh_neutrino/_configure.py: configure", "hazma/rh_neutrino/_utils.py: three_lepton_fs_generations", "hazma/rh_neutrino/_model.py: RHNeutrino._decay_widths"]}
{"id": "C56", "title": "Right-handed neutrino widths: thresholds, positivity and the massless-lepton limit", "statement": "Two-body widths are non-negative, vanish below threshold, and the width into a charged lepton and pseudoscalar meson tends for massless leptons to the same kinematic function (1-x^2)^2 as the neutral pseudoscalar mode.", "quantifier": "every mass and mixing angle", "why_tests_cant": "Universal inequality and functional identity.", "anchors": ["hazma/rh_neutrino/_widths.py: _width_l_hp", "hazma/rh_neutrino/_widths.py: _width_v_hp", "hazma/rh_neutrino/_widths.py: _width_ell_hv", "hazma/rh_neutrino/_widths.py: _width_v_hv"]}
{"id": "C57", "title": "Right-handed neutrino squared matrix elements are non-negative on the Dalitz region", "statement": "Each squared matrix element used to build energy distributions is non-negative over the physical region and proportional to the squared mixing.", "quantifier": "every kinematic point and mixing angle", "why_tests_cant": "Universal inequality.", "anchors": ["hazma/rh_neutrino/_widths.py: msqrd_v_v_v", "hazma/rh_neutrino/_widths.py: _msqrd_l_u_d"]}
{"id": "C58", "title": "Final-state radiation in n-body spectra counts every charged particle", "statement": "With average_fsr the radiated photon spectrum of an n-body final state is the sum over all charged particles in the list, so listing a particle twice doubles its contribution.", "quantifier": "every final-state list and energy", "why_tests_cant": "All multisets of particles.", "anchors": ["hazma/spectra/_nbody.py: _dnde_photon_fsr", "hazma/spectra/_nbody.py: _dnde_two_body"]}
{"id": "C59", "title": "Altarelli-Parisi spectra are non-negative, vanish beyond the endpoint and scale with charge squared", "statement": "dndx/dnde Altarelli-Parisi spectra are non-negative, zero for x outside the kinematic range, proportional to charge^2, and dnde = (2/sqrt(s)) dndx at x = 2E/sqrt(s); the deprecated pair version is twice the single-particle one.", "quantifier": "every energy, s, mass and charge", "why_tests_cant": "Universal inequalities and functional identities.", "anchors": ["hazma/spectra/altarelli_parisi.py", "hazma/utils.py: dnde_altarelli_parisi_fermion"]}
{"id": "C60", "title": "One-bin gamma-ray limit is the strongest bin and is exactly saturated", "statement": "The one-bin limit is the minimum over bins of the rate at which the predicted flux equals the observed flux plus n_sigma errors; it is infinite when no bin receives signal, and decreases when the predicted flux increases.", "quantifier": "every measurement and spectrum", "why_tests_cant": "All data sets.", "anchors": ["hazma/theory/_theory_gamma_ray_limits.py", "hazma/theory/_theory_constrain.py: _constrain_binned_gamma_helper"]}
{"id": "C61", "title": "Loading a measurement does not modify the caller's data", "statement": "Constructing a FluxMeasurement from arrays leaves those arrays unchanged, and constructing two measurements from the same arrays gives equal measurements.", "quantifier": "every data set and power", "why_tests_cant": "Aliasing across calls.", "anchors": ["hazma/flux_measurement.py: FluxMeasurement.__init__"]}
{"id": "C62", "title": "Elementwise constrainers", "statement": "A constrainer applied to a sequence of models returns one value per model in the same order, equal to constraining that model alone.", "quantifier": "every list of models", "why_tests_cant": "Any length and order.", "anchors": ["hazma/limits/_abstract.py: AbstractLimit.constrain"]}
{"id": "C63", "title": "Two-body kinematics: momenta are on shell and conserve energy", "statement": "The two-body momenta used throughout (two_body_momentum, the FSR momenta, mediator cascade energies) satisfy E1 + E2 = cme and E_i^2 = p^2 + m_i^2; the Kallen function is symmetric and non-negative above threshold.", "quantifier": "every cme and masses above threshold", "why_tests_cant": "Continuum of kinematics.", "anchors": ["hazma/utils.py: kallen_lambda", "hazma/utils.py: two_body_momentum", "hazma/spectra/_fsr.py: _two_body_momenta", "hazma/vector_mediator/_vector_mediator_spectra.py: dnde_pi0v"]}
{"id": "C64", "title": "Modified Bessel functions of integer order satisfy the recurrence", "statement": "bessel_kn(n, x) satisfies K_{n+1} = K_{n-1} + (2n/x) K_n and K_{-n} = K_n, so increasing order gives increasing values.", "quantifier": "every order and positive argument", "why_tests_cant": "All orders.", "anchors": ["rust/src/special.rs: bessel_kn"]}
{"id": "C65", "title": "Chi-squared gamma-ray limit is the rate at which chi-squared reaches its critical value", "statement": "The rate returned by constrain_chi_squared is the largest rate not excluded: scaling the predicted flux by it makes the one-sided chi-squared equal to the critical value, and an infinite limit is returned only when no rate is excluded.", "quantifier": "every measurement, predicted flux and significance", "why_tests_cant": "The value is a number without an obvious reference; the defect is in the functional form.", "anchors": ["hazma/theory/_theory_gamma_ray_limits.py:79-96"]}
{"id": "C66", "title": "Unbinned limit uses the best energy window", "statement": "The unbinned limit is the strongest of the single-window limits n_sigma * prefactor * sqrt(I_B)/I_S over all ordered pairs of grid energies; a grid of fewer than two energies raises ValueError.", "quantifier": "every grid, signal and background", "why_tests_cant": "Optimality over all windows.", "anchors": ["hazma/theory/_theory_gamma_ray_limits.py:580-601"]}
{"id": "C67", "title": "Single-channel models report line energies as numbers at the two-body energy", "statement": "_gamma_ray_line_energies and _positron_line_energies map a final state to the energy of the line (a float), the two-body kinematic energy, so that the line machinery (CMB efficiency, limits) can use it.", "quantifier": "every two-body channel containing a photon (electron) and every energy", "why_tests_cant": "Needs the pairing with the consumer of the dictionary for all channels.", "anchors": ["hazma/single_channel.py:87-124", "hazma/single_channel.py:200-239", "hazma/theory/_theory_cmb.py:107-122"]}
{"id": "C68", "title": "PBH: the spectrum in use always belongs to the current mass", "statement": "After any sequence of assignments to mx of a PBH object, including ones that raise, the interpolated spectrum is the table column of the current mass.", "quantifier": "every table and history", "why_tests_cant": "Histories including failing assignments.", "anchors": ["hazma/pbh.py:104-117"]}
{"id": "C69", "title": "A quadrature result reported without warning meets the tolerance", "statement": "If the adaptive integrator reports success, its error estimate is at most max(epsabs, epsrel*|value|).", "quantifier": "every integrand, interval, tolerances, limit and break points", "why_tests_cant": "There are several exits from an adaptive loop whose control flow depends on the integrand.", "anchors": ["rust/src/quad.rs: qagse", "rust/src/quad.rs: qagpe", "rust/src/quad.rs: quad"]}
{"id": "C70", "title": "A parent energy is always classified", "statement": "For a massive parent, every energy is below threshold, at rest, or in flight with a velocity strictly between 0 and 1; only NaN is rejected.", "quantifier": "every parent energy and positive mass", "why_tests_cant": "Fails only where rounding makes the velocity 1, far above the sampled energies.", "anchors": ["rust/src/kernels/photon_tables.rs: branch"]}
{"id": "C71", "title": "RAMBO weights reproduce known phase-space volumes", "statement": "The weight of a two-body event with momentum p and energies E1, E2 is p / (4 pi (E1 + E2)), and an event of n massless momenta with total energy cme carries exactly the massless n-body phase-space volume given by V_2 = 1/(8 pi), V_(n+1) = V_n cme^2 / (16 pi^2 n (n-1)).", "quantifier": "every cme > 0, every n >= 2, every momentum configuration", "why_tests_cant": "Monte-Carlo averages agree only statistically; the pointwise identity is for every event.", "anchors": ["hazma/phase_space/_rambo.py: Rambo._compute_weights", "hazma/phase_space/_rambo.py: Rambo._compute_base_weight"]}
{"id": "C72", "title": "Fixed-energy photon radiation: kinematics and normalisation", "statement": "At photon energy E the non-photon system and the photon handed to the matrix element have total invariant mass cme, and in the rest frame of the total the photon has energy E; the spectrum is non-zero only for 0 < E < (cme^2 - (sum m)^2)/(2 cme). For a constant matrix element the quadrature and Monte-Carlo routes agree for a pair, and equal the three-body energy distribution of a massless particle.", "quantifier": "every cme > 0, non-negative masses, photon energy, constant matrix element and sample of events", "why_tests_cant": "A frame or prefactor mistake shows up only as a smooth distortion of the spectrum; the equality is pointwise for all energies and masses.", "anchors": ["hazma/spectra/_fsr.py: _dnde_point_quad", "hazma/spectra/_fsr.py: _dnde_point_rambo", "hazma/phase_space/_three_body.py: ThreeBody._partial_integration"]}
{"id": "C73", "title": "Final-state radiation obeys the soft-photon theorem", "statement": "As the photon energy goes to zero, photon energy times the final-state-radiation spectrum tends to the universal factor fixed by the charges and the velocity of the pair alone, whatever the spin of the mediator and of the radiating particles.", "quantifier": "every pair mass above threshold and every lepton/pion mass, for each of the eight radiation formulas", "why_tests_cant": "A limit for every pair mass; tests compare against stored numbers from the same formulas.", "anchors": ["hazma/scalar_mediator/_scalar_mediator_fsr.py", "hazma/vector_mediator/_vector_mediator_fsr.py", "hazma/scalar_mediator/scalar_mediator_decay_spectrum.pyx", "hazma/vector_mediator/vector_mediator_decay_spectrum.pyx"]}
{"id": "C74", "title": "Spectra of moving mediators are Lorentz boosts of the spectra at rest", "statement": "For a mediator in flight, the spectrum computed by integrating over the emission angle in the code's variables equals the boost integral of the rest-frame spectrum over the kinematically allowed rest-frame energies, for massless photons and for massive positrons.", "quantifier": "every mediator energy above its mass, every photon or positron energy, every set of branching fractions", "why_tests_cant": "Identity of two integrals with different variables and Jacobians for all boosts; tests compare single points against stored output of the same code.", "anchors": ["hazma/scalar_mediator/scalar_mediator_decay_spectrum.pyx: integrand", "hazma/vector_mediator/vector_mediator_decay_spectrum.pyx: __integrand", "hazma/scalar_mediator/scalar_mediator_positron_spec.pyx: __integrand", "hazma/vector_mediator/vector_mediator_positron_spec.pyx: __integrand"]}
{"id": "C75", "title": "The muon photon spectrum in flight is the boost of the one at rest and is not negative", "statement": "The closed-form photon spectrum of a moving muon equals the Lorentz boost of the muon's photon spectrum at rest, ends at the same kinematic limit, and is never negative.", "quantifier": "every photon energy and every muon energy", "why_tests_cant": "A dilogarithmic closed form must equal an integral over a continuum of boosts; regression tests compare it with its own earlier output.", "anchors": ["rust/src/kernels/photon_muon.rs: dnde_photon_muon", "rust/src/kernels/photon_muon.rs: dnde_photon_muon_rest_frame"]}
{"id": "C76", "title": "Charged-pion positron and neutrino spectra sum the decay chains with the right weights", "statement": "The positron and neutrino spectra of a charged pion are the branching-ratio-weighted sum of the boosted spectra of pi -> mu nu followed by muon decay and of the pi -> e nu line, each counted once, at every pion energy including rest.", "quantifier": "every pion energy at or above its mass and every daughter energy", "why_tests_cant": "Double counting of a small branching ratio and a vanishing limit at rest are invisible in spot values.", "anchors": ["rust/src/kernels/positron_pion.rs: dnde_positron_charged_pion", "rust/src/kernels/neutrino_pion.rs: dnde_neutrino_charged_pion", "rust/src/kernels/neutrino_pion.rs: dnde_mu_numu"]}
{"id": "C77", "title": "Photon spectra of charged pions and rho mesons are boosts of the spectra at rest, with the right limit at rest", "statement": "The photon spectra of charged pions and of rho mesons are, in flight, the boosts of the sum of their decay products' spectra, and at rest that sum itself.", "quantifier": "every parent energy at or above the mass and every photon energy", "why_tests_cant": "The in-flight and at-rest branches are different code; agreement is needed for all energies.", "anchors": ["rust/src/kernels/photon_pion.rs: dnde_photon_charged_pion", "rust/src/kernels/photon_rho.rs: rho_boosted"]}
{"id": "C78", "title": "Spence's function is the dilogarithm integral to within rounding", "statement": "The rational approximation, reflection and inversion in special.rs give a function within 4e-16 of the integral of ln t/(1-t) from 1 to x for every positive x; reflection and inversion formulas hold exactly in real arithmetic, and the value at zero is pi^2/6.", "quantifier": "every positive argument, in exact arithmetic", "why_tests_cant": "Sampled arguments cannot bound the error everywhere.", "anchors": ["rust/src/special.rs: spence, SPENCE_A, SPENCE_B, polevl"]}
{"id": "C79", "title": "The semi-analytic relic density solves the equation it approximates", "statement": "The freeze-out point is where (1+delta) times the equilibrium abundance solves the Boltzmann equation, leaving delta out means (sqrt 5 - 1)/2, and the abundance reported at 100 x* is that of the solution of the equation without its equilibrium term started at x*.", "quantifier": "every model, freeze-out point and delta", "why_tests_cant": "Quantified over all cross sections and solutions of the differential equation.", "anchors": ["hazma/relic_density/_approx.py: xstar_root_eqn", "hazma/relic_density/_approx.py: compute_xstar", "hazma/relic_density/_approx.py: compute_alpha", "hazma/relic_density/_rd.py: relic_density"]}
{"id": "C80", "title": "n-body spectra are sums over the final state, per flavour, with defined errors", "statement": "dnde_photon/positron/neutrino of a final state of n particles equal the sum over the particles of their decay spectra averaged over their energy distribution, plus the distribution of every particle that is itself the product, plus the radiation for photons; two-body energies follow from energy and momentum conservation; the three rows returned for flavor=None are the results of the three flavours; unknown particles, closed channels, invalid flavours and particles without spectra raise errors.", "quantifier": "every list of particles, distributions, energy and product", "why_tests_cant": "All multisets of particles, all distributions and all energies.", "anchors": ["hazma/spectra/_nbody.py: _dnde_multi_particle", "hazma/spectra/_nbody.py: _dnde_two_body", "hazma/spectra/_nbody.py: _dnde_nbody", "hazma/spectra/_nbody.py: dnde_neutrino"]}
{"id": "C81", "title": "Right-handed neutrino: three-body widths are the phase-space integrals of the matrix elements used for the spectra", "statement": "For every three-body channel the width reported by the model is 1/((2 pi)^3 32 M^3) times the integral, over the Dalitz region, of the squared matrix element the spectrum of that channel is built from.", "quantifier": "every mass above threshold, mixing angle and flavour", "why_tests_cant": "An identity between an integral and a closed form for all masses.", "anchors": ["hazma/rh_neutrino/_widths.py: _width_v_f_f", "hazma/rh_neutrino/_widths.py: _msqrd_v_f_f", "hazma/rh_neutrino/_widths.py: width_l_pi0_pi", "hazma/rh_neutrino/_widths.py: width_v_v_v"]}
{"id": "C82", "title": "Right-handed neutrino: the spectrum of a channel is the spectrum of its own final state, once per decay", "statement": "For every listed final state with a continuum spectrum, the spectrum function returns the n-body spectrum of exactly the particles named by the final state, with weight one, so that weighting with branching fractions counts every decay once.", "quantifier": "every flavour, final state, mass above threshold and energy grid", "why_tests_cant": "All final states and energies.", "anchors": ["hazma/rh_neutrino/_spectra.py: dnde_v_eta", "hazma/rh_neutrino/_spectra.py: dnde_l_rho", "hazma/rh_neutrino/_model.py: RHNeutrino.__spectrum_funcs", "hazma/rh_neutrino/_configure.py: configure"]}
{"id": "C83", "title": "Spectra in flight hold the same number of particles as at rest, and gamma times their energy", "statement": "For positrons and neutrinos of moving muons and charged pions the integral of dN/dE over all energies does not depend on the energy of the parent and equals the number of particles per decay (sum over the chains of branching ratio times particles per decay); for positrons, neutrinos and photons the integral of E dN/dE is gamma times the one in the rest frame, also for photons where the number itself diverges in the infrared.", "quantifier": "every energy of the parent above its mass, all masses in the physical order", "why_tests_cant": "Integrals over all energies, for a continuum of parent energies; quadrature in a test cannot distinguish a deficit of 10^-4 from its own error.", "anchors": ["rust/src/kernels/positron_muon.rs: dnde_positron_muon", "rust/src/kernels/neutrino_muon.rs: dnde_neutrino_muon", "rust/src/kernels/positron_pion.rs: dnde_positron_charged_pion", "rust/src/kernels/neutrino_pion.rs: dnde_neutrino_charged_pion", "rust/src/kernels/photon_muon.rs: dnde_photon_muon", "rust/src/kernels/photon_pion.rs: dnde_photon_charged_pion", "rust/src/kernels/photon_rho.rs: dnde_photon_charged_rho"]}
{"id": "C84", "title": "Tabulated positron and neutrino spectra in flight are boosts of the tabulated spectra at rest", "statement": "For kaons, eta, eta', rho, omega and phi the spectrum at rest passes through the tabulated values and vanishes outside the kinematic range of the table; the spectrum of a moving parent is the Lorentz boost of it, so that it holds the same number of particles and gamma times their energy.", "quantifier": "every table with increasing energies, every parent mass and energy above it, every product energy", "why_tests_cant": "Integrals over all energies for all parents in flight, and values beyond the end of the tables that no plot shows.", "anchors": ["hazma/spectra/_positron/_utils.py: load_interp", "hazma/spectra/_positron/_utils.py: _dnde_positron_point", "hazma/spectra/_neutrino/_utils.py: load_interp", "hazma/spectra/_neutrino/_utils.py: _dnde_neutrino_point"]}
{"id": "C85", "title": "Tabulated spectra: a number gives a number, an array the array of the same numbers, and wrong arguments are refused", "statement": "dnde_positron_X and dnde_neutrino_X of the tabulated parents return a float (or the three flavours) for a scalar energy and the elementwise values for lists and arrays, whatever the parent energy; integers and lists are accepted like floats; a flavour other than e, mu and tau raises.", "quantifier": "every kind of argument, energy, parent and flavour", "why_tests_cant": "All combinations of argument kind, threshold and flavour.", "anchors": ["hazma/spectra/_positron/_utils.py: dnde_positron", "hazma/spectra/_neutrino/_utils.py: dnde_neutrino"]}
{"id": "C86", "title": "The tables hold the decays of the parent they are named after, each counted once", "statement": "Every column of a table is a charge conserving decay mode of its parent; a mode that produces neutrinos is present in the neutrino tables if it is in the positron table; the numbers of positrons and of neutrinos of each flavour in a column are those of the mode times its branching ratio.", "quantifier": "every file, every column, every row", "why_tests_cant": "The data are read, never compared with the decays they stand for; a plot of a spectrum does not show a factor of two or an exchanged flavour.", "anchors": ["hazma/spectra/_positron/data/short_kaon_positron.csv", "hazma/spectra/_neutrino/data/charged_rho_neutrino_e.csv", "hazma/spectra/_neutrino/data/neutral_rho_neutrino_e.csv", "hazma/spectra/_neutrino/data/long_kaon_neutrino_mu.csv", "hazma/spectra/_neutrino/__init__.py: dnde_neutrino_charged_rho"]}
{"id": "C87", "title": "The cached widths of the GeV vector mediator are those of a new object with the same parameters", "statement": "After any sequence of attribute assignments and width queries, a partial or total width of a VectorMediatorGeV equals the width of an object newly built with the attributes the sequence ended with.", "quantifier": "all parameters, all finite sequences of assignments and queries, all channels", "why_tests_cant": "A test builds an object, asks and compares; a stale cache entry needs a particular order of queries and assignments, and the sequences are unbounded.", "anchors": ["hazma/vector_mediator/_gev/model.py: with_cache", "hazma/vector_mediator/_gev/model.py: gvxx", "hazma/vector_mediator/_gev/model.py: partial_widths", "hazma/vector_mediator/_gev/model.py: width_v"]}
{"id": "C88", "title": "The derived GeV models have the couplings of their charge, also after it is assigned", "statement": "KineticMixingGeV couples to a Standard Model fermion with its electric charge times qe times eps, as its documentation says, and BLGeV with its B-L number times g; the single couplings cannot be assigned; assigning eps or g gives the object that would be built with the new value, including its widths.", "quantifier": "all masses, couplings, assigned values and sequences of operations", "why_tests_cant": "The constructors are tested at one point by plots; the setters of the derived classes interact with the properties and the cache of the parent class, and only a proof covers every assigned value and history.", "anchors": ["hazma/vector_mediator/_gev/model.py: KineticMixingGeV", "hazma/vector_mediator/_gev/model.py: BLGeV"]}
{"id": "C89", "title": "GeV vector mediator: final states, totals and lines of the spectra are consistent", "statement": "The dictionaries of cross sections and of photon, positron and neutrino spectra have the same keys, those of list_annihilation_final_states; neutrino_spectra returns each spectrum times its branching fraction and their sum, total_neutrino_spectrum that sum; the photon, positron and neutrino lines have the energies of two-body kinematics and the branching fraction of their final state.", "quantifier": "all energies, branching fractions, cross sections and spectra, all flavours", "why_tests_cant": "The spectra are slow Monte-Carlo sums that tests do not run for every state; the keys are written out five times by hand.", "anchors": ["hazma/vector_mediator/_gev/cross_sections.py: annihilation_cross_section_funcs", "hazma/vector_mediator/_gev/spectra.py: dnde_photon_spectrum_fns", "hazma/vector_mediator/_gev/positron.py: dnde_positron_spectrum_fns", "hazma/vector_mediator/_gev/neutrino.py: dnde_neutrino_spectrum_fns", "hazma/vector_mediator/_gev/model.py: neutrino_spectra", "hazma/vector_mediator/_gev/model.py: total_neutrino_spectrum"]}
{"id": "C91", "title": "GeV vector mediator: each final-state particle decays with its own energy distribution", "statement": "In the three- and four-body spectra the energy distribution of a particle is folded with the decay spectrum of that particle, and the radiation of the charged pions uses the invariant-mass distribution of a pair of charged pions.", "quantifier": "all decay spectra, energy and invariant-mass distributions, energies, masses, the three messengers", "why_tests_cant": "The lists of decay functions and of masses are in different modules; a wrong order changes a spectrum smoothly and no reference values exist.", "anchors": ["hazma/vector_mediator/_gev/spectra.py: dnde_photon_pi_pi_omega", "hazma/vector_mediator/_gev/spectra.py: dnde_photon_pi_pi_pi0", "hazma/vector_mediator/_gev/positron.py: dnde_positron_pi_pi_eta", "hazma/vector_mediator/_gev/neutrino.py: dnde_neutrino_pi_pi_pi0_pi0", "hazma/form_factors/vector/_pi_pi_pi0.py: VectorFormFactorPiPiPi0"]}
{"id": "C92", "title": "GeV vector mediator: every particle of a final state counts once in its spectra", "statement": "For each final state the spectrum is the sum of the decay spectra of its particles, each with the energy it has and each once (one of two opposite charges for positrons), plus for photons the radiation of each charged particle once; below threshold it is zero.", "quantifier": "all decay and radiation spectra, distributions, energies, masses, channels and messengers", "why_tests_cant": "A factor of two or an exchanged kaon and pion is invisible without a reference; 25 states times three messengers times all energies.", "anchors": ["hazma/vector_mediator/_gev/positron.py: dnde_positron_k_k", "hazma/vector_mediator/_gev/neutrino.py: dnde_neutrino_k_k", "hazma/vector_mediator/_gev/spectra.py: dnde_photon_pi_pi_pi_pi", "hazma/vector_mediator/_gev/spectra.py: dnde_photon_pi_k_k0", "hazma/vector_mediator/_gev/spectra.py: dnde_photon_pi0_pi0_gamma"]}
{"id": "C93", "title": "GeV vector mediator: two mediators decay with their branching fractions and are boosted to their energy", "statement": "The spectrum of annihilation into two mediators is twice the sum over the decay channels of branching fraction times the spectrum at rest, boosted to the energy cme/2 of a mediator, including the photon lines of pi0 gamma and eta gamma; it is zero below twice the mediator mass and not above.", "quantifier": "all masses, widths, spectra and energies, the three messengers", "why_tests_cant": "Needs all widths and spectra at once; a test at one point does not tell a missing branching fraction or an inverted boost factor.", "anchors": ["hazma/vector_mediator/_gev/spectra.py: dnde_photon_v_v", "hazma/vector_mediator/_gev/positron.py: dnde_positron_v_v", "hazma/vector_mediator/_gev/neutrino.py: dnde_neutrino_v_v"]}
{"id": "C94", "title": "Running electromagnetic coupling", "statement": "alpha_em returns the zero-momentum coupling for s below 1e-6 GeV^2 and a finite coupling growing with s above it.", "quantifier": "all s >= 0", "why_tests_cant": "The mask selects the wrong side of the cut, so at every energy a user would try the value is the familiar 1/137 and nothing looks wrong.", "anchors": ["hazma/form_factors/vector/_alpha.py: alpha_em"]}
{"id": "C95", "title": "Lorentz structures of the form factors", "statement": "Each squared Lorentz structure equals the hadronic current of that final state contracted with -g/(3 q^2) and summed over polarisations, as a function of the momenta of any event: two pseudoscalars, pseudoscalar and photon, pseudoscalar and vector, three pseudoscalars, two pseudoscalars and a vector.", "quantifier": "all masses, all energies, all kinematically allowed momenta", "why_tests_cant": "The structures are polynomials in masses and invariants; sampled comparisons need an independent tensor contraction, and a permuted mass tuple still gives positive plausible numbers.", "anchors": ["hazma/form_factors/vector/_two_body.py: VectorFormFactorPP", "hazma/form_factors/vector/_two_body.py: VectorFormFactorPA", "hazma/form_factors/vector/_two_body.py: VectorFormFactorPV", "hazma/form_factors/vector/_three_body.py: _squared_lorentz_structure_ppp", "hazma/form_factors/vector/_three_body.py: VectorFormFactorPPV.squared_lorentz_structure", "hazma/form_factors/vector/_pi_pi_omega.py: _VectorFormFactorPiPiOmegaBase"]}
{"id": "C96", "title": "Integrated three-body form factors give the width", "statement": "Half the mediator mass times the integrated form factor is the three-body phase-space integral of the squared current, for three pseudoscalars with a form factor depending on one invariant and for two pseudoscalars and a vector; the partially integrated form factor integrates over the pair mass to the integrated one.", "quantifier": "all masses below threshold, all form factors", "why_tests_cant": "The inner integral is done by hand in the source; a wrong Jacobian or limit gives a smooth curve of the right order.", "anchors": ["hazma/form_factors/vector/_three_body.py: VectorFormFactorPPP2", "hazma/form_factors/vector/_three_body.py: VectorFormFactorPPV"]}
{"id": "C97", "title": "Energy and invariant-mass distributions of two pseudoscalars and a vector", "statement": "The three energy distributions are normalised and their values are proportional, with one constant, to the exact single-particle energy density at the bin centres; the invariant-mass distributions made from them are normalised.", "quantifier": "all masses, energies, bin numbers and form factors", "why_tests_cant": "The closed forms are long; the overall scale is removed by normalisation, so only the shape at every energy distinguishes right from wrong.", "anchors": ["hazma/form_factors/vector/_three_body.py: VectorFormFactorPPV.energy_distributions", "hazma/form_factors/vector/_three_body.py: VectorFormFactorPPV.invariant_mass_distributions"]}
{"id": "C98", "title": "Gounaris-Sakurai propagator", "statement": "dhhatds is the derivative of hhat at the resonance; at the resonance the denominator is purely imaginary, -i m Gamma, with real slope -1; at s = 0 the propagator is 1; the denominator is continuous at s = 0.", "quantifier": "all resonance masses and widths, all daughter masses below threshold, all s", "why_tests_cant": "These are identities of derivatives and limits; evaluating near the points only shows small numbers.", "anchors": ["hazma/form_factors/vector/_utils.py: dhhatds", "hazma/form_factors/vector/_utils.py: hhat", "hazma/form_factors/vector/_utils.py: h", "hazma/form_factors/vector/_utils.py: breit_wigner_gs"]}
{"id": "C99", "title": "Calling the two-body form factors", "statement": "The two-body widths are |p|/(8 pi) times |F|^2 times the squared current, zero at and below threshold, the same for a number and for each element of an array; form_factor and integrated_form_factor give the same value for a number and a one-element array.", "quantifier": "all ten two-body states, all form-factor functions, all energies and arrays", "why_tests_cant": "Array and scalar paths are separate in each of eight files; a test of one state or one path says nothing about the others.", "anchors": ["hazma/form_factors/vector/_two_body.py: VectorFormFactorPP", "hazma/form_factors/vector/_base.py: VectorFormFactor", "hazma/form_factors/vector/_pi_gamma.py: VectorFormFactorPi0Gamma", "hazma/form_factors/vector/_k_k.py: VectorFormFactorK0K0", "hazma/form_factors/vector/_eta_omega.py: VectorFormFactorEtaOmega", "hazma/form_factors/vector/_pi_omega.py: VectorFormFactorPi0Omega"]}
{"id": "C90", "title": "Annihilation cross sections of the GeV vector mediator", "statement": "Above the dark-matter threshold the cross section into each final state is the Breit-Wigner formula of a spin-one resonance whose entry width is the one into dark matter at the energy, whose exit width is the corresponding width method of the class at the energy, and whose total width is the one of the object. Below the dark-matter threshold or that of the final state it is zero. Cross sections do not depend on whether the energy is a float, an integer or an array entry. Into leptons and into two mediators they agree with those of the MeV class.", "quantifier": "for all masses, couplings, form factors, widths of the mediator and energies", "why_tests_cant": "The tests compare a few numbers with stored ones at energies above all thresholds; the resonance formula, the thresholds and the kinds of input concern all parameters.", "anchors": ["hazma/vector_mediator/_gev/cross_sections.py: sigma_xx_to_v_v", "hazma/vector_mediator/_gev/cross_sections.py: __sigma_from_width_fn", "hazma/vector_mediator/_gev/cross_sections.py: annihilation_cross_section_funcs", "hazma/form_factors/vector/_base.py: _cross_section"]}
{"id": "C100", "title": "Cross section averaged for the relic density of the GeV vector mediator", "statement": "With three- and four-body states switched on, the cross section averaged for the relic density is the total annihilation cross section. For every temperature it is averaged with the Gondolo-Gelmini formula over all energies above threshold, up to the cut-off at x = 300, and the average is positive where some state is open.", "quantifier": "for all masses, couplings, form factors, exact quadratures and x up to 300", "why_tests_cant": "The relic density is a single number at the end of a chain; a missing final state or an interval of x with zero or undefined averages changes it smoothly with the parameters.", "anchors": ["hazma/vector_mediator/_gev/thermal_cross_section.py: relic_density", "hazma/vector_mediator/_gev/thermal_cross_section.py: _make_final_states"]}
{"id": "C101", "title": "Isospin couplings of the mediator", "statement": "The isospin couplings computed from the quark couplings are the unique coefficients with which the quark current of the mediator is the sum of the isoscalar, isovector and strange parts of the electromagnetic current; they are all one for the electric charges.", "quantifier": "for all quark couplings", "why_tests_cant": "The tests use one set of couplings and compare final numbers only.", "anchors": ["hazma/form_factors/vector/_base.py: vector_couplings_to_isospin"]}
{"id": "C102", "title": "Rare meson decays", "statement": "For each rare meson decay the constraint is the room left between measurement and standard model, minus the width into the mediator times the fraction of its decays that look like the measured final state: the mediator decays invisibly or beyond the detector, or into the leptons within the vertex resolution, with the decay law of a particle of its width and momentum. A mediator outside the measured kinematic window contributes nothing, and the constraint lies between the room minus the whole width and the room.", "quantifier": "for all parameters of a mediator with a width, all six decays and all momenta", "why_tests_cant": "The tests check no decay law and no window; a wrong momentum or a wrong unit gives plausible numbers.", "anchors": ["hazma/scalar_mediator/_scalar_mediator_constraints.py: constraint_B_k_invis", "hazma/scalar_mediator/_scalar_mediator_constraints.py: constraint_B_k_mu_mu", "hazma/scalar_mediator/_scalar_mediator_constraints.py: constraint_k_pi_invis", "hazma/scalar_mediator/_scalar_mediator_constraints.py: constraint_kl_pi0_e_e", "hazma/constraint_parameters.py: RareDecayObs"]}
{"id": "C103", "title": "Meson decays into the mediator", "statement": "The width of a meson into a lighter meson and the mediator is the two-body width with the squared penguin amplitude, is never negative and is zero above threshold; the width of a B meson into anything strange and the mediator is at least the width into a kaon and the mediator.", "quantifier": "for all mediator masses and couplings", "why_tests_cant": "The widths are only tested at a few masses against stored numbers of the same code.", "anchors": ["hazma/scalar_mediator/_scalar_mediator_constraints.py: width_B_k_s", "hazma/scalar_mediator/_scalar_mediator_constraints.py: width_k_pi_s", "hazma/scalar_mediator/_scalar_mediator_constraints.py: width_kl_pi0_s", "hazma/scalar_mediator/_scalar_mediator_constraints.py: width_B_xs_s"]}
{"id": "C104", "title": "Every constraint can be evaluated", "statement": "Every constraint of a scalar mediator gives a finite number for every mediator with positive masses.", "quantifier": "for all scalar mediators and all listed constraints", "why_tests_cant": "The failing masses form a gap of less than 0.1 MeV, and the failing couplings are limits that no test uses.", "anchors": ["hazma/scalar_mediator/_scalar_mediator_constraints.py: constraint_kl_pi0_e_e", "hazma/scalar_mediator/_scalar_mediator_constraints.py: constraints", "hazma/scalar_mediator/_scalar_mediator_constraints.py: width_h_invis"]}
{"id": "C105", "title": "Beam dumps", "statement": "The expected number of events in a beam dump is the number of mediators made by kaons and B mesons times the fraction that survives to the detector and decays in it, by the decay law at the energy of the experiment, times the fraction of visible final states; the constraint is the bound minus that number, for every mediator mass.", "quantifier": "for all experiments with distinct visible final states and all mediators", "why_tests_cant": "The tests run one mass and cannot tell the momentum from the energy in the exponent.", "anchors": ["hazma/scalar_mediator/_scalar_mediator_constraints.py: constrain_beam_dump", "hazma/constraint_parameters.py: bd_charm", "hazma/constraint_parameters.py: bd_ship"]}
{"id": "C106", "title": "Invisible Higgs decays", "statement": "With a dark scalar of coupling g that mixes with the Higgs boson by an angle theta, the constraint from invisible Higgs decays is the measured bound minus the two-body width of the Higgs boson into dark matter with coupling g sin theta; it is the bound itself above threshold.", "quantifier": "for all mixing angles, couplings and dark matter masses", "why_tests_cant": "The angle is small in every test, where the sine, the tangent and the angle agree.", "anchors": ["hazma/scalar_mediator/_scalar_mediator_constraints.py: width_h_invis", "hazma/scalar_mediator/_scalar_mediator_constraints.py: constraint_higgs_invis"]}
{"id": "C107", "title": "Quark mixing matrix", "statement": "The quark mixing matrix built from the Wolfenstein parameters is unitary, lambda is the sine of the mixing of d and s, A lambda is the ratio of Vcb to Vus, rhobar + i etabar is the apex of the unitarity triangle, and the couplings of the top quark have their measured absolute values.", "quantifier": "for all parameters whose sines are at most one", "why_tests_cant": "No test looks at the matrix; a transposed factor keeps it unitary and a missing conjugation keeps all absolute values of one row.", "anchors": ["hazma/parameters.py: _ckm_wolfenstein", "hazma/parameters.py: CKM"]}
{"id": "C108", "title": "Dark matter fluxes and limits", "statement": "The predicted flux of a bin times the cross section (or the width) is the number of photons per area and time that reach the observer from the annihilations (or decays) along the line of sight, for dark matter of particles and antiparticles; the unbinned limit is the cross section at which the signal is n sigma above the background in the best window, the binned limit the largest one compatible with the data, and the constraint image is negative exactly when the model's cross section is above that limit.", "quantifier": "for all density profiles, targets, spectra and measurements", "why_tests_cant": "A test compares one target with stored numbers; a factor of two for self-conjugate dark matter or a missing unit conversion changes both together.", "anchors": ["hazma/theory/_theory_gamma_ray_limits.py: _compute_fluxes", "hazma/theory/_theory_gamma_ray_limits.py: _differential_signal_flux_prefactor", "hazma/theory/_theory_gamma_ray_limits.py: binned_limit", "hazma/theory/_theory_gamma_ray_limits.py: unbinned_limit", "hazma/theory/_theory_constrain.py: _constrain_binned_gamma_helper", "hazma/target_params.py: TargetParams"]}
{"id": "C109", "title": "Fisher forecast", "statement": "The Fisher matrix of a signal and a parametric background is symmetric and has no negative direction, and the forecast limit is the rate at which the signal, after the best shift of all background parameters, is the requested number of sigmas above the background.", "quantifier": "for all spectra, effective areas and background parameters with an invertible Fisher matrix", "why_tests_cant": "The limit looks plausible for any scaling of the background derivatives.", "anchors": ["hazma/theory/_theory_gamma_ray_limits.py: fisher", "hazma/theory/_theory_gamma_ray_limits.py: fisher_limit"]}
{"id": "C110", "title": "Parametric backgrounds", "statement": "The derivatives of a parametric background are the partial derivatives of its flux with respect to the parameters of those names, for all parameter values, and the reported parameters are those of the model.", "quantifier": "for all parameters and positive energies", "why_tests_cant": "Two defaults are equal (2.0), which hides a swapped parameter, and a sign does not change the forecast limit.", "anchors": ["hazma/gamma_ray_parameters.py: GalacticCenterBackgroundModel", "hazma/gamma_ray_parameters.py: GeccoBackgroundModel"]}
{"id": "C111", "title": "Level sets", "statement": "A contour of a constraint image passes through the parameter values of the pixels it passes through: the first and last pixels are at the first and last values.", "quantifier": "for all axes of at least two values and all contours", "why_tests_cant": "Contours are looked at on plots, where one pixel in fifty is not seen.", "anchors": ["hazma/theory/_theory_constrain.py: _img_to_ls"]}
{"id": "C112", "title": "Relic density limit", "statement": "The relic density limit is the annihilation cross section of the model whose property has the value, between the given bounds, that gives the observed relic density; with no such value it is NaN.", "quantifier": "for all models, properties, positive bounds and root finders that return roots within the bracket", "why_tests_cant": "A test would need a model with a known relic density.", "anchors": ["hazma/limits/_relic_density.py: RelicDensityLimit"]}
{"id": "C113", "title": "Detector response", "statement": "The energy response is normalised over reconstructed energies and has the published full width at half maximum, convolution with it keeps the number of photons, two for each line of a pair of photons, and a spectrum marginalised over centre-of-mass energies is an average.", "quantifier": "for all energies, resolutions, spectra, lines and probabilities", "why_tests_cant": "The area under the response needs the Gaussian integral; a test compares with the same formula.", "anchors": ["hazma/parameters.py: spec_res_fn", "hazma/parameters.py: convolved_spectrum_fn", "hazma/gamma_ray_parameters.py: fwhm_factor", "hazma/spectra/convolve.py: make_marginal_fn"]}
{"id": "C114", "title": "Target tables", "statement": "The solid angle of a cone is its part of the sphere; the solid angles of the tables are those of the named regions; regions inside one another receive less than those that contain them; the targets kept for backwards compatibility are the entries of the new tables.", "quantifier": "for all entries of all tables", "why_tests_cant": "Tables of constants have no tests.", "anchors": ["hazma/gamma_ray_parameters.py: solid_angle_cone", "hazma/gamma_ray_parameters.py: gc_targets", "hazma/gamma_ray_parameters.py: gc_targets_optimistic", "hazma/gamma_ray_parameters.py: egret_diffuse_target", "hazma/gamma_ray_parameters.py: egret_diffuse_targets"]}
{"id": "C115", "title": "The four-pion current is conserved", "statement": "In both modes of the four-pion form factor the hadronic current computed by _msqrd is orthogonal to the total momentum.", "quantifier": "every choice of fit parameters, every four momenta whose sum is not lightlike", "why_tests_cant": "No test evaluates the current; conservation is an identity in 16 momentum components and 25 parameters.", "anchors": ["hazma/form_factors/vector/_pi_pi_pi_pi.py: _current_neutral", "hazma/form_factors/vector/_pi_pi_pi_pi.py: _current_charged", "hazma/form_factors/vector/_pi_pi_pi_pi.py: _msqrd"]}
{"id": "C116", "title": "The four-pion weight is a non-negative polarisation average", "statement": "In the rest frame _msqrd is the squared isovector coupling times the average over three polarisations of the squared current, divided by the number of exchanges of identical pions and the squared energy; for timelike total momentum it is never negative, depends on the couplings only through (gvuu - gvdd)^2 and vanishes when they agree.", "quantifier": "every fit, mode, coupling and four momenta with timelike sum", "why_tests_cant": "The sign of a squared amplitude over a continuous 16-dimensional space cannot be sampled exhaustively.", "anchors": ["hazma/form_factors/vector/_pi_pi_pi_pi.py: _msqrd"]}
{"id": "C117", "title": "The four-pion current respects Bose symmetry and charge conjugation", "statement": "The neutral-mode current is even under exchange of the two momenta documented as neutral and odd under exchange of the charged ones; the charged-mode current (order +,-,+,-) is even under exchange of equal charges and odd when all charges are reversed; the weights are unchanged.", "quantifier": "every fit and every four momenta", "why_tests_cant": "An identity among sums of 8 to 60 terms for all momenta.", "anchors": ["hazma/form_factors/vector/_pi_pi_pi_pi.py: _current_a1", "hazma/form_factors/vector/_pi_pi_pi_pi.py: _current_omega", "hazma/form_factors/vector/_pi_pi_pi_pi.py: _current_rho", "hazma/form_factors/vector/_pi_pi_pi_pi.py: _current_charged"]}
{"id": "C118", "title": "The four-pion weight is Lorentz invariant", "statement": "_msqrd has the same value when all four momenta are transformed by the same boost, rotation or reflection.", "quantifier": "every linear map preserving the Minkowski product, every fit, mode, momenta and couplings", "why_tests_cant": "Quantifies over the whole Lorentz group and all momenta.", "anchors": ["hazma/form_factors/vector/_pi_pi_pi_pi.py: _msqrd", "hazma/utils.py: ldot", "hazma/utils.py: lnorm_sqr"]}
{"id": "C119", "title": "In the mode with two neutral pions the current is odd under exchange of the charged ones", "statement": "The momenta are sampled with the masses _fsp_masses = (charged, charged, neutral, neutral) and passed to the current in that order; exchanging the two momenta with the charged mass should turn the current into its opposite.", "quantifier": "every event with the listed masses", "why_tests_cant": "A wrong assignment of momenta to particles changes distributions slightly and raises no error; it shows only in a symmetry over all events.", "anchors": ["hazma/form_factors/vector/_pi_pi_pi_pi.py: __post_init__", "hazma/form_factors/vector/_pi_pi_pi_pi.py: _current_neutral", "hazma/form_factors/vector/_pi_pi_pi_pi.py: _msqrd"]}
{"id": "C120", "title": "The three rho weights of the four-pion fit are the ones used", "statement": "The three numbers beta_b_rhos set the weight of the combination B and the two weights of the combination T.", "quantifier": "every triple of numbers", "why_tests_cant": "No test reads the weights of the fit; a repeated index gives plausible numbers.", "anchors": ["hazma/form_factors/vector/_pi_pi_pi_pi.py: __post_init__", "hazma/form_factors/vector/_pi_pi_pi_pi.py: _propagator_rho_t"]}
{"id": "C121", "title": "Resonance propagators of the four-pion current", "statement": "The rho propagator has width w (k/k0)^3 m/sqrt(s) above two charged pions, is real at or below and i m/w at the pole; the a1, f0 and omega are i m/w at their poles; the combinations F, B and T of rho resonances tend to one at zero momentum.", "quantifier": "every mass above two pions, every positive width, every squared energy, every set of weights with non-zero sum", "why_tests_cant": "Limits and the behaviour on a continuum of energies and parameters.", "anchors": ["hazma/form_factors/vector/_pi_pi_pi_pi.py: _breit_wigner3", "hazma/form_factors/vector/_pi_pi_pi_pi.py: _propagator_a1", "hazma/form_factors/vector/_pi_pi_pi_pi.py: _propagator_f0", "hazma/form_factors/vector/_pi_pi_pi_pi.py: _propagator_rho_f", "hazma/form_factors/vector/_pi_pi_pi_pi.py: _propagator_rho_b", "hazma/form_factors/vector/_pi_pi_pi_pi.py: _propagator_rho_t"]}
{"id": "C122", "title": "The public four-pion form factor returns the hadronic current", "statement": "form_factor(momenta) returns the current of the event, the momenta being converted from MeV to GeV.", "quantifier": "every fit, both modes, every event", "why_tests_cant": "No test calls the method; the claim is for every input.", "anchors": ["hazma/form_factors/vector/_pi_pi_pi_pi.py: form_factor", "hazma/utils.py: ldot"]}
{"id": "C123", "title": "The running width of the a1 is positive and continuous", "statement": "The width in _propagator_a1 is not negative for squared masses reachable by three pions and is a continuous function of the squared mass.", "quantifier": "every squared mass above the lightest three-pion threshold", "why_tests_cant": "A jump and a sign over a small interval of a continuous variable.", "anchors": ["hazma/form_factors/vector/_pi_pi_pi_pi.py: _propagator_a1"]}
{"id": "C124", "title": "Vector form factors are linear in the quark couplings and respect G parity", "statement": "Every resonance-fit form factor (two pions, two kaons, pion photon, eta photon, eta phi, eta omega, pion phi, pion omega, two pions and eta or eta' or omega, three pions, pion and two kaons) is linear in the couplings of the mediator to up, down and strange quarks. For final states of definite G parity, an even state depends only on the up minus the down coupling and an odd one only on their sum and the strange coupling; the form factors of the wrong G parity vanish for isoscalar (or purely isovector) couplings.", "quantifier": "all fit parameters, all energies and invariant masses, all real couplings", "why_tests_cant": "A test checks a few couplings with one set of fit parameters; linearity and the selection rule hold for every choice of resonances and couplings.", "anchors": ["hazma/form_factors/vector/_pi_pi.py: VectorFormFactorPiPi", "hazma/form_factors/vector/_pi_phi.py: VectorFormFactorPi0Phi", "hazma/form_factors/vector/_pi_omega.py: VectorFormFactorPi0Omega", "hazma/form_factors/vector/_eta_omega.py: VectorFormFactorEtaOmega", "hazma/form_factors/vector/_eta_phi.py: VectorFormFactorEtaPhi", "hazma/form_factors/vector/_pi_pi_eta.py: form_factor", "hazma/form_factors/vector/_pi_pi_omega.py: form_factor", "hazma/form_factors/vector/_pi_pi_pi0.py: form_factor"]}
{"id": "C125", "title": "A vector does not decay to two neutral pions", "statement": "By charge conjugation (and Bose symmetry) the form factor of a vector to two neutral pions is zero; the code should give a zero width for that state.", "quantifier": "all fit parameters, energies and couplings", "why_tests_cant": "The stored reference values contain the wrong nonzero width, so a regression test passes; only the symmetry shows that it must vanish.", "anchors": ["hazma/form_factors/vector/_pi_pi.py: VectorFormFactorPi0Pi0", "hazma/vector_mediator/_gev/model.py: width_v_to_pi0_pi0"]}
{"id": "C126", "title": "Kaon form factors are the quark charges at zero momentum", "statement": "The fitted couplings of the rho, omega and phi towers add up to one and the rescaling of the pion fit keeps their sum, so that at zero momentum the K+ form factor is the up minus the strange coupling and the K0 form factor the down minus the strange coupling, which is zero for a photon.", "quantifier": "all fit weights, all couplings", "why_tests_cant": "The normalisation is a sum rule over thousands of couplings that must hold for any fit weights, at an energy below threshold where no test evaluates the form factor.", "anchors": ["hazma/form_factors/vector/_k_k.py: VectorFormFactorKKFitData", "hazma/form_factors/vector/_pi_pi.py: VectorFormFactorPiPi"]}
{"id": "C127", "title": "The search for beta solves its equation", "statement": "find_beta(c0) returns beta with c_0(beta) within 1e-10 of c0, where c_0 is 2/sqrt(pi) gamma(beta-1/2)/gamma(beta-1), whenever a solution lies in the search range.", "quantifier": "all targets c0, all numbers of iterations", "why_tests_cant": "The search is run for one value of c0; the failures need a target whose solution is met exactly at the middle of an interval.", "anchors": ["hazma/form_factors/vector/_k_k.py: _find_beta", "hazma/form_factors/vector/_k_k.py: c_0"]}
{"id": "C128", "title": "The tower of resonances has the couplings of the dual model", "statement": "The generator yields gamma(2-beta+n)/n! for each n, and the couplings built from it obey the recurrence of (-1)^n gamma(beta-1/2)/((n+1/2) sqrt(pi) n! gamma(beta-1-n)) with the right first term.", "quantifier": "all beta, all numbers of resonances, any function with the functional equation (and reflection formula) of the gamma function", "why_tests_cant": "The tower has up to 2000 terms and a beta found at run time; a test compares the total form factor only.", "anchors": ["hazma/form_factors/vector/_utils.py: gamma_generator", "hazma/form_factors/vector/_pi_pi.py: VectorFormFactorPiPi"]}
{"id": "C129", "title": "The three-pion form factor is symmetric under exchange of the charged pions", "statement": "The form factor of pi+ pi- pi0 at invariant masses (s,t) equals that at (s,u), with u the third invariant mass squared.", "quantifier": "all fit parameters, all energies, all points of the Dalitz plot, all couplings", "why_tests_cant": "A numerical test compares floating-point values at sampled points; the symmetry holds on the whole Dalitz plot and for every fit.", "anchors": ["hazma/form_factors/vector/_pi_pi_pi0.py: form_factor"]}
{"id": "C130", "title": "Energy-dependent widths vanish at threshold and equal the nominal width at the resonance", "statement": "The p-wave running width is zero at the two-body threshold, positive above it and equal to the nominal width at the resonance mass; the widths used in the phi pi0 and omega pi0 fits are positive in the range of those states.", "quantifier": "all masses and widths of resonances above threshold, all energies above threshold", "why_tests_cant": "The masses and widths are fit parameters that users may change; a test samples a few energies for the default ones.", "anchors": ["hazma/form_factors/vector/_pi_pi_eta.py: __bw0", "hazma/form_factors/vector/_pi_pi_pi0.py: __gamma_rho", "hazma/form_factors/vector/_pi_phi.py: __form_factor", "hazma/form_factors/vector/_pi_omega.py: _rho_widths"]}
{"id": "C131", "title": "Pion and two kaon form factors respect charge symmetry and charge conjugation", "statement": "Exchanging up and down couplings turns the K0 K0bar pi0 form factor into the K+ K- pi0 one and reflects the K+ K0bar pi- one, for equal kaon masses; exchanging the kaons of a neutral pair leaves the form factors unchanged.", "quantifier": "all fit parameters, energies, invariant masses and couplings", "why_tests_cant": "The symmetry relates three different form factors for every choice of fits and couplings.", "anchors": ["hazma/form_factors/vector/_pi_k_k.py: VectorFormFactorPi0K0K0", "hazma/form_factors/vector/_pi_k_k.py: VectorFormFactorPi0KpKm", "hazma/form_factors/vector/_pi_k_k.py: VectorFormFactorPiKK0"]}
{"id": "C132", "title": "Pion and two kaon states come from one K* amplitude per charge", "statement": "The three form factors are those of the production of a neutral or charged K* and its decay with isospin Clebsch-Gordan coefficients, so that the state with a charged pion has sqrt(2) times the amplitudes of the states with a neutral one and a resonance in a charged pair comes from the amplitude of the charged K*.", "quantifier": "all fit parameters, energies, invariant masses and couplings", "why_tests_cant": "Each form factor agrees with its own reference value; only the relation between the three shows that the charges are exchanged.", "anchors": ["hazma/form_factors/vector/_pi_k_k.py: VectorFormFactorPiKK0", "hazma/form_factors/vector/_pi_k_k.py: VectorFormFactorPi0KpKm"]}
{"id": "C133", "title": "The pion photon form factor at zero momentum is the triangle anomaly", "statement": "At zero energy the form factor of V to pi0 photon is the electric coupling times three colours times (2/3 g_u + 1/3 g_d) over 4 pi^2 f_pi, whatever the fit.", "quantifier": "all fit parameters and couplings, nonzero f_pi", "why_tests_cant": "Zero energy is below every threshold, where the code is not called; the limit fixes the normalisation of the whole curve.", "anchors": ["hazma/form_factors/vector/_pi_gamma.py: VectorFormFactorPi0Gamma"]}
{"id": "C134", "title": "Resonance propagators and coefficients of the fits", "statement": "Each propagator of the fits is purely imaginary with modulus m/width at the resonance mass, its real part changes sign there only, and its imaginary part keeps its sign above threshold; the coefficient of a resonance has the fitted amplitude and phase.", "quantifier": "all masses, widths and energies above the two-body threshold, all amplitudes and phases", "why_tests_cant": "The regression tests compare the summed form factor at a few energies with stored numbers produced by the same code.", "anchors": ["hazma/form_factors/vector/_utils.py: breit_wigner_fw", "hazma/form_factors/vector/_utils.py: breit_wigner_pwave", "hazma/form_factors/vector/_pi_pi_eta.py: __bw", "hazma/form_factors/vector/_pi_pi_pi0.py: __bw_rho"]}
{"id": "C135", "title": "Mixing of the pseudoscalar mediator with the neutral pion", "statement": "The mixing angle and the shifted pion mass diagonalise the two-by-two mass matrix of the mediator and the neutral pion, up to an error of third order in the angle for the eigenvector and fourth order for the eigenvalue; without isospin-breaking couplings there is no mixing.", "quantifier": "all couplings and masses off the pole, all eigenvectors next to the pion", "why_tests_cant": "Two closed-form numbers at a few points do not show that the formula diagonalises the matrix, nor how large its error is.", "anchors": ["hazma/experimental/pseudo_scalar_mediator/__init__.py: determine_mixing"]}
{"id": "C136", "title": "Two-body widths of the pseudoscalar mediator", "statement": "The widths to leptons are those of a pseudoscalar coupling times 1 - beta^2, and zero below threshold; the width to photons is that of the triangle anomaly for the mixed state; every width is defined for every model that can be set up.", "quantifier": "all models", "why_tests_cant": "No test covers the package, and stored numbers would not reveal a missing factor 2.", "anchors": ["hazma/experimental/pseudo_scalar_mediator/_widths.py: width_p_to_gg", "hazma/experimental/pseudo_scalar_mediator/_widths.py: width_p_to_xx", "hazma/experimental/pseudo_scalar_mediator/_widths.py: width_p_to_ff"]}
{"id": "C137", "title": "Annihilation through the pseudoscalar resonance respects unitarity", "statement": "The cross sections to leptons and photons are of the form of Breit and Wigner with the widths of the mediator, and on the resonance no cross section exceeds the unitarity bound of an s wave.", "quantifier": "all models and energies", "why_tests_cant": "The bound relates the cross sections with the total width, which are computed in separate modules.", "anchors": ["hazma/experimental/pseudo_scalar_mediator/_cross_sections.py: sigma_xx_to_p_to_ff", "hazma/experimental/pseudo_scalar_mediator/_cross_sections.py: sigma_xx_to_p_to_gg", "hazma/experimental/pseudo_scalar_mediator/_widths.py: width_p_to_xx"]}
{"id": "C138", "title": "Three pions through mixing follow Weinberg's amplitude", "statement": "In the isospin limit the mediator decays to three pions through its pion component with Weinberg's scattering amplitudes: the matrix elements, the differential widths and the differential cross sections all come from the same squared amplitude, with the factor 1/6 for identical pions.", "quantifier": "all models in the isospin limit and all phase-space points", "why_tests_cant": "The three implementations are long expanded expressions that only a symbolic comparison can relate.", "anchors": ["hazma/experimental/pseudo_scalar_mediator/_msqrd.py: msqrd_xx_to_p_to_pm0", "hazma/experimental/pseudo_scalar_mediator/_msqrd.py: msqrd_xx_to_p_to_000", "hazma/experimental/pseudo_scalar_mediator/_widths.py: dwidth_ds_p_to_pi0pipi", "hazma/experimental/pseudo_scalar_mediator/_widths.py: dwidth_ds_p_to_pi0pi0pi0", "hazma/experimental/pseudo_scalar_mediator/_cross_sections.py: dsigma_ds_xx_to_p_to_pi0pipi"]}
{"id": "C139", "title": "Annihilation cross sections of the pseudoscalar model can be computed", "statement": "Above their thresholds the cross sections for two mediators and for three pions have values, and the table of cross sections and of branching fractions is returned.", "quantifier": "all models and energies, any integration routine", "why_tests_cant": "A test that runs the function at one point sees one exception, not that no input avoids it.", "anchors": ["hazma/experimental/pseudo_scalar_mediator/_cross_sections.py: sigma_xx_to_pp", "hazma/experimental/pseudo_scalar_mediator/_cross_sections.py: sigma_xx_to_p_to_pi0pi0pi0", "hazma/experimental/pseudo_scalar_mediator/_cross_sections.py: annihilation_cross_sections", "hazma/experimental/pseudo_scalar_mediator/_cross_sections.py: annihilation_branching_fractions"]}
{"id": "C140", "title": "Bose symmetry and radiation of the three-pion matrix elements", "statement": "The matrix element of three neutral pions does not change when pions are exchanged; the one with a photon is the eikonal factor times the one without at the shifted invariant mass, is not negative for small mixing, and obeys Low's theorem for soft photons.", "quantifier": "all phase-space points and models", "why_tests_cant": "Factorisation and limits concern all momenta; the symmetry fails only away from symmetric points.", "anchors": ["hazma/experimental/pseudo_scalar_mediator/_msqrd.py: msqrd_xx_to_p_to_000", "hazma/experimental/pseudo_scalar_mediator/_msqrd.py: msqrd_xx_to_p_to_pm0g"]}
{"id": "C141", "title": "Final-state radiation from fermions in pseudoscalar annihilation", "statement": "The photon spectrum equals the splitting form of a spinless mediator written in the fermion velocity; it is positive below the endpoint, zero at and beyond it and for negative energies, and its soft limit is the universal one.", "quantifier": "all energies, masses below threshold and couplings", "why_tests_cant": "The code is a sum of logarithms with large cancellations; positivity up to the endpoint is a statement about a continuum.", "anchors": ["hazma/experimental/pseudo_scalar_mediator/_fsr.py: __dnde_xx_to_p_to_ffg"]}
{"id": "C142", "title": "Assigning attributes of the pseudoscalar models equals building them anew", "statement": "After any assignment the object is the one constructed with the changed parameter, including the exceptions raised, for the general model and the one of minimal flavour violation.", "quantifier": "all models, attributes, values and sequences of assignments", "why_tests_cant": "It ranges over all histories of an object.", "anchors": ["hazma/experimental/pseudo_scalar_mediator/__init__.py: PseudoScalarMediatorBase", "hazma/experimental/pseudo_scalar_mediator/__init__.py: PseudoScalarMFV"]}
{"id": "C143", "title": "Matrix elements of the axial vector mediator", "statement": "The matrix element for a pair of fermions is the contraction of the two axial tensors with the propagator of a massive vector, averaged over spins, and not negative; with a photon it obeys Low's theorem.", "quantifier": "all masses, couplings and momenta", "why_tests_cant": "The expanded expressions have to be compared with a tensor contraction, and the soft limit is a limit.", "anchors": ["hazma/experimental/axial_vector_mediator/avm_msqrd.py: msqrd_xx_to_a_to_ff", "hazma/experimental/axial_vector_mediator/avm_msqrd.py: msqrd_xx_to_a_to_ffg"]}
{"id": "C144", "title": "The Cython functions kept beside the Rust kernels compute the same values", "statement": "The spectra of photons and positrons from muons and pions, the boosted line and the boost integral of a table in the Cython modules equal those of the Rust kernels that replace them, including the cases reported as errors.", "quantifier": "all energies, masses, couplings, branching ratios, tables, integrators and dilogarithms", "why_tests_cant": "The golden comparisons sample energies; agreement is needed at every energy, on every branch and for every table.", "anchors": ["hazma/_utils/boost.pyx: boost_integrate_linear_interp", "hazma/_utils/boost.pyx: boost_delta_function", "hazma/spectra/_photon/_muon.pyx: dnde_photon_muon_point", "hazma/spectra/_photon/_pion.pyx: dnde_photon_charged_pion_point", "hazma/spectra/_positron/_muon.pyx: dnde_positron_muon_point", "hazma/spectra/_positron/_pion.pyx: dnde_positron_charged_pion_point"]}
{"id": "C145", "title": "A physical constant has one value", "statement": "The tables of constants agree between Cython, Rust and Python; a quantity has one value; branching ratios of one parent add up to at most 1.", "quantifier": "all constants and parents", "why_tests_cant": "Tests compare spectra with golden values made from the same constants; a wrong or duplicated constant does not show.", "anchors": ["hazma/_utils/constants.pxd: module constants", "hazma/_utils/legacy_parameters.pxd: module constants", "rust/src/constants.rs: pdg", "rust/src/constants.rs: legacy", "hazma/parameters.py: module constants"]}
{"id": "C146", "title": "Kinematic numbers typed into the charged pion photon spectrum", "statement": "The literals are the values their names describe at the masses used, and no photon is emitted above eng_gam_max.", "quantifier": "all pion energies above the mass, photon energies and angles", "why_tests_cant": "The bound concerns every energy above the maximum and every angle.", "anchors": ["hazma/spectra/_photon/_pion.pyx: eng_gam_max", "hazma/spectra/_photon/_pion.pyx: charged_pion_integrand", "rust/src/constants.rs: derived"]}
{"id": "C147", "title": "boost_eng and boost_jac are the energy and the Jacobian of a boost", "statement": "boost_eng is the energy of the daughter in the rest frame of the parent, and boost_jac is the determinant of the derivatives of energy and cosine in that frame by those in the laboratory.", "quantifier": "all energies, masses and cosines", "why_tests_cant": "The Jacobian is a determinant of derivatives, not a number to compare with; for photons a wrong mass dependence cannot show.", "anchors": ["hazma/_utils/boost.pyx: boost_eng", "hazma/_utils/boost.pyx: boost_jac"]}
{"id": "C148", "title": "The analytic integrals of the old form factor utilities are the integrals they name", "statement": "integral_power_div_simple_monomial, integral_power_div_monomial, integral_poly_div_simple_factor and integral_poly_div_simple_factored return the integral of x^n/(x-z), x^n/(x-z)^m, p(x)/(x-z) and p(x)/prod(x-z_i) over an interval that contains no pole.", "quantifier": "all powers, polynomials, poles and intervals on one side of the poles", "why_tests_cant": "Several cases are right by accident (m = 1, z = 0, a numerator that is 1 at the poles); only a statement for all powers separates them from the wrong ones.", "anchors": ["hazma/vector_mediator/form_factors/utils.py: integral_power_div_simple_monomial", "hazma/vector_mediator/form_factors/utils.py: integral_power_div_monomial", "hazma/vector_mediator/form_factors/utils.py: integral_poly_div_simple_factor", "hazma/vector_mediator/form_factors/utils.py: integral_poly_div_simple_factored"]}
{"id": "C149", "title": "The old Lorentz structures are the squared currents", "statement": "For momenta on shell that add up to the vector at rest, the closed forms for two pseudoscalars, a pseudoscalar and a vector, and three pseudoscalars (four copies of it) equal the contracted squared currents, which are never negative.", "quantifier": "all masses and events", "why_tests_cant": "The closed forms are polynomials of degree six; the contraction over all indices and polarisations is an independent computation that holds for every event.", "anchors": ["hazma/vector_mediator/form_factors/utils.py: msqrd_lorentz_p_p", "hazma/vector_mediator/form_factors/utils.py: msqrd_lorentz_p_v", "hazma/vector_mediator/form_factors/utils.py: msqrd_lorentz_p_p_p", "hazma/vector_mediator/form_factors/pi_k_k.py: FormFactorPiKKBase", "hazma/vector_mediator/form_factors/pi_pi_pi0.py: FormFactorPiPiPi0"]}
{"id": "C150", "title": "Old two-body widths follow the golden rule and the cross sections follow from the widths", "statement": "The widths into two pseudoscalars, a pseudoscalar and a photon, and a pseudoscalar and a vector are momentum over 8 pi M^2 times the averaged squared matrix element and vanish below threshold; every cross section is g^2 times propagator and flux times the width of a vector of mass sqrt s.", "quantifier": "all masses, form factors, energies above threshold and couplings", "why_tests_cant": "Relates functions of different files; a missing factor two or s gives plausible numbers.", "anchors": ["hazma/vector_mediator/form_factors/widths.py: width_v_to_p_p", "hazma/vector_mediator/form_factors/widths.py: width_v_to_p_a", "hazma/vector_mediator/form_factors/widths.py: width_v_to_v_p", "hazma/vector_mediator/form_factors/cross_sections.py: width_to_cs", "hazma/vector_mediator/form_factors/cross_sections.py: cross_section", "hazma/vector_mediator/form_factors/form_factor.py: FormFactor.cross_section", "hazma/vector_mediator/form_factors/four_pi.py: FormFactorPiPiPiPi"]}
{"id": "C151", "title": "Old three-body widths follow the golden rule above the threshold of the final state", "statement": "With exact quadrature the widths into pi pi eta, pi pi eta' and pi pi omega are the phase-space integral of the squared matrix element; the widths into three pions and pi K K are the weighted average over 2 M; each is non-zero exactly above its threshold.", "quantifier": "all mediator masses and form factors", "why_tests_cant": "The region of integration is the set of all events; a threshold in the wrong unit only removes a mass range no sample may hit.", "anchors": ["hazma/vector_mediator/form_factors/pi_pi_eta.py: FormFactorPiPiEta", "hazma/vector_mediator/form_factors/pi_pi_etap.py: FormFactorPiPiEtaP", "hazma/vector_mediator/form_factors/pi_pi_omega.py: FormFactorPiPiOmega", "hazma/vector_mediator/form_factors/pi_pi_pi0.py: FormFactorPiPiPi0", "hazma/vector_mediator/form_factors/pi_k_k.py: FormFactorPiKKBase"]}
{"id": "C152", "title": "Old energy distributions are normalised densities in the right units", "statement": "The energy distributions for pi pi eta, pi pi eta' and pi pi omega are the density of the squared matrix element at that energy, normalised; those of three pions, four pions and pi K K have energies in MeV.", "quantifier": "all energies above threshold and numbers of bins", "why_tests_cant": "The density is an integral over all events with a given energy; the normalisation hides common factors and a unit error leaves the total at one.", "anchors": ["hazma/vector_mediator/form_factors/pi_pi_eta.py: energy_distributions", "hazma/vector_mediator/form_factors/pi_pi_etap.py: energy_distributions", "hazma/vector_mediator/form_factors/pi_pi_omega.py: energy_distributions", "hazma/vector_mediator/form_factors/pi_pi_pi0.py: energy_distributions", "hazma/vector_mediator/form_factors/four_pi.py: energy_distributions", "hazma/vector_mediator/form_factors/pi_k_k.py: energy_distributions"]}
{"id": "C153", "title": "The properties of VectorMediatorGeVBase return the values given to the constructor", "statement": "Each of the eleven properties for masses and couplings returns the constructor argument of the same name.", "quantifier": "all parameter values", "why_tests_cant": "With equal couplings a swapped attribute is invisible.", "anchors": ["hazma/vector_mediator/_gev/base.py: VectorMediatorGeVBase"]}
{"id": "C154", "title": "Earlier widths of the right-handed neutrino into mesons and photons", "statement": "The functions of hazma/rh_neutrino/_rh_neutrino_widths.py give the golden-rule widths of N -> pi l, K l, pi0 nu, eta nu, nu pi+ pi-, l pi pi0 and the loop widths into photons: for the charged meson sin(theta) times the width is the golden rule (one factor sin(theta) is missing, so negative angles give negative widths); the neutral-meson widths are positive exactly below threshold; the pion-pair width is the golden rule divided by cos^2(theta_W); the l pi pi0 width exceeds it by the integral of a term left out of a Kallen function; the photon width is smaller than that of the present class by more than pi^4; the two-photon width uses the angle in place of its sine.", "quantifier": "all masses, mixing angles and CKM elements in the stated ranges, all events of the decay, all values of an exact quadrature", "why_tests_cant": "The functions are not reachable from the public classes and no test compares them with an independent phase-space integral; an error of a constant factor or of the sign for negative angles is invisible to regression data.", "anchors": ["hazma/rh_neutrino/_rh_neutrino_widths.py: __width_m0_nu", "hazma/rh_neutrino/_rh_neutrino_widths.py: __width_m_l", "hazma/rh_neutrino/_rh_neutrino_widths.py: width_nu_gamma", "hazma/rh_neutrino/_rh_neutrino_widths.py: width_nu_pi_pi", "hazma/rh_neutrino/_rh_neutrino_widths.py: width_l_pi_pi0", "hazma/rh_neutrino/_rh_neutrino_widths.py: width_nu_g_g"]}
{"id": "C155", "title": "Earlier widths of the right-handed neutrino into leptons", "statement": "width_nup_l_lp is the golden-rule width of the charged-current decay into leptons of two flavours, for all masses, and is symmetric in the two masses; width_nu_l_l_same, width_nu_lp_lp and width_nu_nu_nu are the Majorana golden rule with the neutral current enhanced by 1/cos^2(theta_W), hence too small for the flavour that mixes and too large for the others; the widths do not depend on the order of the neutrinos or of the charged leptons and vanish unless the flavours pair up; the tau raises IndexError and a flavour 0 is taken for the muon.", "quantifier": "all masses below threshold, mixing angles and flavours", "why_tests_cant": "Agreement with a two-dimensional phase-space integral for every pair of masses is not a finite check, and the closed forms have logarithms which cancel to high order.", "anchors": ["hazma/rh_neutrino/_rh_neutrino_widths.py: width_nu_nu_nu", "hazma/rh_neutrino/_rh_neutrino_widths.py: __width_nu_l_l", "hazma/rh_neutrino/_rh_neutrino_widths.py: __width_nu_lp_lp", "hazma/rh_neutrino/_rh_neutrino_widths.py: __width_nup_l_lp", "hazma/rh_neutrino/_rh_neutrino_widths.py: width_nu_l_l"]}
{"id": "C156", "title": "Earlier photon and positron spectra of the right-handed neutrino", "statement": "dnde_pi_l_fsr and dnde_k_l_fsr are the photon spectra per decay N -> meson lepton of the gauge-invariant tree amplitude with one photon, summed over polarisations and integrated over the lepton energy, and are the same function of the meson mass; they vanish outside the kinematic range; the three-body functions are the branching ratio times one splitting function per charged particle; the positron function evaluates the pion spectrum at the energy of the pion in the two-body decay.", "quantifier": "all masses, photon energies, couplings and events", "why_tests_cant": "No test covers these functions; the closed form must equal an integral of a squared amplitude at every energy and mass.", "anchors": ["hazma/rh_neutrino/_rh_neutrino_fsr.py: _dnde_pi_l_fsr", "hazma/rh_neutrino/_rh_neutrino_fsr.py: _dnde_k_l_fsr", "hazma/rh_neutrino/_rh_neutrino_fsr.py: dnde_nu_l_l_fsr", "hazma/rh_neutrino/_rh_neutrino_fsr.py: dnde_l_pi_pi0_fsr", "hazma/rh_neutrino/_rh_neutrino_fsr.py: dnde_nu_pi_pi_fsr", "hazma/rh_neutrino/_rh_neutrino_positron_spectrum.py: dnde_pos_pi_l"]}
{"id": "C157", "title": "Pull request titles", "statement": "check_pr_title.py accepts a title exactly when it is type(scope): subject with an allowed type, a scope of 1 to 10 lower-case letters, digits and inner hyphens that is no type, an optional exclamation mark, a subject that starts with a letter or digit and ends with neither a dot nor a space, and at most 69 characters; the exit code is 0 exactly then.", "quantifier": "all titles, from the arguments or the standard input", "why_tests_cant": "Titles are unbounded texts; the self-test has a handful of them and none with a line feed inside.", "anchors": ["scripts/agents/check_pr_title.py: check", "scripts/agents/check_pr_title.py: read_title", "scripts/agents/check_pr_title.py: main"]}
{"id": "C158", "title": "Citations of source lines", "statement": "check_doc_citations.py resolves a citation to a file only when the citation is the file, the end of it and of no other, or a base name that another citation of the document pins to it; a citation that ends exactly one file is resolved to it, one that is not resolved ends no file or several; the check passes exactly when each document exists, no citation is ambiguous and all cited lines are within the file.", "quantifier": "all sets of files, documents, citations and spans", "why_tests_cant": "The resolver depends on the whole set of tracked files and of citations in a document.", "anchors": ["scripts/agents/check_doc_citations.py: Resolver.__init__", "scripts/agents/check_doc_citations.py: Resolver.resolve", "scripts/agents/check_doc_citations.py: Resolver.doc_context", "scripts/agents/check_doc_citations.py: main"]}
{"id": "C159", "title": "Choice of the next task", "statement": "resolve_task.py names the first task, in the order of the numbers and letters of the ids and then of the table, whose status does not start with Complete, Superseded, Dropped or Skipped; it is reported as blocked exactly when its status starts with Blocked, and done is reported exactly when no task is open; a task asked for by id is the first row with that id.", "quantifier": "all tables of tasks", "why_tests_cant": "The choice depends on the order of a whole table with arbitrary ids and annotated statuses.", "anchors": ["scripts/agents/resolve_task.py: status_is_done", "scripts/agents/resolve_task.py: parse_id_key", "scripts/agents/resolve_task.py: normalize_id", "scripts/agents/resolve_task.py: emit", "scripts/agents/resolve_task.py: main"]}
{"id": "C160", "title": "Reading the table of tasks", "statement": "find_tasks_table gives back the tasks of every Markdown table under a heading Tasks: id, title, status and note of each row; the table ends at a blank line or prose, the search at the next heading, and the slug of a task is the name of its note.", "quantifier": "all documents with a table of tasks", "why_tests_cant": "Cells are arbitrary texts; only a parser that is inverse to the writer for all of them is right.", "anchors": ["scripts/agents/resolve_task.py: find_tasks_table", "scripts/agents/resolve_task.py: split_row", "scripts/agents/resolve_task.py: is_separator", "scripts/agents/resolve_task.py: Task.slug"]}
{"id": "C161", "title": "Ids of phases", "statement": "normalize_phase_id maps 03, phase-3 and Phase 03 to 3, 03.1 and 03_1 to 3.1 and 8a to 8A, its values are canonical and fixed by it; phase_sort_key orders the canonical ids totally, by number, with ties only between equal ids; the id of a file name agrees with it, and the frontmatter wins only if it is consistent with the name.", "quantifier": "all texts", "why_tests_cant": "Canonicity and injectivity of the key quantify over all ids.", "anchors": ["scripts/agents/resolve_phase.py: normalize_phase_id", "scripts/agents/resolve_phase.py: phase_id_from_prefix", "scripts/agents/resolve_phase.py: phase_sort_key", "scripts/agents/resolve_phase.py: load_phase_records"]}
{"id": "C162", "title": "Prerequisites in prose", "statement": "extract_prereq_phase_ids finds exactly the phases of which the prose says that they are complete, in any case and spacing, each once, and calls the prose resolvable exactly when every mention of a phase with a number says so; prose that names phases in another way is not resolvable.", "quantifier": "all prose", "why_tests_cant": "Two regular expressions are matched without overlap from the left and only their numbers of matches are compared; that this is pointwise needs a proof.", "anchors": ["scripts/agents/resolve_phase.py: extract_prereq_phase_ids"]}
{"id": "C163", "title": "Choice of the next phase", "statement": "resolve_phase.py offers a phase only if it has not started and all phases that its prerequisites name are complete with learnings; it is ready exactly when exactly one phase is eligible, a choice lists all eligible ones in order, every other phase that has not started is listed as blocked, a target is ready exactly when it is eligible, and a project with well-founded prerequisites does not get stuck.", "quantifier": "all projects and arguments", "why_tests_cant": "Eligibility is a property of the whole graph of phases; termination needs well-foundedness.", "anchors": ["scripts/agents/resolve_phase.py: eligible_frontier", "scripts/agents/resolve_phase.py: blocked_frontier_candidates", "scripts/agents/resolve_phase.py: prerequisite_blockers", "scripts/agents/resolve_phase.py: phase_closeout_issues", "scripts/agents/resolve_phase.py: resolve_phase"]}
{"id": "C164", "title": "Agreement of the resolvers of phases and tasks", "statement": "resolve_task.py looks for the tasks of a phase in the directory that the prompt of resolve_phase.py names, and both scripts agree on which phase is complete.", "quantifier": "all names of phase files and statuses", "why_tests_cant": "The two scripts parse the same files separately; agreement is a relation between two programs on all inputs.", "anchors": ["scripts/agents/resolve_task.py: phase_status", "scripts/agents/resolve_task.py: main", "scripts/agents/resolve_phase.py: parse_frontmatter", "scripts/agents/resolve_phase.py: status_is_complete"]}
{"id": "C165", "title": "Two-body widths of the two form factor trees", "statement": "hazma/vector_mediator/form_factors and hazma/form_factors/vector, each with its default fit parameters, predict the same width of the mediator into each two-body hadronic state.", "quantifier": "all mediator masses, quark couplings, two-body states and at least six resonances", "why_tests_cant": "The two trees have different units, loops, masks and tables of numbers; equality has to hold at every energy.", "anchors": ["hazma/vector_mediator/form_factors/pipi.py: form_factor", "hazma/vector_mediator/form_factors/kk.py: form_factor", "hazma/vector_mediator/form_factors/pi_gamma.py: form_factor", "hazma/form_factors/vector/_two_body.py: _integrated_form_factor", "hazma/form_factors/vector/_pi_gamma.py: form_factor"]}
{"id": "C166", "title": "Two-body cross sections of the two form factor trees", "statement": "The cross section for dark matter to annihilate into a two-body hadronic state is the same in both trees up to the square of the coupling to dark matter, above and below the thresholds.", "quantifier": "all energies, dark matter and mediator masses, widths, couplings and states", "why_tests_cant": "The trees put coupling, units and phase space together differently, and one masks energies below threshold.", "anchors": ["hazma/vector_mediator/form_factors/cross_sections.py: cross_section_x_x_to_p_p", "hazma/form_factors/vector/_base.py: _cross_section", "hazma/vector_mediator/form_factors/cross_sections.py: cross_section_x_x_to_p_a"]}
{"id": "C167", "title": "Three-body states of the two form factor trees", "statement": "The two trees weight events of three pions and of two kaons and a pion alike, and predict the same widths into two pions and an eta, an eta prime or an omega.", "quantifier": "all energies, couplings and events", "why_tests_cant": "The integrands use different variables, units and normalizations; the integrals agree only as integrals.", "anchors": ["hazma/vector_mediator/form_factors/pi_pi_eta.py: width", "hazma/vector_mediator/form_factors/pi_pi_omega.py: width", "hazma/vector_mediator/form_factors/pi_k_k.py: _integrand", "hazma/form_factors/vector/_three_body.py: _integrated_form_factor", "hazma/form_factors/vector/_pi_pi_omega.py: form_factor"]}
{"id": "C168", "title": "Decays of the GeV mediator at rest and its annihilations", "statement": "The photon spectrum of a decay of the vector mediator at rest is the sum over the particles of the final state of the photons they radiate and decay to, equals the spectrum of the annihilation into the same state at that energy, and vanishes for states heavier than the mediator.", "quantifier": "all final states, masses, photon energies, decay spectra and radiation functions", "why_tests_cant": "No test imports the file, and a spectrum halved for every energy has the right shape.", "anchors": ["hazma/vector_mediator/_gev_spectra.py: dnde_photon_v_to_mu_mu", "hazma/vector_mediator/_gev_spectra.py: dnde_photon_v_to_k_k", "hazma/vector_mediator/_gev_spectra.py: dnde_photon_v_to_eta_omega", "hazma/vector_mediator/_gev_spectra.py: dnde_photon_v_to_pi_pi_pi0", "hazma/vector_mediator/_gev/spectra.py: dnde_photon_mu_mu"]}
{"id": "C169", "title": "Assignments to a three-body integrator", "statement": "After any sequence of assignments to cme, masses and msqrd, a ThreeBody object has the energy, masses and squared matrix element of one newly made with the values assigned last.", "quantifier": "all initial settings, signatures and sequences of assignments", "why_tests_cant": "The histories are unboundedly many; tests build one object per case.", "anchors": ["hazma/phase_space/_three_body.py: ThreeBody.__init__", "hazma/phase_space/_three_body.py: ThreeBody.msqrd", "hazma/phase_space/_three_body.py: ThreeBody.__update_msqrd"]}
{"id": "C170", "title": "Three-body densities by quadrature", "statement": "The energy density of each of three particles is the exact phase-space density of the squared matrix element, the total is the integral of the density of the first particle, and the invariant-mass density of a pair weighs each interval as the energy density of the third particle weighs the energies it recoils with.", "quantifier": "all masses, energies, squared matrix elements and exact quadrature rules", "why_tests_cant": "Tests compare normalised histograms of Monte-Carlo events within statistical errors.", "anchors": ["hazma/phase_space/_three_body.py: ThreeBody._partial_integration", "hazma/phase_space/_three_body.py: ThreeBody._integrate_quad", "hazma/phase_space/_three_body.py: ThreeBody._invariant_mass_distributions_quad"]}
{"id": "C171", "title": "Bins, methods and thresholds of three-body distributions", "statement": "energy_distributions and invariant_mass_distributions return as many bins as asked for, between the kinematic limits, normalised and proportional to the densities at the bin centres; unknown methods and energies below the threshold are rejected.", "quantifier": "all masses, energies, numbers of bins, methods and positive densities", "why_tests_cant": "One missing bin of a hundred is invisible in plots, and tests use valid methods above threshold.", "anchors": ["hazma/phase_space/_three_body.py: ThreeBody._energy_distributions_quad", "hazma/phase_space/_three_body.py: ThreeBody.energy_distributions", "hazma/phase_space/_three_body.py: ThreeBody.integrate", "hazma/phase_space/_three_body.py: ThreeBody.invariant_mass_distributions"]}
{"id": "C172", "title": "TwoBody integrates the matrix element over two-body phase space, whichever way it is given", "statement": "Every assignment to cme, masses and msqrd of a TwoBody object is followed: the object is the one that would be built with the values assigned last. The momenta handed to a function of momenta are those of an event with the masses and energy of the object, back to back in the x-z plane with the cosine of the integration variable. The integral is p / (8 pi cme) times the integral of the squared matrix element over the cosine, p being the momentum at which the two energies add up to cme, whether the function takes the cosine or the momenta. Without a function the matrix element is one and the integral the volume of phase space.", "quantifier": "all energies, all masses that it can produce, all integrable matrix elements and all histories of assignments", "why_tests_cant": "a test fixes one matrix element and one signature; that both signatures integrate the same thing needs all matrix elements, and the default function is only ever integrated with the default signature", "anchors": ["hazma/phase_space/_two_body.py: TwoBody.__init__", "hazma/phase_space/_two_body.py: TwoBody.__integrate_momenta", "hazma/phase_space/_two_body.py: TwoBody.__integrate_angle", "hazma/phase_space/_two_body.py: TwoBody.integrate", "hazma/phase_space/_two_body.py: _msqrd_flat"]}
{"id": "C173", "title": "Distributions made from RAMBO events", "statement": "Rambo.energy_distributions and Rambo.invariant_mass_distributions give one distribution per particle, or per pair, over nbins equal bins between its kinematic limits. The probability of each bin times its width is the share of the weight of the events whose energy, or invariant mass, is in the bin, so that no event is lost and the distribution is normalised. Asking for the events in batches changes nothing but the memory used.", "quantifier": "all energies above threshold, all masses, all numbers of bins, all events with positive total weight", "why_tests_cant": "a test compares one random sample with a tolerance; that no event falls outside the bins is a statement about all events, and the batches are not exercised", "anchors": ["hazma/phase_space/_rambo.py: Rambo.energy_distributions", "hazma/phase_space/_rambo.py: Rambo.invariant_mass_distributions", "hazma/phase_space/_dist.py: PhaseSpaceDistribution1D"]}
{"id": "C174", "title": "Integrals, widths and cross sections from RAMBO events", "statement": "Rambo.integrate returns the average of the weights, also over batches, and an error whose square is the variance of the weights over their number (averaged over the batches). The error is zero only if the weights are equal. For two particles without matrix element decay_width is p / (8 pi M^2) and cross_section p / (16 pi s k), k being the incoming momentum, with no error.", "quantifier": "all samples of events, all sizes and numbers of batches, all masses and energies above threshold", "why_tests_cant": "tests compare one seeded integral with a tolerance and do not look at the error in batches of different sizes", "anchors": ["hazma/phase_space/_rambo.py: Rambo.integrate", "hazma/phase_space/_rambo.py: Rambo.decay_width", "hazma/phase_space/_rambo.py: Rambo.cross_section"]}
{"id": "C175", "title": "Elastic scattering of dark matter obeys the golden rule", "statement": "In the scalar mediator model the elastic cross section of dark matter off leptons, pions, photons and mediators is 1/(16 pi lambda) times the integral of the spin-averaged squared amplitude over the momentum transfers allowed by the masses of the two particles, with the vertices that give the decay widths.", "quantifier": "every mass, coupling, width and energy", "why_tests_cant": "An identity between closed forms with logarithms and arctangents and an integral; stored reference values come from the same closed forms.", "anchors": ["rust/src/kernels/scalar_xs.rs: sigma_xl_to_xl", "rust/src/kernels/scalar_xs.rs: sigma_xpi_to_xpi", "rust/src/kernels/scalar_xs.rs: sigma_xpi0_to_xpi0", "rust/src/kernels/scalar_xs.rs: sigma_xg_to_xg", "rust/src/kernels/scalar_xs.rs: sigma_xs_to_xs", "hazma/scalar_mediator/_scalar_mediator_cross_sections.py: sigma_xl_to_xl"]}
{"id": "C176", "title": "Annihilation into mediators and self-scattering follow from the Feynman diagrams", "statement": "The cross sections of dark matter into two scalar and into two vector mediators equal the golden rule applied to the spin-summed square of the t and u channel diagrams, averaged over four spin states and halved for identical particles. The cross sections of dark matter scattering off its antiparticle are the golden rule applied to the spin-averaged square of the s and t channel diagrams with the mediator width in both propagators.", "quantifier": "all masses, couplings, widths and energies above the thresholds, all scattering angles", "why_tests_cant": "The closed forms hold logarithms and long polynomials of four variables; a test compares them with stored numbers made by the same formula, while the claim is equality with an integral of a trace for every mass and energy.", "anchors": ["rust/src/kernels/scalar_xs.rs: sigma_xx_to_ss", "rust/src/kernels/vector_xs.rs: sigma_xx_to_vv", "hazma/scalar_mediator/_scalar_mediator_cross_sections.py: sigma_xx_to_s_to_xx", "hazma/vector_mediator/_vector_mediator_cross_sections.py: sigma_xx_to_v_to_xx"]}
{"id": "C177", "title": "A distribution as a function and its expectation values by every method", "statement": "Calling a PhaseSpaceDistribution1D gives its probability at the middle of each bin, a straight line between two middles and zero outside. The methods trapz, simps and quad of expect all give the expectation value of an affine function under the distribution, extra arguments are passed on, and other method names raise ValueError.", "quantifier": "all histograms with increasing edges and positive content, all affine functions, all method names", "why_tests_cant": "Tests use fine bins, where the loss of the outer half bins is below the tolerance; the claim is for any number and width of bins and for three methods of integration.", "anchors": ["hazma/phase_space/_dist.py: PhaseSpaceDistribution1D.expect", "hazma/phase_space/_dist.py: PhaseSpaceDistribution1D._expect_quad", "hazma/phase_space/_dist.py: PhaseSpaceDistribution1D._expect_fixed", "hazma/phase_space/_dist.py: PhaseSpaceDistribution1D.__call__"]}
{"id": "C178", "title": "Widths and cross sections through the mediators follow from the diagrams", "statement": "Take a mediator of mass M and width w. Its decay widths into two fermions, two charged pions, and a neutral pion and a photon equal the golden rule k/(8 pi M^2) times the squared amplitude averaged over three polarisations. The cross sections of dark matter into two fermions (through the scalar and the vector) and two charged pions equal the golden rule: the integral over the angle of the spin sum of the Dirac traces, averaged over four states, divided by the Breit-Wigner denominator. The cross sections into a neutral pion and a photon, and a neutral pion and a mediator, equal the golden rule with the coupling of the triangle anomaly, three colours included.", "quantifier": "all masses, couplings and energies above the thresholds", "why_tests_cant": "The tests compare single stored numbers; a wrong numerical factor in a closed form is stored together with the number.", "anchors": ["rust/src/kernels/vector_xs.rs: sigma_xx_to_v_to_ff", "rust/src/kernels/vector_xs.rs: sigma_xx_to_v_to_pipi", "rust/src/kernels/vector_xs.rs: sigma_xx_to_v_to_pi0g", "rust/src/kernels/vector_xs.rs: sigma_xx_to_v_to_pi0v", "rust/src/kernels/scalar_xs.rs: sigma_xx_to_s_to_ff", "hazma/vector_mediator/_vector_mediator_widths.py: width_v_to_ff", "hazma/vector_mediator/_vector_mediator_widths.py: width_v_to_pipi", "hazma/vector_mediator/_vector_mediator_widths.py: width_v_to_pi0g", "hazma/vector_mediator/_vector_mediator_widths.py: width_v_to_xx"]}
{"id": "C179", "title": "Black-hole tables are read as they are written", "statement": "For every table written as a header of masses and rows of a label, an energy and one density per mass, loading returns the value of every number: plain decimals, decimals with an integer exponent, and masses with a decimal exponent such as 1e15.05, with any white space after them. Masses are converted from grams to MeV by m c^2, energies from GeV and densities from 1/GeV, so that the rate of photons is unchanged. An object made with the mass of a column uses that column. An unknown kind of spectrum or a malformed number raises ValueError, a mass that is not in the table IndexError.", "quantifier": "all tables, numerals, white space and masses", "why_tests_cant": "Tests read the three shipped tables only.", "anchors": ["hazma/pbh.py: _load_spec_data", "hazma/pbh.py: parse_float", "hazma/pbh.py: parse_line", "hazma/pbh.py: mx", "hazma/parameters.py: g_to_MeV"]}
{"id": "C180", "title": "A black hole answers the queries of a decaying theory", "statement": "For a table with ascending energies, the photon spectrum of an object made with the mass of a column is the broken line through the energies and densities of that column, zero outside the table, with 'all' and 'total' equal, no lines, and as many photons per second as the trapezoids of the file give. It is the same for every positive value of the fraction f_pbh_dummy and zero for any other. The list of final states and the positron queries of the base class are answered as well.", "quantifier": "all tables with ascending energies, columns, fractions and lists of energies", "why_tests_cant": "No test makes a black hole; the statement is about every table and every energy.", "anchors": ["hazma/pbh.py: mx", "hazma/pbh.py: list_final_decay_states", "hazma/pbh.py: _decay_widths", "hazma/pbh.py: _gamma_ray_line_energies", "hazma/theory/__init__.py: spectra", "hazma/theory/__init__.py: positron_spectra"]}
{"id": "C181", "title": "The scalar mediator: widths and cross sections follow from the diagrams", "statement": "Every partial width of the scalar mediator (fermions, dark matter, photons, charged and neutral pions) is the golden rule with the squared amplitude of its coupling: Dirac traces for fermions, the invariant of the fields of two waves for photons, and the low-energy theorem for gluons and quark masses for pions, halved for identical particles. The cross sections into photons and pions are the golden rule with the spin sum of the dark matter and the propagator. The Lagrangian in the documentation gives the same widths.", "quantifier": "all masses, couplings, widths and energies above the thresholds, with the vacuum expectation value zero that compute_vs returns", "why_tests_cant": "Tests compare stored numbers made by the same formulas; the claim ties each formula to an amplitude for all parameters.", "anchors": ["hazma/scalar_mediator/_scalar_mediator_widths.py: width_s_to_gg", "hazma/scalar_mediator/_scalar_mediator_widths.py: width_s_to_pipi", "hazma/scalar_mediator/_scalar_mediator_widths.py: width_s_to_pi0pi0", "hazma/scalar_mediator/_scalar_mediator_widths.py: width_s_to_ff", "hazma/scalar_mediator/_scalar_mediator_widths.py: width_s_to_xx", "rust/src/kernels/scalar_xs.rs: sigma_xx_to_s_to_gg", "rust/src/kernels/scalar_xs.rs: sigma_xx_to_s_to_pipi", "rust/src/kernels/scalar_xs.rs: sigma_xx_to_s_to_pi0pi0", "docs/source/scalar_mediator.rst"]}
{"id": "C182", "title": "Cross sections of the two-body hadronic states follow from the documented currents", "statement": "For every two-body state of the vector form factors (two pseudoscalars, a pseudoscalar and a photon, a pseudoscalar and a vector) the cross section computed by _cross_section from the integrated form factor equals the golden rule: flux and phase space times the angular integral of the spin sum of the dark matter with the documented hadronic current, summed over the polarisations of the photon or vector, times the propagator. At or below the threshold of the hadrons it is zero.", "quantifier": "all masses, energies above twice the dark matter mass, widths, couplings and all values of the form factor", "why_tests_cant": "Tests compare stored numbers from the same formula; the claim ties the closed Lorentz factors to an angular integral of Dirac traces for all parameters.", "anchors": ["hazma/form_factors/vector/_base.py: _cross_section", "hazma/form_factors/vector/_two_body.py: _integrated_form_factor", "hazma/form_factors/vector/_two_body.py: VectorFormFactorPP", "hazma/form_factors/vector/_two_body.py: VectorFormFactorPA", "hazma/form_factors/vector/_two_body.py: VectorFormFactorPV", "docs/source/form_factors.rst"]}
{"id": "C183", "title": "Telescope constrainers give the models' own limits", "statement": "ComptelLimit, EgretLimit, FermiLimit and IntegralLimit return one value per model, in order: the limit the model's binned_limit gives for the data of the telescope; an object without binned_limit is refused. With default arguments they agree with the default of binned_limit. A composite of constrainers answers for each of them.", "quantifier": "all lists of models and constrainers, all data and significances", "why_tests_cant": "The claim is about any number and order of models and constrainers and compares two sets of defaults on every measurement.", "anchors": ["hazma/limits/_existing_telescope.py: ExistingTelescopeLimit._constrain", "hazma/limits/_existing_telescope.py: ComptelLimit", "hazma/limits/_existing_telescope.py: EgretLimit", "hazma/limits/_existing_telescope.py: FermiLimit", "hazma/limits/_existing_telescope.py: IntegralLimit", "hazma/limits/_abstract.py: CompositeConstrainer._constrain", "hazma/theory/_theory_gamma_ray_limits.py: binned_limit"]}
{"id": "C184", "title": "Background models inside and outside their range", "statement": "A background model gives its flux at every energy of its range without a warning, and for energies outside the range it warns, naming the first of them, and returns NaN there. A background from a table has the range of the table and is linear between neighbours.", "quantifier": "all energies, single or in arrays of any length, and all tables", "why_tests_cant": "The claim is about every energy and table and about the order of the energies outside the range.", "anchors": ["hazma/background_model.py: BackgroundModel.dPhi_dEdOmega", "hazma/background_model.py: BackgroundModel.from_interp", "hazma/gamma_ray_parameters.py: gecco_bg_model", "hazma/gamma_ray_parameters.py: default_bg_model", "hazma/gamma_ray_parameters.py: _generate_background_model"]}
{"id": "C185", "title": "Entry points of the tabulated photon spectra", "statement": "Each of the seven tabulated photon spectra is registered once under its name and uses the table and mass of its own parent. The energy of the parent is checked once, before the photon energies are looked at, so a grid fails everywhere or nowhere. A parent below its mass gives zeros. The answer for a grid holds at each place the value the energy there gives alone, in a new array. Only a NaN energy of the parent is refused.", "quantifier": "all arguments, tables, parent energies and number types", "why_tests_cant": "Grids of any length and layout, arguments of any type, and any parent energy.", "anchors": ["rust/src/photon.rs: dnde_tabulated", "rust/src/photon.rs: register", "rust/src/kernels/photon_tables.rs: branch", "rust/src/kernels/photon_tables.rs: dnde", "rust/src/dispatch.rs: map_unary"]}
{"id": "C186", "title": "Reading of the tables of photon spectra", "statement": "A table whose lines are blank, comments, or rows of an energy and at least one column is read as the energies of the rows in order and, for each, the pairwise sum of its columns. White space around a line and carriage returns do not matter. A field that is not a number, a row without columns, a file without rows and a ragged file are refused.", "quantifier": "all files, number types and readers of numbers", "why_tests_cant": "Files of any length and layout; the tests read seven files.", "anchors": ["rust/src/kernels/photon_tables.rs: Table::parse", "rust/src/kernels/photon_tables.rs: Spectrum::new", "rust/src/boost.rs: pairwise_sum"]}
{"id": "C187", "title": "NaN photon energies in the tabulated spectra", "statement": "In binary64 the kernel of the tabulated photon spectra answers NaN for a NaN photon energy, whatever the parent energy it accepts, the table and the lines; it does not panic.", "quantifier": "all tables of two or more rows, lines and parent energies", "why_tests_cant": "Any table, set of lines and parent energy.", "anchors": ["rust/src/kernels/photon_tables.rs: dnde", "rust/src/kernels/photon_tables.rs: branch", "rust/src/boost.rs: boost_integrate_linear_interp"]}
{"id": "C188", "title": "Annihilation cross sections of the axial vector mediator", "statement": "annihilation_cross_sections answers the cross sections of the four final states and their sum; a channel above threshold with a positive squared matrix element has a positive cross section. annihilation_branching_fractions answers the four fractions, which sum to one when the total is positive.", "quantifier": "all masses, energies and integrators", "why_tests_cant": "Any masses and energy.", "anchors": ["hazma/experimental/axial_vector_mediator/_axial_vector_mediator_cross_sections.py: annihilation_cross_sections", "hazma/experimental/axial_vector_mediator/_axial_vector_mediator_cross_sections.py: annihilation_branching_fractions", "hazma/experimental/axial_vector_mediator/_axial_vector_mediator_cross_sections.py: sigma_xx_to_a_to_ff"]}
