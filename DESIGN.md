# Design

Source under study: `/repo` (LoganAMorrison/Hazma, pinned). It is read as text only; nothing was built
or run. Everything here is a hand-written Coq (8.16.1) model of it plus theorems. Only Coq's standard library is used.

## Layout

* `rocq/theories/<Topic>Model.v` - the model, function by function. Each definition cites file and lines.
  No proofs in these files.
* `rocq/theories/<Topic>Proofs.v` (and a few others beside it) - specification vocabulary and lemmas.
* `rocq/theories/<Topic>Props.v` - the property theorems, each with an `Example` showing a concrete case that
  meets its hypotheses, and `Print Assumptions`.
* `properties.jsonl` - the claims in English. `MANIFEST.json` - claim -> theorems.
* `seeded/LOG.jsonl` - wrong programs: edits of the model, the theorems that noticed, the theorems tightened after.

| topic | code modelled |
|-------|---------------|
| `Theory`, `Grid`, `Limits`, `Single` | `hazma/theory`, `hazma/gamma_ray_parameters`, `hazma/cmb.py`, `hazma/single_channel`, `hazma/background_model.py`, `hazma/flux_measurement.py` |
| `Interp`, `Quad`, `Special` | `rust/src` numerical base: interpolation, adaptive quadrature, Bessel functions and dilogarithm |
| `Boost`, `Spec`, `Pion`, `MedSpec`, `Fsr` | `rust/src/kernels` and `hazma/spectra`: boosts, muon, pion, rho and mediator spectra, radiation formulas |
| `Conserve` | no new code: particle number and energy of the spectra above |
| `Rambo`, `Kin` | `hazma/phase_space`: generator, three-body and n-body kinematics, distributions |
| `Med`, `MedState` | `hazma/scalar_mediator`, `hazma/vector_mediator` and their compiled cross sections and widths |
| `Relic` | `hazma/relic_density` and the compiled thermal averages |
| `Dispatch` | `rust/src/dispatch.rs`: what the extension accepts and returns |
| `Nbody` | `hazma/spectra/altarelli_parisi`, `hazma/spectra/_nbody` and its helpers |
| `Rhn` | `hazma/rh_neutrino` |
| `Table` | `hazma/spectra/_positron` and `hazma/spectra/_neutrino`, with four of their data files (`TableData`) |
| `Gev` | `hazma/vector_mediator/_gev/model.py`: attributes, width cache, derived models |
| `GevSpec` | `hazma/vector_mediator/_gev/spectra.py`, `positron.py`, `neutrino.py`, their dictionaries and the neutrino methods of the class |
| `GevCs` | `hazma/vector_mediator/_gev/cross_sections.py`, `thermal_cross_section.py` |
| `Rare` | `hazma/scalar_mediator/_scalar_mediator_constraints.py`, `hazma/constraint_parameters.py`, the quark mixing matrix of `hazma/parameters.py` |
| `Flux` | `hazma/target_params.py`, targets and backgrounds of `hazma/gamma_ray_parameters.py`, `hazma/theory/_theory_gamma_ray_limits.py`, `hazma/theory/_theory_constrain.py`, `hazma/limits/_relic_density.py`, detector response of `hazma/parameters.py`, `hazma/spectra/convolve.py` |
| `FourPi` | `hazma/form_factors/vector/_pi_pi_pi_pi.py`: propagators, currents and squared amplitude of the four-pion states |
| `Fit` | `hazma/form_factors/vector/_pi_pi.py`, `_k_k.py`, `_pi_gamma.py`, `_eta_gamma.py`, `_eta_phi.py`, `_eta_omega.py`, `_pi_phi.py`, `_pi_omega.py`, `_pi_pi_eta.py`, `_pi_pi_etap.py`, `_pi_pi_omega.py`, `_pi_pi_pi0.py`, `_pi_k_k.py`: resonance fits; `gamma_generator`, `_find_beta` |
| `Pseudo` | `hazma/experimental/pseudo_scalar_mediator` (`__init__.py`, `_widths.py`, `_cross_sections.py`, `_msqrd.py`, `_fsr.py`), `hazma/experimental/axial_vector_mediator/avm_msqrd.py` |
| `Port` | `hazma/_utils/boost.pyx`, `boost.pxd`, `constants.pxd`, `legacy_parameters.pxd`, `hazma/spectra/_photon/_muon.pyx`, `_photon/_pion.pyx`, `_positron/_muon.pyx`, `_positron/_pion.pyx`, `rust/src/constants.rs`, the numbers of `hazma/parameters.py` |
| `Old` | `hazma/vector_mediator/form_factors/utils.py`, `widths.py`, `cross_sections.py`, `form_factor.py`, widths and distributions of `pi_pi_pi0.py`, `pi_k_k.py`, `pi_pi_eta.py`, `pi_pi_etap.py`, `pi_pi_omega.py`, `four_pi.py`; properties of `_gev/base.py` |
| `Rhl` | earlier right-handed neutrino functions: `hazma/rh_neutrino/_rh_neutrino_widths.py`, `_rh_neutrino_fsr.py`, `_rh_neutrino_positron_spectrum.py` |
| `Scr` (with `ScrPhProofs`) | scripts of the workflow: `scripts/agents/check_pr_title.py`, `check_doc_citations.py`, `resolve_task.py`, `resolve_phase.py` |
| `Tri` | the class ThreeBody of `hazma/phase_space/_three_body.py`: settings, methods, densities and distributions by quadrature |
| `Duo` | the class TwoBody of `hazma/phase_space/_two_body.py`: settings, momenta and integral |
| `Hist` | integrals, widths, cross sections and distributions of the class Rambo of `hazma/phase_space/_rambo.py` |
| `Elas` | elastic cross sections of `rust/src/kernels/scalar_xs.rs` (definitions in `MedModel.v`) against the golden rule |
| `Dirac` | annihilation into mediators and self-scattering (definitions in `MedModel.v`) against spin sums computed from traces of Dirac matrices |
| `Dist` | `phase_space/_dist.py`: the distribution as a function, its limits and expectation values by three methods |
| `Chan` | decays of the vector mediator and annihilation through the mediators (definitions in `MedModel.v`) against spin sums and the coupling of the anomaly |
| `Sdiag` | decays of the scalar mediator and annihilation through it into photons and pions, from fields, traces and the low-energy theorem |
| `Pbh` | `pbh.py`: reading the tables of black-hole spectra, their units and the column of a mass |
| `PbhDec` | a black hole as a decaying theory: its photon spectrum and the queries it does not answer |
| `Gamma` (with `GammaIndex`) | the traces of `Dirac` and `Chan` are those of the four by four Dirac matrices, indices summed over the four directions |
| `Vcur` | the two-body hadronic cross sections of `Vff` from the documented currents and the traces of `Chan` |
| `Tele` | the constrainers of existing telescopes and the dictionary of a composite |
| `Bg` | background models and their range |
| `Entry` | the entry points of the compiled tabulated photon spectra: guard, dispatch and kernel together |
| `Tab` | the reading of the tables of photon spectra compiled into the extension |
| `Nan` | NaN photon energies in the tabulated spectra, in binary64 (no model of its own) |
| `Axial` | the annihilation cross sections of the axial vector mediator |
| `Twin` | the fits and two- and three-body states of `hazma/vector_mediator/form_factors` against those of `hazma/form_factors/vector` |
| `Vff` | `hazma/form_factors/vector`: base class, two- and three-body classes, resonance functions, running coupling |
| `GevDec` | `hazma/vector_mediator/_gev_spectra.py`: photon spectra of the decays of the GeV vector mediator at rest, compared with the annihilation spectra of `_gev/spectra.py` |

## Conventions of the model

* Python exceptions and Rust panics are values (`Raise e`, `Panic`), never omitted.
* Python dictionaries are association lists with string keys in insertion order, assignment replacing in place.
* Mutable objects are records; a method is a function from the record to a result and a new record; a history is
  a list of operations folded over the record.
* Floats. Control flow and indices (quadrature bookkeeping, dispatch, search) are proved for an *arbitrary*
  number type with arbitrary comparison functions, so they cover IEEE doubles with NaN and infinities.
  Witnesses against such claims are computed in binary64 (`QuadFloat`, `FloatMath`). Arithmetic identities and
  inequalities are proved over `R`; they do not speak about rounding.
* External functions (scipy quad, splines, interp1d, Bessel K0/K1, random numbers, model cross sections) are
  arguments of the model functions or section variables closed at the end of the section; theorems quantify over
  them, with hypotheses such as "exact where the integral exists", which an `Example` shows to be satisfiable.
* Integrals in specifications are `area f a b v` (`Area.v`): a continuous antiderivative exists, with derivative
  `f` except at finitely many points, and `v` is its difference. `area_unique` shows that `v` is determined, and
  `Primitive.v` that it exists for continuous `f`.
* Physical constants are parameters with the inequalities they satisfy as hypotheses where the claim holds for all
  values, and the numbers of the source where it does not.

## Properties

"proved": the whole statement. "partial": proved in part, the note in the manifest says what is missing. "partly refuted":
the statement is false of the code; a theorem ending in `_refuted` gives the witness and the others say what does hold.

| id | property | theorems in | status |
|----|----------|-------------|--------|
| C01 | Annihilation branching fractions are a probability distribution | `TheoryProps` | proved |
| C02 | Total annihilation spectrum is the branching-fraction-weighted sum over open channels | `TheoryProps` | proved |
| C03 | A theory may supply continuum spectra only for the channels that have one | `TheoryProps` | partly refuted |
| C04 | Decaying theory: each final state's positron function is that final state's spectrum | `TheoryProps` | partly refuted |
| C05 | Decaying theory: gamma-ray spectra and widths aggregate correctly | `TheoryProps` | proved |
| C06 | Parameter-plane constraint image: every pixel is the constraint at its own point | `GridProps` | proved |
| C07 | Custom parameter grid: one pixel per grid point, for grids of any shape | `GridProps` | partly refuted |
| C08 | convert_sigmav converts between its two documented unit systems and back | `LimitsProps` | partly refuted |
| C09 | CMB limit saturates the published bound | `LimitsProps` | proved |
| C10 | The CMBLimit constrainer computes the same limit as the theory method | `LimitsProps` | partly refuted |
| C11 | Single-channel models stay coherent after their attributes are reassigned | `SingleProps` | partial |
| C12 | Mediator models: the cached total width and derived couplings always match the current parameters | `MedStateProps` | partly refuted |
| C13 | Composite constrainers do not share state | `LimitsProps` | partly refuted |
| C14 | RAMBO: three-momentum is conserved and every particle is on its mass shell | `RamboProps` | proved |
| C15 | RAMBO: the massless boost conserves energy and masslessness | `RamboProps` | proved |
| C16 | RAMBO: generated events conserve energy | `RamboProps` | partly refuted |
| C17 | RAMBO batch generator covers the requested number of events | `RamboProps` | proved |
| C18 | Default (flat) matrix element means |M|^2 = 1 for every integrator | `KinProps` | partly refuted |
| C19 | Three-body Dalitz variables to momenta: on shell, at rest in total, right invariants | `KinProps` | proved |
| C20 | Three-body t-limits bound the physical region | `KinProps` | partly refuted |
| C21 | Energy and invariant-mass limits are the true kinematic limits | `KinProps` | partly refuted |
| C22 | Normalised distributions integrate to one | `KinProps` | proved |
| C23 | Expectation of the constant one under a phase-space distribution is one | `KinProps` | partly refuted |
| C24 | Boosted line: a normalised box on the kinematic window | `BoostProps` | proved |
| C25 | Boosting with an unphysical velocity is rejected | `BoostProps` | partly refuted |
| C26 | Muon positron spectrum: the in-flight formula is the boost of the rest-frame spectrum | `SpecProps` | proved |
| C27 | Muon positron spectrum is normalised to one positron per decay | `SpecProps` | partly refuted |
| C28 | Muon neutrino spectra: in-flight formulas are boosts of rest-frame spectra | `SpecProps` | proved |
| C29 | Neutral pion photon spectrum is a box carrying two photons per two-photon decay | `SpecProps` | proved |
| C30 | Photon lines in meson tables carry one photon at the two-body energy | `SpecProps` | partly refuted |
| C31 | Final-state radiation formulas used in annihilation and in mediator decay agree | `FsrProps` | partly refuted |
| C32 | Final-state radiation spectra are never negative | `FsrProps` | proved |
| C33 | Lines from boosted mediator decay carry the right number of particles | `MedSpecProps` | partly refuted |
| C34 | Selecting decay modes partitions the mediator decay spectrum | `MedSpecProps` | partly refuted |
| C35 | Positron spectrum functions of the mediator models are positron spectra | `MedSpecProps` | partly refuted |
| C36 | s-channel cross sections factorise into the model's own partial widths | `MedProps` | partly refuted |
| C37 | Detailed balance between x x -> S S and S S -> x x | `MedProps` | proved |
| C38 | Cross sections vanish below threshold and are never negative | `MedProps` | partly refuted |
| C39 | Cross sections have dimension of area | `MedProps` | partly refuted |
| C40 | Table interpolation: the right cell is found and values are clamped | `InterpProps` | proved |
| C41 | Table interpolation preserves monotonicity and NaN | `InterpProps` | proved |
| C42 | Adaptive quadrature never panics | `QuadProps` | partly refuted |
| C43 | Adaptive quadrature: the subintervals tile the range and evaluation counts are reported exactly | `QuadProps` | proved |
| C44 | Adaptive quadrature bisects the worst interval | `QuadProps` | proved |
| C45 | Quadrature rules integrate constants exactly and reversing the interval flips the sign | `QuadProps` | proved |
| C46 | Pairwise summation is summation | `BoostProps` | proved |
| C47 | Boost integral of a tabulated spectrum covers the whole window once | `BoostProps` | partly refuted |
| C48 | Scalar in, scalar out; array in, array of the same length out | `DispatchProps`, `TableProps` | partly refuted |
| C49 | The Boltzmann solver's Jacobian is the derivative of its right-hand side | `RelicProps` | proved |
| C50 | neq_deriv is the derivative of neq | `RelicProps` | partly refuted |
| C51 | Thermal average integrates over a non-empty window | `RelicProps` | partly refuted |
| C52 | Right-handed neutrino: reassigning the flavour gives the model for that flavour | `RhnProps` | partly refuted |
| C53 | Right-handed neutrino: line queries return lines | `RhnProps` | partly refuted |
| C54 | Right-handed neutrino: partial widths can be requested by name | `RhnProps` | partly refuted |
| C55 | Right-handed neutrino: every charge configuration is counted once | `RhnProps` | partly refuted |
| C56 | Right-handed neutrino widths: thresholds, positivity and the massless-lepton limit | `RhnProps` | partly refuted |
| C57 | Right-handed neutrino squared matrix elements are non-negative on the Dalitz region | `RhnProps` | partly refuted |
| C58 | Final-state radiation in n-body spectra counts every charged particle | `NbodyProps` | partly refuted |
| C59 | Altarelli-Parisi spectra are non-negative, vanish beyond the endpoint and scale with charge squared | `NbodyProps` | partly refuted |
| C60 | One-bin gamma-ray limit is the strongest bin and is exactly saturated | `LimitsProps` | proved |
| C61 | Loading a measurement does not modify the caller's data | `LimitsProps` | partly refuted |
| C62 | Elementwise constrainers | `LimitsProps` | proved |
| C63 | Two-body kinematics: momenta are on shell and conserve energy | `KinProps` | proved |
| C64 | Modified Bessel functions of integer order satisfy the recurrence | `SpecialProps` | proved |
| C65 | Chi-squared gamma-ray limit is the rate at which chi-squared reaches its critical value | `LimitsProps` | partly refuted |
| C66 | Unbinned limit uses the best energy window | `LimitsProps` | proved |
| C67 | Single-channel models report line energies as numbers at the two-body energy | `SingleProps` | partly refuted |
| C68 | PBH: the spectrum in use always belongs to the current mass | `SingleProps` | partly refuted |
| C69 | A quadrature result reported without warning meets the tolerance | `QuadProps` | partly refuted |
| C70 | A parent energy is always classified | `BoostProps` | partly refuted |
| C71 | RAMBO weights reproduce known phase-space volumes | `RamboProps` | proved |
| C72 | Fixed-energy photon radiation: kinematics and normalisation | `KinProps` | proved |
| C73 | Final-state radiation obeys the soft-photon theorem | `FsrProps` | partly refuted |
| C74 | Spectra of moving mediators are Lorentz boosts of the spectra at rest | `MedSpecProps` | proved |
| C75 | The muon photon spectrum in flight is the boost of the one at rest and is not negative | `PionProps` | partly refuted |
| C76 | Charged-pion positron and neutrino spectra sum the decay chains with the right weights | `PionProps` | partly refuted |
| C77 | Photon spectra of charged pions and rho mesons are boosts of the spectra at rest, with the right limit at rest | `PionProps` | partly refuted |
| C78 | Spence's function is the dilogarithm integral to within rounding | `SpecialProps` | proved |
| C79 | The semi-analytic relic density solves the equation it approximates | `RelicProps` | partial |
| C80 | n-body spectra are sums over the final state, per flavour, with defined errors | `NbodyProps` | partly refuted |
| C81 | Right-handed neutrino: three-body widths are the phase-space integrals of the matrix elements used for the spectra | `RhnProps` | partly refuted |
| C82 | Right-handed neutrino: the spectrum of a channel is the spectrum of its own final state, once per decay | `RhnProps` | partly refuted |
| C83 | Spectra in flight hold the same number of particles as at rest, and gamma times their energy | `ConserveProps` | partly refuted |
| C84 | Tabulated positron and neutrino spectra in flight are boosts of the tabulated spectra at rest | `TableProps` | partly refuted |
| C85 | Tabulated spectra: a number gives a number, an array the array of the same numbers, and wrong arguments are refused | `TableProps` | partly refuted |
| C86 | The tables hold the decays of the parent they are named after, each counted once | `TableProps` | partly refuted |
| C87 | The cached widths of the GeV vector mediator are those of a new object with the same parameters | `GevProps` | partly refuted |
| C88 | The derived GeV models have the couplings of their charge, also after it is assigned | `GevProps` | partly refuted |
| C89 | GeV vector mediator: final states, totals and lines of the spectra are consistent | `GevSpecProps` | partly refuted |
| C90 | Annihilation cross sections of the GeV vector mediator | `GevCsProps` | partly refuted |
| C91 | GeV vector mediator: each final-state particle decays with its own energy distribution | `GevSpecProps` | partly refuted |
| C92 | GeV vector mediator: every particle of a final state counts once in its spectra | `GevSpecProps` | partly refuted |
| C93 | GeV vector mediator: two mediators decay with their branching fractions and are boosted to their energy | `GevSpecProps` | partly refuted |
| C94 | Running electromagnetic coupling | `VffProps` | partly refuted |
| C95 | Lorentz structures of the form factors | `VffProps` | partly refuted |
| C96 | Integrated three-body form factors give the width | `VffProps` | proved |
| C97 | Energy and invariant-mass distributions of two pseudoscalars and a vector | `VffProps` | partly refuted |
| C98 | Gounaris-Sakurai propagator | `VffProps` | partly refuted |
| C99 | Calling the two-body form factors | `VffProps` | partly refuted |
| C100 | Cross section averaged for the relic density of the GeV vector mediator | `GevCsProps` | partly refuted |
| C101 | Isospin couplings of the mediator | `VffProps` | proved |
| C102 | Rare meson decays | `RareProps` | proved |
| C103 | Meson decays into the mediator | `RareProps` | partly refuted |
| C104 | Every constraint can be evaluated | `RareProps` | partly refuted |
| C105 | Beam dumps | `RareProps` | partly refuted |
| C106 | Invisible Higgs decays | `RareProps` | proved |
| C107 | Quark mixing matrix | `RareProps` | proved |
| C108 | Dark matter fluxes and limits | `FluxProps` | partly refuted |
| C109 | Fisher forecast | `FluxProps` | partly refuted |
| C110 | Parametric backgrounds | `FluxProps` | partly refuted |
| C111 | Level sets | `FluxProps` | partly refuted |
| C112 | Relic density limit | `FluxProps` | proved |
| C113 | Detector response | `FluxProps` | partly refuted |
| C114 | Target tables | `FluxProps` | partly refuted |
| C115 | The four-pion current is conserved | `FourPiProps` | proved |
| C116 | The four-pion weight is a non-negative polarisation average | `FourPiProps` | proved |
| C117 | The four-pion current respects Bose symmetry and charge conjugation | `FourPiProps` | proved |
| C118 | The four-pion weight is Lorentz invariant | `FourPiProps` | proved |
| C119 | In the mode with two neutral pions the current is odd under exchange of the charged ones | `FourPiProps` | partly refuted |
| C120 | The three rho weights of the four-pion fit are the ones used | `FourPiProps` | refuted |
| C121 | Resonance propagators of the four-pion current | `FourPiProps` | proved |
| C122 | The public four-pion form factor returns the hadronic current | `FourPiProps` | refuted |
| C123 | The running width of the a1 is positive and continuous | `FourPiProps` | refuted |
| C124 | Vector form factors are linear in the quark couplings and respect G parity | `FitProps` | proved |
| C125 | A vector does not decay to two neutral pions | `FitProps` | partly refuted |
| C126 | Kaon form factors are the quark charges at zero momentum | `FitProps` | partly refuted |
| C127 | The search for beta solves its equation | `FitProps` | partly refuted |
| C128 | The tower of resonances has the couplings of the dual model | `FitProps` | proved |
| C129 | The three-pion form factor is symmetric under exchange of the charged pions | `FitProps` | proved |
| C130 | Energy-dependent widths vanish at threshold and equal the nominal width at the resonance | `FitProps` | proved |
| C131 | Pion and two kaon form factors respect charge symmetry and charge conjugation | `FitProps` | proved |
| C132 | Pion and two kaon states come from one K* amplitude per charge | `FitProps` | refuted |
| C133 | The pion photon form factor at zero momentum is the triangle anomaly | `FitProps` | proved |
| C134 | Resonance propagators and coefficients of the fits | `FitProps` | proved |
| C135 | Mixing of the pseudoscalar mediator with the neutral pion | `PseudoProps` | proved |
| C136 | Two-body widths of the pseudoscalar mediator | `PseudoProps` | partly refuted |
| C137 | Annihilation through the pseudoscalar resonance respects unitarity | `PseudoProps` | partly refuted |
| C138 | Three pions through mixing follow Weinberg's amplitude | `PseudoProps` | partly refuted |
| C139 | Annihilation cross sections of the pseudoscalar model can be computed | `PseudoProps` | partly refuted |
| C140 | Bose symmetry and radiation of the three-pion matrix elements | `PseudoProps` | partly refuted |
| C141 | Final-state radiation from fermions in pseudoscalar annihilation | `PseudoProps` | proved |
| C142 | Assigning attributes of the pseudoscalar models equals building them anew | `PseudoProps` | partly refuted |
| C143 | Matrix elements of the axial vector mediator | `PseudoProps` | partly refuted |
| C144 | The Cython functions kept beside the Rust kernels compute the same values | `PortProps` | partial |
| C145 | A physical constant has one value | `PortProps` | partly refuted |
| C146 | Kinematic numbers typed into the charged pion photon spectrum | `PortProps` | partly refuted |
| C147 | boost_eng and boost_jac are the energy and the Jacobian of a boost | `PortProps` | partly refuted |
| C148 | The analytic integrals of the old form factor utilities are the integrals they name | `OldProps` | partly refuted |
| C149 | The old Lorentz structures are the squared currents | `OldProps` | proved |
| C150 | Old two-body widths follow the golden rule and the cross sections follow from the widths | `OldProps` | partly refuted |
| C151 | Old three-body widths follow the golden rule above the threshold of the final state | `OldProps` | partly refuted |
| C152 | Old energy distributions are normalised densities in the right units | `OldProps` | partly refuted |
| C153 | The properties of VectorMediatorGeVBase return the values given to the constructor | `OldProps` | partly refuted |
| C154 | Earlier widths of the right-handed neutrino into mesons and photons | `RhlProps` | partly refuted |
| C155 | Earlier widths of the right-handed neutrino into leptons | `RhlProps` | partly refuted |
| C156 | Earlier photon and positron spectra of the right-handed neutrino | `RhlProps` | proved |
| C157 | Pull request titles | `ScrProps` | partly refuted |
| C158 | Citations of source lines | `ScrProps` | partly refuted |
| C159 | Choice of the next task | `ScrProps` | proved |
| C160 | Reading the table of tasks | `ScrProps` | partly refuted |
| C161 | Ids of phases | `ScrProps` | partly refuted |
| C162 | Prerequisites in prose | `ScrProps` | partly refuted |
| C163 | Choice of the next phase | `ScrProps` | partly refuted |
| C164 | Agreement of the resolvers of phases and tasks | `ScrProps` | partly refuted |
| C165 | Two-body widths of the two form factor trees | `TwinProps` | partly refuted |
| C166 | Two-body cross sections of the two form factor trees | `TwinProps` | partly refuted |
| C167 | Three-body states of the two form factor trees | `TwinProps` | partly refuted |
| C168 | Decays of the GeV mediator at rest and its annihilations | `GevDecProps` | partly refuted |
| C169 | Assignments to a three-body integrator | `TriProps` | partly refuted |
| C170 | Three-body densities by quadrature | `TriProps` | proved |
| C171 | Bins, methods and thresholds of three-body distributions | `TriProps` | partly refuted |
| C172 | TwoBody integrates the matrix element over two-body phase space, whichever way it is given | `DuoProps` | partly refuted |
| C173 | Distributions made from RAMBO events | `HistProps` | partly refuted |
| C174 | Integrals, widths and cross sections from RAMBO events | `HistProps` | partly refuted |
| C175 | Elastic scattering of dark matter obeys the golden rule | `ElasProps` | partly refuted |
| C176 | Annihilation into mediators and self-scattering follow from the Feynman diagrams | `DiracProps`, `GammaProps` | partly refuted |
| C177 | A distribution as a function and its expectation values by every method | `DistProps` | partly refuted |
| C178 | Widths and cross sections through the mediators follow from the diagrams | `ChanProps`, `GammaProps`, `SdiagProps` | partly refuted |
| C179 | Black-hole tables are read as they are written | `PbhProps` | proved |
| C180 | A black hole answers the queries of a decaying theory | `PbhDecProps` | partly refuted |
| C181 | The scalar mediator: widths and cross sections follow from the diagrams | `SdiagProps` | partly refuted |
| C182 | Cross sections of the two-body hadronic states follow from the documented currents | `VcurProps` | proved |
| C183 | Telescope constrainers give the models' own limits | `TeleProps` | partly refuted |
| C184 | Background models inside and outside their range | `BgProps` | partly refuted |
| C185 | Entry points of the tabulated photon spectra | `EntryProps` | partly refuted |
| C186 | Reading of the tables of photon spectra | `TabProps` | partly refuted |
| C187 | NaN photon energies in the tabulated spectra | `NanProps` | partly refuted |
| C188 | Annihilation cross sections of the axial vector mediator | `AxialProps` | partly refuted |

## Disagreements between the code and its documentation or the physics

Each is a theorem (see the manifest for names):

* Theory layer: missing continuum entries raise (C03); positron closures bind late (C04); `constraint images` are
  square only (C07); the documented unit string gives None (C08); f_eff raises or squares the velocity twice (C10);
  setters that forget fields (C11, C12, C13, C52, C68).
* Phase space: stale starting scale in Rambo (C16); zero flat matrix element for arrays (C18); t-limits with the wrong
  argument of kallen (C20); two-body energy limits (C21); expectation values lose half bins (C23).
* Spectra: muon positrons are normalised by the inverse factor (C27, C83); photon lines of eta' and phi (C30); scalar
  decay radiation is half of annihilation (C31, C73); mediator lines (C33, C34, C35); muon radiation negative near
  the edge (C75); pion positrons zero at rest and one neutrino line doubled (C76); rho at rest (C77); n-body radiation
  per name and neutrino rows (C58, C80); tables (C84, C85, C86).
* Mediators: different constants on both sides, a factor 9, an assertion that fires, wrong dimensions (C36, C38, C39).
* Numerics: table overrun for large limits (C42), success reported with any error (C69), velocity one (C70), a cell
  left out (C47), negative velocities (C25).
* Relic density: sign for bosons (C50), reversed window (C51), matching at Yeq (C79).
* Right-handed neutrino: line KeyErrors, double counting, wrong limits, wrong particles (C53-C57, C81, C82).
* GeV vector mediator: stale widths after assignments (C87); assigning eps or g of the derived models (C88);
  totals that are dictionaries (C89); decay functions in another order than the energies (C91); wrong particles and
  factors (C92); two mediators (C93); cross sections that are NaN below 2 mx, a doubled v v, integer energies (C90);
  the relic average (C100).
* Vector form factors: the running of alpha is masked the wrong way round (C94); the omega class passes its masses in
  another order than the squared current takes them (C95); invariant-mass distributions sum to minus one half (C97);
  the Gounaris-Sakurai propagator jumps at zero (C98); units depend on scalar or array input (C99).
* Constraints of the scalar mediator: inclusive B decays rarer than exclusive ones (C103); a gap of masses with NaN,
  mediators that cannot decay, models without mixing angle (C104); beam dumps fail an assertion (C105).
* Fluxes: constraint images in the wrong units (C108); background derivatives without solid angle (C109); a parameter
  reported for another, a sign (C110); shrunk contours (C111); zero widths and a documented method (C113); the 10 degree
  box copied from the optimistic table, old targets twice the new ones (C114).
* Four pions: charged and neutral momenta swapped (C119), a weight read twice (C120), a method that always raises (C122),
  a negative and discontinuous a1 width (C123).
* Resonance fits: a vector decays to two neutral pions (C125); neutral kaons are charged at the first energy (C126); the
  search for beta raises or returns a non-solution (C127); charges of the K* exchanged, a factor sqrt 2 missing (C132).
* Experimental mediators: half the width to photons, a quarter of the width to dark matter, cross sections four times above
  unitarity (C136, C137); three-pion widths without a term and without 1/6 (C138); cross sections that always raise (C139);
  no Bose symmetry (C140); assignments that raise half way (C142); no longitudinal part of the axial vector (C143).
* Cython beside Rust: table integrals of NaN differ (C144); three fine structure constants, branching ratios of the rho above
  1 (C145); literals of other masses, photons above the "maximum" energy (C146); `boost_jac` for massive daughters (C147).
* Old form factor tree: three wrong analytic integrals (C148); factors 2, s and gvxx^2 in cross sections (C150); three-pion
  width zero up to 644 MeV, neutral pi pi omega threshold (C151); energies divided by 1000 and GeV bins at MeV energies,
  ZeroDivisionError below threshold, NaN for one bin (C152); `gvxx` returns gvuu (C153).
* Earlier right-handed neutrino functions: sin(theta) instead of its square, inverted threshold of the neutral mesons, extra
  1/cos^2(theta_W) in every neutral-current width, a missing term in the l pi pi0 integrand, pi^4 in the photon width, the angle
  instead of its sine in the two-photon width (C154, C155).
- `scripts/agents`: `resolve_phase.py` calls a phase ready while a phase that its prose names is in progress when the prose
  says "Phases 04 and 05 complete." (phase 6 of `projects/cython-to-rust`); the slug of a note written as a link is not taken;
  an escaped bar shifts the cells of a task; the two resolvers disagree on annotated or quoted statuses and on prefixes such
  as `08a`; a title with a line feed at the end of its scope passes; `--map` resolves citations of other packages (C157-C164).
- The two trees of form factors disagree on the pion and photon (different fits, more than a factor of ten for strange couplings at
  2 GeV), on cross sections below the threshold of the final state (not a number against zero) and on two neutral pions with an omega
  (the old tree uses the mass of the charged pion) (C165-C167).
- The decay spectra of _gev_spectra.py count one of the two particles of e e, mu mu, pi pi and K K, half of what _gev/spectra.py gives at the
  same energy; the functions of pi0 phi, eta phi and of all states with three or four particles have no body (C168). Nothing imports the file.
- `ThreeBody` ignores a function assigned to an object made for functions of momenta; `energy_distributions` and
  `invariant_mass_distributions` by quadrature give one bin less than asked for; below threshold `integrate` accepts any method and
  the energy distributions are all zero while the invariant masses raise (C169, C171).
- C172: `TwoBody` without a function and with the signature `momenta` has no integral: the default function answers
  the array of momenta with an array. The docstring promises a flat matrix element.
- `Rambo.energy_distributions` and `invariant_mass_distributions` raise whenever a batch size is given: floats are added in place
  to arrays of whole numbers (C173). In batches of one event `Rambo.integrate` reports the error zero (C174).
  `Rambo._integrate_two_body`, which nothing calls, would not find the flat matrix element: its name is mangled in the class.
- C175: the elastic cross sections of the scalar mediator model integrate over the momentum transfers of two particles of
  mass mx, and divide by their flux, whatever the target. Below e = 2 mx they integrate over positive momentum transfers.
  The zero off photons at e = 2 mx, explained as destructive interference, is the forward amplitude only. The neutral pion
  formula is half of the integral, and the formulas summed over two charges are the integral of one.
- C176: `sigma_xx_to_s_to_xx` and `sigma_xx_to_v_to_xx` integrate the right squared amplitude but divide by
  `32 pi e` where the golden rule divides by `32 pi e^2`.
- C177: `PhaseSpaceDistribution1D` is zero in the outer halves of its first and last bin, so that the expectation values of
  all three methods (trapz, simps, quad) miss them: a flat distribution of three bins over [0, 4] has mean 3/2.
- C178: `sigma_xx_to_v_to_pi0g` and `sigma_xx_to_v_to_pi0v` are one ninth of the golden rule: the square of the three colours in
  the coupling of the anomaly is missing, while `width_v_to_pi0g` has it.
- C180: a `PBH` is made although it lacks three abstract methods (`__metaclass__` has no effect in Python 3): its list of final
  states is None and every positron query raises AttributeError. The fraction of black holes does not enter the spectrum.
- C181: the Lagrangian in `docs/source/scalar_mediator.rst` has a third of the gluon coupling in the mass term of the pions; the code agrees
  with the low-energy theorem. The same page exchanges gSG and gSF at high energies and writes gSF for gSG in S pi pi A A.
- C183: the telescope constrainers default to chi-squared, `binned_limit` to one bin; a composite of two limits from the same telescope
  (say at two significances) keeps only the last; EGRET and Fermi limits are half of those for the targets of the tables.
- C184: background models never return NaN outside their range as documented: power laws are extrapolated, the table raises; the range of
  the default background contains zero, where it raises or is infinite.
- C185: the comment of `photon_tables.rs: branch` says only NaN is refused; a parent fast enough for its velocity to round to 1 is refused too (an eta of 10^12 MeV).
- C186: the comment of `Table::parse` says a ragged file panics; there is no such check.
- C187: the comment of `photon_tables.rs: dnde` says a NaN photon energy gives NaN and also that the answer below threshold is exactly zero; below threshold it is zero.
- C188: the cross sections of the axial vector mediator are all zero, and its branching fractions call a method that does not exist.

Found while reading, not stated as theorems: dataclasses of `form_factors/` with array defaults raise on Python 3.11 and
later; `kk.py` scales the first energy instead of the first resonance by `eta_phi`; `pi_pi_eta` and `pi_pi_etap` return
(values, energies) and ignore the form factor, `pi_pi_omega` returns (energies, values); `_fsr.py` validations and `_two_body_momenta`; generator batches rounded
up; integer phase-space histograms raise on `+=`; `_integrate_two_body` is name-mangled;
 `constrain` of
models other than the two base mediators fails or returns None; positron caches are never refreshed; `hazma/spectra/_positron/_eta.py`
and `_kaon.py` are dead code; `charged_kaon` neutrino tables have no line of K -> mu nu;
resolutions of Fermi, GRAMS and PANGU are used without the factor from full width to standard deviation and the one of
all-sky ASTROGAM reads the file of e-ASTROGAM; the `method` of the relic density limit is ignored; `GeccoBackgroundModel`
is not a `ParametricBackgroundModel`; the B -> K form factor has its pole at (38 GeV)^2 where the usual fit has 38 GeV^2.

## Trusted base

* Coq's kernel (and `coqchk`).
* The correspondence between the model and the code is by reading; the citations are there to check it.
* No axiom is declared here. `Print Assumptions` is run under every property theorem; by file the theorems use at most
  these of the standard library (primitive integers, arrays and floats appear where binary64 witnesses are computed):

* `DispatchProps`, `ScrProps`: none
* `GridProps`: `ClassicalDedekindReals.sig_forall_dec`
* `BgProps`, `DistProps`, `TheoryProps`: `ClassicalDedekindReals.sig_forall_dec`, `FunctionalExtensionality.functional_extensionality_dep`
* `AxialProps`, `DuoProps`, `FourPiProps`, `GevDecProps`, `GevProps`, `GevSpecProps`, `HistProps`, `InterpProps`, `KinProps`, `LimitsProps`, `SingleProps`, `TriProps`, `VcurProps`: `ClassicalDedekindReals.sig_forall_dec`, `ClassicalDedekindReals.sig_not_dec`, `FunctionalExtensionality.functional_extensionality_dep`
* `FsrProps`: `ClassicalDedekindReals.sig_forall_dec`, `ClassicalDedekindReals.sig_not_dec`, `FunctionalExtensionality.functional_extensionality_dep`; `classic`
* `ChanProps`, `DiracProps`, `ElasProps`, `FitProps`, `GammaProps`, `MedProps`, `MedSpecProps`, `MedStateProps`, `NbodyProps`, `OldProps`, `PbhDecProps`, `PbhProps`, `PionProps`, `PseudoProps`, `RamboProps`, `RareProps`, `RhlProps`, `RhnProps`, `SdiagProps`, `SpecProps`, `TabProps`, `TableProps`, `TeleProps`, `TwinProps`: `ClassicalDedekindReals.sig_forall_dec`, `ClassicalDedekindReals.sig_not_dec`, `Classical_Prop.classic`, `FunctionalExtensionality.functional_extensionality_dep`
* `ConserveProps`, `FluxProps`, `GevCsProps`, `RelicProps`, `SpecialProps`, `VffProps`: `ClassicalDedekindReals.sig_forall_dec`, `ClassicalDedekindReals.sig_not_dec`, `ClassicalEpsilon.constructive_indefinite_description`, `Classical_Prop.classic`, `FunctionalExtensionality.functional_extensionality_dep`
* `EntryProps`: `PrimInt63.eqb`, `PrimInt63.int`, `PrimInt63.land`, `PrimInt63.lor`, `PrimInt63.lsl`, `PrimInt63.lsr`, `PrimInt63.sub`; `abs`, `add`, `div`, `eqb`, `float`, `frshiftexp`, `ldshiftexp`, `leb`, `ltb`, `mul`, `normfr_mantissa`, `of_uint63`, `opp`, `sqrt`, `sub`
* `NanProps`: `PrimInt63.eqb`, `PrimInt63.int`, `PrimInt63.land`, `PrimInt63.lor`, `PrimInt63.lsl`, `PrimInt63.lsr`, `PrimInt63.sub`; `abs`, `add`, `div`, `eqb`, `eqb_spec`, `float`, `frshiftexp`, `ldshiftexp`, `leb`, `ltb`, `ltb_spec`, `mul`, `mul_spec`, `normfr_mantissa`, `of_uint63`, `opp`, `sqrt`, `sub`
* `QuadProps`: `ClassicalDedekindReals.sig_forall_dec`, `ClassicalDedekindReals.sig_not_dec`, `FunctionalExtensionality.functional_extensionality_dep`, `PrimFloat.eqb`, `PrimFloat.leb`, `PrimInt63.eqb`, `PrimInt63.int`, `PrimInt63.land`, `PrimInt63.lor`, `PrimInt63.lsl`, `PrimInt63.lsr`, `PrimInt63.sub`; `abs`, `add`, `div`, `float`, `frshiftexp`, `ldshiftexp`, `ltb`, `mul`, `normfr_mantissa`, `of_uint63`, `opp`, `sqrt`, `sub`
* `PortProps`: `ClassicalDedekindReals.sig_forall_dec`, `ClassicalDedekindReals.sig_not_dec`, `Classical_Prop.classic`, `FunctionalExtensionality.functional_extensionality_dep`, `PrimFloat.eqb`, `PrimFloat.leb`, `PrimFloat.sqrt`, `PrimInt63.eqb`, `PrimInt63.int`, `PrimInt63.land`, `PrimInt63.lor`, `PrimInt63.lsl`, `PrimInt63.lsr`, `PrimInt63.sub`; `abs`, `add`, `div`, `float`, `frshiftexp`, `ldshiftexp`, `ltb`, `mul`, `normfr_mantissa`, `of_uint63`, `opp`, `sub`
* `BoostProps`: `ClassicalDedekindReals.sig_forall_dec`, `ClassicalDedekindReals.sig_not_dec`, `Classical_Prop.classic`, `FunctionalExtensionality.functional_extensionality_dep`, `PrimFloat.eqb`, `PrimFloat.leb`, `PrimFloat.ltb`, `PrimFloat.sqrt`, `PrimInt63.eqb`, `PrimInt63.int`, `PrimInt63.land`, `PrimInt63.lor`, `PrimInt63.lsl`, `PrimInt63.lsr`, `PrimInt63.sub`; `abs`, `add`, `div`, `float`, `frshiftexp`, `ldshiftexp`, `mul`, `normfr_mantissa`, `of_uint63`, `opp`, `sub`

## Not modelled

Rounding of floating-point numbers (except that control flow is modelled for arbitrary number types), numpy
broadcasting beyond what is cited, most columns of the data files, plotting, the fitted numbers of
most resonance sums (arbitrary parameters in the model), and the classes
and spectra of `hazma/experimental`, which use undefined names.
