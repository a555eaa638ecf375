(** Model of the mediator models over exact real arithmetic: partial widths
    (hazma/scalar_mediator/_scalar_mediator_widths.py, hazma/vector_mediator/_vector_mediator_widths.py),
    cross sections (rust/src/kernels/scalar_xs.rs, vector_xs.rs and their Python wrappers) and the
    attribute setters of the model classes (the two __init__.py files).

    Simplifications.  [f64::mul_add] is a multiplication followed by an addition.  A division by zero is
    infinite or NaN in Rust and raises ZeroDivisionError in Python; here [x / 0] is whatever Coq makes
    of it, and every statement excludes a vanishing denominator.  Arrays are handled pointwise by the
    dispatch layer and are not modelled here. *)
From Coq Require Import String Reals Bool List.
From Verif Require Import PyBase.
Import ListNotations.
Local Open Scope R_scope.

(** The physical constants.  Two tables are in use: Python reads hazma/parameters.py, the compiled
    cross sections have their own. *)
Record consts : Type := MkConsts {
  c_vh : R; c_alpha : R; c_me : R; c_mmu : R; c_mpi0 : R; c_mpi : R;
  c_b0 : R; c_muq : R; c_mdq : R; c_fpi : R }.

(** hazma/parameters.py 50-58, 80-87, 205, 209, 312, 318 *)
Definition py_consts : consts :=
  MkConsts (24622795 / 100) (1 / (13704 / 100)) (5109989461 / 10000000000) (1056583745 / 10000000)
    (1349768 / 10000) (13957039 / 100000)
    (((1349768 / 10000 + 13957039 / 100000) / 2) ^ 2 / (216 / 100 + 467 / 100))
    (216 / 100) (467 / 100) (922138 / 10000).

(** rust/src/kernels/scalar_xs.rs 100-116 and vector_xs.rs 123-134 (same values; [FPI] only in the second) *)
Definition rs_consts : consts :=
  MkConsts (24622795 / 100) (1 / (13704 / 100)) (510998928 / 1000000000) (1056583715 / 10000000)
    (1349766 / 10000) (13957018 / 100000)
    (2654082197477761 / 1000000000000) (23 / 10) (48 / 10) (922138 / 10000).

(** Python [t ** 1.5], and soft_complex.rs 118-120: [exp(1.5 * ln(t))], which is 0 at t = 0.  For t < 0
    the code's value is NaN (complex in Python); no caller reaches it. *)
Definition pow15 (t : R) : R := if Rle_dec t 0 then 0 else exp (3 / 2 * ln t).

(** soft_complex.rs 149-199: the quotient of two reals computed as complex numbers; a zero denominator
    makes the imaginary part NaN, which the caller reports as TypeError. *)
Definition complex_quotient (a c : R) : res R :=
  if Req_EM_T c 0 then Raise TypeError else Ret (a / c).

(** * Scalar mediator *)

(** The attributes the formulas read (scalar_mediator/__init__.py 113-123) *)
Record sparams : Type := MkS {
  s_mx : R; s_ms : R; s_gsxx : R; s_gsff : R; s_gsGG : R; s_gsFF : R; s_lam : R; s_vs : R }.

Section Scalar.
Variable C : consts.
Variable P : sparams.
Let vh := c_vh C.
Let alpha := c_alpha C.
Let b0 := c_b0 C.
Let mdq := c_mdq C.
Let muq := c_muq C.
Let mx := s_mx P.
Let ms := s_ms P.
Let gsxx := s_gsxx P.
Let gsff := s_gsff P.
Let gsGG := s_gsGG P.
Let gsFF := s_gsFF P.
Let lam := s_lam P.
Let vs := s_vs P.

(** _scalar_mediator_widths.py 13-17 *)
Definition width_s_to_gg : R := alpha ^ 2 * gsFF ^ 2 * ms ^ 3 / (64 * lam ^ 2 * PI ^ 3).

(** The amplitude squared in both pion widths, _scalar_mediator_widths.py 36-47 and 75-86 *)
Definition width_pion_amplitude (m : R) : R :=
  - 162 * gsGG * lam ^ 3 * (- 2 * m ^ 2 + ms ^ 2) * vh ^ 2
  + b0 * (mdq + muq) * (9 * lam + 4 * gsGG * vs)
    * (- 3 * lam * vh + 3 * gsff * lam * vs + 2 * gsGG * vh * vs)
    * (2 * gsGG * vh * (9 * lam - 4 * gsGG * vs) + 9 * gsff * lam * (3 * lam + 4 * gsGG * vs)).

(** _scalar_mediator_widths.py 20-56 *)
Definition width_s_to_pi0pi0 : R :=
  let m := c_mpi0 C in
  if Rlt_dec (2 * m) ms then
    sqrt (- 4 * m ^ 2 + ms ^ 2) * width_pion_amplitude m ^ 2
    / (209952 * lam ^ 6 * ms ^ 2 * PI * vh ^ 4 * (9 * lam + 4 * gsGG * vs) ^ 2)
  else 0.

(** _scalar_mediator_widths.py 59-95 *)
Definition width_s_to_pipi : R :=
  let m := c_mpi C in
  if Rlt_dec (2 * m) ms then
    sqrt (- 4 * m ^ 2 + ms ^ 2) * width_pion_amplitude m ^ 2
    / (104976 * lam ^ 6 * ms ^ 2 * PI * vh ^ 4 * (9 * lam + 4 * gsGG * vs) ^ 2)
  else 0.

(** _scalar_mediator_widths.py 98-115 *)
Definition width_s_to_xx : R :=
  if Rlt_dec (2 * mx) ms then gsxx ^ 2 * pow15 (ms ^ 2 - 4 * mx ^ 2) / (8 * ms ^ 2 * PI) else 0.

(** _scalar_mediator_widths.py 137-147, for the lepton of mass [mf] *)
Definition width_s_to_ff_mass (mf : R) : R :=
  if Rlt_dec (2 * mf) ms then
    gsff ^ 2 * mf ^ 2 * pow15 (- 4 * mf ^ 2 + ms ^ 2) / (8 * ms ^ 2 * PI * vh ^ 2)
  else 0.

(** _scalar_mediator_widths.py 118-147 *)
Definition width_s_to_ff (f : string) : res R :=
  if String.eqb f "e" then Ret (width_s_to_ff_mass (c_me C))
  else if String.eqb f "mu" then Ret (width_s_to_ff_mass (c_mmu C))
  else Raise ValueError.

(** _scalar_mediator_widths.py 150-183 *)
Definition s_partial_widths : res (dict R) :=
  let w_gg := width_s_to_gg in
  let w_pi0pi0 := width_s_to_pi0pi0 in
  let w_pipi := width_s_to_pipi in
  let w_xx := width_s_to_xx in
  let* w_ee := width_s_to_ff "e" in
  let* w_mumu := width_s_to_ff "mu" in
  let total := w_gg + w_pi0pi0 + w_pipi + w_xx + w_ee + w_mumu in
  Ret [("g g", w_gg); ("pi0 pi0", w_pi0pi0); ("pi pi", w_pipi); ("x x", w_xx);
       ("e e", w_ee); ("mu mu", w_mumu); ("total", total)]%string.

(** * Scalar cross sections; [e] is the centre-of-mass energy and [w] the width *)
Variables e w : R.

(** the Breit-Wigner denominator repeated in scalar_xs.rs 192, 219, 264, 308 *)
Definition s_propagator : R := ms ^ 2 * w ^ 2 + (ms ^ 2 - e ^ 2) ^ 2.

(** scalar_xs.rs 171-194 *)
Definition sigma_xx_to_s_to_ff (mf : R) : res R :=
  if Rlt_dec e (2 * mf) then Ret 0
  else if Rlt_dec e (2 * mx) then Ret 0
  else
    complex_quotient
      (gsff ^ 2 * gsxx ^ 2 * mf ^ 2 * pow15 (- 4 * mf ^ 2 + e ^ 2) * sqrt (- 4 * mx ^ 2 + e ^ 2))
      (16 * PI * e ^ 2 * vh ^ 2 * s_propagator).

(** scalar_xs.rs 201-220 *)
Definition sigma_xx_to_s_to_gg : R :=
  if Rlt_dec e (2 * mx) then 0
  else
    alpha ^ 2 * gsFF ^ 2 * gsxx ^ 2 * e ^ 3 * sqrt (- 4 * mx ^ 2 + e ^ 2)
    / (128 * lam ^ 2 * PI ^ 3 * s_propagator).

(** The amplitude in scalar_xs.rs 246-257 and 290-301 *)
Definition xs_pion_amplitude (m : R) : R :=
  162 * gsGG * lam ^ 3 * (2 * m ^ 2 + - e ^ 2) * vh ^ 2
  + b0 * (mdq + muq) * (9 * lam + 4 * gsGG * vs)
    * (2 * gsGG * vh * vs + (- 3 * lam * vh + 3 * gsff * lam * vs))
    * (2 * gsGG * vh * (9 * lam + - (4 * gsGG * vs)) + 9 * gsff * lam * (3 * lam + 4 * gsGG * vs)).

(** scalar_xs.rs 228-265 *)
Definition sigma_xx_to_s_to_pi0pi0 : R :=
  let m := c_mpi0 C in
  if Rlt_dec e (2 * m) then 0
  else if Rlt_dec e (2 * mx) then 0
  else
    gsxx ^ 2 * sqrt ((- 4 * m ^ 2 + e ^ 2) * (- 4 * mx ^ 2 + e ^ 2)) * xs_pion_amplitude m ^ 2
    / (419904 * lam ^ 6 * PI * e ^ 2 * vh ^ 4 * (9 * lam + 4 * gsGG * vs) ^ 2 * s_propagator).

(** scalar_xs.rs 272-309 *)
Definition sigma_xx_to_s_to_pipi : R :=
  let m := c_mpi C in
  if Rlt_dec e (2 * m) then 0
  else if Rlt_dec e (2 * mx) then 0
  else
    gsxx ^ 2 * sqrt ((- 4 * m ^ 2 + e ^ 2) * (- 4 * mx ^ 2 + e ^ 2)) * xs_pion_amplitude m ^ 2
    / (209952 * lam ^ 6 * PI * e ^ 2 * vh ^ 4 * (9 * lam + 4 * gsGG * vs) ^ 2 * s_propagator).

(** scalar_xs.rs 316-344 *)
Definition sigma_xx_to_ss : R :=
  if Rlt_dec e (2 * ms) then 0
  else if Rlt_dec e (2 * mx) then 0
  else
    gsxx ^ 4
    * (- (sqrt ((- 4 * ms ^ 2 + e ^ 2) * (- 4 * mx ^ 2 + e ^ 2))
          * (2 * mx ^ 2 * (8 * mx ^ 2 + e ^ 2) + (3 * ms ^ 4 + - (16 * ms ^ 2 * mx ^ 2)))
          / (mx ^ 2 * e ^ 2 + (- (4 * ms ^ 2) * mx ^ 2 + ms ^ 4)))
       + (- (4 * ms ^ 2) * (4 * mx ^ 2 + e ^ 2)
          + (16 * mx ^ 2 * e ^ 2 + (6 * ms ^ 4 + - (32 * mx ^ 4)) + e ^ 4))
         * ln ((- 2 * ms ^ 2 + e ^ 2 + sqrt ((- 4 * ms ^ 2 + e ^ 2) * (- 4 * mx ^ 2 + e ^ 2)))
               / (- 2 * ms ^ 2 + e ^ 2 - sqrt ((- 4 * ms ^ 2 + e ^ 2) * (- 4 * mx ^ 2 + e ^ 2))))
         / (- 2 * ms ^ 2 + e ^ 2))
    / (32 * PI * e ^ 2 * (- 4 * mx ^ 2 + e ^ 2)).

(** scalar_xs.rs 353-386 *)
Definition sigma_ss_to_xx : R :=
  if Rlt_dec e (2 * mx) then 0
  else if Rlt_dec e (2 * ms) then 0
  else
    let rs := ms / e in
    let rx := mx / e in
    gsxx ^ 4
    * (- 2 * sqrt ((- 4 * rs ^ 2 + 1) * (- 4 * rx ^ 2 + 1))
       * (16 * rx ^ 4 + (3 * rs ^ 4 + 2 * (- 8 * rs ^ 2 + 1) * rx ^ 2))
       / (- (4 * rs ^ 2) * rx ^ 2 + (rs ^ 4 + rx ^ 2))
       + (- (4 * rs ^ 2) * (4 * rx ^ 2 + 1)
          + (- 32 * rx ^ 4 + (16 * rx ^ 2 + (6 * rs ^ 4 + 1))))
         * 2
         * (ln (- 2 * rs ^ 2 + 1 + sqrt ((- 4 * rs ^ 2 + 1) * (- 4 * rx ^ 2 + 1)))
            - ln (- 2 * rs ^ 2 + 1 - sqrt ((- 4 * rs ^ 2 + 1) * (- 4 * rx ^ 2 + 1))))
         / (- 2 * rs ^ 2 + 1))
    / (8 * e ^ 2 * PI * (- 4 * rs ^ 2 + 1)).

(** scalar_xs.rs 397-440; [LN_4] and [LN_16] (131-134) are ln 4 and ln 16 *)
Definition sigma_xl_to_xl (ml : R) : R :=
  if Rlt_dec e (mx + ml) then 0
  else
    let s := e ^ 2 in
    2 * ((gsff * ml) ^ 2 * gsxx ^ 2
         * ((- 4 * ml ^ 2 * (- 4 * mx ^ 2 + ms ^ 2) + ms ^ 2 * (- 4 * mx ^ 2 + ms ^ 2 - w ^ 2))
            * atan (ms / w)
            + (4 * ml ^ 2 * (- 4 * mx ^ 2 + ms ^ 2) + ms ^ 2 * (4 * mx ^ 2 + - ms ^ 2 + w ^ 2))
              * atan ((- 4 * mx ^ 2 + ms ^ 2 + s) / (ms * w))
            + ms * w
              * (4 * mx ^ 2 + - s + ms ^ 2 * ln 4 - ml ^ 2 * ln 16 - mx ^ 2 * ln 16
                 + (2 * mx ^ 2 + (2 * ml ^ 2 + - ms ^ 2)) * ln (4 * ms ^ 2 * (ms ^ 2 + w ^ 2))
                 + (- 2 * mx ^ 2 + (- 2 * ml ^ 2 + ms ^ 2))
                   * ln (ms ^ 2 * (- 8 * mx ^ 2 + 2 * s + w ^ 2) + (ms ^ 4 + (- 4 * mx ^ 2 + s) ^ 2))))
         / (32 * ms * PI * e ^ 2 * (4 * mx ^ 2 + - s) * w)).

(** scalar_xs.rs 465-477 and 601-613 ([atan_prefactor]) *)
Definition xpi_atan_prefactor : R :=
  gsff * (- 81 * lam ^ 3 * vh + 48 * gsGG ^ 2 * lam * vh * vs ^ 2)
  + (27 * gsff ^ 2 * lam ^ 2 * vs * (3 * lam + 4 * gsGG * vs)
     + - (2 * gsGG * vh ^ 2 * (8 * gsGG ^ 2 * vs ^ 2 + (27 * lam ^ 2 + - (30 * gsGG * lam * vs))))).

(** scalar_xs.rs 481-501 and 617-637 ([coupling_combination_sq]) *)
Definition xpi_combination_sq (m : R) : R :=
  26244 * gsGG ^ 2 * lam ^ 6 * vh ^ 4
  * (ms ^ 2 * (3 * ms ^ 2 + - (8 * mx ^ 2) - w ^ 2)
     + (4 * m ^ 4 + - (8 * m ^ 2 * (- 2 * mx ^ 2 + ms ^ 2))))
  + (648 * b0 * gsGG * lam ^ 3 * (mdq + muq) * (2 * mx ^ 2 + (m ^ 2 - ms ^ 2)) * vh ^ 2
     * (9 * lam + 4 * gsGG * vs) * xpi_atan_prefactor
     + b0 ^ 2 * (mdq + muq) ^ 2 * (9 * lam + 4 * gsGG * vs) ^ 2 * xpi_atan_prefactor ^ 2).

(** scalar_xs.rs 503-535 and 639-671 ([coupling_combination]) *)
Definition xpi_combination (m : R) : R :=
  2 * (26244 * gsGG ^ 2 * lam ^ 6 * vh ^ 4
       * (- ms ^ 4 * (4 * mx ^ 2 + 3 * w ^ 2)
          + (- (4 * m ^ 2 * ms ^ 2) * (- 4 * mx ^ 2 + ms ^ 2 - w ^ 2)
             + (4 * ms ^ 2 * mx ^ 2 * w ^ 2 + (4 * m ^ 4 * (- 4 * mx ^ 2 + ms ^ 2) + ms ^ 6))))
       + (b0 ^ 2 * (mdq + muq) ^ 2 * (- 4 * mx ^ 2 + ms ^ 2) * (9 * lam + 4 * gsGG * vs) ^ 2
          * xpi_atan_prefactor ^ 2
          + 324 * b0 * gsGG * lam ^ 3 * (mdq + muq) * vh ^ 2 * (9 * lam + 4 * gsGG * vs)
            * xpi_atan_prefactor
            * (2 * m ^ 2 * (- 4 * mx ^ 2 + ms ^ 2) + ms ^ 2 * (4 * mx ^ 2 + - ms ^ 2 + w ^ 2)))).

(** The expression common to scalar_xs.rs 537-578 and 673-714 *)
Definition xpi_core (m : R) : R :=
  gsxx ^ 2
  * (ms * w
     * (xpi_combination_sq m
        * ln (ms ^ 2 * (- 8 * mx ^ 2 + 2 * e ^ 2 + w ^ 2) + (ms ^ 4 + (- 4 * mx ^ 2 + e ^ 2) ^ 2))
        + (- 324 * gsGG * lam ^ 3 * (4 * mx ^ 2 + - e ^ 2) * vh ^ 2
           * (81 * gsGG * lam ^ 3 * (4 * mx ^ 2 + (8 * m ^ 2 + - (4 * ms ^ 2)) + e ^ 2) * vh ^ 2
              + 2 * b0 * (mdq + muq) * (9 * lam + 4 * gsGG * vs) * xpi_atan_prefactor)
           + - (xpi_combination_sq m * ln (ms ^ 2 * (ms ^ 2 + w ^ 2)))))
     + (xpi_combination m * atan (ms / w)
        + - (xpi_combination m * atan ((- 4 * mx ^ 2 + ms ^ 2 + e ^ 2) / (ms * w)))))
  / (419904 * lam ^ 6 * ms * PI * e ^ 2 * (- 4 * mx ^ 2 + e ^ 2) * vh ^ 4
     * (9 * lam + 4 * gsGG * vs) ^ 2 * w).

(** scalar_xs.rs 450-579 *)
Definition sigma_xpi_to_xpi : R :=
  let m := c_mpi C in
  if Rlt_dec e (mx + m) then 0 else 2 * xpi_core m.

(** scalar_xs.rs 586-715 *)
Definition sigma_xpi0_to_xpi0 : R :=
  let m := c_mpi0 C in
  if Rlt_dec e (mx + m) then 0 else xpi_core m.

(** scalar_xs.rs 726-774 *)
Definition sigma_xg_to_xg : R :=
  if Rlt_dec e mx then 0
  else if Req_EM_T e (2 * mx) then 0
  else
    let s := e ^ 2 in
    alpha ^ 2 * gsFF ^ 2 * gsxx ^ 2
    * (- w
       * (ms ^ 2 * (3 * ms ^ 2 + - (8 * mx ^ 2) - w ^ 2)
          * ln (ms ^ 2 * (- 8 * mx ^ 2 + 2 * s + w ^ 2) + (ms ^ 4 + (- 4 * mx ^ 2 + s) ^ 2))
          + ((4 * ms ^ 2 + - (4 * mx ^ 2) - s) * (4 * mx ^ 2 + - s)
             + ms ^ 2 * (- 3 * ms ^ 2 + 8 * mx ^ 2 + w ^ 2) * ln (ms ^ 2 * (ms ^ 2 + w ^ 2))))
       + (- 2 * (- ms ^ 3 * (4 * mx ^ 2 + 3 * w ^ 2) + (4 * ms * mx ^ 2 * w ^ 2 + ms ^ 5))
          * atan (ms / w)
          + 2 * (- ms ^ 3 * (4 * mx ^ 2 + 3 * w ^ 2) + (4 * ms * mx ^ 2 * w ^ 2 + ms ^ 5))
            * atan ((- 4 * mx ^ 2 + ms ^ 2 + s) / (ms * w))))
    / (128 * lam ^ 2 * PI ^ 3 * (4 * mx ^ 2 + - s) * s * w).

(** scalar_xs.rs 784-837 *)
Definition sigma_xs_to_xs : R :=
  if Rlt_dec e (mx + ms) then 0
  else if Req_EM_T e (2 * mx) then
    gsxx ^ 4 * (9 * mx ^ 4 + (- (10 * ms ^ 2) * mx ^ 2 + ms ^ 4)) ^ 2
    / (36 * mx ^ 4 * (2 * ms ^ 2 + - (3 * mx ^ 2)) ^ 2 * PI * e ^ 2)
  else
    let s := e ^ 2 in
    gsxx ^ 4
    * (10 * s ^ 2
       + (50 * mx ^ 2 * s
          + (- (8 * ms ^ 2) * s
             + (4 * mx ^ 4 + (4 * ms ^ 4 + - (24 * ms ^ 2 * mx ^ 2))
                + 4 * (- 4 * mx ^ 2 + ms ^ 2) ^ 2 * (mx ^ 2 - s) ^ 2
                  / ((2 * ms ^ 2 + - (3 * mx ^ 2)) * (4 * mx ^ 2 + - s))
                - 4 * (- 4 * mx ^ 2 + ms ^ 2) ^ 2 * (mx ^ 2 - s) ^ 2
                  / ((2 * ms ^ 2 + mx ^ 2 - s) * (4 * mx ^ 2 + - s)))))
       + 4 * (mx ^ 2 - s)
         * (18 * mx ^ 2 * s + (15 * mx ^ 4 + (- 2 * ms ^ 4 + - (16 * ms ^ 2 * mx ^ 2))) - s ^ 2)
         * ln (Rabs ((2 * ms ^ 2 + - (3 * mx ^ 2)) / (2 * ms ^ 2 + mx ^ 2 - s)))
         / (4 * mx ^ 2 + - s))
    / (64 * PI * e ^ 2 * (mx ^ 2 - s) ^ 2).

(** scalar_xs.rs 851-871; the leptons here are the compiled ones *)
Definition s_sigma_xx_to_all : res R :=
  let* sig_e := sigma_xx_to_s_to_ff (c_me C) in
  let* sig_mu := sigma_xx_to_s_to_ff (c_mmu C) in
  Ret (sig_e + sig_mu + sigma_xx_to_s_to_gg + sigma_xx_to_s_to_pi0pi0 + sigma_xx_to_s_to_pipi
       + sigma_xx_to_ss).

(** The integrand of _scalar_mediator_cross_sections.py 219-261, as a function of the angle *)
Definition s_xx_msqrd (z : R) : R :=
  let rxs := mx / e in
  let rss := ms / e in
  let rwss := w / e in
  gsxx ^ 4
  * (3 * (-1 + z) ^ 2 + 256 * rxs ^ 8 * (-1 + z) ^ 2 - 64 * rxs ^ 6 * (5 - 8 * z + 3 * z ^ 2)
     + 32 * rxs ^ 4 * (5 - 6 * z + 3 * z ^ 2) - 4 * rxs ^ 2 * (5 - 12 * z + 7 * z ^ 2)
     + rss ^ 4 * (3 + z ^ 2 - 8 * rxs ^ 2 * (1 + z ^ 2) + 16 * rxs ^ 4 * (3 + z ^ 2))
     + rss ^ 2
       * (3 - 3 * z ^ 2 - 64 * rxs ^ 6 * (3 - 4 * z + z ^ 2) - 16 * rxs ^ 4 * (-9 + 12 * z + z ^ 2)
          + 4 * rxs ^ 2 * (-17 + 8 * z + 5 * z ^ 2)
          + rwss ^ 2 * (3 + z ^ 2 - 8 * rxs ^ 2 * (1 + z ^ 2) + 16 * rxs ^ 4 * (3 + z ^ 2))))
  / ((1 + rss ^ 4 + rss ^ 2 * (-2 + rwss ^ 2))
     * (4 * rss ^ 4 + 4 * rss ^ 2 * (rwss ^ 2 + (-1 + 4 * rxs ^ 2) * (-1 + z))
        + (1 - 4 * rxs ^ 2) ^ 2 * (-1 + z) ^ 2)).

(** _scalar_mediator_cross_sections.py 263-270 for one energy; [rule] holds the nodes and weights that
    numpy's leggauss(10) returns.  [np.nan_to_num] acts only on a vanishing denominator. *)
Definition sigma_xx_to_s_to_xx (rule : list (R * R)) : R :=
  if Rlt_dec (2 * mx) e then
    fold_right Rplus 0 (map (fun nw => snd nw * s_xx_msqrd (fst nw)) rule) / (32 * PI * e)
  else 0.

End Scalar.

(** * Vector mediator *)

(** The attributes the formulas read (vector_mediator/__init__.py 52-72) *)
Record vparams : Type := MkV {
  v_mx : R; v_mv : R; v_gvxx : R; v_gvuu : R; v_gvdd : R; v_gvss : R; v_gvee : R; v_gvmumu : R }.

Section Vector.
Variable C : consts.
Variable P : vparams.
Let alpha := c_alpha C.
Let fpi := c_fpi C.
Let mpi := c_mpi C.
Let mpi0 := c_mpi0 C.
Let mx := v_mx P.
Let mv := v_mv P.
Let gvxx := v_gvxx P.
Let gvuu := v_gvuu P.
Let gvdd := v_gvdd P.

(** _vector_mediator_widths.py 16-26 *)
Definition width_v_to_pipi : R :=
  if Rlt_dec (2 * mpi) mv then
    let g2 := (gvdd - gvuu) ^ 2 in
    let b := mpi / mv in
    mv * g2 * pow15 (1 - 4 * b ^ 2) / (48 * PI)
  else 0.

(** _vector_mediator_widths.py 28-43 *)
Definition width_v_to_pi0g : R :=
  if Rlt_dec mpi0 mv then
    mv ^ 3 * alpha * (gvdd + 2 * gvuu) ^ 2 * (1 - (mpi0 / mv) ^ 2) ^ 3 / (384 * fpi ^ 2 * PI ^ 4)
  else 0.

(** _vector_mediator_widths.py 45-59 *)
Definition width_v_to_xx : R :=
  if Rlt_dec (2 * mx) mv then
    gvxx ^ 2 * sqrt (mv ^ 2 - 4 * mx ^ 2) * (mv ^ 2 + 2 * mx ^ 2) / (12 * mv ^ 2 * PI)
  else 0.

(** _vector_mediator_widths.py 71-83 for the lepton of mass [mf] and coupling [gvll] *)
Definition width_v_to_ff_mass (gvll mf : R) : R :=
  if Rlt_dec (2 * mf) mv then
    gvll ^ 2 * sqrt (- 4 * mf ^ 2 + mv ^ 2) * (2 * mf ^ 2 + mv ^ 2) / (12 * mv ^ 2 * PI)
  else 0.

(** _vector_mediator_widths.py 61-83: an unknown fermion gives 0 *)
Definition width_v_to_ff (f : string) : R :=
  if String.eqb f "e" then width_v_to_ff_mass (v_gvee P) (c_me C)
  else if String.eqb f "mu" then width_v_to_ff_mass (v_gvmumu P) (c_mmu C)
  else 0.

(** _vector_mediator_widths.py 85-101 *)
Definition v_partial_widths : dict R :=
  let w_pipi := width_v_to_pipi in
  let w_pi0g := width_v_to_pi0g in
  let w_xx := width_v_to_xx in
  let w_ee := width_v_to_ff "e" in
  let w_mumu := width_v_to_ff "mu" in
  let total := w_pipi + w_pi0g + w_xx + w_ee + w_mumu in
  [("pi pi", w_pipi); ("pi0 g", w_pi0g); ("x x", w_xx); ("e e", w_ee); ("mu mu", w_mumu);
   ("total", total)]%string.

Variables e w : R.

(** vector_xs.rs 361-364 *)
Definition v_propagator : R := mv ^ 2 * w ^ 2 + (mv ^ 2 - e ^ 2) ^ 2.

(** vector_xs.rs 158-182 *)
Definition sigma_xx_to_v_to_ff (gvll mf : R) : R :=
  if Rlt_dec e (2 * mf) then 0
  else if Rlt_dec e (2 * mx) then 0
  else
    gvll ^ 2 * gvxx ^ 2 * (mf ^ 2 * 2 + e ^ 2)
    * sqrt ((mf ^ 2 * - 4 + e ^ 2) / (mx ^ 2 * - 4 + e ^ 2)) * (mx ^ 2 * 2 + e ^ 2)
    / (12 * PI * e ^ 2 * v_propagator).

(** vector_xs.rs 194-221 *)
Definition sigma_xx_to_v_to_pipi : res R :=
  if Rlt_dec e (2 * mx) then Ret 0
  else if Rlt_dec e (2 * mpi) then Ret 0
  else
    complex_quotient
      (gvxx ^ 2 * (gvdd - gvuu) ^ 2 * pow15 (mpi ^ 2 * - 4 + e ^ 2) * (mx ^ 2 * 2 + e ^ 2))
      (48 * PI * e ^ 2 * sqrt (mx ^ 2 * - 4 + e ^ 2) * v_propagator).

(** vector_xs.rs 229-259 *)
Definition sigma_xx_to_v_to_pi0g : R :=
  if Rlt_dec e mpi0 then 0
  else if Rlt_dec e (2 * mx) then 0
  else
    (e ^ 2 - mpi0 ^ 2) ^ 3 * (gvxx ^ 2 * (alpha * (gvuu * 2 + gvdd) ^ 2)) * (mx ^ 2 * 2 + e ^ 2)
    / (fpi ^ 2 * 3456 * PI ^ 4 * e ^ 3 * sqrt (mx ^ 2 * - 4 + e ^ 2) * v_propagator).

(** vector_xs.rs 272-311 *)
Definition sigma_xx_to_v_to_pi0v : res R :=
  if Rlt_dec e (mpi0 + mv) then Ret 0
  else if Rlt_dec e (2 * mx) then Ret 0
  else
    let minus := mpi0 - mv in
    let plus := mv + mpi0 in
    let kallen := (minus - e) * (plus - e) * (e + minus) * (e + plus) in
    complex_quotient
      (gvxx ^ 2 * ((gvdd - gvuu) ^ 2 * (gvuu + gvdd) ^ 2) * pow15 kallen * (mx ^ 2 * 2 + e ^ 2))
      (fpi ^ 2 * 1536 * PI ^ 5 * e ^ 3 * sqrt (mx ^ 2 * - 4 + e ^ 2) * v_propagator).

(** vector_xs.rs 318-352 *)
Definition sigma_xx_to_vv : R :=
  if Rlt_dec e (2 * mv) then 0
  else if Rlt_dec e (2 * mx) then 0
  else
    let root_v := sqrt (mv ^ 2 * - 4 + e ^ 2) in
    let root_x := sqrt (mx ^ 2 * - 4 + e ^ 2) in
    let roots := root_x * (root_v + root_v) in
    let t_channel :=
      (mx ^ 2 * e ^ 2 + (mv ^ 4 * 2 + mx ^ 4 * 4)) * roots
      / (mx ^ 2 * e ^ 2 + (mv ^ 2 * - 4 * mx ^ 2 + mv ^ 4)) in
    let half := mx ^ 2 * 4 * e ^ 2 + (mx ^ 4 * - 8 + (mv ^ 4 * 4 + mv ^ 2 * - 8 * mx ^ 2)) + e ^ 4 in
    let polynomial := half + half in
    let shifted := mv ^ 2 * - 2 + e ^ 2 in
    let ratio := (root_v * root_x + shifted) / (- root_v * root_x + shifted) in
    let s_channel := polynomial * ln ratio / shifted in
    gvxx ^ 4 * (s_channel - t_channel) / (16 * PI * e ^ 2 * (mx ^ 2 * - 4 + e ^ 2)).

(** vector_xs.rs 378-397 *)
Definition v_sigma_xx_to_all : res R :=
  let sig_e := sigma_xx_to_v_to_ff (v_gvee P) (c_me C) in
  let sig_mu := sigma_xx_to_v_to_ff (v_gvmumu P) (c_mmu C) in
  let* sig_pi := sigma_xx_to_v_to_pipi in
  let* sig_pi0v := sigma_xx_to_v_to_pi0v in
  Ret (sig_e + sig_mu + sig_pi + sigma_xx_to_v_to_pi0g + sig_pi0v + sigma_xx_to_vv).

(** The integrand of _vector_mediator_cross_sections.py 209-251 *)
Definition v_xx_msqrd (z : R) : R :=
  let rv := mv / e in
  let rx := mx / e in
  let rwv := w / e in
  gvxx ^ 4
  * (9 - 56 * rx ^ 2
     + 2 * (9 * rv ^ 2 * (-1 + rv ^ 2 + rwv ^ 2) + 4 * rv ^ 2 * (11 + 2 * rv ^ 2 + 2 * rwv ^ 2) * rx ^ 2
            + 8 * (7 + 6 * rv ^ 2 * (-4 + rv ^ 2 + rwv ^ 2)) * rx ^ 4 + 64 * rx ^ 6)
     - 2 * (-1 + 4 * rx ^ 2)
       * (3 * rv ^ 2 * (-3 + 2 * rv ^ 2 + 2 * rwv ^ 2)
          + 4 * (3 + 6 * rv ^ 4 + 2 * rv ^ 2 * (-7 + 3 * rwv ^ 2)) * rx ^ 2
          - 32 * (-2 + rv ^ 2) * rx ^ 4) * z
     + 2 * (3 * rv ^ 2 - 4 * rx ^ 2) * (-1 + 4 * rx ^ 2) ^ 3 * z ^ 3
     + (1 - 4 * rx ^ 2) ^ 4 * z ^ 4
     + 2 * (3 + 5 * rv ^ 4 + 12 * rx ^ 2 + 8 * rx ^ 4 + rv ^ 2 * (-3 + 5 * rwv ^ 2 - 20 * rx ^ 2))
       * (z - 4 * rx ^ 2 * z) ^ 2)
  / ((1 + rv ^ 4 + rv ^ 2 * (-2 + rwv ^ 2))
     * (4 * rv ^ 4 + 4 * rv ^ 2 * (rwv ^ 2 + (-1 + 4 * rx ^ 2) * (-1 + z))
        + (1 - 4 * rx ^ 2) ^ 2 * (-1 + z) ^ 2)).

(** _vector_mediator_cross_sections.py 253-260 for one energy, as in the scalar model *)
Definition sigma_xx_to_v_to_xx (rule : list (R * R)) : R :=
  if Rlt_dec (2 * mx) e then
    fold_right Rplus 0 (map (fun nw => snd nw * v_xx_msqrd (fst nw)) rule) / (32 * PI * e)
  else 0.

(** _vector_mediator_cross_sections.py 276-314: the expression; [s] is the squared mass of the charged
    pion pair *)
Definition pi0pipi_polynomial (s : R) : R :=
  - 24 * mpi ^ 6 * s
  + mpi ^ 4 * (- 2 * mpi0 ^ 4 + 28 * mpi0 ^ 2 * s + 22 * s ^ 2)
  + 2 * mpi ^ 2 * (mpi0 ^ 6 - 4 * s ^ 3)
  + s * (- 2 * mpi0 ^ 6 - 4 * mpi0 ^ 4 * s - mpi0 ^ 2 * s ^ 2 + s ^ 3)
  + e ^ 4 * (- 2 * mpi ^ 4 + 2 * mpi ^ 2 * (mpi0 ^ 2 - s) + s * (- 2 * mpi0 ^ 2 + s))
  + e ^ 2
    * (4 * mpi ^ 4 * (mpi0 ^ 2 + s) + s * (4 * mpi0 ^ 4 + 5 * mpi0 ^ 2 * s - 2 * s ^ 2)
       - 4 * mpi ^ 2 * (mpi0 ^ 4 + 3 * mpi0 ^ 2 * s - s ^ 2)).
Definition pi0pipi_value (s : R) : R :=
  3 * ((gvdd + gvuu) ^ 2 * gvxx ^ 2 * sqrt (s * (- 4 * mpi ^ 2 + s))
       * sqrt (e ^ 4 + (mpi0 ^ 2 - s) ^ 2 - 2 * e ^ 2 * (mpi0 ^ 2 + s)) * pi0pipi_polynomial s)
  / (294912 * fpi ^ 6 * PI ^ 7 * sqrt (e ^ 2) * sqrt (- 4 * mx ^ 2 + e ^ 2) * s ^ 2
     * (mv ^ 4 - 2 * mv ^ 2 * e ^ 2 + e ^ 4 + mv ^ 2 * w ^ 2)).

(** _vector_mediator_cross_sections.py 262-321, with the assertion of line 317 *)
Definition dsigma_ds_xx_to_v_to_pi0pipi (s : R) : res R :=
  if Rlt_dec (2 * mpi + mpi0) e then
    if Rlt_dec (2 * mx) e then
      if Rlt_dec (4 * mpi ^ 2) s then
        if Rlt_dec s ((e - mpi0) ^ 2) then
          if Rle_dec 0 (pi0pipi_value s) then Ret (pi0pipi_value s) else Raise AssertionError
        else Ret 0
      else Ret 0
    else Ret 0
  else Ret 0.

End Vector.
