(** Model of the resonance fits of hazma/form_factors/vector over exact real arithmetic, at one energy or
    phase-space point (arrays of energies are treated in VffModel).  Complex numbers are pairs.  Lists of
    resonances stand for the NumPy arrays of the fits.  [x ** 1.5] is NaN for negative x and a division by
    zero NaN or infinite in NumPy; both are numbers here, and the statements that depend on one exclude
    it.  SciPy's gamma function is an argument. *)
From Coq Require Import Reals Bool List ZArith.
From Verif Require Import PyBase KinModel VffModel RareModel FourPiModel.
Import ListNotations.
Local Open Scope R_scope.

Definition csum (l : list cplx) : cplx := fold_right cadd (0, 0) l.
(** np.exp(1j * x) *)
Definition cis (x : R) : cplx := (cos x, sin x).
(** x ** 1.5 *)
Definition pow15 (x : R) : R := x * sqrt x.
(** The couplings of the vector to up, down and strange quarks: the tuple [couplings] *)
Record quarks : Type := Quarks { gu : R; gd : R; gs : R }.
(** A resonance of a fit: mass and width in GeV, amplitude and phase *)
Record reso : Type := Reso { r_mass : R; r_width : R; r_amp : R; r_phase : R }.
Definition r_coeff (r : reso) : cplx := cscale (r_amp r) (cis (r_phase r)).

(** * _utils.py *)
(** 17 and 19, with hazma/parameters.py 56 and 58 (not the constants of the same name in _pi_pi_pi_pi.py) *)
Definition MPI0_GEV : R := 134.9768 * (1 / 1000).
Definition MPI_GEV : R := 139.57039 * (1 / 1000).
(** 381-386 at one energy *)
Definition breit_wigner_fw (s mass width : R) : cplx := cdiv (mass ^ 2, 0) (mass ^ 2 - s, - (mass * width)).
(** 397-408 at one energy *)
Definition breit_wigner_pwave (s mres gamma m1 m2 : R) : cplx :=
  cdiv (mres ^ 2, 0) (mres ^ 2 - s, - (sqrt s * gamma_p s mres gamma m1 m2)).
(** 333-351 with the parameters of _pi_pi.py 105-119 *)
Definition breit_wigner_gs (s mres gamma m1 m2 : R) : cplx :=
  cdiv (gs_num mres gamma m1 m2, 0) (gs_den s mres gamma m1 m2).
(** 434-440: the values yielded; [n] counts from 1 *)
Fixpoint gamma_from (beta val : R) (n count : nat) : list R :=
  match count with
  | O => []
  | S k => let v := val * ((1 - beta + INR n) / INR n) in v :: gamma_from beta v (S n) k
  end.
Definition gamma_generator (gamma : R -> R) (beta : R) (nmax : nat) : list R :=
  let val := gamma (2 - beta) in val :: gamma_from beta val 1 (nmax - 1).

(** * _pi_pi.py and _k_k.py *)
(** _pi_pi.py 84-92 and _k_k.py 139-147: entry [n] of the couplings, [gb] the value of the generator *)
Definition dual_coup (gamma : R -> R) (beta : R) (n : nat) (gb : R) : R :=
  gamma (beta - 0.5) / (0.5 + INR n) / sqrt PI * sin (PI * (beta - 1 - INR n)) / PI * gb.
(** _pi_pi.py 94 and _k_k.py 148: [coup[1::2] *= -1] *)
Definition alternate (n : nat) (x : R) : R := if Nat.odd n then - x else x.
Definition dual_coups (gamma : R -> R) (beta : R) (nmax : nat) : list R :=
  map (fun ng => alternate (fst ng) (dual_coup gamma beta (fst ng) (snd ng)))
      (combine (seq 0 nmax) (gamma_generator gamma beta nmax)).

(** _k_k.py 88-95: [c_0]; [gratio b] is gamma(b - 0.5) / gamma(b - 1.0), the loop runs [fuel] times at
    most and once for every unit above 2 *)
Fixpoint c_0_loop (gratio : R -> R) (fuel : nat) (ratio b1 : R) : R :=
  match fuel with
  | O => ratio * gratio b1
  | S k => if Rlt_dec 2 b1 then c_0_loop gratio k (ratio * ((b1 - 1.5) / (b1 - 2))) (b1 - 1) else ratio * gratio b1
  end.
Definition c_0 (gratio : R -> R) (b0 : R) : R := c_0_loop gratio (Z.to_nat (up b0)) (2 / sqrt PI) b0.
(** a < b < c *)
Definition between (a b c : R) : bool :=
  if Rlt_dec a b then if Rlt_dec b c then true else false else false.
(** _k_k.py 102-117: the loop of [_find_beta]; [None] when it has not ended after [fuel] rounds *)
Fixpoint find_beta_loop (c : R -> R) (c0 : R) (fuel : nat) (betamin betamid betamax cmid : R) : option (res R) :=
  if Rlt_dec (/ 10 ^ 10) (Rabs (cmid - c0)) then
    match fuel with
    | O => None
    | S k =>
        let cmin := c betamin in
        let cmax := c betamax in
        let cmid := c betamid in
        if between cmin c0 cmid then find_beta_loop c c0 k betamin (0.5 * (betamin + betamid)) betamid cmid
        else if between cmid c0 cmax then find_beta_loop c c0 k betamid (0.5 * (betamid + betamax)) betamax cmid
        else if Rle_dec cmax c0 then find_beta_loop c c0 k betamin (0.5 * (betamin + betamax * 2)) (betamax * 2) cmid
        else Some (Raise RuntimeError)
    end
  else Some (Ret betamid).
(** _k_k.py 85-117 *)
Definition find_beta (gratio : R -> R) (c0 : R) (fuel : nat) : option (res R) :=
  find_beta_loop (c_0 gratio) c0 fuel 1 5 10 (c_0 gratio 5).

(** _k_k.py 160-162: [coup] are the couplings of all resonances, [wgt] the fitted ones of the first *)
Definition set_first (wgt coup : list cplx) : list cplx := wgt ++ skipn (length wgt) coup.
Definition add_at (n : nat) (z : cplx) (l : list cplx) : list cplx :=
  firstn n l ++ match skipn n l with x :: r => cadd x z :: r | [] => [] end.
Definition csub (a b : cplx) : cplx := cadd a (copp b).
Definition kk_couplings (wgt coup : list cplx) : list cplx :=
  let coup := set_first wgt coup in
  add_at (length wgt) (csub (1, 0) (csum coup)) coup.
(** _pi_pi.py 122-125: entries 1 .. len(rho_wgt) - 1 are rescaled *)
Definition pipi_couplings (wgt coup : list cplx) : list cplx :=
  let n := length wgt in
  let cwgt := csum (firstn (n - 1) (tl coup)) in
  let rho_sum := csum (tl wgt) in
  firstn 1 coup ++ map (fun w => cdiv (cmul w cwgt) rho_sum) (tl wgt) ++ skipn n coup.

(** A resonance with complex coupling, and its propagator at one energy *)
Record creso : Type := CReso { c_mass : R; c_width : R; c_coup : cplx }.
(** _pi_pi.py 148-184; [neutral] is _imode == 0 *)
Definition pi_pi_ff (neutral : bool) (rho : list creso) (omega_mass omega_width : R) (omega_weight : cplx)
    (s : R) (c : quarks) : cplx :=
  let ci1 := gu c - gd c in
  let terms := map (fun r => cmul (cscale ci1 (c_coup r)) (breit_wigner_gs s (c_mass r) (c_width r) MPI_GEV MPI_GEV)) rho in
  if neutral then cscale (sqrt 2) (csum terms)
  else
    match terms with
    | [] => (0, 0)
    | f :: r =>
        let mixing := cmul (cdiv (1, 0) (cadd (1, 0) omega_weight))
                           (cadd (1, 0) (cmul omega_weight (breit_wigner_fw s omega_mass omega_width))) in
        cadd (cmul f mixing) (csum r)
    end.

(** _k_k.py 393-447 at one energy, given the products coupling times propagator of the three families;
    [first] says that the energy is the first of the array (lines 443-444 multiply row 0, see VffModel) *)
Definition kk_sum (neutral first : bool) (c : quarks) (rho omega phi : list cplx) : cplx :=
  let '(ci0, ci1, cs) := vector_couplings_to_isospin (gu c) (gd c) (gs c) in
  let rho_pre := if neutral then -0.5 else 0.5 in
  let phi_terms := map (cscale (1 / 3 * cs)) phi in
  let phi_terms := if (neutral && first)%bool then map (cscale 1.055) phi_terms else phi_terms in
  cadd (cadd (csum (map (cscale (rho_pre * ci1)) rho)) (csum (map (cscale (1 / 6 * ci0)) omega))) (csum phi_terms).
Definition kk_ff (neutral first : bool) (mk : R) (rho omega phi : list creso) (s : R) (c : quarks) : cplx :=
  kk_sum neutral first c
    (map (fun r => cmul (c_coup r) (breit_wigner_gs s (c_mass r) (c_width r) MPI_GEV MPI_GEV)) rho)
    (map (fun r => cmul (c_coup r) (breit_wigner_fw s (c_mass r) (c_width r))) omega)
    (map (fun r => cmul (c_coup r) (breit_wigner_pwave s (c_mass r) (c_width r) mk mk)) phi).

(** * The other two-body states *)
(** _pi_gamma.py 133-154; [alpha] is alpha_em(s) *)
Definition pi_gamma_ff (fpi a0 ar aw af : R) (rho omega phi : R * R) (alpha : R) (q : R) (c : quarks) : cplx :=
  let s := q ^ 2 in
  let amp (k : R) (mw : R * R) : cplx := cdiv (k, 0) (s - fst mw ^ 2, q * snd mw) in
  let '(ci0, ci1, cs) := vector_couplings_to_isospin (gu c) (gd c) (gs c) in
  let cd := 2 * gu c + gd c in
  let amp_0 := a0 * 4 * sqrt 2 * s / (3 * fpi) in
  let form := csub (cscale amp_0 (cadd (cadd (cscale ar (amp ci1 rho)) (cscale aw (amp ci0 omega))) (cscale af (amp cs phi))))
                   (cd / (4 * PI ^ 2 * fpi), 0) in
  cscale (sqrt (4 * PI * alpha)) form.
(** _eta_gamma.py 112-121, _pi_pi_eta.py 90-95, _pi_pi_etap.py 102-107: the width of the rho *)
Definition rho_width (s m0 w0 : R) : R :=
  w0 * m0 ^ 2 / s * pow15 ((s - 4 * MPI_GEV ^ 2) / (m0 ^ 2 - 4 * MPI_GEV ^ 2)).
(** _eta_gamma.py 101-131; the fit has five resonances, the first is the rho *)
Definition eta_gamma_ff (fit : list reso) (s : R) (c : quarks) : cplx :=
  let '(ci0, ci1, cs) := vector_couplings_to_isospin (gu c) (gd c) (gs c) in
  let term (first : bool) (kr : R * reso) : cplx :=
    let r := snd kr in
    let w := if first then rho_width s (r_mass r) (r_width r) else r_width r in
    cdiv (cscale (fst kr * r_mass r ^ 2) (r_coeff r)) (r_mass r ^ 2 - s, - (sqrt s * w)) in
  match combine [ci1; ci0; cs; ci1; cs] fit with
  | [] => (0, 0)
  | k :: l => cadd (term true k) (csum (map (term false) l))
  end.
(** _eta_phi.py 99-107 and _eta_omega.py 102-110 *)
Definition eta_phi_ff (fit : list reso) (s : R) (c : quarks) : cplx :=
  cscale (-3 * gs c) (csum (map (fun r => cmul (r_coeff r) (breit_wigner_fw s (r_mass r) (r_width r))) fit)).
Definition eta_omega_ff (fit : list reso) (s : R) (c : quarks) : cplx :=
  cscale (fst (fst (vector_couplings_to_isospin (gu c) (gd c) (gs c))))
         (csum (map (fun r => cmul (r_coeff r) (breit_wigner_fw s (r_mass r) (r_width r))) fit)).
(** _pi_phi.py 135-142 *)
Definition pi_phi_width (s m w br : R) : R :=
  w * (1 - br + br * m ^ 2 / s * pow15 ((s - 16 * MPI0_GEV ^ 2) / (m ^ 2 - 16 * MPI0_GEV ^ 2))).
(** _pi_phi.py 121-147; a resonance with its branching ratio into four pions *)
Definition pi_phi_ff (fit : list (reso * R)) (s : R) (c : quarks) : cplx :=
  let ci1 := gu c - gd c in
  csum (map (fun rb => let '(r, br) := rb in
    cdiv (cscale (ci1 * r_mass r ^ 2) (r_coeff r))
         (r_mass r ^ 2 - s, - (sqrt s * pi_phi_width s (r_mass r) (r_width r) br))) fit).
(** _pi_omega.py 96-111: the width of the first resonance; [momega] is MOMEGA_GEV *)
Definition pi_omega_width (g momega s m w : R) : R :=
  let mu2p := MPI0_GEV ^ 2 / s in
  let mu2w := momega ^ 2 / s in
  let mu2r := m ^ 2 / s in
  let p := 0.5 * sqrt s * sqrt (kallen_lambda 1 mu2p mu2w) in
  w * mu2r * pow15 ((1 - 4 * mu2p) / (mu2r - 4 * mu2p)) + g ^ 2 * p ^ 3 / (12 * PI).
(** _pi_omega.py 135-151 *)
Definition pi_omega_ff (g frho momega : R) (fit : list reso) (s : R) (c : quarks) : cplx :=
  let ci1 := gu c - gd c in
  let term (w : R) (r : reso) : cplx :=
    cdiv (cscale (r_mass r ^ 2) (r_coeff r)) (r_mass r ^ 2 - s, - (sqrt s * w)) in
  cscale (g * ci1 / frho)
    match fit with
    | [] => (0, 0)
    | r :: l => cadd (term (pi_omega_width g momega s (r_mass r) (r_width r)) r)
                     (csum (map (fun r => term (r_width r) r) l))
    end.

(** * Three-body states *)
(** _pi_pi_eta.py 87-96 and _pi_pi_etap.py 99-108 *)
Definition bw0 (m0 w0 s : R) : cplx := cdiv (m0 ^ 2, 0) (m0 ^ 2 - s, - (sqrt s * rho_width s m0 w0)).
(** _pi_pi_eta.py 98-104 and _pi_pi_etap.py 110-116 for the resonances after the first *)
Definition bw_grow (m w s : R) : cplx := cdiv (m ^ 2, 0) (m ^ 2 - s, - (sqrt s * (w * s / m ^ 2))).
(** _pi_pi_eta.py 116-122 with [pre] = 1 / (4 sqrt 3 pi^2 fpi^3), and _pi_pi_etap.py 118-129 with sqrt 2 times that *)
Definition pi_pi_eta_ff (pre : R) (fit : list reso) (q s : R) (c : quarks) : cplx :=
  let ci1 := gu c - gd c in
  let total := csum (map r_coeff fit) in
  match fit with
  | [] => (0, 0)
  | r0 :: l =>
      let bws := bw0 (r_mass r0) (r_width r0) (q ^ 2) :: map (fun r => bw_grow (r_mass r) (r_width r) (q ^ 2)) l in
      cmul (cscale (pre * ci1) (bw0 (r_mass r0) (r_width r0) s))
           (csum (map (fun rb => cmul (cdiv (r_coeff (fst rb)) total) (snd rb)) (combine fit bws)))
  end.
(** _pi_pi_omega.py 82-88 *)
Definition pi_pi_omega_ff (fit : list reso) (q : R) (c : quarks) : cplx :=
  cscale (3 * (gu c + gd c))
    (csum (map (fun r => cdiv (cscale (r_mass r ^ 2) (r_coeff r)) (r_mass r ^ 2 - q ^ 2, - (q * r_width r))) fit)).

(** _pi_pi_pi0.py 154-159 *)
Definition gamma_rho (s mass width mj mk : R) : R :=
  let m2 := mass ^ 2 in
  let msum2 := (mj + mk) ^ 2 in
  width * m2 / s * pow15 ((s - msum2) / (m2 - msum2)).
(** 162-170 *)
Definition bw_rho (qi2 mrho grho mj mk : R) : cplx :=
  cdiv (mrho ^ 2, 0) (qi2 - mrho ^ 2, sqrt qi2 * gamma_rho qi2 mrho grho mj mk).
(** 173-178 *)
Definition hrho (s t u mrho grho : R) : cplx :=
  cadd (cadd (bw_rho s mrho grho MPI_GEV MPI_GEV) (bw_rho t mrho grho MPI0_GEV MPI_GEV))
       (bw_rho u mrho grho MPI0_GEV MPI_GEV).
(** 100-119: the fit; the isoscalar resonances are mass, width and coupling *)
Record pi3_fit : Type := Pi3Fit {
  p3_iso0 : list (R * R * R);
  p3_rho_i0 : list (R * R * R);
  p3_rho_i1 : list (R * R);
  p3_mass_omega : R; p3_width_omega : R; p3_omega_pre : R; p3_omega_pi_pi : R; p3_sigma : R }.
Definition mass3 (r : R * R * R) : R := fst (fst r).
Definition width3 (r : R * R * R) : R := snd (fst r).
Definition coup3 (r : R * R * R) : R := snd r.
Definition nth3 (n : nat) (l : list (R * R * R)) : R * R * R := nth n l (0, 0, 0).
(** 180-211; entry 1 couples to strange quarks, the other ones to up and down quarks *)
Definition iso_spin_zero (f : pi3_fit) (q2 s t u ci0 cs : R) : cplx :=
  let coups := map (fun n => if Nat.eqb n 1 then cs else ci0) (seq 0 (length (p3_iso0 f))) in
  let c0 := csum (map (fun kr => cscale (fst kr * coup3 (snd kr)) (breit_wigner_fw q2 (mass3 (snd kr)) (width3 (snd kr))))
                      (combine coups (p3_iso0 f))) in
  let h n := hrho s t u (mass3 (nth3 n (p3_rho_i0 f))) (width3 (nth3 n (p3_rho_i0 f))) in
  let bw n := breit_wigner_fw q2 (mass3 (nth3 n (p3_iso0 f))) (width3 (nth3 n (p3_iso0 f))) in
  cadd (cadd (cmul c0 (h 0%nat))
             (cmul (cscale (cs * coup3 (nth3 1 (p3_rho_i0 f))) (bw 1%nat)) (h 1%nat)))
       (cmul (cscale (ci0 * coup3 (nth3 2 (p3_rho_i0 f))) (bw 3%nat)) (h 2%nat)).
(** 213-250 *)
Definition iso_spin_one (f : pi3_fit) (q2 s ci1 : R) : cplx :=
  if Req_EM_T ci1 0 then (0, 0)
  else
    let '(m0, w0) := nth 0 (p3_rho_i1 f) (0, 0) in
    let '(m1, w1) := nth 1 (p3_rho_i1 f) (0, 0) in
    let f1 := cadd (cscale (/ m0 ^ 2) (bw_rho s m0 w0 MPI_GEV MPI_GEV))
                   (cscale (p3_sigma f / m1 ^ 2) (bw_rho s m1 w1 MPI_GEV MPI_GEV)) in
    let gw := p3_omega_pre f * m0 ^ 2 * p3_omega_pi_pi f in
    cmul f1 (cscale (ci1 * gw / p3_mass_omega f ^ 2) (breit_wigner_fw q2 (p3_mass_omega f) (p3_width_omega f))).
(** 252-273 *)
Definition pi3_core (f : pi3_fit) (q2 s t u : R) (c : quarks) : cplx :=
  let '(ci0, ci1, cs) := vector_couplings_to_isospin (gu c) (gd c) (gs c) in
  cadd (iso_spin_zero f q2 s t u ci0 cs) (iso_spin_one f q2 s ci1).
(** 308-314: MeV in, GeV inside *)
Definition pi3_form_factor (f : pi3_fit) (q s t : R) (c : quarks) : cplx :=
  let q2 := q ^ 2 * (1 / 1000000) in
  let ss := s * (1 / 1000000) in
  let tt := t * (1 / 1000000) in
  let uu := q2 + MPI0_GEV ^ 2 + 2 * MPI_GEV ^ 2 - ss - tt in
  cscale (1 / 1000000000) (pi3_core f q2 ss tt uu c).

(** _pi_k_k.py 20-21 *)
Definition KS_MASS_GEV : R := 0.8956.
Definition KS_WIDTH_GEV : R := 0.047.
(** _pi_k_k.py 140-159 *)
Definition iso_spin_amplitudes (iso0 iso1 : list reso) (m : R) (c : quarks) : cplx * cplx :=
  let ci1 := gu c - gd c in
  let cs := -3 * gs c in
  let s := m ^ 2 in
  let sum k l := csum (map (fun r => cmul (cscale k (r_coeff r)) (breit_wigner_fw s (r_mass r) (r_width r))) l) in
  (sum cs iso0, sum ci1 iso1).
(** _pi_k_k.py 173-176 *)
Definition kstar_propagator (s m1 m2 : R) : cplx :=
  cscale (/ KS_MASS_GEV ^ 2) (breit_wigner_pwave s KS_MASS_GEV KS_WIDTH_GEV m1 m2).
(** The three classes: _pi_k_k.py 594-600, 634-640 and 674-681; [g] is g_ks_k_pi and the masses are those
    of [fsp_masses] in GeV *)
Definition pi0_k0_k0_ff (g : R) (iso0 iso1 : list reso) (mk0 mpi0 : R) (q s t : R) (c : quarks) : cplx :=
  let '(a0, a1) := iso_spin_amplitudes iso0 iso1 q c in
  let coeff := cscale (2 * g / sqrt 6) (cadd a0 a1) in
  cmul coeff (cadd (kstar_propagator s mk0 mpi0) (kstar_propagator t mk0 mpi0)).
Definition pi0_k_k_ff (g : R) (iso0 iso1 : list reso) (mk mpi0 : R) (q s t : R) (c : quarks) : cplx :=
  let '(a0, a1) := iso_spin_amplitudes iso0 iso1 q c in
  let coeff := cscale (2 * g / sqrt 6) (csub a0 a1) in
  cmul coeff (cadd (kstar_propagator s mk mpi0) (kstar_propagator t mk mpi0)).
Definition pi_k_k0_ff (g : R) (iso0 iso1 : list reso) (mk0 mk mpi : R) (q s t : R) (c : quarks) : cplx :=
  let '(a0, a1) := iso_spin_amplitudes iso0 iso1 q c in
  let cs := cscale (2 * g / sqrt 6) (cadd a0 a1) in
  let ct := cscale (2 * g / sqrt 6) (csub a0 a1) in
  cadd (cmul ct (kstar_propagator s mk mpi)) (cmul cs (kstar_propagator t mk0 mpi)).
(** _pi_k_k.py 24-33 *)
Definition iso_scalar_fit : list reso :=
  [Reso 1.019461 0.004249 0 0; Reso 1.6334 0.218 0.233 0.00000011; Reso 1.957 0.267 0.0405 5.19].
Definition iso_vector_fit : list reso :=
  [Reso 0.77526 0.1491 (-2.34) 0; Reso 1.47 0.4 0.594 0.317; Reso 1.72 0.25 (-0.0179) 2.57].
