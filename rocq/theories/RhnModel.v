(** Model of the right-handed neutrino (hazma/rh_neutrino: _proto.py, _utils.py, _widths.py, _spectra.py,
    _configure.py, _model.py) over exact real arithmetic.

    Simplifications.  [abs(Vud)], [abs(Vus)], the squared modulus of the pion form factor as a function of
    [q], and the value returned by scipy's [quad] are parameters.  The n-body spectra that _spectra.py
    calls (hazma/spectra/_nbody.py, modelled in NbodyModel) are one parameter [nbody product cme states
    msqrd e]; only the products "photon" and "positron", whose values have the shape of the energies, are
    covered.  The keyword options nbins and three_body_integrator are passed through unchanged by the code
    and are left out.  [kallen_lambda] is the one of KinModel. *)
From Coq Require Import String Reals Bool List.
From Verif Require Import PyBase KinModel TheoryModel.
Import ListNotations.
Local Open Scope R_scope.

(** _proto.py 5-15 *)
Inductive gen : Type := Fst | Snd | Trd.
Definition gen_eqb (a b : gen) : bool :=
  match a, b with Fst, Fst | Snd, Snd | Trd, Trd => true | _, _ => false end.
Definition gen_str (g : gen) : string :=
  match g with Fst => "e" | Snd => "mu" | Trd => "tau" end%string.

(** _proto.py 18-21: what the width and spectrum functions read from the model, at the time of the call *)
Record params : Type := MkP { p_mx : R; p_theta : R; p_gen : gen }.

(** * Constants *)

(** hazma/parameters.py 50-76, 205-230, 310-316 *)
Definition m_e : R := 5109989461 / 10000000000.
Definition m_mu : R := 1056583745 / 10000000.
Definition m_tau : R := 177686 / 100.
Definition m_pi0 : R := 1349768 / 10000.
Definition m_pi : R := 13957039 / 100000.
Definition m_eta : R := 547862 / 1000.
Definition m_k : R := 493677 / 1000.
Definition m_rho : R := 77526 / 100.
Definition m_omega : R := 78266 / 100.
Definition m_phi : R := 1019461 / 1000.
Definition alpha_em : R := 1 / (13704 / 100).
Definition GF : R := 11663787 / 10 ^ 18.
Definition sw : R := sqrt (2229 / 10000).
Definition f_pi0 : R := 91924 / 1000.
Definition f_pi : R := 922138 / 10000.
Definition f_k : R := 110379 / 1000.
Definition f_eta : R := 578 / 10.

(** The entries of hazma/parameters.py 107-135 (standard_model_masses) that this model uses *)
Definition sm_masses : dict R :=
  [("e", m_e); ("mu", m_mu); ("tau", m_tau); ("ve", 0); ("vm", 0); ("vt", 0); ("pi", m_pi); ("pi0", m_pi0);
   ("k", m_k); ("eta", m_eta); ("rho", m_rho); ("rho0", m_rho); ("omega", m_omega); ("phi", m_phi);
   ("photon", 0); ("a", 0)]%string.

(** _widths.py 15-19; _configure.py 16-17 and _spectra.py 17-18 *)
Definition lepton_mass (g : gen) : R := match g with Fst => m_e | Snd => m_mu | Trd => m_tau end.
Definition LEP (g : gen) : string := match g with Fst => "e" | Snd => "mu" | Trd => "tau" end%string.
Definition NU (g : gen) : string := match g with Fst => "ve" | Snd => "vm" | Trd => "vt" end%string.

(** _widths.py 37-53: the constants of the vector mesons *)
Definition g_rho : R := 162000.
Definition k_rho : R := 1 - 2 * sw ^ 2.
Definition g_omega : R := 153000.
Definition k_omega : R := 4 / 3 * sw ^ 2.
Definition g_phi : R := 234000.
Definition k_phi : R := 4 / 3 * sw ^ 2 - 1.

(** [u = 0.5 * np.tan(2 * model.theta)], in every function of _widths.py *)
Definition mixing (p : params) : R := 1 / 2 * tan (2 * p_theta p).

(** * Two-body widths *)

(** _widths.py 82-89 *)
Definition width_v_hp (p : params) (mp fp : R) : R :=
  let mx := p_mx p in
  if Rlt_dec mx mp then 0
  else let x := mp / mx in let u := mixing p in
    u ^ 2 * GF ^ 2 * fp ^ 2 * mx ^ 3 * (1 - x ^ 2) ^ 2 / (64 * PI).
(** _widths.py 92-103 *)
Definition width_v_pi0 (p : params) : R := width_v_hp p m_pi0 f_pi0.
Definition width_v_eta (p : params) : R := width_v_hp p m_eta f_eta.

(** _widths.py 111-126; [ckm] is the modulus of the matrix element *)
Definition width_l_hp (p : params) (ml mh fh ckm : R) : R :=
  let mx := p_mx p in
  if Rlt_dec mx (mh + ml) then 0
  else let xh := mh / mx in let xl := ml / mx in let u := mixing p in
    let pre := u ^ 2 * GF ^ 2 * ckm ^ 2 * fh ^ 2 * mx ^ 3 / (32 * PI) in
    pre * ((1 - xl ^ 2) ^ 2 + xh ^ 2 * (1 + xl ^ 2) - 2 * xh ^ 4) * sqrt (kallen_lambda 1 (xh ^ 2) (xl ^ 2)).

(** _widths.py 152-167 *)
Definition width_ell_hv (p : params) (ml mh gh ckm : R) : R :=
  let mx := p_mx p in
  if Rlt_dec mx (mh + ml) then 0
  else let xh := mh / mx in let xl := ml / mx in let u := mixing p in
    let pre := u ^ 2 * GF ^ 2 * ckm ^ 2 * gh ^ 2 * mx ^ 3 / (16 * PI * mh ^ 2) in
    pre * ((1 - xl ^ 2) ^ 2 + xh ^ 2 * (1 + xl ^ 2) - 2 * xh ^ 4) * sqrt (kallen_lambda 1 (xh ^ 2) (xl ^ 2)).

(** _widths.py 185-194 *)
Definition width_v_hv (p : params) (mh kh gr : R) : R :=
  let mx := p_mx p in
  if Rlt_dec mx mh then 0
  else let xh := mh / mx in let u := mixing p in
    let pre := (GF * kh * gr * u / mh) ^ 2 * mx ^ 3 / (32 * PI) in
    pre * (1 + 2 * xh ^ 2) * (1 - xh ^ 2) ^ 2.
(** _widths.py 197-221 *)
Definition width_v_rho (p : params) : R := width_v_hv p m_rho k_rho g_rho.
Definition width_v_omega (p : params) : R := width_v_hv p m_omega k_omega g_omega.
Definition width_v_phi (p : params) : R := width_v_hv p m_phi k_phi g_phi.

(** _widths.py 844-860 *)
Definition width_v_a (p : params) : R := 9 * alpha_em * GF ^ 2 / (256 * PI ^ 4) * p_mx p ^ 5 * mixing p ^ 2.

(** * Three-body widths and squared matrix elements *)

Section Widths.
(** [abs(parameters.Vud)], [abs(parameters.Vus)] (parameters.py 283, 285) *)
Variables vud vus : R.
(** [np.abs(form_factor.form_factor(q=q, couplings=(GVUU, GVDD))) ** 2] *)
Variable ff2 : R -> R.
(** [integrate.quad(f, a, b, **quad_kwargs)[0]] *)
Variable quad : (R -> R) -> R -> R -> R.

(** _widths.py 129-144, 170-177 *)
Definition width_l_pi (p : params) : R := width_l_hp p (lepton_mass (p_gen p)) m_pi f_pi vud.
Definition width_l_k (p : params) : R := width_l_hp p (lepton_mass (p_gen p)) m_k f_k vus.
Definition width_l_rho (p : params) : R := width_ell_hv p (lepton_mass (p_gen p)) m_rho g_rho vud.

(** _widths.py 229-261 *)
Definition msqrd_l_pi0_pi (s t : R) (p : params) : R :=
  let mx := p_mx p in let ml := lepton_mass (p_gen p) in let u := mixing p in
  2 * vud ^ 2 * u ^ 2 * GF ^ 2
  * (4 * m_pi ^ 4 + (ml ^ 2 + mx ^ 2) * (ml ^ 2 + mx ^ 2 - s) - 4 * (ml ^ 2 + mx ^ 2 + 2 * m_pi ^ 2 - s) * t + 4 * t ^ 2)
  * ff2 (sqrt s).

(** [(1.0 - 4 * MPI**2 / s) ** 1.5] of _widths.py 322 and 416: [t ** 1.5] is [t * sqrt t] for [0 <= t] *)
Definition pion_beta (s : R) : R := let t := 1 - 4 * m_pi ^ 2 / s in t * sqrt t.

(** _widths.py 318-324 and 292-328 *)
Definition integrand_l_pi0_pi (p : params) (s : R) : R :=
  let mx := p_mx p in let ml := lepton_mass (p_gen p) in let xl2 := (ml / mx) ^ 2 in
  let z := s / mx ^ 2 in
  let poly := (1 - xl2) ^ 2 + z * (1 + xl2) - 2 * z ^ 2 in
  let p' := sqrt (kallen_lambda 1 z xl2) in
  poly * ff2 (sqrt s) * p' * pion_beta s.
Definition width_l_pi0_pi (p : params) : R :=
  let mx := p_mx p in let ml := lepton_mass (p_gen p) in
  if Rlt_dec mx (ml + 2 * m_pi) then 0
  else let u := mixing p in
    let pre := u ^ 2 * vud ^ 2 * GF ^ 2 * mx ^ 3 / (384 * PI ^ 3) in
    pre * quad (integrand_l_pi0_pi p) (4 * m_pi ^ 2) ((mx - ml) ^ 2).

(** _widths.py 336-360 *)
Definition msqrd_v_pi_pi (s t : R) (p : params) : R :=
  let mx := p_mx p in let u := mixing p in
  u ^ 2 * GF ^ 2 * (1 - 2 * sw ^ 2) ^ 2
  * (mx ^ 4 + 4 * m_pi ^ 4 + 4 * t * (- 2 * m_pi ^ 2 + s + t) - mx ^ 2 * (s + 4 * t))
  * ff2 (sqrt s).

(** _widths.py 413-418 and 389-422 *)
Definition integrand_v_pi_pi (p : params) (s : R) : R :=
  let mx := p_mx p in let z := s / mx ^ 2 in
  let poly := (1 - z) ^ 2 * (1 + 2 * z) in
  ff2 (sqrt s) * pion_beta s * poly.
Definition width_v_pi_pi (p : params) : R :=
  let mx := p_mx p in
  if Rlt_dec mx (2 * m_pi) then 0
  else let u := mixing p in
    let pre := u ^ 2 * GF ^ 2 * mx ^ 3 * (1 - 2 * sw ^ 2) ^ 2 / (768 * PI ^ 3) in
    pre * quad (integrand_v_pi_pi p) (4 * m_pi ^ 2) (mx ^ 2).

(** _widths.py 436-450 *)
Definition msqrd_l_u_d (s t : R) (p : params) (mu md ml ckm : R) : R :=
  let mx := p_mx p in let u := mixing p in
  16 * GF ^ 2 * (ml ^ 2 + mx ^ 2 - s - t) * (s + t - mu ^ 2 - md ^ 2) * u ^ 2 * ckm ^ 2.

(** _widths.py 470-477 and 453-483 *)
Definition integrand_l_u_d (xu xd xl x : R) : R :=
  12 / x * (x - xl ^ 2 - xd ^ 2) * (1 + xu ^ 2 - x)
  * sqrt (kallen_lambda x (xl ^ 2) (xd ^ 2) * kallen_lambda 1 x (xu ^ 2)).
Definition width_l_u_d (p : params) (mu md ml nw : R) : R :=
  let mx := p_mx p in
  if Rlt_dec mx (ml + mu + md) then 0
  else let u := mixing p in
    let pre := nw * GF ^ 2 * mx ^ 5 / (192 * PI ^ 3) * u ^ 2 in
    let xl := ml / mx in let xu := mu / mx in let xd := md / mx in
    pre * quad (integrand_l_u_d xu xd xl) ((xd + xl) ^ 2) ((1 - xu) ^ 2).

(** _widths.py 492-510 *)
Definition msqrd_v_f_f (s t : R) (p : params) (mf : R) : R :=
  let mx := p_mx p in let u := mixing p in
  - 2 * u ^ 2 * GF ^ 2
  * (2 * mf ^ 4 * (1 - 4 * sw ^ 2 + 8 * sw ^ 4)
     + 2 * mf ^ 2 * (mx ^ 2 - s - 2 * (1 - 4 * sw ^ 2 + 8 * sw ^ 4) * t)
     + (1 - 4 * sw ^ 2 + 8 * sw ^ 4) * (s ^ 2 + 2 * s * t + 2 * t ^ 2 - mx ^ 2 * (s + 2 * t))).

(** _widths.py 524-529: [sx], [num] and [lx] *)
Definition vff_sx (x : R) : R := sqrt (1 - 4 * x ^ 2).
Definition vff_num (x : R) : R := 1 - 3 * x ^ 2 - (1 - x ^ 2) * vff_sx x.
Definition vff_lx (x : R) : R :=
  if Rlt_dec (vff_num x) (1 / 10 ^ 10) then 4 * ln x + 4 * x ^ 2 + 6 * x ^ 4
  else ln (vff_num x / (x ^ 2 * (1 + vff_sx x))).
(** _widths.py 531-536 *)
Definition vff_t1 (x : R) : R :=
  let t1_s := (1 - 14 * x ^ 2 - 2 * x ^ 4 - 12 * x ^ 6) * vff_sx x in
  let t1_l := 12 * x ^ 4 * (x ^ 4 - 1) * vff_lx x in
  t1_s + t1_l.
Definition vff_t2 (x : R) : R :=
  let t2_s := x ^ 2 * (2 + 10 * x ^ 2 - 12 * x ^ 4) * vff_sx x in
  let t2_l := 6 * x ^ 4 * (1 - 2 * x ^ 2 + 2 * x ^ 4) * vff_lx x in
  t2_s + t2_l.
(** _widths.py 513-538 *)
Definition width_v_f_f (p : params) (mf nc c1f c2f : R) : R :=
  let mx := p_mx p in
  if Rlt_dec mx (2 * mf) then 0
  else let u := mixing p in
    let pre := nc * GF ^ 2 * mx ^ 5 / (192 * PI ^ 3) * u ^ 2 in
    let x := mf / mx in
    pre * (c1f * vff_t1 x + 4 * c2f * vff_t2 x).

(** _widths.py 545-561 *)
Definition msqrd_v_l_l (s t : R) (p : params) (ml : R) : R :=
  let mx := p_mx p in let u := mixing p in
  - 2 * u ^ 2 * GF ^ 2
  * (2 * ml ^ 4 * (1 + 4 * sw ^ 2 + 8 * sw ^ 4)
     + 2 * ml ^ 2 * (mx ^ 2 - s - 2 * (1 + 4 * sw ^ 2 + 8 * sw ^ 4) * t)
     + (1 + 4 * sw ^ 2 + 8 * sw ^ 4) * (s ^ 2 + 2 * s * t + 2 * t ^ 2 - mx ^ 2 * (s + 2 * t))).

(** _widths.py 564-576 *)
Definition width_v_l_l' (p : params) (genl : gen) : R :=
  if gen_eqb (p_gen p) genl
  then width_v_f_f p (lepton_mass genl) 1 (1 / 4 * (1 + 4 * sw ^ 2 + 8 * sw ^ 4)) (1 / 2 * sw ^ 2 * (2 * sw ^ 2 + 1))
  else width_v_f_f p (lepton_mass genl) 1 (1 / 4 * (1 - 4 * sw ^ 2 + 8 * sw ^ 4)) (1 / 2 * sw ^ 2 * (2 * sw ^ 2 - 1)).

(** _widths.py 582-625: the matrix element and the masses, in the order the matrix element assumes *)
Definition make_msqrd_and_masses (p : params) (genv genl1 genl2 : gen) : (R -> R -> R) * list R :=
  let genn := p_gen p in let ml1 := lepton_mass genl1 in let ml2 := lepton_mass genl2 in
  if gen_eqb genn genv && gen_eqb genv genl1 && gen_eqb genl1 genl2
  then ((fun s t => msqrd_v_l_l s t p ml1), [0; ml1; ml1])
  else if gen_eqb genn genv && gen_eqb genl1 genl2
  then ((fun s t => msqrd_v_f_f s t p ml1), [0; ml1; ml1])
  else if gen_eqb genn genl1 && gen_eqb genv genl2
  then ((fun s t => msqrd_l_u_d s t p 0 ml2 ml1 1), [0; ml2; ml1])
  else if gen_eqb genn genl2 && gen_eqb genv genl1
  then ((fun s t => msqrd_l_u_d s t p 0 ml1 ml2 1), [0; ml1; ml2])
  else ((fun _ _ => 0), [0; ml1; ml2]).

(** _widths.py 698-734 *)
Definition width_v_l_l (p : params) (genv genl1 genl2 : gen) : R :=
  let genn := p_gen p in
  if gen_eqb genn genv then width_v_l_l' p genl1
  else
    let md := lepton_mass genl2 in let ml := lepton_mass genl1 in
    if gen_eqb genn genl1 && gen_eqb genv genl2 then width_l_u_d p 0 md ml 1
    else if gen_eqb genn genl2 && gen_eqb genv genl1 then width_l_u_d p 0 ml md 1
    else 0.

(** _widths.py 742-746 *)
Definition msqrd_v_v_v (s t : R) (p : params) (g : gen) : R :=
  let mx := p_mx p in let u := mixing p in
  let pre := if gen_eqb g (p_gen p) then 2 else 1 in
  - pre * 16 * GF ^ 2 * (s ^ 2 + s * t + t ^ 2 - mx ^ 2 * (s + t)) * u.

(** _widths.py 815-836 *)
Definition width_v_v_v (p : params) (genv : gen) : R :=
  let u := mixing p in
  let w := GF ^ 2 * p_mx p ^ 5 / (768 * PI ^ 3) * u ^ 2 in
  let pre := if gen_eqb genv (p_gen p) then 2 else 1 in
  pre * w.

(** * Spectra *)

(** [spectra.dnde_photon / dnde_positron(e, cme, final_states, msqrd=...)]; two-body decays pass no matrix
    element *)
Variable nbody : string -> R -> list string -> option (R -> R -> R) -> val -> res val.

(** [sum(sm_masses[s] for s in states)] *)
Definition state_masses (states : list string) : res R :=
  fold_left (fun acc s => let* tot := acc in let* m := dindex sm_masses s in Ret (tot + m)) states (Ret 0).

(** _spectra.py 25-60 and 63-108 *)
Definition dnde_body (p : params) (e : val) (product : string) (states : list string) (msqrd : option (R -> R -> R)) : res val :=
  let* tot := state_masses states in
  if Rlt_dec (p_mx p) tot then Ret (zeros_like e)
  else if String.eqb product "photon" || String.eqb product "positron"
  then nbody product (p_mx p) states msqrd e
  else Raise ValueError.

(** A [dnde] entry: the model, the energies and the product are given at the call *)
Definition dnde_fn : Type := params -> val -> string -> res val.

(** _spectra.py 111-302 *)
Definition dnde_v_pi0 : dnde_fn := fun p e product => dnde_body p e product [NU (p_gen p); "pi0"%string] None.
Definition dnde_v_eta : dnde_fn := fun p e product => dnde_body p e product [NU (p_gen p); "pi0"%string] None.
Definition dnde_v_rho : dnde_fn := fun p e product => dnde_body p e product [NU (p_gen p); "rho0"%string] None.
Definition dnde_v_omega : dnde_fn := fun p e product => dnde_body p e product [NU (p_gen p); "omega"%string] None.
Definition dnde_v_phi : dnde_fn := fun p e product => dnde_body p e product [NU (p_gen p); "phi"%string] None.
Definition dnde_l_pi : dnde_fn := fun p e product => dnde_body p e product [LEP (p_gen p); "pi"%string] None.
Definition dnde_l_k : dnde_fn := fun p e product => dnde_body p e product [LEP (p_gen p); "k"%string] None.
Definition dnde_l_rho : dnde_fn := fun p e product => dnde_body p e product [LEP (p_gen p); "k"%string] None.
(** _spectra.py 305-355 *)
Definition dnde_v_l_l (genv genl1 genl2 : gen) : dnde_fn := fun p e product =>
  dnde_body p e product [NU genv; LEP genl1; LEP genl2] (Some (fst (make_msqrd_and_masses p genv genl1 genl2))).
(** _spectra.py 358-407; [str(model.gen)] is _proto.py 10-15 *)
Definition dnde_l_pi0_pi : dnde_fn := fun p e product =>
  dnde_body p e product [gen_str (p_gen p); "pi0"%string; "pi"%string] (Some (fun s t => msqrd_l_pi0_pi s t p)).
(** _spectra.py 410-460 *)
Definition dnde_v_pi_pi : dnde_fn := fun p e product =>
  dnde_body p e product [NU (p_gen p); "pi"%string; "pi"%string] (Some (fun s t => msqrd_v_pi_pi s t p)).
(** _spectra.py 463-511 *)
Definition dnde_v_v_v (genv : gen) : dnde_fn := fun p e product =>
  dnde_body p e product [NU (p_gen p); NU genv; NU genv] (Some (fun s t => msqrd_v_v_v s t p genv)).
(** _configure.py 44-58 (photon and positron products) *)
Definition dnde_zero : dnde_fn := fun _ e _ => Ret (zeros_like e).

(** * Configuration *)

(** _configure.py 30-34 *)
Record attrs : Type := MkA { a_dnde : dnde_fn; a_width : params -> R; a_conj : bool; a_masses : list R }.

(** _utils.py 4-19; the set difference is unpacked in increasing order of the integer values *)
Definition other_gens (g : gen) : gen * gen :=
  match g with Fst => (Snd, Trd) | Snd => (Fst, Trd) | Trd => (Fst, Snd) end.
Definition three_lepton_fs_generations (g : gen) (unique : bool) : list (gen * gen * gen) :=
  let (g2, g3) := other_gens g in
  [(g, g, g); (g, g2, g2); (g, g3, g3)]
  ++ if unique then [] else [(g2, g, g2); (g2, g2, g); (g3, g, g3); (g3, g3, g)].

(** _configure.py 166-175: one entry of the loop over lepton generations *)
Definition lepton_entry (tup : gen * gen * gen) : string * attrs :=
  let '(g1, g2, g3) := tup in
  ((NU g1 ++ " " ++ LEP g2 ++ " " ++ LEP g3)%string,
   MkA (dnde_v_l_l g1 g2 g3) (fun p => width_v_l_l p g1 g2 g3) (gen_eqb g2 g3) [0; lepton_mass g2; lepton_mass g3]).
(** _configure.py 178-186 *)
Definition neutrino_entry (g genv : gen) : string * attrs :=
  ((NU g ++ " " ++ NU genv ++ " " ++ NU genv)%string,
   MkA (dnde_v_v_v genv) (fun p => width_v_v_v p genv) true [0; 0; 0]).

Definition set_entry (fns : dict attrs) (kv : string * attrs) : dict attrs := dset fns (fst kv) (snd kv).

(** _configure.py 37-188; [g] is [model.gen] when [configure] runs *)
Definition configure (g : gen) : dict attrs :=
  let ll := LEP g in let vv := NU g in
  let fns : dict attrs := [] in
  let fns := dset fns (vv ++ " a")%string (MkA dnde_zero width_v_a true [0; 0]) in
  let fns := dset fns (vv ++ " pi0")%string (MkA dnde_v_pi0 width_v_pi0 true [0; m_pi0]) in
  let fns := dset fns (vv ++ " eta")%string (MkA dnde_v_eta width_v_eta true [0; m_eta]) in
  let fns := dset fns (vv ++ " rho")%string (MkA dnde_v_rho width_v_rho true [0; m_rho]) in
  let fns := dset fns (vv ++ " omega")%string (MkA dnde_v_omega width_v_omega true [0; m_omega]) in
  let fns := dset fns (vv ++ " phi")%string (MkA dnde_v_phi width_v_phi true [0; m_phi]) in
  let fns := dset fns (ll ++ " k")%string (MkA dnde_l_k width_l_k false [lepton_mass g; m_k]) in
  let fns := dset fns (ll ++ " pi")%string (MkA dnde_l_pi width_l_pi false [lepton_mass g; m_pi]) in
  let fns := dset fns (ll ++ " rho")%string (MkA dnde_l_rho width_l_rho false [lepton_mass g; m_rho]) in
  let fns := dset fns (vv ++ " pi pi")%string (MkA dnde_v_pi_pi width_v_pi_pi true [0; m_pi; m_pi]) in
  let fns := dset fns (ll ++ " pi pi0")%string (MkA dnde_l_pi0_pi width_l_pi0_pi false [lepton_mass g; m_pi; m_pi0]) in
  let fns := fold_left (fun fns tup => set_entry fns (lepton_entry tup)) (three_lepton_fs_generations g false) fns in
  fold_left (fun fns genv => set_entry fns (neutrino_entry g genv)) [Fst; Snd; Trd] fns.

(** * The class *)

(** _model.py 49-70: the attributes of an instance *)
Record rhn : Type := MkN {
  n_mx : R; n_theta : R; n_flavor : string; n_gen : gen; n_vstr : string; n_ml : R; n_lstr : string;
  n_config : dict attrs }.
Definition params_of (o : rhn) : params := MkP (n_mx o) (n_theta o) (n_gen o).

(** _model.py 35-70 *)
Definition rhn_init (mx theta : R) (flavor : string) : res rhn :=
  let* gv :=
    if String.eqb flavor "e" then Ret (Fst, "ve"%string)
    else if String.eqb flavor "mu" then Ret (Snd, "vm"%string)
    else if String.eqb flavor "tau" then Ret (Trd, "vt"%string)
    else Raise ValueError in
  let* ml := dindex sm_masses flavor in
  Ret (MkN mx theta flavor (fst gv) (snd gv) ml flavor (configure (fst gv))).

(** _model.py 79-92 *)
Definition set_mx (o : rhn) (v : R) : rhn :=
  MkN v (n_theta o) (n_flavor o) (n_gen o) (n_vstr o) (n_ml o) (n_lstr o) (n_config o).
Definition set_theta (o : rhn) (v : R) : rhn :=
  MkN (n_mx o) v (n_flavor o) (n_gen o) (n_vstr o) (n_ml o) (n_lstr o) (n_config o).

(** _model.py 102-119; an invalid name raises before any attribute changes *)
Definition set_flavor (o : rhn) (v : string) : res rhn :=
  let* gv :=
    if String.eqb v "e" then Ret (Fst, "ve"%string)
    else if String.eqb v "mu" then Ret (Snd, "vmu"%string)
    else if String.eqb v "tau" then Ret (Snd, "vmu"%string)
    else Raise ValueError in
  let* ml := dindex sm_masses v in
  Ret (MkN (n_mx o) (n_theta o) v (fst gv) (snd gv) ml v (configure (fst gv))).

(** _model.py 133-135 *)
Definition list_decay_final_states (o : rhn) : list string := dkeys (n_config o).

(** _model.py 144, 152-153 *)
Definition conj_pre (self_conjugate : bool) : R := if self_conjugate then 1 else 2.

(** _model.py 137-145 *)
Definition rhn_width (o : rhn) (final_state : string) : res R :=
  let* a := dindex (n_config o) final_state in
  Ret (conj_pre (a_conj a) * a_width a (params_of o)).

(** _model.py 147-158 *)
Definition rhn_widths (o : rhn) : dict R :=
  dmap (fun a => conj_pre (a_conj a) * a_width a (params_of o)) (n_config o).

(** The argument of [decay_width]: Python iterates over a sequence, and over the characters of a string *)
Inductive names_arg : Type := AStr (s : string) | ASeq (l : list string).
Fixpoint chars (s : string) : list string :=
  match s with EmptyString => [] | String c r => String c EmptyString :: chars r end.
Definition iterate (a : names_arg) : list string := match a with AStr s => chars s | ASeq l => l end.

(** _model.py 160-179 *)
Definition rhn_decay_width (o : rhn) (final_states : names_arg) : res (dict R) :=
  fold_left (fun acc fs => let* d := acc in let* w := rhn_width o fs in Ret (dset d fs w)) (iterate final_states) (Ret []).

(** _model.py 193-215 *)
Definition rhn_spectrum_funcs (o : rhn) (product : string) : dict (val -> res val) :=
  let conjfactor := if String.eqb product "positron" then 1 else 2 in
  dmap (fun a e => let* v := a_dnde a (params_of o) e product in
                   Ret (vscale (if a_conj a then 1 else conjfactor) v)) (n_config o).

(** _model.py 224-229 *)
Definition gamma_ray_line_energies (o : rhn) : dict R := [("nu g"%string, n_mx o / 2)].

(** _model.py 238-246 *)
Definition positron_line_energies (o : rhn) : dict R :=
  if String.eqb (n_flavor o) "e"
  then [("pi l"%string, (n_mx o ^ 2 + n_ml o ^ 2 - m_pi ^ 2) / (2 * n_mx o));
        ("k l"%string, (n_mx o ^ 2 + n_ml o ^ 2 - m_k ^ 2) / (2 * n_mx o))]
  else [].

(** _model.py 255-267 *)
Definition neutrino_line_energies (o : rhn) : dict R :=
  let vv := n_vstr o in let mx := n_mx o in
  let lines : dict R := [] in
  let lines := if Rlt_dec m_pi0 mx then dset lines (vv ++ " pi0")%string ((mx ^ 2 - m_pi0 ^ 2) / (2 * mx)) else lines in
  let lines := if Rlt_dec m_eta mx then dset lines (vv ++ " pi0")%string ((mx ^ 2 - m_eta ^ 2) / (2 * mx)) else lines in
  dset lines (vv ++ " a")%string (1 / 2 * mx).

(** What RHNeutrino supplies to TheoryDec (_model.py 15, 147, 181-191, 217-246).  Its own [decay_widths]
    (181-191) is the inherited code again. *)
Definition theory_of (o : rhn) : theory_dec :=
  {| d_widths := rhn_widths o; d_cont_funcs := rhn_spectrum_funcs o "photon"; d_line_energies := gamma_ray_line_energies o;
     d_pos_funcs := rhn_spectrum_funcs o "positron"; d_pos_line_energies := positron_line_energies o |}.
End Widths.
