(** Model of the annihilation cross sections of the GeV vector mediator
    (hazma/vector_mediator/_gev/cross_sections.py) and of the final states and the average of
    hazma/vector_mediator/_gev/thermal_cross_section.py.

    Real numbers instead of floats; [None] is NaN or an infinity (VffModel).  The integrated form factors
    are a parameter [iff] (the Monte Carlo ones are deterministic here).  The mediator width enters as the
    number [w] the method [width_v] returned. *)
From Coq Require Import String ZArith NArith Reals Bool List.
From Verif Require Import PyBase GevModel VffModel.
Import ListNotations.
Local Open Scope R_scope.

(** The masses in parameters.py the thresholds are made of *)
Record cmass : Type := MkCmass {
  m_e : R; m_mu : R; m_pi : R; m_pi0 : R; m_k : R; m_k0 : R; m_eta : R; m_etap : R; m_phi : R; m_omega : R }.

(** np.arctanh: infinite or NaN outside (-1, 1) *)
Definition oatanh (x : R) : onum :=
  if Rlt_dec (-1) x then if Rlt_dec x 1 then Some (ln ((1 + x) / (1 - x)) / 2) else None else None.

Section CrossSections.
Variable M : cmass.
(** [iff c q couplings npts]: the method [integrated_form_factor] of the form-factor object of [c]; that of
    pi0 omega for pi0 pi0 gamma *)
Variable iff : chan -> R -> R * R * R -> N -> R.

(** The sum of [fsp_masses]: _pi_pi.py 141-146, _k_k.py 360-363, _pi_gamma.py 65, _eta_gamma.py 61,
    _pi_phi.py 70, _eta_phi.py 57, _eta_omega.py 60, _pi_omega.py 65 (for pi0 pi0 gamma), _pi_pi_pi0.py 97,
    _pi_pi_eta.py 65, _pi_pi_etap.py 72-77, _pi_pi_omega.py 64-68, _pi_k_k.py 592, 632, 672,
    _pi_pi_pi_pi.py 160-166 *)
Definition ff_threshold (c : chan) : R :=
  match c with
  | PiPi => m_pi M + m_pi M
  | Pi0Pi0 => m_pi0 M + m_pi0 M
  | K0K0 => m_k0 M + m_k0 M
  | KK => m_k M + m_k M
  | Pi0A => m_pi0 M + 0
  | EtaA => m_eta M + 0
  | Pi0Phi => m_pi0 M + m_phi M
  | EtaPhi => m_eta M + m_phi M
  | EtaOmega => m_eta M + m_omega M
  | Pi0Pi0A => m_pi0 M + m_omega M
  | PiPiPi0 => m_pi0 M + m_pi M + m_pi M
  | PiPiEta => m_eta M + m_pi M + m_pi M
  | PiPiEtap => m_etap M + m_pi M + m_pi M
  | PiPiOmega => m_omega M + m_pi M + m_pi M
  | Pi0Pi0Omega => m_omega M + m_pi0 M + m_pi0 M
  | Pi0K0K0 => m_k0 M + m_k0 M + m_pi0 M
  | Pi0KK => m_k M + m_k M + m_pi0 M
  | PiKK0 => m_k0 M + m_k M + m_pi M
  | PiPiPiPi => m_pi M + m_pi M + m_pi M + m_pi M
  | PiPiPi0Pi0 => m_pi M + m_pi M + m_pi0 M + m_pi0 M
  | EE | MuMu | VeVe | VmVm | VtVt | XX => 0
  end.

(** The methods [width] of the form factors: _base.py 150-161, and _pi_pi_pi_pi.py 786-788 for four pions,
    where the integrated form factor itself is zero below threshold (665-666) *)
Definition four_pions (c : chan) : bool := match c with PiPiPiPi | PiPiPi0Pi0 => true | _ => false end.
Definition four_iff (c : chan) (q : R) (cp : R * R * R) (n : N) : R :=
  if Rlt_dec q (ff_threshold c) then 0 else iff c q cp n.
Definition ff_width (c : chan) (mv : R) (cp : R * R * R) (n : N) : R :=
  if four_pions c then 0.5 * mv * four_iff c mv cp n
  else if Rlt_dec (ff_threshold c) mv then 0.5 * mv * iff c mv cp n else 0.

Variable P : gpar.
Variable cp : R * R * R.
Variable w : R.

(** cross_sections.py 111-146 for one energy *)
Definition sigma_xx_to_f_f (gff mf q : R) : onum :=
  let mx := g_mx P in
  let mv := g_mv P in
  if Rlt_dec (2 * mx) q then
    if Rlt_dec (2 * mf) q then
      let s := q ^ 2 in
      let? af := odiv (4 * mf ^ 2) s in
      let? rf := osqrt (1 - af) in
      let? ax := odiv (4 * mx ^ 2) s in
      let? rx := osqrt (1 - ax) in
      odiv (gff ^ 2 * g_xx P ^ 2 * rf * (2 * mf ^ 2 + s) * (2 * mx ^ 2 + s))
           (12 * PI * rx * s * (mv ^ 4 + s ^ 2 + mv ^ 2 * (- 2 * s + w ^ 2)))
    else Some 0
  else Some 0.

(** 56-74 *)
Definition width_to_cs (cme : R) : onum :=
  let? ux := odiv (g_mx P) cme in
  let? ug := odiv w cme in
  let? uv := odiv (g_mv P) cme in
  let mux2 := ux ^ 2 in
  let mug2 := ug ^ 2 in
  let muv2 := uv ^ 2 in
  let num := g_xx P ^ 2 * (1 + 2 * mux2) in
  let? r := osqrt (1 - 4 * mux2) in
  odiv num ((1 + (mug2 - 2) * muv2 + muv2 ^ 2) * r * cme ^ 3).

(** 77-108, the branch for a number; [fsp] is the sum of the masses *)
Definition sigma_from_width_fn (width : R -> R) (fsp e : R) : onum :=
  if Rlt_dec fsp e then
    if Rlt_dec (2 * g_mx P) e then let? f := width_to_cs e in Some (width e * f) else Some 0
  else Some 0.
(** The branch for an array.  np.vectorize called with no element and without otypes raises ValueError. *)
Definition sigma_from_width_array (width : R -> R) (fsp : R) (es : list R) : res (list onum) :=
  let open := fun e => if Rlt_dec fsp e then if Rlt_dec (2 * g_mx P) e then true else false else false in
  match filter open es with
  | [] => Raise ValueError
  | kept =>
      scatter (Some 0) open es (map (fun e => let? f := width_to_cs e in Some (width e * f)) kept)
  end.

(** 149-196 for one energy given as a float *)
Definition sigma_xx_to_v_v (q : R) : onum :=
  if Rlt_dec (2 * g_mv P) q then
    if Rlt_dec (2 * g_mx P) q then
      let? muv := odiv (g_mv P) q in
      let? mux := odiv (g_mx P) q in
      let mux2 := mux ^ 2 in
      let muv2 := muv ^ 2 in
      let mux4 := mux2 ^ 2 in
      let muv4 := muv2 ^ 2 in
      let? sqrtx := osqrt (1 - 4 * mux2) in
      let? sqrtv := osqrt (1 - 4 * muv2) in
      let sqrtxv := sqrtx * sqrtv in
      let? pre := odiv (g_xx P ^ 4 * sqrtv) (4 * PI * sqrtx * q ^ 2) in
      let? a := odiv (2 * muv4 + mux2 + 4 * mux4) (muv4 + mux2 - 4 * muv2 * mux2) in
      let? r := odiv sqrtxv (1 - 2 * muv2) in
      let? at_ := oatanh r in
      let? b := odiv (2 * (1 + 4 * muv4 + 4 * mux2 - 8 * muv2 * mux2 - 8 * mux4) * at_) ((-1 + 2 * muv2) * sqrtxv) in
      Some (pre * (- a - b))
    else Some 0
  else Some 0.
(** The same for a Python int: [np.array([cme])] is an integer array (164), [np.zeros_like(q)] too (169), so
    the value is cut to an integer when it is stored (183) *)
Definition truncate (x : R) : Z := if Rle_dec 0 x then Int_part x else (- Int_part (- x))%Z.
Definition sigma_xx_to_v_v_int (n : Z) : onum :=
  let? v := sigma_xx_to_v_v (IZR n) in Some (IZR (truncate v)).

(** 199-514: one energy; the states of the dictionary except v v.  [n] is the number of points. *)
Definition sigma_of (c : chan) (n : N) (q : R) : onum :=
  match c with
  | EE => sigma_xx_to_f_f (g_ee P) (m_e M) q
  | MuMu => sigma_xx_to_f_f (g_mm P) (m_mu M) q
  | VeVe => let? x := sigma_xx_to_f_f (g_ve P) 0 q in Some (x / 2)
  | VmVm => let? x := sigma_xx_to_f_f (g_vm P) 0 q in Some (x / 2)
  | VtVt => let? x := sigma_xx_to_f_f (g_vt P) 0 q in Some (x / 2)
  | Pi0Pi0A =>
      sigma_from_width_fn (fun cme => 834 / 10000 * ff_width Pi0Pi0A cme cp n) (m_pi0 M + m_pi0 M + 0) q
  | PiPiPiPi | PiPiPi0Pi0 =>
      four_body_cross_section (fun q => four_iff c q cp n) q (g_mx P) (g_mv P) (g_xx P) w
  | _ => base_cross_section (ff_threshold c) (fun q => iff c q cp n) q (g_mx P) (g_mv P) (g_xx P) w
  end.

(** 517-546: the dictionary.  [None] as channel is v v *)
Definition cs_states : list (string * option chan) :=
  [("e e", Some EE); ("mu mu", Some MuMu); ("ve ve", Some VeVe); ("vt vt", Some VtVt); ("vm vm", Some VmVm);
   ("pi pi", Some PiPi); ("k0 k0", Some K0K0); ("k k", Some KK); ("pi0 gamma", Some Pi0A);
   ("eta gamma", Some EtaA); ("pi0 phi", Some Pi0Phi); ("eta phi", Some EtaPhi); ("eta omega", Some EtaOmega);
   ("pi0 pi0 gamma", Some Pi0Pi0A); ("pi pi pi0", Some PiPiPi0); ("pi pi eta", Some PiPiEta);
   ("pi pi etap", Some PiPiEtap); ("pi pi omega", Some PiPiOmega); ("pi0 pi0 omega", Some Pi0Pi0Omega);
   ("pi0 k0 k0", Some Pi0K0K0); ("pi0 k k", Some Pi0KK); ("pi k k0", Some PiKK0);
   ("pi pi pi pi", Some PiPiPiPi); ("pi pi pi0 pi0", Some PiPiPi0Pi0); ("v v", None)]%string.
(** The defaults of npts 372, 442, 456, 470, 484, 500 *)
Definition cs_npts (c : chan) : N :=
  match c with
  | PiPiPi0 => 10000%N
  | Pi0K0K0 | Pi0KK | PiKK0 => 50000%N
  | PiPiPiPi | PiPiPi0Pi0 => 16384%N
  | _ => 0%N
  end.
Definition cs_value (oc : option chan) (q : R) : onum :=
  match oc with Some c => sigma_of c (cs_npts c) q | None => sigma_xx_to_v_v q end.
(** hazma/theory/__init__.py 68-73: values and "total" *)
Definition osum (l : list onum) : onum := fold_left (fun a b => let? x := a in let? y := b in Some (x + y)) l (Some 0).
Definition annihilation_cross_sections (q : R) : dict onum :=
  let d := map (fun kc : string * option chan => (fst kc, cs_value (snd kc) q)) cs_states in
  dset d "total" (osum (map snd d)).

(** thermal_cross_section.py 8-35, 47-53 *)
Definition two_body : list string :=
  ["e e"; "mu mu"; "ve ve"; "vt vt"; "vm vm"; "pi pi"; "k0 k0"; "k k"; "pi0 gamma"; "eta gamma"; "pi0 phi";
   "eta phi"; "eta omega"]%string.
Definition three_body : list string :=
  ["pi0 pi0 gamma"; "pi pi pi0"; "pi pi eta"; "pi pi etap"; "pi pi omega"; "pi0 pi0 omega"; "pi0 k0 k0";
   "pi0 k k"; "pi k k0"]%string.
Definition four_body : list string := ["pi pi pi pi"; "pi pi pi0 pi0"]%string.
Definition make_final_states (with3 with4 : bool) : list string :=
  two_body ++ (if with3 then three_body else []) ++ (if with4 then four_body else []).
(** 123-130 *)
Definition relic_cross_section (with3 with4 : bool) (q : R) : onum :=
  osum (map (fun kc : string * option chan => cs_value (snd kc) q)
            (filter (fun kc : string * option chan => existsb (String.eqb (fst kc)) (make_final_states with3 with4)) cs_states)).
(** 132-143; [quad] is scipy's integrate.quad, [k1] and [k2] are the Bessel functions *)
Definition relic_integrand (k1 : R -> R) (with3 with4 : bool) (x z : R) : onum :=
  let? sig := relic_cross_section with3 with4 (g_mx P * z) in
  Some (sig * (z ^ 2 * (z ^ 2 - 4) * k1 (x * z))).
Definition gev_thermal_cross_section (quad : (R -> onum) -> R -> R -> onum) (k1 k2 : R -> R) (with3 with4 : bool) (x : R) : onum :=
  if Rlt_dec 300 x then Some 0
  else
    let? pf := odiv x ((2 * k2 x) ^ 2) in
    let? i := quad (relic_integrand k1 with3 with4 x) 2 (50 / x) in
    Some (pf * i).
End CrossSections.
