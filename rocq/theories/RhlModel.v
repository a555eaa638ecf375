(** Model of the earlier functions of the right-handed neutrino that are kept beside the present ones:
    hazma/rh_neutrino/_rh_neutrino_widths.py, _rh_neutrino_fsr.py and _rh_neutrino_positron_spectrum.py, over exact real
    arithmetic.  The class that used them is commented out in hazma/rh_neutrino/__init__.py.

    Simplifications.  [Vud] and [Vus] (complex numbers without imaginary part in hazma/parameters.py) are real
    parameters; the value returned by scipy's [quad] is a parameter; square roots and logarithms outside their domain
    (nan in numpy) have Coq's default values; [self.decay_widths()["total"]] is an argument.  Constants are those of
    RhnModel (hazma/parameters.py). *)
From Coq Require Import Reals ZArith Bool List.
From Verif Require Import PyBase KinModel NbodyModel RhnModel.
Import ListNotations.
Local Open Scope R_scope.

(** What the functions read from the object: __init__.py 97-129 (commented out) *)
Record rhl : Type := MkL { l_mx : R; l_theta : R; l_ml : R; l_gen : Z }.

(** parameters.py 205-211, 232 *)
Definition cw : R := sqrt (1 - sw ^ 2).
Definition qe : R := sqrt (4 * PI * alpha_em).

(** ** Two-body widths *)

(** _rh_neutrino_widths.py 31-49 *)
Definition width_m0_nu (o : rhl) (m0 : R) : R :=
  let mx := l_mx o in
  let b := mx / m0 in
  if Rge_dec b 1 then 0
  else mx ^ 3 * (f_pi * GF * sin (2 * l_theta o) * (1 - b ^ 2)) ^ 2 / (32 * PI * cw ^ 4).
(** 52-75 *)
Definition width_pi0_nu (o : rhl) : R := width_m0_nu o m_pi0.
Definition width_eta_nu (o : rhl) : R := width_m0_nu o m_eta / 3.

(** 78-102 *)
Definition width_m_l (o : rhl) (mm ckm : R) : R :=
  let mx := l_mx o in let ml := l_ml o in
  if Rle_dec mx (mm + ml) then 0
  else f_pi ^ 2 * GF ^ 2
       * sqrt ((ml - mx - mm) * (ml + mx - mm) * (ml - mx + mm) * (ml + mx + mm))
       * ((ml ^ 2 - mx ^ 2) ^ 2 - (ml ^ 2 + mx ^ 2) * mm ^ 2)
       * sin (l_theta o) * ckm ^ 2 / (8 * mx ^ 3 * PI).

(** 133-148 *)
Definition width_nu_gamma (o : rhl) : R :=
  let mx := l_mx o in let smix := sin (l_theta o) in
  - (GF ^ 2 * mx ^ 5 * qe ^ 2 * smix ^ 2 * (6 - 5 * smix ^ 2) ^ 2) / (4096 * PI ^ 9 * (-1 + smix ^ 2)).

(** ** Three-body widths *)

(** numpy's arctanh on (-1, 1) *)
Definition np_arctanh (x : R) : R := / 2 * ln ((1 + x) / (1 - x)).

(** 156-169 *)
Definition width_nu_pi0_pi0 (_ : rhl) : R := 0.

(** 172-199 *)
Definition width_nu_pi_pi (o : rhl) : R :=
  let mx := l_mx o in let smix := sin (l_theta o) in
  if Rlt_dec mx (2 * m_pi) then 0
  else GF ^ 2 * (-1 + smix ^ 2) * (smix - 2 * smix * sw ^ 2) ^ 2
       * (mx ^ 2 * sqrt (1 - 4 * m_pi ^ 2 / mx ^ 2)
            * (mx ^ 6 + 24 * mx ^ 4 * m_pi ^ 2 - 10 * mx ^ 2 * m_pi ^ 4 + 12 * m_pi ^ 6)
          - 24 * m_pi ^ 2 * (mx ^ 6 + 2 * mx ^ 2 * m_pi ^ 4 - 2 * m_pi ^ 6)
            * np_arctanh (sqrt (1 - 4 * m_pi ^ 2 / mx ^ 2)))
       / (768 * mx ^ 3 * PI ^ 3 * (-1 + sw ^ 2)).

Section Charged.
Variables vud vus : R.
Variable quad : (R -> R) -> R -> R -> R.

(** 105-130 *)
Definition width_pi_l (o : rhl) : R := width_m_l o m_pi vud.
Definition width_k_l (o : rhl) : R := width_m_l o m_k vus.

(** 222-251 *)
Definition l_pi_pi0_integrand (o : rhl) (s : R) : R :=
  let mx := l_mx o in let ml := l_ml o in let smix := sin (l_theta o) in
  -2 * GF ^ 2
  * sqrt ((ml ^ 4 + (mx ^ 2 - s) ^ 2 - 2 * ml ^ 2 * (mx ^ 2 + s))
          * (m_pi ^ 4 + (m_pi0 ^ 2 - s) ^ 2 - 2 * m_pi ^ 2 * (m_pi0 ^ 2 + s)))
  * (ml ^ 4 * (-4 * (m_pi ^ 2 - m_pi0 ^ 2) ^ 2 + 2 * (m_pi ^ 2 + m_pi0 ^ 2) * s - s ^ 2)
     + ml ^ 2 * (s * (2 * (m_pi ^ 2 - m_pi0 ^ 2) ^ 2 + 2 * (m_pi ^ 2 + m_pi0 ^ 2) * s - s ^ 2)
                 + 2 * mx ^ 2 * (4 * (m_pi ^ 2 - m_pi0 ^ 2) ^ 2 - 2 * (m_pi ^ 2 + m_pi0 ^ 2) * s + s ^ 2))
     - (mx ^ 2 - s) * (mx ^ 2 * (4 * (m_pi ^ 2 - m_pi0 ^ 2) ^ 2 - 2 * (m_pi ^ 2 + m_pi0 ^ 2) * s + s ^ 2)
                       + 2 * s * (m_pi ^ 4 + (m_pi0 ^ 2 - s) ^ 2)))
  * smix ^ 2 * vud ^ 2 / (3 * s ^ 3).
(** 202-256 *)
Definition width_l_pi_pi0 (o : rhl) : R :=
  let mx := l_mx o in let ml := l_ml o in
  if Rlt_dec mx (ml + m_pi + m_pi0) then 0
  else 1 / (256 * mx ^ 3 * PI ^ 3) * quad (l_pi_pi0_integrand o) ((m_pi + m_pi0) ^ 2) ((ml - mx) ^ 2).
End Charged.

(** 259-287 *)
Definition width_nu_nu_nu (o : rhl) (j n m : Z) : R :=
  let mx := l_mx o in let tmix := l_theta o in let i := l_gen o in
  let w := GF ^ 2 * mx ^ 5 * sin (2 * tmix) ^ 2 / (768 * cw ^ 4 * PI ^ 3) in
  if (i =? j)%Z && (j =? n)%Z && (n =? m)%Z then w * cos tmix ^ 4
  else if ((j =? i)%Z && (n =? m)%Z) || ((j =? n)%Z && (i =? m)%Z) || ((j =? m)%Z && (i =? n)%Z) then w / 2
  else 0.

(** 290-320 *)
Definition width_nu_l_l_same (mx tmix ml : R) : R :=
  let r := ml / mx in
  if Rlt_dec mx (2 * ml) then 0
  else GF ^ 2 * mx ^ 5
       * (- (sqrt (1 - 4 * r ^ 2)
             * (-1 - 4 * sw ^ 4 + 12 * r ^ 6 * (1 + 8 * sw ^ 2 + 4 * sw ^ 4)
                + r ^ 4 * (2 - 80 * sw ^ 2 + 8 * sw ^ 4) + 2 * r ^ 2 * (7 - 8 * sw ^ 2 + 28 * sw ^ 4)))
          + 24 * (-8 * r ^ 6 * sw ^ 2 - r ^ 4 * (1 - 2 * sw ^ 2) ^ 2 + r ^ 8 * (1 + 8 * sw ^ 2 + 4 * sw ^ 4))
            * ln (4 * r ^ 2 / (1 + sqrt (1 - 4 * r ^ 2)) ^ 2))
       * sin (2 * tmix) ^ 2 / (1536 * PI ^ 3 * (-1 + sw ^ 2) ^ 2).

(** 323-353 *)
Definition width_nu_lp_lp (mx tmix ml : R) : R :=
  if Rlt_dec mx (2 * ml) then 0
  else
    let r := ml / mx in
    GF ^ 2 * mx ^ 5
    * (sqrt (1 - 4 * r ^ 2)
         * (1 - 4 * sw ^ 2 + 8 * sw ^ 4 - 12 * r ^ 6 * (1 - 12 * sw ^ 2 + 24 * sw ^ 4)
            - 2 * r ^ 2 * (7 - 20 * sw ^ 2 + 40 * sw ^ 4) + 2 * r ^ 4 * (-1 - 36 * sw ^ 2 + 72 * sw ^ 4))
       + 24 * r ^ 4 * (-1 + 8 * r ^ 2 * sw ^ 2 * (1 - 2 * sw ^ 2) + r ^ 4 * (1 - 12 * sw ^ 2 + 24 * sw ^ 4))
         * ln (4 * r ^ 2 / (1 + sqrt (1 - 4 * r ^ 2)) ^ 2))
    * sin (2 * tmix) ^ 2 / (1536 * PI ^ 3 * (-1 + sw ^ 2) ^ 2).

(** 356-412 *)
Definition width_nup_l_lp (mx tmix mli mlk : R) : R :=
  let ri := mli / mx in let rk := mlk / mx in
  if Rlt_dec mx (mli + mlk) then 0
  else
    let root := sqrt (ri ^ 4 + (-1 + rk ^ 2) ^ 2 - 2 * ri ^ 2 * (1 + rk ^ 2)) in
    GF ^ 2 * mx ^ 5
    * (root * (1 + ri ^ 6 - 7 * rk ^ 2 - 7 * rk ^ 4 + rk ^ 6 - 7 * ri ^ 4 * (1 + rk ^ 2)
               + ri ^ 2 * (-7 + 12 * rk ^ 2 - 7 * rk ^ 4))
       + 12 * ri ^ 4 * (-1 + rk ^ 4) * ln (4 * ri ^ 2 * rk ^ 2 / (-1 + ri ^ 2 + rk ^ 2 - root) ^ 2)
       + 6 * (ri ^ 4 - rk ^ 4)
         * ln ((ri ^ 4 + rk ^ 2 * (-1 + rk ^ 2) - ri ^ 2 * (1 + 2 * rk ^ 2) + (ri ^ 2 - rk ^ 2) * root) ^ 2
               / (-1 + ri ^ 2 + rk ^ 2 - root) ^ 2))
    * sin tmix ^ 2 / (192 * PI ^ 3).

(** parameters.py 105 and _rh_neutrino_widths.py 436-437: [lepton_masses[n - 1]], negative positions counting from
    the end of the two entries *)
Definition old_lepton_mass (n : Z) : res R :=
  if (n - 1 =? 0)%Z || (n - 1 =? -2)%Z then Ret m_e
  else if (n - 1 =? 1)%Z || (n - 1 =? -1)%Z then Ret m_mu
  else Raise IndexError.

(** 415-448 *)
Definition width_nu_l_l (o : rhl) (j n m : Z) : res R :=
  let i := l_gen o in let mx := l_mx o in let theta := l_theta o in
  let* mln := old_lepton_mass n in
  let* mlm := old_lepton_mass m in
  if (j =? i)%Z && (n =? i)%Z && (m =? i)%Z then Ret (width_nu_l_l_same mx theta mln)
  else if (j =? i)%Z && (n =? m)%Z then Ret (width_nu_lp_lp mx theta mln)
  else if (j =? n)%Z && (i =? m)%Z then Ret (width_nup_l_lp mx theta mlm mln)
  else if (j =? m)%Z && (i =? n)%Z then Ret (width_nup_l_lp mx theta mln mlm)
  else Ret 0.

(** 451-468 *)
Definition width_nu_g_g (o : rhl) : R :=
  let mx := l_mx o in
  if Rgt_dec mx m_pi0 then 0
  else
    let smix := l_theta o in
    0.5 * (GF ^ 2 * mx ^ 11 * qe ^ 4 * smix ^ 2 * (-1 + smix ^ 2)) / (245760 * m_pi0 ^ 6 * PI ^ 7 * (-1 + sw ^ 2))
    + GF ^ 2 * mx ^ 9 * qe ^ 4 * smix ^ 2 * (-1 + smix ^ 2) / (245760 * m_pi0 ^ 4 * PI ^ 7 * (-1 + sw ^ 2)).

(** ** Radiation: _rh_neutrino_fsr.py *)

(** 16-97; the pion mass is an argument *)
Definition dnde_pi_l_fsr_ (mpi : R) (o : rhl) (photon_eng : R) : R :=
  let mvr := l_mx o in let ml := l_ml o in
  let s := mvr ^ 2 - 2 * mvr * photon_eng in
  if Rlt_dec mvr (mpi + ml) then 0 else
  if Rge_dec ((mpi + ml) ^ 2) s then 0 else
  if Rle_dec (mvr ^ 2) s then 0 else
  let k := sqrt (ml ^ 4 + (mpi ^ 2 - s) ^ 2 - 2 * ml ^ 2 * (mpi ^ 2 + s)) in
  qe ^ 2
  * ((-2 * ml ^ 6 + 2 * ml ^ 4 * (2 * mvr ^ 2 + s)
      + ml ^ 2 * (2 * mpi ^ 4 - mvr ^ 4 + mpi ^ 2 * (6 * mvr ^ 2 - 2 * s) - 6 * mvr ^ 2 * s + s ^ 2)
      + mvr ^ 2 * (2 * mpi ^ 4 + mvr ^ 4 + s ^ 2 - 2 * mpi ^ 2 * (mvr ^ 2 + s)))
     * ln ((ml ^ 2 - mpi ^ 2 + s + k) / (ml ^ 2 - mpi ^ 2 + s - k))
     + 2 * (ml ^ 4 - mpi ^ 2 * mvr ^ 2 + mvr ^ 4 - ml ^ 2 * (mpi ^ 2 + 2 * mvr ^ 2))
       * (-2 * k + (ml ^ 2 + mpi ^ 2 - s)
                   * ln ((- ml ^ 2 + mpi ^ 2 + s - k) / (- ml ^ 2 + mpi ^ 2 + s + k))))
  / (8 * sqrt (- ml ^ 2 + (ml ^ 2 - mpi ^ 2 + mvr ^ 2) ^ 2 / (4 * mvr ^ 2))
     * (ml ^ 4 - mpi ^ 2 * mvr ^ 2 + mvr ^ 4 - ml ^ 2 * (mpi ^ 2 + 2 * mvr ^ 2))
     * PI ^ 2 * (mvr ^ 2 - s)).
Definition dnde_pi_l_fsr (o : rhl) (e : R) : R := dnde_pi_l_fsr_ m_pi o e.

(** 123-199; the kaon mass is an argument *)
Definition dnde_k_l_fsr_ (mk : R) (o : rhl) (photon_eng : R) : R :=
  let mvr := l_mx o in let ml := l_ml o in
  let s := mvr ^ 2 - 2 * mvr * photon_eng in
  if Rlt_dec mvr (mk + ml) then 0 else
  if Rge_dec ((mk + ml) ^ 2) s then 0 else
  if Rle_dec (mvr ^ 2) s then 0 else
  let k := sqrt (mk ^ 4 + (ml ^ 2 - s) ^ 2 - 2 * mk ^ 2 * (ml ^ 2 + s)) in
  - (qe ^ 2
     * (4 * (- (ml ^ 2 - mvr ^ 2) ^ 2 + mk ^ 2 * (ml ^ 2 + mvr ^ 2)) * k
        - 2 * (- (ml ^ 2 - mvr ^ 2) ^ 2 + mk ^ 2 * (ml ^ 2 + mvr ^ 2)) * (mk ^ 2 + ml ^ 2 - s)
          * ln ((mk ^ 2 - ml ^ 2 + s - k) / (mk ^ 2 - ml ^ 2 + s + k))
        + (-2 * ml ^ 6 + 2 * mk ^ 4 * (ml ^ 2 + mvr ^ 2) + 2 * ml ^ 4 * (2 * mvr ^ 2 + s)
           + mvr ^ 2 * (mvr ^ 4 + s ^ 2) + ml ^ 2 * (- mvr ^ 4 - 6 * mvr ^ 2 * s + s ^ 2)
           - 2 * mk ^ 2 * (ml ^ 2 * (-3 * mvr ^ 2 + s) + mvr ^ 2 * (mvr ^ 2 + s)))
          * ln ((- mk ^ 2 + ml ^ 2 + s + k) / (- mk ^ 2 + ml ^ 2 + s - k))))
  / (8 * (- (ml ^ 2 - mvr ^ 2) ^ 2 + mk ^ 2 * (ml ^ 2 + mvr ^ 2))
     * sqrt (- ml ^ 2 + (- mk ^ 2 + ml ^ 2 + mvr ^ 2) ^ 2 / (4 * mvr ^ 2))
     * PI ^ 2 * (mvr ^ 2 - s)).
Definition dnde_k_l_fsr (o : rhl) (e : R) : R := dnde_k_l_fsr_ m_k o e.

(** 100-120, 202-222: an array of energies is handled one by one *)
Definition fsr_array (f : rhl -> R -> R) (o : rhl) (l : list R) : list R := map (f o) l.

(** 225-259 for one energy; [total] is self.decay_widths()["total"] *)
Definition dnde_nu_l_l_fsr (total : R) (o : rhl) (e : R) (j n m : Z) : res R :=
  let* w := width_nu_l_l o j n m in
  let br := w / total in
  let ml1 := if (n =? 1)%Z then m_e else m_mu in
  let ml2 := if (m =? 1)%Z then m_e else m_mu in
  Ret (if Rgt_dec br 0 then
         if (n =? m)%Z then br * dnde_altarelli_parisi_fermion alpha_em e (l_mx o) ml1
         else br * 0.5 * (dnde_altarelli_parisi_fermion alpha_em e (l_mx o) ml1
                          + dnde_altarelli_parisi_fermion alpha_em e (l_mx o) ml2)
       else 0).

Section Charged_fsr.
Variable vud : R.
Variable quad : (R -> R) -> R -> R -> R.
(** 262-292 *)
Definition dnde_l_pi_pi0_fsr (total : R) (o : rhl) (e : R) : R :=
  let br := width_l_pi_pi0 vud quad o / total in
  if Rgt_dec br 0 then
    br * 0.5 * (dnde_altarelli_parisi_fermion alpha_em e (l_mx o) (l_ml o)
                + dnde_altarelli_parisi_scalar alpha_em e (l_mx o) m_pi)
  else 0.
End Charged_fsr.
(** 295-317 *)
Definition dnde_nu_pi_pi_fsr (total : R) (o : rhl) (e : R) : R :=
  let br := width_nu_pi_pi o / total in
  if Rgt_dec br 0 then br * dnde_altarelli_parisi_scalar alpha_em e (l_mx o) m_pi else 0.

(** ** _rh_neutrino_positron_spectrum.py 10-26: [pspec] is hazma.spectra.dnde_positron_charged_pion *)
Definition dnde_pos_pi_l (pspec : R -> R -> R) (o : rhl) (positron_energy : R) : R :=
  let epi := (l_mx o ^ 2 + m_pi ^ 2 - l_ml o ^ 2) / (2 * l_mx o) in
  pspec positron_energy epi.
