(** Model of the constraints of the scalar mediator (hazma/scalar_mediator/_scalar_mediator_constraints.py), of
    the measurements they use (hazma/constraint_parameters.py) and of the quark mixing matrix
    (hazma/parameters.py 239-301).

    Real numbers instead of floats.  [None] is NaN or an infinity (VffModel).  Every quotient with a divisor
    that can vanish has a numpy number in it, so it gives NaN or an infinity instead of raising; the one
    exception, [mediator_energy / self.ms], is modelled for Python numbers.  The masses are not negative. *)
From Coq Require Import String Reals Bool List.
From Verif Require Import PyBase KinModel MedModel MedStateModel VffModel.
Import ListNotations.
Local Open Scope R_scope.

(** * Complex numbers and the quark mixing matrix *)

Definition cadd (a b : cplx) : cplx := (fst a + fst b, snd a + snd b).
Definition cmul (a b : cplx) : cplx := (fst a * fst b - snd a * snd b, fst a * snd b + snd a * fst b).
Definition cconj (a : cplx) : cplx := (fst a, - snd a).
Definition copp (a : cplx) : cplx := (- fst a, - snd a).
Definition creal (x : R) : cplx := (x, 0).
(** quotient of complex numbers, for a divisor other than zero *)
Definition cdiv (a b : cplx) : cplx := cscale (/ cabs2 b) (cmul a (cconj b)).

(** A matrix product [a @ b] of 3 x 3 matrices *)
Definition cmat : Type := nat -> nat -> cplx.
Definition cmatmul (a b : cmat) : cmat := fun i j =>
  cadd (cadd (cmul (a i 0%nat) (b 0%nat j)) (cmul (a i 1%nat) (b 1%nat j))) (cmul (a i 2%nat) (b 2%nat j)).
Definition rows (l : list (list cplx)) : cmat := fun i j => nth j (nth i l []) (creal 0).

(** parameters.py 246-258: [s13d], for the arguments lam, a and z = rhob + i etab *)
Definition ckm_s13d (lam a : R) (z : cplx) : cplx :=
  let alam := a * lam ^ 2 in
  cdiv (cscale (a * lam ^ 3 * sqrt (1 - alam ^ 2)) z)
    (cscale (sqrt (1 - lam ^ 2)) (cadd (creal 1) (copp (cscale (alam ^ 2) z)))).

(** parameters.py 246-268 *)
Definition ckm_wolfenstein (lam a rhob etab : R) : cmat :=
  let z := (rhob, etab) in
  let alam := a * lam ^ 2 in
  let s12 := lam in
  let s23 := alam in
  let s13d := ckm_s13d lam a z in
  let c12 := sqrt (1 - s12 ^ 2) in
  let c23 := sqrt (1 - s23 ^ 2) in
  let c13 := sqrt (1 - cabs2 s13d) in
  let r := creal in
  let m1 := rows [[r 1; r 0; r 0]; [r 0; r c23; r s23]; [r 0; r (- s23); r c23]] in
  let m2 := rows [[r c13; r 0; cconj s13d]; [r 0; r 1; r 0]; [copp s13d; r 0; r c13]] in
  let m3 := rows [[r c12; r s12; r 0]; [r (- s12); r c12; r 0]; [r 0; r 0; r 1]] in
  cmatmul (cmatmul m1 m2) m3.

(** parameters.py 272-301 *)
Definition CKM : cmat := ckm_wolfenstein (225 / 1000) (826 / 1000) (159 / 1000) (348 / 1000).
Definition Vtd : cplx := CKM 2%nat 0%nat.
Definition Vts : cplx := CKM 2%nat 1%nat.
Definition Vtb : cplx := CKM 2%nat 2%nat.

(** * Numbers *)

(** parameters.py 48-95 and 207-209: the masses (MeV), the Fermi constant (MeV^-2) and the vacuum value *)
Definition m_B : R := 527929 / 100.
Definition m_k : R := 493677 / 1000.
Definition m_kl : R := 497611 / 1000.
Definition m_pi : R := 13957039 / 100000.
Definition m_pi0 : R := 1349768 / 10000.
Definition m_mu : R := 1056583745 / 10000000.
Definition m_dq : R := 467 / 100.
Definition m_sq : R := 95.
Definition m_bq : R := 4180.
Definition m_tq : R := 172900.
Definition m_higgs : R := 125100.
Definition G_F : R := 11663787 / 10 ^ 18.
Definition v_h : R := 24622795 / 100.

(** parameters.py 143-145 *)
Definition B_width : R := 435 / 10 ^ 12.
Definition k_width : R := 532 / 10 ^ 16.
Definition kl_width : R := 129 / 10 ^ 16.

(** parameters.py 16-28 *)
Definition speed_of_light : R := 299792458.
Definition hbar_joule_sec : R := 662607015 / 10 ^ 42 / (2 * PI).
Definition joule_to_mev : R := 1 / (1602176634 / 10 ^ 28) * (1 / 10 ^ 6).
Definition s_to_inv_MeV : R := 1 / (hbar_joule_sec * joule_to_mev).
Definition m_to_inv_MeV : R := s_to_inv_MeV / speed_of_light.
Definition cm_to_inv_MeV : R := m_to_inv_MeV * (1 / 100).

(** constraint_parameters.py 14-16 *)
Definition higgs_width : R := 32 / 10.
Definition br_higgs_invis : R := 19 / 100.

(** constraint_parameters.py 51 *)
Record rare_obs : Type := MkObs { width_bound : R; r_max : R; s_bounds : list (R * R) }.

(** constraint_parameters.py 24, 55-62 *)
Definition B_k_invis_obs : rare_obs :=
  MkObs ((16 / 10 ^ 6 - (45 / 10 - 7 / 10) * (1 / 10 ^ 6)) * B_width) 320 [(0, 3 / 10 * m_B ^ 2)].

(** constraint_parameters.py 73: the invariant mass squared recoiling against a pion of momentum [p] *)
Definition s_of_pion (p : R) : R := Rmax (m_k ^ 2 + m_pi ^ 2 - 2 * m_k * sqrt (m_pi ^ 2 + p ^ 2)) 0.
(** constraint_parameters.py 20, 65-76 *)
Definition k_pi_invis_obs : rare_obs :=
  MkObs ((173 / 10 ^ 12 + 115 / 10 ^ 12 - (85 / 100 - 7 / 100) * (1 / 10 ^ 10)) * k_width) 145
    (map (fun ps => (s_of_pion (fst ps), s_of_pion (snd ps))) [(229, 211); (195, 140)]).

(** constraint_parameters.py 28, 79-86 *)
Definition br_B_k_mu_mu_SM : R := (35 / 10 - 12 / 10) * (1 / 10 ^ 7).
Definition B_k_mu_mu_obs : rare_obs :=
  MkObs (((48 / 10 + 6 / 10) * (1 / 10 ^ 7) - br_B_k_mu_mu_SM) * B_width) (5 / 10)
    [(4 * m_mu ^ 2, 8680000); (10090000, 12860000); (14180000, (m_B - m_k) ^ 2)].

(** constraint_parameters.py 28, 89-96 *)
Definition B_k_e_e_obs : rare_obs :=
  MkObs (((48 / 10 + 6 / 10) * (1 / 10 ^ 7) / (103 / 100) - br_B_k_mu_mu_SM) * B_width) (5 / 10)
    [(8110000, 10030000); (12150000, 14110000)].

(** constraint_parameters.py 36, 99-106 *)
Definition kl_pi0_mu_mu_obs : rare_obs :=
  MkObs ((38 / 10 ^ 11 - (15 / 10 - 3 / 10) * (1 / 10 ^ 11)) * kl_width) (1 / 10) [(0, 350 ^ 2)].

(** constraint_parameters.py 36, 109-116 *)
Definition kl_pi0_e_e_obs : rare_obs :=
  MkObs ((28 / 10 ^ 11 - (32 / 10 - 8 / 10) * (1 / 10 ^ 11)) * kl_width) (1 / 10) [(140 ^ 2, (3627 / 10) ^ 2)].

(** constraint_parameters.py 141-153 *)
Record beam_dump : Type := MkBd {
  br_pN_k : R; br_pN_B : R; mediator_energy : R; dist : R; length_ : R; visible_fss : list string;
  n_pot : R; n_dec : R }.
(** constraint_parameters.py 157-166 *)
Definition bd_charm : beam_dump :=
  MkBd (10 / 40) (36 / 10 ^ 7 / 40) 10000 480 35 ["g g"; "e e"; "mu mu"]%string (29 * 10 ^ 16) (23 / 10).
(** constraint_parameters.py 169-178 *)
Definition bd_ship : beam_dump :=
  MkBd (10 / 40) (36 / 10 ^ 4 / 40) 25000 70 55
    ["g g"; "e e"; "mu mu"; "pi pi"; "pi0 pi0"; "k k"; "k0 k0"]%string (2 * 10 ^ 20) 3.

(** [np.exp(a / b)]; b = 0 makes the argument an infinity, or NaN for a = 0 *)
Definition oexp_quot (a b : R) : onum :=
  if Req_EM_T b 0 then if Rlt_dec a 0 then Some 0 else None else Some (exp (a / b)).

(** _scalar_mediator_constraints.py 71 and the same test in the other functions *)
Definition in_window (obs : rare_obs) (ms : R) : bool :=
  existsb (fun s => if Rle_dec (fst s) (ms ^ 2) then if Rle_dec (ms ^ 2) (snd s) then true else false else false)
    (s_bounds obs).

(** _scalar_mediator_constraints.py 77-79, 102-104, 128-130, 178-180, 229-234, 257-262 *)
Definition s_momentum (mM m ms : R) : onum :=
  let? root := osqrt ((mM - m - ms) * (mM + m - ms) * (mM - m + ms) * (mM + m + ms)) in
  Some (root / (2 * mM)).

Section Constraints.
Variable C : consts.

(** [self.partial_widths()], _scalar_mediator_widths.py 150-183 *)
Definition py_partial_widths (o : sobj) : res (dict R) :=
  let* _ := s_total C (so_par o) in s_partial_widths C (so_par o).

(** _scalar_mediator_constraints.py 41-50: [hSsb]; 275-284 is the same *)
Definition h_sb : cplx :=
  cscale (/ (32 * PI ^ 2 * v_h))
    (cmul (cscale (3 * sqrt 2 * (m_sq + m_bq) * G_F * m_tq ^ 2) (cconj Vts)) Vtb).
(** _scalar_mediator_constraints.py 143-152: [hSsd]; 195-204 is the same *)
Definition h_sd : cplx :=
  cscale (/ (32 * PI ^ 2 * v_h))
    (cmul (cscale (3 * sqrt 2 * (m_sq + m_dq) * G_F * m_tq ^ 2) (cconj Vts)) Vtd).

(** _scalar_mediator_constraints.py 39 *)
Definition f0_B (ms : R) : R := 33 / 100 / (1 - ms ^ 2 / 38000 ^ 2).

(** _scalar_mediator_constraints.py 37-62 *)
Definition width_B_k_s (o : sobj) : R :=
  let ms := s_ms (so_par o) in
  if Rle_dec ms (m_B - m_k) then
    1 / (16 * PI * m_B ^ 3) * ((m_B ^ 2 - m_k ^ 2) / (m_bq - m_sq)) ^ 2 * f0_B ms ^ 2 * cabs2 h_sb
    * s_gsff (so_par o) ^ 2 * sqrt (kallen_lambda (m_B ^ 2) (m_k ^ 2) (ms ^ 2))
  else 0.

(** _scalar_mediator_constraints.py 65-88 *)
Definition constraint_B_k_invis (o : sobj) : res onum :=
  let ms := s_ms (so_par o) in
  if in_window B_k_invis_obs ms then
    let* widths_s := py_partial_widths o in
    let* width_s := dindex widths_s "total" in
    let* width_xx := dindex widths_s "x x" in
    let width_s_sm := width_s - width_xx in
    Ret (let? ps := s_momentum m_B m_k ms in
         let? pr_invis := oexp_quot (- r_max B_k_invis_obs * cm_to_inv_MeV * width_s * ms) ps in
         let? width_contr := odiv (width_B_k_s o * (width_xx + pr_invis * width_s_sm)) width_s in
         Some (width_bound B_k_invis_obs - width_contr))
  else Ret (Some (width_bound B_k_invis_obs - 0)).

(** _scalar_mediator_constraints.py 91-114 *)
Definition constraint_B_k_mu_mu (o : sobj) : res onum :=
  let ms := s_ms (so_par o) in
  if in_window B_k_mu_mu_obs ms then
    let* widths_s := py_partial_widths o in
    let* width_s := dindex widths_s "total" in
    let* width_mumu := dindex widths_s "mu mu" in
    Ret (let? ps := s_momentum m_B m_k ms in
         let? pr := oexp_quot (- r_max B_k_mu_mu_obs * cm_to_inv_MeV * width_s * ms) ps in
         let? ratio := odiv (width_B_k_s o * width_mumu) width_s in
         Some (width_bound B_k_mu_mu_obs - ratio * (1 - pr)))
  else Ret (Some (width_bound B_k_mu_mu_obs - 0)).

(** _scalar_mediator_constraints.py 117-137 *)
Definition constraint_B_k_e_e (o : sobj) : res onum :=
  let ms := s_ms (so_par o) in
  if in_window B_k_e_e_obs ms then
    let* widths_s := py_partial_widths o in
    let* width_s := dindex widths_s "total" in
    let* width_ee := dindex widths_s "e e" in
    Ret (let? ps := s_momentum m_B m_k ms in
         let? pr := oexp_quot (- r_max B_k_e_e_obs * cm_to_inv_MeV * width_s * ms) ps in
         let? ratio := odiv (width_B_k_s o * width_ee) width_s in
         Some (width_bound B_k_e_e_obs - ratio * (1 - pr)))
  else Ret (Some (width_bound B_k_e_e_obs - 0)).

(** _scalar_mediator_constraints.py 140-163 *)
Definition width_k_pi_s (o : sobj) : R :=
  let ms := s_ms (so_par o) in
  if Rlt_dec ms (m_k - m_pi) then
    1 / (16 * PI * m_k ^ 3) * ((m_k ^ 2 - m_pi ^ 2) / (m_sq - m_dq)) ^ 2 * cabs2 h_sd
    * s_gsff (so_par o) ^ 2 * sqrt (kallen_lambda (m_k ^ 2) (m_pi ^ 2) (ms ^ 2))
  else 0.

(** _scalar_mediator_constraints.py 166-189 *)
Definition constraint_k_pi_invis (o : sobj) : res onum :=
  let ms := s_ms (so_par o) in
  if in_window k_pi_invis_obs ms then
    let* widths_s := py_partial_widths o in
    let* width_s := dindex widths_s "total" in
    let* width_xx := dindex widths_s "x x" in
    let width_s_sm := width_s - width_xx in
    Ret (let? ps := s_momentum m_k m_pi ms in
         let? pr_invis := oexp_quot (- r_max k_pi_invis_obs * cm_to_inv_MeV * width_s * ms) ps in
         let? width_contr := odiv (width_k_pi_s o * (width_xx + pr_invis * width_s_sm)) width_s in
         Some (width_bound k_pi_invis_obs - width_contr))
  else Ret (Some (width_bound k_pi_invis_obs - 0)).

(** _scalar_mediator_constraints.py 192-215 *)
Definition width_kl_pi0_s (o : sobj) : R :=
  let ms := s_ms (so_par o) in
  if Rlt_dec ms (m_kl - m_pi0) then
    1 / (16 * PI * m_kl ^ 3) * ((m_kl ^ 2 - m_pi0 ^ 2) / (m_sq - m_dq)) ^ 2 * snd h_sd ^ 2
    * s_gsff (so_par o) ^ 2 * sqrt (kallen_lambda (m_kl ^ 2) (m_pi0 ^ 2) (ms ^ 2))
  else 0.

(** _scalar_mediator_constraints.py 218-243 *)
Definition constraint_kl_pi0_mu_mu (o : sobj) : res onum :=
  let ms := s_ms (so_par o) in
  if in_window kl_pi0_mu_mu_obs ms then
    let* widths_s := py_partial_widths o in
    let* width_s := dindex widths_s "total" in
    let* width_mumu := dindex widths_s "mu mu" in
    Ret (let? ps := s_momentum m_kl m_pi0 ms in
         let? pr := oexp_quot (- r_max kl_pi0_mu_mu_obs * cm_to_inv_MeV * width_s * ms) ps in
         let? ratio := odiv (width_kl_pi0_s o * width_mumu) width_s in
         Some (width_bound kl_pi0_mu_mu_obs - ratio * (1 - pr)))
  else Ret (Some (width_bound kl_pi0_mu_mu_obs - 0)).

(** _scalar_mediator_constraints.py 246-268 *)
Definition constraint_kl_pi0_e_e (o : sobj) : res onum :=
  let ms := s_ms (so_par o) in
  if in_window kl_pi0_e_e_obs ms then
    let* widths_s := py_partial_widths o in
    let* width_s := dindex widths_s "total" in
    let* width_ee := dindex widths_s "e e" in
    Ret (let? ps := s_momentum m_kl m_pi0 ms in
         let? pr := oexp_quot (- r_max kl_pi0_e_e_obs * cm_to_inv_MeV * width_s * ms) ps in
         let? ratio := odiv (width_kl_pi0_s o * width_ee) width_s in
         Some (width_bound kl_pi0_e_e_obs - ratio * (1 - pr)))
  else Ret (Some (width_bound kl_pi0_e_e_obs - 0)).

(** _scalar_mediator_constraints.py 271-296 *)
Definition width_B_xs_s (o : sobj) : R :=
  let ms := s_ms (so_par o) in
  if Rle_dec ms (m_B - m_k) then
    1 / (8 * PI) * (m_bq ^ 2 - ms ^ 2) ^ 2 / m_bq ^ 3 * cabs2 h_sb * s_gsff (so_par o) ^ 2
  else 0.

Definition assert_ge0 (x : R) : res unit := if Rle_dec 0 x then Ret tt else Raise AssertionError.

(** _scalar_mediator_constraints.py 328-337: the sum in the branching fraction *)
Definition visible_width (bd : beam_dump) (widths : dict R) : R :=
  fold_right Rplus 0
    (map snd (filter (fun fb => existsb (String.eqb (fst fb)) (visible_fss bd)) widths)).

(** _scalar_mediator_constraints.py 299-344 *)
Definition constrain_beam_dump (o : sobj) (bd : beam_dump) : res R :=
  let ms := s_ms (so_par o) in
  let br_k_pi_s := width_k_pi_s o / k_width in
  let br_kl_pi0_s := width_kl_pi0_s o / kl_width in
  let br_B_xs_s := width_B_xs_s o / B_width in
  let* _ := assert_ge0 br_k_pi_s in
  let* _ := assert_ge0 br_kl_pi0_s in
  let* _ := assert_ge0 br_B_xs_s in
  let br_pN_s := br_pN_k bd * (5 / 10 * br_k_pi_s + 25 / 100 * br_kl_pi0_s) + br_pN_B bd * br_B_xs_s in
  let conv_fact := 100 * cm_to_inv_MeV in
  let d := conv_fact * dist bd in
  let L := conv_fact * length_ bd in
  if Req_EM_T ms 0 then Raise ZeroDivisionError else
  let gamma_beta := osqrt ((mediator_energy bd / ms) ^ 2 - 1) in
  let width_s := so_width o in
  let pr_decay_in_det :=
    let? gb := gamma_beta in
    let? e1 := oexp_quot (- d * width_s) gb in
    let? e2 := oexp_quot (- L * width_s) gb in
    Some (e1 * (1 - e2)) in
  let* widths := py_partial_widths o in
  let br_visible := odiv (visible_width bd widths) width_s in
  match (let? pr := pr_decay_in_det in let? br := br_visible in Some (n_pot bd * br_pN_s * pr * br)) with
  | None => Raise AssertionError   (* NaN >= 0 is False *)
  | Some n_dec_th => let* _ := assert_ge0 n_dec_th in Ret (n_dec bd - n_dec_th)
  end.

(** _scalar_mediator_constraints.py 347-364: [self.stheta] exists only in HiggsPortal (__init__.py 313).  For
    stheta = 1 or -1 the quotient is an infinity, or NaN for gsxx = 0; beyond, the square root is NaN. *)
Definition width_h_invis (o : sobj) : res onum :=
  let mx := s_mx (so_par o) in
  if Rlt_dec (2 * mx) m_higgs then
    match so_class o with
    | HiggsPortal =>
        let st := so_stheta o in
        if Rlt_dec 1 (st ^ 2) then Raise AssertionError
        else if Req_EM_T (st ^ 2) 1 then
          if Req_EM_T (s_gsxx (so_par o)) 0 then Raise AssertionError else Ret None
        else
          let coupling := s_gsxx (so_par o) * st / sqrt (1 - st ^ 2) in
          let val := coupling ^ 2 * pow15 (m_higgs ^ 2 - 4 * mx ^ 2) / (8 * m_higgs ^ 2 * PI) in
          let* _ := assert_ge0 val in Ret (Some val)
    | _ => Raise (AttributeError "stheta")
    end
  else Ret (Some 0).

(** _scalar_mediator_constraints.py 367-368 *)
Definition constraint_higgs_invis (o : sobj) : res onum :=
  let* w := width_h_invis o in Ret (let? x := w in Some (higgs_width * br_higgs_invis - x)).

(** _scalar_mediator_constraints.py 371-381 *)
Definition constraints : dict (sobj -> res onum) :=
  [("B -> k invis", constraint_B_k_invis);
   ("B -> k mu mu", constraint_B_k_mu_mu);
   ("k -> pi invis", constraint_k_pi_invis);
   ("kl -> pi0 mu mu", constraint_kl_pi0_mu_mu);
   ("kl -> pi0 e e", constraint_kl_pi0_e_e);
   ("higgs -> invis", constraint_higgs_invis);
   ("CHARM", fun o => let* n := constrain_beam_dump o bd_charm in Ret (Some n))]%string.

End Constraints.
