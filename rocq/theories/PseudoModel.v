(** Model of hazma/experimental/pseudo_scalar_mediator and hazma/experimental/axial_vector_mediator over exact
    real arithmetic.  (The packages import modules by their old names and cannot be imported as they stand;
    the functions are modelled as written.)  NaN and infinities of NumPy are numbers here unless said. *)
From Coq Require Import Reals Bool List String.
From Verif Require Import PyBase RamboModel FourPiModel.
Import ListNotations.
Local Open Scope R_scope.

(** The constants of hazma/parameters.py that are used *)
Record consts : Type := Consts {
  k_me : R; k_mmu : R; k_muq : R; k_mdq : R; k_msq : R; k_mpi : R; k_mpi0 : R;
  k_b0 : R; k_fpi : R; k_vh : R; k_alpha : R }.
(** parameters.py 50, 52, 56, 58, 80, 85, 87, 89, 205, 209, 312, 318 *)
Definition hazma_consts : consts :=
  Consts 0.5109989461 105.6583745 2.16 4.67 95 139.57039 134.9768
         (((134.9768 + 139.57039) / 2) ^ 2 / (2.16 + 4.67)) 92.2138 246227.95 (1 / 137.04).
(** parameters.py 211: qe ** 2 *)
Definition qe2 (k : consts) : R := 4 * PI * k_alpha k.

(** __init__.py 58-68: the attributes set by the user *)
Record inputs : Type := Inputs {
  mx : R; mp : R; gpxx : R; gpuu : R; gpdd : R; gpss : R; gpee : R; gpmumu : R; gpGG : R; gpFF : R }.
(** The model object: with the attributes [beta], [mpi0] and [width_p] *)
Record pmodel : Type := PModel { inp : inputs; beta : R; mpi0 : R; width_p : R }.

(** [assert ret.real >= 0; return ret] *)
Definition checked (x : R) : res R := if Rle_dec 0 x then Ret x else Raise AssertionError.

(** __init__.py 169-203: [beta] and [mpi0]; the warnings are left out and the square root of a negative
    number, NaN in NumPy, is 0 here *)
Definition mixing_eps (k : consts) (i : inputs) : R :=
  k_b0 k * k_fpi k * (gpuu i - gpdd i + (k_muq k - k_mdq k) / k_vh k * gpGG i).
Definition determine_mixing (k : consts) (i : inputs) : res (R * R) :=
  let eps := mixing_eps k i in
  let den := mp i ^ 2 - k_mpi0 k ^ 2 in
  if Req_EM_T den 0 then Raise ZeroDivisionError
  else
    let b := eps / den in
    Ret (b, sqrt (k_mpi0 k ^ 2 - eps * b)).

(** * _widths.py *)
(** 14-32 *)
Definition width_p_to_gg (k : consts) (m : pmodel) : res R :=
  let b := beta m in
  checked (- (k_alpha k ^ 2 * mp (inp m) ^ 3
              * ((1 + b) * k_fpi k * gpFF (inp m) - b * k_vh k)
              * ((-1 + b) * k_fpi k * gpFF (inp m) + b * k_vh k))
           / (128 * k_fpi k ^ 2 * PI ^ 3 * k_vh k ^ 2)).
(** 34-48 *)
Definition width_p_to_xx (m : pmodel) : res R :=
  let rx := mx (inp m) / mp (inp m) in
  if Rlt_dec (2 * rx) 1 then
    checked (- ((-1 + beta m ^ 2) * gpxx (inp m) ^ 2 * mp (inp m) * sqrt (1 - 4 * rx ^ 2)) / (32 * PI))
  else Ret 0.
(** 50-70; [mu] says f == "mu" *)
Definition width_p_to_ff (k : consts) (m : pmodel) (mu : bool) : res R :=
  let rf := (if mu then k_mmu k else k_me k) / mp (inp m) in
  let gpff := if mu then gpmumu (inp m) else gpee (inp m) in
  if Rlt_dec (2 * rf) 1 then
    checked (- ((-1 + beta m ^ 2) * gpff ^ 2 * mp (inp m) * sqrt (1 - 4 * rf ^ 2)) / (8 * PI))
  else Ret 0.
(** The combination gpGG (mdq - muq) + (gpdd - gpuu) vh that lines 93, 96, 156, ... repeat *)
Definition gdiff (k : consts) (i : inputs) : R :=
  gpGG i * (k_mdq k - k_muq k) + (gpdd i - gpuu i) * k_vh k.
(** 72-105 *)
Definition dwidth_ds_p_to_pi0pi0pi0 (k : consts) (m : pmodel) (s : R) : res R :=
  let mp := mp (inp m) in
  let mpi0 := mpi0 m in
  if Rle_dec (3 * mpi0) mp then
    let b := beta m in
    let g := gdiff k (inp m) in
    checked (- (k_b0 k ^ 2 * sqrt (s * (-4 * mpi0 ^ 2 + s))
                * sqrt (mp ^ 4 + (mpi0 ^ 2 - s) ^ 2 - 2 * mp ^ 2 * (mpi0 ^ 2 + s))
                * (- (b ^ 2 * (k_mdq k + k_muq k) ^ 2 * k_vh k ^ 2)
                   + 2 * b * k_fpi k * (k_mdq k + k_muq k) * k_vh k * g
                   + (-1 + 10 * b ^ 2) * k_fpi k ^ 2 * g ^ 2))
             / (256 * k_fpi k ^ 4 * mp ^ 3 * PI ^ 3 * s * k_vh k ^ 2))
  else Ret 0.
(** 134-209; the first [ret] (144-172) is overwritten by the second *)
Definition dwidth_ds_p_to_pi0pipi (k : consts) (m : pmodel) (s : R) : res R :=
  let mp := mp (inp m) in
  let mpi0 := mpi0 m in
  let mpi := k_mpi k in
  if Rle_dec (2 * mpi + mpi0) mp then
    let b := beta m in
    let g := gdiff k (inp m) in
    let vh := k_vh k in
    let b0 := k_b0 k in
    let fpi := k_fpi k in
    let mq := k_mdq k + k_muq k in
    checked ((sqrt (s * (-4 * mpi ^ 2 + s))
              * sqrt (mp ^ 4 + (mpi0 ^ 2 - s) ^ 2 - 2 * mp ^ 2 * (mpi0 ^ 2 + s))
              * (b ^ 2 * (2 * mpi ^ 2 + mpi0 ^ 2 - 3 * s) ^ 2 * vh ^ 2
                 + 2 * b0 * b * (2 * mpi ^ 2 + mpi0 ^ 2 - 3 * s) * vh * (- (b * mq * vh) + fpi * g)
                 + b0 ^ 2 * (b ^ 2 * mq ^ 2 * vh ^ 2 - 2 * b * fpi * mq * vh * g - (-1 + 4 * b ^ 2) * fpi ^ 2 * g ^ 2)))
             / (2304 * fpi ^ 4 * mp ^ 3 * PI ^ 3 * s * vh ^ 2))
  else Ret 0.
(** scipy.integrate.quad of a function that may raise, given the integral operator; the function is called at the
    middle of the interval first, and an exception there is passed on (one at another point is not modelled) *)
Definition quad (integ : (R -> R) -> R -> R -> R) (f : list R -> res R) (a b : R) (args : list R) : res R :=
  let* _ := f ((a + b) / 2 :: args) in
  Ret (integ (fun s => match f (s :: args) with Ret y => y | Raise _ => 0 end) a b).
(** A Python function of one positional argument called with a list of arguments *)
Definition unary (f : R -> res R) (args : list R) : res R :=
  match args with [s] => f s | _ => Raise TypeError end.
(** 107-132 and 211-236 *)
Definition width_p_to_pi0pi0pi0 (integ : (R -> R) -> R -> R -> R) (k : consts) (m : pmodel) : res R :=
  quad integ (unary (dwidth_ds_p_to_pi0pi0pi0 k m)) (4 * mpi0 m ^ 2) ((mp (inp m) - mpi0 m) ^ 2) [].
Definition width_p_to_pi0pipi (integ : (R -> R) -> R -> R -> R) (k : consts) (m : pmodel) : res R :=
  quad integ (unary (dwidth_ds_p_to_pi0pipi k m)) (4 * k_mpi k ^ 2) ((mp (inp m) - mpi0 m) ^ 2) [].
(** 238-270: the total *)
Definition total_width (integ : (R -> R) -> R -> R -> R) (k : consts) (m : pmodel) : res R :=
  let* w_gg := width_p_to_gg k m in
  let* w_xx := width_p_to_xx m in
  let* w_ee := width_p_to_ff k m false in
  let* w_mumu := width_p_to_ff k m true in
  let* w_pi0pipi := width_p_to_pi0pipi integ k m in
  let* w_pi0pi0pi0 := width_p_to_pi0pi0pi0 integ k m in
  Ret (w_gg + w_xx + w_ee + w_mumu + w_pi0pipi + w_pi0pi0pi0).

(** * __init__.py: the object and its setters *)
(** 205-207 *)
Definition compute_width_p (integ : (R -> R) -> R -> R -> R) (k : consts) (m : pmodel) : res pmodel :=
  let* w := total_width integ k m in Ret (PModel (inp m) (beta m) (mpi0 m) w).
Definition redetermine_mixing (k : consts) (m : pmodel) : res pmodel :=
  let* bm := determine_mixing k (inp m) in Ret (PModel (inp m) (fst bm) (snd bm) (width_p m)).
(** 58-71; the width is read by nothing before it is set *)
Definition new_model (integ : (R -> R) -> R -> R -> R) (k : consts) (i : inputs) : res pmodel :=
  let* m := redetermine_mixing k (PModel i 0 0 0) in compute_width_p integ k m.
(** An assignment to an attribute *)
Inductive field : Type := F_mx | F_mp | F_gpxx | F_gpuu | F_gpdd | F_gpss | F_gpee | F_gpmumu | F_gpGG | F_gpFF.
Definition set_input (f : field) (v : R) (i : inputs) : inputs :=
  match f with
  | F_mx => Inputs v (mp i) (gpxx i) (gpuu i) (gpdd i) (gpss i) (gpee i) (gpmumu i) (gpGG i) (gpFF i)
  | F_mp => Inputs (mx i) v (gpxx i) (gpuu i) (gpdd i) (gpss i) (gpee i) (gpmumu i) (gpGG i) (gpFF i)
  | F_gpxx => Inputs (mx i) (mp i) v (gpuu i) (gpdd i) (gpss i) (gpee i) (gpmumu i) (gpGG i) (gpFF i)
  | F_gpuu => Inputs (mx i) (mp i) (gpxx i) v (gpdd i) (gpss i) (gpee i) (gpmumu i) (gpGG i) (gpFF i)
  | F_gpdd => Inputs (mx i) (mp i) (gpxx i) (gpuu i) v (gpss i) (gpee i) (gpmumu i) (gpGG i) (gpFF i)
  | F_gpss => Inputs (mx i) (mp i) (gpxx i) (gpuu i) (gpdd i) v (gpee i) (gpmumu i) (gpGG i) (gpFF i)
  | F_gpee => Inputs (mx i) (mp i) (gpxx i) (gpuu i) (gpdd i) (gpss i) v (gpmumu i) (gpGG i) (gpFF i)
  | F_gpmumu => Inputs (mx i) (mp i) (gpxx i) (gpuu i) (gpdd i) (gpss i) (gpee i) v (gpGG i) (gpFF i)
  | F_gpGG => Inputs (mx i) (mp i) (gpxx i) (gpuu i) (gpdd i) (gpss i) (gpee i) (gpmumu i) v (gpFF i)
  | F_gpFF => Inputs (mx i) (mp i) (gpxx i) (gpuu i) (gpdd i) (gpss i) (gpee i) (gpmumu i) (gpGG i) v
  end.
(** 73-167: which setters call determine_mixing *)
Definition remixes (f : field) : bool :=
  match f with F_mp | F_gpuu | F_gpdd | F_gpGG => true | _ => false end.
Definition set_field (integ : (R -> R) -> R -> R -> R) (k : consts) (f : field) (v : R) (m : pmodel) : res pmodel :=
  let m := PModel (set_input f v (inp m)) (beta m) (mpi0 m) (width_p m) in
  let* m := if remixes f then redetermine_mixing k m else Ret m in
  compute_width_p integ k m.

(** 229-306: PseudoScalarMFV, with the attributes of its own *)
Record mfv : Type := Mfv { base : pmodel; gpup : R; gpdown : R; gpll : R }.
(** 232-258 *)
Definition mfv_inputs (k : consts) (mx mp gpxx up down ll : R) : inputs :=
  let yu := k_muq k / k_vh k in
  let yd := k_mdq k / k_vh k in
  let ys := k_msq k / k_vh k in
  let ye := k_me k / k_vh k in
  let ymu := k_mmu k / k_vh k in
  Inputs mx mp gpxx (up * yu) (down * yd) (down * ys) (ll * ye) (ll * ymu) (2 * up + down) (ll + (8 * up + down) / 9).
Definition new_mfv (integ : (R -> R) -> R -> R -> R) (k : consts) (mx mp gpxx up down ll : R) : res mfv :=
  let* m := new_model integ k (mfv_inputs k mx mp gpxx up down ll) in Ret (Mfv m up down ll).
Inductive mfield : Type := M_mx | M_mp | M_gpxx | M_gpup | M_gpdown | M_gpll.
(** 260-306 and the inherited setters *)
Definition set_mfield (integ : (R -> R) -> R -> R -> R) (k : consts) (f : mfield) (v : R) (o : mfv) : res mfv :=
  match f with
  | M_mx => let* m := set_field integ k F_mx v (base o) in Ret (Mfv m (gpup o) (gpdown o) (gpll o))
  | M_mp => let* m := set_field integ k F_mp v (base o) in Ret (Mfv m (gpup o) (gpdown o) (gpll o))
  | M_gpxx => let* m := set_field integ k F_gpxx v (base o) in Ret (Mfv m (gpup o) (gpdown o) (gpll o))
  | M_gpll =>
      let ye := k_me k / k_vh k in
      let ymu := k_mmu k / k_vh k in
      let* m := set_field integ k F_gpee (v * ye) (base o) in
      let* m := set_field integ k F_gpmumu (v * ymu) m in
      let* m := set_field integ k F_gpFF (v + (8 * gpup o + gpdown o) / 9) m in
      Ret (Mfv m (gpup o) (gpdown o) v)
  | M_gpup =>
      let yu := k_muq k / k_vh k in
      let* m := set_field integ k F_gpuu (v * yu) (base o) in
      let* m := set_field integ k F_gpFF (gpll o + (8 * v + gpdown o) / 9) m in
      let* m := set_field integ k F_gpGG (2 * v + gpdown o) m in
      Ret (Mfv m v (gpdown o) (gpll o))
  | M_gpdown =>
      let yd := k_mdq k / k_vh k in
      let ys := k_msq k / k_vh k in
      let* m := set_field integ k F_gpdd (v * yd) (base o) in
      let* m := set_field integ k F_gpss (v * ys) m in
      let* m := set_field integ k F_gpFF (gpll o + (8 * gpup o + v) / 9) m in
      let* m := set_field integ k F_gpGG (2 * gpup o + v) m in
      Ret (Mfv m (gpup o) v (gpll o))
  end.

(** * _cross_sections.py *)
(** 15-62 *)
Definition sigma_xx_to_p_to_ff (k : consts) (m : pmodel) (Q : R) (mu : bool) : res R :=
  let rf := (if mu then k_mmu k else k_me k) / Q in
  let gpff := if mu then gpmumu (inp m) else gpee (inp m) in
  let mp := mp (inp m) in
  let rx := mx (inp m) / Q in
  if Rlt_dec (2 * rf) 1 then
    if Rlt_dec (2 * rx) 1 then
      checked ((1 - 2 * beta m ^ 2) * gpff ^ 2 * gpxx (inp m) ^ 2 * Q ^ 2 * sqrt (1 - 4 * rf ^ 2)
               / (16 * PI * sqrt (1 - 4 * rx ^ 2) * ((mp ^ 2 - Q ^ 2) ^ 2 + mp ^ 2 * width_p m ^ 2)))
    else Ret 0
  else Ret 0.
(** 65-111; at Q = 2 mx NumPy divides by zero *)
Definition sigma_xx_to_p_to_gg (k : consts) (m : pmodel) (Q : R) : res R :=
  let b := beta m in
  let mp := mp (inp m) in
  let fpi := k_fpi k in
  let vh := k_vh k in
  if Rle_dec (2 * mx (inp m)) Q then
    let rx := mx (inp m) / Q in
    checked (k_alpha k ^ 2 * gpxx (inp m) ^ 2 * Q ^ 4
             * ((1 - 2 * b ^ 2) * fpi ^ 2 * gpFF (inp m) ^ 2 - 2 * b * fpi * gpFF (inp m) * vh + b ^ 2 * vh ^ 2)
             / (256 * fpi ^ 2 * PI ^ 3 * sqrt (1 - 4 * rx ^ 2) * vh ^ 2 * ((mp ^ 2 - Q ^ 2) ^ 2 + mp ^ 2 * width_p m ^ 2)))
  else Ret 0.
(** np.arctanh: [None] is NaN (or an infinity at the ends) *)
Definition np_arctanh (x : R) : option R :=
  if Rlt_dec (-1) x then if Rlt_dec x 1 then Some (ln ((1 + x) / (1 - x)) / 2) else None else None.
(** 114-169: with a NaN (also from the infinite argument of Q = 2 mx) the imaginary part is NaN and different from 0; the real and imaginary parts of the
    expression are followed separately *)
Definition sigma_xx_to_pp (m : pmodel) (Q : R) : res R :=
  let mp := mp (inp m) in
  let mx := mx (inp m) in
  if Rlt_dec (2 * mp) Q then
    if Rle_dec (2 * mx) Q then
      let rp := mp / Q in
      let rx := mx / Q in
      let root := sqrt ((-1 + 4 * rp ^ 2) * (-1 + 4 * rx ^ 2)) in
      let pre := (-1 + 2 * beta m ^ 2) * gpxx (inp m) ^ 4 / (64 * Q ^ 2 * PI * (1 - 4 * rx ^ 2)) in
      let c := 2 * (1 - 4 * rp ^ 2 + 6 * rp ^ 4) / (-1 + 2 * rp ^ 2) in
      match (if Req_EM_T root 0 then None else np_arctanh ((1 - 2 * rp ^ 2) / root)) with
      | None => Raise AssertionError
      | Some a =>
          if Req_EM_T (pre * (c * PI)) 0 then
            checked (pre * (2 * root * (3 * rp ^ 4 + 2 * rx ^ 2 - 8 * rp ^ 2 * rx ^ 2) / (rp ^ 4 + rx ^ 2 - 4 * rp ^ 2 * rx ^ 2)
                            + c * (2 * a)))
          else Raise AssertionError
      end
    else Ret 0
  else Ret 0.
(** 172-231 *)
Definition dsigma_ds_xx_to_p_to_pi0pi0pi0 (k : consts) (m : pmodel) (s Q : R) : res R :=
  let mx := mx (inp m) in
  let mp := mp (inp m) in
  let mpi0 := mpi0 m in
  if Rlt_dec (2 * mx) Q then
    if Rle_dec (3 * mpi0) Q then
      let b := beta m in
      let g := gdiff k (inp m) in
      checked (- (k_b0 k ^ 2 * gpxx (inp m) ^ 2 * sqrt (s * (-4 * mpi0 ^ 2 + s))
                  * sqrt (mpi0 ^ 4 + (Q ^ 2 - s) ^ 2 - 2 * mpi0 ^ 2 * (Q ^ 2 + s))
                  * (- (b ^ 2 * (k_mdq k + k_muq k) ^ 2 * k_vh k ^ 2)
                     + 2 * b * k_fpi k * (k_mdq k + k_muq k) * k_vh k * g
                     + (-1 + 11 * b ^ 2) * k_fpi k ^ 2 * g ^ 2))
               / (512 * k_fpi k ^ 4 * PI ^ 3 * Q * sqrt (-4 * mx ^ 2 + Q ^ 2) * s * k_vh k ^ 2
                  * (mp ^ 4 + Q ^ 4 + mp ^ 2 * (-2 * Q ^ 2 + width_p m ^ 2))))
    else Ret 0
  else Ret 0.
(** 265-339 *)
Definition dsigma_ds_xx_to_p_to_pi0pipi (k : consts) (m : pmodel) (s Q : R) : res R :=
  let mx := mx (inp m) in
  let mp := mp (inp m) in
  let mpi0 := mpi0 m in
  let mpi := k_mpi k in
  if Rlt_dec (2 * mx) Q then
    if Rle_dec (2 * mpi + mpi0) Q then
      let b := beta m in
      let g := gdiff k (inp m) in
      let vh := k_vh k in
      let b0 := k_b0 k in
      let fpi := k_fpi k in
      let mq := k_mdq k + k_muq k in
      checked (gpxx (inp m) ^ 2 * sqrt (s * (-4 * mpi ^ 2 + s))
               * sqrt (mpi0 ^ 4 + (Q ^ 2 - s) ^ 2 - 2 * mpi0 ^ 2 * (Q ^ 2 + s))
               * (b ^ 2 * (2 * mpi ^ 2 + mpi0 ^ 2 - 3 * s) ^ 2 * vh ^ 2
                  + 2 * b0 * b * (2 * mpi ^ 2 + mpi0 ^ 2 - 3 * s) * vh * (- (b * mq * vh) + fpi * g)
                  + b0 ^ 2 * (b ^ 2 * mq ^ 2 * vh ^ 2 - 2 * b * fpi * mq * vh * g - (-1 + 5 * b ^ 2) * fpi ^ 2 * g ^ 2))
               / (4608 * fpi ^ 4 * PI ^ 3 * Q * sqrt (-4 * mx ^ 2 + Q ^ 2) * s * vh ^ 2
                  * (mp ^ 4 + Q ^ 4 + mp ^ 2 * (-2 * Q ^ 2 + width_p m ^ 2))))
    else Ret 0
  else Ret 0.
(** 234-262 and 342-370: [quad] is given [args=(Q)], which it makes the tuple (Q,) and passes on to the
    function of one argument *)
Definition sigma_xx_to_p_to_pi0pi0pi0 (integ : (R -> R) -> R -> R -> R) (k : consts) (m : pmodel) (Q : R) : res R :=
  quad integ (unary (fun s => dsigma_ds_xx_to_p_to_pi0pi0pi0 k m s Q)) (4 * mpi0 m ^ 2) ((Q - mpi0 m) ^ 2) [Q].
Definition sigma_xx_to_p_to_pi0pipi (integ : (R -> R) -> R -> R -> R) (k : consts) (m : pmodel) (Q : R) : res R :=
  quad integ (unary (fun s => dsigma_ds_xx_to_p_to_pi0pipi k m s Q)) (4 * k_mpi k ^ 2) ((Q - mpi0 m) ^ 2) [Q].
Definition dsum (d : dict R) : R := fold_right Rplus 0 (map snd d).
(** 373-396 *)
Definition annihilation_cross_sections (integ : (R -> R) -> R -> R -> R) (k : consts) (m : pmodel) (Q : R) : res (dict R) :=
  let* mumu := sigma_xx_to_p_to_ff k m Q true in
  let* ee := sigma_xx_to_p_to_ff k m Q false in
  let* gg := sigma_xx_to_p_to_gg k m Q in
  let* pi0pipi := sigma_xx_to_p_to_pi0pipi integ k m Q in
  let* pi0pi0pi0 := sigma_xx_to_p_to_pi0pi0pi0 integ k m Q in
  let* pp := sigma_xx_to_pp m Q in
  let css := [("mu mu", mumu); ("e e", ee); ("g g", gg); ("pi0 pi pi", pi0pipi); ("pi0 pi0 pi0", pi0pi0pi0); ("p p", pp)]%string in
  Ret (dset css "total" (dsum css)).
(** 399-416: iterating over the dictionary gives its keys, and [key, val] is the unpacking of a string; if one of
    two characters came first the division of a string by a number would follow *)
Definition annihilation_branching_fractions (integ : (R -> R) -> R -> R -> R) (k : consts) (m : pmodel) (Q : R) : res (dict R) :=
  let* css := annihilation_cross_sections integ k m Q in
  match css with
  | [] => Ret []
  | (key, _) :: _ => if Nat.eqb (String.length key) 2 then Raise TypeError else Raise ValueError
  end.

(** * _msqrd.py, for one phase-space point: an array of shape (n, 4), row by row *)
(** 36 and 47-50: [P = np.sum(momenta, axis=1)] adds the components of each row, so that [P[0]] is the sum of
    the components of the first momentum; px . pxbar *)
Definition row_sum (p : vec) : R := en p + px p + py p + pz p.
Definition chi_dot (mx P0 : R) : R :=
  let pxmag := sqrt (P0 ^ 2 / 4 - mx ^ 2) in
  ldot (V4 (P0 / 2) 0 0 pxmag) (V4 (P0 / 2) 0 0 (- pxmag)).
(** 52-184 *)
Definition msqrd_xx_to_p_to_pm0 (k : consts) (m : pmodel) (p1 p2 p3 : vec) : R :=
  let mx := mx (inp m) in
  let mp := mp (inp m) in
  let gpxx := gpxx (inp m) in
  let b := beta m in
  let w := width_p m in
  let mpi := k_mpi k in
  let mpi0 := k_mpi0 k in
  let vh := k_vh k in
  let chi := mx ^ 2 + chi_dot mx (row_sum p1) in
  let a0 := - (k_b0 k * k_fpi k * gpGG (inp m) * k_mdq k) + k_b0 k * k_fpi k * gpGG (inp m) * k_muq k
            - k_b0 k * k_fpi k * gpdd (inp m) * vh + k_b0 k * k_fpi k * gpuu (inp m) * vh in
  let a1 := k_b0 k * k_mdq k * vh + 2 * mpi ^ 2 * vh - 2 * mpi0 ^ 2 * vh + k_b0 k * k_muq k * vh
            + 4 * vh * ldot p1 p2 - 2 * vh * ldot p1 p3 - 2 * vh * ldot p2 p3 in
  let a2 := 2 * k_b0 k * k_fpi k * gpGG (inp m) * k_mdq k - 2 * k_b0 k * k_fpi k * gpGG (inp m) * k_muq k
            + 2 * k_b0 k * k_fpi k * gpdd (inp m) * vh - 2 * k_b0 k * k_fpi k * gpuu (inp m) * vh in
  let den := 9 * k_fpi k ^ 4 * vh ^ 2
             * ((- mp ^ 2 + 2 * mpi ^ 2 + mpi0 ^ 2) ^ 2 + mp ^ 2 * w ^ 2
                - 4 * (mp ^ 2 - 2 * mpi ^ 2 - mpi0 ^ 2 - ldot p1 p2 - ldot p1 p3 - ldot p2 p3)
                  * (ldot p1 p2 + ldot p1 p3 + ldot p2 p3)) in
  let beta0 := gpxx ^ 2 * a0 ^ 2 * chi / den in
  let beta1 := 2 * b * gpxx ^ 2 * a0 * a1 * chi / den in
  let beta2 := b ^ 2 * gpxx ^ 2 * (2 * a2 * a0 - a0 ^ 2 + a1 ^ 2) * chi / den in
  beta0 + beta1 + beta2.
(** 208-415 *)
Definition msqrd_xx_to_p_to_pm0g (k : consts) (m : pmodel) (p1 p2 p3 q : vec) : R :=
  let mx := mx (inp m) in
  let mp := mp (inp m) in
  let gpxx := gpxx (inp m) in
  let b := beta m in
  let w := width_p m in
  let mpi := k_mpi k in
  let mpi0 := k_mpi0 k in
  let vh := k_vh k in
  let chi := mx ^ 2 + chi_dot mx (row_sum p1) in
  let a0 := - (k_b0 k * k_fpi k * gpGG (inp m) * k_mdq k) + k_b0 k * k_fpi k * gpGG (inp m) * k_muq k
            - k_b0 k * k_fpi k * gpdd (inp m) * vh + k_b0 k * k_fpi k * gpuu (inp m) * vh in
  let a1 := k_b0 k * k_mdq k * vh + 2 * mpi ^ 2 * vh - 2 * mpi0 ^ 2 * vh + k_b0 k * k_muq k * vh
            + 4 * vh * ldot q p1 + 4 * vh * ldot q p2 - 2 * vh * ldot q p3
            + 4 * vh * ldot p1 p2 - 2 * vh * ldot p1 p3 - 2 * vh * ldot p2 p3 in
  let a2 := 2 * k_b0 k * k_fpi k * gpGG (inp m) * k_mdq k - 2 * k_b0 k * k_fpi k * gpGG (inp m) * k_muq k
            + 2 * k_b0 k * k_fpi k * gpdd (inp m) * vh - 2 * k_b0 k * k_fpi k * gpuu (inp m) * vh in
  let eik := mpi ^ 2 * ldot q p1 ^ 2 + mpi ^ 2 * ldot q p2 ^ 2 - 2 * ldot q p1 * ldot q p2 * ldot p1 p2 in
  let dots := ldot q p1 + ldot q p2 + ldot q p3 + ldot p1 p2 + ldot p1 p3 + ldot p2 p3 in
  let den := 9 * k_fpi k ^ 4 * vh ^ 2 * ldot q p1 ^ 2 * ldot q p2 ^ 2
             * ((- mp ^ 2 + 2 * mpi ^ 2 + mpi0 ^ 2) ^ 2 + mp ^ 2 * w ^ 2
                - 4 * (mp ^ 2 - 2 * mpi ^ 2 - mpi0 ^ 2 - ldot q p1 - ldot q p2 - ldot q p3 - ldot p1 p2 - ldot p1 p3 - ldot p2 p3)
                  * dots) in
  let beta0 := - (gpxx ^ 2 * qe2 k * a0 ^ 2 * eik * chi) / den in
  let beta1 := -2 * b * gpxx ^ 2 * qe2 k * a0 * eik * a1 * chi / den in
  let beta2 := b ^ 2 * gpxx ^ 2 * qe2 k * eik * (-2 * a2 * a0 + a0 ^ 2 - a1 ^ 2) * chi / den in
  beta0 + beta1 + beta2.
(** 437-527 *)
Definition msqrd_xx_to_p_to_000 (k : consts) (m : pmodel) (p1 p2 p3 : vec) : R :=
  let mx := mx (inp m) in
  let mp := mp (inp m) in
  let gpxx := gpxx (inp m) in
  let b := beta m in
  let w := width_p m in
  let mpi0 := k_mpi0 k in
  let vh := k_vh k in
  let fpi := k_fpi k in
  let chi := mx ^ 2 + chi_dot mx (row_sum p1) in
  let a0 := fpi * gpGG (inp m) * k_mdq k - fpi * gpGG (inp m) * k_muq k + fpi * gpdd (inp m) * vh - fpi * gpuu (inp m) * vh in
  let a2 := -4 * fpi * gpGG (inp m) * k_mdq k + 4 * fpi * gpGG (inp m) * k_muq k - 4 * fpi * gpdd (inp m) * vh + 4 * fpi * gpuu (inp m) * vh in
  let den := fpi ^ 4 * vh ^ 2
             * ((mp ^ 2 - 3 * mpi0 ^ 2) ^ 2 + mp ^ 2 * w ^ 2
                - 4 * (mp ^ 2 - 3 * mpi0 ^ 2 - ldot p1 p2 - ldot p1 p3 - ldot p2 p3) * (ldot p1 p2 + ldot p1 p3 + ldot p2 p3)) in
  let beta0 := k_b0 k ^ 2 * gpxx ^ 2 * a0 ^ 2 * chi / den in
  let beta1 := -2 * k_b0 k ^ 2 * b * gpxx ^ 2 * a0 * (k_mdq k * vh + k_muq k * vh) * chi / den in
  let beta2 := k_b0 k ^ 2 * b ^ 2 * gpxx ^ 2
               * (-3 * a0 ^ 2 + 2 * a0 * a2 + (- (k_mdq k * vh) - k_muq k * vh) ^ 2) * chi / den in
  beta0 + beta1 + beta2.

(** * _fsr.py 42-81 for one photon energy (cmath.sqrt and cmath.log take one number); on the range of the
    mask the arguments of the roots and logarithms are real and not negative *)
Definition dnde_xx_to_p_to_ffg (k : consts) (eg Q mf : R) : R :=
  let m := mf / Q in
  let e := eg / Q in
  let s := Q ^ 2 - 2 * Q * eg in
  let root := sqrt ((-1 + 2 * e) * (-1 + 2 * e + 4 * m ^ 2)) in
  if Rle_dec (4 * mf ^ 2) s then
    if Rle_dec s (Q ^ 2) then
      2 * k_alpha k
      * (- root + (2 + 4 * (-1 + e) * e) * ln m
         + m ^ 2 * (2 * ln (sqrt (1 - 2 * e) - sqrt (1 - 2 * e - 4 * m ^ 2)) - ln (2 * (1 - 2 * e - 2 * m ^ 2 + root)))
         + (1 + 2 * (-1 + e) * e) * ln (-2 / (-1 + 2 * e + 2 * m ^ 2 + root)))
      / (e * sqrt (1 - 4 * m ^ 2) * PI * Q)
    else 0
  else 0.

(** * axial_vector_mediator/avm_msqrd.py *)
(** 46-52: the momenta of the dark matter particles *)
Definition chi_momenta (mx Q : R) : vec * vec :=
  let e := Q / 2 in
  let p := sqrt (e ^ 2 - mx ^ 2) in
  (V4 e 0 0 p, V4 e 0 0 (- p)).
(** 43-71 *)
Definition msqrd_xx_to_a_to_ff (mx mf ma cxxa cffa : R) (p3 p4 : vec) : R :=
  let Q := en p3 + en p4 in
  let '(p1, p2) := chi_momenta mx Q in
  4 * cffa ^ 2 * cxxa ^ 2
  * (2 * mf ^ 2 * mx ^ 2 + 6 * mf ^ 2 * mx ^ 2 + 2 * ldot p1 p4 * ldot p2 p3 + 2 * ldot p1 p3 * ldot p2 p4
     - mf ^ 2 * Q ^ 2 - mx ^ 2 * Q ^ 2)
  / (- ma ^ 2 + Q ^ 2) ^ 2.
(** 104-191, given the scalar products of lines 116-126; [e2] is 4 pi alpha_em *)
Definition ffg_products (mx mf ma qf cxxa cffa e2 Q k1 k2 k3 k4 d13 d14 d23 d24 d34 : R) : R :=
  4 * cffa ^ 2 * cxxa ^ 2 * e2
  * (2 * k3 * k4
     * (k1 * k3 * d23 - 2 * k4 * d13 * d23 + k3 * d14 * d23 + k4 * d14 * d23 + k1 * k4 * d24
        + k3 * d13 * d24 + k4 * d13 * d24 - 2 * k3 * d14 * d24
        + ((k1 + 2 * d14) * d23 + (k1 + 2 * d13) * d24) * d34
        + k2 * (k3 * d13 + k4 * d14 + (d13 + d14) * d34)
        - mx ^ 2 * (k3 ^ 2 + k4 ^ 2 + 2 * (k3 + k4) * d34 + 2 * d34 ^ 2))
     + (k3 ^ 2 + k4 ^ 2) * mf ^ 4 * (-6 * mx ^ 2 + Q ^ 2)
     + 2 * mf ^ 2
       * (- (k2 * k3 ^ 2 * d13) - k2 * k4 ^ 2 * d14 - k3 ^ 2 * d14 * d23 - k4 ^ 2 * d14 * d23
          - k3 ^ 2 * d13 * d24 - k4 ^ 2 * d13 * d24
          + k1 * (2 * k2 * k3 * k4 - k3 ^ 2 * d23 - k4 ^ 2 * d24)
          + mx ^ 2 * (k3 ^ 3 + k3 ^ 2 * (k4 + d34) + k4 ^ 2 * (k4 + d34) + k3 * k4 * (k4 + 6 * d34))
          - k3 * k4 * d34 * Q ^ 2))
  * qf ^ 2
  / (k3 ^ 2 * k4 ^ 2 * (ma ^ 2 - 2 * mf ^ 2 - 2 * (k3 + k4 + d34)) ^ 2).
Definition msqrd_xx_to_a_to_ffg (k : consts) (mx mf ma qf cxxa cffa : R) (p3 p4 q : vec) : R :=
  let Q := en p3 + en p4 + en q in
  let '(p1, p2) := chi_momenta mx Q in
  ffg_products mx mf ma qf cxxa cffa (4 * PI * k_alpha k) Q (ldot q p1) (ldot q p2) (ldot q p3) (ldot q p4)
    (ldot p1 p3) (ldot p1 p4) (ldot p2 p3) (ldot p2 p4) (ldot p3 p4).
