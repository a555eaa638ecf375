(** Model of the class ThreeBody of hazma/phase_space/_three_body.py: its settings, the choice of a method, and the
    distributions made by quadrature.  The kinematic functions are those of [KinModel].  Squared matrix elements are
    called with numbers, as the quadratures do. *)
From Coq Require Import String Reals Arith Bool List.
From Verif Require Import PyBase RamboModel KinModel.
Import ListNotations.
Local Open Scope R_scope.

(** * Settings *)

(** A squared matrix element is a Python function of one argument, the momenta, or of two, s and t *)
Inductive pyfn : Type := OfMomenta (f : list vec -> R) | OfST (f : R -> R -> R).
(** Calling it with the wrong number of arguments raises TypeError *)
Definition call_momenta (g : pyfn) (ps : list vec) : res R :=
  match g with OfMomenta f => Ret (f ps) | OfST _ => Raise TypeError end.
Definition call_st (g : pyfn) (s t : R) : res R :=
  match g with OfST f => Ret (f s t) | OfMomenta _ => Raise TypeError end.

(** __cme, __masses, __msqrd, __original_msqrd *)
Record three_body : Type := MkTB {
  tb_cme : R; tb_masses : R * R * R; tb_msqrd : R -> R -> res R; tb_original : option pyfn }.

(** _three_body.py 79-84 *)
Definition convert (g : pyfn) (q : R) (ms : R * R * R) (s t : R) : res R :=
  let '(m1, m2, m3) := ms in call_momenta g (mandelstam_to_momenta s t q m1 m2 m3).

(** 30-35 for two numbers *)
Definition flat_st (_ _ : R) : res R := Ret 1.

(** 115-120, 164-168: the assertion and the tuple *)
Definition three_masses (ms : list R) : res (R * R * R) :=
  match ms with [m1; m2; m3] => Ret (m1, m2, m3) | _ => Raise AssertionError end.

(** 90-139 *)
Definition tb_new (cme : R) (masses : list R) (msqrd : option pyfn) (sig : option string) : res three_body :=
  let* ms := three_masses masses in
  let bad := match sig with
             | Some s => negb (String.eqb s "momenta" || String.eqb s "st")
             | None => false
             end in
  if bad then Raise AssertionError
  else
    match msqrd with
    | None => Ret (MkTB cme ms flat_st None)
    | Some g =>
        match sig with
        | Some s => if String.eqb s "momenta" then Ret (MkTB cme ms (convert g cme ms) (Some g))
                    else Ret (MkTB cme ms (call_st g) None)
        | None => Ret (MkTB cme ms (call_st g) None)
        end
    end.

(** 141-145 *)
Definition update_msqrd (o : three_body) : three_body :=
  match tb_original o with
  | Some g => MkTB (tb_cme o) (tb_masses o) (convert g (tb_cme o) (tb_masses o)) (Some g)
  | None => o
  end.

(** The assignments to cme, masses and msqrd: 152-155, 162-169, 176-180 *)
Inductive assign : Type := SetCme (q : R) | SetMasses (ms : list R) | SetMsqrd (g : pyfn).
Definition run1 (o : three_body) (a : assign) : res three_body :=
  match a with
  | SetCme q => Ret (update_msqrd (MkTB q (tb_masses o) (tb_msqrd o) (tb_original o)))
  | SetMasses l =>
      let* ms := three_masses l in
      Ret (update_msqrd (MkTB (tb_cme o) ms (tb_msqrd o) (tb_original o)))
  | SetMsqrd g => Ret (update_msqrd (MkTB (tb_cme o) (tb_masses o) (call_st g) (tb_original o)))
  end.
Fixpoint run (o : three_body) (l : list assign) : res three_body :=
  match l with [] => Ret o | a :: r => let* o' := run1 o a in run o' r end.

(** * Quadratures *)

Fixpoint mapM {A B : Type} (f : A -> res B) (l : list A) : res (list B) :=
  match l with
  | [] => Ret []
  | x :: r => let* y := f x in let* ys := mapM f r in Ret (y :: ys)
  end.

(** np.linspace(lo, hi, n) *)
Definition points (lo hi : R) (n : nat) : list R :=
  map (fun i => lo + INR i * ((hi - lo) / INR (n - 1))) (seq 0 n).

Section Quad.
(** [integ f a b] is integrate.quad(f, a, b)[0] *)
Variable integ : (R -> R) -> R -> R -> R.
Variable msqrd : R -> R -> R.
Variables q m1 m2 m3 : R.

(** 427-463: the value, without its error estimate; dblquad nests two quadratures *)
Definition integrate_quad : R :=
  let pre := q ^ 2 / (128 * PI ^ 3) in
  let inner := fun x =>
    integ (fun y => msqrd (q ^ 2 * (1 - x + (m1 / q) ^ 2)) (q ^ 2 * (1 - y + (m2 / q) ^ 2)))
      (fst (bounds_y q m1 m2 m3 x)) (snd (bounds_y q m1 m2 m3 x)) in
  pre * integ inner (fst (bounds_x q m1 m2 m3)) (snd (bounds_x q m1 m2 m3)).

(** 548-570 *)
Definition energy_dist (nbins i : nat) (lim : R * R) : res dist :=
  let ebins := points (fst lim) (snd lim) nbins in
  let* dwde := mapM (three_body_density integ msqrd q m1 m2 m3 i) (bin_centers ebins) in
  dist_new ebins dwde.
Definition energy_distributions_quad (nbins : nat) : res (list dist) :=
  mapM (fun il => energy_dist nbins (fst il) (snd il)) (combine (seq 0 3) (energy_limits q [m1; m2; m3])).

(** 628-655: the index left over by a pair, the energy of that particle and the weight *)
Definition left_over (jk : nat * nat) : nat :=
  match filter (fun i => negb (Nat.eqb i (fst jk) || Nat.eqb i (snd jk))) [0%nat; 1%nat; 2%nat] with
  | i :: _ => i
  | [] => 3%nat
  end.
Definition invmass_weight (jk : nat * nat) (m : R) : res R :=
  let i := left_over jk in
  let* d := three_body_density integ msqrd q m1 m2 m3 i ((q ^ 2 - m ^ 2 + nth i [m1; m2; m3] 0 ^ 2) / (2 * q)) in
  Ret (m / q * d).
Definition invmass_dist (nbins : nat) (jk : nat * nat) (lim : R * R) : res dist :=
  let mbins := points (fst lim) (snd lim) nbins in
  let* dwdm := mapM (invmass_weight jk) (bin_centers mbins) in
  dist_new mbins dwdm.
Definition invariant_mass_distributions_quad (nbins : nat) : res (list ((nat * nat) * dist)) :=
  mapM (fun pl => let* d := invmass_dist nbins (fst pl) (snd pl) in Ret (fst pl, d))
    (invariant_mass_limits q [m1; m2; m3]).

(** * Methods *)

(** What the Monte-Carlo route gives is a parameter *)
Variable rambo : R.
Variable rambo_e : res (list dist).
Variable rambo_m : res (list ((nat * nat) * dist)).

(** 531-546 *)
Definition tb_integrate (method : string) : res R :=
  if Rlt_dec q (m1 + m2 + m3) then Ret 0
  else if String.eqb method "quad" then Ret integrate_quad
  else if String.eqb method "rambo" then Ret rambo
  else Raise ValueError.
(** 612-626 *)
Definition tb_energy_distributions (nbins : nat) (method : string) : res (list dist) :=
  if String.eqb method "quad" then energy_distributions_quad nbins
  else if String.eqb method "rambo" then rambo_e
  else Raise ValueError.
(** 712-733 *)
Definition tb_invariant_mass_distributions (nbins : nat) (method : string) : res (list ((nat * nat) * dist)) :=
  if Rlt_dec q (m1 + m2 + m3) then Raise ValueError
  else if String.eqb method "quad" then invariant_mass_distributions_quad nbins
  else if String.eqb method "rambo" then rambo_m
  else Raise ValueError.
End Quad.
