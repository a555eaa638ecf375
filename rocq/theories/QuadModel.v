(** Model of rust/src/quad.rs: the adaptive quadrature. *)
From Coq Require Import List Arith Bool QArith.
From Verif Require Import RustBase.
Import ListNotations.
Local Open Scope nat_scope.

(** quad.rs 129-146 *)
Inductive Ier : Type :=
| IerOk | MaxSubdivisions | Roundoff | BadIntegrand | NoConvergence | Divergent | InvalidInput.
(** quad.rs 164-174 *)
Definition from_code (c : nat) : Ier :=
  match c with
  | 0 => IerOk | 1 => MaxSubdivisions | 2 => Roundoff | 3 => BadIntegrand
  | 4 => NoConvergence | 5 => Divergent | _ => InvalidInput
  end.
(** quad.rs 202-220 *)
Inductive QuadError : Type :=
| ToleranceUnachievable
| LimitTooSmall (limit npts : nat)
| BreakpointOutsideInterval.

(** quad.rs 301-313, 316-328, 331-337 (the decimal literals of the source) *)
Definition XGK21 : list Q := [
  0.995657163025808080735527280689003; 0.973906528517171720077964012084452;
  0.930157491355708226001207180059508; 0.865063366688984510732096688423493;
  0.780817726586416897063717578345042; 0.679409568299024406234327365114874;
  0.562757134668604683339000099272694; 0.433395394129247190799265943165784;
  0.294392862701460198131126603103866; 0.148874338981631210884826001129720;
  0.000000000000000000000000000000000]%Q.
Definition WGK21 : list Q := [
  0.011694638867371874278064396062192; 0.032558162307964727478818972459390;
  0.054755896574351996031381300244580; 0.075039674810919952767043140916190;
  0.093125454583697605535065465083366; 0.109387158802297641899210590325805;
  0.123491976262065851077958109831074; 0.134709217311473325928054001771707;
  0.142775938577060080797094273138717; 0.147739104901338491374841515972068;
  0.149445554002916905664936468389821]%Q.
Definition WG21 : list Q := [
  0.066671344308688137593568809893332; 0.149451349150580593145776339657697;
  0.219086362515982043995534934228163; 0.269266719309996355091226921569469;
  0.295524224714752870173892994651338]%Q.
(** quad.rs 265-274, 277-286, 293-298 *)
Definition XGK15 : list Q := [
  0.991455371120812639206854697526329; 0.949107912342758524526189684047851;
  0.864864423359769072789712788640926; 0.741531185599394439863864773280788;
  0.586087235467691130294144838258730; 0.405845151377397166906606412076961;
  0.207784955007898467600689403773245; 0.000000000000000000000000000000000]%Q.
Definition WGK15 : list Q := [
  0.022935322010529224963732008058970; 0.063092092629978553290700663189204;
  0.104790010322250183839876322541518; 0.140653259715525918745189590510238;
  0.169004726639267902826583426598550; 0.190350578064785409913256402421014;
  0.204432940075298892414161999234649; 0.209482141084727828012999174891714]%Q.
Definition WG15 : list Q := [
  0.129484966168869693270611432679082; 0.279705391489276667901467771423780;
  0.381830050505118944950369775488975; 0.417959183673469387755102040816327]%Q.

(** quad.rs 90, 106-113; usize overflow of [2 * current] saturates in the source and is not an
    issue for naturals *)
Definition workspace_len (limit needed : nat) : nat := Nat.min (Nat.max needed 64) limit + 2.
Definition grown_workspace_len (current limit : nat) : nat := Nat.min (2 * current) (limit + 2).

Section Quad.
Variable N : Num.
Notation FN := (F N).
Notation R := (rr QuadError).
Local Notation "a +. b" := (fadd N a b) (at level 50, left associativity).
Local Notation "a -. b" := (fsub N a b) (at level 50, left associativity).
Local Notation "a *. b" := (fmul N a b) (at level 40, left associativity).
Local Notation "a /. b" := (fdiv N a b) (at level 40, left associativity).
Local Notation abs := (fabs N).
Local Notation "# q" := (lit N q%Q) (at level 5, q at level 0).
Local Notation "a <. b" := (flt N a b) (at level 70).
Local Notation "a <=. b" := (fle N a b) (at level 70).
Local Notation "a ==. b" := (feq N a b) (at level 70).

(** An integrand: the value returned by the [k]-th call at point [x] (a Rust [FnMut] may keep
    state, so equal arguments need not give equal values).  Calls are numbered from 0. *)
Definition fn : Type := nat -> FN -> FN.

(** quad.rs 245-254 *)
Record kronrod : Type := Kronrod { k_result : FN; k_abserr : FN; k_resabs : FN; k_resasc : FN }.

(** quad.rs 344-362 *)
Definition kronrod_error (resk resg resabs resasc hlgth : FN) : kronrod :=
  let dhlgth := abs hlgth in
  let result := resk *. hlgth in
  let resabs := resabs *. dhlgth in
  let resasc := resasc *. dhlgth in
  let abserr := abs ((resk -. resg) *. hlgth) in
  let abserr := if negb (resasc ==. #0) && negb (abserr ==. #0)
    then resasc *. fmin N #1 (fpow15 N (#200 *. abserr /. resasc)) else abserr in
  let abserr := if uflow N /. (#50 *. epmach N) <. resabs
    then fmax N ((epmach N *. #50) *. resabs) abserr else abserr in
  Kronrod result abserr resabs resasc.

(** quad.rs 368-418; the last component is the number of calls made so far *)
Definition qk15 (f : fn) (c : nat) (a b : FN) : R (kronrod * nat) :=
  let centr := #0.5 *. (a +. b) in
  let hlgth := #0.5 *. (b -. a) in
  let fv1 := repeat (lit N 0) 8 in
  let fv2 := repeat (lit N 0) 8 in
  let fc := f c centr in
  let c := S c in
  wg3 <- get WG15 3 ;; wk7 <- get WGK15 7 ;;
  let resg := fc *. lit N wg3 in
  let resk := fc *. lit N wk7 in
  let resabs := abs resk in
  ' (fv1, fv2, resg, resk, resabs, c) <-
    for_range 1 3 (fun j s => match s with (fv1, fv2, resg, resk, resabs, c) =>
      let jtw := 2 * j in
      x <- get XGK15 (jtw - 1) ;; w <- get WGK15 (jtw - 1) ;; g <- get WG15 (j - 1) ;;
      let absc := hlgth *. lit N x in
      let fval1 := f c (centr -. absc) in
      let fval2 := f (S c) (centr +. absc) in
      fv1 <- set fv1 (jtw - 1) fval1 ;; fv2 <- set fv2 (jtw - 1) fval2 ;;
      let fsum := fval1 +. fval2 in
      Ok (Cont (fv1, fv2, resg +. lit N g *. fsum, resk +. lit N w *. fsum,
                resabs +. lit N w *. (abs fval1 +. abs fval2), S (S c))) end)
      (fv1, fv2, resg, resk, resabs, c) ;;
  ' (fv1, fv2, resk, resabs, c) <-
    for_range 1 4 (fun j s => match s with (fv1, fv2, resk, resabs, c) =>
      let jtwm1 := 2 * j - 1 in
      x <- get XGK15 (jtwm1 - 1) ;; w <- get WGK15 (jtwm1 - 1) ;;
      let absc := hlgth *. lit N x in
      let fval1 := f c (centr -. absc) in
      let fval2 := f (S c) (centr +. absc) in
      fv1 <- set fv1 (jtwm1 - 1) fval1 ;; fv2 <- set fv2 (jtwm1 - 1) fval2 ;;
      let fsum := fval1 +. fval2 in
      Ok (Cont (fv1, fv2, resk +. lit N w *. fsum,
                resabs +. lit N w *. (abs fval1 +. abs fval2), S (S c))) end)
      (fv1, fv2, resk, resabs, c) ;;
  let reskh := resk *. #0.5 in
  resasc <-
    for_range 1 7 (fun j resasc =>
      w <- get WGK15 (j - 1) ;; f1 <- get fv1 (j - 1) ;; f2 <- get fv2 (j - 1) ;;
      Ok (Cont (resasc +. lit N w *. (abs (f1 -. reskh) +. abs (f2 -. reskh)))))
      (lit N wk7 *. abs (fc -. reskh)) ;;
  Ok (kronrod_error resk resg resabs resasc hlgth, c).

(** quad.rs 424-475 *)
Definition qk21 (f : fn) (c : nat) (a b : FN) : R (kronrod * nat) :=
  let centr := #0.5 *. (a +. b) in
  let hlgth := #0.5 *. (b -. a) in
  let fv1 := repeat (lit N 0) 11 in
  let fv2 := repeat (lit N 0) 11 in
  let resg := lit N 0 in
  let fc := f c centr in
  let c := S c in
  wk10 <- get WGK21 10 ;;
  let resk := lit N wk10 *. fc in
  let resabs := abs resk in
  ' (fv1, fv2, resg, resk, resabs, c) <-
    for_range 1 5 (fun j s => match s with (fv1, fv2, resg, resk, resabs, c) =>
      let jtw := 2 * j in
      x <- get XGK21 (jtw - 1) ;; w <- get WGK21 (jtw - 1) ;; g <- get WG21 (j - 1) ;;
      let absc := hlgth *. lit N x in
      let fval1 := f c (centr -. absc) in
      let fval2 := f (S c) (centr +. absc) in
      fv1 <- set fv1 (jtw - 1) fval1 ;; fv2 <- set fv2 (jtw - 1) fval2 ;;
      let fsum := fval1 +. fval2 in
      Ok (Cont (fv1, fv2, resg +. lit N g *. fsum, resk +. lit N w *. fsum,
                resabs +. lit N w *. (abs fval1 +. abs fval2), S (S c))) end)
      (fv1, fv2, resg, resk, resabs, c) ;;
  ' (fv1, fv2, resk, resabs, c) <-
    for_range 1 5 (fun j s => match s with (fv1, fv2, resk, resabs, c) =>
      let jtwm1 := 2 * j - 1 in
      x <- get XGK21 (jtwm1 - 1) ;; w <- get WGK21 (jtwm1 - 1) ;;
      let absc := hlgth *. lit N x in
      let fval1 := f c (centr -. absc) in
      let fval2 := f (S c) (centr +. absc) in
      fv1 <- set fv1 (jtwm1 - 1) fval1 ;; fv2 <- set fv2 (jtwm1 - 1) fval2 ;;
      let fsum := fval1 +. fval2 in
      Ok (Cont (fv1, fv2, resk +. lit N w *. fsum,
                resabs +. lit N w *. (abs fval1 +. abs fval2), S (S c))) end)
      (fv1, fv2, resk, resabs, c) ;;
  let reskh := resk *. #0.5 in
  resasc <-
    for_range 1 10 (fun j resasc =>
      w <- get WGK21 (j - 1) ;; f1 <- get fv1 (j - 1) ;; f2 <- get fv2 (j - 1) ;;
      Ok (Cont (resasc +. lit N w *. (abs (f1 -. reskh) +. abs (f2 -. reskh)))))
      (lit N wk10 *. abs (fc -. reskh)) ;;
  Ok (kronrod_error resk resg resabs resasc hlgth, c).

(** State of the table loop in qelg (quad.rs 508-559). *)
Record elg : Type := Elg {
  e_n : nat; e_tab : list FN; e_k1 : nat; e_result : FN; e_abserr : FN; e_conv : bool }.

(** quad.rs 508-559, one iteration *)
Definition qelg_body (i : nat) (s : elg) : R (ctl elg) :=
  let k1 := e_k1 s in
  k2 <- csub k1 1 ;;
  k3 <- csub k1 2 ;;
  res <- get (e_tab s) (k1 + 2) ;;
  e0 <- get (e_tab s) k3 ;;
  e1 <- get (e_tab s) k2 ;;
  let e2 := res in
  let e1abs := abs e1 in
  let delta2 := e2 -. e1 in
  let err2 := abs delta2 in
  let tol2 := fmax N (abs e2) e1abs *. epmach N in
  let delta3 := e1 -. e0 in
  let err3 := abs delta3 in
  let tol3 := fmax N e1abs (abs e0) *. epmach N in
  if negb ((tol2 <. err2) || (tol3 <. err3)) then
    Ok (Brk (Elg (e_n s) (e_tab s) k1 res (err2 +. err3) true))
  else
  e3 <- get (e_tab s) k1 ;;
  tab <- set (e_tab s) k1 e1 ;;
  let delta1 := e1 -. e3 in
  let err1 := abs delta1 in
  let tol1 := fmax N e1abs (abs e3) *. epmach N in
  let truncate := (err1 <=. tol1) || (err2 <=. tol2) || (err3 <=. tol3) in
  let ss := #1 /. delta1 +. #1 /. delta2 -. #1 /. delta3 in
  let truncate := if truncate then true else abs (ss *. e1) <=. #(0.1e-3) in
  if truncate then
    Ok (Brk (Elg (i + i - 1) tab k1 (e_result s) (e_abserr s) false))
  else
  let res := e1 +. #1 /. ss in
  tab <- set tab k1 res ;;
  k1' <- csub k1 2 ;;
  let error := err2 +. abs (res -. e2) +. err3 in
  if error <=. e_abserr s
  then Ok (Cont (Elg (e_n s) tab k1' res error false))
  else Ok (Cont (Elg (e_n s) tab k1' (e_result s) (e_abserr s) false)).

(** quad.rs 569-578: shift the table *)
Definition qelg_shift (num newelm : nat) (tab : list FN) : R (list FN) :=
  let ib := if Nat.eqb (num / 2 * 2) num then 2 else 1 in
  ' (tab, _) <- for_range 1 (newelm + 1) (fun _ s => match s with (tab, ib) =>
      let ib2 := ib + 2 in
      v <- get tab ib2 ;; tab <- set tab ib v ;; Ok (Cont (tab, ib2)) end) (tab, ib) ;;
  Ok tab.
(** quad.rs 579-585 *)
Definition qelg_drop (num n : nat) (tab : list FN) : R (list FN) :=
  if Nat.eqb num n then Ok tab else
  d <- csub num n ;;
  ' (tab, _) <- for_range 1 n (fun i s => match s with (tab, indx) =>
      v <- get tab indx ;; tab <- set tab i v ;; Ok (Cont (tab, indx + 1)) end) (tab, d + 1) ;;
  Ok tab.

(** quad.rs 489-600: returns n, the table, res3la, nres, result, abserr *)
Definition qelg (n : nat) (tab res3la : list FN) (nres : nat)
  : R (nat * list FN * list FN * nat * FN * FN) :=
  let nres := nres + 1 in
  let final (result abserr : FN) := fmax N abserr (#5 *. epmach N *. abs result) in
  result <- get tab n ;;
  if Nat.ltb n 3 then Ok (n, tab, res3la, nres, result, final result (oflow N)) else
  v <- get tab n ;;
  tab <- set tab (n + 2) v ;;
  n1 <- csub n 1 ;;
  let newelm := n1 / 2 in
  tab <- set tab n (oflow N) ;;
  s <- for_range 1 newelm qelg_body (Elg n tab n result (oflow N) false) ;;
  if e_conv s then Ok (e_n s, e_tab s, res3la, nres, e_result s, final (e_result s) (e_abserr s)) else
  let num := n in
  let n := if Nat.eqb (e_n s) 50 then 2 * (50 / 2) - 1 else e_n s in
  tab <- qelg_shift num newelm (e_tab s) ;;
  tab <- qelg_drop num n tab ;;
  let result := e_result s in
  if Nat.ltb nres 4 then
    res3la <- set res3la nres result ;;
    Ok (n, tab, res3la, nres, result, final result (oflow N))
  else
    r3 <- get res3la 3 ;; r2 <- get res3la 2 ;; r1 <- get res3la 1 ;;
    let abserr := abs (result -. r3) +. abs (result -. r2) +. abs (result -. r1) in
    res3la <- set res3la 1 r2 ;;
    res3la <- set res3la 2 r3 ;;
    res3la <- set res3la 3 result ;;
    Ok (n, tab, res3la, nres, result, final result abserr).

(** quad.rs 648-651 and 940-943, 1380-1383 *)
Definition upper (limit last : nat) : R nat :=
  if Nat.ltb (limit / 2 + 2) last then csub (limit + 3) last else Ok last.

(** quad.rs 699-701 (and 627-629) *)
Definition qpsrt_end (elist : list FN) (iord : list nat) (nrmax : nat) : R (nat * FN * list nat * nat) :=
  m <- get iord nrmax ;; e <- get elist m ;; Ok (m, e, iord, nrmax).

(** quad.rs 634-645: move the bisected interval up while its error exceeds its predecessor's *)
Definition qpsrt_up (elist : list FN) (errmax : FN) (iord : list nat) (nrmax : nat) : R (list nat * nat) :=
  if Nat.eqb nrmax 1 then Ok (iord, nrmax) else
  ido <- csub nrmax 1 ;;
  for_range 1 ido (fun _ s => match s with (iord, nrmax) =>
    p <- csub nrmax 1 ;;
    isucc <- get iord p ;;
    es <- get elist isucc ;;
    if errmax <=. es then Ok (Brk (iord, nrmax)) else
    iord <- set iord nrmax isucc ;;
    Ok (Cont (iord, p)) end) (iord, nrmax).

(** quad.rs 657-668: top-down insertion of errmax; [Some i] is the place found *)
Definition qpsrt_down (elist : list FN) (errmax : FN) (iord : list nat) (ibeg jbnd : nat)
  : R (list nat * option nat) :=
  for_range ibeg jbnd (fun i s => match s with (iord, _) =>
    isucc <- get iord i ;;
    es <- get elist isucc ;;
    if es <=. errmax then Ok (Brk (iord, Some i)) else
    im1 <- csub i 1 ;;
    iord <- set iord im1 isucc ;;
    Ok (Cont (iord, None)) end) (iord, None).

(** quad.rs 680-697: bottom-up insertion of errmin *)
Definition qpsrt_bottom (elist : list FN) (errmin : FN) (last : nat) (iord : list nat) (i jbnd : nat)
  : R (list nat) :=
  ' (iord, _, placed) <- for_range i jbnd (fun _ s => match s with (iord, k, _) =>
    isucc <- get iord k ;;
    es <- get elist isucc ;;
    if errmin <. es then
      iord <- set iord (k + 1) last ;; Ok (Brk (iord, k, true))
    else
      iord <- set iord (k + 1) isucc ;;
      k' <- csub k 1 ;;
      Ok (Cont (iord, k', false)) end) (iord, jbnd, false) ;;
  if placed then Ok iord else set iord i last.

(** quad.rs 615-702: returns maxerr, ermax, iord, nrmax *)
Definition qpsrt (limit last maxerr : nat) (elist : list FN) (iord : list nat) (nrmax : nat)
  : R (nat * FN * list nat * nat) :=
  if Nat.leb last 2 then
    iord <- set iord 1 1 ;;
    iord <- set iord 2 2 ;;
    qpsrt_end elist iord nrmax
  else
  errmax <- get elist maxerr ;;
  ' (iord, nrmax) <- qpsrt_up elist errmax iord nrmax ;;
  jupbn <- upper limit last ;;
  errmin <- get elist last ;;
  jbnd <- csub jupbn 1 ;;
  let ibeg := nrmax + 1 in
  ' (iord, at_) <- qpsrt_down elist errmax iord ibeg jbnd ;;
  match at_ with
  | None =>
      iord <- set iord jbnd maxerr ;;
      iord <- set iord jupbn last ;;
      qpsrt_end elist iord nrmax
  | Some i =>
      im1 <- csub i 1 ;;
      iord <- set iord im1 maxerr ;;
      iord <- qpsrt_bottom elist errmin last iord i jbnd ;;
      qpsrt_end elist iord nrmax
  end.

(** The workspaces alist, blist, rlist, elist, iord (quad.rs 741-745, 1123-1127). *)
Record work : Type := Work { al : list FN; bl : list FN; rl : list FN; el : list FN; io : list nat }.

(** The variables of the two main loops (quad.rs 740-814 and 1122-1263) and [q_cnt], the number of
    integrand calls made so far.  Variables that only one routine has ([small] in qagse; [lev],
    [levmax], [neval] in qagpe) are not used by the other.  The i32 counters are naturals. *)
Record st : Type := St {
  q_wk : work;
  q_cap : nat;
  q_lev : list nat;
  q_maxerr : nat;
  q_errmax : FN;
  q_nrmax : nat;
  q_area : FN;
  q_errsum : FN;
  q_errbnd : FN;
  q_erlarg : FN;
  q_ertest : FN;
  q_small : FN;
  q_correc : FN;
  q_result : FN;
  q_abserr : FN;
  q_levmax : nat;
  q_rlist2 : list FN;
  q_res3la : list FN;
  q_numrl2 : nat;
  q_nres : nat;
  q_ier : nat;
  q_ierro : nat;
  q_ktmin : nat;
  q_iroff1 : nat;
  q_iroff2 : nat;
  q_iroff3 : nat;
  q_extrap : bool;
  q_noext : bool;
  q_last : nat;
  q_neval : nat;
  q_cnt : nat;
  q_goto_sum : bool
}.
(** Assignments to one variable. *)
Definition w_wk (v : work) (s : st) : st := St v (q_cap s) (q_lev s) (q_maxerr s) (q_errmax s) (q_nrmax s) (q_area s) (q_errsum s) (q_errbnd s) (q_erlarg s) (q_ertest s) (q_small s) (q_correc s) (q_result s) (q_abserr s) (q_levmax s) (q_rlist2 s) (q_res3la s) (q_numrl2 s) (q_nres s) (q_ier s) (q_ierro s) (q_ktmin s) (q_iroff1 s) (q_iroff2 s) (q_iroff3 s) (q_extrap s) (q_noext s) (q_last s) (q_neval s) (q_cnt s) (q_goto_sum s).
Definition w_cap (v : nat) (s : st) : st := St (q_wk s) v (q_lev s) (q_maxerr s) (q_errmax s) (q_nrmax s) (q_area s) (q_errsum s) (q_errbnd s) (q_erlarg s) (q_ertest s) (q_small s) (q_correc s) (q_result s) (q_abserr s) (q_levmax s) (q_rlist2 s) (q_res3la s) (q_numrl2 s) (q_nres s) (q_ier s) (q_ierro s) (q_ktmin s) (q_iroff1 s) (q_iroff2 s) (q_iroff3 s) (q_extrap s) (q_noext s) (q_last s) (q_neval s) (q_cnt s) (q_goto_sum s).
Definition w_lev (v : list nat) (s : st) : st := St (q_wk s) (q_cap s) v (q_maxerr s) (q_errmax s) (q_nrmax s) (q_area s) (q_errsum s) (q_errbnd s) (q_erlarg s) (q_ertest s) (q_small s) (q_correc s) (q_result s) (q_abserr s) (q_levmax s) (q_rlist2 s) (q_res3la s) (q_numrl2 s) (q_nres s) (q_ier s) (q_ierro s) (q_ktmin s) (q_iroff1 s) (q_iroff2 s) (q_iroff3 s) (q_extrap s) (q_noext s) (q_last s) (q_neval s) (q_cnt s) (q_goto_sum s).
Definition w_maxerr (v : nat) (s : st) : st := St (q_wk s) (q_cap s) (q_lev s) v (q_errmax s) (q_nrmax s) (q_area s) (q_errsum s) (q_errbnd s) (q_erlarg s) (q_ertest s) (q_small s) (q_correc s) (q_result s) (q_abserr s) (q_levmax s) (q_rlist2 s) (q_res3la s) (q_numrl2 s) (q_nres s) (q_ier s) (q_ierro s) (q_ktmin s) (q_iroff1 s) (q_iroff2 s) (q_iroff3 s) (q_extrap s) (q_noext s) (q_last s) (q_neval s) (q_cnt s) (q_goto_sum s).
Definition w_errmax (v : FN) (s : st) : st := St (q_wk s) (q_cap s) (q_lev s) (q_maxerr s) v (q_nrmax s) (q_area s) (q_errsum s) (q_errbnd s) (q_erlarg s) (q_ertest s) (q_small s) (q_correc s) (q_result s) (q_abserr s) (q_levmax s) (q_rlist2 s) (q_res3la s) (q_numrl2 s) (q_nres s) (q_ier s) (q_ierro s) (q_ktmin s) (q_iroff1 s) (q_iroff2 s) (q_iroff3 s) (q_extrap s) (q_noext s) (q_last s) (q_neval s) (q_cnt s) (q_goto_sum s).
Definition w_nrmax (v : nat) (s : st) : st := St (q_wk s) (q_cap s) (q_lev s) (q_maxerr s) (q_errmax s) v (q_area s) (q_errsum s) (q_errbnd s) (q_erlarg s) (q_ertest s) (q_small s) (q_correc s) (q_result s) (q_abserr s) (q_levmax s) (q_rlist2 s) (q_res3la s) (q_numrl2 s) (q_nres s) (q_ier s) (q_ierro s) (q_ktmin s) (q_iroff1 s) (q_iroff2 s) (q_iroff3 s) (q_extrap s) (q_noext s) (q_last s) (q_neval s) (q_cnt s) (q_goto_sum s).
Definition w_area (v : FN) (s : st) : st := St (q_wk s) (q_cap s) (q_lev s) (q_maxerr s) (q_errmax s) (q_nrmax s) v (q_errsum s) (q_errbnd s) (q_erlarg s) (q_ertest s) (q_small s) (q_correc s) (q_result s) (q_abserr s) (q_levmax s) (q_rlist2 s) (q_res3la s) (q_numrl2 s) (q_nres s) (q_ier s) (q_ierro s) (q_ktmin s) (q_iroff1 s) (q_iroff2 s) (q_iroff3 s) (q_extrap s) (q_noext s) (q_last s) (q_neval s) (q_cnt s) (q_goto_sum s).
Definition w_errsum (v : FN) (s : st) : st := St (q_wk s) (q_cap s) (q_lev s) (q_maxerr s) (q_errmax s) (q_nrmax s) (q_area s) v (q_errbnd s) (q_erlarg s) (q_ertest s) (q_small s) (q_correc s) (q_result s) (q_abserr s) (q_levmax s) (q_rlist2 s) (q_res3la s) (q_numrl2 s) (q_nres s) (q_ier s) (q_ierro s) (q_ktmin s) (q_iroff1 s) (q_iroff2 s) (q_iroff3 s) (q_extrap s) (q_noext s) (q_last s) (q_neval s) (q_cnt s) (q_goto_sum s).
Definition w_errbnd (v : FN) (s : st) : st := St (q_wk s) (q_cap s) (q_lev s) (q_maxerr s) (q_errmax s) (q_nrmax s) (q_area s) (q_errsum s) v (q_erlarg s) (q_ertest s) (q_small s) (q_correc s) (q_result s) (q_abserr s) (q_levmax s) (q_rlist2 s) (q_res3la s) (q_numrl2 s) (q_nres s) (q_ier s) (q_ierro s) (q_ktmin s) (q_iroff1 s) (q_iroff2 s) (q_iroff3 s) (q_extrap s) (q_noext s) (q_last s) (q_neval s) (q_cnt s) (q_goto_sum s).
Definition w_erlarg (v : FN) (s : st) : st := St (q_wk s) (q_cap s) (q_lev s) (q_maxerr s) (q_errmax s) (q_nrmax s) (q_area s) (q_errsum s) (q_errbnd s) v (q_ertest s) (q_small s) (q_correc s) (q_result s) (q_abserr s) (q_levmax s) (q_rlist2 s) (q_res3la s) (q_numrl2 s) (q_nres s) (q_ier s) (q_ierro s) (q_ktmin s) (q_iroff1 s) (q_iroff2 s) (q_iroff3 s) (q_extrap s) (q_noext s) (q_last s) (q_neval s) (q_cnt s) (q_goto_sum s).
Definition w_ertest (v : FN) (s : st) : st := St (q_wk s) (q_cap s) (q_lev s) (q_maxerr s) (q_errmax s) (q_nrmax s) (q_area s) (q_errsum s) (q_errbnd s) (q_erlarg s) v (q_small s) (q_correc s) (q_result s) (q_abserr s) (q_levmax s) (q_rlist2 s) (q_res3la s) (q_numrl2 s) (q_nres s) (q_ier s) (q_ierro s) (q_ktmin s) (q_iroff1 s) (q_iroff2 s) (q_iroff3 s) (q_extrap s) (q_noext s) (q_last s) (q_neval s) (q_cnt s) (q_goto_sum s).
Definition w_small (v : FN) (s : st) : st := St (q_wk s) (q_cap s) (q_lev s) (q_maxerr s) (q_errmax s) (q_nrmax s) (q_area s) (q_errsum s) (q_errbnd s) (q_erlarg s) (q_ertest s) v (q_correc s) (q_result s) (q_abserr s) (q_levmax s) (q_rlist2 s) (q_res3la s) (q_numrl2 s) (q_nres s) (q_ier s) (q_ierro s) (q_ktmin s) (q_iroff1 s) (q_iroff2 s) (q_iroff3 s) (q_extrap s) (q_noext s) (q_last s) (q_neval s) (q_cnt s) (q_goto_sum s).
Definition w_correc (v : FN) (s : st) : st := St (q_wk s) (q_cap s) (q_lev s) (q_maxerr s) (q_errmax s) (q_nrmax s) (q_area s) (q_errsum s) (q_errbnd s) (q_erlarg s) (q_ertest s) (q_small s) v (q_result s) (q_abserr s) (q_levmax s) (q_rlist2 s) (q_res3la s) (q_numrl2 s) (q_nres s) (q_ier s) (q_ierro s) (q_ktmin s) (q_iroff1 s) (q_iroff2 s) (q_iroff3 s) (q_extrap s) (q_noext s) (q_last s) (q_neval s) (q_cnt s) (q_goto_sum s).
Definition w_result (v : FN) (s : st) : st := St (q_wk s) (q_cap s) (q_lev s) (q_maxerr s) (q_errmax s) (q_nrmax s) (q_area s) (q_errsum s) (q_errbnd s) (q_erlarg s) (q_ertest s) (q_small s) (q_correc s) v (q_abserr s) (q_levmax s) (q_rlist2 s) (q_res3la s) (q_numrl2 s) (q_nres s) (q_ier s) (q_ierro s) (q_ktmin s) (q_iroff1 s) (q_iroff2 s) (q_iroff3 s) (q_extrap s) (q_noext s) (q_last s) (q_neval s) (q_cnt s) (q_goto_sum s).
Definition w_abserr (v : FN) (s : st) : st := St (q_wk s) (q_cap s) (q_lev s) (q_maxerr s) (q_errmax s) (q_nrmax s) (q_area s) (q_errsum s) (q_errbnd s) (q_erlarg s) (q_ertest s) (q_small s) (q_correc s) (q_result s) v (q_levmax s) (q_rlist2 s) (q_res3la s) (q_numrl2 s) (q_nres s) (q_ier s) (q_ierro s) (q_ktmin s) (q_iroff1 s) (q_iroff2 s) (q_iroff3 s) (q_extrap s) (q_noext s) (q_last s) (q_neval s) (q_cnt s) (q_goto_sum s).
Definition w_levmax (v : nat) (s : st) : st := St (q_wk s) (q_cap s) (q_lev s) (q_maxerr s) (q_errmax s) (q_nrmax s) (q_area s) (q_errsum s) (q_errbnd s) (q_erlarg s) (q_ertest s) (q_small s) (q_correc s) (q_result s) (q_abserr s) v (q_rlist2 s) (q_res3la s) (q_numrl2 s) (q_nres s) (q_ier s) (q_ierro s) (q_ktmin s) (q_iroff1 s) (q_iroff2 s) (q_iroff3 s) (q_extrap s) (q_noext s) (q_last s) (q_neval s) (q_cnt s) (q_goto_sum s).
Definition w_rlist2 (v : list FN) (s : st) : st := St (q_wk s) (q_cap s) (q_lev s) (q_maxerr s) (q_errmax s) (q_nrmax s) (q_area s) (q_errsum s) (q_errbnd s) (q_erlarg s) (q_ertest s) (q_small s) (q_correc s) (q_result s) (q_abserr s) (q_levmax s) v (q_res3la s) (q_numrl2 s) (q_nres s) (q_ier s) (q_ierro s) (q_ktmin s) (q_iroff1 s) (q_iroff2 s) (q_iroff3 s) (q_extrap s) (q_noext s) (q_last s) (q_neval s) (q_cnt s) (q_goto_sum s).
Definition w_res3la (v : list FN) (s : st) : st := St (q_wk s) (q_cap s) (q_lev s) (q_maxerr s) (q_errmax s) (q_nrmax s) (q_area s) (q_errsum s) (q_errbnd s) (q_erlarg s) (q_ertest s) (q_small s) (q_correc s) (q_result s) (q_abserr s) (q_levmax s) (q_rlist2 s) v (q_numrl2 s) (q_nres s) (q_ier s) (q_ierro s) (q_ktmin s) (q_iroff1 s) (q_iroff2 s) (q_iroff3 s) (q_extrap s) (q_noext s) (q_last s) (q_neval s) (q_cnt s) (q_goto_sum s).
Definition w_numrl2 (v : nat) (s : st) : st := St (q_wk s) (q_cap s) (q_lev s) (q_maxerr s) (q_errmax s) (q_nrmax s) (q_area s) (q_errsum s) (q_errbnd s) (q_erlarg s) (q_ertest s) (q_small s) (q_correc s) (q_result s) (q_abserr s) (q_levmax s) (q_rlist2 s) (q_res3la s) v (q_nres s) (q_ier s) (q_ierro s) (q_ktmin s) (q_iroff1 s) (q_iroff2 s) (q_iroff3 s) (q_extrap s) (q_noext s) (q_last s) (q_neval s) (q_cnt s) (q_goto_sum s).
Definition w_nres (v : nat) (s : st) : st := St (q_wk s) (q_cap s) (q_lev s) (q_maxerr s) (q_errmax s) (q_nrmax s) (q_area s) (q_errsum s) (q_errbnd s) (q_erlarg s) (q_ertest s) (q_small s) (q_correc s) (q_result s) (q_abserr s) (q_levmax s) (q_rlist2 s) (q_res3la s) (q_numrl2 s) v (q_ier s) (q_ierro s) (q_ktmin s) (q_iroff1 s) (q_iroff2 s) (q_iroff3 s) (q_extrap s) (q_noext s) (q_last s) (q_neval s) (q_cnt s) (q_goto_sum s).
Definition w_ier (v : nat) (s : st) : st := St (q_wk s) (q_cap s) (q_lev s) (q_maxerr s) (q_errmax s) (q_nrmax s) (q_area s) (q_errsum s) (q_errbnd s) (q_erlarg s) (q_ertest s) (q_small s) (q_correc s) (q_result s) (q_abserr s) (q_levmax s) (q_rlist2 s) (q_res3la s) (q_numrl2 s) (q_nres s) v (q_ierro s) (q_ktmin s) (q_iroff1 s) (q_iroff2 s) (q_iroff3 s) (q_extrap s) (q_noext s) (q_last s) (q_neval s) (q_cnt s) (q_goto_sum s).
Definition w_ierro (v : nat) (s : st) : st := St (q_wk s) (q_cap s) (q_lev s) (q_maxerr s) (q_errmax s) (q_nrmax s) (q_area s) (q_errsum s) (q_errbnd s) (q_erlarg s) (q_ertest s) (q_small s) (q_correc s) (q_result s) (q_abserr s) (q_levmax s) (q_rlist2 s) (q_res3la s) (q_numrl2 s) (q_nres s) (q_ier s) v (q_ktmin s) (q_iroff1 s) (q_iroff2 s) (q_iroff3 s) (q_extrap s) (q_noext s) (q_last s) (q_neval s) (q_cnt s) (q_goto_sum s).
Definition w_ktmin (v : nat) (s : st) : st := St (q_wk s) (q_cap s) (q_lev s) (q_maxerr s) (q_errmax s) (q_nrmax s) (q_area s) (q_errsum s) (q_errbnd s) (q_erlarg s) (q_ertest s) (q_small s) (q_correc s) (q_result s) (q_abserr s) (q_levmax s) (q_rlist2 s) (q_res3la s) (q_numrl2 s) (q_nres s) (q_ier s) (q_ierro s) v (q_iroff1 s) (q_iroff2 s) (q_iroff3 s) (q_extrap s) (q_noext s) (q_last s) (q_neval s) (q_cnt s) (q_goto_sum s).
Definition w_iroff1 (v : nat) (s : st) : st := St (q_wk s) (q_cap s) (q_lev s) (q_maxerr s) (q_errmax s) (q_nrmax s) (q_area s) (q_errsum s) (q_errbnd s) (q_erlarg s) (q_ertest s) (q_small s) (q_correc s) (q_result s) (q_abserr s) (q_levmax s) (q_rlist2 s) (q_res3la s) (q_numrl2 s) (q_nres s) (q_ier s) (q_ierro s) (q_ktmin s) v (q_iroff2 s) (q_iroff3 s) (q_extrap s) (q_noext s) (q_last s) (q_neval s) (q_cnt s) (q_goto_sum s).
Definition w_iroff2 (v : nat) (s : st) : st := St (q_wk s) (q_cap s) (q_lev s) (q_maxerr s) (q_errmax s) (q_nrmax s) (q_area s) (q_errsum s) (q_errbnd s) (q_erlarg s) (q_ertest s) (q_small s) (q_correc s) (q_result s) (q_abserr s) (q_levmax s) (q_rlist2 s) (q_res3la s) (q_numrl2 s) (q_nres s) (q_ier s) (q_ierro s) (q_ktmin s) (q_iroff1 s) v (q_iroff3 s) (q_extrap s) (q_noext s) (q_last s) (q_neval s) (q_cnt s) (q_goto_sum s).
Definition w_iroff3 (v : nat) (s : st) : st := St (q_wk s) (q_cap s) (q_lev s) (q_maxerr s) (q_errmax s) (q_nrmax s) (q_area s) (q_errsum s) (q_errbnd s) (q_erlarg s) (q_ertest s) (q_small s) (q_correc s) (q_result s) (q_abserr s) (q_levmax s) (q_rlist2 s) (q_res3la s) (q_numrl2 s) (q_nres s) (q_ier s) (q_ierro s) (q_ktmin s) (q_iroff1 s) (q_iroff2 s) v (q_extrap s) (q_noext s) (q_last s) (q_neval s) (q_cnt s) (q_goto_sum s).
Definition w_extrap (v : bool) (s : st) : st := St (q_wk s) (q_cap s) (q_lev s) (q_maxerr s) (q_errmax s) (q_nrmax s) (q_area s) (q_errsum s) (q_errbnd s) (q_erlarg s) (q_ertest s) (q_small s) (q_correc s) (q_result s) (q_abserr s) (q_levmax s) (q_rlist2 s) (q_res3la s) (q_numrl2 s) (q_nres s) (q_ier s) (q_ierro s) (q_ktmin s) (q_iroff1 s) (q_iroff2 s) (q_iroff3 s) v (q_noext s) (q_last s) (q_neval s) (q_cnt s) (q_goto_sum s).
Definition w_noext (v : bool) (s : st) : st := St (q_wk s) (q_cap s) (q_lev s) (q_maxerr s) (q_errmax s) (q_nrmax s) (q_area s) (q_errsum s) (q_errbnd s) (q_erlarg s) (q_ertest s) (q_small s) (q_correc s) (q_result s) (q_abserr s) (q_levmax s) (q_rlist2 s) (q_res3la s) (q_numrl2 s) (q_nres s) (q_ier s) (q_ierro s) (q_ktmin s) (q_iroff1 s) (q_iroff2 s) (q_iroff3 s) (q_extrap s) v (q_last s) (q_neval s) (q_cnt s) (q_goto_sum s).
Definition w_last (v : nat) (s : st) : st := St (q_wk s) (q_cap s) (q_lev s) (q_maxerr s) (q_errmax s) (q_nrmax s) (q_area s) (q_errsum s) (q_errbnd s) (q_erlarg s) (q_ertest s) (q_small s) (q_correc s) (q_result s) (q_abserr s) (q_levmax s) (q_rlist2 s) (q_res3la s) (q_numrl2 s) (q_nres s) (q_ier s) (q_ierro s) (q_ktmin s) (q_iroff1 s) (q_iroff2 s) (q_iroff3 s) (q_extrap s) (q_noext s) v (q_neval s) (q_cnt s) (q_goto_sum s).
Definition w_neval (v : nat) (s : st) : st := St (q_wk s) (q_cap s) (q_lev s) (q_maxerr s) (q_errmax s) (q_nrmax s) (q_area s) (q_errsum s) (q_errbnd s) (q_erlarg s) (q_ertest s) (q_small s) (q_correc s) (q_result s) (q_abserr s) (q_levmax s) (q_rlist2 s) (q_res3la s) (q_numrl2 s) (q_nres s) (q_ier s) (q_ierro s) (q_ktmin s) (q_iroff1 s) (q_iroff2 s) (q_iroff3 s) (q_extrap s) (q_noext s) (q_last s) v (q_cnt s) (q_goto_sum s).
Definition w_cnt (v : nat) (s : st) : st := St (q_wk s) (q_cap s) (q_lev s) (q_maxerr s) (q_errmax s) (q_nrmax s) (q_area s) (q_errsum s) (q_errbnd s) (q_erlarg s) (q_ertest s) (q_small s) (q_correc s) (q_result s) (q_abserr s) (q_levmax s) (q_rlist2 s) (q_res3la s) (q_numrl2 s) (q_nres s) (q_ier s) (q_ierro s) (q_ktmin s) (q_iroff1 s) (q_iroff2 s) (q_iroff3 s) (q_extrap s) (q_noext s) (q_last s) (q_neval s) v (q_goto_sum s).
Definition w_goto_sum (v : bool) (s : st) : st := St (q_wk s) (q_cap s) (q_lev s) (q_maxerr s) (q_errmax s) (q_nrmax s) (q_area s) (q_errsum s) (q_errbnd s) (q_erlarg s) (q_ertest s) (q_small s) (q_correc s) (q_result s) (q_abserr s) (q_levmax s) (q_rlist2 s) (q_res3la s) (q_numrl2 s) (q_nres s) (q_ier s) (q_ierro s) (q_ktmin s) (q_iroff1 s) (q_iroff2 s) (q_iroff3 s) (q_extrap s) (q_noext s) (q_last s) (q_neval s) (q_cnt s) v.

(** quad.rs 822-829 and 1269-1277 *)
Definition grow (limit : nat) (s : st) : st :=
  if Nat.ltb (q_cap s) (q_last s + 2) then
    let cap := grown_workspace_len (q_cap s) limit in
    let w := q_wk s in
    w_lev (resize (q_lev s) cap 0)
    (w_cap cap
    (w_wk (Work (resize (al w) cap (lit N 0)) (resize (bl w) cap (lit N 0)) (resize (rl w) cap (lit N 0))
                (resize (el w) cap (lit N 0)) (resize (io w) cap 0)) s))
  else s.

(** What the bisection leaves for the rest of the iteration. *)
Record cut : Type := Cut { c_a1 : FN; c_b1 : FN; c_erlast : FN; c_erro12 : FN }.

(** quad.rs 831-893 and 1280-1343 (identical up to the level bookkeeping, which is in
    [set_levels]): bisect interval [maxerr], update the sums, the counters and the flags, and
    store the two halves *)
Definition bisect_store (f : fn) (epsabs epsrel : FN) (limit : nat) (s : st) : R (st * cut) :=
  let w := q_wk s in
  let m := q_maxerr s in
  let last := q_last s in
  a1 <- get (al w) m ;;
  b2 <- get (bl w) m ;;
  let b1 := #0.5 *. (a1 +. b2) in
  let a2 := b1 in
  let erlast := q_errmax s in
  ' (left_, c) <- qk21 f (q_cnt s) a1 b1 ;;
  ' (right_, c) <- qk21 f c a2 b2 ;;
  let area1 := k_result left_ in let error1 := k_abserr left_ in let defab1 := k_resasc left_ in
  let area2 := k_result right_ in let error2 := k_abserr right_ in let defab2 := k_resasc right_ in
  let area12 := area1 +. area2 in
  let erro12 := error1 +. error2 in
  let errsum := q_errsum s +. (erro12 -. q_errmax s) in
  rm <- get (rl w) m ;;
  let area := q_area s +. (area12 -. rm) in
  let judged := negb ((defab1 ==. error1) || (defab2 ==. error2)) in
  let stuck := judged &&
    negb ((#(0.1e-4) *. abs area12 <. abs (rm -. area12)) || (erro12 <. #0.99 *. q_errmax s)) in
  let iroff1 := if stuck && negb (q_extrap s) then q_iroff1 s + 1 else q_iroff1 s in
  let iroff2 := if stuck && q_extrap s then q_iroff2 s + 1 else q_iroff2 s in
  let iroff3 := if judged && Nat.ltb 10 last && (q_errmax s <. erro12) then q_iroff3 s + 1 else q_iroff3 s in
  rl1 <- set (rl w) m area1 ;;
  rl2 <- set rl1 last area2 ;;
  let errbnd := fmax N epsabs (epsrel *. abs area) in
  let ier := if Nat.leb 10 (iroff1 + iroff2) || Nat.leb 20 iroff3 then 2 else q_ier s in
  let ierro := if Nat.leb 5 iroff2 then 3 else q_ierro s in
  let ier := if Nat.eqb last limit then 1 else ier in
  let ier := if fmax N (abs a1) (abs b2) <=. (#1 +. #100 *. epmach N) *. (abs a2 +. #1000 *. uflow N)
    then 4 else ier in
  w' <- (if error1 <. error2 then
      al1 <- set (al w) m a2 ;;
      al2 <- set al1 last a1 ;;
      bl1 <- set (bl w) last b1 ;;
      rl3 <- set rl2 m area2 ;;
      rl4 <- set rl3 last area1 ;;
      el1 <- set (el w) m error2 ;;
      el2 <- set el1 last error1 ;;
      Ok (Work al2 bl1 rl4 el2 (io w))
    else
      al1 <- set (al w) last a2 ;;
      bl1 <- set (bl w) m b1 ;;
      bl2 <- set bl1 last b2 ;;
      el1 <- set (el w) m error1 ;;
      el2 <- set el1 last error2 ;;
      Ok (Work al1 bl2 rl2 el2 (io w))) ;;
  Ok (w_wk w' (w_cnt c (w_errsum errsum (w_area area (w_errbnd errbnd (w_ier ier (w_ierro ierro
        (w_iroff1 iroff1 (w_iroff2 iroff2 (w_iroff3 iroff3 s))))))))),
      Cut a1 b1 erlast erro12).

(** quad.rs 896-904 and 1346-1354 *)
Definition reorder (limit : nat) (s : st) : R st :=
  let w := q_wk s in
  ' (m, e, iord, nrmax) <- qpsrt limit (q_last s) (q_maxerr s) (el w) (io w) (q_nrmax s) ;;
  Ok (w_maxerr m (w_errmax e (w_nrmax nrmax (w_wk (Work (al w) (bl w) (rl w) (el w) iord) s)))).

(** quad.rs 939-953 and 1379-1393: look for a larger interval further down the list; [big] is the
    size test, which is all the two routines differ in.  The flag is [back_to_90]. *)
Definition scan (limit : nat) (big : nat -> st -> R bool) (s : st) : R (st * bool) :=
  jupbnd <- upper limit (q_last s) ;;
  for_range (q_nrmax s) jupbnd (fun _ p => match p with (s, _) =>
    m <- get (io (q_wk s)) (q_nrmax s) ;;
    e <- get (el (q_wk s)) m ;;
    let s := w_maxerr m (w_errmax e s) in
    g <- big m s ;;
    if (g : bool) then Ok (Brk (s, true)) else Ok (Cont (w_nrmax (q_nrmax s + 1) s, false)) end) (s, false).

(** quad.rs 929 and 948 *)
Definition big_len (m : nat) (s : st) : R bool :=
  b <- get (bl (q_wk s)) m ;; a <- get (al (q_wk s)) m ;; Ok (q_small s <. abs (b -. a)).
(** quad.rs 1371 and 1388 *)
Definition big_lev (m : nat) (s : st) : R bool :=
  l <- get (q_lev s) m ;; Ok (Nat.leb (l + 1) (q_levmax s)).

(** quad.rs 962-972 and 1404-1414: extrapolate; the flag says whether the estimate improved *)
Definition extrapolate (epsabs epsrel : FN) (s : st) : R (st * bool) :=
  ' (n, tab, r3, nres, reseps, abseps) <- qelg (q_numrl2 s) (q_rlist2 s) (q_res3la s) (q_nres s) ;;
  let s := w_numrl2 n (w_rlist2 tab (w_res3la r3 (w_nres nres (w_ktmin (q_ktmin s + 1) s)))) in
  let s := if Nat.ltb 5 (q_ktmin s) && (q_abserr s <. #(0.1e-2) *. q_errsum s) then w_ier 5 s else s in
  if abseps <. q_abserr s then
    Ok (w_ktmin 0 (w_abserr abseps (w_result reseps (w_correc (q_erlarg s)
          (w_ertest (fmax N epsabs (epsrel *. abs reseps)) s)))), true)
  else Ok (s, false).

(** quad.rs 985-990 and 1428-1433, without the halving of [small] and the increment of [levmax] *)
Definition restart (s : st) : R st :=
  m <- get (io (q_wk s)) 1 ;; e <- get (el (q_wk s)) m ;;
  Ok (w_maxerr m (w_errmax e (w_nrmax 1 (w_extrap false (w_erlarg (q_errsum s) s))))).

(** quad.rs 816-991: one iteration of the main loop of qagse *)
Definition qagse_body (f : fn) (a b epsabs epsrel : FN) (limit : nat) (i : nat) (s : st) : R (ctl st) :=
  let s := grow limit (w_last i s) in
  ' (s, c) <- bisect_store f epsabs epsrel limit s ;;
  s <- reorder limit s ;;
  if q_errsum s <=. q_errbnd s then Ok (Brk (w_goto_sum true s)) else
  if negb (Nat.eqb (q_ier s) 0) then Ok (Brk s) else
  if Nat.eqb (q_last s) 2 then
    tab <- set (q_rlist2 s) 2 (q_area s) ;;
    Ok (Cont (w_small (abs (b -. a) *. #0.375) (w_erlarg (q_errsum s) (w_ertest (q_errbnd s) (w_rlist2 tab s)))))
  else
  if q_noext s then Ok (Cont s) else
  let erlarg := q_erlarg s -. c_erlast c in
  let erlarg := if q_small s <. abs (c_b1 c -. c_a1 c) then erlarg +. c_erro12 c else erlarg in
  let s := w_erlarg erlarg s in
  g <- (if q_extrap s then Ok false else big_len (q_maxerr s) s) ;;
  if (g : bool) then Ok (Cont s) else
  let s := if q_extrap s then s else w_extrap true (w_nrmax 2 s) in
  ' (s, back) <- (if Nat.eqb (q_ierro s) 3 || (q_erlarg s <=. q_ertest s) then Ok (s, false)
                  else scan limit big_len s) ;;
  if (back : bool) then Ok (Cont s) else
  let s := w_numrl2 (q_numrl2 s + 1) s in
  tab <- set (q_rlist2 s) (q_numrl2 s) (q_area s) ;;
  ' (s, better) <- extrapolate epsabs epsrel (w_rlist2 tab s) ;;
  if better && (q_abserr s <=. q_ertest s) then Ok (Brk s) else
  let s := if Nat.eqb (q_numrl2 s) 1 then w_noext true s else s in
  if Nat.eqb (q_ier s) 5 then Ok (Brk s) else
  s <- restart s ;;
  Ok (Cont (w_small (q_small s *. #0.5) s)).

(** quad.rs 1042-1044 and 1484-1486 *)
Definition sum_rlist (rlist : list FN) (last : nat) : R FN :=
  for_range 1 last (fun k r => v <- get rlist k ;; Ok (Cont (r +. v))) (lit N 0).

(** quad.rs 993-1050 and 1436-1492: the final result, error estimate and code; [ksgn_neg] is
    [ksgn == -1] *)
Definition finish (defabs : FN) (ksgn_neg : bool) (s : st) : R (FN * FN * nat) :=
  let result := q_result s in
  let area := q_area s in
  let errsum := q_errsum s in
  let l130 (value abserr : FN) (ier : nat) : R (FN * FN * nat) :=
    Ok (value, abserr, if Nat.ltb 2 ier then ier - 1 else ier) in
  let l115 (ier : nat) : R (FN * FN * nat) :=
    r <- sum_rlist (rl (q_wk s)) (q_last s) ;; l130 r errsum ier in
  let l110 (abserr : FN) (ier : nat) : R (FN * FN * nat) :=
    if ksgn_neg && (fmax N (abs result) (abs area) <=. defabs *. #(0.1e-1)) then l130 result abserr ier else
    l130 result abserr
      (if (result /. area <. #(0.1e-1)) || (#(0.1e3) <. result /. area) || (abs area <. errsum) then 6 else ier) in
  if q_goto_sum s then l115 (q_ier s) else
  if q_abserr s ==. oflow N then l115 (q_ier s) else
  if Nat.eqb (q_ier s + q_ierro s) 0 then l110 (q_abserr s) (q_ier s) else
  let abserr := if Nat.eqb (q_ierro s) 3 then q_abserr s +. q_correc s else q_abserr s in
  let ier := if Nat.eqb (q_ier s) 0 then 3 else q_ier s in
  if negb (result ==. #0) && negb (area ==. #0) then
    if errsum /. abs area <. abserr /. abs result then l115 ier else l110 abserr ier
  else if errsum <. abserr then l115 ier
  else if area ==. #0 then l130 result abserr ier
  else l110 abserr ier.

(** quad.rs 179-191, with the number of integrand calls added *)
Record outcome : Type := Outcome {
  o_value : FN; o_abserr : FN; o_neval : nat; o_last : nat; o_ier : Ier; o_calls : nat }.

(** quad.rs 735, 1113 *)
Definition tolerance_bad (epsabs epsrel : FN) : bool :=
  (epsabs <=. #0) && (epsrel <. fmax N (#50 *. epmach N) #(0.5e-28)).

(** quad.rs 740-814 and 1122-1263: what both routines set up before the main loop *)
Definition st0 (w : work) (cap : nat) (lev : list nat) (maxerr : nat) (errmax area errsum errbnd erlarg ertest : FN)
    (rlist2 : list FN) (numrl2 last neval cnt : nat) : st :=
  {| q_wk := w; q_cap := cap; q_lev := lev; q_maxerr := maxerr; q_errmax := errmax; q_nrmax := 1;
     q_area := area; q_errsum := errsum; q_errbnd := errbnd; q_erlarg := erlarg; q_ertest := ertest;
     q_small := lit N 0; q_correc := lit N 0; q_result := area; q_abserr := oflow N; q_levmax := 1;
     q_rlist2 := rlist2; q_res3la := repeat (lit N 0) 4; q_numrl2 := numrl2; q_nres := 0;
     q_ier := 0; q_ierro := 0; q_ktmin := 0; q_iroff1 := 0; q_iroff2 := 0; q_iroff3 := 0;
     q_extrap := false; q_noext := false; q_last := last; q_neval := neval; q_cnt := cnt; q_goto_sum := false |}.

(** quad.rs 732-810: either an early outcome or the state before the loop, resabs and [ksgn == -1] *)
Definition qagse_start (f : fn) (a b epsabs epsrel : FN) (limit : nat) : R (outcome + st * FN * bool) :=
  if Nat.ltb limit 1 then Err (LimitTooSmall limit 0) else
  if tolerance_bad epsabs epsrel then Err ToleranceUnachievable else
  let cap := workspace_len limit 1 in
  alist <- set (repeat (lit N 0) cap) 1 a ;;
  blist <- set (repeat (lit N 0) cap) 1 b ;;
  ' (first, c) <- qk21 f 0 a b ;;
  let result := k_result first in
  let abserr := k_abserr first in
  let defabs := k_resabs first in
  let resabs_as_asc := k_resasc first in
  let dres := abs result in
  let errbnd := fmax N epsabs (epsrel *. dres) in
  rlist <- set (repeat (lit N 0) cap) 1 result ;;
  elist <- set (repeat (lit N 0) cap) 1 abserr ;;
  iord <- set (repeat 0 cap) 1 1 ;;
  let ier := if (abserr <=. #100 *. epmach N *. defabs) && (errbnd <. abserr) then 2 else 0 in
  let ier := if Nat.eqb limit 1 then 1 else ier in
  if negb (Nat.eqb ier 0) || ((abserr <=. errbnd) && negb (abserr ==. resabs_as_asc)) || (abserr ==. #0) then
    Ok (inl (Outcome result abserr (42 * 1 - 21) 1 (from_code ier) c))
  else
  rlist2 <- set (repeat (lit N 0) 53) 1 result ;;
  let ksgn_neg := negb ((#1 -. #50 *. epmach N) *. defabs <=. dres) in
  Ok (inr (st0 (Work alist blist rlist elist iord) cap [] 1 abserr result abserr errbnd
             (lit N 0) (lit N 0) rlist2 2 1 0 c, defabs, ksgn_neg)).

(** quad.rs 716-1059 *)
Definition qagse (f : fn) (a b epsabs epsrel : FN) (limit : nat) : R outcome :=
  r <- qagse_start f a b epsabs epsrel limit ;;
  match r with
  | inl o => Ok o
  | inr (s, defabs, ksgn_neg) =>
      s <- for_range 2 limit (qagse_body f a b epsabs epsrel limit) s ;;
      ' (value, abserr, ier) <- finish defabs ksgn_neg s ;;
      n <- csub (42 * q_last s) 21 ;;
      Ok (Outcome value abserr n (q_last s) (from_code ier) (q_cnt s))
  end.

(** quad.rs 1309-1310 *)
Definition set_levels (levcur : nat) (m : nat) (s : st) : R st :=
  l1 <- set (q_lev s) m levcur ;;
  l2 <- set l1 (q_last s) levcur ;;
  Ok (w_lev l2 s).

(** quad.rs 1265-1434: one iteration of the main loop of qagpe *)
Definition qagpe_body (f : fn) (epsabs epsrel : FN) (limit : nat) (i : nat) (s : st) : R (ctl st) :=
  let s := grow limit (w_last i s) in
  lc <- get (q_lev s) (q_maxerr s) ;;
  let levcur := lc + 1 in
  let m := q_maxerr s in
  ' (s, c) <- bisect_store f epsabs epsrel limit s ;;
  let s := w_neval (q_neval s + 42) s in
  s <- set_levels levcur m s ;;
  s <- reorder limit s ;;
  if q_errsum s <=. q_errbnd s then Ok (Brk (w_goto_sum true s)) else
  if negb (Nat.eqb (q_ier s) 0) then Ok (Brk s) else
  if q_noext s then Ok (Cont s) else
  let erlarg := q_erlarg s -. c_erlast c in
  let erlarg := if Nat.leb (levcur + 1) (q_levmax s) then erlarg +. c_erro12 c else erlarg in
  let s := w_erlarg erlarg s in
  g <- (if q_extrap s then Ok false else big_lev (q_maxerr s) s) ;;
  if (g : bool) then Ok (Cont s) else
  let s := if q_extrap s then s else w_extrap true (w_nrmax 2 s) in
  ' (s, back) <- (if Nat.eqb (q_ierro s) 3 || (q_erlarg s <=. q_ertest s) then Ok (s, false)
                  else scan limit big_lev s) ;;
  if (back : bool) then Ok (Cont s) else
  let s := w_numrl2 (q_numrl2 s + 1) s in
  tab <- set (q_rlist2 s) (q_numrl2 s) (q_area s) ;;
  let s := w_rlist2 tab s in
  c <- (if Nat.ltb 2 (q_numrl2 s) then
      ' (s, better) <- extrapolate epsabs epsrel s ;;
      if better && (q_abserr s <. q_ertest s) then Ok (Brk s) else
      let s := if Nat.eqb (q_numrl2 s) 1 then w_noext true s else s in
      if Nat.leb 5 (q_ier s) then Ok (Brk s) else Ok (Cont s)
    else Ok (Cont s)) ;;
  match c with
  | Brk s => Ok (Brk s)
  | Cont s => s <- restart s ;; Ok (Cont (w_levmax (q_levmax s + 1) s))
  end.

(** quad.rs 1152-1158: selection sort of pts(1..nintp1) *)
Definition sort_pts (nint : nat) (pts : list FN) : R (list FN) :=
  for_range 1 nint (fun i pts =>
    pts <- for_range (i + 1) (nint + 1) (fun j pts =>
      pi <- get pts i ;; pj <- get pts j ;;
      if pj <. pi then pts <- set pts i pj ;; pts <- set pts j pi ;; Ok (Cont pts) else Ok (Cont pts)) pts ;;
    Ok (Cont pts)) pts.

(** Variables of the loop over the initial pieces (quad.rs 1165-1185). *)
Record pieces : Type := Pieces {
  p_w : work; p_lev : list nat; p_ndin : list nat; p_a1 : FN;
  p_result : FN; p_abserr : FN; p_resabs : FN; p_cnt : nat }.

(** quad.rs 1168-1185 *)
Definition first_pieces (f : fn) (nint : nat) (pts : list FN) (p : pieces) : R pieces :=
  for_range 1 nint (fun i p =>
    b1 <- get pts (i + 1) ;;
    ' (k, c) <- qk21 f (p_cnt p) (p_a1 p) b1 ;;
    ndin <- set (p_ndin p) i 0 ;;
    ndin <- (if (k_abserr k ==. k_resasc k) && negb (k_abserr k ==. #0) then set ndin i 1 else Ok ndin) ;;
    lev <- set (p_lev p) i 0 ;;
    el' <- set (el (p_w p)) i (k_abserr k) ;;
    al' <- set (al (p_w p)) i (p_a1 p) ;;
    bl' <- set (bl (p_w p)) i b1 ;;
    rl' <- set (rl (p_w p)) i (k_result k) ;;
    io' <- set (io (p_w p)) i i ;;
    Ok (Cont (Pieces (Work al' bl' rl' el' io') lev ndin b1 (p_result p +. k_result k)
      (p_abserr p +. k_abserr k) (p_resabs p +. k_resabs k) c))) p.

(** quad.rs 1186-1192 *)
Definition piece_errors (nint : nat) (ndin : list nat) (abserr : FN) (elist : list FN) : R (list FN * FN) :=
  for_range 1 nint (fun i s => match s with (elist, errsum) =>
    d <- get ndin i ;;
    elist <- (if Nat.eqb d 1 then set elist i abserr else Ok elist) ;;
    e <- get elist i ;;
    Ok (Cont (elist, errsum +. e)) end) (elist, lit N 0).

(** quad.rs 1204-1219 *)
Definition order_pieces (npts nint : nat) (elist : list FN) (iord : list nat) : R (list nat) :=
  for_range 1 npts (fun i iord =>
    i0 <- get iord i ;;
    ' (ind1, k) <- for_range (i + 1) nint (fun j s => match s with (ind1, k) =>
        ind2 <- get iord j ;;
        e1 <- get elist ind1 ;; e2 <- get elist ind2 ;;
        if e1 <=. e2 then Ok (Cont (ind2, j)) else Ok (Cont (ind1, k)) end) (i0, 0) ;;
    if Nat.eqb ind1 i0 then Ok (Cont iord) else
    iord <- set iord k i0 ;;
    iord <- set iord i ind1 ;;
    Ok (Cont iord)) iord.

(** quad.rs 1141-1143 *)
Definition put_points (points pts : list FN) : R (list FN) :=
  ' (pts, _) <- fold_left (fun r p => ' (pts, i) <- r ;; pts <- set pts (i + 2) p ;; Ok (pts, i + 1))
    points (Ok (pts, 0)) ;;
  Ok pts.

(** quad.rs 1108-1261 *)
Definition qagpe_start (f : fn) (a b : FN) (points : list FN) (epsabs epsrel : FN) (limit : nat)
  : R (outcome + st * FN * bool) :=
  let npts := length points in
  let npts2 := npts + 2 in
  if Nat.leb limit npts then Err (LimitTooSmall limit npts) else
  if tolerance_bad epsabs epsrel then Err ToleranceUnachievable else
  let cap := workspace_len limit (npts + 1) in
  alist <- set (repeat (lit N 0) cap) 1 a ;;
  blist <- set (repeat (lit N 0) cap) 1 b ;;
  let sign := if b <. a then fneg N #1 else #1 in
  pts <- set (repeat (lit N 0) (npts2 + 1)) 1 (fmin N a b) ;;
  pts <- put_points points pts ;;
  pts <- set pts (npts + 2) (fmax N a b) ;;
  let nint := npts + 1 in
  a1 <- get pts 1 ;;
  pts <- (if Nat.eqb npts 0 then Ok pts else
    pts <- sort_pts nint pts ;;
    p1 <- get pts 1 ;; pn <- get pts (nint + 1) ;;
    if negb (p1 ==. fmin N a b) || negb (pn ==. fmax N a b) then Err BreakpointOutsideInterval else Ok pts) ;;
  p <- first_pieces f nint pts
    (Pieces (Work alist blist (repeat (lit N 0) cap) (repeat (lit N 0) cap) (repeat 0 cap)) (repeat 0 cap)
       (repeat 0 (npts2 + 1)) a1 #0 #0 #0 0) ;;
  let result := p_result p in
  let abserr := p_abserr p in
  let w := p_w p in
  ' (elist, errsum) <- piece_errors nint (p_ndin p) abserr (el w) ;;
  let neval := 21 * nint in
  let dres := abs result in
  let errbnd := fmax N epsabs (epsrel *. dres) in
  let ier := if (abserr <=. #(0.1e3) *. epmach N *. p_resabs p) && (errbnd <. abserr) then 2 else 0 in
  iord <- (if Nat.eqb nint 1 then Ok (io w) else order_pieces npts nint elist (io w)) ;;
  let ier := if negb (Nat.eqb nint 1) && Nat.ltb limit npts2 then 1 else ier in
  if negb (Nat.eqb ier 0) || (abserr <=. errbnd) then
    Ok (inl (Outcome (result *. sign) abserr neval nint
          (from_code (if Nat.ltb 2 ier then ier - 1 else ier)) (p_cnt p)))
  else
  rlist2 <- set (repeat (lit N 0) 53) 1 result ;;
  maxerr <- get iord 1 ;;
  errmax <- get elist maxerr ;;
  let ksgn_neg := negb ((#1 -. #50 *. epmach N) *. p_resabs p <=. dres) in
  Ok (inr (st0 (Work (al w) (bl w) (rl w) elist iord) cap (p_lev p) maxerr errmax result errsum errbnd
             errsum errbnd rlist2 1 nint neval (p_cnt p), p_resabs p, ksgn_neg)).

(** quad.rs 1096-1500 *)
Definition qagpe (f : fn) (a b : FN) (points : list FN) (epsabs epsrel : FN) (limit : nat) : R outcome :=
  r <- qagpe_start f a b points epsabs epsrel limit ;;
  match r with
  | inl o => Ok o
  | inr (s, resabs, ksgn_neg) =>
      s <- for_range (length points + 2) limit (qagpe_body f epsabs epsrel limit) s ;;
      ' (value, abserr, ier) <- finish resabs ksgn_neg s ;;
      let sign := if b <. a then fneg N #1 else #1 in
      Ok (Outcome (value *. sign) abserr (q_neval s) (q_last s) (from_code ier) (q_cnt s))
  end.

(** quad.rs 1553-1563; [sort_by] is a stable sort, modelled by stable insertion *)
Fixpoint insert_pt (p : FN) (l : list FN) : list FN :=
  match l with
  | [] => [p]
  | x :: r => if total_cmp_le N p x then p :: l else x :: insert_pt p r
  end.
Definition sort_points (l : list FN) : list FN := fold_right insert_pt [] l.
Fixpoint dedup (prev : FN) (l : list FN) : list FN :=
  match l with
  | [] => []
  | x :: r => if x ==. prev then dedup prev r else x :: dedup x r
  end.
Definition filter_points (points : list FN) (a b : FN) : list FN :=
  let sorted := sort_points points in
  let ded := match sorted with [] => [] | x :: r => x :: dedup x r end in
  filter (fun p => (a <. p) && (p <. b)) ded.

(** quad.rs 1509-1522 *)
Record opts : Type := Opts { epsabs_ : FN; epsrel_ : FN; limit_ : nat; points_ : option (list FN) }.

(** quad.rs 1596-1624 *)
Definition quad (f : fn) (a b : FN) (o : opts) : R outcome :=
  if a ==. b then Ok (Outcome #0 #0 0 0 IerOk 0) else
  let flip := b <. a in
  let lo := if flip then b else a in
  let hi := if flip then a else b in
  r <- (match points_ o with
        | None => qagse f lo hi (epsabs_ o) (epsrel_ o) (limit_ o)
        | Some p => qagpe f lo hi (filter_points p lo hi) (epsabs_ o) (epsrel_ o) (limit_ o)
        end) ;;
  if flip then Ok (Outcome (fneg N (o_value r)) (o_abserr r) (o_neval r) (o_last r) (o_ier r) (o_calls r))
  else Ok r.

End Quad.
