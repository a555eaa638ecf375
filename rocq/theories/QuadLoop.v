(** The main loops of QuadModel for any number type: index safety and invariants. *)
From Coq Require Import List Arith Bool ZArith QArith Lia ZifyNat Permutation.
From Verif Require Import RustBase RustBaseFacts QuadModel QuadProofs.
Import ListNotations.
Local Open Scope nat_scope.
Ltac Zify.zify_post_hook ::= Z.to_euclidean_division_equations.

(** An interval with its integral and error estimates. *)
Definition piece (N : Num) : Type := (F N * F N * F N * F N)%type.

(** The [k]-th interval of the workspaces. *)
Definition at_ {N} (w : work N) (k : nat) : option (piece N) :=
  match nth_error (al N w) k, nth_error (bl N w) k, nth_error (rl N w) k, nth_error (el N w) k with
  | Some a, Some b, Some r, Some e => Some (a, b, r, e)
  | _, _, _, _ => None
  end.
(** The first [L] intervals. *)
Definition holds {N} (w : work N) (L : nat) (ps : list (piece N)) : Prop :=
  length ps = L /\ forall k, k < L -> at_ w (S k) = nth_error ps k.

(** Simplify reads of updated states. *)
Ltac sq := cbn [q_wk q_cap q_lev q_maxerr q_errmax q_nrmax q_area q_errsum q_errbnd q_erlarg q_ertest q_small q_correc q_result q_abserr q_levmax q_rlist2 q_res3la q_numrl2 q_nres q_ier q_ierro q_ktmin q_iroff1 q_iroff2 q_iroff3 q_extrap q_noext q_last q_neval q_cnt q_goto_sum
  w_wk w_cap w_lev w_maxerr w_errmax w_nrmax w_area w_errsum w_errbnd w_erlarg w_ertest w_small w_correc w_result w_abserr w_levmax w_rlist2 w_res3la w_numrl2 w_nres w_ier w_ierro w_ktmin w_iroff1 w_iroff2 w_iroff3 w_extrap w_noext w_last w_neval w_cnt w_goto_sum al bl rl el io].

Ltac sp := repeat match goal with |- _ /\ _ => split end.

Section Loop.
Variable N : Num.
Notation FN := (F N).
Notation R := (rr QuadError).
Notation st := (st N).
Variable f : fn N.
Variable epsabs epsrel : FN.
Variable limit : nat.

(** The two halves of an interval, each with the estimates of the 21-point rule. *)
Definition mid (a b : FN) : FN := fmul N (lit N 0.5) (fadd N a b).
Definition kpiece (c : nat) (a b : FN) : piece N :=
  (a, b, k_result N (krule N f c a b), k_abserr N (krule N f c a b)).
Definition halves (c : nat) (a b : FN) : piece N * piece N :=
  (kpiece c a (mid a b), kpiece (21 + c) (mid a b) b).
Definition p_r (p : piece N) : FN := match p with (_, _, r, _) => r end.
Definition p_e (p : piece N) : FN := match p with (_, _, _, e) => e end.

(** An invariant of bisection: it relates the intervals, the running sums and the number of calls. *)
Variable T : list (piece N) -> FN -> FN -> nat -> Prop.
Hypothesis Tstep : forall ps i a b r e area errsum c x y,
  nth_error ps i = Some (a, b, r, e) -> T ps area errsum c ->
  (halves c a b = (x, y) \/ halves c a b = (y, x)) ->
  T (upd ps i x ++ [y])
    (fadd N area (fsub N (fadd N (p_r (fst (halves c a b))) (p_r (snd (halves c a b)))) r))
    (fadd N errsum (fsub N (fadd N (p_e (fst (halves c a b))) (p_e (snd (halves c a b)))) e))
    (42 + c).

(** An upper set for the error estimate of the extrapolation. *)
Variable A : FN -> Prop.
Hypothesis A0 : A (oflow N).
Hypothesis Alt : forall x y, A x -> flt N y x = true -> A y.

(** Lengths of the workspaces. *)
Definition lens (pe : bool) (s : st) (n : nat) : Prop :=
  let w := q_wk N s in
  length (al N w) = n /\ length (bl N w) = n /\ length (rl N w) = n /\ length (el N w) = n
  /\ length (io N w) = n /\ (pe = true -> length (q_lev N s) = n).
Definition tables (s : st) (B : nat) : Prop :=
  length (q_rlist2 N s) = 53 /\ length (q_res3la N s) = 4 /\ 1 <= q_numrl2 N s <= B.
Definition tracked (s : st) (L : nat) : Prop :=
  exists ps, holds (q_wk N s) L ps /\ T ps (q_area N s) (q_errsum N s) (q_cnt N s).

(** Before the iteration that creates interval number [L]. *)
Record Inv (pe : bool) (B L : nat) (s : st) : Prop := {
  i_len : lens pe s (q_cap N s);
  i_cap : L + 1 <= q_cap N s <= limit + 2;
  i_last : q_last N s = L - 1;
  i_max : 1 <= q_maxerr N s <= L - 1;
  i_errmax : nth_error (el N (q_wk N s)) (q_maxerr N s) = Some (q_errmax N s);
  i_nr : 1 <= q_nrmax N s <= jb limit (L - 1);
  i_io : entries (io N (q_wk N s)) (jb limit (L - 1)) (L - 1);
  i_ext : q_extrap N s = false -> q_nrmax N s = 1;
  i_noext : q_noext N s = true -> q_extrap N s = false;
  i_tab : tables s B;
  i_ier : q_ier N s = 0;
  i_goto : q_goto_sum N s = false;
  i_neval : pe = true -> q_neval N s = q_cnt N s;
  i_abs : A (q_abserr N s);
  i_T : tracked s (L - 1) }.

(** After interval number [L] has been stored and the list reordered. *)
Record Mid (pe : bool) (B L : nat) (s : st) : Prop := {
  m_len : lens pe s (q_cap N s);
  m_cap : L + 2 <= q_cap N s <= limit + 2;
  m_last : q_last N s = L;
  m_max : 1 <= q_maxerr N s <= L;
  m_errmax : nth_error (el N (q_wk N s)) (q_maxerr N s) = Some (q_errmax N s);
  m_nr : 1 <= q_nrmax N s;
  m_io : entries (io N (q_wk N s)) (jb limit L) L;
  m_ext : q_extrap N s = false -> q_nrmax N s = 1;
  m_noext : q_noext N s = true -> q_extrap N s = false;
  m_tab : tables s B;
  m_lim : L = limit -> q_ier N s <> 0;
  m_goto : q_goto_sum N s = false;
  m_errbnd : q_errbnd N s = fmax N epsabs (fmul N epsrel (fabs N (q_area N s)));
  m_neval : pe = true -> q_neval N s = q_cnt N s;
  m_abs : A (q_abserr N s);
  m_T : tracked s L }.

Lemma at_resize (w : work N) n d dn k :
  k < length (al N w) -> k < length (bl N w) -> k < length (rl N w) -> k < length (el N w) -> k < n ->
  at_ (Work N (resize (al N w) n d) (resize (bl N w) n d) (resize (rl N w) n d) (resize (el N w) n d) (resize (io N w) n dn)) k
  = at_ w k.
Proof. intros. unfold at_. cbn [al bl rl el]. rewrite !nth_resize by assumption. reflexivity. Qed.

Lemma grow_wp pe B L s :
  2 <= L <= limit -> Inv pe B L s ->
  let s' := grow N limit (w_last N L s) in
  lens pe s' (q_cap N s') /\ L + 2 <= q_cap N s' <= limit + 2 /\ q_last N s' = L
  /\ q_maxerr N s' = q_maxerr N s /\ q_errmax N s' = q_errmax N s /\ q_nrmax N s' = q_nrmax N s
  /\ nth_error (el N (q_wk N s')) (q_maxerr N s) = Some (q_errmax N s)
  /\ entries (io N (q_wk N s')) (jb limit (L - 1)) (L - 1)
  /\ q_extrap N s' = q_extrap N s /\ q_noext N s' = q_noext N s /\ tables s' B
  /\ q_ier N s' = 0 /\ q_goto_sum N s' = false /\ q_neval N s' = q_neval N s /\ q_cnt N s' = q_cnt N s
  /\ q_abserr N s' = q_abserr N s
  /\ tracked s' (L - 1).
Proof.
  intros HL [Hlen Hcap Hlast Hmax Herr Hnr Hio Hext Hno Htab Hier Hgo Hnev HA HT]. unfold grow.
  change (q_cap N (w_last N L s)) with (q_cap N s). change (q_last N (w_last N L s)) with L.
  destruct (Nat.ltb_spec (q_cap N s) (L + 2)) as [Hlt|Hge].
  - set (c' := grown_workspace_len (q_cap N s) limit).
    assert (Hc' : c' = Nat.min (2 * q_cap N s) (limit + 2)) by reflexivity.
    destruct Hlen as (A1 & A2 & A3 & A4 & A5 & A6).
    pose proof (jb_le limit (L - 1)) as Hjb.
    unfold lens, tables. sq. cbn zeta. split; [|split; [lia|]].
    { rewrite !resize_length. repeat split; auto. }
    split; [reflexivity|]. split; [reflexivity|]. split; [reflexivity|]. split; [reflexivity|].
    split; [rewrite nth_resize; [exact Herr|lia|lia]|].
    split.
    { intros k Hk. destruct (Hio k Hk) as (v & Hv & Hb). exists v. split; [|exact Hb].
      rewrite nth_resize; [exact Hv|lia|lia]. }
    split; [reflexivity|]. split; [reflexivity|]. split; [exact Htab|]. split; [exact Hier|].
    split; [exact Hgo|]. split; [reflexivity|]. split; [reflexivity|]. split; [reflexivity|].
    destruct HT as (ps & [H1 H2] & H3). exists ps. split; [|exact H3]. split; [exact H1|].
    intros k Hk. sq. rewrite at_resize by lia. now apply H2.
  - unfold lens, tables. sq. cbn zeta. split; [exact Hlen|]. split; [lia|].
    repeat (split; [reflexivity || assumption|]). exact HT.
Qed.

Definition mixed (p q x y : piece N) : Prop := (x, y) = (p, q) \/ (x, y) = (q, p).

Lemma bisect_store_wp s m last :
  q_maxerr N s = m -> q_last N s = last ->
  let w := q_wk N s in
  m < length (al N w) -> m < length (bl N w) -> m < length (rl N w) -> m < length (el N w) ->
  last < length (al N w) -> last < length (bl N w) -> last < length (rl N w) -> last < length (el N w) ->
  m <> last ->
  wp (bisect_store N f epsabs epsrel limit s) (fun r => match r with (s', _) =>
    exists a b rm em x y,
      at_ w m = Some (a, b, rm, em) /\ mixed (fst (halves (q_cnt N s) a b)) (snd (halves (q_cnt N s) a b)) x y
      /\ at_ (q_wk N s') m = Some x /\ at_ (q_wk N s') last = Some y
      /\ (forall k, k <> m -> k <> last -> at_ (q_wk N s') k = at_ w k)
      /\ length (al N (q_wk N s')) = length (al N w) /\ length (bl N (q_wk N s')) = length (bl N w)
      /\ length (rl N (q_wk N s')) = length (rl N w) /\ length (el N (q_wk N s')) = length (el N w)
      /\ io N (q_wk N s') = io N w
      /\ q_area N s' = fadd N (q_area N s) (fsub N (fadd N (p_r (fst (halves (q_cnt N s) a b))) (p_r (snd (halves (q_cnt N s) a b)))) rm)
      /\ q_errsum N s' = fadd N (q_errsum N s) (fsub N (fadd N (p_e (fst (halves (q_cnt N s) a b))) (p_e (snd (halves (q_cnt N s) a b)))) (q_errmax N s))
      /\ q_cnt N s' = 42 + q_cnt N s
      /\ q_errbnd N s' = fmax N epsabs (fmul N epsrel (fabs N (q_area N s')))
      /\ (last = limit -> q_ier N s' <> 0)
      /\ q_cap N s' = q_cap N s /\ q_lev N s' = q_lev N s /\ q_maxerr N s' = m /\ q_nrmax N s' = q_nrmax N s
      /\ q_rlist2 N s' = q_rlist2 N s /\ q_res3la N s' = q_res3la N s /\ q_numrl2 N s' = q_numrl2 N s
      /\ q_extrap N s' = q_extrap N s /\ q_noext N s' = q_noext N s /\ q_last N s' = last
      /\ q_neval N s' = q_neval N s /\ q_goto_sum N s' = q_goto_sum N s /\ q_abserr N s' = q_abserr N s
    end).
Proof.
  intros Hm Hla w A1 A2 A3 A4 B1 B2 B3 B4 Hne. unfold bisect_store. rewrite Hm, Hla. fold w.
  apply wp_bind, wp_get; [assumption|]. intros a Ha.
  apply wp_bind, wp_get; [assumption|]. intros b Hb.
  rewrite qk21_eq. cbn [rbind]. rewrite qk21_eq. cbn [rbind].
  apply wp_bind, wp_get; [assumption|]. intros rm Hr.
  destruct (@get_ok unit _ (el N w) m A4) as (em & _ & He).
  apply wp_bind, wp_set; [assumption|]. apply wp_bind, wp_set; [rewrite upd_length; assumption|].
  assert (Hat : at_ w m = Some (a, b, rm, em)) by (unfold at_; now rewrite Ha, Hb, Hr, He).
  assert (Hier : forall i0, last = limit ->
    (if fle N (fmax N (fabs N a) (fabs N b)) (fmul N (fadd N (lit N 1) (fmul N (lit N 100) (epmach N)))
       (fadd N (fabs N (fmul N (lit N 0.5) (fadd N a b))) (fmul N (lit N 1000) (uflow N)))) then 4
     else if last =? limit then 1 else i0) <> 0).
  { intros i0 ->. rewrite Nat.eqb_refl. now destruct (fle N _ _). }
  apply wp_bind.
  match goal with |- context [if flt N ?u ?v then _ else _] => destruct (flt N u v) eqn:Elt end.
  - repeat (apply wp_bind, wp_set; [rewrite ?upd_length; assumption|]). cbn [wp rbind].
    exists a, b, rm, em, (kpiece (21 + q_cnt N s) (mid a b) b), (kpiece (q_cnt N s) a (mid a b)).
    split; [exact Hat|]. split; [right; reflexivity|].
    split; [|split; [|split]].
    + unfold at_. cbn [q_wk w_wk al bl rl el]. rewrite !nth_upd, !upd_length.
      destruct (Nat.eqb_spec last m); [congruence|]. rewrite Nat.eqb_refl.
      repeat match goal with |- context [Nat.ltb ?u ?v] => destruct (Nat.ltb_spec u v); [|lia] end.
      rewrite Hb. reflexivity.
    + unfold at_. cbn [q_wk w_wk al bl rl el]. rewrite !nth_upd, !upd_length, !Nat.eqb_refl.
      repeat match goal with |- context [Nat.ltb ?u ?v] => destruct (Nat.ltb_spec u v); [|lia] end.
      reflexivity.
    + intros k Hk1 Hk2. unfold at_. cbn [q_wk w_wk al bl rl el]. rewrite !nth_upd.
      destruct (Nat.eqb_spec last k); [congruence|]. destruct (Nat.eqb_spec m k); [congruence|]. reflexivity.
    + sq. rewrite !upd_length. repeat (split; [reflexivity || exact Hm || exact Hla|]).
      split; [apply Hier|]. repeat split; auto.
  - repeat (apply wp_bind, wp_set; [rewrite ?upd_length; assumption|]). cbn [wp rbind].
    exists a, b, rm, em, (kpiece (q_cnt N s) a (mid a b)), (kpiece (21 + q_cnt N s) (mid a b) b).
    split; [exact Hat|]. split; [left; reflexivity|].
    split; [|split; [|split]].
    + unfold at_. cbn [q_wk w_wk al bl rl el]. rewrite !nth_upd, !upd_length.
      destruct (Nat.eqb_spec last m); [congruence|]. rewrite Nat.eqb_refl.
      repeat match goal with |- context [Nat.ltb ?u ?v] => destruct (Nat.ltb_spec u v); [|lia] end.
      rewrite Ha. reflexivity.
    + unfold at_. cbn [q_wk w_wk al bl rl el]. rewrite !nth_upd, !upd_length, !Nat.eqb_refl.
      repeat match goal with |- context [Nat.ltb ?u ?v] => destruct (Nat.ltb_spec u v); [|lia] end.
      reflexivity.
    + intros k Hk1 Hk2. unfold at_. cbn [q_wk w_wk al bl rl el]. rewrite !nth_upd.
      destruct (Nat.eqb_spec last k); [congruence|]. destruct (Nat.eqb_spec m k); [congruence|]. reflexivity.
    + sq. rewrite !upd_length. repeat (split; [reflexivity || exact Hm || exact Hla|]).
      split; [apply Hier|]. repeat split; auto.
Qed.

(** Bisecting keeps the tracked relation. *)
Lemma holds_step (w w' : work N) L m ps x y :
  holds w L ps -> 1 <= m <= L ->
  at_ w' m = Some x -> at_ w' (S L) = Some y ->
  (forall k, k <> m -> k <> S L -> at_ w' k = at_ w k) ->
  holds w' (S L) (upd ps (m - 1) x ++ [y]).
Proof.
  intros [Hl H] Hm Hx Hy Ho. split.
  - rewrite app_length, upd_length. simpl. lia.
  - intros k Hk. destruct (Nat.eq_dec k L) as [->|].
    + rewrite nth_error_app2 by (rewrite upd_length; lia). rewrite upd_length, Hl, Nat.sub_diag. exact Hy.
    + rewrite nth_error_app1 by (rewrite upd_length; lia). rewrite nth_upd, Hl.
      destruct (Nat.eqb_spec (m - 1) k) as [<-|].
      * destruct (Nat.ltb_spec (m - 1) L); [|lia]. replace (S (m - 1)) with m by lia. exact Hx.
      * rewrite Ho by lia. apply H. lia.
Qed.

(** After interval number [L] has been stored, before the list is reordered. *)
Record Stored (pe : bool) (B L d : nat) (s : st) : Prop := {
  t_len : lens pe s (q_cap N s);
  t_cap : L + 2 <= q_cap N s <= limit + 2;
  t_last : q_last N s = L;
  t_max : 1 <= q_maxerr N s <= L - 1;
  t_nr : 1 <= q_nrmax N s <= jb limit (L - 1);
  t_io : entries (io N (q_wk N s)) (jb limit (L - 1)) (L - 1);
  t_ext : q_extrap N s = false -> q_nrmax N s = 1;
  t_noext : q_noext N s = true -> q_extrap N s = false;
  t_tab : tables s B;
  t_lim : L = limit -> q_ier N s <> 0;
  t_goto : q_goto_sum N s = false;
  t_errbnd : q_errbnd N s = fmax N epsabs (fmul N epsrel (fabs N (q_area N s)));
  t_neval : pe = true -> q_neval N s + d = q_cnt N s;
  t_abs : A (q_abserr N s);
  t_T : tracked s L }.

Lemma store_wp pe B L s :
  2 <= L <= limit -> Inv pe B L s ->
  wp (bisect_store N f epsabs epsrel limit (grow N limit (w_last N L s))) (fun r =>
    Stored pe B L 42 (fst r) /\ q_maxerr N (fst r) = q_maxerr N s).
Proof.
  intros HL HI. pose proof (grow_wp pe B L s HL HI) as HG. cbn zeta in HG.
  set (s1 := grow N limit (w_last N L s)) in *.
  destruct HI as [_ _ _ Hmax _ Hnr _ Hext Hno _ _ _ Hnev HA _].
  destruct HG as ((L1 & L2 & L3 & L4 & L5 & L6) & Hcap & Hlast & Hm1 & He1 & Hn1 & Herr & Hio & Hx1 & Hno1 & Htab & Hier & Hgo & Hnv & Hc1 & Hab1 & HT).
  eapply wp_mono.
  { apply (bisect_store_wp s1 (q_maxerr N s) L Hm1 Hlast); lia. }
  intros [s2 c] (a & b & rm & em & x & y & Hat & Hmix & Hxm & Hyl & Hoth & M1 & M2 & M3 & M4 & M5 & Harea & Herrs
    & Hcnt & Hbnd & Hlim & F1 & F2 & F3 & F4 & F5 & F6 & F7 & F8 & F9 & F10 & F11 & F12 & F13). cbn [fst].
  split; [|exact F3]. constructor.
  - repeat split; try (rewrite ?M5; lia). intro Hp. rewrite F2. specialize (L6 Hp). lia.
  - lia.
  - exact F10.
  - lia.
  - lia.
  - rewrite M5. exact Hio.
  - rewrite F8, Hx1. intro E. specialize (Hext E). lia.
  - rewrite F8, F9, Hx1, Hno1. exact Hno.
  - destruct Htab as (T1 & T2 & T3). repeat split; congruence || lia.
  - exact Hlim.
  - congruence.
  - exact Hbnd.
  - intro Hp. specialize (Hnev Hp). lia.
  - rewrite F13, Hab1. exact HA.
  - destruct HT as (ps & Hh & HTT). exists (upd ps (q_maxerr N s - 1) x ++ [y]). split.
    + replace L with (S (L - 1)) by lia. apply holds_step with (w := q_wk N s1); auto; try lia.
      * now replace (S (L - 1)) with L by lia.
      * intros k0 H1 H2. apply Hoth; lia.
    + rewrite Harea, Herrs, Hcnt.
      assert (Hem : em = q_errmax N s1).
      { unfold at_ in Hat. rewrite Herr in Hat.
        destruct (nth_error (al N (q_wk N s1)) (q_maxerr N s)); [|discriminate].
        destruct (nth_error (bl N (q_wk N s1)) (q_maxerr N s)); [|discriminate].
        destruct (nth_error (rl N (q_wk N s1)) (q_maxerr N s)); [|discriminate].
        inversion Hat. congruence. }
      rewrite <- Hem. apply Tstep; [|exact HTT|].
      * destruct Hh as [_ Hh]. rewrite <- Hh by lia. now replace (S (q_maxerr N s - 1)) with (q_maxerr N s) by lia.
      * destruct (halves (q_cnt N s1) a b) as [p q]. cbn in Hmix. destruct Hmix as [E|E]; inversion E; auto.
Qed.

Lemma set_levels_wp B L v m s :
  L <= limit -> 1 <= m <= L -> Stored true B L 42 s ->
  wp (set_levels N v m (w_neval N (q_neval N s + 42) s)) (fun s' => Stored true B L 0 s').
Proof.
  intros HL Hm [(L1 & L2 & L3 & L4 & L5 & L6) Hcap Hlast Hmax Hnr Hio Hext Hno Htab Hlim Hgo Hbnd Hnev HA HT].
  specialize (L6 eq_refl). unfold set_levels.
  change (q_lev N (w_neval N (q_neval N s + 42) s)) with (q_lev N s).
  change (q_last N (w_neval N (q_neval N s + 42) s)) with (q_last N s).
  apply wp_bind, wp_set; [lia|]. apply wp_bind, wp_set; [rewrite upd_length; lia|]. cbn [wp].
  constructor; cbn; auto; try (exact Htab).
  - repeat split; cbn; auto. intros _. rewrite !upd_length. exact L6.
  - intros _. specialize (Hnev eq_refl). lia.
Qed.

Lemma reorder_wp pe B L s :
  2 <= L <= limit -> Stored pe B L 0 s ->
  wp (reorder N limit s) (fun s' => Mid pe B L s' /\ q_nrmax N s' <= jb limit (L - 1)).
Proof.
  intros HL [(L1 & L2 & L3 & L4 & L5 & L6) Hcap Hlast Hmax Hnr Hio Hext Hno Htab Hlim Hgo Hbnd Hnev HA HT].
  unfold reorder. rewrite Hlast.
  apply wp_bind. eapply wp_mono.
  { apply qpsrt_wp; try lia. exact Hio. }
  intros [[[m e] io'] nr'] (Q1 & Q2 & Q3 & Q4 & Q5 & Q6). cbn [wp]. split; [|sq; lia].
  constructor; sq; auto; try lia.
  - repeat split; sq; auto; lia.
Qed.

(** Entering the next iteration. *)
Lemma mid_next pe B B' L s :
  2 <= L <= limit -> Mid pe B L s -> q_ier N s = 0 -> q_nrmax N s <= jb limit L -> B <= B' -> Inv pe B' (S L) s.
Proof.
  intros HL [Hlen Hcap Hlast Hmax Herr Hnr Hio Hext Hno Htab Hlim Hgo Hbnd Hnev HA HT] Hier Hn HB.
  constructor; cbn [Nat.sub]; rewrite ?Nat.sub_0_r; auto; try lia.
  destruct Htab as (T1 & T2 & T3). repeat split; auto; lia.
Qed.

(** Changes to fields the invariant does not read. *)
Ltac same H := destruct H; constructor; assumption.

(** A search down the list only moves the selection. *)
Lemma scan_wp pe B L big s :
  2 <= L <= limit -> Mid pe B L s -> q_extrap N s = true ->
  (forall m s', 1 <= m <= L -> Mid pe B L s' -> wp (big m s') (fun _ => True)) ->
  wp (scan N limit big s) (fun r => match r with (s', back) =>
    Mid pe B L s' /\ q_extrap N s' = true /\ q_ier N s' = q_ier N s /\ q_noext N s' = q_noext N s /\
    (back = true -> q_nrmax N s' <= jb limit L) end).
Proof.
  intros HL HM Hx Hbig. unfold scan. rewrite (m_last _ _ _ _ HM).
  rewrite upper_eq by lia. cbn [rbind].
  apply wp_for with (I := fun i p => match p with (s', back) =>
    Mid pe B L s' /\ q_nrmax N s' = i /\ q_extrap N s' = true /\ q_ier N s' = q_ier N s
    /\ q_noext N s' = q_noext N s /\ back = false end).
  - sp; auto.
  - intros i [s1 back] Hi (M1 & N1 & X1 & I1 & O1 & ->). rewrite N1.
    eapply wp_entry; [exact (m_io _ _ _ _ M1)| |].
    { split; [|lia]. pose proof (m_nr _ _ _ _ M1). lia. }
    intros m Hm Hb.
    pose proof (m_len _ _ _ _ M1) as (L1 & L2 & L3 & L4 & L5 & L6). pose proof (m_cap _ _ _ _ M1).
    apply wp_bind, wp_get; [lia|]. intros e He.
    assert (M2 : Mid pe B L (w_maxerr N m (w_errmax N e s1))).
    { destruct M1; constructor; sq; auto. }
    apply wp_bind. eapply wp_mono; [apply Hbig; [lia|exact M2]|].
    intros [] _; cbn [wp].
    + sp; sq; auto. rewrite N1. intros _. lia.
    + sp; sq; auto; try lia.
      destruct M2; constructor; sq; auto; try lia. intro E. sq. rewrite X1 in E. discriminate.
  - intros [s1 back] (M1 & N1 & X1 & I1 & O1 & ->). sp; auto. discriminate.
Qed.

Lemma big_len_wp pe B L m s : 1 <= m <= L -> Mid pe B L s -> wp (big_len N m s) (fun _ => True).
Proof.
  intros Hm M. pose proof (m_len _ _ _ _ M) as (L1 & L2 & L3 & L4 & L5 & L6). pose proof (m_cap _ _ _ _ M).
  unfold big_len. apply wp_bind, wp_get; [lia|]. intros b _. apply wp_bind, wp_get; [lia|]. intros a _. exact I.
Qed.
Lemma big_lev_wp B L m s : 1 <= m <= L -> Mid true B L s -> wp (big_lev N m s) (fun _ => True).
Proof.
  intros Hm M. pose proof (m_len _ _ _ _ M) as (L1 & L2 & L3 & L4 & L5 & L6). pose proof (m_cap _ _ _ _ M).
  specialize (L6 eq_refl).
  unfold big_lev. apply wp_bind, wp_get; [lia|]. intros b _. exact I.
Qed.

Lemma extrapolate_wp pe B L s :
  L <> limit -> B <= 50 -> Mid pe B L s ->
  wp (extrapolate N epsabs epsrel s) (fun r => match r with (s', better) =>
    Mid pe B L s' /\ q_extrap N s' = q_extrap N s /\ q_noext N s' = q_noext N s /\
    (q_ier N s' = q_ier N s \/ q_ier N s' = 5) /\
    (better = true -> q_ertest N s' = fmax N epsabs (fmul N epsrel (fabs N (q_result N s'))) /\
       exists x, A x /\ flt N (q_abserr N s') x = true) end).
Proof.
  intros HL HB M. pose proof (m_tab _ _ _ _ M) as (T1 & T2 & T3). unfold extrapolate.
  apply wp_bind. eapply wp_mono; [apply qelg_wp; lia|].
  intros [[[[[n tab] r3] nres] reseps] abseps] (Hn & Ht & Hr).
  match goal with |- context [flt N abseps (q_abserr N ?u)] => set (s1 := u) end.
  assert (M1 : Mid pe B L s1 /\ q_extrap N s1 = q_extrap N s /\ q_noext N s1 = q_noext N s
               /\ (q_ier N s1 = q_ier N s \/ q_ier N s1 = 5)).
  { unfold s1. clear s1. match goal with |- context [if ?c then _ else _] => destruct c end.
    - split; [|auto]. destruct M; constructor; sq; auto; try lia. repeat split; sq; auto; lia.
    - split; [|auto]. destruct M; constructor; sq; auto; try lia. repeat split; sq; auto; lia. }
  clearbody s1. destruct M1 as (M1 & X1 & O1 & I1).
  destruct (flt N abseps (q_abserr N s1)) eqn:E; cbn [wp].
  - split; [|sq; sp; auto].
    + pose proof (Alt _ _ (m_abs _ _ _ _ M1) E) as HA'. destruct M1; constructor; sq; auto.
    + intros _. split; [reflexivity|]. exists (q_abserr N s1). split; [apply (m_abs _ _ _ _ M1)|exact E].
  - sp; auto; discriminate.
Qed.

Lemma restart_wp pe B L s :
  2 <= L <= limit -> Mid pe B L s -> forall no,
  wp (restart N (w_noext N no s)) (fun s' => Mid pe B L s' /\ q_ier N s' = q_ier N s /\ q_nrmax N s' = 1).
Proof.
  intros HL M no. unfold restart.
  change (q_wk N (w_noext N no s)) with (q_wk N s).
  eapply wp_entry; [exact (m_io _ _ _ _ M)| |].
  { pose proof (jb_ge limit L). lia. }
  intros m Hm Hb.
  pose proof (m_len _ _ _ _ M) as (L1 & L2 & L3 & L4 & L5 & L6). pose proof (m_cap _ _ _ _ M).
  apply wp_bind, wp_get; [lia|]. intros e He. cbn [wp]. split; [|split; reflexivity].
  destruct M; constructor; sq; auto.
Qed.

(** ** Leaving the main loop *)
Inductive exit_kind (strict : bool) (s : st) : Prop :=
| by_sum : q_goto_sum N s = true -> fle N (q_errsum N s) (q_errbnd N s) = true ->
    q_errbnd N s = fmax N epsabs (fmul N epsrel (fabs N (q_area N s))) -> exit_kind strict s
| by_code : q_goto_sum N s = false -> q_ier N s <> 0 -> exit_kind strict s
| by_test x : q_goto_sum N s = false -> A x -> flt N (q_abserr N s) x = true ->
    (if strict then flt N (q_abserr N s) (q_ertest N s) = true else fle N (q_abserr N s) (q_ertest N s) = true) ->
    q_ertest N s = fmax N epsabs (fmul N epsrel (fabs N (q_result N s))) -> exit_kind strict s.

Record Done (pe : bool) (s : st) : Prop := {
  d_last : 1 <= q_last N s <= limit;
  d_len : q_last N s < length (rl N (q_wk N s));
  d_neval : pe = true -> q_neval N s = q_cnt N s;
  d_T : tracked s (q_last N s) }.

Lemma mid_done pe B L s : 2 <= L <= limit -> Mid pe B L s -> Done pe s.
Proof.
  intros HL M. pose proof (m_len _ _ _ _ M) as (L1 & L2 & L3 & L4 & L5 & L6). pose proof (m_cap _ _ _ _ M).
  pose proof (m_last _ _ _ _ M) as El. constructor; rewrite ?El; try lia; apply M.
Qed.

Definition step_post (pe strict : bool) (B' L : nat) (c : ctl st) : Prop :=
  match c with
  | Cont s' => S L <= limit /\ Inv pe B' (S L) s'
  | Brk s' => Done pe s' /\ exit_kind strict s'
  end.

(** The part of the iteration that both routines share: from the choice of interval on. *)
Lemma mid_cont pe strict B B' L s :
  2 <= L <= limit -> Mid pe B L s -> q_ier N s = 0 -> q_nrmax N s <= jb limit L -> B <= B' ->
  step_post pe strict B' L (Cont s).
Proof.
  intros HL M Hi Hn HB. split.
  - assert (L <> limit) by (intro E; now apply (m_lim _ _ _ _ M E)). lia.
  - now apply mid_next with (B := B).
Qed.

Lemma nrmax1 L : 2 <= L <= limit -> 2 <= jb limit L.
Proof. intro H. pose proof (jb_ge limit L). lia. Qed.

Lemma after_extrapolation B B' L s :
  2 <= L <= limit -> Mid false B L s -> q_ier N s = 0 \/ q_ier N s = 5 -> q_noext N s = false -> B <= B' ->
  wp (let s := if q_numrl2 N s =? 1 then w_noext N true s else s in
      if q_ier N s =? 5 then Ok (Brk s)
      else s0 <- restart N s;; Ok (Cont (w_small N (fmul N (q_small N s0) (lit N 0.5)) s0)))
    (step_post false false B' L).
Proof.
  intros HL M Hi Hno HB. cbn zeta.
  assert (Es : exists no, (if q_numrl2 N s =? 1 then w_noext N true s else s) = w_noext N no s).
  { destruct (q_numrl2 N s =? 1); [now exists true|]. exists false. rewrite <- Hno. now destruct s. }
  destruct Es as (no & ->). change (q_ier N (w_noext N no s)) with (q_ier N s).
  destruct (Nat.eqb_spec (q_ier N s) 5) as [E5|E5].
  - cbn [wp step_post]. split.
    + pose proof (mid_done _ _ _ _ HL M) as D. destruct D; constructor; auto.
    + apply by_code; sq; [apply (m_goto _ _ _ _ M)|lia].
  - apply wp_bind. eapply wp_mono; [apply (restart_wp false B L s HL M)|].
    intros s' (M' & I' & N'). cbn [wp]. apply mid_cont with (B := B); sq; auto; try lia.
    + destruct M'; constructor; assumption.
    + pose proof (nrmax1 L HL). lia.
Qed.

Lemma qagse_body_wp a b L s :
  2 <= L <= limit -> limit <= 51 -> Inv false (Nat.max 2 (L - 1)) L s ->
  wp (qagse_body N f a b epsabs epsrel limit L s) (step_post false false (Nat.max 2 L) L).
Proof.
  intros HL H51 HI. unfold qagse_body.
  apply wp_bind. eapply wp_mono; [apply (store_wp false _ L s HL HI)|].
  intros [s1 c] [S1 _]. cbn [fst] in S1.
  assert (S1' : Stored false (Nat.max 2 (L - 1)) L 0 s1).
  { destruct S1; constructor; auto; discriminate. }
  apply wp_bind. eapply wp_mono; [apply (reorder_wp false _ L s1 HL S1')|].
  intros s2 [M2 Hn2]. pose proof (nrmax1 L HL) as Hjb.
  destruct (fle N (q_errsum N s2) (q_errbnd N s2)) eqn:Esum.
  { cbn [wp step_post]. split.
    - pose proof (mid_done _ _ _ _ HL M2) as D. destruct D; constructor; auto.
    - apply by_sum; sq; auto. apply (m_errbnd _ _ _ _ M2). }
  destruct (Nat.eqb_spec (q_ier N s2) 0) as [Ei|Ei]; cbn [negb].
  2:{ cbn [wp step_post]. split; [exact (mid_done _ _ _ _ HL M2)|]. apply by_code; auto. apply (m_goto _ _ _ _ M2). }
  assert (HLl : L <> limit) by (intro E; now apply (m_lim _ _ _ _ M2 E)).
  rewrite (m_last _ _ _ _ M2). pose proof (m_tab _ _ _ _ M2) as (T1 & T2 & T3).
  destruct (Nat.eqb_spec L 2) as [->|HL2].
  { apply wp_bind, wp_set; [lia|]. cbn [wp].
    apply mid_cont with (B := Nat.max 2 (2 - 1)); sq; auto; try lia.
    - destruct M2; constructor; sq; auto. repeat split; sq; rewrite ?upd_length; auto; lia.
    - replace (jb limit (2 - 1)) with 1 in Hn2; [lia|]. pose proof (jb_ge limit 1). pose proof (jb_le limit 1). cbn. lia. }
  destruct (q_noext N s2) eqn:Eno.
  { cbn [wp]. apply mid_cont with (B := Nat.max 2 (L - 1)); auto; try lia.
    rewrite (m_ext _ _ _ _ M2); [lia|]. now apply (m_noext _ _ _ _ M2). }
  match goal with |- context [q_extrap N ?u] => set (s3 := u) end.
  assert (M3 : Mid false (Nat.max 2 (L - 1)) L s3) by (destruct M2; constructor; assumption).
  assert (Ei3 : q_ier N s3 = 0) by exact Ei. assert (Eno3 : q_noext N s3 = false) by exact Eno.
  clearbody s3. clear M2 Hn2 Esum Ei T1 T2 T3 Eno s2.
  apply wp_bind.
  apply wp_mono with (P := fun g => g = true -> q_extrap N s3 = false).
  { destruct (q_extrap N s3) eqn:Ex; [cbn [wp]; discriminate|].
    eapply wp_mono; [apply (big_len_wp false (Nat.max 2 (L - 1)) L); [apply M3|exact M3]|auto]. }
  intros g Hg. destruct g.
  { cbn [wp]. apply mid_cont with (B := Nat.max 2 (L - 1)); auto; try lia.
    rewrite (m_ext _ _ _ _ M3 (Hg eq_refl)). lia. }
  clear Hg.
  match goal with |- context [q_ierro N ?u] => set (s4 := u) end.
  assert (M4 : Mid false (Nat.max 2 (L - 1)) L s4 /\ q_extrap N s4 = true /\ q_ier N s4 = 0 /\ q_noext N s4 = false).
  { unfold s4. destruct (q_extrap N s3) eqn:Ex; [auto|]. split; [|auto].
    destruct M3; constructor; sq; auto; try lia; try discriminate. congruence. }
  clearbody s4. clear M3 Ei3 Eno3 s3. destruct M4 as (M4 & Ex4 & Ei4 & Eno4).
  apply wp_bind.
  apply wp_mono with (P := fun r => match r with (s', back) =>
    Mid false (Nat.max 2 (L - 1)) L s' /\ q_extrap N s' = true /\ q_ier N s' = 0 /\ q_noext N s' = false /\
    (back = true -> q_nrmax N s' <= jb limit L) end).
  { match goal with |- context [if ?c then _ else _] => destruct c end.
    - cbn [wp]. sp; auto. discriminate.
    - eapply wp_mono; [apply (scan_wp false (Nat.max 2 (L - 1)) L); auto|].
      + intros m s' Hm Hs'. now apply (big_len_wp false (Nat.max 2 (L - 1)) L) with (1 := Hm) (2 := Hs').
      + intros [s' back] (P1 & P2 & P3 & P4 & P5). sp; auto; congruence. }
  clear s4 M4 Ex4 Ei4 Eno4. intros [s5 back] (M5 & Ex5 & Ei5 & Eno5 & Hb).
  destruct back.
  { cbn [wp]. apply mid_cont with (B := Nat.max 2 (L - 1)); auto; lia. }
  pose proof (m_tab _ _ _ _ M5) as (T1 & T2 & T3).
  apply wp_bind, wp_set; [sq; lia|].
  match goal with |- context [extrapolate N epsabs epsrel ?u] => set (s6 := u) end.
  assert (M6 : Mid false L L s6).
  { unfold s6. destruct M5; constructor; sq; auto. repeat split; sq; rewrite ?upd_length; auto; lia. }
  assert (Ei6 : q_ier N s6 = 0) by exact Ei5. assert (Eno6 : q_noext N s6 = false) by exact Eno5.
  clearbody s6. clear M5 Ex5 Ei5 Eno5 Hb T1 T2 T3 s5.
  apply wp_bind. eapply wp_mono; [apply (extrapolate_wp false L L s6); auto; lia|].
  intros [s7 better] (M7 & Ex7 & Eno7 & Ei7 & Hbet).
  destruct better; cbn [andb].
  - destruct (fle N (q_abserr N s7) (q_ertest N s7)) eqn:Et.
    { cbn [wp step_post]. split; [exact (mid_done _ _ _ _ HL M7)|].
      destruct (Hbet eq_refl) as (H1 & x & H2 & H3). apply by_test with (x := x); auto. apply (m_goto _ _ _ _ M7). }
    apply after_extrapolation with (B := L); [exact HL|exact M7|rewrite Ei6 in Ei7; exact Ei7|congruence|lia].
  - apply after_extrapolation with (B := L); [exact HL|exact M7|rewrite Ei6 in Ei7; exact Ei7|congruence|lia].
Qed.

(** After [numrl2] has been advanced and the table extended (quad.rs 1401-1434). *)
Lemma after_table B L s :
  2 <= L <= limit -> L <> limit -> B <= 50 -> Mid true B L s -> q_ier N s = 0 -> q_noext N s = false ->
  wp (c <- (if 2 <? q_numrl2 N s then
        ' (s, better) <- extrapolate N epsabs epsrel s ;;
        if better && flt N (q_abserr N s) (q_ertest N s) then Ok (Brk s) else
        let s := if q_numrl2 N s =? 1 then w_noext N true s else s in
        if 5 <=? q_ier N s then Ok (Brk s) else Ok (Cont s)
      else Ok (Cont s)) ;;
      match c with
      | Brk s => Ok (Brk s)
      | Cont s => s <- restart N s ;; Ok (Cont (w_levmax N (q_levmax N s + 1) s))
      end) (step_post true true B L).
Proof.
  intros HL HLl HB M Hi Hno. apply wp_bind.
  apply wp_mono with (P := fun c => match c with
    | Brk s' => Done true s' /\ exit_kind true s'
    | Cont s' => exists s0 no, s' = w_noext N no s0 /\ Mid true B L s0 /\ q_ier N s0 = 0 end).
  - destruct (Nat.ltb_spec 2 (q_numrl2 N s)) as [H2|H2].
    + apply wp_bind. eapply wp_mono; [apply (extrapolate_wp true B L s); auto|].
      intros [s7 better] (M7 & Ex7 & Eno7 & Ei7 & Hbet). rewrite Hi in Ei7.
      assert (Es : exists no, (if q_numrl2 N s7 =? 1 then w_noext N true s7 else s7) = w_noext N no s7).
      { destruct (q_numrl2 N s7 =? 1); [now exists true|]. exists (q_noext N s7). now destruct s7. }
      destruct Es as (no & ->). change (q_ier N (w_noext N no s7)) with (q_ier N s7).
      assert (Hrest : wp (if 5 <=? q_ier N s7 then Ok (Brk (w_noext N no s7)) else Ok (Cont (w_noext N no s7)) : R (ctl st))
        (fun c => match c with
          | Brk s' => Done true s' /\ exit_kind true s'
          | Cont s' => exists s0 no, s' = w_noext N no s0 /\ Mid true B L s0 /\ q_ier N s0 = 0 end)).
      { destruct (Nat.leb_spec 5 (q_ier N s7)); cbn [wp].
        - split; [pose proof (mid_done _ _ _ _ HL M7) as D; destruct D; constructor; auto|].
          apply by_code; sq; [apply (m_goto _ _ _ _ M7)|lia].
        - exists s7, no. split; [reflexivity|]. split; [exact M7|lia]. }
      destruct better; cbn [andb]; [|exact Hrest].
      destruct (flt N (q_abserr N s7) (q_ertest N s7)) eqn:Et; [|exact Hrest].
      cbn [wp]. split; [exact (mid_done _ _ _ _ HL M7)|].
      destruct (Hbet eq_refl) as (H3 & x & H4 & H5). apply by_test with (x := x); auto. apply (m_goto _ _ _ _ M7).
    + cbn [wp]. exists s, (q_noext N s). split; [now destruct s|]. auto.
  - intros [s'|s'] H; [|exact H]. destruct H as (s0 & no & -> & M0 & I0).
    apply wp_bind. eapply wp_mono; [apply (restart_wp true B L s0 HL M0)|].
    intros s1 (M1 & I1 & N1). cbn [wp]. apply mid_cont with (B := B); sq; auto; try lia.
    + destruct M1; constructor; assumption.
    + pose proof (nrmax1 L HL). lia.
Qed.

Lemma qagpe_body_wp npts L s :
  npts + 2 <= L <= limit -> limit <= 51 + npts -> Inv true (L - 1 - npts) L s ->
  wp (qagpe_body N f epsabs epsrel limit L s) (step_post true true (L - npts) L).
Proof.
  intros HLn H51 HI. unfold qagpe_body. set (B := L - 1 - npts) in *.
  assert (HL : 2 <= L <= limit) by lia.
  pose proof (grow_wp true B L s HL HI) as HG. cbn zeta in HG.
  apply wp_bind, wp_get.
  { destruct HG as ((_ & _ & _ & _ & _ & L6) & Hcap & _ & Hm & _). specialize (L6 eq_refl). rewrite Hm.
    pose proof (i_max _ _ _ _ HI). lia. }
  intros lc _.
  assert (Hm : 1 <= q_maxerr N (grow N limit (w_last N L s)) <= L).
  { destruct HG as (_ & _ & _ & Hm & _). rewrite Hm. pose proof (i_max _ _ _ _ HI). lia. }
  apply wp_bind. eapply wp_mono; [apply (store_wp true B L s HL HI)|].
  intros [s1 c] [S1 _]. cbn [fst] in S1.
  apply wp_bind. eapply wp_mono; [apply (set_levels_wp B L); [lia|exact Hm|exact S1]|].
  clear s1 S1. intros s1 S1.
  apply wp_bind. eapply wp_mono; [apply (reorder_wp true B L s1 HL S1)|].
  intros s2 [M2 Hn2]. pose proof (nrmax1 L HL) as Hjb. clear s1 S1 HG Hm.
  destruct (fle N (q_errsum N s2) (q_errbnd N s2)) eqn:Esum.
  { cbn [wp step_post]. split.
    - pose proof (mid_done _ _ _ _ HL M2) as D. destruct D; constructor; auto.
    - apply by_sum; sq; auto. apply (m_errbnd _ _ _ _ M2). }
  destruct (Nat.eqb_spec (q_ier N s2) 0) as [Ei|Ei]; cbn [negb].
  2:{ cbn [wp step_post]. split; [exact (mid_done _ _ _ _ HL M2)|]. apply by_code; auto. apply (m_goto _ _ _ _ M2). }
  assert (HLl : L <> limit) by (intro E; now apply (m_lim _ _ _ _ M2 E)).
  destruct (q_noext N s2) eqn:Eno.
  { cbn [wp]. apply mid_cont with (B := B); auto; try lia.
    rewrite (m_ext _ _ _ _ M2); [lia|]. now apply (m_noext _ _ _ _ M2). }
  match goal with |- context [q_extrap N ?u] => set (s3 := u) end.
  assert (M3 : Mid true B L s3) by (destruct M2; constructor; assumption).
  assert (Ei3 : q_ier N s3 = 0) by exact Ei. assert (Eno3 : q_noext N s3 = false) by exact Eno.
  clearbody s3. clear M2 Hn2 Esum Ei Eno s2.
  apply wp_bind.
  apply wp_mono with (P := fun g => g = true -> q_extrap N s3 = false).
  { destruct (q_extrap N s3) eqn:Ex; [cbn [wp]; discriminate|].
    eapply wp_mono; [apply (big_lev_wp B L); [apply M3|exact M3]|auto]. }
  intros g Hg. destruct g.
  { cbn [wp]. apply mid_cont with (B := B); auto; try lia.
    rewrite (m_ext _ _ _ _ M3 (Hg eq_refl)). lia. }
  clear Hg.
  match goal with |- context [q_ierro N ?u] => set (s4 := u) end.
  assert (M4 : Mid true B L s4 /\ q_extrap N s4 = true /\ q_ier N s4 = 0 /\ q_noext N s4 = false).
  { unfold s4. destruct (q_extrap N s3) eqn:Ex; [auto|]. split; [|auto].
    destruct M3; constructor; sq; auto; try lia; try discriminate. congruence. }
  clearbody s4. clear M3 Ei3 Eno3 s3. destruct M4 as (M4 & Ex4 & Ei4 & Eno4).
  apply wp_bind.
  apply wp_mono with (P := fun r => match r with (s', back) =>
    Mid true B L s' /\ q_extrap N s' = true /\ q_ier N s' = 0 /\ q_noext N s' = false /\
    (back = true -> q_nrmax N s' <= jb limit L) end).
  { match goal with |- context [if ?c then _ else _] => destruct c end.
    - cbn [wp]. sp; auto. discriminate.
    - eapply wp_mono; [apply (scan_wp true B L); auto|].
      + intros m s' Hm Hs'. now apply (big_lev_wp B L) with (1 := Hm) (2 := Hs').
      + intros [s' back] (P1 & P2 & P3 & P4 & P5). sp; auto; congruence. }
  clear s4 M4 Ex4 Ei4 Eno4. intros [s5 back] (M5 & Ex5 & Ei5 & Eno5 & Hb).
  destruct back.
  { cbn [wp]. apply mid_cont with (B := B); auto; lia. }
  pose proof (m_tab _ _ _ _ M5) as (T1 & T2 & T3).
  apply wp_bind, wp_set; [sq; lia|].
  match goal with |- context [Nat.ltb 2 (q_numrl2 N ?u)] => set (s6 := u) end.
  apply after_table; try lia; try assumption.
  unfold s6. destruct M5; constructor; sq; auto. repeat split; sq; rewrite ?upd_length; auto; lia.
Qed.

(** ** Results *)
Lemma sum_rlist_wp rlist last : last < length rlist -> wp (sum_rlist N rlist last) (fun _ => True).
Proof.
  intro H. unfold sum_rlist. apply wp_for with (I := fun _ _ => True); auto.
  intros i r Hi _. apply wp_bind, wp_get; [lia|]. intros v _. exact I.
Qed.
Lemma finish_wp pe defabs sgn s : Done pe s -> wp (finish N defabs sgn s) (fun _ => True).
Proof.
  intros [H1 H2 _ _]. pose proof (sum_rlist_wp _ _ H2) as Hs. unfold finish.
  repeat match goal with
  | |- context [if ?c then _ else _] => destruct c
  | |- wp (rbind (sum_rlist N _ _) _) _ => apply wp_bind; eapply wp_mono; [exact Hs|]; intros; exact I
  | |- wp (Ok _) _ => exact I
  end.
Qed.

End Loop.
