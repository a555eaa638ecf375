(** C183: the limits of existing telescopes. *)
From Coq Require Import String Reals Lra Psatz List Lia.
From Verif Require Import PyBase PyBaseFacts LimitsModel FluxModel TeleModel.
Import ListNotations.
Local Open Scope R_scope.
Local Open Scope string_scope.
Local Open Scope list_scope.

(** ** Specification *)
(** the values [vs] are those the models themselves give, in order *)
Definition own_limits (m : observed) (n : R) (method : string) (models : list pyobj) (vs : list ext) : Prop :=
  Forall2 (fun o v => exists f, o = Some f /\ f m n method = Ret v) models vs.
(** the last constrainer of this name *)
Definition last_named (name : string) (cs : list telescope) : option telescope :=
  find (fun c => String.eqb (tel_name c) name) (rev cs).

(** ** Lemmas *)
Lemma lupd_mid {A} (a : list A) x b v : lupd (a ++ x :: b) (length a) v = Ret (a ++ v :: b).
Proof. induction a as [|y a IH]; [reflexivity|]. cbn. rewrite IH. reflexivity. Qed.
Lemma tel_loop_spec t : forall models done,
  tel_loop t (length done) models (done ++ repeat (Fin 0) (length models)) =
  let* vs := mapM (tel_one t) models in Ret (done ++ vs)%list.
Proof.
  induction models as [|m r IH]; intro done; cbn; [rewrite app_nil_r; reflexivity|].
  destruct (tel_one t m) as [v|e]; cbn [bind]; [|reflexivity]. rewrite lupd_mid. cbn [bind].
  specialize (IH (done ++ [v])%list). rewrite app_length, Nat.add_1_r, <- !app_assoc in IH. cbn in IH. rewrite IH.
  destruct (mapM (tel_one t) r) as [vs|e]; cbn; [rewrite <- app_assoc|]; reflexivity.
Qed.
Lemma tel_constrain_map t models : tel_constrain t models = mapM (tel_one t) models.
Proof.
  unfold tel_constrain. pose proof (tel_loop_spec t models []) as H. cbn in H. rewrite H.
  destruct (mapM _ _); reflexivity.
Qed.
Lemma tel_one_ret t o v : tel_one t o = Ret v <-> exists f, o = Some f /\ f (tel_data t) (tel_sigma t) (tel_method t) = Ret v.
Proof.
  destruct o as [f|]; cbn; split; intro H.
  - exists f. auto.
  - destruct H as (g & E & H). injection E as ->. exact H.
  - discriminate.
  - destruct H as (g & E & H). discriminate.
Qed.
Lemma mapM_forall2 {A B} (f : A -> res B) : forall l vs, mapM f l = Ret vs <-> Forall2 (fun a v => f a = Ret v) l vs.
Proof.
  induction l as [|a r IH]; intro vs; cbn; split; intro H.
  - injection H as <-. constructor.
  - inversion H. reflexivity.
  - destruct (f a) as [v|] eqn:E; [|discriminate]. cbn in H. destruct (mapM f r) as [w|] eqn:E'; [|discriminate].
    injection H as <-. constructor; [exact E|]. apply IH. reflexivity.
  - inversion H as [|x y l' l'' H1 H2]; subst. rewrite H1. cbn. apply IH in H2. rewrite H2. reflexivity.
Qed.

(** ** A telescope gives one value per model, in order: the limit the model gives for the telescope's data, and nothing else *)
Theorem telescope_limits : forall t models vs,
  tel_constrain t models = Ret vs <-> own_limits (tel_data t) (tel_sigma t) (tel_method t) models vs.
Proof.
  intros t models vs. rewrite tel_constrain_map, mapM_forall2. unfold own_limits.
  split; intro H; induction H as [|o v l l' E H IH]; constructor; try exact IH; apply tel_one_ret; exact E.
Qed.
Print Assumptions telescope_limits.

Definition strict : limit_method := fun _ n method => if String.eqb method "chi2" then Ret (Fin n) else Raise NotImplementedError.
Definition no_data : data_files := {| df_comptel := []; df_egret := []; df_fermi := []; df_integral := [] |}.
Example telescope_limits_example :
  tel_constrain (tel_default (fermi_limit no_data)) [Some strict; Some (fun _ _ _ => Ret Inf)] = Ret [Fin 2; Inf].
Proof. reflexivity. Qed.

(** ** The first object without [binned_limit] ends it with an AssertionError, an unknown method with NotImplementedError *)
Theorem telescope_refuses : forall t before after vs,
  own_limits (tel_data t) (tel_sigma t) (tel_method t) before vs ->
  tel_constrain t (before ++ None :: after)%list = Raise AssertionError /\
  (forall kind mx conv crit w J D, tel_method t <> "1bin" -> tel_method t <> "chi2" -> (kind = "ann" \/ kind = "dec") ->
   ob_target (tel_data t) = region J D w ->
   tel_constrain t (before ++ Some (theory_limit kind mx conv crit) :: after)%list = Raise NotImplementedError).
Proof.
  intros t before after vs H. rewrite tel_constrain_map.
  assert (S : forall o e, tel_one t o = Raise e -> mapM (tel_one t) (before ++ o :: after)%list = Raise e).
  { intros o e E. unfold own_limits in H. induction H as [|a v l l' Ha H IH]; cbn; [rewrite E; reflexivity|].
    rewrite (proj2 (tel_one_ret t a v) Ha). cbn. rewrite IH. reflexivity. }
  split; [apply S; reflexivity|]. intros kind mx conv crit w J D N1 N2 Hk Ht. rewrite tel_constrain_map. apply S.
  cbn. unfold theory_limit, binned_limit, compute_fluxes, flux_factor. rewrite Ht. cbn [region t_dOmega t_J t_D num bind].
  apply String.eqb_neq in N1, N2. destruct Hk as [-> | ->]; cbn; rewrite N1, N2; reflexivity.
Qed.
Print Assumptions telescope_refuses.

Example telescope_refuses_example :
  own_limits (tel_data (integral_limit no_data 3 "1 bin")) 3 "1 bin" [Some (fun _ n _ => Ret (Fin n))] [Fin 3].
Proof. repeat constructor. eexists. split; reflexivity. Qed.

(** ** Asked for the method of one bin and two sigma, a telescope gives what the models give by default *)
Theorem telescope_one_bin : forall d models vs,
  let agree t := tel_constrain t models = Ret vs <->
    Forall2 (fun o v => exists f, o = Some f /\ limit_default f (tel_data t) = Ret v) models vs in
  agree (comptel_limit d 2 "1bin") /\ agree (egret_limit d 2 "1bin") /\ agree (fermi_limit d 2 "1bin") /\ agree (integral_limit d 2 "1bin").
Proof. intros. unfold agree. repeat split; apply telescope_limits. Qed.
Print Assumptions telescope_one_bin.

Example telescope_one_bin_example :
  tel_constrain (egret_limit no_data 2 "1bin") [Some (fun _ n method => if String.eqb method "1bin" then Ret (Fin n) else Ret Inf)] = Ret [Fin 2].
Proof. reflexivity. Qed.

(** ** By default it does not: a model that the default of [binned_limit] bounds has no bound from the default telescope, whatever
    the critical values of the chi-squared *)
Theorem telescope_default_refuted : exists kind mx conv d, forall crit,
  let f := theory_limit kind mx conv crit in
  let t := tel_default (egret_limit d) in
  exists x, limit_default f (tel_data t) = Ret (Fin x) /\ 0 < x /\ tel_constrain t [Some f] = Ret [Inf].
Proof.
  exists "ann", 1, (fun _ _ _ => 1),
    {| df_comptel := []; df_egret := [ {| mb_low := 0; mb_high := 1; mb_flux := 1.253 * 10 ^ 28; mb_err := 1 |} ]; df_fermi := []; df_integral := [] |}.
  intro crit. cbv zeta. rewrite tel_constrain_map.
  unfold limit_default, tel_default, egret_limit, tel_one, theory_limit, binned_limit, compute_fluxes, flux_factor.
  cbn [tel_data tel_sigma tel_method ob_target ob_bins df_egret region t_dOmega t_J num bind String.eqb Ascii.eqb Bool.eqb mapM
       map combine fill fst snd mb_low mb_high mb_flux mb_err].
  set (J := 1.253 * 10 ^ 28). set (w := 6.585). assert (HJ : 0 < J) by (unfold J; lra). assert (Hw : w = 6.585) by reflexivity.
  clearbody J w. pose proof PI_RGT_0 as Hp. pose proof PI2_3_2 as Hq. unfold PI2 in Hq.
  set (phi := w / (4 * PI * 1) * (J / (2 * 2 * 1)) * 1).
  assert (E : phi * (16 * PI) = w * J) by (unfold phi; field; lra).
  assert (P0 : 0 < phi) by (apply (Rmult_lt_reg_r (16 * PI)); [lra|rewrite E, Rmult_0_l, Hw; lra]).
  assert (P1 : phi <= w * J) by (rewrite <- E; nra).
  exists (w * (1 - 0) * (J + 2 * 1) / phi). repeat split.
  - unfold constrain_one_bin, sv_lim, phi_max, min_list, fill. cbn [map fold_left b_phi b_low b_high b_flux b_err mb_low mb_high mb_flux mb_err].
    destruct (Rlt_dec 0 phi) as [_|n]; [reflexivity|contradiction].
  - apply Rdiv_lt_0_compat; [rewrite Hw; nra|exact P0].
  - unfold constrain_chi_squared, chi2_obs, fill. cbn [map fold_left b_phi b_low b_high b_flux b_err mb_low mb_high mb_flux mb_err].
    destruct (Req_EM_T _ 0) as [_|n]; [reflexivity|]. exfalso. apply n. rewrite Rmax_right by lra. unfold Rdiv. ring.
Qed.
Print Assumptions telescope_default_refuted.

(** ** A composite keeps, for each name, the values of the last constrainer of that name *)
Theorem composite_keeps_the_last : forall cs models d,
  composite_constrain cs models = Ret d ->
  NoDup (dkeys d) /\
  forall name, match last_named name cs with
               | None => dget d name = None
               | Some c => exists vs, dget d name = Some vs /\ own_limits (tel_data c) (tel_sigma c) (tel_method c) models vs
               end.
Proof.
  intros cs models.
  assert (G : forall d0 d, composite_loop cs models d0 = Ret d -> NoDup (dkeys d0) ->
    NoDup (dkeys d) /\ forall name, match last_named name cs with
               | None => dget d name = dget d0 name
               | Some c => exists vs, dget d name = Some vs /\ own_limits (tel_data c) (tel_sigma c) (tel_method c) models vs
               end).
  { induction cs as [|c r IH]; intros d0 d H N; cbn in H.
    - injection H as <-. split; [exact N|reflexivity].
    - destruct (tel_constrain c models) as [vs|e] eqn:E; [|discriminate]. cbn in H.
      assert (N' : NoDup (dkeys (dset d0 (tel_name c) vs))).
      { clear - N. induction d0 as [|[k v] d0 IH]; cbn; [constructor; [intros []|constructor]|].
        cbn in N. inversion N as [|x l H1 H2]; subst. destruct (String.eqb_spec k (tel_name c)) as [->|Hne]; [exact N|].
        cbn. constructor; [|apply IH, H2]. intro I. apply H1. clear - I Hne.
        induction d0 as [|[k' v'] d0 IH]; cbn in I.
        - destruct I as [I|[]]. symmetry in I. contradiction.
        - destruct (String.eqb_spec k' (tel_name c)) as [->|]; cbn in *; [destruct I as [I|I]; [left|right]; auto|].
          destruct I as [I|I]; [left; exact I|right; apply IH, I]. }
      destruct (IH _ _ H N') as [A B]. split; [exact A|]. intro name. specialize (B name).
      unfold last_named in *. cbn [rev]. 
      assert (F : forall (p : telescope -> bool) l x, find p (l ++ [x])%list = match find p l with Some y => Some y | None => if p x then Some x else None end)
        by (intros p l x; induction l as [|y l IHl]; cbn; [reflexivity|destruct (p y); auto]).
      rewrite F. destruct (find _ (rev r)) as [c'|]; [exact B|].
      destruct (String.eqb_spec (tel_name c) name) as [<-|Hne].
      + exists vs. split; [rewrite B; apply dget_dset_same|apply telescope_limits, E].
      + rewrite B. apply dget_dset_other. congruence. }
  intros d H. destruct (G [] d H ltac:(constructor)) as [A B]. split; [exact A|]. intro name. specialize (B name).
  destruct (last_named name cs); exact B.
Qed.
Print Assumptions composite_keeps_the_last.

Example composite_keeps_the_last_example :
  composite_constrain [egret_limit no_data 2 "chi2"; fermi_limit no_data 3 "chi2"] [Some strict]
  = Ret [("egret", [Fin 2]); ("fermi", [Fin 3])].
Proof. reflexivity. Qed.

(** ** So it does not answer for every constrainer: of two limits from EGRET with different significances one is lost *)
Theorem composite_loses_one_refuted : exists cs models d,
  composite_constrain cs models = Ret d /\ (length d < length cs)%nat /\
  exists c vs, In c cs /\ own_limits (tel_data c) (tel_sigma c) (tel_method c) models vs /\ ~ In vs (dvals d).
Proof.
  exists [egret_limit no_data 2 "chi2"; egret_limit no_data 5 "chi2"], [Some strict], [("egret", [Fin 5])].
  split; [reflexivity|]. split; [cbn; lia|]. exists (egret_limit no_data 2 "chi2"), [Fin 2]. split; [left; reflexivity|]. split.
  - repeat constructor. exists strict. split; reflexivity.
  - cbn. intros [E|[]]. injection E. lra.
Qed.
Print Assumptions composite_loses_one_refuted.

(** ** The four telescopes by default: four names, each with its own data and the solid angle of its own target *)
Theorem four_telescopes : forall d models r,
  composite_constrain [tel_default (comptel_limit d); tel_default (egret_limit d); tel_default (fermi_limit d); tel_default (integral_limit d)] models = Ret r ->
  map fst r = ["comptel"; "egret"; "fermi"; "integral"] /\
  forall name bins, In (name, bins) [("comptel", df_comptel d); ("egret", df_egret d); ("fermi", df_fermi d); ("integral", df_integral d)] ->
  exists m vs table n, dget r name = Some vs /\ own_limits m 2 "chi2" models vs /\ ob_bins m = bins /\
    dget diffuse_targets name = Some table /\ dget table "nfw" = Some n /\ t_dOmega (ob_target m) = t_dOmega n.
Proof.
  intros d models r H. split.
  - unfold composite_constrain in H. cbn [composite_loop] in H.
    do 4 (destruct (tel_constrain _ _) as [?|]; [|discriminate]; cbn [bind composite_loop] in H). injection H as <-. reflexivity.
  - destruct (composite_keeps_the_last _ _ _ H) as [_ K]. intros name bins I. cbn in I.
    repeat (destruct I as [I|I]; [injection I as <- <-; match goal with |- context [dget r ?n] => specialize (K n); cbn in K end;
      destruct K as (vs & E & L); do 4 eexists; split; [exact E|]; split; [exact L|]; repeat split|]); destruct I.
Qed.
Print Assumptions four_telescopes.

Example four_telescopes_example : exists r,
  composite_constrain [tel_default (comptel_limit no_data); tel_default (egret_limit no_data); tel_default (fermi_limit no_data); tel_default (integral_limit no_data)]
    [Some strict] = Ret r.
Proof. eexists. reflexivity. Qed.

(** ** EGRET and Fermi use a target twice as bright as the one in the table of targets: the limit of an annihilating model by
    one bin is exactly half of the limit the model gives for the same data and the target of the table *)
Definition double (a : ext) : ext := match a with Fin x => Fin (2 * x) | Inf => Inf end.
Definition same_data (bins : list mbin) (name : string) (m : observed) : Prop :=
  exists table n, dget diffuse_targets name = Some table /\ dget table "nfw" = Some n /\ m = {| ob_target := n; ob_bins := bins |}.

Lemma double_min a b : ext_min (double a) (double b) = double (ext_min a b).
Proof. destruct a as [x|], b as [y|]; cbn; try reflexivity. destruct (Rlt_dec y x), (Rlt_dec (2 * y) (2 * x)); cbn; try reflexivity; lra. Qed.
Lemma double_list l v : min_list l = Ret v -> min_list (map double l) = Ret (double v).
Proof.
  destruct l as [|a l]; cbn; [discriminate|]. intro H. injection H as <-. f_equal. revert a. induction l as [|b l IH]; intro a; cbn; [reflexivity|].
  rewrite double_min. apply IH.
Qed.
Lemma half_target mx w J D D' conv bins n c v : 0 < mx -> 0 < w -> 0 < J ->
  binned_limit "ann" mx (region (2 * J) D w) conv bins n "1bin" c = Ret v ->
  binned_limit "ann" mx (region J D' w) conv bins n "1bin" c = Ret (double v).
Proof.
  intros Hm Hw HJ. unfold binned_limit, compute_fluxes, flux_factor. cbn [region t_dOmega t_J num bind String.eqb Ascii.eqb Bool.eqb].
  unfold constrain_one_bin. pose proof PI_RGT_0 as Hp. intro H. apply double_list in H. rewrite <- H. f_equal. rewrite !map_map.
  set (f := w / (4 * PI * mx) * (J / (2 * 2 * mx))).
  replace (w / (4 * PI * mx) * (2 * J / (2 * 2 * mx))) with (2 * f) by (unfold f; field; lra). clearbody f.
  clear H. induction bins as [|b bins IH]; [reflexivity|]. cbn [map combine fst snd]. f_equal; [|apply IH].
  unfold sv_lim, phi_max, fill. cbn [b_phi b_low b_high b_flux b_err]. set (s := conv (mb_low b) (mb_high b)). clearbody s.
  destruct (Rlt_dec 0 (f * s)), (Rlt_dec 0 (2 * f * s)); cbn; try reflexivity; try (exfalso; nra). f_equal. field. split; intro Z; subst; lra.
Qed.
Theorem telescope_half_limit : forall d mx conv crit n v m,
  0 < mx -> (forall a b, ob_bins a = ob_bins b -> conv a = conv b) ->
  let f := theory_limit "ann" mx conv crit in
  (same_data (df_egret d) "egret" m -> tel_constrain (egret_limit d n "1bin") [Some f] = Ret [v] -> f m n "1bin" = Ret (double v)) /\
  (same_data (df_fermi d) "fermi" m -> tel_constrain (fermi_limit d n "1bin") [Some f] = Ret [v] -> f m n "1bin" = Ret (double v)).
Proof.
  intros d mx conv crit n v m Hm Hc f.
  assert (G : forall t w J D D', tel_method t = "1bin" -> tel_sigma t = n -> ob_target (tel_data t) = region (2 * J) D w -> 0 < w -> 0 < J ->
    ob_target m = region J D' w -> ob_bins m = ob_bins (tel_data t) -> tel_constrain t [Some f] = Ret [v] -> f m n "1bin" = Ret (double v)).
  { intros t w J D D' E1 E2 E3 Hw HJ E4 E5 H. apply telescope_limits in H. inversion H as [|o x l l' (g & Eg & L)]; subst. injection Eg as <-.
    unfold f, theory_limit in *. rewrite E1, E3 in L. rewrite E4, E5, (Hc m (tel_data t)) by exact E5.
    eapply half_target; [exact Hm|exact Hw|exact HJ|exact L]. }
  split; intros (table & k & E1 & E2 & ->) H; cbn in E1; injection E1 as <-; cbn in E2; injection E2 as <-.
  - apply (G (egret_limit d n "1bin") 6.585 (6.265 * 10 ^ 27) (3.42 * 10 ^ 25) (1.71 * 10 ^ 25)); try reflexivity; try lra; [|exact H].
    cbn [egret_limit tel_data ob_target]. f_equal. lra.
  - apply (G (fermi_limit d n "1bin") 10.82 (8.475 * 10 ^ 27) (3.563 * 10 ^ 25) (1.782 * 10 ^ 25)); try reflexivity; try lra; [|exact H].
    cbn [fermi_limit tel_data ob_target]. f_equal. lra.
Qed.
Print Assumptions telescope_half_limit.

(** some theory and data for which EGRET gives a number *)
Example telescope_half_limit_example :
  let d := {| df_comptel := []; df_egret := [ {| mb_low := 0; mb_high := 1; mb_flux := 3; mb_err := 1 |} ]; df_fermi := []; df_integral := [] |} in
  let f := theory_limit "ann" 1 (fun _ _ _ => 1) (fun _ _ => 4) in
  exists x, 0 < x /\ tel_constrain (egret_limit d 2 "1bin") [Some f] = Ret [Fin x] /\
    exists m, same_data (df_egret d) "egret" m.
Proof.
  cbv zeta. rewrite tel_constrain_map.
  unfold egret_limit, tel_one, theory_limit, binned_limit, compute_fluxes, flux_factor.
  cbn [tel_data tel_sigma tel_method ob_target ob_bins df_egret region t_dOmega t_J num bind String.eqb Ascii.eqb Bool.eqb mapM
       map combine fill fst snd mb_low mb_high mb_flux mb_err].
  unfold constrain_one_bin, sv_lim, phi_max, min_list, fill. cbn [map fold_left b_phi b_low b_high b_flux b_err mb_low mb_high mb_flux mb_err].
  pose proof PI_RGT_0. set (phi := 6.585 / (4 * PI * 1) * (1.253 * 10 ^ 28 / (2 * 2 * 1)) * 1).
  assert (E : phi * (16 * PI) = 6.585 * (1.253 * 10 ^ 28)) by (unfold phi; field; lra).
  assert (P0 : 0 < phi) by (apply (Rmult_lt_reg_r (16 * PI)); [lra|rewrite E, Rmult_0_l; lra]).
  destruct (Rlt_dec 0 phi) as [_|n]; [|contradiction].
  eexists. split; [|split; [reflexivity|]].
  - apply Rdiv_lt_0_compat; [lra|exact P0].
  - eexists. do 2 eexists. split; [reflexivity|]. split; reflexivity.
Qed.
