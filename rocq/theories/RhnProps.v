(** Properties of the right-handed neutrino model: C52-C57, C81, C82. *)
From Coq Require Import String Ascii Reals Bool Lra Lia Permutation List.
From Verif Require Import PyBase PyBaseFacts KinModel TheoryModel TheoryProofs RamboModel RamboProofs KinProofs DalitzProofs Area PionProofs SpecProofs
  NbodyProofs RhnModel RhnProofs.
Import ListNotations.
Local Open Scope R_scope.

Section Rhn.
Variables (vud vus : R) (ff2 : R -> R) (quad : (R -> R) -> R -> R -> R).
Variable nbody : string -> R -> list string -> option (R -> R -> R) -> val -> res val.
Let init := rhn_init vud vus ff2 quad nbody.
Let assign := set_flavor vud vus ff2 quad nbody.

(** * C52: reassigning the flavour *)

(** A sequence of assignments [o.flavor = f1; o.flavor = f2; ...] *)
Fixpoint assign_all (o : rhn) (l : list string) : res rhn :=
  match l with [] => Ret o | f :: r => let* o' := assign o f in assign_all o' r end.
Definition valid (f : string) : Prop := (f = "e" \/ f = "mu" \/ f = "tau")%string.

Lemma assign_valid o f : valid f -> exists o', assign o f = Ret o' /\ n_mx o' = n_mx o /\ n_theta o' = n_theta o.
Proof. intros [-> | [-> | ->]]; eexists; repeat split; reflexivity. Qed.

(** Only the last of the assignments matters *)
Theorem flavour_history : forall l f o, Forall valid l -> valid f -> assign_all o (l ++ [f]) = assign o f.
Proof.
  induction l as [|g l IH]; intros f o Hl Hf; cbn [app assign_all].
  - destruct (assign_valid o f Hf) as (o' & E & _). rewrite E. reflexivity.
  - inversion Hl as [|? ? Hg Hl']; subst. destruct (assign_valid o g Hg) as (o' & E & Em & Et). rewrite E. cbn [bind].
    rewrite IH by assumption. unfold assign, set_flavor. now rewrite Em, Et.
Qed.

(** After assigning "e" the object is the freshly constructed one *)
Theorem flavour_electron : forall o, assign o "e" = init (n_mx o) (n_theta o) "e".
Proof. reflexivity. Qed.

(** Missing for "mu": the attribute [_vstr], which names the neutrino lines; everything else is that of a
    fresh object.  "tau" is refuted below. *)
Theorem flavour_muon_partial : forall o, exists o1 o2, assign o "mu" = Ret o1 /\ init (n_mx o) (n_theta o) "mu" = Ret o2
  /\ n_gen o1 = n_gen o2 /\ n_ml o1 = n_ml o2 /\ n_flavor o1 = n_flavor o2 /\ n_config o1 = n_config o2
  /\ rhn_widths o1 = rhn_widths o2 /\ theory_of o1 = theory_of o2.
Proof. intro o. eexists. eexists. repeat split; reflexivity. Qed.

Theorem flavour_invalid : forall o f, ~ valid f -> assign o f = Raise ValueError.
Proof.
  intros o f H. unfold assign, set_flavor. unfold valid in H.
  destruct (String.eqb_spec f "e"); [tauto|]. destruct (String.eqb_spec f "mu"); [tauto|]. destruct (String.eqb_spec f "tau"); [tauto|]. reflexivity.
Qed.

(** Assigning "tau" leaves the muon's final states, generation and widths, with the tau's lepton mass *)
Theorem flavour_tau_refuted : exists o o1 o2, init 2000 (1 / 10) "e" = Ret o /\ assign o "tau" = Ret o1 /\ init 2000 (1 / 10) "tau" = Ret o2
  /\ n_flavor o1 = "tau"%string /\ n_ml o1 = n_ml o2
  /\ n_gen o1 <> n_gen o2 /\ list_decay_final_states o1 <> list_decay_final_states o2 /\ n_vstr o1 <> n_vstr o2.
Proof.
  eexists. eexists. eexists. split; [reflexivity|]. split; [reflexivity|]. split; [reflexivity|].
  repeat split; discriminate.
Qed.

Theorem flavour_muon_refuted : exists o o1 o2, init 500 (1 / 10) "e" = Ret o /\ assign o "mu" = Ret o1 /\ init 500 (1 / 10) "mu" = Ret o2
  /\ dget (neutrino_line_energies o1) "vm a" = None /\ dget (neutrino_line_energies o2) "vm a" = Some (1 / 2 * 500).
Proof.
  eexists. eexists. eexists. split; [reflexivity|]. split; [reflexivity|]. split; [reflexivity|].
  unfold neutrino_line_energies. cbn [n_mx n_vstr]. destruct (Rlt_dec m_pi0 500); destruct (Rlt_dec m_eta 500); split; reflexivity.
Qed.

(** A history and its end *)
Example flavour_history_ex : exists o, assign_all (match init 500 (1 / 10) "mu" with Ret o => o | Raise _ => MkN 0 0 "" Fst "" 0 "" [] end)
  ["tau"; "mu"; "e"]%string = Ret o /\ n_gen o = Fst /\ n_mx o = 500 /\ In "ve a"%string (list_decay_final_states o).
Proof. eexists. split; [reflexivity|]. repeat split. left. reflexivity. Qed.

(** * C53: line queries *)

(** An object the class can hold: constructed, then any masses, angles and flavours assigned *)
Inductive reachable : rhn -> Prop :=
| r_init mx theta f o : init mx theta f = Ret o -> reachable o
| r_mx o v : reachable o -> reachable (set_mx o v)
| r_theta o v : reachable o -> reachable (set_theta o v)
| r_flavor o f o' : reachable o -> assign o f = Ret o' -> reachable o'.

Definition config (g : gen) : dict (attrs) := configure vud vus ff2 quad nbody g.

Lemma init_cases mx theta f o : init mx theta f = Ret o -> n_config o = config (n_gen o).
Proof.
  unfold init, rhn_init. destruct (String.eqb_spec f "e") as [-> |]; [intro H; inversion H; reflexivity|].
  destruct (String.eqb_spec f "mu") as [-> |]; [intro H; inversion H; reflexivity|].
  destruct (String.eqb_spec f "tau") as [-> |]; [intro H; inversion H; reflexivity|]. discriminate.
Qed.
Lemma assign_cases o f o' : assign o f = Ret o' -> n_config o' = config (n_gen o').
Proof.
  unfold assign, set_flavor. destruct (String.eqb_spec f "e") as [-> |]; [intro H; inversion H; reflexivity|].
  destruct (String.eqb_spec f "mu") as [-> |]; [intro H; inversion H; reflexivity|].
  destruct (String.eqb_spec f "tau") as [-> |]; [intro H; inversion H; reflexivity|]. discriminate.
Qed.
Lemma reachable_config o : reachable o -> n_config o = config (n_gen o).
Proof.
  induction 1 as [mx theta f o E | o v _ IH | o v _ IH | o f o' _ _ E]; [eapply init_cases; exact E|exact IH|exact IH|eapply assign_cases; exact E].
Qed.

(** The final states of a generation *)
Definition final_states (g : gen) : list string :=
  match g with
  | Fst => ["ve a"; "ve pi0"; "ve eta"; "ve rho"; "ve omega"; "ve phi"; "e k"; "e pi"; "e rho"; "ve pi pi"; "e pi pi0";
            "ve e e"; "ve mu mu"; "ve tau tau"; "vm e mu"; "vm mu e"; "vt e tau"; "vt tau e"; "ve ve ve"; "ve vm vm"; "ve vt vt"]
  | Snd => ["vm a"; "vm pi0"; "vm eta"; "vm rho"; "vm omega"; "vm phi"; "mu k"; "mu pi"; "mu rho"; "vm pi pi"; "mu pi pi0";
            "vm mu mu"; "vm e e"; "vm tau tau"; "ve mu e"; "ve e mu"; "vt mu tau"; "vt tau mu"; "vm ve ve"; "vm vm vm"; "vm vt vt"]
  | Trd => ["vt a"; "vt pi0"; "vt eta"; "vt rho"; "vt omega"; "vt phi"; "tau k"; "tau pi"; "tau rho"; "vt pi pi"; "tau pi pi0";
            "vt tau tau"; "vt e e"; "vt mu mu"; "ve tau e"; "ve e tau"; "vm tau mu"; "vm mu tau"; "vt ve ve"; "vt vm vm"; "vt vt vt"]
  end%string.
Lemma config_keys g : dkeys (config g) = final_states g.
Proof. destruct g; reflexivity. Qed.

Lemma dkeys_dmap {A B} (f : A -> B) (d : dict A) : dkeys (dmap f d) = dkeys d.
Proof. unfold dkeys, dmap. rewrite map_map. reflexivity. Qed.
Lemma widths_keys o : reachable o -> dkeys (rhn_widths o) = final_states (n_gen o).
Proof. intro H. unfold rhn_widths. rewrite dkeys_dmap, (reachable_config o H). apply config_keys. Qed.
Lemma not_in_states g k : existsb (String.eqb k) (final_states g) = false -> ~ In k (final_states g).
Proof.
  intros H I. assert (existsb (String.eqb k) (final_states g) = true); [|congruence].
  apply existsb_exists. exists k. split; [exact I|apply String.eqb_refl].
Qed.

Lemma fractions_ret o : reachable o -> exists bfs, decay_branching_fractions (theory_of o) = Ret bfs
  /\ dkeys bfs = final_states (n_gen o).
Proof.
  intro H. unfold decay_branching_fractions, fractions_of, decay_widths. cbn [d_widths theory_of].
  pose proof (widths_keys o H) as K. set (w := rhn_widths o) in *. set (tot := rsum_py (dvals w)).
  unfold dindex at 1. rewrite dget_dset_same. cbn [bind].
  assert (F : dkeys (filter not_total (dset w "total" tot)) = final_states (n_gen o)).
  { rewrite <- K. assert (N : ~ In "total"%string (dkeys w)) by (rewrite K; apply not_in_states; destruct (n_gen o); reflexivity).
    clear K. clearbody tot. induction w as [|[k v] w IH]; [reflexivity|].
    cbn [dset]. unfold dkeys in *. cbn [map fst] in N. destruct (String.eqb_spec k "total") as [-> |Hne]; [exfalso; apply N; left; reflexivity|].
    cbn [filter map fst not_total negb]. unfold not_total at 1. cbn [fst]. destruct (String.eqb_spec k "total") as [E|_]; [congruence|].
    cbn [negb map fst]. f_equal. apply IH. intro I. apply N. right. exact I. }
  destruct (Req_EM_T tot 0); eexists; split; try reflexivity; rewrite dkeys_dmap; exact F.
Qed.
Lemma dindex_missing {A} (d : dict A) k : ~ In k (dkeys d) -> dindex d k = Raise (KeyError k).
Proof. intro H. unfold dindex. destruct (dget d k) eqn:E; [|reflexivity]. exfalso. apply H. apply dget_Some_In in E. apply (in_map fst) in E. exact E. Qed.

(** Whatever the mass, the mixing angle and the flavour, the queries look up names that are no final states *)
Theorem gamma_ray_lines_raise : forall o, reachable o -> d_gamma_ray_lines (theory_of o) = Raise (KeyError "nu g").
Proof.
  intros o H. destruct (fractions_ret o H) as (bfs & E & K). unfold d_gamma_ray_lines. rewrite E. cbn [bind].
  unfold lines_of. cbn [d_line_energies theory_of gamma_ray_line_energies dmapM].
  rewrite dindex_missing; [reflexivity|]. rewrite K. apply not_in_states. destruct (n_gen o); reflexivity.
Qed.
Theorem positron_lines_raise : forall o, reachable o -> n_flavor o = "e"%string -> d_positron_lines (theory_of o) = Raise (KeyError "pi l").
Proof.
  intros o H F. destruct (fractions_ret o H) as (bfs & E & K). unfold d_positron_lines. rewrite E. cbn [bind].
  unfold lines_of. cbn [d_pos_line_energies theory_of]. unfold positron_line_energies. rewrite F. cbn [String.eqb Ascii.eqb Bool.eqb dmapM].
  rewrite dindex_missing; [reflexivity|]. rewrite K. apply not_in_states. destruct (n_gen o); reflexivity.
Qed.
(** Missing: any entry; the other flavours have no positron line, so the empty answer is right for them *)
Theorem positron_lines_partial : forall o, reachable o -> n_flavor o <> "e"%string -> d_positron_lines (theory_of o) = Ret [].
Proof.
  intros o H F. destruct (fractions_ret o H) as (bfs & E & K). unfold d_positron_lines. rewrite E. cbn [bind].
  unfold lines_of. cbn [d_pos_line_energies theory_of]. unfold positron_line_energies. destruct (String.eqb_spec (n_flavor o) "e"); [contradiction|reflexivity].
Qed.
(** The energies themselves are right: the product of mass m and the recoiling particle of mass M have opposite
    momenta of the same size, and their energies add up to the mass of the neutrino *)
Definition back_to_back (mx m M E : R) : Prop := E ^ 2 - m ^ 2 = (mx - E) ^ 2 - M ^ 2.
Theorem line_energies_two_body : forall o, n_mx o <> 0 ->
  (forall fs E, In (fs, E) (gamma_ray_line_energies o) -> back_to_back (n_mx o) 0 0 E)
  /\ (forall fs E, In (fs, E) (positron_line_energies o) ->
        (fs = "pi l"%string /\ back_to_back (n_mx o) (n_ml o) m_pi E)
        \/ (fs = "k l"%string /\ back_to_back (n_mx o) (n_ml o) m_k E))
  /\ (n_flavor o = "e"%string -> dkeys (positron_line_energies o) = ["pi l"; "k l"]%string).
Proof.
  intros o Hm. unfold back_to_back, gamma_ray_line_energies, positron_line_energies. repeat split.
  - intros fs E [H|[]]. injection H as <- <-. field.
  - intros fs E H. destruct (String.eqb (n_flavor o) "e"); [|destruct H].
    destruct H as [H|[H|[]]]; injection H as <- <-; [left|right]; (split; [reflexivity|field; exact Hm]).
  - intros ->. reflexivity.
Qed.
Theorem lines_refuted : exists o, init 1000 (1 / 10) "e" = Ret o
  /\ ~ (exists d, d_gamma_ray_lines (theory_of o) = Ret d) /\ ~ (exists d, d_positron_lines (theory_of o) = Ret d).
Proof.
  destruct (init 1000 (1 / 10) "e") as [o|x] eqn:E; [|discriminate]. exists o. split; [reflexivity|].
  assert (Ro : reachable o) by (eapply r_init; exact E). split; intros [d D].
  - rewrite gamma_ray_lines_raise in D by exact Ro. discriminate.
  - rewrite positron_lines_raise in D; [discriminate|exact Ro|]. unfold init, rhn_init in E. inversion E. reflexivity.
Qed.
Example lines_ex : exists o, reachable o /\ n_flavor o = "tau"%string /\ n_mx o = 3000.
Proof.
  destruct (init 1000 (1 / 10) "tau") as [o|x] eqn:E; [|discriminate]. exists (set_mx o 3000). split; [apply r_mx; eapply r_init; exact E|].
  split; [|reflexivity]. unfold init, rhn_init in E. inversion E. reflexivity.
Qed.

(** Above the eta mass the line of the pion channel carries the energy of the eta channel *)
Theorem neutrino_lines_refuted : exists o, init 600 (1 / 10) "e" = Ret o
  /\ dget (neutrino_line_energies o) "ve pi0" = Some ((600 ^ 2 - m_eta ^ 2) / (2 * 600))
  /\ dget (neutrino_line_energies o) "ve eta" = None
  /\ (600 ^ 2 - m_eta ^ 2) / (2 * 600) <> (600 ^ 2 - m_pi0 ^ 2) / (2 * 600).
Proof.
  eexists. split; [reflexivity|]. unfold neutrino_line_energies. cbn [n_mx n_vstr].
  destruct (Rlt_dec m_pi0 600) as [_|N]; [|exfalso; apply N; unfold m_pi0; lra].
  destruct (Rlt_dec m_eta 600) as [_|N]; [|exfalso; apply N; unfold m_eta; lra].
  split; [reflexivity|]. split; [reflexivity|]. unfold m_eta, m_pi0. lra.
Qed.

(** * C54: partial widths by name *)
Lemma dget_dmap_some {A B} (f : A -> B) d k a : dget d k = Some a -> dget (dmap f d) k = Some (f a).
Proof. intro H. rewrite dget_dmap, H. reflexivity. Qed.
Lemma width_known o k : In k (dkeys (n_config o)) -> exists w, rhn_width o k = Ret w /\ dget (rhn_widths o) k = Some w.
Proof.
  intro H. unfold rhn_width, dindex. destruct (dget (n_config o) k) as [a|] eqn:E.
  - eexists. split; [reflexivity|]. unfold rhn_widths. erewrite dget_dmap_some by exact E. reflexivity.
  - exfalso. apply In_dkeys_dget in H. destruct H as [a H]. congruence.
Qed.
Lemma width_unknown o k : ~ In k (dkeys (n_config o)) -> rhn_width o k = Raise (KeyError k).
Proof. intro H. unfold rhn_width. now rewrite dindex_missing. Qed.

Lemma width_fold o : forall l d, (forall k, In k l -> In k (dkeys (n_config o))) ->
  (forall k w, dget d k = Some w -> dget (rhn_widths o) k = Some w) ->
  exists d', fold_left (fun acc fs => let* d := acc in let* w := rhn_width o fs in Ret (dset d fs w)) l (Ret d) = Ret d'
  /\ (forall k, dget d' k = if in_dec string_dec k l then dget (rhn_widths o) k else dget d k).
Proof.
  induction l as [|k l IH]; intros d Hl Hd.
  - exists d. split; [reflexivity|]. intro k. destruct (in_dec string_dec k []) as [[]|_]. reflexivity.
  - destruct (width_known o k (Hl k (or_introl eq_refl))) as (w & E & G). cbn [fold_left bind]. rewrite E. cbn [bind].
    destruct (IH (dset d k w)) as (d' & F & D).
    + intros k' H. apply Hl. right. exact H.
    + intros k' w' H. destruct (string_dec k k') as [<- |N]; [rewrite dget_dset_same in H; congruence|].
      rewrite dget_dset_other in H by congruence. apply Hd. exact H.
    + exists d'. split; [exact F|]. intro k'. rewrite D. destruct (in_dec string_dec k' l) as [I|N]; destruct (in_dec string_dec k' (k :: l)) as [I'|N'].
      * reflexivity.
      * exfalso. apply N'. right. exact I.
      * destruct I' as [<- |I']; [|contradiction]. rewrite dget_dset_same. symmetry. exact G.
      * rewrite dget_dset_other; [reflexivity|]. intro Q. apply N'. left. congruence.
Qed.

(** A sequence of listed names gives the widths of exactly those names *)
Theorem decay_width_names : forall o l, reachable o -> (forall k, In k l -> In k (list_decay_final_states o)) ->
  exists d, rhn_decay_width o (ASeq l) = Ret d
  /\ (forall k, dget d k = if in_dec string_dec k l then dget (decay_widths (theory_of o)) k else None).
Proof.
  intros o l Ho Hl.
  assert (N : ~ In "total"%string l).
  { intro I. apply Hl in I. unfold list_decay_final_states in I. rewrite (reachable_config o Ho), config_keys in I.
    revert I. apply not_in_states. destruct (n_gen o); reflexivity. }
  destruct (width_fold o l [] Hl) as (d & E & D); [discriminate|]. exists d. split; [exact E|].
  intro k. rewrite D. destruct (in_dec string_dec k l) as [I|_]; [|reflexivity].
  unfold decay_widths. cbn [d_widths theory_of]. rewrite dget_dset_other; [reflexivity|]. intros <-. contradiction.
Qed.
Theorem decay_width_unknown : forall o l, (exists k, In k l /\ ~ In k (list_decay_final_states o)) ->
  exists k, In k l /\ ~ In k (list_decay_final_states o) /\ rhn_decay_width o (ASeq l) = Raise (KeyError k).
Proof.
  intros o l. unfold rhn_decay_width. cbn [iterate]. generalize (@nil (string * R)) as d.
  assert (Rs : forall l e, fold_left (fun acc fs => let* d := acc in let* w := rhn_width o fs in Ret (dset d fs w)) l (Raise e) = @Raise (dict R) e)
    by (intro m; induction m as [|x m IHm]; intro e; [reflexivity|apply IHm]).
  induction l as [|a l IH]; intros d (k & I & N); [destruct I|].
  destruct (in_dec string_dec a (dkeys (n_config o))) as [Ia|Na].
  - destruct (width_known o a Ia) as (w & E & _). destruct (IH (dset d a w)) as (k' & I' & N' & R').
    + exists k. split; [|exact N]. destruct I as [<- |I]; [contradiction|exact I].
    + exists k'. split; [right; exact I'|]. split; [exact N'|]. cbn [fold_left bind]. rewrite E. cbn [bind]. exact R'.
  - exists a. split; [left; reflexivity|]. split; [exact Na|]. cbn [fold_left bind]. rewrite (width_unknown o a Na). cbn [bind]. apply Rs.
Qed.
(** A name given as a string is taken apart into characters, none of which is a final state *)
Theorem decay_width_string : forall o c s, reachable o ->
  rhn_decay_width o (AStr (String c s)) = Raise (KeyError (String c EmptyString)).
Proof.
  intros o c s H. unfold rhn_decay_width. cbn [iterate chars fold_left bind].
  assert (Rs : forall l e, fold_left (fun acc fs => let* d := acc in let* w := rhn_width o fs in Ret (dset d fs w)) l (Raise e) = @Raise (dict R) e)
    by (intro m; induction m as [|x m IHm]; intro e; [reflexivity|apply IHm]).
  rewrite width_unknown; [cbn [bind]; apply Rs|]. rewrite (reachable_config o H), config_keys.
  destruct (n_gen o); cbn [final_states In]; intro I; repeat (destruct I as [I|I]; [discriminate|]); exact I.
Qed.
Theorem decay_width_refuted : exists o k, init 1000 (1 / 10) "e" = Ret o /\ In k (list_decay_final_states o)
  /\ ~ (exists d, rhn_decay_width o (AStr k) = Ret d).
Proof.
  destruct (init 1000 (1 / 10) "e") as [o|x] eqn:E; [|discriminate]. exists o, "ve a"%string. split; [reflexivity|].
  assert (Ro : reachable o) by (eapply r_init; exact E). split.
  - unfold list_decay_final_states. rewrite (reachable_config o Ro), config_keys. unfold init, rhn_init in E. inversion E. left. reflexivity.
  - intros [d D]. rewrite decay_width_string in D by exact Ro. discriminate.
Qed.
Example decay_width_ex : exists o, init 1000 (1 / 10) "mu" = Ret o
  /\ (forall k, In k ["mu pi"; "vm a"; "mu pi"]%string -> In k (list_decay_final_states o))
  /\ ~ In "e pi"%string (list_decay_final_states o).
Proof.
  eexists. split; [reflexivity|]. split.
  - intros k [<- | [<- | [<- | []]]]; cbn; tauto.
  - cbn. intro I. repeat (destruct I as [I|I]; [discriminate|]). exact I.
Qed.
(** * C55: charge-conjugate states *)

(** Names separated by blanks *)
Fixpoint words_from (cur : string) (s : string) : list string :=
  match s with
  | EmptyString => [cur]
  | String c r => if Ascii.eqb c " "%char then cur :: words_from EmptyString r else words_from (cur ++ String c EmptyString) r
  end.
Definition words (s : string) : list string := words_from EmptyString s.

(** Which particles of a state carry charge; "rho" beside a charged lepton is the charged rho *)
Definition is_in (l : list string) (w : string) : bool := existsb (String.eqb w) l.
Definition charged (ws : list string) (w : string) : bool :=
  is_in ["e"; "mu"; "tau"; "pi"; "k"]%string w || (String.eqb w "rho" && existsb (is_in ["e"; "mu"; "tau"]%string) ws).
(** The assignments of charges to particles with total charge zero, as multisets *)
Fixpoint signs (l : list string) : list (list (string * bool)) :=
  match l with [] => [[]] | w :: r => map (cons (w, true)) (signs r) ++ map (cons (w, false)) (signs r) end.
Definition balanced (l : list (string * bool)) : bool :=
  Nat.eqb (List.length (filter snd l)) (List.length (filter (fun x => negb (snd x)) l)).
Definition same (x y : string * bool) : bool := String.eqb (fst x) (fst y) && Bool.eqb (snd x) (snd y).
Definition multiset_eq (a b : list (string * bool)) : bool :=
  forallb (fun x => Nat.eqb (List.length (filter (same x) a)) (List.length (filter (same x) b))) (a ++ b).
Fixpoint distinct (l : list (list (string * bool))) : list (list (string * bool)) :=
  match l with [] => [] | x :: r => let d := distinct r in if existsb (multiset_eq x) d then d else x :: d end.
Definition charge_states (key : string) : nat :=
  let ws := words key in List.length (distinct (filter balanced (signs (filter (charged ws) ws)))).
(** Two names of the same particles *)
Definition same_content (k1 k2 : string) : bool :=
  multiset_eq (map (fun w => (w, true)) (words k1)) (map (fun w => (w, true)) (words k2)).
Definition different_leptons (key : string) : bool :=
  match filter (is_in ["e"; "mu"; "tau"]%string) (words key) with a :: b :: _ => negb (String.eqb a b) | _ => false end.

(** How often the model counts the decays into the particles named by [key] *)
Definition counted (g : gen) (key : string) : R :=
  fold_right Rplus 0 (map (fun kv => if same_content (fst kv) key then conj_pre (a_conj (snd kv)) else 0) (config g)).

(** Every state is counted once per assignment of charges, except a neutrino with two different charged
    leptons, which is counted twice too often: under two names and with a factor two under each *)
Theorem conjugate_counting : forall g key, In key (final_states g) ->
  counted g key = INR (charge_states key) * (if different_leptons key then 2 else 1).
Proof.
  intros g key H. unfold counted.
  assert (Z : forall kvs : list (string * bool), fold_right Rplus 0 (map (fun kv => if same_content (fst kv) key then conj_pre (snd kv) else 0) kvs)
     = INR (fold_right Nat.add 0%nat (map (fun kv => if same_content (fst kv) key then if snd kv : bool then 1%nat else 2%nat else 0%nat) kvs))).
  { induction kvs as [|kv kvs IH]; [reflexivity|]. cbn [map fold_right]. rewrite plus_INR, <- IH. f_equal.
    destruct (same_content (fst kv) key); [|reflexivity]. destruct (snd kv); reflexivity. }
  specialize (Z (map (fun kv => (fst kv, a_conj (snd kv))) (config g))). rewrite map_map in Z. cbn [fst snd] in Z.
  etransitivity; [exact Z|]. clear Z.
  assert (D : (if different_leptons key then 2 else 1) = INR (if different_leptons key then 2 else 1)) by (destruct (different_leptons key); reflexivity).
  rewrite D, <- mult_INR. f_equal. clear D. rewrite map_map. cbn [fst snd].
  destruct g; cbn [final_states In] in H; repeat (destruct H as [<- |H]; [reflexivity|]); destruct H.
Qed.
(** The part of the property that holds *)
Theorem conjugates_partial : forall g key, In key (final_states g) -> different_leptons key = false ->
  counted g key = INR (charge_states key).
Proof. intros g key H D. rewrite conjugate_counting by exact H. rewrite D. ring. Qed.
Theorem conjugates_refuted : exists g key, In key (final_states g) /\ charge_states key = 2%nat /\ counted g key = 4.
Proof.
  exists Fst, "vm e mu"%string. split; [cbn; tauto|]. split; [reflexivity|]. rewrite conjugate_counting by (cbn; tauto).
  replace (different_leptons "vm e mu") with true by reflexivity. replace (charge_states "vm e mu") with 2%nat by reflexivity. cbn [INR]. ring.
Qed.
Example conjugates_ex : In "e pi pi0"%string (final_states Fst) /\ different_leptons "e pi pi0" = false /\ charge_states "e pi pi0" = 2%nat
  /\ In "vm mu mu"%string (final_states Snd) /\ different_leptons "vm mu mu" = false /\ charge_states "vm mu mu" = 1%nat.
Proof. repeat split; cbn; tauto. Qed.

(** The total width with every state taken once per assignment of charges *)
Definition first_names (g : gen) : list string :=
  fold_left (fun acc k => if existsb (same_content k) acc then acc else acc ++ [k]) (final_states g) [].
Definition own_width (o : rhn) (key : string) : R :=
  match dget (n_config o) key with Some a => a_width a (params_of o) | None => 0 end.
Definition true_total (o : rhn) : R :=
  fold_right Rplus 0 (map (fun k => INR (charge_states k) * own_width o k) (first_names (n_gen o))).

Lemma off_diagonal_equal p gv : p_gen p <> gv ->
  width_v_l_l quad p gv (p_gen p) gv = width_v_l_l quad p gv gv (p_gen p).
Proof. intro H. unfold width_v_l_l. destruct (p_gen p), gv; try congruence; reflexivity. Qed.

(** The total width is too large by twice the width of each of the two doubly named states *)
Theorem total_width_excess : forall o, reachable o ->
  let g := n_gen o in let (g2, g3) := other_gens g in
  rsum_py (dvals (rhn_widths o)) = true_total o
    + 2 * width_v_l_l quad (params_of o) g2 g g2 + 2 * width_v_l_l quad (params_of o) g3 g g3.
Proof.
  intros o H. cbv zeta. unfold rhn_widths, true_total, own_width. rewrite (reachable_config o H). destruct o as [mx th fl g vs ml ls cf].
  cbn [n_gen params_of n_mx n_theta]. clear H. unfold params_of. cbn [n_gen n_mx n_theta].
  pose proof (off_diagonal_equal (MkP mx th g)) as Eq. cbn [p_gen] in Eq. set (p := MkP mx th g) in *.
  destruct g; cbn [other_gens].
  1: pose proof (Eq Snd ltac:(discriminate)) as E2; pose proof (Eq Trd ltac:(discriminate)) as E3.
  2: pose proof (Eq Fst ltac:(discriminate)) as E2; pose proof (Eq Trd ltac:(discriminate)) as E3.
  3: pose proof (Eq Fst ltac:(discriminate)) as E2; pose proof (Eq Snd ltac:(discriminate)) as E3.
  all: clear Eq.
  all: match goal with |- context[first_names ?g] => let l := eval vm_compute in (first_names g) in change (first_names g) with l end.
  all: cbn [map fold_right].
  all: repeat match goal with |- context[charge_states ?k] => let n := eval vm_compute in (charge_states k) in change (charge_states k) with n end.
  all: cbn [INR].
  all: repeat match goal with |- context[dget (config ?g) ?k] =>
         let t := eval lazy [config configure dget dset String.eqb Ascii.eqb Bool.eqb fold_left three_lepton_fs_generations other_gens app
           set_entry lepton_entry neutrino_entry fst snd NU LEP String.append gen_eqb] in (dget (config g) k) in change (dget (config g) k) with t end.
  all: match goal with |- context[dvals ?d] =>
         let t := eval lazy [dvals dmap map config configure dset String.eqb Ascii.eqb Bool.eqb fold_left three_lepton_fs_generations other_gens app
           set_entry lepton_entry neutrino_entry fst snd NU LEP String.append gen_eqb a_conj a_width conj_pre] in (dvals d) in change (dvals d) with t end.
  all: cbn [a_width]; unfold rsum_py; cbn [fold_left].
  all: rewrite <- E2, <- E3; ring.
Qed.
(** * C56: two-body widths *)

(** The two-body widths of a model, with the sum of the masses of the products *)
Definition two_body_widths (p : params) : list (R * R) :=
  let ml := lepton_mass (p_gen p) in
  [(m_pi0, width_v_pi0 p); (m_eta, width_v_eta p); (m_rho, width_v_rho p); (m_omega, width_v_omega p); (m_phi, width_v_phi p);
   (m_pi + ml, width_l_pi vud p); (m_k + ml, width_l_k vus p); (m_rho + ml, width_l_rho vud p)].

Lemma v_hp_facts p m f : 0 < p_mx p -> 0 <= m ->
  0 <= width_v_hp p m f /\ (p_mx p <= m -> width_v_hp p m f = 0)
  /\ (forall q, p_mx q = p_mx p -> mixing q ^ 2 * width_v_hp p m f = mixing p ^ 2 * width_v_hp q m f).
Proof.
  intros HM Hm. unfold width_v_hp. pose proof PI_RGT_0. repeat split.
  - destruct (Rlt_dec (p_mx p) m); [lra|]. unfold Rdiv. apply Rmult_le_pos; [|apply Rlt_le, Rinv_0_lt_compat; lra].
    apply Rmult_le_pos; [|apply pow2_ge_0]. apply Rmult_le_pos; [|apply pow_le; lra].
    apply Rmult_le_pos; [apply Rmult_le_pos|]; apply pow2_ge_0.
  - intro L. destruct (Rlt_dec (p_mx p) m); [reflexivity|]. assert (E : p_mx p = m) by lra.
    replace (m / p_mx p) with 1 by (rewrite E; field; lra). unfold Rdiv. ring.
  - intros q Eq. rewrite Eq. destruct (Rlt_dec (p_mx p) m); [ring|]. unfold Rdiv. ring.
Qed.
Lemma v_hv_facts p m k gr : 0 < p_mx p -> 0 < m ->
  0 <= width_v_hv p m k gr /\ (p_mx p <= m -> width_v_hv p m k gr = 0)
  /\ (forall q, p_mx q = p_mx p -> mixing q ^ 2 * width_v_hv p m k gr = mixing p ^ 2 * width_v_hv q m k gr).
Proof.
  intros HM Hm. unfold width_v_hv. pose proof PI_RGT_0. repeat split.
  - destruct (Rlt_dec (p_mx p) m); [lra|]. apply Rmult_le_pos; [|apply pow2_ge_0]. apply Rmult_le_pos; [|pose proof (pow2_ge_0 (m / p_mx p)); lra].
    unfold Rdiv at 1. apply Rmult_le_pos; [|apply Rlt_le, Rinv_0_lt_compat; lra]. apply Rmult_le_pos; [apply pow2_ge_0|apply pow_le; lra].
  - intro L. destruct (Rlt_dec (p_mx p) m); [reflexivity|]. assert (E : p_mx p = m) by lra.
    replace (m / p_mx p) with 1 by (rewrite E; field; lra). ring.
  - intros q Eq. rewrite Eq. destruct (Rlt_dec (p_mx p) m); [ring|]. field. split; lra.
Qed.
Lemma charged_facts p ml m K : 0 < p_mx p -> 0 <= ml -> 0 <= m -> 0 <= K ->
  let w p := if Rlt_dec (p_mx p) (m + ml) then 0 else
    mixing p ^ 2 * K * ((1 - (ml / p_mx p) ^ 2) ^ 2 + (m / p_mx p) ^ 2 * (1 + (ml / p_mx p) ^ 2) - 2 * (m / p_mx p) ^ 4)
      * sqrt (kallen_lambda 1 ((m / p_mx p) ^ 2) ((ml / p_mx p) ^ 2)) in
  0 <= w p /\ (p_mx p <= m + ml -> w p = 0)
  /\ (forall q, p_mx q = p_mx p -> mixing q ^ 2 * w p = mixing p ^ 2 * w q).
Proof.
  intros HM Hl Hm HK. cbv zeta. repeat split.
  - destruct (Rlt_dec (p_mx p) (m + ml)); [lra|]. apply Rmult_le_pos; [|apply sqrt_pos]. apply Rmult_le_pos.
    + apply Rmult_le_pos; [apply mixing_sq|exact HK].
    + apply meson_poly; [apply ratio_nonneg; lra|apply ratio_nonneg; lra|apply ratio_sum; lra].
  - intro L. destruct (Rlt_dec (p_mx p) (m + ml)); [reflexivity|]. assert (E : p_mx p = m + ml) by lra.
    rewrite two_body_kallen. replace (m / p_mx p + ml / p_mx p) with 1 by (rewrite E; field; lra).
    replace ((1 - 1 ^ 2) * (1 - (m / p_mx p - ml / p_mx p) ^ 2)) with 0 by ring. rewrite sqrt_0. ring.
  - intros q Eq. rewrite Eq. destruct (Rlt_dec (p_mx p) (m + ml)); ring.
Qed.
Lemma l_hp_facts p ml m f ckm : 0 < p_mx p -> 0 <= ml -> 0 <= m ->
  0 <= width_l_hp p ml m f ckm /\ (p_mx p <= m + ml -> width_l_hp p ml m f ckm = 0)
  /\ (forall q, p_mx q = p_mx p -> mixing q ^ 2 * width_l_hp p ml m f ckm = mixing p ^ 2 * width_l_hp q ml m f ckm).
Proof.
  intros HM Hl Hm. pose proof PI_RGT_0.
  assert (HK : 0 <= GF ^ 2 * ckm ^ 2 * f ^ 2 * p_mx p ^ 3 / (32 * PI)).
  { unfold Rdiv. apply Rmult_le_pos; [|apply Rlt_le, Rinv_0_lt_compat; lra]. apply Rmult_le_pos; [|apply pow_le; lra].
    apply Rmult_le_pos; [apply Rmult_le_pos|]; apply pow2_ge_0. }
  destruct (charged_facts p ml m _ HM Hl Hm HK) as (A & B & C). cbv zeta in A, B, C.
  assert (E : forall q, p_mx q = p_mx p -> width_l_hp q ml m f ckm = if Rlt_dec (p_mx q) (m + ml) then 0 else
    mixing q ^ 2 * (GF ^ 2 * ckm ^ 2 * f ^ 2 * p_mx p ^ 3 / (32 * PI)) * ((1 - (ml / p_mx q) ^ 2) ^ 2 + (m / p_mx q) ^ 2 * (1 + (ml / p_mx q) ^ 2) - 2 * (m / p_mx q) ^ 4)
      * sqrt (kallen_lambda 1 ((m / p_mx q) ^ 2) ((ml / p_mx q) ^ 2))).
  { intros q Eq. unfold width_l_hp. rewrite Eq. destruct (Rlt_dec (p_mx p) (m + ml)); [reflexivity|]. unfold Rdiv. ring. }
  rewrite (E p eq_refl). repeat split; [exact A|exact B|]. intros q Eq. rewrite (E q Eq). apply C. exact Eq.
Qed.
Lemma ell_hv_facts p ml m g ckm : 0 < p_mx p -> 0 <= ml -> 0 < m ->
  0 <= width_ell_hv p ml m g ckm /\ (p_mx p <= m + ml -> width_ell_hv p ml m g ckm = 0)
  /\ (forall q, p_mx q = p_mx p -> mixing q ^ 2 * width_ell_hv p ml m g ckm = mixing p ^ 2 * width_ell_hv q ml m g ckm).
Proof.
  intros HM Hl Hm. pose proof PI_RGT_0. assert (0 < m ^ 2) by (apply pow_lt; exact Hm).
  assert (0 < 16 * PI * m ^ 2) by (apply Rmult_lt_0_compat; lra).
  assert (HK : 0 <= GF ^ 2 * ckm ^ 2 * g ^ 2 * p_mx p ^ 3 / (16 * PI * m ^ 2)).
  { unfold Rdiv. apply Rmult_le_pos; [|apply Rlt_le, Rinv_0_lt_compat; lra]. apply Rmult_le_pos; [|apply pow_le; lra].
    apply Rmult_le_pos; [apply Rmult_le_pos|]; apply pow2_ge_0. }
  destruct (charged_facts p ml m _ HM Hl ltac:(lra) HK) as (A & B & C). cbv zeta in A, B, C.
  assert (E : forall q, p_mx q = p_mx p -> width_ell_hv q ml m g ckm = if Rlt_dec (p_mx q) (m + ml) then 0 else
    mixing q ^ 2 * (GF ^ 2 * ckm ^ 2 * g ^ 2 * p_mx p ^ 3 / (16 * PI * m ^ 2)) * ((1 - (ml / p_mx q) ^ 2) ^ 2 + (m / p_mx q) ^ 2 * (1 + (ml / p_mx q) ^ 2) - 2 * (m / p_mx q) ^ 4)
      * sqrt (kallen_lambda 1 ((m / p_mx q) ^ 2) ((ml / p_mx q) ^ 2))).
  { intros q Eq. unfold width_ell_hv. rewrite Eq. destruct (Rlt_dec (p_mx p) (m + ml)); [reflexivity|]. unfold Rdiv. ring. }
  rewrite (E p eq_refl). repeat split; [exact A|exact B|]. intros q Eq. rewrite (E q Eq). apply C. exact Eq.
Qed.

(** Non-negative, and zero up to and at threshold *)
Theorem two_body_widths_sign : forall p, 0 < p_mx p ->
  Forall (fun mw => 0 <= snd mw /\ (p_mx p <= fst mw -> snd mw = 0)) (two_body_widths p).
Proof.
  intros p HM. pose proof (lepton_mass_pos (p_gen p)) as Hl. unfold two_body_widths.
  repeat apply Forall_cons; try apply Forall_nil; cbn [fst snd].
  1,2: match goal with |- context[width_v_pi0] => pose proof (v_hp_facts p m_pi0 f_pi0 HM ltac:(unfold m_pi0; lra)) as (A & B & _)
                     | |- context[width_v_eta] => pose proof (v_hp_facts p m_eta f_eta HM ltac:(unfold m_eta; lra)) as (A & B & _) end; split; assumption.
  1: pose proof (v_hv_facts p m_rho k_rho g_rho HM ltac:(unfold m_rho; lra)) as (A & B & _); split; assumption.
  1: pose proof (v_hv_facts p m_omega k_omega g_omega HM ltac:(unfold m_omega; lra)) as (A & B & _); split; assumption.
  1: pose proof (v_hv_facts p m_phi k_phi g_phi HM ltac:(unfold m_phi; lra)) as (A & B & _); split; assumption.
  1: pose proof (l_hp_facts p (lepton_mass (p_gen p)) m_pi f_pi vud HM ltac:(lra) ltac:(unfold m_pi; lra)) as (A & B & _); split; assumption.
  1: pose proof (l_hp_facts p (lepton_mass (p_gen p)) m_k f_k vus HM ltac:(lra) ltac:(unfold m_k; lra)) as (A & B & _); split; assumption.
  1: pose proof (ell_hv_facts p (lepton_mass (p_gen p)) m_rho g_rho vud HM ltac:(lra) ltac:(unfold m_rho; lra)) as (A & B & _); split; assumption.
Qed.
(** Two models that differ in the mixing angle have widths in the ratio of the squared mixings *)
Theorem two_body_widths_mixing : forall p q, 0 < p_mx p -> p_mx q = p_mx p -> p_gen q = p_gen p ->
  Forall (fun ww => mixing q ^ 2 * fst ww = mixing p ^ 2 * snd ww)
    (combine (map snd (two_body_widths p)) (map snd (two_body_widths q))).
Proof.
  intros p q HM E G. pose proof (lepton_mass_pos (p_gen p)) as Hl. unfold two_body_widths. cbn [map snd combine].
  repeat apply Forall_cons; try apply Forall_nil; cbn [fst snd];
    unfold width_v_pi0, width_v_eta, width_v_rho, width_v_omega, width_v_phi, width_l_pi, width_l_k, width_l_rho; try rewrite G.
  1: apply (v_hp_facts p m_pi0 f_pi0 HM ltac:(unfold m_pi0; lra)); exact E.
  1: apply (v_hp_facts p m_eta f_eta HM ltac:(unfold m_eta; lra)); exact E.
  1: apply (v_hv_facts p m_rho k_rho g_rho HM ltac:(unfold m_rho; lra)); exact E.
  1: apply (v_hv_facts p m_omega k_omega g_omega HM ltac:(unfold m_omega; lra)); exact E.
  1: apply (v_hv_facts p m_phi k_phi g_phi HM ltac:(unfold m_phi; lra)); exact E.
  1: apply (l_hp_facts p (lepton_mass (p_gen p)) m_pi f_pi vud HM ltac:(lra) ltac:(unfold m_pi; lra)); exact E.
  1: apply (l_hp_facts p (lepton_mass (p_gen p)) m_k f_k vus HM ltac:(lra) ltac:(unfold m_k; lra)); exact E.
  1: apply (ell_hv_facts p (lepton_mass (p_gen p)) m_rho g_rho vud HM ltac:(lra) ltac:(unfold m_rho; lra)); exact E.
Qed.
Example two_body_ex : let p := MkP 500 (PI / 8) Snd in 0 < p_mx p /\ mixing p = 1 / 2 /\ In (m_pi + m_mu, width_l_pi vud p) (two_body_widths p)
  /\ m_pi + m_mu < p_mx p.
Proof.
  cbv zeta. cbn [p_mx]. repeat split; [lra| |cbn; tauto|unfold m_pi, m_mu; lra].
  unfold mixing. cbn [p_theta]. replace (2 * (PI / 8)) with (PI / 4) by field. rewrite tan_PI4. ring.
Qed.

Lemma cont_ext f g x : (forall y, f y = g y) -> continuity_pt f x -> continuity_pt g x.
Proof.
  intros E C eps He. destruct (C eps He) as (d & Hd & D). exists d. split; [exact Hd|]. intros y Hy. rewrite <- !E. apply D. exact Hy.
Qed.
(** The limit of a massless lepton of the width into a lepton and a pseudoscalar *)
Definition tends (f : R -> R) (l : R) : Prop :=
  forall eps, 0 < eps -> exists d, 0 < d /\ forall ml, 0 < ml < d -> Rabs (f ml - l) < eps.
Theorem massless_lepton_limit : forall p m f ckm, 0 < p_mx p -> 0 <= m < p_mx p ->
  let x := m / p_mx p in
  tends (fun ml => width_l_hp p ml m f ckm)
    (mixing p ^ 2 * GF ^ 2 * ckm ^ 2 * f ^ 2 * p_mx p ^ 3 / (32 * PI) * ((1 - x ^ 2) ^ 2 * (1 + 2 * x ^ 2))).
Proof.
  intros p m f ckm HM Hm x. set (M := p_mx p) in *. set (pre := mixing p ^ 2 * GF ^ 2 * ckm ^ 2 * f ^ 2 * M ^ 3 / (32 * PI)).
  assert (Hx : 0 <= x < 1).
  { unfold x. split; [apply ratio_nonneg; lra|]. apply Rmult_lt_reg_r with M; [lra|]. field_simplify; lra. }
  set (F := fun ml => pre * ((1 - (ml / M) ^ 2) ^ 2 + x ^ 2 * (1 + (ml / M) ^ 2) - 2 * x ^ 4) * sqrt (kallen_lambda 1 (x ^ 2) ((ml / M) ^ 2))).
  assert (C : continuity_pt F 0).
  { unfold F. apply continuity_pt_mult.
    - apply derivable_continuous_pt. eexists. apply dl_mult; [apply (dl_const pre)|]. apply dl_minus; [|apply (dl_const (2 * x ^ 4))].
      apply dl_plus; [|apply dl_mult; [apply (dl_const (x ^ 2))|apply dl_plus; [apply (dl_const 1)|apply dl_pow; apply dl_div; [apply dl_id|apply (dl_const M)|lra]]]].
      apply dl_pow. apply dl_minus; [apply (dl_const 1)|apply dl_pow; apply dl_div; [apply dl_id|apply (dl_const M)|lra]].
    - apply (continuity_pt_comp (fun ml => kallen_lambda 1 (x ^ 2) ((ml / M) ^ 2)) sqrt).
      + apply (cont_ext (fun ml => (1 - (x + ml / M) ^ 2) * (1 - (x - ml / M) ^ 2))); [intro; symmetry; apply two_body_kallen|].
        apply derivable_continuous_pt. eexists. apply dl_mult; (apply dl_minus; [apply (dl_const 1)|apply dl_pow]).
        * apply dl_plus; [apply (dl_const x)|apply dl_div; [apply dl_id|apply (dl_const M)|lra]].
        * apply dl_minus; [apply (dl_const x)|apply dl_div; [apply dl_id|apply (dl_const M)|lra]].
      + apply continuity_pt_sqrt. rewrite two_body_kallen. replace (0 / M) with 0 by (field; lra).
        replace ((1 - (x + 0) ^ 2) * (1 - (x - 0) ^ 2)) with ((1 - x ^ 2) ^ 2) by ring. apply pow2_ge_0. }
  assert (F0 : F 0 = pre * ((1 - x ^ 2) ^ 2 * (1 + 2 * x ^ 2))).
  { unfold F. replace (0 / M) with 0 by (field; lra). rewrite two_body_kallen.
    replace ((1 - (x + 0) ^ 2) * (1 - (x - 0) ^ 2)) with ((1 - x ^ 2) ^ 2) by ring. rewrite sqrt_pow2 by nra. ring. }
  intros eps He. destruct (C eps He) as (d & Hd & D). exists (Rmin d (M - m)). split; [apply Rmin_pos; lra|].
  intros ml [H1 H2]. pose proof (Rmin_l d (M - m)). pose proof (Rmin_r d (M - m)).
  assert (E : width_l_hp p ml m f ckm = F ml).
  { unfold width_l_hp. fold M. destruct (Rlt_dec M (m + ml)) as [L|_]; [lra|]. reflexivity. }
  rewrite E, <- F0. apply (D ml). split; [split; [exact I|lra]|]. cbn. unfold R_dist. rewrite Rabs_pos_eq; lra.
Qed.

Lemma tends_unique f a b : tends f a -> tends f b -> a = b.
Proof.
  intros A B. destruct (Req_dec a b) as [E|N]; [exact E|]. exfalso. assert (P : 0 < Rabs (a - b)) by (apply Rabs_pos_lt; lra).
  destruct (A (Rabs (a - b) / 2) ltac:(lra)) as (d1 & H1 & D1). destruct (B (Rabs (a - b) / 2) ltac:(lra)) as (d2 & H2 & D2).
  set (ml := Rmin d1 d2 / 2). pose proof (Rmin_pos d1 d2 H1 H2). pose proof (Rmin_l d1 d2). pose proof (Rmin_r d1 d2).
  specialize (D1 ml ltac:(unfold ml; lra)). specialize (D2 ml ltac:(unfold ml; lra)).
  pose proof (Rabs_triang (a - f ml) (f ml - b)) as T. replace (a - f ml + (f ml - b)) with (a - b) in T by ring.
  rewrite (Rabs_minus_sym a (f ml)) in T. lra.
Qed.
(** It is not (1 - x^2)^2 times the prefactor, the kinematic function of the neutral pseudoscalars *)
Theorem massless_limit_refuted : exists p m f ckm, 0 < p_mx p /\ 0 <= m < p_mx p /\
  ~ tends (fun ml => width_l_hp p ml m f ckm)
    (mixing p ^ 2 * GF ^ 2 * ckm ^ 2 * f ^ 2 * p_mx p ^ 3 / (32 * PI) * (1 - (m / p_mx p) ^ 2) ^ 2).
Proof.
  exists (MkP 1000 (PI / 8) Fst), 500, 1, 1. cbn [p_mx]. split; [lra|]. split; [lra|]. intro T.
  pose proof (massless_lepton_limit (MkP 1000 (PI / 8) Fst) 500 1 1) as L. cbn [p_mx] in L. specialize (L ltac:(lra) ltac:(lra)).
  pose proof (tends_unique _ _ _ T L) as E.
  assert (U : mixing (MkP 1000 (PI / 8) Fst) = 1 / 2).
  { unfold mixing. cbn [p_theta]. replace (2 * (PI / 8)) with (PI / 4) by field. rewrite tan_PI4. ring. }
  rewrite U in E. pose proof GF_pos as G. pose proof PI_RGT_0 as P.
  assert (K : 0 < (1 / 2) ^ 2 * GF ^ 2 * 1 ^ 2 * 1 ^ 2 * 1000 ^ 3 / (32 * PI)).
  { apply Rdiv_lt_0_compat; [|lra]. assert (0 < GF ^ 2) by (apply pow_lt; exact G). lra. }
  apply Rmult_eq_reg_l in E; [|lra]. replace (500 / 1000) with (1 / 2) in E by lra. lra.
Qed.
(** * C57: squared matrix elements *)
Lemma event_sum M m1 m2 m3 p1 p2 p3 : event M [m1; m2; m3] [p1; p2; p3] ->
  lnorm_sqr (vplus p1 p2) = M ^ 2 + m1 ^ 2 + m2 ^ 2 + m3 ^ 2 - lnorm_sqr (vplus p2 p3) - lnorm_sqr (vplus p1 p3).
Proof.
  intro Ev. apply event3 in Ev. destruct Ev as (S1 & S2 & S3 & E).
  pose proof (f_equal en E) as Ee. pose proof (f_equal px E) as Ex. pose proof (f_equal py E) as Ey. pose proof (f_equal pz E) as Ez.
  destruct S1 as [S1 _], S2 as [S2 _], S3 as [S3 _]. destruct p1 as [e1 x1 y1 z1], p2 as [e2 x2 y2 z2], p3 as [e3 x3 y3 z3].
  unfold lnorm_sqr. cbn [vplus en px py pz] in *.
  assert (e1 = M - e2 - e3) by lra. assert (x1 = - x2 - x3) by lra. assert (y1 = - y2 - y3) by lra. assert (z1 = - z2 - z3) by lra.
  subst e1 x1 y1 z1. nra.
Qed.

(** Non-negative for the masses, in their order, that the matrix element was derived for *)
Theorem lepton_msqrd_nonneg : forall p genv g1 g2 m1 m2 m3 s t, snd (make_msqrd_and_masses p genv g1 g2) = [m1; m2; m3] ->
  dalitz (p_mx p) m1 m2 m3 s t -> 0 <= fst (make_msqrd_and_masses p genv g1 g2) s t.
Proof.
  intros p genv g1 g2 m1 m2 m3 s t E D. pose proof (lepton_mass_pos g1). pose proof (lepton_mass_pos g2). unfold make_msqrd_and_masses in *.
  destruct (gen_eqb (p_gen p) genv && gen_eqb genv g1 && gen_eqb g1 g2); [cbn in E; injection E as <- <- <-; cbn [fst]; apply v_l_l_nonneg; [lra|exact D]|].
  destruct (gen_eqb (p_gen p) genv && gen_eqb g1 g2); [cbn in E; injection E as <- <- <-; cbn [fst]; apply v_f_f_nonneg; [lra|exact D]|].
  destruct (gen_eqb (p_gen p) g1 && gen_eqb genv g2); [cbn in E; injection E as <- <- <-; cbn [fst]; apply l_u_d_nonneg; try lra; exact D|].
  destruct (gen_eqb (p_gen p) g2 && gen_eqb genv g1); [cbn in E; injection E as <- <- <-; cbn [fst]; apply l_u_d_nonneg; try lra; exact D|].
  cbn. lra.
Qed.
Theorem pion_msqrd_nonneg : (forall q, 0 <= ff2 q) -> forall p s t,
  (dalitz (p_mx p) (lepton_mass (p_gen p)) m_pi m_pi s t -> 0 <= msqrd_l_pi0_pi vud ff2 s t p)
  /\ (dalitz (p_mx p) 0 m_pi m_pi s t -> 0 <= msqrd_v_pi_pi ff2 s t p).
Proof. intros F p s t. split; intro D; [apply l_pi0_pi_nonneg|apply v_pi_pi_nonneg]; assumption. Qed.
(** Missing: mixing angles with a negative tangent, refuted below *)
Theorem neutrino_msqrd_nonneg_partial : forall p g s t, 0 <= mixing p -> dalitz (p_mx p) 0 0 0 s t -> 0 <= msqrd_v_v_v s t p g.
Proof.
  intros p g s t U D. rewrite v_v_v_form. apply v_v_v_bracket in D. pose proof (pow2_ge_0 GF).
  apply Rmult_le_pos; [|exact D]. apply Rmult_le_pos; [|exact U]. apply Rmult_le_pos; [|assumption]. destruct (gen_eqb g (p_gen p)); lra.
Qed.
Example msqrd_nonneg_ex : exists s t, dalitz 1000 0 m_mu m_mu s t /\ snd (make_msqrd_and_masses (MkP 1000 (PI / 8) Fst) Fst Snd Snd) = [0; m_mu; m_mu].
Proof.
  destruct (pair_lower_attained 1000 [] 0 [] m_mu [m_mu]) as (ps & pi & pj & E & _); [lra| | |discriminate|].
  - intros m [<- | [<- | [<- | []]]]; unfold m_mu; lra.
  - cbn. unfold m_mu. lra.
  - cbn [app] in E. destruct ps as [|p1 [|p2 [|p3 [|p4 ps]]]]; destruct E as [F S];
      repeat match goal with H : Forall2 _ _ _ |- _ => inversion H; clear H; subst end.
    eexists. eexists. split; [|reflexivity]. exists p1, p2, p3. split; [split; [|exact S]|split; reflexivity].
    repeat apply Forall2_cons; try apply Forall2_nil; assumption.
Qed.

(** Proportional to the squared mixing *)
Theorem msqrd_mixing : forall p q s t genv g1 g2, p_mx q = p_mx p -> p_gen q = p_gen p ->
  mixing q ^ 2 * fst (make_msqrd_and_masses p genv g1 g2) s t = mixing p ^ 2 * fst (make_msqrd_and_masses q genv g1 g2) s t
  /\ mixing q ^ 2 * msqrd_l_pi0_pi vud ff2 s t p = mixing p ^ 2 * msqrd_l_pi0_pi vud ff2 s t q
  /\ mixing q ^ 2 * msqrd_v_pi_pi ff2 s t p = mixing p ^ 2 * msqrd_v_pi_pi ff2 s t q.
Proof.
  intros p q s t genv g1 g2 E G. unfold make_msqrd_and_masses, msqrd_l_pi0_pi, msqrd_v_pi_pi. rewrite G, E. repeat split; try ring.
  destruct (gen_eqb (p_gen p) genv && gen_eqb genv g1 && gen_eqb g1 g2); [cbn [fst]; unfold msqrd_v_l_l; rewrite E; ring|].
  destruct (gen_eqb (p_gen p) genv && gen_eqb g1 g2); [cbn [fst]; unfold msqrd_v_f_f; rewrite E; ring|].
  destruct (gen_eqb (p_gen p) g1 && gen_eqb genv g2); [cbn [fst]; unfold msqrd_l_u_d; rewrite E; ring|].
  destruct (gen_eqb (p_gen p) g2 && gen_eqb genv g1); [cbn [fst]; unfold msqrd_l_u_d; rewrite E; ring|]. cbn [fst]. ring.
Qed.
(** The three-neutrino element is proportional to the mixing itself ... *)
Theorem neutrino_msqrd_mixing : forall p q s t g, p_mx q = p_mx p -> p_gen q = p_gen p ->
  mixing q * msqrd_v_v_v s t p g = mixing p * msqrd_v_v_v s t q g.
Proof. intros p q s t g E G. unfold msqrd_v_v_v. rewrite G, E. ring. Qed.
(** ... and so negative for negative angles *)
Lemma mixing_neg : mixing (MkP 100 (- (PI / 8)) Fst) = - (1 / 2).
Proof. unfold mixing. cbn [p_theta]. replace (2 * - (PI / 8)) with (- (PI / 4)) by field. rewrite tan_neg, tan_PI4. ring. Qed.
Lemma dalitz_massless : dalitz 100 0 0 0 5000 2500.
Proof.
  apply dalitz_physical; [lra|]. apply gram_physical; unfold gram, cross12; lra.
Qed.
Theorem neutrino_msqrd_refuted : exists p s t, 0 < p_mx p /\ dalitz (p_mx p) 0 0 0 s t /\ msqrd_v_v_v s t p (p_gen p) < 0.
Proof.
  exists (MkP 100 (- (PI / 8)) Fst), 5000, 2500. cbn [p_mx p_gen]. split; [lra|]. split; [exact dalitz_massless|].
  rewrite v_v_v_form, mixing_neg. cbn [p_mx p_gen gen_eqb]. assert (0 < GF ^ 2) by (apply pow_lt; exact GF_pos). nra.
Qed.

(** The spectrum of a neutrino with two different leptons hands the particles over in another order than
    the matrix element assumes, and there the matrix element takes negative values *)
Theorem lepton_spectrum_refuted : forall theta mx, mixing (MkP mx theta Fst) <> 0 -> m_e + m_mu < mx ->
  let p := MkP mx theta Fst in
  exists f, (forall e, dnde_v_l_l nbody Snd Fst Snd p e "photon"%string = nbody "photon"%string mx ["vm"; "e"; "mu"]%string (Some f) e)
  /\ exists s t, dalitz mx 0 m_e m_mu s t /\ f s t < 0.
Proof.
  intros theta mx U H p. eexists. split.
  { intro e. unfold dnde_v_l_l, dnde_body. cbn [NU LEP]. unfold state_masses. cbn [fold_left bind dindex dget sm_masses String.eqb Ascii.eqb Bool.eqb].
    destruct (Rlt_dec (p_mx p) (0 + 0 + m_e + m_mu)) as [L|_]; [exfalso; change (p_mx p) with mx in L; lra|]. cbn [String.eqb Ascii.eqb Bool.eqb orb]. reflexivity. }
  assert (M1 : 0 < m_e < 1) by (unfold m_e; lra). assert (M2 : 100 < m_mu) by (unfold m_mu; lra).
  destruct (pair_lower_attained mx [] 0 [] m_e [m_mu]) as (ps & pi & pj & E & Hi & Hj & W); [lra| | |discriminate|].
  - intros m [<- | [<- | [<- | []]]]; lra.
  - cbn. lra.
  - cbn [app length] in *. destruct ps as [|p1 [|p2 [|p3 [|p4 ps]]]]; destruct E as [F S];
      repeat match goal with H : Forall2 _ _ _ |- _ => inversion H; clear H; subst end.
    cbn in Hi, Hj. injection Hi as <-. injection Hj as <-.
    assert (Ev : event mx [0; m_e; m_mu] [p1; p2; p3])
      by (split; [repeat apply Forall2_cons; try apply Forall2_nil; assumption|exact S]).
    assert (D : dalitz mx 0 m_e m_mu (lnorm_sqr (vplus p2 p3)) (lnorm_sqr (vplus p1 p3))) by (exists p1, p2, p3; auto).
    eexists. eexists. split; [exact D|]. cbn [make_msqrd_and_masses p_gen p gen_eqb andb fst lepton_mass]. rewrite l_u_d_form. cbv zeta. cbn [p_mx p].
    assert (Ew : mx ^ 2 + 0 ^ 2 + m_mu ^ 2 + m_e ^ 2 - lnorm_sqr (vplus p2 p3) - lnorm_sqr (vplus p1 p3) = m_e ^ 2).
    { pose proof (event_sum _ _ _ _ _ _ _ Ev) as Q. rewrite W in Q. lra. }
    rewrite Ew. fold p. assert (0 < GF ^ 2) by (apply pow_lt; exact GF_pos).
    assert (0 < mixing p ^ 2) by (rewrite <- Rsqr_pow2; apply Rlt_0_sqr; exact U).
    assert (0 < 16 * GF ^ 2 * mixing p ^ 2 * 1 ^ 2) by (rewrite pow1, Rmult_1_r; apply Rmult_lt_0_compat; lra).
    assert (Q1 : m_e ^ 2 - 0 ^ 2 - m_mu ^ 2 < 0) by nra. assert (Q2 : 0 < mx ^ 2 + m_e ^ 2 - m_e ^ 2) by nra.
    set (x1 := m_e ^ 2 - 0 ^ 2 - m_mu ^ 2) in *. set (x2 := mx ^ 2 + m_e ^ 2 - m_e ^ 2) in *. set (x3 := 16 * GF ^ 2 * mixing p ^ 2 * 1 ^ 2) in *.
    clearbody x1 x2 x3. assert (x1 * x2 < 0) by nra. nra.
Qed.
Example lepton_spectrum_ex : mixing (MkP 1000 (PI / 8) Fst) <> 0 /\ m_e + m_mu < 1000.
Proof.
  split; [|unfold m_e, m_mu; lra]. unfold mixing. cbn [p_theta]. replace (2 * (PI / 8)) with (PI / 4) by field. rewrite tan_PI4. lra.
Qed.

(** The matrix element for two equal pion masses is negative at points of the spectrum's Dalitz region,
    which has the masses of the charged and the neutral pion *)
Theorem pion_spectrum_refuted : vud <> 0 -> (forall q, 0 < ff2 q) ->
  let p := MkP 500 (PI / 8) Fst in
  exists f, (forall e, dnde_l_pi0_pi vud ff2 nbody p e "photon"%string = nbody "photon"%string 500 ["e"; "pi0"; "pi"]%string (Some f) e)
  /\ exists s t, dalitz 500 m_e m_pi0 m_pi s t /\ f s t < 0.
Proof.
  intros V F p. eexists. split.
  { intro e. unfold dnde_l_pi0_pi, dnde_body. cbn [gen_str p_gen p]. unfold state_masses. cbn [fold_left bind dindex dget sm_masses String.eqb Ascii.eqb Bool.eqb].
    destruct (Rlt_dec (p_mx p) (0 + m_e + m_pi0 + m_pi)) as [L|_]; [exfalso; cbn [p_mx p] in L; unfold m_e, m_pi0, m_pi in L; lra|].
    cbn [String.eqb Ascii.eqb Bool.eqb orb]. reflexivity. }
  exists 75400, 108000. split.
  - apply dalitz_physical; [lra|]. apply gram_physical; unfold m_e, m_pi0, m_pi, gram, cross12; lra.
  - unfold msqrd_l_pi0_pi. cbn [p_mx p_gen p lepton_mass].
    assert (U : mixing p = 1 / 2).
    { unfold mixing, p. cbn [p_theta]. replace (2 * (PI / 8)) with (PI / 4) by field. rewrite tan_PI4. ring. }
    fold p. rewrite U. assert (0 < GF ^ 2) by (apply pow_lt; exact GF_pos).
    assert (0 < vud ^ 2) by (rewrite <- Rsqr_pow2; apply Rlt_0_sqr; exact V). pose proof (F (sqrt 75400)).
    assert (B : 4 * m_pi ^ 4 + (m_e ^ 2 + 500 ^ 2) * (m_e ^ 2 + 500 ^ 2 - 75400) - 4 * (m_e ^ 2 + 500 ^ 2 + 2 * m_pi ^ 2 - 75400) * 108000 + 4 * 108000 ^ 2 < 0)
      by (unfold m_e, m_pi; lra).
    set (b := 4 * m_pi ^ 4 + _ - _ + _) in *. clearbody b.
    assert (0 < 2 * vud ^ 2 * (1 / 2) ^ 2 * GF ^ 2) by (apply Rmult_lt_0_compat; lra).
    assert (2 * vud ^ 2 * (1 / 2) ^ 2 * GF ^ 2 * b < 0) by nra. nra.
Qed.
(** * C81: widths as phase-space integrals *)

Lemma v_f_f_width p mf A nc c1 c2 : 0 < mf -> 2 * mf < p_mx p -> c1 = A / 4 -> c2 = (A - 1) / 8 -> 0 <= A <= 3 -> nc = 1 ->
  exists v, phase_space_width (p_mx p) 0 mf mf (fun s t => 2 * mixing p ^ 2 * GF ^ 2 * bracket A (p_mx p) mf s t) v
  /\ Rabs (width_v_f_f p mf nc c1 c2 - v) <= GF ^ 2 * p_mx p ^ 5 / (192 * PI ^ 3) * mixing p ^ 2 * (300 * (mf / p_mx p) ^ 10).
Proof.
  intros Hm HM -> -> HA ->. eexists. split; [apply bracket_width; lra|]. set (M := p_mx p) in *.
  unfold width_v_f_f. fold M. destruct (Rlt_dec M (2 * mf)) as [L|_]; [lra|]. set (x := mf / M).
  assert (Hx : 0 < x < 1 / 2).
  { unfold x. split; [apply Rdiv_lt_0_compat; lra|]. apply Rmult_lt_reg_r with M; [lra|]. field_simplify; lra. }
  pose proof PI_RGT_0 as HP. assert (P3 : 0 < PI ^ 3) by (apply pow_lt; exact HP).
  set (K := GF ^ 2 * M ^ 5 / (192 * PI ^ 3) * mixing p ^ 2).
  assert (HK : 0 <= K).
  { unfold K. apply Rmult_le_pos; [|apply mixing_sq]. unfold Rdiv. apply Rmult_le_pos; [|apply Rlt_le, Rinv_0_lt_compat; lra].
    apply Rmult_le_pos; [apply pow2_ge_0|apply pow_le; lra]. }
  pose proof (lx_error x Hx) as [E1 E2]. set (d := exact_log x - vff_lx x) in *.
  assert (Ed : exact_log x = vff_lx x + d) by (unfold d; ring).
  replace (1 * GF ^ 2 * M ^ 5 / (192 * PI ^ 3) * mixing p ^ 2 * (A / 4 * vff_t1 x + 4 * ((A - 1) / 8) * vff_t2 x)
           - 2 * mixing p ^ 2 * GF ^ 2 * M ^ 5 / (384 * PI ^ 3) * (A / 4 * exact_t1 x + (A - 1) / 2 * exact_t2 x))
    with (K * (A / 4 * (12 * x ^ 4 * (1 - x ^ 4) * d) + (1 - A) / 2 * (6 * x ^ 4 * (1 - 2 * x ^ 2 + 2 * x ^ 4) * d))).
  2: { unfold exact_t1, exact_t2, vff_t1, vff_t2. rewrite Ed. unfold K. field. lra. }
  rewrite Rabs_mult, (Rabs_pos_eq K) by exact HK. apply Rmult_le_compat_l; [exact HK|].
  assert (X2 : 0 < x ^ 2 < 1 / 4) by nra. assert (X4 : 0 < x ^ 4 < 1 / 16) by (replace (x ^ 4) with (x ^ 2 * x ^ 2) by ring; nra).
  assert (Y1 : 0 <= (1 - x ^ 4) * d <= 16 * x ^ 6) by nra.
  assert (Y2 : 0 <= (1 - 2 * x ^ 2 + 2 * x ^ 4) * d <= 16 * x ^ 6) by nra.
  set (y1 := (1 - x ^ 4) * d) in *. set (y2 := (1 - 2 * x ^ 2 + 2 * x ^ 4) * d) in *.
  replace (A / 4 * (12 * x ^ 4 * (1 - x ^ 4) * d) + (1 - A) / 2 * (6 * x ^ 4 * (1 - 2 * x ^ 2 + 2 * x ^ 4) * d))
    with (x ^ 4 * (3 * A * y1 + 3 * (1 - A) * y2)) by (unfold y1, y2; field).
  replace (300 * x ^ 10) with (x ^ 4 * (300 * x ^ 6)) by ring.
  rewrite Rabs_mult, (Rabs_pos_eq (x ^ 4)) by lra. apply Rmult_le_compat_l; [lra|].
  clearbody y1 y2. apply Rabs_le. set (z := x ^ 6) in *. clearbody z. clear - HA Y1 Y2. split; nra.
Qed.

(** The closed form of a charged-lepton pair agrees with the integral of its matrix element up to the tenth
    power of the mass ratio; the difference comes from the expansion of the logarithm for light leptons *)
Theorem lepton_pair_width : forall p gl, 2 * lepton_mass gl < p_mx p ->
  exists v, phase_space_width (p_mx p) 0 (lepton_mass gl) (lepton_mass gl) (fst (make_msqrd_and_masses p (p_gen p) gl gl)) v
  /\ Rabs (width_v_l_l quad p (p_gen p) gl gl - v)
     <= GF ^ 2 * p_mx p ^ 5 / (192 * PI ^ 3) * mixing p ^ 2 * (300 * (lepton_mass gl / p_mx p) ^ 10).
Proof.
  intros p gl H. pose proof (lepton_mass_pos gl) as Hm.
  assert (Re : forall g, gen_eqb g g = true) by (intros []; reflexivity).
  unfold width_v_l_l. rewrite Re. unfold width_v_l_l'. unfold make_msqrd_and_masses. rewrite !Re, !andb_true_r. cbn [andb].
  destruct (gen_eqb (p_gen p) gl); cbn [fst].
  - destruct (v_f_f_width p (lepton_mass gl) (1 + 4 * sw ^ 2 + 8 * sw ^ 4) 1 (1 / 4 * (1 + 4 * sw ^ 2 + 8 * sw ^ 4)) (1 / 2 * sw ^ 2 * (2 * sw ^ 2 + 1))) as (v & V & E);
      try assumption; [field|field|rewrite sw_sq, sw_4; lra|reflexivity|]. exists v. split; [|exact E].
    apply (phase_space_width_ext _ _ _ _ (fun s t => 2 * mixing p ^ 2 * GF ^ 2 * bracket (1 + 4 * sw ^ 2 + 8 * sw ^ 4) (p_mx p) (lepton_mass gl) s t)); [|exact V].
    intros s t. unfold bracket, msqrd_v_l_l. rewrite <- lepton_bracket. ring.
  - destruct (v_f_f_width p (lepton_mass gl) (1 - 4 * sw ^ 2 + 8 * sw ^ 4) 1 (1 / 4 * (1 - 4 * sw ^ 2 + 8 * sw ^ 4)) (1 / 2 * sw ^ 2 * (2 * sw ^ 2 - 1))) as (v & V & E);
      try assumption; [field|field|rewrite sw_sq, sw_4; lra|reflexivity|]. exists v. split; [|exact E].
    apply (phase_space_width_ext _ _ _ _ (fun s t => 2 * mixing p ^ 2 * GF ^ 2 * bracket (1 - 4 * sw ^ 2 + 8 * sw ^ 4) (p_mx p) (lepton_mass gl) s t)); [|exact V].
    intros s t. unfold bracket, msqrd_v_f_f. rewrite <- lepton_bracket. ring.
Qed.
Example lepton_pair_ex : 2 * lepton_mass Snd < p_mx (MkP 1000 (PI / 8) Fst) /\ 300 * (lepton_mass Snd / 1000) ^ 10 < 1 / 10 ^ 7.
Proof. cbn [lepton_mass p_mx]. unfold m_mu. split; lra. Qed.

(** The pion widths, when the quadrature is exact: the matrix element for pions of equal mass *)
Theorem pion_widths : forall p,
  (lepton_mass (p_gen p) + 2 * m_pi < p_mx p ->
   area (integrand_l_pi0_pi ff2 p) (4 * m_pi ^ 2) ((p_mx p - lepton_mass (p_gen p)) ^ 2)
     (quad (integrand_l_pi0_pi ff2 p) (4 * m_pi ^ 2) ((p_mx p - lepton_mass (p_gen p)) ^ 2)) ->
   phase_space_width (p_mx p) (lepton_mass (p_gen p)) m_pi m_pi (fun s t => msqrd_l_pi0_pi vud ff2 s t p) (width_l_pi0_pi vud ff2 quad p))
  /\ (2 * m_pi < p_mx p ->
   area (integrand_v_pi_pi ff2 p) (4 * m_pi ^ 2) (p_mx p ^ 2) (quad (integrand_v_pi_pi ff2 p) (4 * m_pi ^ 2) (p_mx p ^ 2)) ->
   phase_space_width (p_mx p) 0 m_pi m_pi (fun s t => msqrd_v_pi_pi ff2 s t p) (width_v_pi_pi ff2 quad p)).
Proof.
  intro p. set (M := p_mx p). pose proof m_pi_pos as Hp. pose proof PI_RGT_0 as HP. assert (P3 : 0 < PI ^ 3) by (apply pow_lt; exact HP). split.
  - set (ml := lepton_mass (p_gen p)). assert (Hl : 0 < ml) by apply lepton_mass_pos. intros H Q.
    set (c := fun s => 2 * vud ^ 2 * mixing p ^ 2 * GF ^ 2 * ff2 (sqrt s)).
    exists (fun s => t_mid M ml m_pi s - t_half M ml m_pi s), (fun s => t_mid M ml m_pi s + t_half M ml m_pi s),
      (fun s => (2 * vud ^ 2 * mixing p ^ 2 * GF ^ 2 * (M ^ 6 / 3)) * integrand_l_pi0_pi ff2 p s). split.
    + intros s Hs. assert (0 < s) by nra. split; [|split].
      * assert (0 <= t_half M ml m_pi s) by (unfold t_half, Rdiv; repeat apply Rmult_le_pos; try apply sqrt_pos; lra). lra.
      * intro t. apply dalitz_interval; try lra.
      * eapply area_val; [|eapply (area_ext _ _ _ _ _ []); [|apply (pion_inner M ml m_pi s (c s)); try lra; exact Hs]].
        -- unfold c, integrand_l_pi0_pi, pion_beta. cbv zeta. fold M ml. ring.
        -- intros t _ _. unfold msqrd_l_pi0_pi. cbv zeta. fold M ml. rewrite pion_bracket. unfold c. ring.
    + replace ((m_pi + m_pi) ^ 2) with (4 * m_pi ^ 2) by ring. unfold width_l_pi0_pi. fold M ml.
      destruct (Rlt_dec M (ml + 2 * m_pi)) as [L|_]; [lra|].
      eapply area_val; [|apply area_scale; exact Q]. field. lra.
  - intros H Q.
    set (c := fun s => mixing p ^ 2 * GF ^ 2 * (1 - 2 * sw ^ 2) ^ 2 * ff2 (sqrt s)).
    exists (fun s => t_mid M 0 m_pi s - t_half M 0 m_pi s), (fun s => t_mid M 0 m_pi s + t_half M 0 m_pi s),
      (fun s => (mixing p ^ 2 * GF ^ 2 * (1 - 2 * sw ^ 2) ^ 2 * (M ^ 6 / 3)) * integrand_v_pi_pi ff2 p s). split.
    + intros s Hs. assert (0 < s) by nra. split; [|split].
      * assert (0 <= t_half M 0 m_pi s) by (unfold t_half, Rdiv; repeat apply Rmult_le_pos; try apply sqrt_pos; lra). lra.
      * intro t. apply dalitz_interval; try lra.
      * assert (Hz : s / M ^ 2 <= 1) by (apply Rmult_le_reg_r with (M ^ 2); [nra|]; field_simplify; nra).
        eapply area_val; [|eapply (area_ext _ _ _ _ _ []); [|apply (pion_inner M 0 m_pi s (c s)); try lra; exact Hs]].
        -- unfold c, integrand_v_pi_pi, pion_beta. cbv zeta. fold M.
           replace (kallen_lambda 1 (s / M ^ 2) ((0 / M) ^ 2)) with ((1 - s / M ^ 2) ^ 2) by (unfold kallen_lambda; field; lra).
           rewrite sqrt_pow2 by lra. set (B := (1 - 4 * m_pi ^ 2 / s) * sqrt (1 - 4 * m_pi ^ 2 / s)). field. lra.
        -- intros t _ _. unfold msqrd_v_pi_pi. cbv zeta. fold M. unfold c. ring.
    + replace ((m_pi + m_pi) ^ 2) with (4 * m_pi ^ 2) by ring. replace ((M - 0) ^ 2) with (M ^ 2) by ring. unfold width_v_pi_pi. fold M.
      destruct (Rlt_dec M (2 * m_pi)) as [L|_]; [lra|].
      eapply area_val; [|apply area_scale; exact Q]. field. lra.
Qed.

(** The integral of the three-neutrino matrix element is 6 over the mixing times the width *)
Theorem three_neutrino_width : forall p g, 0 < p_mx p ->
  exists v, phase_space_width (p_mx p) 0 0 0 (fun s t => msqrd_v_v_v s t p g) v /\ mixing p * v = 6 * width_v_v_v p g.
Proof.
  intros p g H. pose proof PI_RGT_0 as HP. assert (P3 : 0 < PI ^ 3) by (apply pow_lt; exact HP).
  set (k := (if gen_eqb g (p_gen p) then 2 else 1) * 16 * GF ^ 2 * mixing p). eexists. split.
  - apply (phase_space_width_ext _ _ _ _ (fun s t => k * (s * t + (p_mx p ^ 2 - s - t) * (s + t)))); [|apply vvv_width; exact H].
    intros s t. rewrite v_v_v_form. reflexivity.
  - unfold k, width_v_v_v. destruct (gen_eqb g (p_gen p)); field; lra.
Qed.
Theorem three_neutrino_width_refuted : exists p g, 0 < p_mx p
  /\ ~ phase_space_width (p_mx p) 0 0 0 (fun s t => msqrd_v_v_v s t p g) (width_v_v_v p g).
Proof.
  exists (MkP 100 (PI / 8) Fst), Fst. cbn [p_mx]. split; [lra|]. intro W.
  destruct (three_neutrino_width (MkP 100 (PI / 8) Fst) Fst) as (v & V & E); [cbn; lra|]. cbn [p_mx] in V.
  assert (v = width_v_v_v (MkP 100 (PI / 8) Fst) Fst) by (eapply phase_space_width_unique; [| |exact V|exact W]; lra). subst v.
  assert (U : mixing (MkP 100 (PI / 8) Fst) = 1 / 2).
  { unfold mixing. cbn [p_theta]. replace (2 * (PI / 8)) with (PI / 4) by field. rewrite tan_PI4. ring. }
  rewrite U in E. assert (Z : width_v_v_v (MkP 100 (PI / 8) Fst) Fst = 0) by lra. unfold width_v_v_v in Z. rewrite U in Z. cbn [p_mx p_gen gen_eqb] in Z.
  pose proof PI_RGT_0 as HP. assert (P3 : 0 < PI ^ 3) by (apply pow_lt; exact HP). assert (0 < GF ^ 2) by (apply pow_lt; exact GF_pos).
  assert (0 < GF ^ 2 * 100 ^ 5 / (768 * PI ^ 3)) by (apply Rdiv_lt_0_compat; lra). lra.
Qed.

(** * C82: the spectrum of each channel *)

(** The particles a final state is made of, in the names of the spectrum code; a neutral rho is "rho0" *)
Definition own_particles (key : string) : list string :=
  let ws := words key in
  map (fun w => if String.eqb w "rho" && negb (charged ws w) then "rho0"%string else w) ws.
Definition sum_of_masses (l : list string) (tot : R) : Prop :=
  exists ms, Forall2 (fun s m => dget sm_masses s = Some m) l ms /\ tot = fold_right Rplus 0 ms.
(** The spectrum of [key] is [c] times the n-body spectrum of the particles [l] *)
Definition uses (product : string) (o : rhn) (key : string) (l : list string) (c : R) : Prop :=
  exists msqrd, forall tot, sum_of_masses l tot -> tot <= n_mx o -> forall e, exists f,
    dget (rhn_spectrum_funcs o product) key = Some f /\ f e = let* v := nbody product (n_mx o) l msqrd e in Ret (vscale c v).
Ltac perm_words := match goal with |- Permutation ?a ?b => let x := eval vm_compute in b in change b with x end;
  first [apply Permutation_refl | apply perm_skip; apply perm_swap].
Lemma state_masses_sum l tot : sum_of_masses l tot -> state_masses l = Ret tot.
Proof.
  intros (ms & F & ->). unfold state_masses.
  assert (G : forall acc, fold_left (fun a s => let* t := a in let* m := dindex sm_masses s in Ret (t + m)) l (Ret acc) = Ret (acc + fold_right Rplus 0 ms)).
  { induction F as [|s m l ms Hm F IH]; intro acc; cbn [fold_left fold_right]; [f_equal; ring|].
    cbn [bind]. unfold dindex at 2. rewrite Hm. cbn [bind]. rewrite IH. f_equal. ring. }
  rewrite G. f_equal. ring.
Qed.
Lemma body_above p e product l msqrd tot : sum_of_masses l tot -> tot <= p_mx p -> product = "photon"%string \/ product = "positron"%string ->
  dnde_body nbody p e product l msqrd = nbody product (p_mx p) l msqrd e.
Proof.
  intros S L P. unfold dnde_body. rewrite (state_masses_sum l tot S). cbn [bind]. destruct (Rlt_dec (p_mx p) tot); [lra|].
  destruct P as [-> | ->]; reflexivity.
Qed.
Lemma uses_entry product o key l msqrd a : product = "photon"%string \/ product = "positron"%string ->
  dget (n_config o) key = Some a -> (forall p e, p_gen p = n_gen o -> a_dnde a p e product = dnde_body nbody p e product l (msqrd p)) ->
  uses product o key l (if a_conj a then 1 else if String.eqb product "positron" then 1 else 2).
Proof.
  intros P G E. exists (msqrd (params_of o)). intros tot S L e. eexists. split.
  - unfold rhn_spectrum_funcs. rewrite dget_dmap, G. reflexivity.
  - cbv beta. rewrite E by reflexivity. rewrite (body_above (params_of o) e product l _ tot S L P). reflexivity.
Qed.

(** The final states treated below: no continuum, a wrong meson, a wrong meson *)
Definition exceptions (g : gen) : list string := [NU g ++ " a"; NU g ++ " eta"; LEP g ++ " rho"]%string.
Definition weight (product key : string) : R := if String.eqb product "photon" && Nat.eqb (charge_states key) 2 then 2 else 1.

(** Missing: the exceptions and the weight two of photon spectra, both refuted below *)
Theorem spectrum_particles_partial : forall o product key, reachable o -> product = "photon"%string \/ product = "positron"%string ->
  In key (final_states (n_gen o)) -> ~ In key (exceptions (n_gen o)) ->
  exists l, Permutation l (own_particles key) /\ uses product o key l (weight product key).
Proof.
  intros o product key Ho P K N. pose proof (reachable_config o Ho) as C.
  assert (Q : forall a l msqrd, dget (n_config o) key = Some a -> (forall p e, p_gen p = n_gen o -> a_dnde a p e product = dnde_body nbody p e product l (msqrd p)) ->
     a_conj a = Nat.eqb (charge_states key) 1 -> (charge_states key = 1 \/ charge_states key = 2)%nat -> Permutation l (own_particles key) ->
     exists l, Permutation l (own_particles key) /\ uses product o key l (weight product key)).
  { intros a l msqrd G E Cj Ch Pm. exists l. split; [exact Pm|]. pose proof (uses_entry product o key l msqrd a P G E) as U.
    replace (weight product key) with (if a_conj a then 1 else if String.eqb product "positron" then 1 else 2); [exact U|].
    rewrite Cj. unfold weight. destruct Ch as [-> | ->], P as [-> | ->]; reflexivity. }
  rewrite C in Q. clear C Ho. destruct o as [mx th fl g vs ml ls cf]. cbn [n_gen] in *.
  destruct g; cbn [final_states In] in K; cbn [exceptions NU LEP String.append In] in N.
  all: repeat (destruct K as [<- |K]; [first [exfalso; tauto | eapply Q; [reflexivity|intros p e Hp; cbn [a_dnde snd neutrino_entry lepton_entry]; unfold dnde_v_pi0, dnde_v_rho, dnde_v_omega, dnde_v_phi, dnde_l_pi, dnde_l_k, dnde_v_l_l, dnde_l_pi0_pi, dnde_v_pi_pi, dnde_v_v_v; rewrite ?Hp; cbn [NU LEP gen_str]; reflexivity|reflexivity|cbn; tauto|perm_words]]|]); destruct K.
Qed.
Example spectrum_particles_ex : exists o, init 1000 (1 / 10) "mu" = Ret o /\ In "mu pi pi0"%string (final_states (n_gen o))
  /\ ~ In "mu pi pi0"%string (exceptions (n_gen o)) /\ own_particles "mu pi pi0" = ["mu"; "pi"; "pi0"]%string
  /\ sum_of_masses ["mu"; "pi0"; "pi"]%string (m_mu + (m_pi0 + (m_pi + 0))).
Proof.
  eexists. split; [reflexivity|]. split; [cbn; tauto|]. split; [|split; [reflexivity|]].
  - cbn. intro I. repeat (destruct I as [I|I]; [discriminate|]). exact I.
  - exists [m_mu; m_pi0; m_pi]. split; [|reflexivity]. repeat apply Forall2_cons; try apply Forall2_nil; reflexivity.
Qed.
End Rhn.

(** ** Refutations of C82, for particular n-body spectra *)

(** A spectrum code that answers 1 if an eta (a rho) is among the particles, and 0 otherwise *)
Definition marks (name : string) : string -> R -> list string -> option (R -> R -> R) -> val -> res val :=
  fun _ _ states _ _ => Ret (VF (if existsb (String.eqb name) states then 1 else 0)).
(** One photon per final state, whatever it is *)
Definition one_photon : string -> R -> list string -> option (R -> R -> R) -> val -> res val := fun _ _ _ _ _ => Ret (VF 1).

Ltac above := match goal with |- context[Rlt_dec ?a ?b] => destruct (Rlt_dec a b) as [L|_];
  [exfalso; unfold m_e, m_mu, m_pi0, m_pi, m_k, m_rho, m_eta in L; cbn [p_mx params_of n_mx] in L; lra|] end.

(** The eta channel gets the spectrum of a neutral pion *)
Theorem eta_spectrum_refuted : forall vud vus ff2 quad, exists o f, rhn_init vud vus ff2 quad (marks "eta") 1000 (1 / 10) "e" = Ret o
  /\ own_particles "ve eta" = ["ve"; "eta"]%string
  /\ dget (rhn_spectrum_funcs o "photon") "ve eta" = Some f /\ f (VF 100) = Ret (VF 0)
  /\ marks "eta" "photon" 1000 (own_particles "ve eta") None (VF 100) = Ret (VF 1).
Proof.
  intros. eexists. eexists. split; [reflexivity|]. split; [reflexivity|]. split; [reflexivity|]. split; [|reflexivity].
  change ((let* v := dnde_v_eta (marks "eta") (MkP 1000 (1 / 10) Fst) (VF 100) "photon"%string in Ret (vscale 1 v)) = Ret (VF 0)).
  unfold dnde_v_eta, dnde_body. cbn [p_mx p_gen NU]. unfold state_masses.
  cbn [fold_left bind dindex dget sm_masses String.eqb Ascii.eqb Bool.eqb]. above. cbn. do 2 f_equal. ring.
Qed.
(** The channel of a lepton and a charged rho gets the spectrum of a kaon *)
Theorem rho_spectrum_refuted : forall vud vus ff2 quad, exists o f, rhn_init vud vus ff2 quad (marks "rho") 1000 (1 / 10) "mu" = Ret o
  /\ own_particles "mu rho" = ["mu"; "rho"]%string
  /\ dget (rhn_spectrum_funcs o "positron") "mu rho" = Some f /\ f (VF 100) = Ret (VF 0)
  /\ marks "rho" "positron" 1000 (own_particles "mu rho") None (VF 100) = Ret (VF 1).
Proof.
  intros. eexists. eexists. split; [reflexivity|]. split; [reflexivity|]. split; [reflexivity|]. split; [|reflexivity].
  change ((let* v := dnde_l_rho (marks "rho") (MkP 1000 (1 / 10) Snd) (VF 100) "positron"%string in Ret (vscale 1 v)) = Ret (VF 0)).
  unfold dnde_l_rho, dnde_body. cbn [p_mx p_gen LEP]. unfold state_masses.
  cbn [fold_left bind dindex dget sm_masses String.eqb Ascii.eqb Bool.eqb]. above. cbn. do 2 f_equal. ring.
Qed.
(** If every decay gave one photon, the spectrum of a channel with a charge-conjugate partner would hold
    two, although its branching fraction already covers both charges *)
Theorem photon_weight_refuted : forall vud vus ff2 quad, exists o f, rhn_init vud vus ff2 quad one_photon 1000 (1 / 10) "e" = Ret o
  /\ dget (rhn_spectrum_funcs o "photon") "e pi" = Some f /\ f (VF 100) = Ret (VF 2)
  /\ one_photon "photon" 1000 (own_particles "e pi") None (VF 100) = Ret (VF 1)
  /\ dget (rhn_widths o) "e pi" = Some (INR (charge_states "e pi") * width_l_pi vud (params_of o)).
Proof.
  intros. eexists. eexists. split; [reflexivity|]. split; [reflexivity|]. split; [|split; [reflexivity|]].
  - change ((let* v := dnde_l_pi one_photon (MkP 1000 (1 / 10) Fst) (VF 100) "photon"%string in Ret (vscale 2 v)) = Ret (VF 2)).
    unfold dnde_l_pi, dnde_body. cbn [p_mx p_gen LEP]. unfold state_masses.
    cbn [fold_left bind dindex dget sm_masses String.eqb Ascii.eqb Bool.eqb]. above. cbn. do 2 f_equal. ring.
  - replace (charge_states "e pi") with 2%nat by reflexivity. unfold rhn_widths. rewrite dget_dmap. cbn [INR]. reflexivity.
Qed.

Print Assumptions flavour_history.
Print Assumptions flavour_electron.
Print Assumptions flavour_muon_partial.
Print Assumptions flavour_invalid.
Print Assumptions flavour_tau_refuted.
Print Assumptions flavour_muon_refuted.
Print Assumptions gamma_ray_lines_raise.
Print Assumptions positron_lines_raise.
Print Assumptions positron_lines_partial.
Print Assumptions line_energies_two_body.
Print Assumptions lines_refuted.
Print Assumptions neutrino_lines_refuted.
Print Assumptions decay_width_names.
Print Assumptions decay_width_unknown.
Print Assumptions decay_width_string.
Print Assumptions decay_width_refuted.
Print Assumptions conjugate_counting.
Print Assumptions conjugates_partial.
Print Assumptions conjugates_refuted.
Print Assumptions total_width_excess.
Print Assumptions two_body_widths_sign.
Print Assumptions two_body_widths_mixing.
Print Assumptions massless_lepton_limit.
Print Assumptions massless_limit_refuted.
Print Assumptions lepton_msqrd_nonneg.
Print Assumptions pion_msqrd_nonneg.
Print Assumptions neutrino_msqrd_nonneg_partial.
Print Assumptions msqrd_mixing.
Print Assumptions neutrino_msqrd_mixing.
Print Assumptions neutrino_msqrd_refuted.
Print Assumptions lepton_spectrum_refuted.
Print Assumptions pion_spectrum_refuted.
Print Assumptions lepton_pair_width.
Print Assumptions pion_widths.
Print Assumptions three_neutrino_width.
Print Assumptions three_neutrino_width_refuted.
Print Assumptions spectrum_particles_partial.
Print Assumptions eta_spectrum_refuted.
Print Assumptions rho_spectrum_refuted.
Print Assumptions photon_weight_refuted.
