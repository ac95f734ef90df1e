(** askHow. *)
From Verif Require Import Base Num Term Unify TermSpec Str World Engine Step Ast Names Build Front QuerySpec BelSpec PlanSpec Reach StepSpec LoadSpec HowSpec TellSpec.
From Verif Require Import FuelFacts Effects EffFacts ReachFacts StepFacts BelFacts BelAdd OwnFacts LoadFacts MsgFacts HowFacts TellFacts EnvFacts.

(** ** Every group of plans occurs once *)
Section Keys.
Context {PY : Py} {FR : Front}.
Definition keyed (W : world) : Prop := forall a, NoDup (map fst (pmap W a)).
Lemma keyed_same W W' : (forall b, pmap W' b = pmap W b \/ pmap W' b = []) -> keyed W -> keyed W'.
Proof. intros H K a. destruct (H a) as [-> | ->]; [apply K|constructor]. Qed.
Lemma nodup_snoc {A} (l : list A) x : NoDup l -> ~ In x l -> NoDup (l ++ [x]).
Proof.
  intros H N. rewrite <- (rev_involutive (l ++ [x])). apply NoDup_rev. rewrite rev_app_distr. cbn. constructor; [now rewrite <- in_rev|now apply NoDup_rev].
Qed.
Lemma assoc_none g (l : list (pgroup * nat)) : assoc pgroup_eqb g l = None -> ~ In g (map fst l).
Proof.
  induction l as [|[k v] l IH]; cbn; [auto|]. destruct (pgroup_eqb g k) eqn:E; [discriminate|]. intros H [<-|X]; [|now apply IH].
  rewrite (proj2 (pgroup_eqb_eq _ _) eq_refl) in E. discriminate.
Qed.
Lemma planref_keyed a g W : keyed W -> keyed (snd (plan_ref a g W)).
Proof.
  intros K. unfold plan_ref. destruct (assoc _ _ _) as [r|] eqn:E; [exact K|]. cbn [snd]. intro b. unfold pmap.
  match goal with |- context [put_agent ?V a ?x] => destruct (get_agent_put V a x b) as [-> |[-> ->]] end; [exact (K b)|].
  cbn [a_plans set_a_plans]. rewrite map_app. apply nodup_snoc; [exact (K a)|now apply assoc_none].
Qed.
Lemma kept_keyed W W' : maps_kept W W' -> keyed W -> keyed W'.
Proof. intros (_ & H & _). now apply keyed_same. Qed.
Lemma belref_keyed a g W : keyed W -> keyed (snd (bel_ref a g W)).
Proof.
  intros K. unfold bel_ref. destruct (assoc _ _ _) as [r|] eqn:E; [exact K|]. cbn [snd]. intro b. unfold pmap.
  match goal with |- context [put_agent ?V a ?x] => destruct (get_agent_put V a x b) as [-> |[-> ->]] end; exact (K _).
Qed.
Lemma eff_keyed Pp lo cur W W' : eff Pp lo cur W W' -> keyed W -> keyed W'.
Proof.
  intros H HO. destruct H; try (apply belref_keyed; assumption); try (apply planref_keyed; assumption);
    try (apply (kept_keyed W); [apply id_kept; cbn; rewrite ?upd_length; auto|exact HO]; fail);
    try (apply (kept_keyed W); [apply put_kept; reflexivity|exact HO]; fail).
  apply (kept_keyed W); [|exact HO]. eapply kept_trans; [|apply put_kept; reflexivity]. apply id_kept; cbn; rewrite ?upd_length; auto.
Qed.
Lemma geff_keyed Pp W W' : geff Pp false W W' -> keyed W -> keyed W'.
Proof.
  intros H HO. destruct H.
  - eapply eff_keyed; eassumption.
  - apply (kept_keyed W); [|exact HO]. repeat split; [| |cbn; lia|cbn; lia]; intro b; unfold bmap, pmap;
      destruct (get_agent_snoc W (empty_agent name) b) as [-> | ->]; auto.
  - discriminate.
  - apply (kept_keyed W); [apply put_kept; reflexivity|exact HO].
  - apply (kept_keyed W); [apply id_kept; cbn; auto|exact HO].
  - apply (kept_keyed W); [apply id_kept; cbn; auto|exact HO].
  - apply (kept_keyed W); [apply put_kept; reflexivity|exact HO].
Qed.
Theorem single_keyed W : single W -> keyed W.
Proof.
  intro H. apply (single_geffs (fun _ => True)) in H; auto.
  apply (geffs_ind_inv _ _ keyed _ _ (geff_keyed _) H). intros [|a]; constructor.
Qed.

(** ** The texts of a group *)
Lemma same_plan_refl p : same_plan p p.
Proof. destruct p. reflexivity. Qed.
Lemma same_plan_args p l : same_plan p (set_p_args p l).
Proof. reflexivity. Qed.
Lemma same_plan_trans p q r : same_plan p q -> same_plan q r -> same_plan p r.
Proof. unfold same_plan. intros -> ->. reflexivity. Qed.
Lemma same_all_refl l : Forall2 same_plan l l.
Proof. induction l; constructor; auto using same_plan_refl. Qed.
Lemma same_all_trans l1 : forall l2 l3, Forall2 same_plan l1 l2 -> Forall2 same_plan l2 l3 -> Forall2 same_plan l1 l3.
Proof. induction l1; intros l2 l3 H1 H2; inversion H1; subst; inversion H2; subst; constructor; eauto using same_plan_trans. Qed.
Lemma same_all_upd l : forall k p names, nth_error l k = Some p -> Forall2 same_plan l (upd l k (set_p_args p names)).
Proof.
  induction l as [|x l IH]; intros [|k] p names H; cbn in H; try discriminate; cbn.
  - injection H as ->. constructor; [apply same_plan_args|apply same_all_refl].
  - constructor; [apply same_plan_refl|eauto].
Qed.
Lemma nth_upd_other {A} (l : list A) : forall j k x, j <> k -> nth_error (upd l j x) k = nth_error l k.
Proof. induction l as [|y l IH]; intros [|j] [|k] x N; cbn; auto; try congruence. Qed.

Definition at_list (r : nat) (V V' : world) : Prop :=
  exists l, V' = set_plists V (upd (w_plists V) r l) /\ Forall2 same_plan (get_plist V r) l.
Lemma upd_over {A} (l : list A) : forall r x, (List.length l <= r)%nat -> upd l r x = l.
Proof. induction l as [|y l IH]; intros [|r] x H; cbn in *; auto; [lia|]. f_equal. apply IH. lia. Qed.
Lemma upd_own {A} (l : list A) r d : upd l r (nth r l d) = l.
Proof. revert r. induction l as [|y l IH]; intros [|r]; cbn; auto. now rewrite IH. Qed.
Lemma at_list_refl r V : at_list r V V.
Proof. exists (get_plist V r). split; [|apply same_all_refl]. unfold get_plist. rewrite upd_own. now destruct V. Qed.

Lemma group_text_spec r ks : forall last st V msg st' V', (r < List.length (w_plists V))%nat -> NoDup ks ->
  group_text r ks last (st, V) = (Ok msg, (st', V')) ->
  st' = st /\ at_list r V V' /\
  match rev ks with
  | [] => msg = last
  | k :: _ => exists p s, nth_error (get_plist V r) k = Some p /\ sent_as p s /\ msg = how_message s []
  end.
Proof.
  induction ks as [|k ks IH]; intros last st V msg st' V' Hr HD E.
  - inversion E; subst. split; [reflexivity|]. split; [apply at_list_refl|reflexivity].
  - cbn [group_text] in E. unfold mbind at 1, m_world at 1 in E. cbn [snd] in E.
    destruct (nth_error (get_plist V r) k) as [p|] eqn:Ek; [|discriminate].
    destruct (plan_to_str p) as [text names] eqn:Et. unfold mbind at 1 in E. unfold put_world, on_world in E. cbn [fst snd] in E.
    unfold mbind at 1, lift at 1 in E. destruct text as [s|]; [|discriminate].
    set (l1 := upd (get_plist V r) k (set_p_args p names)) in *. set (V1 := set_plists V (upd (w_plists V) r l1)) in *.
    apply NoDup_cons_iff in HD as [HN HD].
    apply IH in E as (-> & (l2 & -> & HS) & HM); [|unfold V1; cbn; now rewrite upd_length|exact HD].
    assert (G1 : get_plist V1 r = l1) by (unfold get_plist, V1; cbn; now apply upd_same).
    split; [reflexivity|]. split.
    + exists l2. split; [unfold V1, set_plists; cbn; now rewrite upd_twice|]. rewrite G1 in HS.
      eapply same_all_trans; [|exact HS]. now apply same_all_upd.
    + cbn [rev]. destruct (rev ks) as [|j js] eqn:Er; cbn [app].
      * exists p, s. split; [assumption|]. split; [unfold sent_as; now rewrite Et|exact HM].
      * destruct HM as (q & s' & H1 & H2 & H3). exists q, s'. split; [|auto].
        rewrite G1 in H1. unfold l1 in H1. rewrite nth_upd_other in H1; [exact H1|]. intros ->. apply HN. apply in_rev. rewrite Er. now left.
Qed.

(** The positions of the plans that are asked for. *)
Lemma wanted_positions s l : forall k ks, wanted_in (TStr s) l k = Ok ks ->
  NoDup ks /\ Forall (fun j => (k <= j)%nat) ks /\ map (fun j => nth_error l (j - k)) ks = map Some (filter (asked_for s) l).
Proof.
  induction l as [|p l IH]; intros k ks E; cbn in E.
  - injection E as <-. split; [constructor|]. split; constructor.
  - destruct (wanted_in (TStr s) l (S k)) as [ks'|] eqn:E1; [|discriminate]. destruct (IH (S k) ks' E1) as (H1 & H2 & H3).
    assert (H4 : map (fun j => nth_error (p :: l) (j - k)) ks' = map Some (filter (asked_for s) l)).
    { rewrite <- H3. apply map_ext_in. intros j Hj. rewrite Forall_forall in H2. specialize (H2 j Hj). replace (j - k)%nat with (S (j - S k)) by lia. reflexivity. }
    assert (H5 : Forall (fun j => (k <= j)%nat) ks') by (eapply Forall_impl; [|exact H2]; cbn; lia).
    injection E as <-. cbn [filter]. change (asked_for s p) with (is_substr (p_functor p) s). destruct (is_substr (p_functor p) s).
    + split; [|split].
      * constructor; [|assumption]. intro Hk. rewrite Forall_forall in H2. specialize (H2 k Hk). lia.
      * constructor; auto.
      * cbn [map]. rewrite Nat.sub_diag. cbn [nth_error]. now rewrite H4.
    + auto.
Qed.
Lemma wanted_last s l ks : wanted_in (TStr s) l 0 = Ok ks ->
  NoDup ks /\ match rev ks with
              | [] => last_of (filter (asked_for s) l) = []
              | k :: _ => exists p, nth_error l k = Some p /\ last_of (filter (asked_for s) l) = [p]
              end.
Proof.
  intro E. apply wanted_positions in E as (H1 & _ & H3). split; [assumption|].
  apply (f_equal (@rev _)) in H3. rewrite <- !map_rev in H3. unfold last_of.
  destruct (rev ks) as [|k r]; destruct (rev (filter (asked_for s) l)) as [|p q]; try discriminate; [reflexivity|].
  cbn in H3. injection H3 as H3 _. rewrite Nat.sub_0_r in H3. eauto.
Qed.

Lemma find_source_spec annots : forall found name, find_source annots found = Ok (Some name) ->
  asker annots name \/ (found = Some name /\ Forall (fun t => forall args an, t <> TLit (s2p "source") args an) annots).
Proof.
  induction annots as [|t annots IH]; intros found name E; cbn [find_source] in E; [injection E as ->; auto|].
  destruct t; try discriminate. destruct (pystr_eqb f (s2p "source")) eqn:Ef.
  - apply pystr_eqb_eq in Ef. subst f. destruct args as [|[] rest]; try discriminate.
    apply IH in E as [(b & x & an & r & an' & af & -> & H)|[[= ->] H]].
    + left. exists (TLit (s2p "source") (TLit f args annots1 :: rest) annots0 :: b), x, an, r, an', af. auto.
    + left. exists [], args, annots1, rest, annots0, annots. auto.
  - apply IH in E as [(b & x & an & r & an' & af & -> & H)|[-> H]].
    + left. exists (TLit f args annots0 :: b), x, an, r, an', af. auto.
    + right. split; [reflexivity|]. constructor; [|assumption]. intros x y [= -> _ _]. rewrite (proj2 (pystr_eqb_eq _ _) eq_refl) in Ef. discriminate.
Qed.
End Keys.

Section Asking.
Context {PY : Py}.
Variables (m n a rcv : nat).
Hypothesis Hne : a <> rcv.
Local Notation FRT := (FrontText m).

Record prog (W : world) (xs : list plan) (V : world) : Prop := mkprog {
  pg_gain : forall h, plans_of rcv h V = plans_of rcv h W ++ filter (fun p => pgroup_eqb h (plan_group p)) xs;
  pg_others : forall b h, b <> rcv -> Forall2 same_plan (plans_of b h W) (plans_of b h V);
  pg_bel : forall b g, beliefs b g V = beliefs b g W;
  pg_rules : forall b, a_rules (get_agent V b) = a_rules (get_agent W b);
  pg_ints : forall b, a_ints (get_agent V b) = a_ints (get_agent W b);
  pg_env : w_env V = w_env W;
  pg_aside : ints_aside W V /\ (List.length (w_ints W) <= List.length (w_ints V))%nat;
  pg_own : own V;
  pg_map : pmap V a = pmap W a;
  pg_len : List.length (w_agents V) = List.length (w_agents W)
}.

Lemma assoc_nodup g r (l : list (pgroup * nat)) : NoDup (map fst l) -> In (g, r) l -> assoc pgroup_eqb g l = Some r.
Proof.
  induction l as [|[k v] l IH]; cbn; intros H X; [destruct X|]. apply NoDup_cons_iff in H as [H1 H2].
  destruct X as [[= -> ->]|X]; [now rewrite (proj2 (pgroup_eqb_eq _ _) eq_refl)|].
  destruct (pgroup_eqb g k) eqn:E; [|auto]. apply pgroup_eqb_eq in E. subst. exfalso. apply H1. apply in_map_iff. now exists (k, r).
Qed.

Lemma prog_list W xs V g r V' : In (g, r) (pmap V a) -> at_list r V V' -> prog W xs V ->
  prog W xs V' /\ (forall r', r' <> r -> get_plist V' r' = get_plist V r').
Proof.
  intros Hin (l & -> & HS) [P1 P2 P3 P4 P5 P6 P7 P8 P9 P10].
  assert (HO : own (set_plists V (upd (w_plists V) r l))).
  { apply (kept_own V); [|assumption]. apply id_kept; cbn; rewrite ?upd_length; auto. }
  destruct P8 as [[R1 R2] [S1 S2]].
  assert (HG : forall r', r' <> r -> get_plist (set_plists V (upd (w_plists V) r l)) r' = get_plist V r').
  { intros r' N. unfold get_plist. cbn. now rewrite upd_other by congruence. }
  assert (HP : forall b h, (assoc pgroup_eqb h (pmap V b) = Some r /\ b = a /\ plans_of b h (set_plists V (upd (w_plists V) r l)) = l /\ plans_of b h V = get_plist V r)
      \/ plans_of b h (set_plists V (upd (w_plists V) r l)) = plans_of b h V).
  { intros b h. unfold plans_of. change (get_agent (set_plists V (upd (w_plists V) r l)) b) with (get_agent V b).
    destruct (assoc pgroup_eqb h (a_plans (get_agent V b))) as [r1|] eqn:E1; [|auto].
    destruct (Nat.eq_dec r1 r) as [->|N]; [left|right; now apply HG].
    split; [exact E1|]. apply (assoc_in _ pgroup_eqb_eq) in E1. destruct (S2 _ _ _ _ _ E1 Hin) as [-> _].
    split; [reflexivity|]. split; [|reflexivity]. unfold get_plist. cbn. apply upd_same. eapply R2, Hin. }
  split; [|exact HG]. constructor; auto.
  - intro h. destruct (HP rcv h) as [(_ & X & _)| ->]; [congruence|apply P1].
  - intros b h N. destruct (HP b h) as [(_ & -> & -> & E)| ->]; [|now apply P2]. eapply same_all_trans; [apply P2; congruence|]. now rewrite E.
Qed.

Lemma prog_gain W xs V x V' : gains rcv [x] V V' -> own V' -> (forall b, b <> rcv -> pmap V' b = pmap V b) ->
  List.length (w_agents V') = List.length (w_agents V) -> prog W xs V -> prog W (xs ++ [x]) V'.
Proof.
  intros (G1 & G2 & G3 & G4 & G5 & G6 & [G7 G8]) HO HM HL [P1 P2 P3 P4 P5 P6 [P7 P7'] P8 P9 P10]. constructor.
  - intro h. rewrite G1, P1, filter_app. now rewrite app_assoc.
  - intros b h N. rewrite G2 by exact N. now apply P2.
  - intros. now rewrite G3.
  - intros. now rewrite G4.
  - intros. now rewrite G5.
  - congruence.
  - split; [|lia]. intros i Hi. destruct (P7 i Hi) as [E|E], (G8 i) as [E'|E']; rewrite E', E; auto.
  - exact HO.
  - rewrite HM by congruence. exact P9.
  - congruence.
Qed.

Definition last_plan (W : world) (g : nat * list nat) (p : plan) : Prop :=
  match rev (snd g) with k :: _ => nth_error (get_plist W (fst g)) k = Some p | [] => False end.

Lemma ask_loop W ci gs : forall ps xs V st st' V',
  NoDup (map fst (pmap W a)) -> (rcv < List.length (w_agents W))%nat ->
  prog W xs V -> Forall2 (last_plan W) gs ps -> Forall (fun g => NoDup (snd g)) gs -> NoDup (map fst gs) ->
  Forall (fun g => In (fst g) (map snd (pmap W a)) /\ get_plist V (fst g) = get_plist W (fst g)) gs ->
  mfor gs (fun g => (msg <- group_text (fst g) (snd g) (TBool false) ;;
     e_call (engine (FR := FRT) n) rcv TrAdd GtTellHow msg ci false ;; mret tt)%M) (st, V) = (Ok tt, (st', V')) ->
  exists ys, prog W (xs ++ ys) V' /\ Forall2 (copy_of m) ps ys.
Proof.
  induction gs as [|g gs IH]; intros ps xs V st st' V' HK Hr HP HL HN HD HF E.
  - inversion E; subst. inversion HL; subst. exists []. rewrite app_nil_r. split; [assumption|constructor].
  - inversion HL as [|? p ? ps' L1 L2]; subst. inversion HN as [|? ? N1 N2]; subst. cbn in HD. apply NoDup_cons_iff in HD as [D1 D2].
    inversion HF as [|? ? [F1 F2] F3]; subst. apply in_map_iff in F1 as ([h r0] & Er & Hin). cbn in Er. subst r0.
    assert (Hin' : In (h, fst g) (pmap V a)) by (rewrite (pg_map _ _ _ HP); exact Hin).
    cbn [mfor] in E. unfold mbind at 1 in E. unfold mbind at 1 in E.
    destruct (group_text (fst g) (snd g) (TBool false) (st, V)) as [[msg|e] [st1 V1]] eqn:Eg; [|discriminate].
    apply group_text_spec in Eg as (-> & HA & HM); [|eapply (pg_own _ _ _ HP), Hin'|exact N1].
    unfold last_plan in L1. destruct (rev (snd g)) as [|k rk] eqn:Ek; [contradiction|].
    destruct HM as (p' & s & Hp & Hs & ->). rewrite F2, L1 in Hp. injection Hp as <-.
    destruct (prog_list W xs V h (fst g) V1 Hin' HA HP) as [HP1 HG].
    unfold mbind at 1 in E. change (e_call (engine (FR := FRT) n)) with (call (FR := FRT) n) in E.
    destruct (call (FR := FRT) n rcv TrAdd GtTellHow (how_message s []) ci false (st, V1)) as [[b|e] [st2 V2]] eqn:Ec; [|discriminate].
    apply tell_call in Ec as [(q & x & _ & H1 & H2 & H3 & H4 & H5 & H6)|(e & X & _)]; [|discriminate X|apply (pg_own _ _ _ HP1)|rewrite (pg_len _ _ _ HP1); exact Hr].
    pose proof (prog_gain W xs V1 x V2 H3 H4 H5 H6 HP1) as HP2.
    unfold mret at 1 in E. cbn [fst snd] in E.
    apply (IH ps' (xs ++ [x]) V2) in E; try assumption.
    + destruct E as (ys & P & F). exists (x :: ys). split; [now rewrite <- app_assoc in P|]. constructor; [|exact F]. exists s, q. auto.
    + rewrite Forall_forall in F3 |- *. intros g' Hg'. destruct (F3 g' Hg') as [F4 F5]. split; [exact F4|]. rewrite <- F5.
      transitivity (get_plist V1 (fst g')); [|apply HG; intros X; apply D1; rewrite <- X; now apply in_map].
      apply in_map_iff in F4 as ([h' r0] & Er & Hin2). cbn in Er. subst r0. apply (assoc_nodup _ _ _ HK) in Hin2.
      destruct H3 as (_ & G2 & _). specialize (G2 a h' Hne). unfold plans_of in G2. fold (pmap V2 a) in G2. fold (pmap V1 a) in G2.
      rewrite H5 in G2 by congruence. rewrite (pg_map _ _ _ HP1), Hin2 in G2. exact G2.
Qed.
End Asking.

Section Ask.
Context {PY : Py}.
Lemma wanted_groups_spec s W l : forall gs, wanted_groups (TStr s) W l = Ok gs ->
  Forall2 (last_plan W) gs (flat_map (fun gr => last_of (filter (asked_for s) (get_plist W (snd gr)))) l) /\
  Forall (fun g => NoDup (snd g)) gs /\ (NoDup (map snd l) -> NoDup (map fst gs)) /\ (forall r, In r (map fst gs) -> In r (map snd l)).
Proof.
  induction l as [|[g r] l IH]; intros gs E; cbn [wanted_groups] in E; [injection E as <-; split; [constructor|]; split; [constructor|split; auto]|].
  destruct (wanted_in (TStr s) (get_plist W r) 0) as [ks|] eqn:E1; [|discriminate].
  destruct (wanted_groups (TStr s) W l) as [gs'|]; [|discriminate]. destruct (IH gs' eq_refl) as (H1 & H2 & H3 & H4). clear IH.
  apply wanted_last in E1 as [N1 N2]. cbn [flat_map snd map].
  assert (HK : ks <> [] \/ ks = []) by (destruct ks; [right|left]; congruence).
  destruct HK as [HK|HK].
  - assert (gs = (r, ks) :: gs') as -> by (destruct ks; [congruence|now injection E as <-]).
    destruct (rev ks) as [|k rk] eqn:Er; [exfalso; apply HK; rewrite <- (rev_involutive ks), Er; reflexivity|].
    destruct N2 as (p & P1 & ->). split; [|split; [|split]].
    + cbn [app]. constructor; [|exact H1]. unfold last_plan. cbn [fst snd]. now rewrite Er.
    + constructor; assumption.
    + intro HD. apply NoDup_cons_iff in HD as [D1 D2]. cbn [map fst]. constructor; auto.
    + intros q [<-|Hq]; [now left|right; auto].
  - subst ks. injection E as <-. cbn in N2. rewrite N2. split; [exact H1|]. split; [exact H2|]. split; [|intros; right; auto].
    intro HD. apply NoDup_cons_iff in HD as [D1 D2]. auto.
Qed.

Lemma nodup_refs W a : own W -> keyed W -> NoDup (map snd (pmap W a)).
Proof.
  intros [_ [_ S2]] K. specialize (K a). assert (X : forall g h r, In (g, r) (pmap W a) -> In (h, r) (pmap W a) -> g = h) by (intros g h r H1 H2; apply (S2 a a g h r H1 H2)).
  clear S2. induction (pmap W a) as [|[g r] l IH]; cbn in *; [constructor|]. apply NoDup_cons_iff in K as [K1 K2]. constructor.
  - intro Hr. apply in_map_iff in Hr as ([h r'] & Er & Hin). cbn in Er. subst r'. rewrite (X g h r) in K1; [|now left|now right]. apply K1. apply in_map_iff. now exists (h, r).
  - apply IH; [exact K2|]. intros h1 h2 q Hh1 Hh2. apply (X h1 h2 q); now right.
Qed.

Lemma offered_refs s W a : keyed W ->
  flat_map (fun gr => last_of (filter (asked_for s) (get_plist W (snd gr)))) (pmap W a) = offered s a W.
Proof.
  intro K. specialize (K a). unfold offered, plan_groups. fold (pmap W a). rewrite flat_map_concat_map, flat_map_concat_map, map_map. f_equal.
  apply map_ext_in. intros [g r] Hin. unfold plans_of. fold (pmap W a). cbn [fst snd]. now rewrite (assoc_nodup g r _ K Hin).
Qed.

Variable m : nat.
Local Notation FRT := (FrontText m).
Theorem ask_call n a f s more annots ci d st W r st' W' :
  own W -> keyed W -> (forall x, In x (w_env W) -> (snd x < List.length (w_agents W))%nat) ->
  call (FR := FRT) n a TrAdd GtAskHow (TLit f (TStr s :: more) annots) ci d (st, W) = (Ok r, (st', W')) ->
  r = false /\ exists name rcv, asker annots name /\ assoc pystr_eqb name (w_env W) = Some rcv /\ offered s a W <> [] /\
    (rcv <> a -> exists xs, Forall2 (copy_of m) (offered s a W) xs /\ learns rcv xs W W').
Proof.
  intros HO HK HE Ex. apply (meta_call (FR := FRT)) in Ex as (n' & s1 & HN & [(e & He & _)|Ex]); [discriminate He| |reflexivity].
  cbn match in Ex. unfold ask_how in Ex. unfold mbind at 1, lift at 1 in Ex.
  destruct (find_source annots None) as [[name|]|e] eqn:Es; try discriminate Ex.
  unfold mbind at 1, arg at 1 in Ex. cbn [nth_error] in Ex. unfold mret at 1 in Ex.
  unfold mbind at 1, m_world at 1 in Ex. unfold mbind at 1, lift at 1 in Ex.
  destruct (wanted_groups (TStr s) (snd s1) (a_plans (get_agent (snd s1) a))) as [gs|] eqn:Eg; [|discriminate Ex].
  destruct s1 as [st1 V]. cbn [snd] in *.
  apply wanted_groups_spec in Eg as (G1 & G2 & G3 & G4).
  fold (pmap V a) in *.
  assert (HO1 : own V) by (now apply (nudged_own W)).
  assert (HM1 : forall b, pmap V b = pmap W b) by (intro b; unfold pmap; now rewrite (nudged_get _ _ b HN)).
  assert (HK1 : keyed V) by (intro b; rewrite HM1; apply HK).
  rewrite (offered_refs s V a HK1) in G1.
  assert (HP1 : forall b h, plans_of b h V = plans_of b h W).
  { intros b h. unfold plans_of. rewrite (nudged_get _ _ b HN). destruct (assoc _ _ _) as [q|]; [|reflexivity]. now apply nudged_plist. }
  assert (EO : offered s a V = offered s a W).
  { unfold offered, plan_groups. rewrite (nudged_get _ _ a HN). f_equal. apply map_ext. intro gr. apply HP1. }
  rewrite EO in G1.
  assert (Hgs : gs <> []) by (intros ->; destruct more as [|? [|? ?]]; discriminate Ex).
  assert (Ho : offered s a W <> []) by (intro X; rewrite X in G1; inversion G1; congruence).
  apply find_source_spec in Es as [Es|[X _]]; [|discriminate X].
  assert (Ex' : (rcv <- lift (find_receiver (w_env V) (TStr name));;
        with_new (fun ci : nat => mfor gs (fun g => msg <- group_text (fst g) (snd g) (TBool false);; e_call (engine (FR := FRT) n') rcv TrAdd GtTellHow msg ci false;; mret tt));;
        mret false)%M (st1, V) = (Ok r, (st', W'))) by (destruct gs; [congruence|exact Ex]).
  clear Ex. rename Ex' into Ex. unfold mbind at 1, lift at 1 in Ex. cbn [find_receiver] in Ex.
  rewrite (nd_env _ _ HN) in Ex. destruct (assoc pystr_eqb name (w_env W)) as [rcv|] eqn:Er; [|discriminate Ex].
  unfold mbind at 1 in Ex. unfold with_new at 1 in Ex. cbn [snd] in Ex. destruct (new_int V) as [c V1] eqn:Ei.
  destruct (mfor gs _ (bst0, V1)) as [[[]|e] [st2 V2]] eqn:El; [|discriminate Ex].
  cbn [fst snd] in Ex. unfold mret in Ex. inversion Ex; subst; clear Ex. split; [reflexivity|]. exists name, rcv.
  split; [exact Es|]. split; [exact Er|]. split; [exact Ho|]. intro Hne.
  assert (EV1 : V1 = snd (new_int V)) by now rewrite Ei.
  apply (ask_loop m n' a rcv) with (W := V) (ps := offered s a W) (xs := []) in El; try assumption.
  - destruct El as (ys & P & HY). exists ys. split; [exact HY|]. destruct P as [P1 P2 P3 P4 P5 P6 [P7 P7'] P8 P9 P10]. cbn [app] in P1.
    unfold learns. split; [intro h; now rewrite P1, HP1|]. split; [intros c' h Hc; rewrite <- HP1; now apply P2|].
    split. { intros c' g. rewrite P3. unfold beliefs. rewrite (nudged_get _ _ c' HN). unfold get_set. now rewrite (nd_sets _ _ HN). }
    split; [intro c'; rewrite P4; now rewrite (nudged_get _ _ c' HN)|]. split; [intro c'; rewrite P5; now rewrite (nudged_get _ _ c' HN)|].
    split; [rewrite P6; apply (nd_env _ _ HN)|]. destruct (nd_ints _ _ HN) as [L1 L2]. intros i Hi. destruct (P7 i) as [E1|E1]; [lia| |]; destruct (L2 i) as [E2|E2]; rewrite E1, E2; auto.
  - congruence.
  - apply HK1.
  - rewrite (nd_agents _ _ HN). apply (HE (name, rcv)). eapply (assoc_in _ pystr_eqb_eq), Er.
  - subst V1. constructor; try reflexivity.
    + intro h. rewrite app_nil_r. reflexivity.
    + intros b h _. apply same_all_refl.
    + split; [|cbn; rewrite app_length; lia]. intros i Hi. left. unfold get_int. cbn. now rewrite app_nth1.
    + exact HO1.
  - apply G3. now apply nodup_refs.
  - rewrite Forall_forall. intros g Hg. split; [apply G4; now apply in_map|]. subst V1. reflexivity.
Qed.
End Ask.

Lemma env_range {PY : Py} {FR : Front} W : single W -> forall x, In x (w_env W) -> (snd x < List.length (w_agents W))%nat.
Proof.
  intros H. assert (HS : sane (fun _ : plan => True) W) by (apply reach_sane; [exact any_args|exact any_front|now intros|apply single_reach, H]).
  destruct HS as (_ & [_ HE] & _). exact HE.
Qed.
