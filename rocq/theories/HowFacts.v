(** unachieve, tellHow and untellHow *)
From Verif Require Import Base Num Term Unify TermSpec InstSpec Str World Engine Step Ast Names Build QuerySpec BelSpec PlanSpec Reach StepSpec MildSpec MsgSpec HowSpec.
From Verif Require Import PyEq FuelFacts Effects EffFacts ReachFacts BelFacts BelAdd OwnFacts QueryBase EventFacts MildFacts MsgFacts MsgCor.

(** Only intentions stop waiting, and variables are taken. *)
Record nudged {PY : Py} (W W' : world) : Prop := mknudged {
  nd_agents : w_agents W' = w_agents W;
  nd_sets : w_sets W' = w_sets W;
  nd_plists : w_plists W' = w_plists W;
  nd_env : w_env W' = w_env W;
  nd_ints : waits_aside W W'
}.

Section WithPy.
Context {PY : Py} {FR : Front}.

Lemma waits_refl W W' : w_ints W' = w_ints W -> waits_aside W W'.
Proof. intro E. unfold waits_aside, get_int. rewrite E. auto. Qed.
Lemma waits_trans W1 W2 W3 : waits_aside W1 W2 -> waits_aside W2 W3 -> waits_aside W1 W3.
Proof.
  intros [L1 H1] [L2 H2]. split; [congruence|]. intro i.
  destruct (H1 i) as [E1|E1], (H2 i) as [E2|E2]; rewrite E2, E1; auto.
Qed.
Lemma nudged_refl W : nudged W W.
Proof. constructor; auto. now apply waits_refl. Qed.
Lemma nudged_trans W1 W2 W3 : nudged W1 W2 -> nudged W2 W3 -> nudged W1 W3.
Proof. intros [] []. constructor; try congruence. eapply waits_trans; eassumption. Qed.
Lemma nudged_calm a W W' : nudged W W' -> calm a W W'.
Proof. intros []. now apply calm_core. Qed.
Lemma nudged_get W W' b : nudged W W' -> get_agent W' b = get_agent W b.
Proof. intros []. unfold get_agent. now rewrite nd_agents0. Qed.
Lemma nudged_plist W W' b : nudged W W' -> get_plist W' b = get_plist W b.
Proof. intros []. unfold get_plist. now rewrite nd_plists0. Qed.

Lemma put_int_waits W i : waits_aside W (put_int W i (set_i_wait (get_int W i) None)).
Proof.
  split; [apply upd_length|]. intro j. unfold get_int, put_int. cbn. destruct (Nat.eq_dec i j) as [<-|N].
  - destruct (Nat.lt_ge_cases i (List.length (w_ints W))).
    + rewrite upd_same by assumption. auto.
    + rewrite upd_over by assumption. auto.
  - rewrite upd_other by congruence. auto.
Qed.
Lemma wake_nudges n tr gt fz stacks : forall s r s', wake n tr gt fz stacks s = (r, s') -> nudged (snd s) (snd s').
Proof.
  induction stacks as [|[|i rest] ss IH]; intros s r s' E; cbn [wake] in E.
  - inversion E; subst. apply nudged_refl.
  - eapply IH; exact E.
  - unfold mbind in E. cbn [m_world] in E. unfold lift in E.
    destruct (wakes n tr gt fz (get_int (snd s) i)) as [[]|e] eqn:Ew.
    + unfold put_world in E. apply IH in E. eapply nudged_trans; [|exact E]. constructor; try reflexivity. apply put_int_waits.
    + unfold mret in E. eapply IH; exact E.
    + inversion E; subst. apply nudged_refl.
Qed.

(** Events that are not handled by plans: what happens before. *)
Lemma meta_event n a tr gt t ci d s r s' : plan_event tr gt = false -> call_event (engine n) n a tr gt t ci d s = (r, s') ->
  exists s1, nudged (snd s) (snd s1) /\
    ((exists e, r = Err e /\ s' = s1) \/
     match gt, tr with
     | GtAchieve, TrRem => (unachieve n a t ;; mret true)%M s1 = (r, s')
     | GtTellHow, TrAdd => (tell_how a t ;; mret true)%M s1 = (r, s')
     | GtAskHow, TrAdd => ask_how (engine n) a t s1 = (r, s')
     | GtTellHow, TrRem => (untell_how a t ;; mret true)%M s1 = (r, s')
     | _, _ => True
     end).
Proof.
  intros HE Ex. unfold call_event in Ex. unfold mbind at 1 in Ex.
  assert (HF : nudged (snd s) (snd (snd (m_freeze n t [] s)))).
  { unfold m_freeze. destruct (freeze _ _ _ _) as [[f|e] [m k]]; constructor; try reflexivity; now apply waits_refl. }
  destruct (m_freeze n t [] s) as [[fm|e] s1] eqn:Ef; cbn [snd] in HF; [|inversion Ex; subst; eexists; split; [exact HF|left; eauto]].
  destruct (fst fm) as [| | | | | | |f args annots| |] eqn:Efm; try (solve [inversion Ex; subst; eexists; split; [exact HF|left; eauto]]).
  cbv zeta in Ex. unfold mbind at 1 in Ex. cbn [m_world] in Ex. unfold mbind at 1 in Ex.
  destruct (wake n tr gt _ _ s1) as [[u|e] s2] eqn:Ew; apply wake_nudges in Ew; (exists s2; split; [eapply nudged_trans; [exact HF|exact Ew]|]).
  - right. destruct gt, tr; try discriminate HE; try exact I; exact Ex.
  - left. inversion Ex; subst. eauto.
Qed.
Lemma meta_call n a tr gt t ci d st W r st' W' : plan_event tr gt = false -> call n a tr gt t ci d (st, W) = (r, (st', W')) ->
  exists n' s1, nudged W (snd s1) /\
    ((exists e, r = Err e /\ (st', W') = s1) \/
     match gt, tr with
     | GtAchieve, TrRem => (unachieve n' a t ;; mret true)%M s1 = (r, (st', W'))
     | GtTellHow, TrAdd => (tell_how a t ;; mret true)%M s1 = (r, (st', W'))
     | GtAskHow, TrAdd => ask_how (engine n') a t s1 = (r, (st', W'))
     | GtTellHow, TrRem => (untell_how a t ;; mret true)%M s1 = (r, (st', W'))
     | _, _ => True
     end).
Proof.
  intros HE Ex. destruct n as [|n].
  { inversion Ex; subst. exists 0%nat, (st', W'). split; [apply nudged_refl|]. left. eauto. }
  change (call_body (engine n) n a tr gt t ci d (st, W) = (r, (st', W'))) in Ex. unfold call_body in Ex. exists n.
  apply (meta_event n a tr gt t ci d (st, W)); [exact HE|]. destruct gt; try exact Ex. discriminate HE.
Qed.

(** ** unachieve *)
Lemma unachieve_loop_spec n W f args stacks l : unachieve_loop n W f args stacks = (Ok tt, l) -> Forall2 (pruned W f args) stacks l.
Proof.
  revert l. induction stacks as [|[|i rest] ss IH]; intros l E; cbn [unachieve_loop] in E.
  - inversion E; subst. constructor.
  - destruct (unachieve_loop n W f args ss) as [r l'] eqn:El. inversion E; subst. constructor; [reflexivity|auto].
  - destruct (i_head (get_int W i)) as [h|] eqn:Eh; [|discriminate].
    destruct h as [| | | | | | |hf hargs ha| |]; try discriminate.
    destruct (pystr_eqb hf f) eqn:Ef.
    + apply pystr_eqb_eq in Ef. subst hf. destruct (unifies n (TTup args) (TTup hargs)) as [b|] eqn:Eu; [|discriminate].
      destruct (unachieve_loop n W f args ss) as [r l'] eqn:El. inversion E; subst. constructor; [|auto]. destruct b; cbn.
      * left. split; [|reflexivity]. exists hargs, ha, n. auto.
      * right. split; [|reflexivity]. exists f, hargs, ha. eauto.
    + destruct (unachieve_loop n W f args ss) as [r l'] eqn:El. inversion E; subst. constructor; [|auto]. right. split; [|reflexivity].
      exists hf, hargs, ha. split; [exact Eh|]. left. intros ->. rewrite pystr_eqb_refl in Ef. discriminate.
Qed.
Lemma waits_head W W' i : waits_aside W W' -> i_head (get_int W' i) = i_head (get_int W i).
Proof. intros [_ H]. destruct (H i) as [-> | ->]; reflexivity. Qed.
Lemma pruned_waits W W' f args old new : waits_aside W W' -> pruned W' f args old new -> pruned W f args old new.
Proof.
  intros HW. destruct old as [|i rest]; [auto|]. cbn. intros [[(h & an & k & H1 & H2) H3]|[(hf & h & an & H1 & H2) H3]]; rewrite (waits_head W W') in H1 by exact HW.
  - left. split; [exists h, an, k; auto|exact H3].
  - right. split; [exists hf, h, an; auto|exact H3].
Qed.

Theorem unachieve_drops n a f args annots ci d st W r st' W' : (a < List.length (w_agents W))%nat ->
  call n a TrRem GtAchieve (TLit f args annots) ci d (st, W) = (Ok r, (st', W')) ->
  r = true /\ Forall2 (pruned W f args) (a_ints (get_agent W a)) (a_ints (get_agent W' a)) /\
  calm a W W' /\ waits_aside W W'.
Proof.
  intros Ha Ex. apply meta_call in Ex as (n' & s1 & HN & [(e & He & _)|Ex]); [discriminate He| |reflexivity].
  unfold mbind at 1, unachieve in Ex. unfold mbind at 1, m_world at 1 in Ex. cbn [fst snd] in Ex.
  destruct (unachieve_loop n' (snd s1) f args (a_ints (get_agent (snd s1) a))) as [x l] eqn:El.
  unfold mbind, put_world, lift in Ex. destruct x as [[]|e]; [|discriminate Ex]. inversion Ex; subst. clear Ex.
  apply unachieve_loop_spec in El. split; [reflexivity|]. rewrite (nudged_get _ _ a HN) in El. split; [|split].
  - rewrite get_put, Nat.eqb_refl. rewrite (nd_agents _ _ HN). destruct (Nat.ltb_spec a (List.length (w_agents W))); [|lia]. cbn [a_ints set_a_ints].
    clear -El HN. induction El as [|x y xs ys Hxy _ IH]; constructor; [|exact IH]. eapply pruned_waits; [apply HN|exact Hxy].
  - eapply calm_trans; [apply nudged_calm, HN|apply calm_stacks].
  - eapply waits_trans; [apply HN|]. now apply waits_refl.
Qed.

(** ** untellHow *)
Lemma untell_loop (K : plan -> bool) l : forall s r s',
  mfor l (fun gr : pgroup * nat => on_world (fun W => (tt, set_plists W (upd (w_plists W) (snd gr) (filter K (get_plist W (snd gr))))))) s = (r, s') ->
  r = Ok tt /\ fst s' = fst s /\ (exists pl, snd s' = set_plists (snd s) pl /\ List.length pl = List.length (w_plists (snd s))) /\
  forall x, get_plist (snd s') x = if existsb (fun gr => Nat.eqb (snd gr) x) l then filter K (get_plist (snd s) x) else get_plist (snd s) x.
Proof.
  assert (FF : forall l0 : list plan, filter K (filter K l0) = filter K l0).
  { induction l0 as [|y l0 IH]; cbn; [reflexivity|]. destruct (K y) eqn:E; cbn; [rewrite E; now f_equal|exact IH]. }
  induction l as [|[g r0] l IH]; intros s r s' E; cbn [mfor] in E.
  - inversion E; subst. split; [reflexivity|]. split; [reflexivity|]. split; [exists (w_plists (snd s')); now destruct (snd s')|auto].
  - unfold mbind at 1, on_world at 1 in E. cbn [fst snd] in E.
    apply IH in E as (-> & E2 & (pl & E3 & EL) & E4). cbn [fst snd] in *. split; [reflexivity|]. split; [exact E2|]. split.
    { exists pl. rewrite E3. split; [reflexivity|]. rewrite EL. apply upd_length. }
    intro x. rewrite E4. cbn [existsb snd].
    assert (EG : get_plist (set_plists (snd s) (upd (w_plists (snd s)) r0 (filter K (get_plist (snd s) r0)))) x =
      if Nat.eqb r0 x then filter K (get_plist (snd s) x) else get_plist (snd s) x).
    { unfold get_plist at 1. cbn. destruct (Nat.eqb_spec r0 x) as [->|N].
      - destruct (Nat.lt_ge_cases x (List.length (w_plists (snd s)))).
        + now rewrite upd_same.
        + rewrite upd_over by assumption. unfold get_plist. now rewrite nth_overflow by assumption.
      - rewrite upd_other by congruence. reflexivity. }
    rewrite EG. destruct (Nat.eqb r0 x); cbn [orb]; [|reflexivity]. destruct (existsb _ l); [apply FF|reflexivity].
Qed.
Lemma assoc_existsb g (l : list (pgroup * nat)) r : assoc pgroup_eqb g l = Some r -> existsb (fun gr => Nat.eqb (snd gr) r) l = true.
Proof.
  induction l as [|[k v] l IH]; cbn; [discriminate|]. destruct (pgroup_eqb g k); [intro H; inversion H; subst; now rewrite Nat.eqb_refl|].
  intro H. rewrite IH by exact H. apply orb_true_r.
Qed.
Lemma untell_keep_labelled s p : untell_keep (TStr s) p = negb (labelled s p).
Proof.
  unfold untell_keep, labelled. destruct (p_label p); [|reflexivity]. f_equal.
  destruct (pystr_eqb s (64%N :: p0)) eqn:E.
  - apply pystr_eqb_eq in E. subst. apply pystr_eqb_refl.
  - destruct (pystr_eqb (64%N :: p0) s) eqn:E'; [|reflexivity]. apply pystr_eqb_eq in E'. subst. now rewrite pystr_eqb_refl in E.
Qed.

Theorem untell_removes n a f s more annots ci d st W r st' W' :
  call n a TrRem GtTellHow (TLit f (TStr s :: more) annots) ci d (st, W) = (Ok r, (st', W')) ->
  r = true /\ (forall h, plans_of a h W' = filter (fun p => negb (labelled s p)) (plans_of a h W)) /\
  (forall b g, beliefs b g W' = beliefs b g W) /\ (forall b, a_rules (get_agent W' b) = a_rules (get_agent W b)) /\
  (forall b, a_ints (get_agent W' b) = a_ints (get_agent W b)) /\ waits_aside W W' /\
  (own W -> forall b h, b <> a -> plans_of b h W' = plans_of b h W).
Proof.
  intro Ex. apply meta_call in Ex as (n' & s1 & HN & [(e & He & _)|Ex]); [discriminate He| |reflexivity].
  unfold mbind at 1, untell_how in Ex. cbn [lit_args] in Ex. unfold mbind at 1, lift at 1 in Ex. unfold mbind at 1, arg in Ex. cbn [nth_error] in Ex.
  unfold mret at 1 in Ex. unfold mbind at 1, m_world at 1 in Ex.
  destruct (mfor _ _ s1) as [x s2] eqn:El. apply untell_loop in El as (-> & E1 & (pl & E2 & EL) & E3). inversion Ex; subst r. subst s2. cbn [fst snd] in *. clear Ex.
  assert (EA : forall b, get_agent W' b = get_agent W b).
  { intro b. rewrite E2. change (get_agent (set_plists (snd s1) pl) b) with (get_agent (snd s1) b). exact (nudged_get _ _ b HN). }
  split; [reflexivity|]. split; [|split; [|split; [|split; [|split]]]].
  - intro h. unfold plans_of. rewrite EA. destruct (assoc pgroup_eqb h (a_plans (get_agent W a))) as [x|] eqn:Ea; [|reflexivity].
    rewrite E3, (nudged_get _ _ a HN), (assoc_existsb h _ x Ea), (nudged_plist _ _ x HN).
    apply filter_ext. intro p. apply untell_keep_labelled.
  - intros b g. unfold beliefs. rewrite EA. destruct (assoc group_eqb g (a_bel (get_agent W b))); [|reflexivity].
    rewrite E2. unfold get_set. cbn. now rewrite (nd_sets _ _ HN).
  - intro b. now rewrite EA.
  - intro b. now rewrite EA.
  - eapply waits_trans; [apply HN|]. rewrite E2. now apply waits_refl.
  - intros [_ [_ HS]] b h N. unfold plans_of. rewrite EA. destruct (assoc pgroup_eqb h (a_plans (get_agent W b))) as [x|] eqn:Ea; [|reflexivity].
    rewrite E3, (nudged_get _ _ a HN), (nudged_plist _ _ x HN). destruct (existsb _ _) eqn:Ee; [|reflexivity]. exfalso.
    apply existsb_exists in Ee as ([g y] & Hin & Hy). cbn in Hy. apply Nat.eqb_eq in Hy. subst y.
    apply (assoc_in _ pgroup_eqb_eq) in Ea. destruct (HS b a h g x Ea Hin). contradiction.
Qed.
End WithPy.
