(** Messages reach their receivers and nobody else. *)
From Coq Require Import Permutation.
From Verif Require Import Base Num Term Unify TermSpec InstSpec Str World Engine Step Ast Names Build QuerySpec BelSpec PlanSpec Reach StepSpec MildSpec MsgSpec.
From Verif Require Import PyEq FreezeFacts Effects EffFacts ReachFacts BelFacts BelAdd OwnFacts QueryBase EventFacts MildFacts.

Notation Anyp := (fun _ : plan => True).

(** Rules, plans, names and registered agents are the same; beliefs and stacks of
    all but [a]. *)
Record steady (a : nat) (W W' : world) : Prop := mksteady {
  sy_rules : forall b, a_rules (get_agent W' b) = a_rules (get_agent W b);
  sy_plans : forall b h, plans_of b h W' = plans_of b h W;
  sy_name : forall b, a_name (get_agent W' b) = a_name (get_agent W b);
  sy_env : w_env W' = w_env W;
  sy_count : List.length (w_agents W') = List.length (w_agents W);
  sy_ints : forall b, b <> a -> a_ints (get_agent W' b) = a_ints (get_agent W b);
  sy_bel : others a W W'
}.
Lemma steady_refl a W : steady a W W.
Proof. constructor; auto. now intros ? ? ?. Qed.
Lemma steady_trans a W1 W2 W3 : steady a W1 W2 -> steady a W2 W3 -> steady a W1 W3.
Proof.
  intros [A1 A2 A3 A4 A5 A6 A7] [B1 B2 B3 B4 B5 B6 B7]. constructor;
    [intro; now rewrite B1|intros; now rewrite B2|intro; now rewrite B3|congruence|congruence|intros; rewrite B6; auto|eapply others_trans; eassumption].
Qed.
Lemma calm_steady a W W' : calm a W W' -> steady a W W'.
Proof.
  intros [[H1 H2 H3 H4] H5 H6 H7 H8]. constructor; auto. intros b g N. apply H1.
Qed.
Lemma steady_mild a W W' : steady a W W' -> mild_world W -> mild_world W'.
Proof.
  intros H M b. destruct (M b) as [H1 H2]. split.
  - intro g. rewrite (rules_of_eq b W W') by apply (sy_rules _ _ _ H). apply H1.
  - intro h. rewrite (sy_plans _ _ _ H). apply H2.
Qed.
Lemma steady_alone a W W' : steady a W W' -> forall b, b <> a -> alone b W W'.
Proof. intros H b N. constructor; intros; try apply H; auto. Qed.
Lemma alone_refl b W : alone b W W.
Proof. now constructor. Qed.
Lemma alone_trans b W1 W2 W3 : alone b W1 W2 -> alone b W2 W3 -> alone b W1 W3.
Proof. intros [] []. constructor; intros; congruence. Qed.

Section WithPy.
Context {PY : Py} {FR : Front}.

Definition gw (W : world) : Prop := geffs Anyp false world0 W.
Lemma gw_own W : gw W -> own W.
Proof. intro H. apply (geffs_ind_inv _ _ own _ _ (geff_own _) H). apply own0. Qed.
Lemma geff_flag W W' : geff Anyp false W W' -> geff Anyp true W W'.
Proof. intro H. destruct H; try discriminate; econstructor; eassumption. Qed.
Lemma gw_bel (L : PyLawful PY) W : gw W -> exists ty, bel_inv ty W.
Proof.
  intro H. apply (geffs_ind_inv Anyp false (fun W => exists ty, bel_inv ty W) _ _) in H; [exact H| |eexists; apply bel_inv0].
  intros A B HG. apply geff_bel; [exact L|]. now apply geff_flag.
Qed.
Lemma gw_sane W : gw W -> sane Anyp W.
Proof. intro H. eapply geffs_sane; [|exact H|apply sane0]; auto. Qed.
Lemma at_work_gw W : at_work W -> gw W.
Proof.
  intros (W0 & HS & HW). assert (H0 : gw W0) by (apply single_geffs; auto). destruct HW as [-> |(a & i & Ha & rd & Hrd & HW)]; [exact H0|].
  cbv zeta in HW. set (W1 := put_agent _ _ _) in HW.
  assert (H1 : gw W1).
  { eapply geffs_snoc; [exact H0|]. apply g_ints. clear. induction (a_ints (get_agent W0 a)) as [|[|x l] r IH]; cbn; auto using sub_refl. }
  assert (H2 : gw (set_reads W1 rd)). { eapply geffs_snoc; [exact H1|]. eapply (g_eff _ _ _ 0%nat 0%nat). apply ef_reads. exact Hrd. }
  destruct (i_wait (get_int W0 i)); subst W; [|exact H2]. eapply geffs_snoc; [exact H2|]. apply g_int.
Qed.
Lemma gw_call n a tr gt t ci d st W r st' W' : gw W -> (a < List.length (w_agents W))%nat ->
  call n a tr gt t ci d (st, W) = (r, (st', W')) -> gw W'.
Proof.
  intros HG Ha E. eapply geffs_app; [exact HG|]. eapply effs_geffs.
  destruct (engine_does Anyp (fun _ _ _ => I) (fun _ _ _ _ _ => I) (List.length (w_agents W)) n (List.length (w_ints W))) as (_ & HC & _).
  apply (HC a _ _ _ _ _ Ha) in E; [exact E|]. apply sane_ready, gw_sane, HG.
Qed.

Lemma steady_belref a g W : steady a W (snd (bel_ref a g W)).
Proof.
  apply calm_steady, calm_unchanged. destruct (bel_ref a g W) as [r W1] eqn:E. eapply QueryBase.bel_ref_spec, E.
Qed.
Lemma steady_sets a W s : others a W (set_sets W s) -> steady a W (set_sets W s).
Proof. intro H. now constructor. Qed.

Lemma add_steady n a t st W r st' W' : own W -> (a < List.length (w_agents W))%nat ->
  add_belief n a t (st, W) = (r, (st', W')) -> steady a W W'.
Proof.
  intros HS Ha E. unfold add_belief in E. destruct (has_grounded t); [|inversion E; subst; apply steady_refl].
  unfold mbind, m_grounded in E. cbn [fst snd] in E. destruct (grounded n t (b_scope st)) as [v|]; [|inversion E; subst; apply steady_refl].
  destruct v as [| | | | | | |f args annots| |]; try (inversion E; subst; apply steady_refl).
  unfold on_world in E. cbn [fst snd] in E. pose proof (steady_belref a (f, List.length args) W) as H1.
  pose proof (belref_has a (f, List.length args) W Ha) as H2. pose proof (belref_maps a (f, List.length args) W HS) as H3.
  destruct (bel_ref a (f, List.length args) W) as [r0 W1]. cbn [fst snd] in *. inversion E; subst.
  eapply steady_trans; [exact H1|]. apply steady_sets. eapply others_upd; eassumption.
Qed.
Lemma remove_steady n a t st W r st' W' : own W -> (a < List.length (w_agents W))%nat ->
  remove_belief n a t (st, W) = (r, (st', W')) -> steady a W W'.
Proof.
  intros HS Ha E. unfold remove_belief in E.
  unfold mbind at 1, m_evaluate in E. cbn [fst snd] in E. destruct (evaluate n t (b_scope st)) as [v|]; [|inversion E; subst; apply steady_refl].
  destruct v as [| | | | | | |f args annots| |]; try (inversion E; subst; apply steady_refl).
  unfold mbind, m_new_cp, on_world, on_st, m_world in E. cbn [new_cp fst snd] in E. pose proof (steady_belref a (f, List.length args) W) as H1.
  pose proof (belref_has a (f, List.length args) W Ha) as H2. pose proof (belref_maps a (f, List.length args) W HS) as H3.
  destruct (bel_ref a (f, List.length args) W) as [r0 W1]. cbn [fst snd] in *.
  destruct (rem_loop _ _ _ _ _ _) as [[[k|]|e] st2]; cbn [fst snd] in E; inversion E; subst; try exact H1.
  eapply steady_trans; [exact H1|]. apply steady_sets. eapply others_upd; eassumption.
Qed.

(** An event that is handled by plans. *)
Lemma call_steady n a tr gt t ci d st W r st' W' : own W -> mild_world W -> (a < List.length (w_agents W))%nat ->
  plan_event tr gt = true -> call n a tr gt t ci d (st, W) = (r, (st', W')) -> steady a W W'.
Proof.
  intros HO HM Ha HE Ex. destruct n as [|n]; [inversion Ex; subst; apply steady_refl|].
  change (call_body (engine n) n a tr gt t ci d (st, W) = (r, (st', W'))) in Ex. unfold call_body in Ex.
  assert (HC : forall s, mild_world (snd s) -> call_event (engine n) n a tr gt t ci d s = (r, (st', W')) -> steady a (snd s) W').
  { intros s HM' E'. apply calm_steady. change W' with (snd (st', W')). eapply calm_event; eassumption. }
  destruct gt; try (now apply (HC (st, W))). unfold mbind in Ex. destruct tr.
  - destruct (add_belief n a t (st, W)) as [[[]|e] [st1 W1]] eqn:E1; apply add_steady in E1; auto; [|inversion Ex; subst; exact E1].
    eapply steady_trans; [exact E1|]. apply (HC (st1, W1)); [|exact Ex]. eapply steady_mild; eassumption.
  - destruct (remove_belief n a t (st, W)) as [[[]|e] [st1 W1]] eqn:E1; apply remove_steady in E1; auto; try (inversion Ex; subst; exact E1).
    eapply steady_trans; [exact E1|]. apply (HC (st1, W1)); [|exact Ex]. eapply steady_mild; eassumption.
Qed.

(** What telling does. *)
Lemma call_tell (L : PyLawful PY) n a t ci d W r st' W' : gw W -> mild_world W -> (a < List.length (w_agents W))%nat ->
  call (S n) a TrAdd GtBelief t ci d (bst0, W) = (Ok r, (st', W')) ->
  exists b, grounded n t [] = Ok b /\ is_literal b = true /\
    adds b (beliefs a (lit_group b) W) (beliefs a (lit_group b) W') /\
    (forall h, h <> lit_group b -> beliefs a h W' = beliefs a h W).
Proof.
  intros HG HM Ha Ex. change (call_body (engine n) n a TrAdd GtBelief t ci d (bst0, W) = (Ok r, (st', W'))) in Ex. unfold call_body in Ex.
  unfold mbind in Ex. destruct (add_belief n a t (bst0, W)) as [[[]|e] [st1 W1]] eqn:E1; [|discriminate Ex].
  assert (HS := add_steady _ _ _ _ _ _ _ _ (gw_own _ HG) Ha E1).
  destruct (gw_bel L W HG) as [ty HI].
  destruct (add_belief_inv L ty _ _ _ _ _ _ _ HI Ha E1) as (-> & f & args & annots & A & B & C & _). cbv zeta in *.
  exists (TLit f args annots). split; [exact A|]. split; [reflexivity|].
  apply calm_event in Ex; [|eapply steady_mild; eassumption|reflexivity]. cbn [snd] in Ex.
  assert (EB := sm_bel _ _ (kp_minds _ _ _ Ex)). split.
  - unfold adds. rewrite EB. exact B.
  - intros h Hh. rewrite EB. now apply C.
Qed.

(** ** Delivery *)
Lemma with_new_inv {A} (k : nat -> M A) st W r s' : with_new k (st, W) = (r, s') ->
  exists s2, k (List.length (w_ints W)) (bst0, set_ints W (w_ints W ++ [int0])) = (r, s2) /\ s' = (st, snd s2).
Proof.
  unfold with_new. cbn [new_int fst snd]. unfold new_int. destruct (k _ _) as [x s2] eqn:E. intro H. inversion H; subst. eauto.
Qed.
Lemma gw_new W : gw W -> gw (set_ints W (w_ints W ++ [int0])).
Proof. intro H. eapply geffs_snoc; [exact H|]. eapply (g_eff _ _ _ 0%nat 0%nat). apply ef_new. Qed.

Lemma deliver_steps n c rs tr gt msg st W r st' W' : deliver (engine n) (c :: rs) tr gt msg (st, W) = (r, (st', W')) ->
  exists x st1 W1, call n c tr gt msg (List.length (w_ints W)) false (bst0, set_ints W (w_ints W ++ [int0])) = (x, (st1, W1)) /\
    match x with
    | Ok _ => deliver (engine n) rs tr gt msg (st, W1) = (r, (st', W'))
    | Err e => r = Err e /\ st' = st /\ W' = W1
    end.
Proof.
  unfold deliver. cbn [mfor]. unfold mbind at 1 2. destruct (with_new _ (st, W)) as [x s1] eqn:E.
  apply with_new_inv in E as ([st2 W2] & E & ->). intro H. exists x, st2, W2. split; [exact E|]. cbn [snd] in H.
  destruct x; [exact H|]. inversion H; subst. auto.
Qed.

(** Nobody else is affected by events that are handled by plans. *)
Lemma deliver_steady n rs tr gt msg : plan_event tr gt = true -> forall st W r st' W', gw W -> mild_world W ->
  Forall (fun c => (c < List.length (w_agents W))%nat) rs ->
  deliver (engine n) rs tr gt msg (st, W) = (r, (st', W')) ->
  (forall b, a_rules (get_agent W' b) = a_rules (get_agent W b)) /\ (forall b h, plans_of b h W' = plans_of b h W) /\
  (forall b, ~ In b rs -> alone b W W').
Proof.
  intro HE. induction rs as [|c rs IH]; intros st W r st' W' HG HM HF Ex.
  - inversion Ex; subst. repeat split; auto.
  - apply deliver_steps in Ex as (x & st1 & W1 & E1 & Ex). inversion HF as [|? ? Hc HF']; subst.
    set (W0 := set_ints W (w_ints W ++ [int0])) in *. assert (HG0 := gw_new _ HG).
    assert (HS := call_steady _ _ _ _ _ _ _ _ _ _ _ _ (gw_own _ HG0) (HM : mild_world W0) Hc HE E1).
    assert (HG1 := gw_call _ _ _ _ _ _ _ _ _ _ _ _ HG0 Hc E1).
    assert (HS1 : (forall b, a_rules (get_agent W1 b) = a_rules (get_agent W b)) /\ (forall b h, plans_of b h W1 = plans_of b h W) /\
      forall b, b <> c -> alone b W W1).
    { split; [exact (sy_rules _ _ _ HS)|]. split; [exact (sy_plans _ _ _ HS)|]. intros b Hb. apply (alone_trans b W W0 W1); [now constructor|exact (steady_alone _ _ _ HS b Hb)]. }
    destruct HS1 as (R1 & P1 & A1). destruct x as [x|e].
    + assert (HF1 : Forall (fun c => (c < List.length (w_agents W1))%nat) rs) by (rewrite (sy_count _ _ _ HS); exact HF').
      destruct (IH _ _ _ _ _ HG1 (steady_mild _ _ _ HS HM) HF1 Ex) as (R2 & P2 & A2).
      split; [intro b; now rewrite R2|]. split; [intros b h; now rewrite P2|]. intros b Hb.
      eapply alone_trans; [apply A1|apply A2]; intro X; apply Hb; [left; auto|now right].
    + destruct Ex as (-> & -> & ->). split; [exact R1|]. split; [exact P1|]. intros b Hb. apply A1. intros ->. apply Hb. now left.
Qed.

Lemma group_eqb_false g h : g <> h -> group_eqb g h = false.
Proof. intro N. destruct (group_eqb g h) eqn:E; [|reflexivity]. apply group_eqb_eq in E. contradiction. Qed.
Lemma spread_cons b c rs W W1 W2 :
  adds b (beliefs c (lit_group b) W) (beliefs c (lit_group b) W1) ->
  (forall h, h <> lit_group b -> beliefs c h W1 = beliefs c h W) ->
  (forall c' h, c' <> c -> beliefs c' h W1 = beliefs c' h W) ->
  spread b rs W1 W2 -> spread b (c :: rs) W W2.
Proof.
  intros H1 H2 H3 HS c' h. specialize (HS c' h). cbn [count_occ]. destruct (group_eqb h (lit_group b)) eqn:Eg.
  - apply group_eqb_eq in Eg. subst h. destruct (Nat.eq_dec c c') as [<-|N].
    + cbn. eauto.
    + now rewrite H3 in HS by auto.
  - cbn in *. rewrite HS. destruct (Nat.eq_dec c c') as [<-|N]; [apply H2; intros ->; now rewrite group_eqb_refl in Eg|apply H3; auto].
Qed.
Lemma spread_nil b W W' : (forall c h, beliefs c h W' = beliefs c h W) -> spread b [] W W'.
Proof. intros H c h. cbn. destruct (group_eqb _ _); apply H. Qed.

Lemma deliver_tell (L : PyLawful PY) n rs msg : forall st W r st' W', gw W -> mild_world W ->
  Forall (fun c => (c < List.length (w_agents W))%nat) rs ->
  deliver (engine (S n)) rs TrAdd GtBelief msg (st, W) = (Ok r, (st', W')) ->
  match rs with
  | [] => forall b, spread b rs W W'
  | _ => exists b, grounded n msg [] = Ok b /\ is_literal b = true /\ spread b rs W W'
  end.
Proof.
  induction rs as [|c rs IH]; intros st W r st' W' HG HM HF Ex.
  - inversion Ex; subst. intro b. now apply spread_nil.
  - apply deliver_steps in Ex as (x & st1 & W1 & E1 & Ex). inversion HF as [|? ? Hc HF']; subst.
    destruct x as [x|e]; [|destruct Ex; discriminate].
    set (W0 := set_ints W (w_ints W ++ [int0])) in *. assert (HG0 := gw_new _ HG).
    assert (HS := call_steady _ _ TrAdd GtBelief _ _ _ _ _ _ _ _ (gw_own _ HG0) (HM : mild_world W0) Hc eq_refl E1).
    assert (HG1 := gw_call _ _ _ _ _ _ _ _ _ _ _ _ HG0 Hc E1).
    destruct (call_tell L _ _ _ _ _ _ _ _ _ HG0 (HM : mild_world W0) Hc E1) as (b & B1 & B2 & B3 & B4).
    exists b. split; [exact B1|]. split; [exact B2|].
    eapply spread_cons; [exact B3|exact B4|intros c' h N; exact (sy_bel _ _ _ HS c' h N)|].
    assert (HF1 : Forall (fun c => (c < List.length (w_agents W1))%nat) rs) by (rewrite (sy_count _ _ _ HS); exact HF').
    specialize (IH _ _ _ _ _ HG1 (steady_mild _ _ _ HS HM) HF1 Ex).
    destruct rs; [apply IH|]. destruct IH as (b' & B1' & _ & HS'). replace b with b' by congruence. exact HS'.
Qed.
End WithPy.
