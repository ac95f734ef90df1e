(** The registered agents: only building registers, and names stay unique. *)
From Verif Require Import Base Num Term Unify TermSpec Str World Engine Effects EffFacts Step Ast Names NamesFacts Build QuerySpec PlanSpec LoadSpec Reach ReachFacts StepSpec StepFacts NestFacts BelFacts OwnFacts LoadFacts.

Section WithPy.
Context {PY : Py} {FR : Front}.
Notation Any := (fun _ : plan => True).

Lemma exec_env n a i op st W r st' W' : sane Any W -> (a < List.length (w_agents W))%nat ->
  exec_op n a i op (st, W) = (r, (st', W')) -> w_env W' = w_env W /\ List.length (w_agents W') = List.length (w_agents W).
Proof.
  intros HS Ha E. destruct op; cbn [exec_op] in E.
  - inversion E; subst. now split.
  - destruct (engine_does Any any_args any_front (List.length (w_agents W)) n (List.length (w_ints W))) as (_ & HC & _).
    apply (HC a _ _ _ _ _ Ha) in E; [|now apply sane_ready]. split; [exact (effs_env Any _ _ _ _ E)|exact (effs_agents Any _ _ _ _ E)].
  - inversion E; subst. now split.
  - unfold next_or_fail in E. cbn [snd fst] in E. destruct (i_qs (get_int W i)) as [|g gs]; [inversion E; subst; now split|].
    destruct (resume n a i g (st, W)) as [z [st2 W2]] eqn:Er.
    destruct (engine_does Any any_args any_front (List.length (w_agents W)) n (List.length (w_ints W))) as (HC & _ & _).
    apply (HC a _ _ Ha) in Er; [|now apply sane_ready]. cbn [snd] in Er. pose proof (effs_env Any _ _ _ _ Er) as H1. pose proof (effs_agents Any _ _ _ _ Er) as H2.
    destruct z as [[g'|]|e]; inversion E; subst; split; assumption.
  - unfold mbind in E. cbn [m_world snd] in E. destruct (i_qs (get_int W i)) as [|g gs]; inversion E; subst; now split.
  - inversion E; subst. now split.
  - unfold mbind in E. cbn [m_world snd] in E. destruct (i_cps (get_int W i)) as [|g gs]; inversion E; subst; now split.
Qed.

Lemma run_env n a i W r W' : sane Any W -> (a < List.length (w_agents W))%nat -> run_instr n a i W = (r, W') ->
  w_env W' = w_env W /\ List.length (w_agents W') = List.length (w_agents W).
Proof.
  intros HS Ha E. unfold run_instr in E. destruct (i_pc _) as [pc|]; [|inversion E; subst; now split].
  destruct (nth_error _ _) as [ins|]; [|inversion E; subst; now split].
  destruct (exec_op n a i (in_op ins) _) as [z [st' W1]] eqn:Ex. apply exec_env in Ex as [H1 H2]; auto.
  destruct z as [[]|e]; [inversion E; subst; now split| |inversion E; subst; now split].
  destruct (in_fail ins); inversion E; subst; now split.
Qed.
Lemma finish_env n a pos i W r W' : finish n a pos i W = (r, W') -> w_env W' = w_env W /\ List.length (w_agents W') = List.length (w_agents W).
Proof.
  intro E. unfold finish in E. cbv zeta in E. destruct (List.tl _) as [|c below]; [inversion E; subst; cbn; now rewrite upd_length|].
  destruct (i_call _); [|inversion E; subst; cbn; now rewrite upd_length]. destruct (i_head _); [|inversion E; subst; cbn; now rewrite upd_length].
  destruct (freeze _ _ _ _) as [[fz|e] [mm k]]; [|inversion E; subst; cbn; now rewrite upd_length].
  destruct (unify _ _ _ _) as [[[]|] st']; inversion E; subst; cbn; now rewrite upd_length.
Qed.
Lemma step_env n a W r W' : sane Any W -> (a < List.length (w_agents W))%nat -> step n a W = (r, W') ->
  w_env W' = w_env W /\ List.length (w_agents W') = List.length (w_agents W).
Proof.
  intros HS Ha E. destruct (step_shape _ _ _ _ _ Ha E) as [(-> & rd & Hrd & ->)|(before & i & rest & after & W1 & Est & HF & HE)].
  - cbn. now rewrite upd_length.
  - destruct (fetched_ok _ _ _ _ Ha HF) as (F1 & F2 & F3 & F4 & F5 & _).
    assert (HX : w_env W1 = w_env W). { destruct HF as (rd & Hrd & ->). destruct (i_wait _); reflexivity. }
    destruct (i_pc _).
    + apply run_env in HE as [H1 H2]; [|exact (F5 HS)|rewrite F2; exact Ha]. split; congruence.
    + apply finish_env in HE as [H1 H2]. split; congruence.
Qed.

(** Building extends the environment with new names only. *)
Inductive extended : list (pystr * nat) -> list (pystr * nat) -> Prop :=
| ex_nil e : extended e e
| ex_snoc e name a e' : ~ In name (map fst e) -> extended (e ++ [(name, a)]) e' -> extended e e'.

Lemma fresh_name path names name : make_name path names = Ok name -> ~ In name names.
Proof. intro E. now apply make_name_spec in E as (base & _ & H & _). Qed.

Lemma build_extends n acts path g W r W' : reach W -> build_agent_from_ast n acts path g W = (r, W') ->
  extended (w_env W) (w_env W').
Proof.
  intros HR E. destruct r as [a|e].
  - destruct (build_spec _ _ _ _ _ _ _ HR E) as (name & W2 & W3 & Hn & _ & _ & -> & HE). cbn. econstructor; [eapply fresh_name, Hn|]. constructor.
  - rewrite (build_fails _ _ _ _ _ _ _ HR E). constructor.
Qed.
Lemma copies_extend n count path proto g : forall W r W', sane Any W -> (proto < List.length (w_agents W))%nat ->
  build_copies n count path proto g W = (r, W') -> extended (w_env W) (w_env W').
Proof.
  induction count as [|count IH]; intros W r W' HS Hp E; cbn in E; [inversion E; subst; constructor|].
  destruct (make_name _ _) as [name|e] eqn:En; [|inversion E; subst; constructor].
  set (a := List.length (w_agents W)) in *. set (W0 := set_agents W _) in *.
  assert (HS0 : sane Any W0) by (eapply (geff_sane Any true any_args); [now apply g_copy|exact HS]).
  assert (Ha : (a < List.length (w_agents W0))%nat). { unfold W0. cbn. rewrite app_length. cbn. unfold a. lia. }
  destruct (wfor (install_event n a GtAchieve) _ _ W0) as [[r1 l1] W1] eqn:E1.
  destruct (install_events_env _ _ _ _ _ _ _ _ _ HS0 Ha E1) as (H1 & H2 & H3).
  change (w_env W0) with (w_env W) in H1. rewrite <- H1.
  destruct r1 as [u|e]; [|inversion E; subst; constructor].
  assert (HS2 : sane Any (set_env W1 (w_env W1 ++ [(name, a)]))).
  { eapply (geff_sane Any true any_args); [apply g_env; rewrite H2; exact Ha|exact H3]. }
  destruct (build_copies n count path proto g _) as [r2 W2] eqn:E2. apply IH in E2; [|exact HS2|cbn; rewrite H2; unfold W0; cbn; rewrite app_length; lia].
  cbn in E2. econstructor; [rewrite H1; eapply fresh_name, En|]. destruct r2; inversion E; subst; exact E2.
Qed.
Lemma extended_trans e1 e2 e3 : extended e1 e2 -> extended e2 e3 -> extended e1 e3.
Proof. intro H. induction H; [auto|]. intro H2. econstructor; eauto. Qed.
Lemma builds_extend n acts src name count g W r W' : reach W -> build_agents n acts src name count g W = (r, W') ->
  extended (w_env W) (w_env W').
Proof.
  intros HR E. assert (HS : sane Any W) by (apply reach_sane; [exact any_args|exact any_front|now intros|exact HR]).
  destruct count as [|count]; cbn in E; [inversion E; subst; constructor|].
  destruct (build_agent_from_ast n acts src g W) as [[p|e] W1] eqn:E1; pose proof (build_extends _ _ _ _ _ _ _ HR E1) as HX; [|inversion E; subst; exact HX].
  destruct (build_agent_range Any false any_args any_front ltac:(now intros) _ _ _ _ _ _ _ HS E1) as [_ Hp].
  assert (HS1 : sane Any W1) by (apply reach_sane; [exact any_args|exact any_front|now intros|eapply rc_build; eassumption]).
  destruct (build_copies _ _ _ _ _ _) as [r2 W2] eqn:E2. apply copies_extend in E2; auto.
  eapply extended_trans; [exact HX|]. destruct r2; inversion E; subst; exact E2.
Qed.

Lemma extended_spec e e' : extended e e' -> NoDup (map fst e) -> NoDup (map fst e') /\ exists new, e' = e ++ new.
Proof.
  intro H. induction H as [e|e name a e' Hn H IH]; intro HD; [split; [exact HD|exists []; now rewrite app_nil_r]|].
  destruct IH as [H1 [new ->]].
  - rewrite map_app. cbn. apply NoDup_rev in HD. rewrite <- (rev_involutive (map fst e ++ [name])). apply NoDup_rev. rewrite rev_app_distr. cbn. constructor; [|exact HD]. now rewrite <- in_rev.
  - split; [exact H1|]. exists ((name, a) :: new). now rewrite <- app_assoc.
Qed.

Theorem names_unique W : reach W -> NoDup (map fst (w_env W)).
Proof.
  intro H. induction H.
  - constructor.
  - eapply extended_spec; [eapply build_extends; eassumption|exact IHreach].
  - eapply extended_spec; [eapply builds_extend; eassumption|exact IHreach].
  - apply step_env in H1 as [-> _]; [exact IHreach| |assumption]. apply reach_sane; [exact any_args|exact any_front|now intros|exact H].
  - apply outside_env in H1 as (-> & _); [exact IHreach| |assumption]. apply reach_sane; [exact any_args|exact any_front|now intros|exact H].
Qed.

(** Whoever is registered stays registered under the same name. *)
Theorem builds_keep n acts src name count g W r W' : reach W -> build_agents n acts src name count g W = (r, W') ->
  exists new, w_env W' = w_env W ++ new.
Proof. intros HR E. eapply extended_spec; [eapply builds_extend; eassumption|now apply names_unique]. Qed.
Theorem others_keep n a W r W' : reach W -> (a < List.length (w_agents W))%nat -> 
  (step n a W = (r, W') \/ exists tr gt t d, outside_call n a tr gt t d W = (r, W')) -> w_env W' = w_env W.
Proof.
  intros HR Ha [E|(tr & gt & t & d & E)]; [apply step_env in E as [H _]|apply outside_env in E as [H _]]; auto;
    apply reach_sane; try exact any_args; try exact any_front; try exact HR; now intros.
Qed.
End WithPy.
