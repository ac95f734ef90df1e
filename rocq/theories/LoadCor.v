(** Consequences for building, as stated in PropsBuild.v. *)
From Verif Require Import Base Num Term Unify Str World Engine Step Ast Names Build Reach QuerySpec QueryCor PlanSpec LoadSpec OwnFacts LoadFacts ReachFacts StepFacts EnvFacts ExPlan ExLoad ExPy.

Section WithPy.
Context {PY : Py} {FR : Front}.

(** Events do not change names. *)
Lemma geff_name Pp cp W W' a : geff Pp cp W W' -> (a < List.length (w_agents W))%nat -> a_name (get_agent W' a) = a_name (get_agent W a).
Proof.
  assert (HP : forall V b x, a_name x = a_name (get_agent V b) -> (a < List.length (w_agents V))%nat -> a_name (get_agent (put_agent V b x) a) = a_name (get_agent V a)).
  { intros V b x Hx Hl. rewrite EffFacts.get_put. destruct (Nat.eqb_spec b a) as [->|]; [|reflexivity]. destruct (Nat.ltb_spec a (List.length (w_agents V))); [exact Hx|lia]. }
  intros H Ha. destruct H; try (apply HP; [reflexivity|exact Ha]); try reflexivity.
  - destruct H; try reflexivity; try (apply HP; [reflexivity|exact Ha]).
    + unfold bel_ref. destruct (assoc _ _ _); [reflexivity|]. cbn [snd]. rewrite HP; [reflexivity|reflexivity|exact Ha].
    + unfold plan_ref. destruct (assoc _ _ _); [reflexivity|]. cbn [snd]. rewrite HP; [reflexivity|reflexivity|exact Ha].
    + rewrite HP; [reflexivity|reflexivity|exact Ha].
  - unfold get_agent. cbn. now rewrite app_nth1.
  - unfold get_agent. cbn. now rewrite app_nth1.
Qed.
Lemma geffs_name Pp cp W W' a : geffs Pp cp W W' -> (a < List.length (w_agents W))%nat -> a_name (get_agent W' a) = a_name (get_agent W a).
Proof.
  intros H. induction H; [reflexivity|]. intro Ha. rewrite IHgeffs; [eapply geff_name; eassumption|].
  pose proof (geffs_agents Pp cp _ _ (geffs_one Pp cp _ _ H)). lia.
Qed.

Lemma raised_name n a evs W W' : raised n a evs W W' -> sane (fun _ => True) W -> (a < List.length (w_agents W))%nat ->
  a_name (get_agent W' a) = a_name (get_agent W a).
Proof.
  intro H. induction H; [reflexivity|]. intros HS Ha.
  assert (HG := g_outside (fun _ => True) false any_args any_front _ _ _ _ _ _ (set_nv W k) _ _ HS Ha H0).
  rewrite IHraised.
  - exact (geffs_name _ _ _ _ a HG Ha).
  - eapply geffs_sane; [exact any_args|exact HG|exact HS].
  - apply geffs_agents in HG. cbn in HG. lia.
Qed.

Lemma registered_last n acts path g W a W' : reach W -> build_agent_from_ast n acts path g W = (Ok a, W') ->
  exists name, make_name path (map fst (w_env W)) = Ok name /\ ~ In name (map fst (w_env W)) /\
    w_env W' = w_env W ++ [(name, a)] /\ a = List.length (w_agents W) /\ a_name (get_agent W' a) = name.
Proof.
  intros HR E. destruct (build_spec_sane _ _ _ _ _ _ _ HR E) as (name & W2 & W3 & Hn & [[L1 L1'] L2 _ _ _ _ _ _ _] & HZ & -> & HE & HS).
  exists name. split; [exact Hn|]. split; [eapply fresh_name, Hn|]. split; [reflexivity|]. split; [exact L1|].
  change (get_agent (set_env W3 _) a) with (get_agent W3 a). rewrite (raised_name _ _ _ _ _ HZ); [exact L2|exact HS|lia].
Qed.

Lemma program_of_plans n acts path g W a W' : reach W -> build_agent_from_ast n acts path g W = (Ok a, W') -> ag_beliefs g = [] -> ag_goals g = [] ->
  (exists rs, Forall2 (made_rule acts) (ag_rules g) rs /\
    forall h, rules_of a h W' = filter (fun r => group_eqb h (lit_group (r_head r))) rs) /\
  (exists ps, Forall2 (made_plan acts) (ag_plans g) ps /\
    forall h, plans_of a h W' = filter (fun p => pgroup_eqb h (plan_group p)) ps) /\
  (forall b h, b <> a -> beliefs b h W' = beliefs b h W) /\
  (forall b h, b <> a -> plans_of b h W' = plans_of b h W) /\
  (forall b h, b <> a -> rules_of b h W' = rules_of b h W) /\
  (forall h, beliefs a h W' = []) /\ a_ints (get_agent W' a) = [].
Proof.
  intros HR E HB HG. destruct (build_spec _ _ _ _ _ _ _ HR E) as (name & W2 & W3 & Hn & [L1 L2 L3 L4 L5 L6 L7 L8 L9] & HZ & -> & HE).
  rewrite HB, HG in HZ. inversion HZ; subst.
  split; [exact L3|]. split; [exact L4|]. repeat (split; [intros b h Hb; now apply (L7 b Hb)|]). split; [exact L5|exact L6].
Qed.
End WithPy.

Lemma carol_plans : exists p1 p2 p3 p4,
  @made_plan PyEx stdlib_actions (nth 0 (ag_plans plan_ast) (on_goal "" "" None None)) p1 /\
  @made_plan PyEx stdlib_actions (nth 1 (ag_plans plan_ast) (on_goal "" "" None None)) p2 /\
  @made_plan PyEx stdlib_actions (nth 2 (ag_plans plan_ast) (on_goal "" "" None None)) p3 /\
  plans_of 1 (TrAdd, GtAchieve, (s2p "g", 1%nat)) two_world = [p1; p2; p3] /\
  plans_of 1 (TrAdd, GtAchieve, (s2p "h", 1%nat)) two_world = [p4] /\ p1 <> p2 /\ p2 <> p3.
Proof.
  eexists _, _, _, _. do 3 (split; [shelve|]). split; [vm_compute; reflexivity|]. split; [vm_compute; reflexivity|]. split; discriminate.
  Unshelve.
  - exists (log_new (Some 3%nat)), 0%N. eexists _, _. vm_compute. reflexivity.
  - exists (log_new (Some 3%nat)), 1%N. eexists _, _. vm_compute. reflexivity.
  - exists (log_new (Some 3%nat)), 2%N. eexists _, _. vm_compute. reflexivity.
Qed.
