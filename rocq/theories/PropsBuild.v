(** C26, C27, C44: building agents, and who shares what.  Specification: Reach.v
    (reachable states; [single]: without build_agents), LoadSpec.v (what a new
    agent is), QuerySpec.v ([beliefs]), PlanSpec.v ([plans_of]). *)
From Verif Require Import Base Num Term Unify Str World Engine Step Ast Names Build Reach QuerySpec QueryCor BelCor PlanSpec LoadSpec TwinSpec SrcSpec Program ReachFacts OwnFacts LoadFacts EnvFacts LoadCor LoadTwin ExPlan ExLoad ExPy.

(** C26.  No two registered agents have the same name. *)
Theorem C26_unique : forall (PY : Py) (FR : Front) W, reach W -> NoDup (map fst (w_env W)).
Proof. exact @names_unique. Qed.
Print Assumptions C26_unique.

(** build_agent registers the new agent last, under the name _make_name has
    found; the others keep their names. *)
Theorem C26_registered : forall (PY : Py) (FR : Front) n acts path g W a W',
  reach W -> build_agent_from_ast n acts path g W = (Ok a, W') ->
  exists name, make_name path (map fst (w_env W)) = Ok name /\ ~ In name (map fst (w_env W)) /\
    w_env W' = w_env W ++ [(name, a)] /\ a = List.length (w_agents W) /\ a_name (get_agent W' a) = name.
Proof. exact @registered_last. Qed.
Print Assumptions C26_registered.

(** If it fails, nobody is registered; nor by stepping agents or raising events. *)
Theorem C26_not_registered : forall (PY : Py) (FR : Front) n acts path g W e W',
  reach W -> build_agent_from_ast n acts path g W = (Err e, W') -> w_env W' = w_env W.
Proof. exact @build_fails. Qed.
Print Assumptions C26_not_registered.
Theorem C26_others : forall (PY : Py) (FR : Front) n a W r W', reach W -> (a < List.length (w_agents W))%nat ->
  (step n a W = (r, W') \/ exists tr gt t d, outside_call n a tr gt t d W = (r, W')) -> w_env W' = w_env W.
Proof. exact @others_keep. Qed.
Print Assumptions C26_others.

(** build_agents only adds agents. *)
Theorem C26_copies : forall (PY : Py) (FR : Front) n acts src name count g W r W',
  reach W -> build_agents n acts src name count g W = (r, W') -> exists new, w_env W' = w_env W ++ new.
Proof. exact @builds_keep. Qed.
Print Assumptions C26_copies.

Example C26_example : map fst (w_env two_world) = [s2p "bob"; s2p "carol"] /\ map fst (w_env twin_world) = [s2p "bob"; s2p "bob1"] /\
  @reach PyEx FrontEx two_world /\ fst carol_built = Ok 1%nat.
Proof. split; [vm_compute; reflexivity|]. split; [vm_compute; reflexivity|]. split; [exact (single_reach _ two_world_single)|vm_compute; reflexivity]. Qed.

(** C27.  Adding or removing beliefs at an agent changes no other agent's beliefs,
    whether or not it succeeds, as long as build_agents is not used. *)
Theorem C27_add : forall (PY : Py) (FR : Front) n a t st W r st' W',
  single W -> (a < List.length (w_agents W))%nat -> add_belief n a t (st, W) = (r, (st', W')) ->
  forall b g, b <> a -> beliefs b g W' = beliefs b g W.
Proof. exact @add_others. Qed.
Print Assumptions C27_add.
Theorem C27_remove : forall (PY : Py) (FR : Front) n a t st W r st' W',
  single W -> (a < List.length (w_agents W))%nat -> remove_belief n a t (st, W) = (r, (st', W')) ->
  forall b g, b <> a -> beliefs b g W' = beliefs b g W.
Proof. exact @remove_others. Qed.
Print Assumptions C27_remove.
Theorem C27_abolish : forall (PY : Py) (FR : Front) n a t st W r st' W',
  single W -> (a < List.length (w_agents W))%nat -> abolish n a t (st, W) = (r, (st', W')) ->
  forall b g, b <> a -> beliefs b g W' = beliefs b g W.
Proof. exact @abolish_others. Qed.
Print Assumptions C27_abolish.

(** The same for the whole event, when the contexts and rules that are tried leave
    the belief base alone. *)
Theorem C27_event : forall (PY : Py) (FR : Front) n1 a tr gt t ci delayed st W st1 W1 event k d r,
  single W -> (a < List.length (w_agents W))%nat ->
  updated n1 a tr gt t (st, W) (st1, W1) -> poised a tr gt t (b_scope st1) W1 event k ->
  chosen d a tr gt W1 event k = r -> r <> CutOff -> gt <> GtTest ->
  delayed = true \/ (forall l, In l (a_ints (get_agent W1 a)) -> l <> []) ->
  exists n0 x st' W', (forall n, (n0 <= n)%nat -> call n a tr gt t ci delayed (st, W) = (x, (st', W'))) /\
    forall b g, b <> a -> beliefs b g W' = beliefs b g W.
Proof. exact @event_others. Qed.
Print Assumptions C27_event.

Example C27_example : @single PyEx FrontEx two_world /\
  (exists st' W', @add_belief PyEx 20 1 p3 (bst0, two_world) = (Ok tt, (st', W')) /\ In p3 (beliefs 1 (s2p "p", 1%nat) W') /\
    beliefs 0 (s2p "p", 1%nat) W' = [pz 2 [src_a]; pz 1 []]).
Proof. split; [exact two_world_single|]. eexists _, _. split; [vm_compute; reflexivity|]. split; vm_compute; auto. Qed.

(** Agents built by build_agents share their beliefs (and plans): what one of them
    learns or forgets, the other learns or forgets. *)
Theorem C27_copies_refuted : @reach PyEx FrontEx twin_world /\
  (exists st' W', @add_belief PyEx 20 0 p3 (bst0, twin_world) = (Ok tt, (st', W')) /\
    ~ In p3 (beliefs 1 (s2p "p", 1%nat) twin_world) /\ In p3 (beliefs 1 (s2p "p", 1%nat) W')) /\
  (exists st' W', @remove_belief PyEx 20 1 (pz 1 []) (bst0, twin_world) = (Ok true, (st', W')) /\
    In (pz 1 []) (beliefs 0 (s2p "p", 1%nat) twin_world) /\ ~ In (pz 1 []) (beliefs 0 (s2p "p", 1%nat) W')).
Proof. exact (conj twin_world_reach (conj twins_share twins_removed)). Qed.
Print Assumptions C27_copies_refuted.

(** C44.  A new agent has the rules and plans of its program, those for the same
    group in program order; building it changes nothing for the others.  Then its
    initial beliefs and goals are raised as events in program order, beliefs
    first. *)
Theorem C44_program : forall (PY : Py) (FR : Front) n acts path g W a W',
  reach W -> build_agent_from_ast n acts path g W = (Ok a, W') ->
  exists name W2 W3, make_name path (map fst (w_env W)) = Ok name /\ loaded acts g a name W W2 /\
    raised n a (map (pair GtBelief) (ag_beliefs g) ++ map (pair GtAchieve) (ag_goals g)) W2 W3 /\
    W' = set_env W3 (w_env W ++ [(name, a)]) /\ w_env W3 = w_env W.
Proof. exact @build_spec. Qed.
Print Assumptions C44_program.

(** For a program of rules and plans only. *)
Theorem C44_plans : forall (PY : Py) (FR : Front) n acts path g W a W',
  reach W -> build_agent_from_ast n acts path g W = (Ok a, W') -> ag_beliefs g = [] -> ag_goals g = [] ->
  (exists rs, Forall2 (made_rule acts) (ag_rules g) rs /\
    forall h, rules_of a h W' = filter (fun r => group_eqb h (lit_group (r_head r))) rs) /\
  (exists ps, Forall2 (made_plan acts) (ag_plans g) ps /\
    forall h, plans_of a h W' = filter (fun p => pgroup_eqb h (plan_group p)) ps) /\
  (forall b h, b <> a -> beliefs b h W' = beliefs b h W) /\
  (forall b h, b <> a -> plans_of b h W' = plans_of b h W) /\
  (forall b h, b <> a -> rules_of b h W' = rules_of b h W) /\
  (forall h, beliefs a h W' = []) /\ a_ints (get_agent W' a) = [].
Proof. exact @program_of_plans. Qed.
Print Assumptions C44_plans.

(** Carol's program has three plans for +!g(X) and one for +!h(Y). *)
Example C44_example : exists p1 p2 p3 p4,
  @made_plan PyEx stdlib_actions (nth 0 (ag_plans plan_ast) (on_goal "" "" None None)) p1 /\
  @made_plan PyEx stdlib_actions (nth 1 (ag_plans plan_ast) (on_goal "" "" None None)) p2 /\
  @made_plan PyEx stdlib_actions (nth 2 (ag_plans plan_ast) (on_goal "" "" None None)) p3 /\
  plans_of 1 (TrAdd, GtAchieve, (s2p "g", 1%nat)) two_world = [p1; p2; p3] /\
  plans_of 1 (TrAdd, GtAchieve, (s2p "h", 1%nat)) two_world = [p4] /\ p1 <> p2 /\ p2 <> p3.
Proof. exact carol_plans. Qed.

(** From the text of a program to the agent: the program is what the text says (C53), and
    the agent is named after the argument, or after the source if there is none. *)
Theorem C44_text : forall (PY : Py) (FR : Front) files n acts source lines name W a W',
  reach W -> build_agent files n acts source lines name W = (Ok a, W') ->
  exists g path own W2 W3, says files source lines g /\ named source name path /\
    make_name path (map fst (w_env W)) = Ok own /\ loaded acts g a own W W2 /\
    raised n a (map (pair GtBelief) (ag_beliefs g) ++ map (pair GtAchieve) (ag_goals g)) W2 W3 /\
    W' = set_env W3 (w_env W ++ [(own, a)]) /\ w_env W3 = w_env W.
Proof. exact @agent_from_text. Qed.
Print Assumptions C44_text.

(** build_agents makes as many agents as asked for.  The first is built from the program,
    and named after the source.  The others have its beliefs, rules and plans, their own
    names and, as new intentions, the goals of the program. *)
Theorem C44_copies : forall (PY : Py) (FR : Front) n acts source name count g W l W',
  build_agents n acts source name count g W = (Ok l, W') ->
  List.length l = count /\
  match l with
  | [] => W' = W
  | proto :: copies => exists W1 path, build_agent_from_ast n acts source g W = (Ok proto, W1) /\ named source name path /\
      copied n path g proto copies W1 W'
  end.
Proof. exact @agents_made. Qed.
Print Assumptions C44_copies.
(** The argument names the copies only; an empty name counts as none. *)
Example C44_copies_case :
  map fst (w_env (snd (@build_agents PyEx FrontEx 20 stdlib_actions (s2p "bob") (Some (s2p "eve")) 3 bel_ast world0))) = [s2p "bob"; s2p "eve"; s2p "eve1"] /\
  map fst (w_env (snd (@build_agents PyEx FrontEx 20 stdlib_actions (s2p "bob") (Some []) 2 bel_ast world0))) = [s2p "bob"; s2p "bob1"] /\
  fst (@build_agents PyEx FrontEx 20 stdlib_actions (s2p "bob") (Some (s2p "eve")) 3 bel_ast world0) = Ok [0; 1; 2]%nat.
Proof. split; [|split]; vm_compute; reflexivity. Qed.
