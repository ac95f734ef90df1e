(** Two agents, built separately or as copies, for examples. *)
From Verif Require Import Base Num Term Unify Str World Engine Step Ast Names Build Reach QuerySpec QueryCor BelCor PlanSpec LoadSpec ExPlan ExPy.

(** bob with p(1), p(2)[src(a)], q(true); then carol with plans. *)
Definition carol_built : res nat * world := @build_agent_from_ast PyEx FrontEx 20 stdlib_actions (s2p "carol.asl") plan_ast bel_world.
Definition two_world : world := snd carol_built.

Lemma bel_world_single : @single PyEx FrontEx bel_world.
Proof.
  unfold bel_world. destruct (@build_agent_from_ast PyEx FrontEx 20 stdlib_actions (s2p "bob") bel_ast world0) as [r W] eqn:E.
  eapply sg_build; [apply sg_env|exact E].
Qed.
Lemma two_world_single : @single PyEx FrontEx two_world.
Proof.
  unfold two_world, carol_built. destruct (@build_agent_from_ast PyEx FrontEx 20 stdlib_actions (s2p "carol.asl") plan_ast bel_world) as [r W] eqn:E.
  eapply sg_build; [apply bel_world_single|exact E].
Qed.

(** Two copies of bob. *)
Definition twins : res (list nat) * world := @build_agents PyEx FrontEx 20 stdlib_actions (s2p "bob") None 2 bel_ast world0.
Definition twin_world : world := snd twins.
Lemma twin_world_reach : @reach PyEx FrontEx twin_world.
Proof.
  unfold twin_world, twins. destruct (@build_agents PyEx FrontEx 20 stdlib_actions (s2p "bob") None 2 bel_ast world0) as [r W] eqn:E.
  eapply rc_builds; [apply rc_env|exact E].
Qed.

Definition p3 : term := TLit (s2p "p") [TNum (NInt 3)] [].
Lemma twins_share : exists st' W', @add_belief PyEx 20 0 p3 (bst0, twin_world) = (Ok tt, (st', W')) /\
  ~ In p3 (beliefs 1 (s2p "p", 1%nat) twin_world) /\ In p3 (beliefs 1 (s2p "p", 1%nat) W').
Proof.
  eexists _, _. split; [vm_compute; reflexivity|]. split.
  - vm_compute. intros [H|[H|[]]]; discriminate H.
  - vm_compute. auto.
Qed.
Lemma twins_removed : exists st' W', @remove_belief PyEx 20 1 (pz 1 []) (bst0, twin_world) = (Ok true, (st', W')) /\
  In (pz 1 []) (beliefs 0 (s2p "p", 1%nat) twin_world) /\ ~ In (pz 1 []) (beliefs 0 (s2p "p", 1%nat) W').
Proof.
  eexists _, _. split; [vm_compute; reflexivity|]. split.
  - vm_compute. auto.
  - vm_compute. intros [H|[]]; discriminate H.
Qed.
(** Plans are shared as well: a plan removed from one copy is gone from the other. *)
Definition labelled_ast : aagent := mkaagent [] [] []
  [mkaplan (Some (hd1 "l1" [])) (mkaevent TrAdd GtAchieve (hd1 "g" [])) None None].
Definition plan_twins : world := snd (@build_agents PyEx FrontEx 20 stdlib_actions (s2p "bob") None 2 labelled_ast world0).
Lemma twins_forget : exists st' W', @call PyEx FrontEx 20 0 TrRem GtTellHow (TLit (s2p "plain_text") [TStr (s2p "@l1")] []) 0 false (bst0, plan_twins) = (Ok true, (st', W')) /\
  List.length (plans_of 1 (TrAdd, GtAchieve, (s2p "g", 0%nat)) plan_twins) = 1%nat /\ plans_of 1 (TrAdd, GtAchieve, (s2p "g", 0%nat)) W' = [].
Proof. eexists _, _. split; [vm_compute; reflexivity|]. split; vm_compute; reflexivity. Qed.
