(** An agent with plans, for examples:

      p(1). p(2).
      +!g(X) : q(X) <- .fail.
      +!g(X) : p(X) <- !h(X); +done(X).
      +!g(X).
      +!h(Y) <- .wait(1000); +seen(Y). *)
From Verif Require Import Base Num Term Unify Str World Engine Step Ast Names Build Reach QuerySpec QueryCor BelSpec BelCor BelFacts ReachFacts PlanSpec StepSpec StepFacts StepCor ExPy.

Definition av (x : String.string) : ast := AVar (s2p x).
Definition al (f : String.string) (ts : list ast) : ast := ALit (s2p f) ts [].
Definition hd1 (f : String.string) (ts : list ast) : alit := mkalit (s2p f) ts [].
Definition on_goal (f : String.string) (x : String.string) (ctx : option ast) (body : option (list form)) : aplan :=
  mkaplan None (mkaevent TrAdd GtAchieve (hd1 f [av x])) ctx body.
Definition plan_ast : aagent := mkaagent []
  [hd1 "p" [num1 1]; hd1 "p" [num1 2]] []
  [on_goal "g" "X" (Some (al "q" [av "X"])) (Some [FForm FtTerm (al ".fail" [])]);
   on_goal "g" "X" (Some (al "p" [av "X"])) (Some [FForm FtAchieve (al "h" [av "X"]); FForm FtAdd (al "done" [av "X"])]);
   on_goal "g" "X" None None;
   on_goal "h" "Y" None (Some [FForm FtTerm (al ".wait" [num1 1000]); FForm FtAdd (al "seen" [av "Y"])])].
Definition plan_built : res nat * world := @build_agent_from_ast PyEx FrontEx 20 stdlib_actions (s2p "bob") plan_ast world0.
Definition plan_world : world := snd plan_built.

Lemma plan_world_reach : @reach PyEx FrontEx plan_world.
Proof.
  unfold plan_world, plan_built. destruct (@build_agent_from_ast PyEx FrontEx 20 stdlib_actions (s2p "bob") plan_ast world0) as [r W] eqn:E.
  eapply rc_build; [apply rc_env|exact E].
Qed.

Definition gZ : term := TLit (s2p "g") [TVar 77] [].
Definition gZ' : term := TLit (s2p "g") [TVar 4] [].

Lemma plan_world_proper : proper_db false (db_of 0 plan_world).
Proof.
  intro g. split.
  - destruct (beliefs_wf PyEx_lawful plan_world 0 g plan_world_reach) as [H _]. eapply Forall_impl; [|exact H].
    intros b [(args & annots & -> & _) _]. reflexivity.
  - assert (E : a_rules (get_agent plan_world 0) = []) by (vm_compute; reflexivity). change (Forall (fun r => proper false (r_query r) = true) (rules_of 0 g plan_world)). unfold rules_of. rewrite E. constructor.
Qed.

Lemma plan_world_poised : @poised PyEx 0 TrAdd GtAchieve gZ [] plan_world gZ' 5.
Proof.
  constructor.
  - exists 5%nat. eexists. vm_compute. reflexivity.
  - reflexivity.
  - reflexivity.
  - vm_compute. auto.
  - intros i [rest H]. exfalso. assert (E : a_ints (get_agent plan_world 0) = []) by (vm_compute; reflexivity). rewrite E in H. destruct H.
  - exact plan_world_proper.
  - vm_compute. repeat constructor.
Qed.

(** The second plan is chosen, with X = 2. *)
Lemma plan_world_chosen : exists p s nv, @chosen PyEx 12 0 TrAdd GtAchieve plan_world gZ' 5 = Chosen p s nv /\
  nth_error (plans_of 0 (TrAdd, GtAchieve, (s2p "g", 1%nat)) plan_world) 1 = Some p /\ lookup s 1 = Some (TVar 4) /\ lookup s 4 = Some (TNum (NInt 2)).
Proof. eexists _, _, _. split; [vm_compute; reflexivity|]. repeat split; vm_compute; reflexivity. Qed.

(** A goal no plan is for; a test goal. *)
Definition hW : term := TLit (s2p "none") [TVar 77] [].
Lemma none_poised : @poised PyEx 0 TrAdd GtAchieve hW [] plan_world (TLit (s2p "none") [TVar 4] []) 5 /\
  @chosen PyEx 12 0 TrAdd GtAchieve plan_world (TLit (s2p "none") [TVar 4] []) 5 = NoPlan 5.
Proof.
  split; [|vm_compute; reflexivity]. constructor.
  - exists 5%nat. eexists. vm_compute. reflexivity.
  - reflexivity.
  - reflexivity.
  - vm_compute. auto.
  - intros i [rest H]. exfalso. assert (E : a_ints (get_agent plan_world 0) = []) by (vm_compute; reflexivity). rewrite E in H. destruct H.
  - exact plan_world_proper.
  - vm_compute. constructor.
Qed.
Definition pV : term := TLit (s2p "p") [TVar 77] [].
Lemma test_poised : @poised PyEx 0 TrAdd GtTest pV [] plan_world (TLit (s2p "p") [TVar 4] []) 5 /\
  @chosen PyEx 12 0 TrAdd GtTest plan_world (TLit (s2p "p") [TVar 4] []) 5 = NoPlan 5 /\
  exists nv T, @sols PyEx 12 (db_of 0 plan_world) (QTerm pV) [] 5 = TSol [(77%N, TNum (NInt 2))] nv T.
Proof.
  split; [|split; [vm_compute; reflexivity|eexists _, _; vm_compute; reflexivity]]. constructor.
  - exists 5%nat. eexists. vm_compute. reflexivity.
  - reflexivity.
  - reflexivity.
  - vm_compute. auto.
  - intros i [rest H]. exfalso. assert (E : a_ints (get_agent plan_world 0) = []) by (vm_compute; reflexivity). rewrite E in H. destruct H.
  - exact plan_world_proper.
  - vm_compute. constructor.
Qed.

(** The agent pursues the goal g(Z): after some steps the intention for h(X) is
    on top of the one for g(Z), and waits. *)
Fixpoint steps (k n a : nat) (W : world) : world :=
  match k with O => W | S k' => steps k' n a (snd (@step PyEx FrontEx n a W)) end.
Definition goal_world : world := snd (@outside_call PyEx FrontEx 20 0 TrAdd GtAchieve gZ true plan_world).
Lemma goal_world_reach : @reach PyEx FrontEx goal_world.
Proof.
  unfold goal_world. destruct (@outside_call PyEx FrontEx 20 0 TrAdd GtAchieve gZ true plan_world) as [r W] eqn:E.
  eapply rc_call; [exact plan_world_reach| |exact E]. vm_compute. auto.
Qed.
Lemma steps_reach k n a : forall W, @reach PyEx FrontEx W -> (a < List.length (w_agents W))%nat ->
  @reach PyEx FrontEx (steps k n a W) .
Proof.
  induction k as [|k IH]; intros W H Ha; cbn [steps]; [exact H|]. destruct (@step PyEx FrontEx n a W) as [r W'] eqn:E. cbn [snd]. apply IH.
  - eapply (@rc_step PyEx FrontEx); eassumption.
  - destruct (@reach_any PyEx FrontEx W H) as [HS _].
    pose proof (@g_step PyEx FrontEx _ false (@any_args) (@any_front FrontEx) n a W r W' HS Ha E) as HG.
    apply (@geffs_agents PyEx) in HG. lia.
Qed.
Definition waiting_world : world := steps 5 20 0 goal_world.
Lemma waiting_world_reach : @reach PyEx FrontEx waiting_world.
Proof. apply steps_reach; [exact goal_world_reach|]. vm_compute. auto. Qed.
Lemma waiting_world_stack : a_ints (get_agent waiting_world 0) = [[6; 5]]%nat /\ i_pc (get_int waiting_world 6) = Some 3%nat /\
  exists u, i_wait (get_int waiting_world 6) = Some (mkwaiter None (Some u)) /\ @deadline PyEx 0 (NInt 1000) u.
Proof.
  split; [vm_compute; reflexivity|]. split; [vm_compute; reflexivity|]. eexists. split; [vm_compute; reflexivity|].
  eexists. split; vm_compute; reflexivity.
Qed.
Lemma waiting_world_above : above 6 5 (a_ints (get_agent waiting_world 0)).
Proof. rewrite (proj1 waiting_world_stack). exists [], [], []. now left. Qed.
(** In the end, both plans have run. *)
Lemma all_done : beliefs 0 (s2p "seen", 1%nat) (steps 12 20 0 goal_world) = [TLit (s2p "seen") [TNum (NInt 2)] []] /\
  beliefs 0 (s2p "done", 1%nat) (steps 12 20 0 goal_world) = [TLit (s2p "done") [TNum (NInt 2)] []] /\
  a_ints (get_agent (steps 12 20 0 goal_world) 0) = [].
Proof. vm_compute. repeat split. Qed.
