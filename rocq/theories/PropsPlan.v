(** C18-C20: events, plans and subgoals.  Specification: PlanSpec.v (which plan is
    chosen, what starting it means), StepSpec.v ([above]), QuerySpec.v ([sols]:
    the solutions of a query). *)
From Verif Require Import Base Num Term Unify TermSpec Str World Engine Step Ast Build Reach QuerySpec QueryCor BelSpec PlanSpec StepSpec EventCor StepFacts StepCor ExPy ExPlan BelCor.

(** C18.  The plan chosen is the first one in program order that is applicable,
    with the first way in which it is, starting without bindings. *)
Theorem C18_first_applicable : forall (PY : Py) d D event ps nv p s nv',
  select d D ps event nv = Chosen p s nv' ->
  exists before after nv0 others, ps = before ++ p :: after /\
    Forall (fun q => exists m m', applicable d D q event m = TEnd m') before /\
    applicable d D p event nv0 = TSol s nv' others.
Proof. exact @select_first. Qed.
Print Assumptions C18_first_applicable.
Theorem C18_none_applicable : forall (PY : Py) d D event ps nv nv', select d D ps event nv = NoPlan nv' ->
  Forall (fun q => exists m m', applicable d D q event m = TEnd m') ps.
Proof. exact @select_none. Qed.
Print Assumptions C18_none_applicable.

(** An event runs the chosen plan: after the belief base has been updated (for a
    belief event), with nothing but the bindings found. *)
Theorem C18_event_runs_plan : forall (PY : Py) (FR : Front) n1 a tr gt t ci delayed s st W event k d,
  updated n1 a tr gt t s (st, W) -> poised a tr gt t (b_scope st) W event k ->
  forall p s' nv, chosen d a tr gt W event k = Chosen p s' nv ->
  delayed = true \/ (forall l, In l (a_ints (get_agent W a)) -> l <> []) ->
  exists n0 W', (forall n, (n0 <= n)%nat -> call n a tr gt t ci delayed s = (Ok true, (st, W'))) /\
    same_minds W W' /\ wakened tr gt event (a_ints (get_agent W a)) W W' /\ started a p s' event t ci delayed W W'.
Proof. exact @call_chosen. Qed.
Print Assumptions C18_event_runs_plan.
Example C18_example : @poised PyEx 0 TrAdd GtAchieve gZ [] plan_world gZ' 5 /\
  exists p s nv, @chosen PyEx 12 0 TrAdd GtAchieve plan_world gZ' 5 = Chosen p s nv /\
    nth_error (plans_of 0 (TrAdd, GtAchieve, (s2p "g", 1%nat)) plan_world) 1 = Some p /\
    lookup s 1 = Some (TVar 4) /\ lookup s 4 = Some (TNum (NInt 2)).
Proof. exact (conj plan_world_poised plan_world_chosen). Qed.

(** C19.  Without an applicable plan. *)
Theorem C19_no_plan : forall (PY : Py) (FR : Front) n1 a tr gt t ci delayed s st W event k d,
  updated n1 a tr gt t s (st, W) -> poised a tr gt t (b_scope st) W event k ->
  forall nv, chosen d a tr gt W event k = NoPlan nv -> gt <> GtTest ->
  exists n0 W', only_wakens a tr gt event W W' /\ forall n, (n0 <= n)%nat -> call n a tr gt t ci delayed s =
    (match gt with GtAchieve => Err EAsl | _ => Ok true end, (st, W')).
Proof. exact @call_none. Qed.
Print Assumptions C19_no_plan.
Example C19_example : @poised PyEx 0 TrAdd GtAchieve hW [] plan_world (TLit (s2p "none") [TVar 4] []) 5 /\
  @chosen PyEx 12 0 TrAdd GtAchieve plan_world (TLit (s2p "none") [TVar 4] []) 5 = NoPlan 5.
Proof. exact none_poised. Qed.

(** A test goal is then a query to the belief base. *)
Theorem C19_test_goal : forall (PY : Py) (FR : Front) n1 a tr gt t ci delayed s st W event k d,
  updated n1 a tr gt t s (st, W) -> poised a tr gt t (b_scope st) W event k ->
  forall nv n2 v d', chosen d a tr gt W event k = NoPlan nv -> gt = GtTest ->
  evaluate n2 t (b_scope st) = Ok v -> is_literal v = true ->
  sols d' (db_of a W) (QTerm v) (b_scope st) nv <> TCut ->
  exists n0 r st' W', only_wakens a tr gt event W W' /\ (forall n, (n0 <= n)%nat -> call n a tr gt t ci delayed s = (r, (st', W'))) /\
    match sols d' (db_of a W) (QTerm v) (b_scope st) nv with
    | TSol s' _ _ => r = Ok true /\ b_scope st' = s'
    | TEnd _ => r = Ok false /\ b_scope st' = b_scope st /\ b_stack st' = b_stack st
    | TErr e => r = Err e
    | TCut => False
    end.
Proof. exact @call_test. Qed.
Print Assumptions C19_test_goal.
Example C19_test_example : @poised PyEx 0 TrAdd GtTest pV [] plan_world (TLit (s2p "p") [TVar 4] []) 5 /\
  @chosen PyEx 12 0 TrAdd GtTest plan_world (TLit (s2p "p") [TVar 4] []) 5 = NoPlan 5 /\
  exists nv T, @sols PyEx 12 (db_of 0 plan_world) (QTerm pV) [] 5 = TSol [(77%N, TNum (NInt 2))] nv T.
Proof. exact test_poised. Qed.

(** If an exception is raised while a context is evaluated, it is passed on. *)
Theorem C19_context_error : forall (PY : Py) (FR : Front) n1 a tr gt t ci delayed s st W event k d,
  updated n1 a tr gt t s (st, W) -> poised a tr gt t (b_scope st) W event k ->
  forall e, chosen d a tr gt W event k = Fails e ->
  exists n0 W', only_wakens a tr gt event W W' /\ forall n, (n0 <= n)%nat -> call n a tr gt t ci delayed s = (Err e, (st, W')).
Proof. exact @call_fails. Qed.
Print Assumptions C19_context_error.

(** C20.  Where the plan for a subgoal goes ([started] says that the stacks are
    [placed ...], or extended by a new stack if the event is delayed): on top of
    the caller; if the caller is not on top of a stack, on a new stack. *)
Theorem C20_on_top_of_caller : forall caller new before rest after, ~ on_top caller before ->
  placed caller new (before ++ (caller :: rest) :: after) = before ++ (new :: caller :: rest) :: after.
Proof. exact placed_on. Qed.
Print Assumptions C20_on_top_of_caller.
Theorem C20_on_new_stack : forall caller new stacks, ~ on_top caller stacks -> placed caller new stacks = stacks ++ [[new]].
Proof. exact placed_end. Qed.
Print Assumptions C20_on_new_stack.

(** While [x] is above [y], no step of any agent executes [y]: [y] is left alone
    (it is woken if it waits), or the finished intention directly above it passes
    its results to [y] and is gone.  And [x] stays above [y] until it is gone. *)
Theorem C20_beneath_waits : forall (PY : Py) (FR : Front) n a W r W', reach W -> (a < List.length (w_agents W))%nat -> step n a W = (r, W') ->
  forall b x y, above x y (a_ints (get_agent W b)) ->
  (above x y (a_ints (get_agent W' b)) \/ ~ In x (List.concat (a_ints (get_agent W' b)))) /\
  (untouched (get_int W y) (get_int W' y) \/
   exists z below, In (z :: y :: below) (a_ints (get_agent W b)) /\ i_pc (get_int W z) = None /\
     ~ In z (List.concat (a_ints (get_agent W' b))) /\ exists st, get_int W' y = set_i_bst (get_int W y) st).
Proof. exact @beneath_waits. Qed.
Print Assumptions C20_beneath_waits.

(** When a subgoal is finished, the caller continues, with the term it called
    unified with the instance of the head of the event that results. *)
Theorem C20_results : forall (PY : Py) (FR : Front) n a W r W' before i c below after ct h fz m k b st', (a < List.length (w_agents W))%nat -> step n a W = (r, W') ->
  tidy W -> (c < List.length (w_ints W))%nat ->
  a_ints (get_agent W a) = before ++ (i :: c :: below) :: after -> Forall (stuck W) before -> free W i -> i_pc (get_int W i) = None ->
  i_call (get_int W i) = Some ct -> i_head (get_int W i) = Some h ->
  freeze n h (b_scope (i_bst (get_int W i))) ([], w_nv W) = (Ok fz, (m, k)) -> unify n ct fz (i_bst (get_int W c)) = (Ok b, st') ->
  r = (if b then Ok true else Err ERuntime) /\ get_int W' c = set_i_bst (get_int W c) st' /\
  a_ints (get_agent W' a) = drop_empty before ++ (c :: below) :: after.
Proof. exact @results_passed. Qed.
Print Assumptions C20_results.

(** The same for events from outside. *)
Theorem C20_outside : forall (PY : Py) (FR : Front) n a tr gt t delayed W r W', reach W -> (a < List.length (w_agents W))%nat ->
  outside_call n a tr gt t delayed W = (r, W') ->
  (forall y, (y < List.length (w_ints W))%nat -> untouched (get_int W y) (get_int W' y)) /\
  forall b x y, above x y (a_ints (get_agent W b)) -> above x y (a_ints (get_agent W' b)) \/ ~ In x (List.concat (a_ints (get_agent W' b))).
Proof. exact @outside_run. Qed.
Print Assumptions C20_outside.
Example C20_example : @reach PyEx FrontEx waiting_world /\ above 6 5 (a_ints (get_agent waiting_world 0)).
Proof. exact (conj waiting_world_reach waiting_world_above). Qed.
Example C20_example_done : beliefs 0 (s2p "seen", 1%nat) (steps 12 20 0 goal_world) = [TLit (s2p "seen") [TNum (NInt 2)] []] /\
  beliefs 0 (s2p "done", 1%nat) (steps 12 20 0 goal_world) = [TLit (s2p "done") [TNum (NInt 2)] []] /\
  a_ints (get_agent (steps 12 20 0 goal_world) 0) = [].
Proof. exact all_done. Qed.
