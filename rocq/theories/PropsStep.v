(** C21, C22: steps and waiting.  Specification: StepSpec.v. *)
From Verif Require Import Base Num Term Unify Str World Engine Step Ast Build Reach QuerySpec QueryCor BelSpec PlanSpec StepSpec StepFacts StepCor ExPy ExPlan.

(** C21.  Either no stack can run, and nothing is executed; or the top [i] of the
    first stack that can run is, and all other intentions are left alone, except
    that a finished intention passes its results to the one below it. *)
Theorem C21_step : forall (PY : Py) (FR : Front) n a W r W', reach W -> (a < List.length (w_agents W))%nat -> step n a W = (r, W') ->
  (r = Ok false /\ Forall (blocked W W') (a_ints (get_agent W a)) /\ w_ints W' = w_ints W) \/
  exists before i rest after, a_ints (get_agent W a) = before ++ (i :: rest) :: after /\ Forall (blocked W W') before /\ runnable W W' i /\
    r <> Ok false /\ (i_pc (get_int W i) = None -> List.concat (a_ints (get_agent W' a)) = List.concat before ++ rest ++ List.concat after) /\
    forall j, (j < List.length (w_ints W))%nat -> j <> i ->
      match i_pc (get_int W i) with
      | Some _ => untouched (get_int W j) (get_int W' j)
      | None => get_int W' j = get_int W j \/ (exists below, rest = j :: below) /\ exists st, get_int W' j = set_i_bst (get_int W j) st
      end.
Proof. exact @reach_step. Qed.
Print Assumptions C21_step.
Example C21_example : @reach PyEx FrontEx goal_world /\ (0 < List.length (w_agents goal_world))%nat.
Proof. split; [exact goal_world_reach|vm_compute; auto]. Qed.

(** No intention is ever on two stacks. *)
Theorem C21_tidy : forall (PY : Py) (FR : Front) W, reach W -> tidy W.
Proof. exact @reach_tidy. Qed.
Print Assumptions C21_tidy.

(** C22.  .wait makes the intention wait for what its arguments say. *)
Theorem C22_wait : forall (PY : Py) (FR : Front) n a i f args annots st W g st' W', (i < List.length (w_ints W))%nat ->
  resume n a i (GQ (QAct AWait (TLit f args annots))) (st, W) = (Ok (Some g), (st', W')) ->
  exists m vs w, Forall2 (fun t v => grounded m t (b_scope st) = Ok v) args vs /\ waits_for (w_reads W) (w_nv W) vs w /\
    get_int W' i = set_i_wait (get_int W i) (Some w) /\ st' = st /\ (forall j, j <> i -> get_int W' j = get_int W j) /\
    w_agents W' = w_agents W /\ w_sets W' = w_sets W.
Proof. exact @wait_waits. Qed.
Print Assumptions C22_wait.
Example C22_example : a_ints (get_agent waiting_world 0) = [[6; 5]]%nat /\ i_pc (get_int waiting_world 6) = Some 3%nat /\
  exists u, i_wait (get_int waiting_world 6) = Some (mkwaiter None (Some u)) /\ @deadline PyEx 0 (NInt 1000) u.
Proof. exact waiting_world_stack. Qed.

(** A waiting intention is not executed, unless its deadline was in the past at
    one of the readings of the clock during the step. *)
Theorem C22_waiting : forall (PY : Py) (FR : Front) n a W r W' i w, reach W -> (a < List.length (w_agents W))%nat -> step n a W = (r, W') ->
  (i < List.length (w_ints W))%nat -> i_wait (get_int W i) = Some w -> (forall k, (w_reads W <= k < w_reads W')%N -> ~ overdue w k) ->
  untouched (get_int W i) (get_int W' i) \/
  exists z below b st, In (z :: i :: below) (a_ints (get_agent W b)) /\ get_int W' i = set_i_bst (get_int W i) st.
Proof. exact @waiting_stays. Qed.
Print Assumptions C22_waiting.

(** When it no longer waits, or its deadline is in the past, it is executed as
    soon as no stack before it can run. *)
Theorem C22_runs : forall (PY : Py) (FR : Front) n a W r W' before i rest after, (a < List.length (w_agents W))%nat -> step n a W = (r, W') ->
  a_ints (get_agent W a) = before ++ (i :: rest) :: after -> Forall (stuck W) before -> free W i ->
  exists pos, nth_error (drop_empty (a_ints (get_agent W a))) pos = Some (i :: rest) /\ executes n a pos i W r W'.
Proof. exact @free_runs. Qed.
Print Assumptions C22_runs.
