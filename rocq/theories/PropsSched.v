(** C24, C25: running all agents.  Specification: SchedSpec.v. *)
From Verif Require Import Base Num Term Unify Str World Engine Step Ast Names Build Reach QuerySpec QueryCor PlanSpec SchedSpec SchedFacts ExPlan ExSched ExPy.

(** C24.  When Environment.run returns, it has let all agents step in turn, has
    slept until the earliest deadline whenever none could, and has stopped when
    there was no deadline. *)
Theorem C24_run : forall (PY : Py) (FR : Front) k n W ds W', run k n W = (Ok ds, W') -> runs n W ds W'.
Proof. exact @run_runs. Qed.
Print Assumptions C24_run.
(** Then every intention of every agent has finished, or waits for an event
    without timeout, or is below one that does. *)
Theorem C24_rest : forall (PY : Py) (FR : Front) n W ds W', runs n W ds W' ->
  (forall a, registered W' a -> at_rest W' a) /\ Forall (fun d => num_ord CGe d (NInt 0) = true) ds.
Proof. exact @runs_rest. Qed.
Print Assumptions C24_rest.
(** In a turn where no agent can make a step, nothing happens. *)
Theorem C24_idle : forall (PY : Py) (FR : Front) n l W b W', turns n l W b W' -> b = false ->
  nothing_done W W' /\ forall a, In a l -> all_wait W' a.
Proof. exact @turns_idle. Qed.
Print Assumptions C24_idle.
Example C24_example : exists ds W', @run PyQuarter FrontEx 100 20 waiting_world = (Ok ds, W') /\
  ds = [NFlt (flt 1 (-1)); NFlt (flt 0 0)] /\
  beliefs 0 (s2p "seen", 1%nat) W' = [TLit (s2p "seen") [TNum (NInt 2)] []] /\ a_ints (get_agent W' 0) = [].
Proof. exact run_example. Qed.

(** run_agent does the same for one agent, but also stops if the earliest
    deadline is 0. *)
Theorem C24_run_agent : forall (PY : Py) (FR : Front) k n a W ds W', run_agent k n a W = (Ok ds, W') -> runs1 n a W ds W'.
Proof. exact @run_agent_runs. Qed.
Print Assumptions C24_run_agent.
Example C24_agent_example : exists ds W', @run_agent PyQuarter FrontEx 100 20 0 waiting_world = (Ok ds, W') /\ List.length ds = 2%nat /\
  beliefs 0 (s2p "seen", 1%nat) W' = [TLit (s2p "seen") [TNum (NInt 2)] []].
Proof. exact run_agent_example. Qed.
(** With an environment whose clock starts at 0, this leaves work undone. *)
Theorem C24_zero_refuted : @reach PyZero FrontEx zero_world /\ exists W', @run_agent PyZero FrontEx 100 20 0 zero_world = (Ok [], W') /\
  beliefs 0 (s2p "done", 1%nat) W' = [] /\ List.length (a_ints (get_agent W' 0)) = 1%nat /\ ~ at_rest W' 0.
Proof. exact (conj zero_world_reach zero_stops). Qed.
Print Assumptions C24_zero_refuted.

(** Agent.run returns only after a step in which nothing could be done. *)
Theorem C24_agent_run : forall (PY : Py) (FR : Front) k n a W W', agent_run k n a W = (Ok tt, W') -> exists W0, step n a W0 = (Ok false, W').
Proof. exact @agent_run_idle. Qed.
Print Assumptions C24_agent_run.

(** C25.  If the clock (of floats) has not passed the deadline, sleeping until
    the deadline is possible: time.sleep does not raise ValueError. *)
Theorem C25_possible : forall (PY : Py) u t W r W', py_time (w_reads W) = NFlt t -> num_ord CLe (NFlt t) (NFlt u) = true ->
  match num_val (NFlt u) with XQ _ => True | _ => False end ->
  match num_val (NFlt t) with XQ _ => True | _ => False end ->
  sleep_until (NFlt u) W = (r, W') -> (exists d, r = Ok d /\ sleeps (NFlt u) W d W') \/ r = Err EOverflow.
Proof. exact @sleep_possible. Qed.
Print Assumptions C25_possible.
Example C25_example : @py_time PyQuarter 2 = NFlt (flt 1 (-1)) /\ num_ord CLe (NFlt (flt 1 (-1))) (NFlt (flt 1 0)) = true.
Proof. split; reflexivity. Qed.

(** But the clock may pass the deadline after the agents have been polled: then
    run and run_agent fail. *)
Theorem C25_refuted : @reach PyEx FrontEx waiting_world /\
  fst (@run PyEx FrontEx 100 20 waiting_world) = Err EValue /\ fst (@run_agent PyEx FrontEx 100 20 0 waiting_world) = Err EValue.
Proof. exact (conj waiting_world_reach run_too_late). Qed.
Print Assumptions C25_refuted.
