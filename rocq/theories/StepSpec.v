(** What a step of an agent may do. *)
From Verif Require Import Base Num Term Unify Str World Engine Step QuerySpec BelSpec PlanSpec.

(** No intention is on two stacks, or twice on one. *)
Definition tidy (W : world) : Prop :=
  (forall b, NoDup (List.concat (a_ints (get_agent W b)))) /\
  (forall b c i, In i (List.concat (a_ints (get_agent W b))) -> In i (List.concat (a_ints (get_agent W c))) -> b = c).

(** [x] is above [y] on one of the stacks. *)
Definition above (x y : nat) (stacks : list (list nat)) : Prop :=
  exists l1 l2 l3, In (l1 ++ x :: l2 ++ y :: l3) stacks.

Section WithPy.
Context {PY : Py}.

(** At the [k]-th reading of the clock, the deadline lies in the past. *)
Definition overdue (w : waiter) (k : N) : Prop :=
  exists u, wt_until w = Some u /\ num_ord CLt u (py_time k) = true.
(** ... it does not, or there is none. *)
Definition pending (w : waiter) (k : N) : Prop :=
  wt_until w = None \/ exists u, wt_until w = Some u /\ num_ord CLt u (py_time k) = false.

(** The stack cannot run: it is empty, or its top waits, with a deadline that
    was not in the past when the clock was read. *)
Definition blocked (W W' : world) (stack : list nat) : Prop :=
  match stack with
  | [] => True
  | i :: _ => exists w k, i_wait (get_int W i) = Some w /\ pending w k /\
                (wt_until w <> None -> (w_reads W <= k < w_reads W')%N)
  end.

(** The intention can run: it does not wait, or its deadline was in the past
    when the clock was read. *)
Definition runnable (W W' : world) (i : nat) : Prop :=
  i_wait (get_int W i) = None \/
  exists w k, i_wait (get_int W i) = Some w /\ overdue w k /\ (w_reads W <= k < w_reads W')%N.

(** The state in which intention [i] of agent [a] is executed: leading empty
    stacks are gone, the clock has been read, and [i] does not wait. *)
Definition fetched (a i : nat) (W W1 : world) : Prop :=
  exists rd, (w_reads W <= rd)%N /\
  let W0 := set_reads (put_agent W a (set_a_ints (get_agent W a) (drop_empty (a_ints (get_agent W a))))) rd in
  W1 = if i_wait (get_int W i) then put_int W0 i (set_i_wait (get_int W i) None) else W0.

(** Intention [i], on the stack at [pos] (not counting leading empty ones), is
    executed: its current instruction is run, or, if it has none, it is finished. *)
Definition executes {FR : Front} (n a pos i : nat) (W : world) (r : res bool) (W' : world) : Prop :=
  exists W1, fetched a i W W1 /\
    match i_pc (get_int W i) with
    | Some _ => run_instr n a i W1 = (r, W')
    | None => finish n a pos i W1 = (r, W')
    end.

(** The stack cannot run at any time; the intention can run at any time. *)
Definition stuck (W : world) (stack : list nat) : Prop :=
  match stack with
  | [] => True
  | i :: _ => exists w, i_wait (get_int W i) = Some w /\ forall k, (w_reads W <= k)%N -> pending w k
  end.
Definition free (W : world) (i : nat) : Prop :=
  forall w, i_wait (get_int W i) = Some w -> forall k, (w_reads W <= k)%N -> overdue w k.

(** Program, program counter, event, scope and stack, query stack and
    choicepoint stack. *)
Definition same_run (it it' : intention) : Prop := set_i_wait it' None = set_i_wait it None.

(** The intention is as before; or it waited for an event that has occurred, and
    no longer waits. *)
Definition untouched (it it' : intention) : Prop :=
  it' = it \/ it' = set_i_wait it None /\ exists tr gt event, awaits tr gt event it.

(** What .wait with these arguments waits for, if it starts at the [k]-th
    reading of the clock: a time in milliseconds, an event, or an event for a
    limited time. *)
Definition deadline (k : N) (millis u : num) : Prop :=
  exists secs, num_op fpow NTruediv millis (NInt 1000) = Ok secs /\ num_op fpow NAdd (py_time k) secs = Ok u.
Definition described {FR : Front} (s : pystr) (nv : N) (e : event) : Prop :=
  exists nv', fr_event (if ends_with_dot s then s else s ++ [46%N]) nv = Ok (e, nv').
Inductive waits_for {FR : Front} (k nv : N) : list term -> waiter -> Prop :=
| wf_time millis u : deadline k millis u -> waits_for k nv [TNum millis] (mkwaiter None (Some u))
| wf_event s e : described s nv e -> waits_for k nv [TStr s] (mkwaiter (Some e) None)
| wf_both s e millis u : described s nv e -> deadline k millis u -> waits_for k nv [TStr s; TNum millis] (mkwaiter (Some e) (Some u)).

End WithPy.
