(** Running all agents: what Environment.run does. *)
From Verif Require Import Base Num Term Unify Str World Engine Step.

Section WithPy.
Context {PY : Py} {FR : Front}.

Definition registered (W : world) (a : nat) : Prop := In a (map snd (w_env W)).

(** An intention of [a] that is not below another one waits until [u]. *)
Definition waits_until (W : world) (a : nat) (u : num) : Prop :=
  exists i rest w, In (i :: rest) (a_ints (get_agent W a)) /\ i_wait (get_int W i) = Some w /\ wt_until w = Some u.

(** All intentions of [a] are finished, or wait without a deadline, or for an
    intention above that does. *)
Definition at_rest (W : world) (a : nat) : Prop := forall stack, In stack (a_ints (get_agent W a)) ->
  stack = [] \/ exists i rest w, stack = i :: rest /\ i_wait (get_int W i) = Some w /\ wt_until w = None.

(** [u] is the earliest of the deadlines of these agents (if none of them is NaN). *)
Definition earliest (W : world) (those : nat -> Prop) (u : num) : Prop :=
  (exists a, those a /\ waits_until W a u) /\
  ((forall a v, those a -> waits_until W a v -> is_nan v = false) ->
   forall a v, those a -> waits_until W a v -> num_ord CLe u v = true).

(** Each agent in turn makes a step, without an error; has any been able to? *)
Inductive turns (n : nat) : list nat -> world -> bool -> world -> Prop :=
| tn_nil W : turns n [] W false W
| tn_cons a l W b W1 c W' : step n a W = (Ok b, W1) -> turns n l W1 c W' -> turns n (a :: l) W (b || c) W'.

(** It is possible to sleep until [u], for [d] seconds; the clock is read once. *)
Definition sleeps (u : num) (W : world) (d : num) (W' : world) : Prop :=
  num_op fpow NSub u (py_time (w_reads W)) = Ok d /\ num_ord CGe d (NInt 0) = true /\ num_val d <> XPInf /\
  W' = set_reads W (N.succ (w_reads W)).

(** All agents make a step in turn; if none is able to, sleep until the earliest
    deadline; stop when there is none. *)
Inductive runs (n : nat) : world -> list num -> world -> Prop :=
| rn_turn W W1 ds W' : turns n (map snd (w_env W)) W true W1 -> runs n W1 ds W' -> runs n W ds W'
| rn_sleep W W1 u d W2 ds W' : turns n (map snd (w_env W)) W false W1 -> earliest W1 (registered W1) u -> sleeps u W1 d W2 ->
    runs n W2 ds W' -> runs n W (d :: ds) W'
| rn_stop W W1 : turns n (map snd (w_env W)) W false W1 -> (forall a, registered W1 a -> at_rest W1 a) -> runs n W [] W1.

(** The same for one agent.  It also stops at deadline 0. *)
Inductive runs1 (n a : nat) : world -> list num -> world -> Prop :=
| r1_step W W1 ds W' : step n a W = (Ok true, W1) -> runs1 n a W1 ds W' -> runs1 n a W ds W'
| r1_sleep W W1 u d W2 ds W' : step n a W = (Ok false, W1) -> earliest W1 (eq a) u -> sleeps u W1 d W2 ->
    runs1 n a W2 ds W' -> runs1 n a W (d :: ds) W'
| r1_stop W W1 : step n a W = (Ok false, W1) ->
    at_rest W1 a \/ (exists u, earliest W1 (eq a) u /\ num_eqb u (NInt 0) = true) -> runs1 n a W [] W1.

(** Nothing has been executed: the clock may have been read, and empty stacks
    removed. *)
Record nothing_done (W W' : world) : Prop := mkdone {
  nd_ints' : w_ints W' = w_ints W; nd_sets' : w_sets W' = w_sets W; nd_plists' : w_plists W' = w_plists W;
  nd_env' : w_env W' = w_env W; nd_nv' : w_nv W' = w_nv W; nd_tick' : w_tick W' = w_tick W; nd_out' : w_out W' = w_out W;
  nd_ag' : forall b, let x := get_agent W b in let y := get_agent W' b in
    a_name y = a_name x /\ a_bel y = a_bel x /\ a_rules y = a_rules x /\ a_plans y = a_plans x /\
    exists k, a_ints x = repeat [] k ++ a_ints y
}.
End WithPy.
