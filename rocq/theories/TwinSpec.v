(** The agents that build_agents makes, and how agents are named. *)
From Verif Require Import Base Num Term Unify Str World Engine Ast Names Build QuerySpec PlanSpec Reach LoadSpec.

(** Where the name of a new agent comes from: the argument, unless it is missing or
    empty, and otherwise the name of the source. *)
Inductive named (source : pystr) : option pystr -> pystr -> Prop :=
| nm_given name : name <> [] -> named source (Some name) name
| nm_empty : named source (Some []) source
| nm_missing : named source None source.

Section Twins.
Context {PY : Py} {FR : Front}.
(** [a] is a new agent with the beliefs, rules and plans of [proto]; nobody else has changed. *)
Record twin (proto a : nat) (name : pystr) (W W' : world) : Prop := mktwin {
  tw_new : a = List.length (w_agents W) /\ List.length (w_agents W') = S a;
  tw_name : a_name (get_agent W' a) = name;
  tw_bel : forall h, beliefs a h W' = beliefs proto h W;
  tw_rules : forall h, rules_of a h W' = rules_of proto h W;
  tw_plans : forall h, plans_of a h W' = plans_of proto h W;
  tw_ints : a_ints (get_agent W' a) = [];
  tw_others : forall b, b <> a -> get_agent W' b = get_agent W b /\ (forall h, beliefs b h W' = beliefs b h W) /\
    (forall h, plans_of b h W' = plans_of b h W);
  tw_env : w_env W' = w_env W;
  tw_all_ints : w_ints W' = w_ints W
}.
(** Agents like [proto] are made one after the other.  Each is named, gets the initial
    goals of the program, and is registered. *)
Inductive copied (n : nat) (path : pystr) (g : aagent) (proto : nat) : list nat -> world -> world -> Prop :=
| cp_nil W : copied n path g proto [] W W
| cp_cons name a l W W0 W1 W' : make_name path (map fst (w_env W)) = Ok name -> twin proto a name W W0 ->
    raised n a (map (pair GtAchieve) (ag_goals g)) W0 W1 ->
    copied n path g proto l (set_env W1 (w_env W1 ++ [(name, a)])) W' -> copied n path g proto (a :: l) W W'.
End Twins.
