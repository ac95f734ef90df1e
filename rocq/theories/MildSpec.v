(** Queries that do not change anybody's mind: without .send, .broadcast and
    .abolish. *)
From Verif Require Import Base Num Term Unify Str World Engine QuerySpec BelSpec PlanSpec.

Fixpoint mild (q : query) : bool :=
  match q with
  | QTrue | QFalse | QTerm _ | QUnify _ _ => true
  | QAct ac _ => match ac with ASend | ABroadcast | AAbolish => false | _ => true end
  | QAnd l r | QOr l r => mild l && mild r
  | QNot q => mild q
  end.

(** All rule bodies and plan contexts are such queries. *)
Definition mild_world (W : world) : Prop := forall a,
  (forall g, Forall (fun r => mild (r_query r) = true) (rules_of a g W)) /\
  (forall h, Forall (fun p => mild (p_ctx p) = true) (plans_of a h W)).

(** Beliefs, rules, plans and names are the same, and the stacks of all agents
    but [a]. *)
Record calm (a : nat) (W W' : world) : Prop := mkcalm {
  kp_minds : same_minds W W';
  kp_name : forall b, a_name (get_agent W' b) = a_name (get_agent W b);
  kp_ints : forall b, b <> a -> a_ints (get_agent W' b) = a_ints (get_agent W b);
  kp_count : List.length (w_agents W') = List.length (w_agents W);
  kp_plist : forall r, get_plist W' r = get_plist W r
}.

(** The agent [b] is the same: beliefs, rules, plans, intention stacks, name. *)
Record alone (b : nat) (W W' : world) : Prop := mkalone {
  al_bel : forall g, beliefs b g W' = beliefs b g W;
  al_rules : a_rules (get_agent W' b) = a_rules (get_agent W b);
  al_plans : forall h, plans_of b h W' = plans_of b h W;
  al_ints : a_ints (get_agent W' b) = a_ints (get_agent W b);
  al_name : a_name (get_agent W' b) = a_name (get_agent W b)
}.
