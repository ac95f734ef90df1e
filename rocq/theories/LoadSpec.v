(** What building an agent from a program does. *)
From Verif Require Import Base Num Term Unify Str World Engine Ast Names Build QuerySpec PlanSpec Reach.

(** The events a plan is for. *)
Definition plan_group (p : plan) : pgroup := (p_trig p, p_gt p, lit_group (p_head p)).

Section WithPy.
Context {PY : Py} {FR : Front}.

(** A rule or plan as built from its syntax tree. *)
Definition made_rule (acts : actions act) (r : arule) (x : rule) : Prop :=
  exists l k l' k', clause (build_rule acts r) l k = (Ok x, l', k').
Definition made_plan (acts : actions act) (p : aplan) (x : plan) : Prop :=
  exists l k l' k', clause (build_plan acts p) l k = (Ok x, l', k').

(** [a] is a new agent with the rules and plans of the program, those for the same
    group in program order; nobody else has changed. *)
Record loaded (acts : actions act) (g : aagent) (a : nat) (name : pystr) (W W' : world) : Prop := mkloaded {
  ld_new : a = List.length (w_agents W) /\ List.length (w_agents W') = S a;
  ld_name : a_name (get_agent W' a) = name;
  ld_rules : exists rs, Forall2 (made_rule acts) (ag_rules g) rs /\
    forall h, rules_of a h W' = filter (fun r => group_eqb h (lit_group (r_head r))) rs;
  ld_plans : exists ps, Forall2 (made_plan acts) (ag_plans g) ps /\
    forall h, plans_of a h W' = filter (fun p => pgroup_eqb h (plan_group p)) ps;
  ld_bel : forall h, beliefs a h W' = [];
  ld_ints : a_ints (get_agent W' a) = [];
  ld_others : forall b, b <> a -> a_ints (get_agent W' b) = a_ints (get_agent W b) /\
    (forall h, rules_of b h W' = rules_of b h W) /\ (forall h, beliefs b h W' = beliefs b h W) /\
    (forall h, plans_of b h W' = plans_of b h W);
  ld_env : w_env W' = w_env W;
  ld_all_ints : w_ints W' = w_ints W
}.

(** The events are raised one after the other, as new intentions. *)
Inductive raised (n a : nat) : list (gtype * alit) -> world -> world -> Prop :=
| rz_nil W : raised n a [] W W
| rz_cons gt t evs W f args annots l l' k r W1 W' :
    clause (build_lit t) l (w_nv W) = (Ok (f, args, annots), l', k) ->
    outside_call n a TrAdd gt (TLit f args annots) true (set_nv W k) = (Ok r, W1) ->
    raised n a evs W1 W' -> raised n a ((gt, t) :: evs) W W'.
End WithPy.
