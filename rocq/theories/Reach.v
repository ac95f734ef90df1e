(** The states of a system that can be reached: environments are created,
    agents are built, agents step, and Python code raises events at agents. *)
From Verif Require Import Base Num Term Unify Str World Engine Step Ast Names Build QuerySpec.

Section WithPy.
Context {PY : Py} {FR : Front}.

(** [agent.call(trigger, goal_type, term, Intention(), delayed)] from outside. *)
Definition outside_call (n a : nat) (tr : trig) (gt : gtype) (t : term) (delayed : bool) (W : world) : res bool * world :=
  let '(r, s) := with_new (fun ci => call n a tr gt t ci delayed) (bst0, W) in (r, snd s).

(** Whatever an operation returns or raises, the system is in the resulting
    state afterwards. *)
Inductive reach : world -> Prop :=
| rc_env : reach world0
| rc_build W n acts path g r W' :
    reach W -> build_agent_from_ast n acts path g W = (r, W') -> reach W'
| rc_builds W n acts source name count g r W' :
    reach W -> build_agents n acts source name count g W = (r, W') -> reach W'
| rc_step W n a r W' :
    reach W -> (a < List.length (w_agents W))%nat -> step n a W = (r, W') -> reach W'
| rc_call W n a tr gt t delayed r W' :
    reach W -> (a < List.length (w_agents W))%nat -> outside_call n a tr gt t delayed W = (r, W') -> reach W'.

(** The same, without build_agents (842-866), whose agents share their belief
    sets and plan lists. *)
Inductive single : world -> Prop :=
| sg_env : single world0
| sg_build W n acts path g r W' :
    single W -> build_agent_from_ast n acts path g W = (r, W') -> single W'
| sg_step W n a r W' :
    single W -> (a < List.length (w_agents W))%nat -> step n a W = (r, W') -> single W'
| sg_call W n a tr gt t delayed r W' :
    single W -> (a < List.length (w_agents W))%nat -> outside_call n a tr gt t delayed W = (r, W') -> single W'.

(** Every belief is variable-free and stored under its functor and arity; no
    two beliefs are equal. *)
Definition fits (g : group) (b : term) : Prop :=
  exists args annots, b = TLit (fst g) args annots /\ List.length args = snd g.

End WithPy.
