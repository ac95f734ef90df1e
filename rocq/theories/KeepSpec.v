(** Which programs leave the beliefs of one kind (functor and arity) alone, as
    can be seen from their text, and what can happen in a system. *)
From Verif Require Import Base Num Term Unify Str World Engine Step Ast Names Build QuerySpec Reach.

(** A literal that is written out and has another functor or arity than [g]. *)
Definition other (g : group) (t : ast) : Prop :=
  match t with ALit f ts _ => (f, List.length ts) <> g | _ => False end.

(** A message with a fixed force: a goal to adopt or drop, or a belief of
    another kind to adopt or drop. *)
Definition message_spares (g : group) (force msg : ast) : Prop :=
  match force with
  | ALit f [] _ =>
      In f [s2p "achieve"; s2p "unachieve"] \/ In f [s2p "tell"; s2p "untell"] /\ other g msg
  | _ => False
  end.

(** The actions that can change beliefs are used for other kinds only. *)
Definition action_spares (g : group) (ac : act) (ts : list ast) : Prop :=
  match ac with
  | ASend => match ts with [_; force; msg] => message_spares g force msg | _ => False end
  | ABroadcast => match ts with [force; msg] => message_spares g force msg | _ => False end
  | AAbolish => match ts with [t] => other g t | _ => False end
  | _ => True
  end.

Fixpoint condition_spares (g : group) (acts : actions act) (t : ast) : Prop :=
  match t with
  | ALit f ts _ =>
      match actions_lookup acts f (List.length ts) with
      | Ok ac => action_spares g ac ts
      | Err _ => True
      end
  | ABin BAnd l r | ABin BOr l r => condition_spares g acts l /\ condition_spares g acts r
  | AUn UNot a => condition_spares g acts a
  | _ => True
  end.

(** Bodies: beliefs that are added, removed or replaced are of other kinds. *)
Fixpoint form_spares (g : group) (acts : actions act) (f : form) : Prop :=
  let all := fix all (l : list form) : Prop :=
    match l with [] => True | f :: l' => form_spares g acts f /\ all l' end in
  match f with
  | FForm ft t =>
      match ft with
      | FtAdd | FtRemove | FtReplace => other g t
      | FtTerm => condition_spares g acts t
      | FtTest | FtAchieve | FtAchieveLater => True
      end
  | FFor c b | FWhile c b => condition_spares g acts c /\ all b
  | FIf c ib eb => condition_spares g acts c /\ all ib /\ match eb with Some b => all b | None => True end
  end.

Definition plan_spares (g : group) (acts : actions act) (p : aplan) : Prop :=
  match ap_ctx p with Some c => condition_spares g acts c | None => True end /\
  match ap_body p with Some b => Forall (form_spares g acts) b | None => True end.

Definition program_spares (g : group) (acts : actions act) (p : aagent) : Prop :=
  Forall (fun r => condition_spares g acts (ar_cons r)) (ag_rules p) /\
  Forall (plan_spares g acts) (ag_plans p).

(** No initial beliefs of this kind. *)
Definition begins_without (g : group) (p : aagent) : Prop :=
  Forall (fun l => other g (lit_ast l)) (ag_beliefs p).

Definition other_term (g : group) (t : term) : Prop :=
  match t with TLit f args _ => (f, List.length args) <> g | _ => False end.

Section WithPy.
Context {PY : Py} {FR : Front}.

(** What happens in a system in which all programs leave [g] alone, whatever the
    operations return or raise: agents are built, step, and Python code raises
    events (of belief addition or removal, achievement, test).  If [free],
    initial beliefs and belief events from outside may be of the kind [g]. *)
Inductive happens (g : group) (free : bool) : world -> world -> Prop :=
| hp_step W n a r W' : step n a W = (r, W') -> happens g free W W'
| hp_call W n a tr gt t delayed r W' :
    In gt [GtAchieve; GtTest; GtBelief] -> (gt = GtBelief -> free = true \/ other_term g t) ->
    outside_call n a tr gt t delayed W = (r, W') -> happens g free W W'
| hp_build W n acts path p r W' :
    program_spares g acts p -> (free = true \/ begins_without g p) ->
    build_agent_from_ast n acts path p W = (r, W') -> happens g free W W'
| hp_builds W n acts source name count p r W' :
    program_spares g acts p -> (free = true \/ begins_without g p) ->
    build_agents n acts source name count p W = (r, W') -> happens g free W W'.

Inductive history (g : group) (free : bool) (W : world) : world -> Prop :=
| hi_nil : history g free W W
| hi_snoc W1 W2 : history g free W W1 -> happens g free W1 W2 -> history g free W W2.

(** Steps and events only. *)
Inductive ongoing (g : group) (W : world) : world -> Prop :=
| og_nil : ongoing g W W
| og_step W1 n a r W2 : ongoing g W W1 -> step n a W1 = (r, W2) -> ongoing g W W2
| og_call W1 n a tr gt t delayed r W2 : ongoing g W W1 ->
    In gt [GtAchieve; GtTest; GtBelief] -> (gt = GtBelief -> other_term g t) ->
    outside_call n a tr gt t delayed W1 = (r, W2) -> ongoing g W W2.

End WithPy.
