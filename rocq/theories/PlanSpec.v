(** Which plan handles an event, in terms of the list-of-solutions semantics. *)
From Verif Require Import Base Num Term Unify Str World Engine QuerySpec BelSpec.

(** The plans of an agent for a kind of event, in program order. *)
Definition plans_of (a : nat) (g : pgroup) (W : world) : list plan :=
  match assoc pgroup_eqb g (a_plans (get_agent W a)) with
  | Some r => get_plist W r
  | None => []
  end.

Inductive choice : Type :=
| Chosen (p : plan) (s : scope) (nv : N)
| NoPlan (nv : N)
| Fails (e : exc)
| CutOff.

Section WithPy.
Context {PY : Py}.

(** The ways in which a plan is applicable to an event, when nothing is bound. *)
Definition applicable (d : nat) (D : db) (p : plan) (event : term) (nv : N) : trace :=
  sols d D (QAnd (QUnify (p_head p) event) (p_ctx p)) [] nv.

(** The first plan for which the query "head matches the event, and the context
    holds" has a solution when nothing is bound; its first solution. *)
Fixpoint select (d : nat) (D : db) (ps : list plan) (event : term) (nv : N) : choice :=
  match ps with
  | [] => NoPlan nv
  | p :: ps' =>
      match sols d D (QAnd (QUnify (p_head p) event) (p_ctx p)) [] nv with
      | TSol s nv' _ => Chosen p s nv'
      | TEnd nv' => select d D ps' event nv'
      | TErr e => Fails e
      | TCut => CutOff
      end
  end.

(** ** Events *)

(** Events that are handled by plans. *)
Definition plan_event (tr : trig) (gt : gtype) : bool :=
  match gt, tr with
  | GtBelief, _ | GtTest, _ => true
  | GtAchieve, TrAdd => true
  | _, _ => false
  end.

(** The intention waits for this event: an event of this kind whose head
    matches. *)
Definition awaits (tr : trig) (gt : gtype) (event : term) (it : intention) : Prop :=
  exists e u s', i_wait it = Some (mkwaiter (Some e) u) /\ ev_trig e = tr /\ ev_gt e = gt /\ finds [] (ev_head e) event s'.

(** It is decided whether the intention waits for this event. *)
Definition wait_decided (tr : trig) (gt : gtype) (event : term) (it : intention) : Prop :=
  forall e u, i_wait it = Some (mkwaiter (Some e) u) -> ev_trig e = tr -> ev_gt e = gt ->
    (exists s', finds [] (ev_head e) event s') \/ misses [] (ev_head e) event.

(** [i] is on top of one of the stacks. *)
Definition on_top (i : nat) (stacks : list (list nat)) : Prop := exists rest, In (i :: rest) stacks.

(** The intentions after an event at an agent with these stacks: those that
    waited for it no longer wait; otherwise the existing intentions are
    unchanged. *)
Definition wakened (tr : trig) (gt : gtype) (event : term) (stacks : list (list nat)) (W W' : world) : Prop :=
  (List.length (w_ints W) <= List.length (w_ints W'))%nat /\
  forall i, (i < List.length (w_ints W))%nat ->
    (on_top i stacks /\ awaits tr gt event (get_int W i) -> get_int W' i = set_i_wait (get_int W i) None) /\
    (~ (on_top i stacks /\ awaits tr gt event (get_int W i)) -> get_int W' i = get_int W i).

(** Where a new intention goes: on top of the first stack whose top is the
    caller; if there is none, on a new stack at the end. *)
Fixpoint placed (caller new : nat) (stacks : list (list nat)) : list (list nat) :=
  match stacks with
  | [] => [[new]]
  | stack :: stacks' =>
      match stack with
      | i :: _ => if Nat.eqb i caller then (new :: stack) :: stacks' else stack :: placed caller new stacks'
      | [] => stack :: placed caller new stacks'
      end
  end.

(** Beliefs, rules, plans and registered agents are the same. *)
Record same_minds (W W' : world) : Prop := mksame {
  sm_bel : forall a g, beliefs a g W' = beliefs a g W;
  sm_rules : forall a, a_rules (get_agent W' a) = a_rules (get_agent W a);
  sm_plans : forall a g, plans_of a g W' = plans_of a g W;
  sm_env : w_env W' = w_env W
}.

(** The plan [p] has been started with the bindings [s] for the event: a new
    intention that has not run yet, on top of the caller's stack or on its own. *)
Record started (a : nat) (p : plan) (s : scope) (event t : term) (ci : nat) (delayed : bool) (W W' : world) : Prop := mkstarted {
  sd_count : List.length (w_ints W') = S (List.length (w_ints W));
  sd_int : exists st, b_scope st = s /\ get_int W' (List.length (w_ints W)) = mkint (p_code p) (Some 0%nat) (Some event) (Some t) st [] [] None;
  sd_place : a_ints (get_agent W' a) =
    if delayed then a_ints (get_agent W a) ++ [[List.length (w_ints W)]] else placed ci (List.length (w_ints W)) (a_ints (get_agent W a));
  sd_other : forall b, b <> a -> a_ints (get_agent W' b) = a_ints (get_agent W b)
}.

(** The belief base is updated before the event is handled. *)
Definition updated {FR : Front} (n a : nat) (tr : trig) (gt : gtype) (t : term) (s s1 : ST) : Prop :=
  match gt, tr with
  | GtBelief, TrAdd => add_belief n a t s = (Ok tt, s1)
  | GtBelief, TrRem => remove_belief n a t s = (Ok true, s1)
  | _, _ => s1 = s
  end.

(** The agent is about to handle an event with the head [event], the instance of
    [t] with brand new variables.  Only queries that leave the belief base alone
    are considered in contexts and rules. *)
Record poised (a : nat) (tr : trig) (gt : gtype) (t : term) (s : scope) (W : world) (event : term) (k : N) : Prop := mkpoised {
  po_event : exists n m, freeze n t s ([], w_nv W) = (Ok event, (m, k));
  po_lit : is_literal event = true;
  po_kind : plan_event tr gt = true;
  po_agent : (a < List.length (w_agents W))%nat;
  po_wait : forall i, on_top i (a_ints (get_agent W a)) -> wait_decided tr gt event (get_int W i);
  po_db : proper_db false (db_of a W);
  po_ctx : Forall (fun p => proper false (p_ctx p) = true) (plans_of a (tr, gt, lit_group event) W)
}.

(** The plan that is chosen for the event. *)
Definition chosen (d a : nat) (tr : trig) (gt : gtype) (W : world) (event : term) (k : N) : choice :=
  select d (db_of a W) (plans_of a (tr, gt, lit_group event) W) event k.

(** Beliefs, plans, stacks and intentions are the same, except that intentions
    that waited for the event no longer wait. *)
Definition only_wakens (a : nat) (tr : trig) (gt : gtype) (event : term) (W W' : world) : Prop :=
  same_minds W W' /\ wakened tr gt event (a_ints (get_agent W a)) W W' /\
  (forall b, a_ints (get_agent W' b) = a_ints (get_agent W b)).
End WithPy.
