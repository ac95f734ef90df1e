(** Plans told as text. *)
From Verif Require Import Base Num Term Unify Str World Engine Step Ast Names Build Front QuerySpec PlanSpec BelSpec LoadSpec HowSpec.

Section WithPy.
Context {PY : Py}.

(** Agent [a] has got the plans [xs], in this order, each after the plans it had
    for the same event.  Nobody's plans, beliefs, rules or intentions have changed
    otherwise; but an intention may have stopped waiting. *)
Definition gains (a : nat) (xs : list plan) (W W' : world) : Prop :=
  (forall h, plans_of a h W' = plans_of a h W ++ filter (fun p => pgroup_eqb h (plan_group p)) xs) /\
  (forall b h, b <> a -> plans_of b h W' = plans_of b h W) /\
  (forall b g, beliefs b g W' = beliefs b g W) /\
  (forall b, a_rules (get_agent W' b) = a_rules (get_agent W b)) /\
  (forall b, a_ints (get_agent W' b) = a_ints (get_agent W b)) /\
  w_env W' = w_env W /\ waits_aside W W'.

(** [x] is the plan that the builder makes of the tree [p], with the actions of
    the standard library. *)
Definition built_from (p : aplan) (x : plan) : Prop :=
  exists k lg k', clause (build_plan stdlib_actions p) (log_new None) k = (Ok x, lg, k').

(** The builder accepts the tree (whatever variables are in use). *)
Definition buildable (p : aplan) : Prop := forall k, exists x lg k', clause (build_plan stdlib_actions p) (log_new None) k = (Ok x, lg, k').

(** Nobody waits for an event of being told a plan (the parser does not
    even have such events). *)
Definition no_how_waits (W : world) : Prop :=
  forall i wt ev, i_wait (get_int W i) = Some wt -> wt_event wt = Some ev ->
    ev_gt ev <> GtTellHow /\ ev_gt ev <> GtAskHow.

(** The message of tellHow: the text, and who says it. *)
Definition how_message (s : pystr) (from : list term) : term := TLit (s2p "plain_text") [TStr s] from.
End WithPy.

(** * askHow *)
Section Asking.
Context {PY : Py}.

(** The plans of [a] as a list of groups, each for one kind of event, in the
    order in which the groups were made. *)
Definition plan_groups (a : nat) (W : world) : list (list plan) :=
  map (fun gr => plans_of a (fst gr) W) (a_plans (get_agent W a)).

(** The functor of [p] occurs somewhere in the text [s]. *)
Definition asked_for (s : pystr) (p : plan) : bool := is_substr (p_functor p) s.

(** What is offered: of each group, the last plan that is asked for. *)
Definition last_of {A} (l : list A) : list A := match rev l with x :: _ => [x] | [] => [] end.
Definition offered (s : pystr) (a : nat) (W : world) : list plan :=
  flat_map (fun l => last_of (filter (asked_for s) l)) (plan_groups a W).

(** The text by which a plan is sent. *)
Definition sent_as (p : plan) (s : pystr) : Prop := fst (plan_to_str p) = Ok s.

(** The same plan, except for the texts of its arguments kept for printing. *)
Definition same_plan (p q : plan) : Prop := q = set_p_args p (p_args q).

(** The intentions there were before are the same, except that some may no
    longer wait. *)
Definition ints_aside (W W' : world) : Prop :=
  forall i, (i < List.length (w_ints W))%nat -> get_int W' i = get_int W i \/ get_int W' i = set_i_wait (get_int W i) None.

(** Agent [b] has got the plans [xs]; otherwise nothing has changed, except in
    the texts kept for printing. *)
Definition learns (b : nat) (xs : list plan) (W W' : world) : Prop :=
  (forall h, plans_of b h W' = plans_of b h W ++ filter (fun p => pgroup_eqb h (plan_group p)) xs) /\
  (forall c h, c <> b -> Forall2 same_plan (plans_of c h W) (plans_of c h W')) /\
  (forall c g, beliefs c g W' = beliefs c g W) /\
  (forall c, a_rules (get_agent W' c) = a_rules (get_agent W c)) /\
  (forall c, a_ints (get_agent W' c) = a_ints (get_agent W c)) /\
  w_env W' = w_env W /\ ints_aside W W'.

(** [x] is the plan read from the text of [p]. *)
Definition copy_of (n : nat) (p x : plan) : Prop :=
  exists s q, sent_as p s /\ read_plan n s = Ok q /\ built_from q x.

(** The name in the (last) source annotation. *)
Definition asker (annots : list term) (name : pystr) : Prop :=
  exists before args an rest an' after,
    annots = before ++ TLit (s2p "source") (TLit name args an :: rest) an' :: after /\
    Forall (fun t => forall args an, t <> TLit (s2p "source") args an) after.

(** [x] is the plan that loading makes of the tree [p], with any set of actions. *)
Definition loaded_from (p : aplan) (x : plan) : Prop :=
  exists acts lg k lg' k', clause (build_plan acts p) lg k = (Ok x, lg', k').

(** Variables print as "_X_", three hexadecimal digits, "_" and at least one
    hexadecimal digit (as agentspeak/__init__.py:465-469 prints them). *)
Definition hex_names : Prop :=
  forall v, exists b c d h, vname v = s2p "_X_" ++ b :: c :: d :: 95%N :: h /\
    is_hex b = true /\ is_hex c = true /\ is_hex d = true /\ h <> [] /\ forallb is_hex h = true.

(** Terms without variables and annotations. *)
Fixpoint plain_term (t : ast) : Prop :=
  match t with
  | ABool _ | ANum _ | AStr _ => True
  | AVar _ => False
  | ALit _ ts an => an = [] /\ fold_right and True (map plain_term ts)
  | AList ts => fold_right and True (map plain_term ts)
  | ALL h t => plain_term h /\ plain_term t
  | AUn _ a => plain_term a
  | ABin _ l r => plain_term l /\ plain_term r
  end.

(** Conditions made with & and | of literals, comparisons and unifications of
    literals without variables and annotations. *)
Definition literal_tree (t : ast) : bool := match t with ALit _ _ _ => true | _ => false end.
Fixpoint plain_condition (c : ast) : Prop :=
  match c with
  | ALit _ _ _ => plain_term c
  | ABin BAnd l r | ABin BOr l r => plain_condition l /\ plain_condition r
  | ABin BUnify l r => plain_term c /\ literal_tree l = true /\ literal_tree r = true
  | ABin op _ _ => plain_term c /\ is_comp op = true
  | _ => False
  end.

(** The head has only named variables as arguments and no annotations; the functor does
    not contain "_X_"; there is a body; there is no context, or only a plain one. *)
Definition plain_plan (p : aplan) : Prop :=
  let h := ae_head (ap_event p) in
  Forall (fun t => exists v, t = AVar v /\ v <> s2p "_") (l_terms h) /\ l_annots h = [] /\
  (forall u v, l_functor h <> u ++ s2p "_X_" ++ v) /\
  ap_body p <> None /\ (forall c, ap_ctx p = Some c -> c = ABool true \/ plain_condition c).

(** The same plan with the context written out. *)
Definition full_context (p : aplan) : ast := match ap_ctx p with Some c => c | None => ABool true end.
Definition always (p : aplan) : aplan := mkaplan (ap_annot p) (ap_event p) (Some (full_context p)) (ap_body p).
End Asking.
