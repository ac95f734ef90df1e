(** agentspeak.optimizer.build_agent_optimized (agentspeak/optimizer.py:1854-1862).

    [CallbackVisitor.visit_plan] (154-162) reads [ast_plan.annotations], an
    attribute that AstPlan does not have (agentspeak/parser.py:233-242), so no
    plan gets past the search for actions with which [init_agent] begins.  What
    the optimizer does to plans (725-760, 833-1770) is therefore never reached
    and not modelled. *)
From Verif Require Import Base Num Term Str World Ast Names Lex Parse Fold Engine Build Program.

Definition rseq (a b : res unit) : res unit := match a with Ok _ => b | Err e => Err e end.
Definition visit_each {A} (f : A -> res unit) : list A -> res unit :=
  fix each (l : list A) : res unit := match l with [] => Ok tt | x :: l' => rseq (f x) (each l') end.

(** CallbackVisitor (45-214) on terms: visit_binary_op, visit_unary_op,
    visit_variable, visit_const, visit_list, visit_literal.  There is no
    visit_linked_list.  Where folding left [None] there is nothing to visit. *)
Fixpoint visit_term (t : ast) : res unit :=
  match t with
  | ABool _ | ANum _ | AStr _ => Ok tt
  | AVar v => match v with [] => Err EAttr | _ => Ok tt end
  | ALit _ ts an => rseq (visit_each visit_term ts) (visit_each visit_term an)
  | AList ts => visit_each visit_term ts
  | ALL _ _ => Err EAttr
  | AUn _ a => visit_term a
  | ABin _ l r => rseq (visit_term l) (visit_term r)
  end.

Definition visit_rule (r : arule) : res unit := rseq (visit_term (lit_ast (ar_head r))) (visit_term (ar_cons r)).
Definition visit_plan (p : aplan) : res unit := Err EAttr.

(** visit_agent (120-128); a goal is visited for its atom (190-194). *)
Definition visit_agent (g : aagent) : res unit :=
  rseq (visit_each visit_rule (ag_rules g))
 (rseq (visit_each (fun b => visit_term (lit_ast b)) (ag_beliefs g))
 (rseq (visit_each (fun x => visit_term (lit_ast x)) (ag_goals g))
       (visit_each visit_plan (ag_plans g)))).

(** collect_actions (1781-1784) with collect_type (1771-1778): the literals with
    a dot in the functor, in the order of the visits. *)
Fixpoint term_actions (t : ast) : list (pystr * list ast) :=
  match t with
  | ALit f ts an =>
      (if has_dot f then [(f, ts)] else []) ++ flat_map term_actions ts ++ flat_map term_actions an
  | AList ts => flat_map term_actions ts
  | AUn _ a => term_actions a
  | ABin _ l r => term_actions l ++ term_actions r
  | _ => []
  end.
Definition collect_actions (g : aagent) : res (list (pystr * list ast)) :=
  match visit_agent g with
  | Err e => Err e
  | Ok _ => Ok (flat_map (fun r => term_actions (lit_ast (ar_head r)) ++ term_actions (ar_cons r)) (ag_rules g)
                ++ flat_map (fun b => term_actions (lit_ast b)) (ag_beliefs g)
                ++ flat_map (fun x => term_actions (lit_ast x)) (ag_goals g))
  end.

Definition one_of (s : pystr) (l : list string) : bool := existsb (fun x => pystr_eqb s (s2p x)) l.

(** handle_inf_mark_nosidef (718-727) *)
Definition mark_nosidef (ts : list ast) : res unit :=
  match ts with
  | [AStr _] => Ok tt
  | _ => Err EAggregated
  end.

(** handle_inf_side_effect (784-808), and the comparison that follows (601-606):
    AFFECT_PARAM_INTERVAL is an attribute too, but it is a method, which cannot
    be compared with a number. *)
Definition side_effect (ts : list ast) : res unit :=
  match ts with
  | AStr af :: AStr ef :: _ =>
      if pystr_eqb af (s2p "AFFECT_PARAM") then Err EAggregated
      else if negb (one_of af ["AFFECT_PARAM_INTERVAL"; "AFFECT_PARAM_ALL"; "AFFECT_SCOPE"; "AFFECT_UNIVERSE"]%string) then Err EAggregated
      else if negb (one_of ef ["EFFECT_CHANGE"; "EFFECT_DOBIND"; "EFFECT_BIND"; "EFFECT_REQUIRE_BOUND"; "EFFECT_UNBIND"; "EFFECT_ALL"]%string)
           then Err EAggregated
      else if pystr_eqb af (s2p "AFFECT_PARAM_INTERVAL") then Err EType
      else Ok tt
  | _ => Err EAggregated
  end.

(** init_agent (703-716).  The [return] is inside the loop: only the first
    action is looked at.  Whether its effects are unbounded only decides about a
    warning here. *)
Definition init_agent (g : aagent) : res unit :=
  match collect_actions g with
  | Err e => Err e
  | Ok [] => Ok tt
  | Ok ((f, ts) :: _) =>
      if pystr_eqb f (s2p ".inf_mark_nosidef") then mark_nosidef ts
      else if pystr_eqb f (s2p ".inf_side_effect") then side_effect ts
      else Ok tt
  end.

(** InferenceCallback.apply (285-288, 682-702): the actions of stdlib.py are
    registered (none of them makes register_action raise), then the agent is
    visited.  Rules, beliefs and goals are kept (698-702). *)
Definition optimize (g : aagent) : res aagent := match init_agent g with Ok _ => Ok g | Err e => Err e end.

Section WithPy.
Context {PY : Py} {FR : Front}.
Variable files : pystr -> file.

(** build_agent_optimized (1854-1862).  [log.throw()] comes after the
    optimization. *)
Definition build_agent_optimized (n : nat) (acts : actions act) (source_name : pystr) (lines : list pystr)
  (W : world) : res nat * world :=
  match tokenize 1 lines with
  | Err e => (Err e, W)
  | Ok items =>
      match parse_program files n source_name [] false (mkpst items (log_new (Some 3%nat)) true) with
      | (Err e, _) => (Err e, W)
      | (Ok g, s) =>
          match optimize g with
          | Err e => (Err e, W)
          | Ok g' =>
              match log_throw (p_log s) with
              | Err e => (Err e, W)
              | Ok _ => build_agent_from_ast n acts source_name g' W
              end
          end
      end
  end.
End WithPy.
