(** Which programs contain something that cannot be built. *)
From Verif Require Import Base Num Term Unify Str World Ast Names.

(** A term that is acceptable as a query: literals, variables, booleans, [=],
    comparisons, and [&], [|], [not] of such. *)
Fixpoint good_query (t : ast) : bool :=
  match t with
  | ALit _ _ _ | AVar _ | ABool _ => true
  | ABin BAnd l r | ABin BOr l r => good_query l && good_query r
  | ABin BUnify _ _ => true
  | ABin op _ _ => is_comp op
  | AUn UNot a => good_query a
  | _ => false
  end.

Fixpoint good_form (f : form) : bool :=
  match f with
  | FForm FtTerm t => good_query t
  | FForm _ _ => true
  | FFor g b => good_query g && forallb good_form b
  | FIf c ib eb => good_query c && forallb good_form ib && match eb with Some b => forallb good_form b | None => true end
  | FWhile c b => good_query c && forallb good_form b
  end.

Definition good_plan (p : aplan) : bool :=
  match ap_ctx p with Some t => good_query t | None => true end &&
  match ap_body p with Some b => forallb good_form b | None => true end.

Definition good_agent (g : aagent) : bool :=
  forallb (fun r => good_query (ar_cons r)) (ag_rules g) && forallb good_plan (ag_plans g).
