(** C63: the scope of a variable is its clause.  Specification: ScopeSpec.v
    (variables by name), FlowSpec.v (what a body does). *)
From Verif Require Import Base Num Term Unify Str World Engine Step Ast Names Build InstSpec FlowSpec ScopeSpec ScopeFacts BelCor ExPy ExPlan.

(** A rule: there is one naming for head and condition.  Its variables are new. *)
Theorem C63_rule : forall (PY : Py), PyLawful PY -> forall acts r lg k x lg' k', clause (build_rule acts r) lg k = (Ok x, lg', k') ->
  (k <= k')%N /\ exists env, fresh_names k k' env /\ stands None env (lit_ast (ar_head r)) (r_head x) /\ asks acts env (ar_cons r) (r_query x).
Proof. exact @rule_stands. Qed.
Print Assumptions C63_rule.

(** A plan: one naming for head, context and body.  Only what [-+] removes has
    names of its own. *)
Theorem C63_plan : forall (PY : Py), PyLawful PY -> forall acts p lg k x lg' k', clause (build_plan acts p) lg k = (Ok x, lg', k') ->
  (k <= k')%N /\ p_trig x = ae_trig (ap_event p) /\ p_gt x = ae_gt (ap_event p) /\
  exists env l, fresh_names k k' env /\ stands None env (lit_ast (ae_head (ap_event p))) (p_head x) /\
    match ap_ctx p with Some t => asks acts env t (p_ctx x) | None => p_ctx x = QTrue end /\
    match ap_body p with Some fs => order acts k k' env fs l | None => l = [] end /\
    follows (p_code x) (Some 0%nat) (begin l).
Proof. exact @plan_stands. Qed.
Print Assumptions C63_plan.

(** A belief or goal of the program. *)
Theorem C63_literal : forall (PY : Py), PyLawful PY -> forall l lg k f us ws lg' k', clause (build_lit l) lg k = (Ok (f, us, ws), lg', k') ->
  (k <= k')%N /\ exists env, fresh_names k k' env /\ stands None env (lit_ast l) (TLit f us ws).
Proof. exact @head_stands. Qed.
Print Assumptions C63_literal.

(** Clauses that are built one after the other have no variable in common. *)
Theorem C63_apart : forall k1 k2 k3 k4 env env' x y i, fresh_names k1 k2 env -> fresh_names k3 k4 env' -> (k2 <= k3)%N ->
  env x = Some i -> env' y <> Some i.
Proof. exact fresh_apart. Qed.
Print Assumptions C63_apart.

(** The naming and the value are determined by each other: with the same naming,
    terms without annotations have the same value. *)
Theorem C63_same : forall (PY : Py) env t u, stands None env t u -> no_annots t -> forall u', stands None env t u' -> u' = u.
Proof. exact @stands_same. Qed.
Print Assumptions C63_same.

(** [+!g(X) : p(X, Y) & not q(_) <- -+n(X + 1, Y); !h(Y)]: X and Y are the variables 0
    and 1 everywhere, but what [-+] removes is [n(_, Z)] with another variable. *)
Definition scope_plan : aplan := on_goal "g" "X"
  (Some (ABin BAnd (al "p" [av "X"; av "Y"]) (AUn UNot (al "q" [av "_"]))))
  (Some [FForm FtReplace (al "n" [ABin (BNum NAdd) (av "X") (num1 1); av "Y"]); FForm FtAchieve (al "h" [av "Y"])]).
Definition tl (f : String.string) (ts : list term) : term := TLit (s2p f) ts [].
Definition scope_built := clause (@build_plan PyEx stdlib_actions scope_plan) (log_new None) 5.
Example C63_example : exists x lg, scope_built = (Ok x, lg, 10%N) /\
  p_head x = tl "g" [TVar 5] /\
  p_ctx x = QAnd (QTerm (tl "p" [TVar 5; TVar 6])) (QNot (QTerm (tl "q" [TWild 7]))) /\
  map in_op (p_code x) = [INoop; ICall TrRem GtBelief (tl "n" [TWild 8; TVar 9]) false;
    ICall TrAdd GtBelief (tl "n" [TBin (BNum NAdd) (TVar 5) (TNum (NInt 1)); TVar 6]) false;
    ICall TrAdd GtAchieve (tl "h" [TVar 6]) false].
Proof. eexists _, _. split; [vm_compute; reflexivity|]. repeat split; vm_compute; reflexivity. Qed.
