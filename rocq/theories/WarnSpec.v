(** What is reported as suspicious while a program is read. *)
From Verif Require Import Base Num Term Str World Engine Ast Names Quote Lex Parse Fold Program GramSpec SrcSpec.

(** The sum over a list. *)
Inductive total {A} (R : A -> nat -> Prop) : list A -> nat -> Prop :=
| to_nil : total R [] 0
| to_cons x l i j : R x i -> total R l j -> total R (x :: l) (i + j).

(** A variable occurs in a term. *)
Inductive occurs : pystr -> ast -> Prop :=
| oc_var v : occurs v (AVar v)
| oc_arg v f ts an t : In t ts \/ In t an -> occurs v t -> occurs v (ALit f ts an)
| oc_item v ts t : In t ts -> occurs v t -> occurs v (AList ts)
| oc_head v h t : occurs v h -> occurs v (ALL h t)
| oc_tail v h t : occurs v t -> occurs v (ALL h t)
| oc_un v o a : occurs v a -> occurs v (AUn o a)
| oc_left v o a b : occurs v a -> occurs v (ABin o a b)
| oc_right v o a b : occurs v b -> occurs v (ABin o a b).

(** The number of operators that are not below others. *)
Inductive operators : ast -> nat -> Prop :=
| op_un o a : operators (AUn o a) 1
| op_bin o a b : operators (ABin o a b) 1
| op_bool b : operators (ABool b) 0
| op_num x : operators (ANum x) 0
| op_str s : operators (AStr s) 0
| op_var v : operators (AVar v) 0
| op_lit f ts an i j : total operators ts i -> total operators an j -> operators (ALit f ts an) (i + j)
| op_list ts i : total operators ts i -> operators (AList ts) i
| op_linked h t i j : operators h i -> operators t j -> operators (ALL h t) (i + j).

(** Each belief with variables is reported once. *)
Inductive belief_reports : alit -> nat -> Prop :=
| br_open b v : occurs v (lit_ast b) -> belief_reports b 1
| br_closed b : (forall v, ~ occurs v (lit_ast b)) -> belief_reports b 0.

(** Each operator in the label of a plan is reported, and each plan for the removal of a goal. *)
Definition recovery (p : aplan) : Prop := ae_gt (ap_event p) <> GtBelief /\ ae_trig (ap_event p) = TrRem.
Definition label_reports (o : option alit) (n : nat) : Prop := match o with Some l => operators (lit_ast l) n | None => n = 0%nat end.
Inductive plan_reports : aplan -> nat -> Prop :=
| pr_recovery p n : recovery p -> label_reports (ap_annot p) n -> plan_reports p (n + 1)
| pr_other p n : ~ recovery p -> label_reports (ap_annot p) n -> plan_reports p n.

(** Reports about an agent that is read completely. *)
Definition agent_reports (g : aagent) (n : nat) : Prop := exists i j,
  total belief_reports (ag_beliefs g) i /\ total plan_reports (ag_plans g) j /\ n = (i + j)%nat.

(** Rules and beliefs are reported if they come after a plan, and if they look
    like actions.  [after]: there was a plan before the clause.  Then whether
    there was one after it. *)
Definition looks_like_action (l : alit) (n : nat) : Prop := (In 46%N (l_functor l) /\ n = 1%nat) \/ (~ In 46%N (l_functor l) /\ n = 0%nat).
Definition late (after : bool) : nat := if after then 1 else 0.
Inductive clause_reports (after : bool) : list tok -> aagent -> nat -> bool -> Prop :=
| kr_rule a r d n : clause_of a (inl r) -> the "." d -> looks_like_action (ar_head r) n ->
    clause_reports after (a ++ [d]) (mkaagent [r] [] [] []) (late after + n) after
| kr_belief a b d n : clause_of a (inr b) -> the "." d -> looks_like_action b n ->
    clause_reports after (a ++ [d]) (mkaagent [] [b] [] []) (late after + n) after
| kr_goal a g d : goal_of a g -> the "." d -> clause_reports after (a ++ [d]) (mkaagent [] [] [g] []) 0 after
| kr_plan a p d : plan_of a p -> the "." d -> clause_reports after (a ++ [d]) (mkaagent [] [] [] [p]) 0 true.

(** The conditions of rules and plans: literals that look like actions, but are none. *)
Inductive unknown_actions (acts : actions act) : ast -> nat -> Prop :=
| ua_unknown f ts an : In 46%N f -> (forall a, actions_lookup acts f (List.length ts) <> Ok a) -> unknown_actions acts (ALit f ts an) 1
| ua_known f ts an a : actions_lookup acts f (List.length ts) = Ok a -> unknown_actions acts (ALit f ts an) 0
| ua_belief f ts an : ~ In 46%N f -> unknown_actions acts (ALit f ts an) 0
| ua_and a b i j : unknown_actions acts a i -> unknown_actions acts b j -> unknown_actions acts (ABin BAnd a b) (i + j)
| ua_or a b i j : unknown_actions acts a i -> unknown_actions acts b j -> unknown_actions acts (ABin BOr a b) (i + j)
| ua_not a i : unknown_actions acts a i -> unknown_actions acts (AUn UNot a) i
| ua_compared o a b : o <> BAnd -> o <> BOr -> unknown_actions acts (ABin o a b) 0
| ua_var v : unknown_actions acts (AVar v) 0
| ua_bool b : unknown_actions acts (ABool b) 0.

(** The formulas of a body, rules and plans: the terms in conditions and the
    formulas that are neither events nor goals. *)
Inductive form_unknown (acts : actions act) : form -> nat -> Prop :=
| fu_term t n : unknown_actions acts t n -> form_unknown acts (FForm FtTerm t) n
| fu_event ft t : ft <> FtTerm -> form_unknown acts (FForm ft t) 0
| fu_for c b i j : unknown_actions acts c i -> total (form_unknown acts) b j -> form_unknown acts (FFor c b) (i + j)
| fu_while c b i j : unknown_actions acts c i -> total (form_unknown acts) b j -> form_unknown acts (FWhile c b) (i + j)
| fu_if c b i j : unknown_actions acts c i -> total (form_unknown acts) b j -> form_unknown acts (FIf c b None) (i + j)
| fu_else c b b' i j k : unknown_actions acts c i -> total (form_unknown acts) b j -> total (form_unknown acts) b' k ->
    form_unknown acts (FIf c b (Some b')) (i + j + k).
Definition rule_unknown (acts : actions act) (r : arule) : nat -> Prop := unknown_actions acts (ar_cons r).
Definition optional {A} (R : A -> nat -> Prop) (o : option A) (n : nat) : Prop := match o with Some x => R x n | None => n = 0%nat end.
Definition plan_unknown (acts : actions act) (p : aplan) (n : nat) : Prop := exists i j,
  optional (unknown_actions acts) (ap_ctx p) i /\ optional (total (form_unknown acts)) (ap_body p) j /\ n = (i + j)%nat.

Section WithPy.
Context {PY : Py}.
Variable files : pystr -> file.

(** The number of reports about a program (see [program] in SrcSpec.v): included
    files and blocks are reported about by themselves first, blocks also because
    they are ignored. *)
Inductive program_reports : pystr -> list pystr -> bool -> list tok -> aagent -> nat -> Prop :=
| w_end file within after : program_reports file within after [] nothing 0
| w_clause file within after after' a c l g i j : clause_reports after a c i after' -> program_reports file within after' l g j ->
    program_reports file within after (a ++ l) (followed c g) (i + j)
| w_include file within after a name path lines b h h' l g i j k : include_of a name -> path = join_path (dirname file) name ->
    ~ In path within -> files path = File lines -> tokenize 1 lines = Ok (map ITok b) ->
    program_reports path (normpath path :: within) false b h i -> validated h h' -> agent_reports h' j ->
    program_reports file within after l g k -> program_reports file within after (a ++ l) (followed h' g) (i + j + k)
| w_block file within after a b h h' c l g i j k : begin_of a -> program_reports file (normpath file :: within) false b h i ->
    validated h h' -> agent_reports h' j -> end_of c ->
    program_reports file within after l g k -> program_reports file within after (a ++ b ++ c ++ l) (followed h' g) (1 + i + j + k).
End WithPy.
