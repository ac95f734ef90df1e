(** C51, C52: the parser accepts the grammar of GramSpec.v and nothing else. *)
From Verif Require Import Base Num Term Str World Ast Names Quote Lex LexSpec Parse RoundSpec GramSpec GramCor ExGram.

(** C51: what is read as a term is a term of the grammar, with this tree; so
    operators bind and associate as the grammar says. *)
Theorem C51_only : reads_only parse_term (expr LOr).
Proof. exact (proj1 reads_all). Qed.
Print Assumptions C51_only.

(** C51: every term of the grammar is read, up to a token that cannot continue it. *)
Theorem C51_all : forall a x f, expr LOr a x -> Forall lexed a -> lexed f -> stops LOr f -> accepts parse_term a x f.
Proof. exact term_accepts. Qed.
Print Assumptions C51_all.

(** C51: no sequence of tokens is two different terms. *)
Theorem C51_one : forall a x y, expr LOr a x -> expr LOr a y -> Forall lexed a -> x = y.
Proof. exact term_unique. Qed.
Print Assumptions C51_one.

(** Or is looser than and, and than not, not than comparisons, these than sums
    and products. *)
Example C51_case_levels :
  tree_of parse_term "A | not B & C < D + E * F ." =
    Ok (ABin BOr (v "A") (ABin BAnd (AUn UNot (v "B"))
        (ABin (BCmp CLt) (v "C") (ABin (BNum NAdd) (v "D") (ABin (BNum NMul) (v "E") (v "F")))))).
Proof. vm_compute. reflexivity. Qed.
(** Sums and products to the left, powers to the right and before a sign. *)
Example C51_case_sides :
  tree_of parse_term "A - B - C / D mod E ." =
    Ok (ABin (BNum NSub) (ABin (BNum NSub) (v "A") (v "B")) (ABin (BNum NMod) (ABin (BNum NTruediv) (v "C") (v "D")) (v "E"))) /\
  tree_of parse_term "- A ** - B ** C ." =
    Ok (AUn UNeg (ABin (BNum NPow) (v "A") (AUn UNeg (ABin (BNum NPow) (v "B") (v "C"))))).
Proof. vm_compute. split; reflexivity. Qed.
(** Chained comparisons, lists. *)
Example C51_case_chain :
  tree_of parse_term "A < B <= C ." = Ok (ABin BAnd (ABin (BCmp CLt) (v "A") (v "B")) (ABin (BCmp CLe) (v "B") (v "C"))) /\
  tree_of parse_term "[a, B, ] ." = Ok (AList [atom "a"; v "B"]) /\
  tree_of parse_term "[a | B | C] ." = Ok (ALL (atom "a") (ALL (v "B") (v "C"))) /\
  tree_of parse_term "[a, B | C] ." = Err EAggregated.
Proof. vm_compute. repeat split. Qed.
(** The hypotheses of C51_all can be met. *)
Example C51_case : exists a x f, (10 < List.length a)%nat /\ expr LOr a x /\ Forall lexed a /\ lexed f /\ stops LOr f.
Proof. exact term_case. Qed.

(** C52: what is read as a literal, a formula of a body, a plan, a rule or
    belief, or an initial goal belongs to the grammar. *)
Theorem C52_only :
  reads_only parse_literal literal /\ reads_only parse_formula formula /\ reads_only parse_plan plan_of /\
  reads_only parse_rule_or_belief clause_of /\ reads_only parse_initial_goal goal_of.
Proof. exact (proj2 reads_all). Qed.
Print Assumptions C52_only.

(** C52: all of the grammar is read. *)
Theorem C52_literal : forall a x f, literal a x -> Forall lexed a -> lexed f -> stops LAtom f -> accepts parse_literal a x f.
Proof. exact literal_accepts. Qed.
Print Assumptions C52_literal.
Theorem C52_formula : forall a x f, formula a x -> Forall lexed a -> lexed f -> stops LOr f -> ~ the "else" f ->
  accepts parse_formula a x f.
Proof. exact formula_accepts. Qed.
Print Assumptions C52_formula.
Theorem C52_plan : forall a x f, plan_of a x -> Forall lexed a -> lexed f -> the "." f -> accepts parse_plan a x f.
Proof. exact plan_accepts. Qed.
Print Assumptions C52_plan.
Theorem C52_clause : forall a x f, clause_of a x -> Forall lexed a -> lexed f -> the "." f -> accepts parse_rule_or_belief a x f.
Proof. exact clause_accepts. Qed.
Print Assumptions C52_clause.
Theorem C52_goal : forall a x f, goal_of a x -> Forall lexed a -> lexed f -> the "." f -> accepts parse_initial_goal a x f.
Proof. exact goal_accepts. Qed.
Print Assumptions C52_goal.

(** C52: no sequence of tokens is two different plans, or rules or beliefs. *)
Theorem C52_one :
  (forall a x y, plan_of a x -> plan_of a y -> Forall lexed a -> x = y) /\
  (forall a x y, clause_of a x -> clause_of a y -> Forall lexed a -> x = y).
Proof. exact (conj plan_unique clause_unique). Qed.
Print Assumptions C52_one.

(** Semicolons: needed between formulas, not after braces, not at the end of a
    plan. *)
Example C52_case_body :
  tree_of parse_plan "@l +!g(X) : X & Y <- ?p(X); if (X) { -q; } else { a; +r } !!h; for (Z) { } b ." =
    Ok (mkaplan (Some (mkalit (s2p "l") [] [])) (mkaevent TrAdd GtAchieve (mkalit (s2p "g") [v "X"] []))
      (Some (ABin BAnd (v "X") (v "Y")))
      (Some [FForm FtTest (lit_ast (mkalit (s2p "p") [v "X"] []));
             FIf (v "X") [FForm FtRemove (atom "q")] (Some [FForm FtTerm (atom "a"); FForm FtAdd (atom "r")]);
             FForm FtAchieveLater (atom "h"); FFor (v "Z") []; FForm FtTerm (atom "b")])) /\
  tree_of parse_plan "+!g <- a b ." = Err EAggregated /\
  tree_of parse_plan "+!g <- a; b; ." = Err EAggregated.
Proof. vm_compute. repeat split. Qed.
Example C52_case : exists a x f, (30 < List.length a)%nat /\ plan_of a x /\ Forall lexed a /\ lexed f /\ the "." f.
Proof. exact plan_case. Qed.
