(** What a program of several files says: its clauses, in the order in which they
    are written, with the clauses of an included file or of a block in the place
    of the directive. *)
From Verif Require Import Base Num Term Str World Ast Names Quote Lex Parse Fold Program RoundSpec GramSpec.

Definition nothing : aagent := mkaagent [] [] [] [].
(** The clauses of [g], then those of [h]. *)
Definition followed (g h : aagent) : aagent :=
  mkaagent (ag_rules g ++ ag_rules h) (ag_beliefs g ++ ag_beliefs h) (ag_goals g ++ ag_goals h) (ag_plans g ++ ag_plans h).

(** A clause as it is written, with the full stop. *)
Inductive one_clause : list tok -> aagent -> Prop :=
| c_rule a r d : clause_of a (inl r) -> the "." d -> one_clause (a ++ [d]) (mkaagent [r] [] [] [])
| c_belief a b d : clause_of a (inr b) -> the "." d -> one_clause (a ++ [d]) (mkaagent [] [b] [] [])
| c_goal a g d : goal_of a g -> the "." d -> one_clause (a ++ [d]) (mkaagent [] [] [g] [])
| c_plan a p d : plan_of a p -> the "." d -> one_clause (a ++ [d]) (mkaagent [] [] [] [p]).

(** [{ include ( "name" ) }], [{ begin literal }], [{ end }] *)
Inductive include_of : list tok -> pystr -> Prop :=
| d_include a b c s d e name : the "{" a -> the "include" b -> the "(" c -> t_kind s = KString ->
    parse_string (t_lex s) = Ok name -> the ")" d -> the "}" e -> include_of [a; b; c; s; d; e] name.
Inductive begin_of : list tok -> Prop :=
| d_begin a b l x e : the "{" a -> the "begin" b -> literal l x -> the "}" e -> begin_of (a :: b :: l ++ [e]).
Inductive end_of : list tok -> Prop :=
| d_end a b e : the "{" a -> the "end" b -> the "}" e -> end_of [a; b; e].

(** No operator in a term. *)
Inductive plain : ast -> Prop :=
| pl_bool b : plain (ABool b)
| pl_num x : plain (ANum x)
| pl_str s : plain (AStr s)
| pl_var v : plain (AVar v)
| pl_lit f ts an : Forall plain ts -> Forall plain an -> plain (ALit f ts an)
| pl_list ts : Forall plain ts -> plain (AList ts)
| pl_linked h t : plain h -> plain t -> plain (ALL h t).
Definition plain_lit (l : alit) : Prop := Forall plain (l_terms l) /\ Forall plain (l_annots l).

(** Neither an operator nor a list with a tail in a term; all variables have
    names. *)
Inductive solid : ast -> Prop :=
| so_bool b : solid (ABool b)
| so_num x : solid (ANum x)
| so_str s : solid (AStr s)
| so_var c v : solid (AVar (c :: v))
| so_lit f ts an : Forall solid ts -> Forall solid an -> solid (ALit f ts an)
| so_list ts : Forall solid ts -> solid (AList ts).
Definition solid_lit (l : alit) : Prop := Forall solid (l_terms l) /\ Forall solid (l_annots l).

Section WithPy.
Context {PY : Py}.

(** Folding [t] gives [t'] and reports no error, whatever was logged before.
    (C34 says what folding does.) *)
Definition folded (m : mode) (t t' : ast) : Prop := forall items lg own, exists lg',
  fold m t (mkpst items lg own) = (Ok t', mkpst items lg' own) /\ lg_errors lg' = lg_errors lg.

(** The terms in each part of an agent are folded: conditions as conditions, all
    others as terms.  Everything else stays. *)
Inductive part {A} (R : A -> A -> Prop) : option A -> option A -> Prop :=
| pa_none : part R None None
| pa_some x x' : R x x' -> part R (Some x) (Some x').
Definition folded_lit (l l' : alit) : Prop := l_functor l' = l_functor l /\
  Forall2 (folded MTerm) (l_terms l) (l_terms l') /\ Forall2 (folded MTerm) (l_annots l) (l_annots l').
Inductive folded_form : form -> form -> Prop :=
| ff_term t t' : folded MLog t t' -> folded_form (FForm FtTerm t) (FForm FtTerm t')
| ff_other ft f ts an t' : ft <> FtTerm -> folded MTerm (ALit f ts an) t' -> folded_form (FForm ft (ALit f ts an)) (FForm ft t')
| ff_var ft v t' : ft <> FtTerm -> folded MTerm (AVar v) t' -> folded_form (FForm ft (AVar v)) (FForm ft t')
| ff_for c c' b b' : folded MLog c c' -> Forall2 folded_form b b' -> folded_form (FFor c b) (FFor c' b')
| ff_while c c' b b' : folded MLog c c' -> Forall2 folded_form b b' -> folded_form (FWhile c b) (FWhile c' b')
| ff_if c c' b b' : folded MLog c c' -> Forall2 folded_form b b' -> folded_form (FIf c b None) (FIf c' b' None)
| ff_if_else c c' b b' e e' : folded MLog c c' -> Forall2 folded_form b b' -> Forall2 folded_form e e' ->
    folded_form (FIf c b (Some e)) (FIf c' b' (Some e')).
Definition folded_rule (r r' : arule) : Prop := folded_lit (ar_head r) (ar_head r') /\ folded MLog (ar_cons r) (ar_cons r').
Definition folded_plan (p p' : aplan) : Prop :=
  part folded_lit (ap_annot p) (ap_annot p') /\
  (ae_trig (ap_event p') = ae_trig (ap_event p) /\ ae_gt (ap_event p') = ae_gt (ap_event p) /\
   folded_lit (ae_head (ap_event p)) (ae_head (ap_event p'))) /\
  part (folded MLog) (ap_ctx p) (ap_ctx p') /\ part (Forall2 folded_form) (ap_body p) (ap_body p').

(** Validation accepts [g] and turns it into [g']: the terms are folded, and then
    there are no operators left in beliefs, in the heads of rules and in
    the events of plans. *)
Definition validated (g g' : aagent) : Prop :=
  (Forall2 folded_rule (ag_rules g) (ag_rules g') /\ Forall2 folded_lit (ag_beliefs g) (ag_beliefs g') /\
   Forall2 folded_lit (ag_goals g) (ag_goals g') /\ Forall2 folded_plan (ag_plans g) (ag_plans g')) /\
  Forall solid_lit (ag_beliefs g') /\ Forall (fun r => plain_lit (ar_head r)) (ag_rules g') /\
  Forall (fun p => plain_lit (ae_head (ap_event p))) (ag_plans g').

Variable files : pystr -> file.

(** [program file within l g]: the tokens [l] of [file] say [g], if the files
    [within] are being read. *)
Inductive program : pystr -> list pystr -> list tok -> aagent -> Prop :=
| s_end file within : program file within [] nothing
| s_clause file within a c l g : one_clause a c -> program file within l g -> program file within (a ++ l) (followed c g)
| s_include file within a name path lines b h h' l g : include_of a name -> path = join_path (dirname file) name ->
    ~ In path within -> files path = File lines -> tokenize 1 lines = Ok (map ITok b) ->
    program path (normpath path :: within) b h -> validated h h' ->
    program file within l g -> program file within (a ++ l) (followed h' g)
| s_block file within a b h h' c l g : begin_of a -> program file (normpath file :: within) b h -> validated h h' -> end_of c ->
    program file within l g -> program file within (a ++ b ++ c ++ l) (followed h' g).

(** What the text of [file] says. *)
Definition says (file : pystr) (lines : list pystr) (g : aagent) : Prop := exists l h,
  tokenize 1 lines = Ok (map ITok l) /\ program file [normpath file] l h /\ validated h g.
End WithPy.
