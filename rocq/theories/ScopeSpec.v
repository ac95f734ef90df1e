(** What the terms, queries and bodies of a clause are: variables by name. *)
From Verif Require Import Base Num Term Unify Str World Engine Ast Names Build InstSpec FlowSpec.

(** The variables of a clause: [env x = Some i] if the variable [x] of the source
    text has become the variable (or, for [_], the wildcard) number [i]. *)
Definition naming : Type := pystr -> option N.

(** The numbers are new (at least [k], below [k']), and different variables have
    different numbers. *)
Definition fresh_names (k k' : N) (env : naming) : Prop :=
  (forall x i, env x = Some i -> (k <= i < k')%N) /\
  (forall x y i, env x = Some i -> env y = Some i -> x = y).

Section WithPy.
Context {PY : Py}.

(** [stands pat env t u]: the value [u] is the term [t] with its variables.  In a
    pattern, wildcards with numbers in the given range are in place of
    expressions. *)
Inductive stands (pat : option (N * N)) (env : naming) : ast -> term -> Prop :=
| st_bool b : stands pat env (ABool b) (TBool b)
| st_num x : stands pat env (ANum x) (TNum x)
| st_str s : stands pat env (AStr s) (TStr s)
| st_var x i : x <> s2p "_" -> env x = Some i -> stands pat env (AVar x) (TVar i)
| st_any i : env (s2p "_") = Some i -> stands pat env (AVar (s2p "_")) (TWild i)
| st_lit f ts an us vs ws : Forall2 (stands pat env) ts us -> Forall2 (stands pat env) an vs -> set_of vs ws ->
    stands pat env (ALit f ts an) (TLit f us ws)
| st_list ts us : Forall2 (stands pat env) ts us -> stands pat env (AList ts) (TTup us)
| st_cons h t u v : stands pat env h u -> stands pat env t v -> stands pat env (ALL h t) (TLL u v)
| st_un op a u : pat = None -> stands pat env a u -> stands pat env (AUn op a) (TUn op u)
| st_bin op l r u v : pat = None -> stands pat env l u -> stands pat env r v -> stands pat env (ABin op l r) (TBin op u v)
| st_un_any op a k k' i : pat = Some (k, k') -> (k <= i < k')%N -> stands pat env (AUn op a) (TWild i)
| st_bin_any op l r k k' i : pat = Some (k, k') -> (k <= i < k')%N -> stands pat env (ABin op l r) (TWild i).

(** A literal is an action exactly if there is an action of that name and number
    of arguments; arithmetic, numbers, texts and lists are no queries (C41), but
    arithmetic is built so that more errors can be found. *)
Inductive asks (acts : actions act) (env : naming) : ast -> query -> Prop :=
| as_true : asks acts env (ABool true) QTrue
| as_false : asks acts env (ABool false) QFalse
| as_act f ts an u a : stands None env (ALit f ts an) u -> actions_lookup acts f (List.length ts) = Ok a ->
    asks acts env (ALit f ts an) (QAct a u)
| as_lit f ts an u : stands None env (ALit f ts an) u -> (forall a, actions_lookup acts f (List.length ts) <> Ok a) ->
    asks acts env (ALit f ts an) (QTerm u)
| as_var x u : stands None env (AVar x) u -> asks acts env (AVar x) (QTerm u)
| as_and l r p q : asks acts env l p -> asks acts env r q -> asks acts env (ABin BAnd l r) (QAnd p q)
| as_or l r p q : asks acts env l p -> asks acts env r q -> asks acts env (ABin BOr l r) (QOr p q)
| as_not a q : asks acts env a q -> asks acts env (AUn UNot a) (QNot q)
| as_unify l r u v : stands None env l u -> stands None env r v -> asks acts env (ABin BUnify l r) (QUnify u v)
| as_bin op l r u : op <> BAnd -> op <> BOr -> op <> BUnify -> stands None env (ABin op l r) u -> asks acts env (ABin op l r) (QTerm u).

(** The formulas of a body.  What [-+] removes is a pattern: it has its own
    variables, so that [-+p(X)] removes a belief with any argument. *)
Inductive orders (acts : actions act) (k k' : N) (env : naming) : form -> stm -> Prop :=
| or_add t u : stands None env t u -> orders acts k k' env (FForm FtAdd t) (SCall TrAdd GtBelief u false)
| or_remove t u : stands None env t u -> orders acts k k' env (FForm FtRemove t) (SCall TrRem GtBelief u false)
| or_test t u : stands None env t u -> orders acts k k' env (FForm FtTest t) (SCall TrAdd GtTest u false)
| or_achieve t u : stands None env t u -> orders acts k k' env (FForm FtAchieve t) (SCall TrAdd GtAchieve u false)
| or_later t u : stands None env t u -> orders acts k k' env (FForm FtAchieveLater t) (SCall TrAdd GtAchieve u true)
| or_ask t q : asks acts env t q -> orders acts k k' env (FForm FtTerm t) (SAsk q)
| or_for g body q l : asks acts env g q -> order acts k k' env body l -> orders acts k k' env (FFor g body) (SFor q l)
| or_if c yes q l : asks acts env c q -> order acts k k' env yes l -> orders acts k k' env (FIf c yes None) (SIf q l None)
| or_if_else c yes no q l l' : asks acts env c q -> order acts k k' env yes l -> order acts k k' env no l' ->
    orders acts k k' env (FIf c yes (Some no)) (SIf q l (Some l'))
| or_while c body q l : asks acts env c q -> order acts k k' env body l -> orders acts k k' env (FWhile c body) (SWhile q l)
with order (acts : actions act) (k k' : N) (env : naming) : list form -> list stm -> Prop :=
| od_nil : order acts k k' env [] []
| od_cons f fs s l : orders acts k k' env f s -> order acts k k' env fs l -> order acts k k' env (f :: fs) (s :: l)
| od_replace t fs p u l own : fresh_names k k' own -> (forall x y i, own x = Some i -> env y <> Some i) ->
    stands (Some (k, k')) own t p -> stands None env t u -> order acts k k' env fs l ->
    order acts k k' env (FForm FtReplace t :: fs) (SCall TrRem GtBelief p false :: SCall TrAdd GtBelief u false :: l).

(** No literal in the term has annotations. *)
Fixpoint no_annots (t : ast) : Prop :=
  match t with
  | ALit _ ts an => an = [] /\ fold_right and True (map no_annots ts)
  | AList ts => fold_right and True (map no_annots ts)
  | ALL h t => no_annots h /\ no_annots t
  | AUn _ a => no_annots a
  | ABin _ l r => no_annots l /\ no_annots r
  | _ => True
  end.
End WithPy.
