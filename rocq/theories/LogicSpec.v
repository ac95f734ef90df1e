(** Logical consequence for queries without negation, actions and arithmetic.

    An assignment gives every variable a tree.  [derivable DB q th]: the instance
    of the query given by [th] follows from the beliefs and the rules.  Nothing
    here refers to scopes, unification or search. *)
From Verif Require Import Base Num Term Unify ChainFacts TermSpec Str World Engine QuerySpec.

(** ** The fragment *)

(** Terms without expressions, wildcards and NaN. *)
Inductive pure : term -> Prop :=
| pu_bool b : pure (TBool b)
| pu_num x : is_nan x = false -> pure (TNum x)
| pu_str s : pure (TStr s)
| pu_var v : pure (TVar v)
| pu_lit f args annots : Forall pure args -> pure (TLit f args annots)
| pu_tup ts : Forall pure ts -> pure (TTup ts)
| pu_ll h t : pure h -> pure t -> pure (TLL h t).

(** Conjunctions and disjunctions of unannotated literals and unifications. *)
Fixpoint horn (q : query) : Prop :=
  match q with
  | QTrue | QFalse => True
  | QTerm (TLit _ args annots) => Forall pure args /\ annots = []
  | QAnd l r | QOr l r => horn l /\ horn r
  | QUnify l r => pure l /\ pure r /\ lit_annots l = []
  | _ => False
  end.

Definition horn_db (DB : db) : Prop :=
  forall g, Forall pure (d_bel DB g) /\ Forall (fun r => pure (r_head r) /\ horn (r_query r)) (d_rules DB g).

(** The variables of a term outside annotations. *)
Fixpoint dvars (t : term) : list N :=
  match t with
  | TVar v => [v]
  | TUn _ a => dvars a
  | TBin _ l r => dvars l ++ dvars r
  | TLit _ args _ => flat_map dvars args
  | TTup ts => flat_map dvars ts
  | TLL h t => dvars h ++ dvars t
  | _ => []
  end.

Fixpoint dqvars (q : query) : list N :=
  match q with
  | QTrue | QFalse => []
  | QAct _ t | QTerm t => dvars t
  | QAnd l r | QOr l r => dqvars l ++ dqvars r
  | QNot q => dqvars q
  | QUnify l r => dvars l ++ dvars r
  end.

Definition ground_db (DB : db) : Prop := forall g b, In b (d_bel DB g) -> dvars b = [].

(** ** Derivability *)
Section Logic.
Variable D : Type.
Variable deq : D -> D -> Prop.
Variable meaning : (N -> D) -> term -> D.

Inductive derivable (DB : db) : query -> (N -> D) -> Prop :=
| dv_true th : derivable DB QTrue th
| dv_and l r th : derivable DB l th -> derivable DB r th -> derivable DB (QAnd l r) th
| dv_left l r th : derivable DB l th -> derivable DB (QOr l r) th
| dv_right l r th : derivable DB r th -> derivable DB (QOr l r) th
| dv_equal l r th : deq (meaning th l) (meaning th r) -> derivable DB (QUnify l r) th
| dv_fact f args annots th b th' :
    In b (d_bel DB (f, List.length args)) ->
    deq (meaning th' b) (meaning th (TLit f args annots)) ->
    derivable DB (QTerm (TLit f args annots)) th
| dv_rule f args annots th r th' :
    In r (d_rules DB (f, List.length args)) ->
    deq (meaning th' (r_head r)) (meaning th (TLit f args annots)) ->
    derivable DB (r_query r) th' ->
    derivable DB (QTerm (TLit f args annots)) th.

End Logic.

(** Pure terms contain no expressions, so what [ex] gives does not matter. *)
Definition noex : term -> term := fun t => t.

(** Over finite trees, and over finite and infinite trees (there is no occurs
    check). *)
Definition consequence : db -> query -> (N -> val) -> Prop := derivable val eq (value noex).
Definition iconsequence : db -> query -> (N -> itree) -> Prop := derivable itree ieq (ivalue noex).

(** A scope as unification builds it from pure terms. *)
Definition pure_scope (s : scope) : Prop := chain_ok s /\ forall v t, lookup s v = Some t -> pure t.

(** All variables were created before [nv] was the next one. *)
Definition created (nv : N) (s : scope) (q : query) : Prop :=
  (forall v t, lookup s v = Some t -> (v < nv)%N /\ Forall (fun w => (w < nv)%N) (dvars t)) /\
  Forall (fun w => (w < nv)%N) (dqvars q).
