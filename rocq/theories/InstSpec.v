(** Specification of copies of a term: the instance of a term in a scope. *)
From Verif Require Import Base Num Term Unify TermSpec.

(** [set_of l l']: [l'] lists, without duplicates and in any order, the members
    of the Python set built from the items [l]. *)
Definition set_of (l l' : list term) : Prop :=
  incl l' l /\
  (forall x, In x l -> exists y, In y l' /\ (y = x \/ py_eqb y x = true)) /\
  ForallOrdPairs (fun x y => py_eqb x y = false) l'.

(** [inst s rho t t']: [t'] is the copy of [t] with all bindings of the scope [s]
    substituted, expressions replaced by their value, and each variable [v] that
    is unbound in [s] replaced by the variable [rho v]. *)
Inductive inst {PY : Py} (s : scope) (rho : N -> option N) : term -> term -> Prop :=
| in_bool b : inst s rho (TBool b) (TBool b)
| in_num x : inst s rho (TNum x) (TNum x)
| in_str x : inst s rho (TStr x) (TStr x)
| in_wild w : inst s rho (TWild w) (TWild w)
| in_bound v t t' : lookup s v = Some t -> inst s rho t t' -> inst s rho (TVar v) t'
| in_free v x : lookup s v = None -> rho v = Some x -> inst s rho (TVar v) (TVar x)
| in_un op a v : evals s (TUn op a) v -> inst s rho (TUn op a) v
| in_bin op a b v : evals s (TBin op a b) v -> inst s rho (TBin op a b) v
| in_lit f args annots args' items annots' :
    Forall2 (inst s rho) args args' -> Forall2 (inst s rho) annots items -> set_of items annots' ->
    inst s rho (TLit f args annots) (TLit f args' annots')
| in_tup ts ts' : Forall2 (inst s rho) ts ts' -> inst s rho (TTup ts) (TTup ts')
| in_ll h t h' t' : inst s rho h h' -> inst s rho t t' -> inst s rho (TLL h t) (TLL h' t').

(** [mentions v t]: the variable [v] occurs somewhere in [t]. *)
Inductive mentions (v : N) : term -> Prop :=
| mn_var : mentions v (TVar v)
| mn_un op a : mentions v a -> mentions v (TUn op a)
| mn_bin op a b : mentions v a \/ mentions v b -> mentions v (TBin op a b)
| mn_lit f args annots : Exists (mentions v) args \/ Exists (mentions v) annots -> mentions v (TLit f args annots)
| mn_tup ts : Exists (mentions v) ts -> mentions v (TTup ts)
| mn_ll h t : mentions v h \/ mentions v t -> mentions v (TLL h t).

(** Terms without variables, wildcards and unevaluated expressions, also in
    annotations. *)
Inductive ground : term -> Prop :=
| gr_bool b : ground (TBool b)
| gr_num x : ground (TNum x)
| gr_str s : ground (TStr s)
| gr_lit f args annots : Forall ground args -> Forall ground annots -> ground (TLit f args annots)
| gr_tup ts : Forall ground ts -> ground (TTup ts)
| gr_ll h t : ground h -> ground t -> ground (TLL h t).

(** Terms without expressions. *)
Inductive exprless : term -> Prop :=
| el_bool b : exprless (TBool b)
| el_num x : exprless (TNum x)
| el_str s : exprless (TStr s)
| el_var v : exprless (TVar v)
| el_wild w : exprless (TWild w)
| el_lit f args annots : Forall exprless args -> Forall exprless annots -> exprless (TLit f args annots)
| el_tup ts : Forall exprless ts -> exprless (TTup ts)
| el_ll h t : exprless h -> exprless t -> exprless (TLL h t).

Definition exprless_scope (s : scope) : Prop := forall v t, lookup s v = Some t -> exprless t.

(** [occurs v t]: [v] occurs in [t] outside annotations and expressions. *)
Inductive occurs (v : N) : term -> Prop :=
| oc_var : occurs v (TVar v)
| oc_lit f args annots : Exists (occurs v) args -> occurs v (TLit f args annots)
| oc_tup ts : Exists (occurs v) ts -> occurs v (TTup ts)
| oc_ll h t : occurs v h \/ occurs v t -> occurs v (TLL h t).

(** No binding leads back to its own variable. *)
Definition acyclic (s : scope) : Prop :=
  exists rank : N -> nat, forall v t w, lookup s v = Some t -> occurs w t -> (rank w < rank v)%nat.

(** Terms without NaN, also in annotations. *)
Inductive nonan : term -> Prop :=
| nn_bool b : nonan (TBool b)
| nn_num x : is_nan x = false -> nonan (TNum x)
| nn_str s : nonan (TStr s)
| nn_var v : nonan (TVar v)
| nn_wild w : nonan (TWild w)
| nn_un op a : nonan a -> nonan (TUn op a)
| nn_bin op a b : nonan a -> nonan b -> nonan (TBin op a b)
| nn_lit f args annots : Forall nonan args -> Forall nonan annots -> nonan (TLit f args annots)
| nn_tup ts : Forall nonan ts -> nonan (TTup ts)
| nn_ll h t : nonan h -> nonan t -> nonan (TLL h t).

(** All variables are older than [k]. *)
Definition older (k : N) (t : term) : Prop := forall v, mentions v t -> (v < k)%N.
Definition older_scope (k : N) (s : scope) : Prop := forall v t, lookup s v = Some t -> (v < k)%N /\ older k t.
