(** Specification of matching with annotations. *)
From Verif Require Import Base Num Term Unify TermSpec InstSpec.

(** As [plain], also in annotations. *)
Inductive aplain {PY : Py} (s0 : scope) (ex : term -> term) : term -> Prop :=
| ap_bool b : aplain s0 ex (TBool b)
| ap_num x : is_nan x = false -> aplain s0 ex (TNum x)
| ap_str s : aplain s0 ex (TStr s)
| ap_var v : aplain s0 ex (TVar v)
| ap_un op a : nonan (TUn op a) -> evals s0 (TUn op a) (ex (TUn op a)) -> not_nan (ex (TUn op a)) -> aplain s0 ex (TUn op a)
| ap_bin op a b : nonan (TBin op a b) -> evals s0 (TBin op a b) (ex (TBin op a b)) -> not_nan (ex (TBin op a b)) -> aplain s0 ex (TBin op a b)
| ap_lit f args annots : Forall (aplain s0 ex) args -> Forall (aplain s0 ex) annots -> aplain s0 ex (TLit f args annots)
| ap_tup ts : Forall (aplain s0 ex) ts -> aplain s0 ex (TTup ts)
| ap_ll h t : aplain s0 ex h -> aplain s0 ex t -> aplain s0 ex (TLL h t).

Definition aplain_scope {PY : Py} (s0 : scope) (ex : term -> term) (s : scope) : Prop :=
  forall v t, lookup s v = Some t -> aplain s0 ex t.

(** [amatch s0 ex th l r]: under the assignment [th] the terms have the same
    value, and if both are literals then each annotation of [l] matches an
    annotation of [r], different ones for different annotations of [l].  A
    variable bound in [s0] stands for the term it is bound to. *)
Inductive amatch (s0 : scope) (ex : term -> term) (th : N -> val) : term -> term -> Prop :=
| am_other l r : is_literal l = false -> value ex th l = value ex th r -> amatch s0 ex th l r
| am_free l v : lookup s0 v = None -> value ex th l = th v -> amatch s0 ex th l (TVar v)
| am_bound l v t : lookup s0 v = Some t -> amatch s0 ex th l t -> amatch s0 ex th l (TVar v)
| am_lit f args las f' args' ras ms :
    value ex th (TLit f args las) = value ex th (TLit f' args' ras) ->
    Forall2 (amatch s0 ex th) las ms -> incl ms ras -> NoDup ms ->
    amatch s0 ex th (TLit f args las) (TLit f' args' ras).

(** Terms without variables, wildcards, expressions, NaN and annotations. *)
Inductive flat : term -> Prop :=
| fl_bool b : flat (TBool b)
| fl_num x : is_nan x = false -> flat (TNum x)
| fl_str s : flat (TStr s)
| fl_lit f args : Forall flat args -> flat (TLit f args [])
| fl_tup ts : Forall flat ts -> flat (TTup ts)
| fl_ll h t : flat h -> flat t -> flat (TLL h t).

(** The value of a variable-free term. *)
Definition flat_value (t : term) : val := value (fun t => t) (fun _ => VConst KNil) t.

(** A Python set: no two members are equal. *)
Definition distinct (l : list term) : Prop := ForallOrdPairs (fun x y => py_eqb x y = false) l.
