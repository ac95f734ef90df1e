(** Specification of matching for terms that may contain wildcards: a term
    matches many values. *)
From Verif Require Import Base Num Term Unify TermSpec.

(** As [plain], but wildcards may occur. *)
Inductive wplain {PY : Py} (s0 : scope) (ex : term -> term) : term -> Prop :=
| wp_bool b : wplain s0 ex (TBool b)
| wp_num x : is_nan x = false -> wplain s0 ex (TNum x)
| wp_str s : wplain s0 ex (TStr s)
| wp_var v : wplain s0 ex (TVar v)
| wp_wild w : wplain s0 ex (TWild w)
| wp_un op a : evals s0 (TUn op a) (ex (TUn op a)) -> not_nan (ex (TUn op a)) -> wplain s0 ex (TUn op a)
| wp_bin op a b : evals s0 (TBin op a b) (ex (TBin op a b)) -> not_nan (ex (TBin op a b)) -> wplain s0 ex (TBin op a b)
| wp_lit f args annots : Forall (wplain s0 ex) args -> wplain s0 ex (TLit f args annots)
| wp_tup ts : Forall (wplain s0 ex) ts -> wplain s0 ex (TTup ts)
| wp_ll h t : wplain s0 ex h -> wplain s0 ex t -> wplain s0 ex (TLL h t).

Definition wplain_scope {PY : Py} (s0 : scope) (ex : term -> term) (s : scope) : Prop :=
  forall v t, lookup s v = Some t -> wplain s0 ex t.

(** [vmatch ex th t w]: under the assignment [th] the term [t] matches the value
    [w]; each occurrence of a wildcard matches anything. *)
Inductive vmatch (ex : term -> term) (th : N -> val) : term -> val -> Prop :=
| vm_bool b : vmatch ex th (TBool b) (VConst (KBool b))
| vm_num x : vmatch ex th (TNum x) (VConst (KNum (num_canon x)))
| vm_str s : vmatch ex th (TStr s) (VConst (KStr s))
| vm_var v : vmatch ex th (TVar v) (th v)
| vm_wild w x : vmatch ex th (TWild w) x
| vm_un op a : vmatch ex th (TUn op a) (den_const val VConst (ex (TUn op a)))
| vm_bin op a b : vmatch ex th (TBin op a b) (den_const val VConst (ex (TBin op a b)))
| vm_lit f args annots ws : Forall2 (vmatch ex th) args ws -> vmatch ex th (TLit f args annots) (VLit f ws)
| vm_nil : vmatch ex th (TTup []) (VConst KNil)
| vm_tup x xs w ws : vmatch ex th x w -> vmatch ex th (TTup xs) ws -> vmatch ex th (TTup (x :: xs)) (VCons w ws)
| vm_ll h t w ws : vmatch ex th h w -> vmatch ex th t ws -> vmatch ex th (TLL h t) (VCons w ws).

(** The assignment agrees with a scope whose terms may contain wildcards. *)
Definition wagrees (ex : term -> term) (th : N -> val) (s : scope) : Prop :=
  forall v t, lookup s v = Some t -> vmatch ex th t (th v).

(** Terms without variables, wildcards, expressions and NaN. *)
Inductive closed : term -> Prop :=
| cl_bool b : closed (TBool b)
| cl_num x : is_nan x = false -> closed (TNum x)
| cl_str s : closed (TStr s)
| cl_lit f args annots : Forall closed args -> closed (TLit f args annots)
| cl_tup ts : Forall closed ts -> closed (TTup ts)
| cl_ll h t : closed h -> closed t -> closed (TLL h t).

(** As [wplain], also in annotations. *)
Inductive dplain {PY : Py} (s0 : scope) (ex : term -> term) : term -> Prop :=
| dp_bool b : dplain s0 ex (TBool b)
| dp_num x : is_nan x = false -> dplain s0 ex (TNum x)
| dp_str s : dplain s0 ex (TStr s)
| dp_var v : dplain s0 ex (TVar v)
| dp_wild w : dplain s0 ex (TWild w)
| dp_un op a : evals s0 (TUn op a) (ex (TUn op a)) -> not_nan (ex (TUn op a)) -> dplain s0 ex (TUn op a)
| dp_bin op a b : evals s0 (TBin op a b) (ex (TBin op a b)) -> not_nan (ex (TBin op a b)) -> dplain s0 ex (TBin op a b)
| dp_lit f args annots : Forall (dplain s0 ex) args -> Forall (dplain s0 ex) annots -> dplain s0 ex (TLit f args annots)
| dp_tup ts : Forall (dplain s0 ex) ts -> dplain s0 ex (TTup ts)
| dp_ll h t : dplain s0 ex h -> dplain s0 ex t -> dplain s0 ex (TLL h t).
