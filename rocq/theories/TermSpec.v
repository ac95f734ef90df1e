(** Specification of what terms mean: trees denoted by terms, assignments,
    agreement of an assignment with a scope.  Used to state the properties of
    unification, freezing and queries. *)
From Verif Require Import Base Num Term Unify.
From Coq Require Import RelationClasses.

(** Constants as denoted values: numbers by their mathematical value. *)
Inductive const : Type :=
| KBool (b : bool)
| KNum (x : xval)
| KStr (s : pystr)
| KNil.

(** [evals s0 e v]: expression [e] has value [v] in scope [s0]. *)
Definition evals {PY : Py} (s0 : scope) (e v : term) : Prop := exists n, evaluate n e s0 = Ok v.

Definition not_nan (t : term) : Prop := match t with TNum x => is_nan x = false | _ => True end.

(** Terms without wildcards and NaN, all of whose expressions have a value in
    the scope [s0], given by [ex] (annotations, which [unify] ignores, are
    arbitrary). *)
Inductive plain {PY : Py} (s0 : scope) (ex : term -> term) : term -> Prop :=
| pl_bool b : plain s0 ex (TBool b)
| pl_num x : is_nan x = false -> plain s0 ex (TNum x)
| pl_str s : plain s0 ex (TStr s)
| pl_var v : plain s0 ex (TVar v)
| pl_un op a : evals s0 (TUn op a) (ex (TUn op a)) -> not_nan (ex (TUn op a)) -> plain s0 ex (TUn op a)
| pl_bin op a b : evals s0 (TBin op a b) (ex (TBin op a b)) -> not_nan (ex (TBin op a b)) -> plain s0 ex (TBin op a b)
| pl_lit f args annots : Forall (plain s0 ex) args -> plain s0 ex (TLit f args annots)
| pl_tup ts : Forall (plain s0 ex) ts -> plain s0 ex (TTup ts)
| pl_ll h t : plain s0 ex h -> plain s0 ex t -> plain s0 ex (TLL h t).

Definition plain_scope {PY : Py} (s0 : scope) (ex : term -> term) (s : scope) : Prop :=
  forall v t, lookup s v = Some t -> plain s0 ex t.

Section Den.
Variable D : Type.
Variable deq : D -> D -> Prop.
Variable dconst : const -> D.
Variable dlit : pystr -> list D -> D.
Variable dcons : D -> D -> D.

(** The denotation of a term under an assignment of trees to variables: a
    linked list and a tuple with the same items denote the same tree;
    annotations are ignored; an expression denotes its value. *)
Variable ex : term -> term.

Definition den_const (t : term) : D :=
  match t with
  | TBool b => dconst (KBool b)
  | TNum x => dconst (KNum (num_canon x))
  | _ => dconst KNil
  end.

Fixpoint den (th : N -> D) (t : term) : D :=
  match t with
  | TBool b => dconst (KBool b)
  | TNum x => dconst (KNum (num_canon x))
  | TStr s => dconst (KStr s)
  | TVar v => th v
  | TLit f args _ => dlit f (map (den th) args)
  | TTup ts => (fix go (l : list term) := match l with [] => dconst KNil | x :: l' => dcons (den th x) (go l') end) ts
  | TLL h t => dcons (den th h) (den th t)
  | TUn _ _ | TBin _ _ _ => den_const (ex t)
  | TWild _ => dconst KNil
  end.

(** The assignment agrees with the scope. *)
Definition sat (th : N -> D) (s : scope) : Prop :=
  forall v t, lookup s v = Some t -> deq (th v) (den th t).

Record free_algebra : Prop := {
  fa_const : forall a b, deq (dconst a) (dconst b) -> a = b;
  fa_lit : forall f g xs ys, deq (dlit f xs) (dlit g ys) -> f = g /\ Forall2 deq xs ys;
  fa_lit_cong : forall f xs ys, Forall2 deq xs ys -> deq (dlit f xs) (dlit f ys);
  fa_cons : forall a b c d, deq (dcons a b) (dcons c d) -> deq a c /\ deq b d;
  fa_cons_cong : forall a b c d, deq a c -> deq b d -> deq (dcons a b) (dcons c d);
  fa_const_lit : forall a f xs, ~ deq (dconst a) (dlit f xs);
  fa_const_cons : forall a b c, ~ deq (dconst a) (dcons b c);
  fa_lit_cons : forall f xs b c, ~ deq (dlit f xs) (dcons b c)
}.

End Den.

(** * Finite trees *)
Inductive val : Type :=
| VConst (k : const)
| VLit (f : pystr) (args : list val)
| VCons (h t : val).

Fixpoint vsize (v : val) : nat :=
  match v with
  | VConst _ => 1
  | VLit _ args => S ((fix go (l : list val) := match l with [] => O | x :: l' => (vsize x + go l')%nat end) args)
  | VCons h t => S (vsize h + vsize t)
  end.

(** The value of a term under an assignment; [ex] gives the value of
    expressions. *)
Definition value (ex : term -> term) : (N -> val) -> term -> val := den val VConst VLit VCons ex.
Definition agrees (ex : term -> term) : (N -> val) -> scope -> Prop := sat val eq VConst VLit VCons ex.

(** * Infinite trees: functions from paths to labels *)
Inductive label : Type :=
| LConst (k : const)
| LLit (f : pystr) (arity : nat)
| LCons
| LNone.   (* the path leaves the tree *)

Definition itree := list nat -> label.
Definition ieq (a b : itree) : Prop := forall p, a p = b p.

Definition iconst (k : const) : itree := fun p => match p with [] => LConst k | _ => LNone end.
Definition ilit (f : pystr) (args : list itree) : itree := fun p =>
  match p with
  | [] => LLit f (List.length args)
  | i :: p' => match nth_error args i with Some a => a p' | None => LNone end
  end.
Definition icons (h t : itree) : itree := fun p =>
  match p with
  | [] => LCons
  | O :: p' => h p'
  | S O :: p' => t p'
  | _ => LNone
  end.

Definition ivalue (ex : term -> term) : (N -> itree) -> term -> itree := den itree iconst ilit icons ex.
Definition iagrees (ex : term -> term) : (N -> itree) -> scope -> Prop := sat itree ieq iconst ilit icons ex.

