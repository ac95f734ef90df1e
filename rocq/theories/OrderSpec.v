(** What == and < mean for values. *)
From Verif Require Import Base Num Term Unify TermSpec CmpSpec EnumSpec.

(** Values: truth values, numbers, strings, and literals and lists of values. *)
Fixpoint is_data (t : term) : Prop :=
  match t with
  | TBool _ | TNum _ | TStr _ => True
  | TLit _ args annots => fold_right and True (map is_data args) /\ fold_right and True (map is_data annots)
  | TTup ts => fold_right and True (map is_data ts)
  | TLL h t => is_data h /\ is_list t = true /\ is_data t
  | _ => False
  end.

(** Truth values count as the numbers 1 and 0. *)
Inductive number : term -> num -> Prop :=
| nb_true : number (TBool true) (NInt 1)
| nb_false : number (TBool false) (NInt 0)
| nb_num x : number (TNum x) x.

(** Equal values: lists by their items, in either notation; the annotations of
    literals as sets. *)
Inductive same : term -> term -> Prop :=
| sm_num l r x y a b : number l x -> number r y -> ereal_of x = Some a -> ereal_of y = Some b -> ereal_eq a b -> same l r
| sm_str s : same (TStr s) (TStr s)
| sm_lit f args args' an an' : Forall2 same args args' ->
    (forall x, In x an -> exists y, In y an' /\ same x y) -> (forall y, In y an' -> exists x, In x an /\ same x y) ->
    same (TLit f args an) (TLit f args' an')
| sm_list l r xs ys : list_of l xs -> list_of r ys -> Forall2 same xs ys -> same l r.

Definition related (o : comparison) (lt eq gt : Prop) : Prop := match o with Lt => lt | Eq => eq | Gt => gt end.

(** How two values compare; [None]: none of the three.  Lists and the arguments
    of literals are compared where they first differ. *)
Inductive compared : term -> term -> option comparison -> Prop :=
| cp_num l r x y a b o : number l x -> number r y -> ereal_of x = Some a -> ereal_of y = Some b ->
    related o (ereal_lt a b) (ereal_eq a b) (ereal_lt b a) -> compared l r (Some o)
| cp_nan l r x y : number l x -> number r y -> ereal_of x = None \/ ereal_of y = None -> compared l r None
| cp_str s s' o : related o (lex_lt s s') (s = s') (lex_lt s' s) -> compared (TStr s) (TStr s') (Some o)
| cp_atom f f' o : related o (lex_lt f f') (f = f') (lex_lt f' f) -> compared (TLit f [] []) (TLit f' [] []) (Some o)
| cp_lit f args args' an an' o : args <> [] \/ an <> [] \/ an' <> [] -> List.length args = List.length args' ->
    items_compared args args' o -> compared (TLit f args an) (TLit f args' an') o
| cp_list l r xs ys o : list_of l xs -> list_of r ys -> items_compared xs ys o -> compared l r o
with items_compared : list term -> list term -> option comparison -> Prop :=
| ic_end : items_compared [] [] (Some Eq)
| ic_short y ys : items_compared [] (y :: ys) (Some Lt)
| ic_long x xs : items_compared (x :: xs) [] (Some Gt)
| ic_same x y xs ys o : same x y -> items_compared xs ys o -> items_compared (x :: xs) (y :: ys) o
| ic_diff x y xs ys o : ~ same x y -> compared x y o -> items_compared (x :: xs) (y :: ys) o.

Definition answers (c : cop) (o : option comparison) : bool :=
  match c, o with
  | CLt, Some Lt | CLe, Some Lt | CLe, Some Eq | CGt, Some Gt | CGe, Some Gt | CGe, Some Eq => true
  | _, _ => false
  end.

(** The value of an operand. *)
Definition valued {PY : Py} (n : nat) (s : scope) (t v : term) : Prop :=
  exists u, evaluate n t s = Ok u /\ grounded n u s = Ok v.
