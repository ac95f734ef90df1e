(** Specification of comparison: order of numbers, strings, atoms; list
    notations. *)
From Verif Require Import Base Num Term.
From Coq Require Import SpecFloat.

(** Numbers as minus infinity, m * 2^e, or plus infinity; NaN has no value. *)
Inductive ereal : Type := NegInf | Fin (m e : Z) | PosInf.

Definition ereal_of (x : num) : option ereal :=
  match x with
  | NInt z => Some (Fin z 0)
  | NFlt (S754_zero _) => Some (Fin 0 0)
  | NFlt (S754_infinity s) => Some (if s then NegInf else PosInf)
  | NFlt (S754_finite s m e) => Some (Fin (if s then - Zpos m else Zpos m) e)
  | NFlt S754_nan => None
  end.

(** [m * 2^e] as a multiple of [2^k] *)
Definition scaled (m e k : Z) : Z := (m * 2 ^ (e - k))%Z.

Definition ereal_eq (a b : ereal) : Prop :=
  match a, b with
  | NegInf, NegInf | PosInf, PosInf => True
  | Fin m1 e1, Fin m2 e2 => scaled m1 e1 (Z.min e1 e2) = scaled m2 e2 (Z.min e1 e2)
  | _, _ => False
  end.

Definition ereal_lt (a b : ereal) : Prop :=
  match a, b with
  | NegInf, NegInf => False
  | NegInf, _ => True
  | Fin m1 e1, Fin m2 e2 => (scaled m1 e1 (Z.min e1 e2) < scaled m2 e2 (Z.min e1 e2))%Z
  | Fin _ _, PosInf => True
  | _, _ => False
  end.

(** Lexicographic order by code point. *)
Inductive lex_lt : pystr -> pystr -> Prop :=
| ll_nil y b : lex_lt [] (y :: b)
| ll_head x y a b : (x < y)%N -> lex_lt (x :: a) (y :: b)
| ll_tail x a b : lex_lt a b -> lex_lt (x :: a) (x :: b).

(** What the operators answer for values [a], [b] related by [eq], [lt] and
    [gt]. *)
Definition cop_holds (c : cop) (lt eq gt : Prop) : Prop :=
  match c with CLt => lt | CLe => lt \/ eq | CGt => gt | CGe => gt \/ eq end.

(** A list written with [|], rewritten as [a, b, c] wherever its tail is known,
    also inside other terms. *)
Fixpoint norm (t : term) : term :=
  match t with
  | TLL h t => match norm t with TTup ts => TTup (norm h :: ts) | t' => TLL (norm h) t' end
  | TTup ts => TTup (map norm ts)
  | TLit f args annots => TLit f (map norm args) annots
  | _ => t
  end.
