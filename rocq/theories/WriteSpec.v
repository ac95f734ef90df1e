(** The text that shows a value, character by character. *)
From Verif Require Import Base Num Term QuoteSpec.
From Coq Require Import Floats.SpecFloat.

(** Decimal notation without leading zeros. *)
Inductive decimal_text : N -> pystr -> Prop :=
| dc_one d : (d < 10)%N -> decimal_text d [48 + d]%N
| dc_more n d w : (0 < n)%N -> (d < 10)%N -> decimal_text n w -> decimal_text (10 * n + d) (w ++ [48 + d]%N).
Inductive signed : Z -> pystr -> Prop :=
| sg_nat n w : decimal_text n w -> signed (Z.of_N n) w
| sg_neg n w : (0 < n)%N -> decimal_text n w -> signed (- Z.of_N n) (45%N :: w).

(** The float is the whole number [z]. *)
Inductive whole_float : spec_float -> Z -> Prop :=
| wf_zero s : whole_float (S754_zero s) 0
| wf_big (s : bool) m e : (0 <= e)%Z -> whole_float (S754_finite s m e) ((if s then - Zpos m else Zpos m) * 2 ^ e)
| wf_small (s : bool) m e z : (e < 0)%Z -> (if s then - Zpos m else Zpos m)%Z = (z * 2 ^ (- e))%Z -> whole_float (S754_finite s m e) z.

(** How a character is written between quotes. *)
Inductive escaped : N -> pystr -> Prop :=
| es_quote : escaped 34 [92; 34]%N
| es_backslash : escaped 92 [92; 92]%N
| es_tab : escaped 9 [92; 116]%N
| es_newline : escaped 10 [92; 110]%N
| es_return : escaped 13 [92; 114]%N
| es_plain c : (32 <= c < 127)%N -> c <> 34%N -> c <> 92%N -> escaped c [c]
| es_x c h : (c < 32 \/ 127 <= c < 256)%N -> c <> 9%N -> c <> 10%N -> c <> 13%N -> hexnum 2 h c -> Forall lower_case h -> escaped c (92 :: 120 :: h)%N
| es_u c h : (256 <= c < 65536)%N -> hexnum 4 h c -> Forall lower_case h -> escaped c (92 :: 117 :: h)%N
| es_U c h : (65536 <= c)%N -> hexnum 8 h c -> Forall lower_case h -> escaped c (92 :: 85 :: h)%N
with lower_case : N -> Prop :=
| lw c : ~ (65 <= c <= 70)%N -> lower_case c.
Inductive quoted_text : pystr -> pystr -> Prop :=
| qt_nil : quoted_text [] []
| qt_cons c s w x : escaped c w -> quoted_text s x -> quoted_text (c :: s) (w ++ x).

(** Texts with a comma and a space between any two. *)
Inductive listed : list pystr -> pystr -> Prop :=
| li_none : listed [] []
| li_one w : listed [w] w
| li_more w l x : l <> [] -> listed l x -> listed (w :: l) (w ++ s2p ", " ++ x).

(** The operators. *)
Definition unary_text : list (unop * string) := [(UNot, "not"); (UPos, "+"); (UNeg, "-")]%string.
Definition binary_text : list (binop * string) :=
  [(BNum NPow, "**"); (BNum NMul, "*"); (BNum NTruediv, "/"); (BNum NFloordiv, "div"); (BNum NMod, "mod"); (BNum NAdd, "+"); (BNum NSub, "-");
   (BUnify, "="); (BDecompose, "=.."); (BCmp CLt, "<"); (BCmp CLe, "<="); (BCmp CGt, ">"); (BCmp CGe, ">=");
   (BEq, "=="); (BNe, "\=="); (BAnd, "&"); (BOr, "|")]%string.

(** All strings in the term are texts of characters. *)
Fixpoint texts (t : term) : Prop :=
  match t with
  | TStr s => Forall code_point s
  | TUn _ a => texts a
  | TBin _ a b => texts a /\ texts b
  | TLit _ args an => fold_right and True (map texts args) /\ fold_right and True (map texts an)
  | TTup ts => fold_right and True (map texts ts)
  | TLL h t => texts h /\ texts t
  | _ => True
  end.

Section WithPy.
Context {PY : Py}.

(** Arguments or annotations in brackets; none, no brackets. *)
Inductive bracketed (p q : string) : list pystr -> pystr -> Prop :=
| bk_none : bracketed p q [] []
| bk_some l w : l <> [] -> listed l w -> bracketed p q l (s2p p ++ w ++ s2p q).

(** Numbers and truth values. *)
Inductive plain_written : term -> pystr -> Prop :=
| pw_true : plain_written (TBool true) (s2p "true")
| pw_false : plain_written (TBool false) (s2p "false")
| pw_int z w : signed z w -> plain_written (TNum (NInt z)) w
| pw_whole f z w : whole_float f z -> signed z w -> plain_written (TNum (NFlt f)) w
| pw_float f : (forall z, ~ whole_float f z) -> plain_written (TNum (NFlt f)) (frepr f).

(** The text of a term that can be read again. *)
Inductive written : term -> pystr -> Prop :=
| wr_plain t w : plain_written t w -> written t w
| wr_str s w : quoted_text s w -> written (TStr s) (s2p """" ++ w ++ s2p """")
| wr_var v : written (TVar v) (vname v)
| wr_wild w : written (TWild w) (s2p "_")
| wr_un op o a x : In (op, o) unary_text -> written a x -> written (TUn op a) (s2p "(" ++ s2p o ++ s2p " " ++ x ++ s2p ")")
| wr_bin op o a b x y : In (op, o) binary_text -> written a x -> written b y ->
    written (TBin op a b) (s2p "(" ++ x ++ s2p " " ++ s2p o ++ s2p " " ++ y ++ s2p ")")
| wr_lit f args an xs ys x y : Forall2 written args xs -> Forall2 written an ys ->
    bracketed "(" ")" xs x -> bracketed "[" "]" ys y -> written (TLit f args an) (f ++ x ++ y)
| wr_list ts xs w : Forall2 written ts xs -> listed xs w -> written (TTup ts) (s2p "[" ++ w ++ s2p "]")
| wr_pair h t x y : written h x -> written t y -> written (TLL h t) (s2p "[" ++ x ++ s2p "|" ++ y ++ s2p "]").

(** The text of a term that is printed: strings without quotes, also in lists,
    but not inside other terms. *)
Inductive printed : term -> pystr -> Prop :=
| pr_plain t w : plain_written t w -> printed t w
| pr_str s : printed (TStr s) s
| pr_list ts xs w : Forall2 printed ts xs -> listed xs w -> printed (TTup ts) (s2p "[" ++ w ++ s2p "]")
| pr_other t w : match t with TBool _ | TNum _ | TStr _ | TTup _ => False | _ => True end -> written t w -> printed t w.
End WithPy.
