(** Text: [str], [asl_str] and [asl_repr] of terms
    (agentspeak/__init__.py:324-359, 465-472, 496-499, 538-545, 589-596,
    693-706, 813-822). *)
From Verif Require Import Base Num Term.
From Coq Require Import Decimal Floats.SpecFloat.

(** [str(n)] for a non-negative int: decimal digits. *)
Fixpoint uint_digits (d : Decimal.uint) : pystr :=
  match d with
  | Nil => []
  | D0 d => 48%N :: uint_digits d
  | D1 d => 49%N :: uint_digits d
  | D2 d => 50%N :: uint_digits d
  | D3 d => 51%N :: uint_digits d
  | D4 d => 52%N :: uint_digits d
  | D5 d => 53%N :: uint_digits d
  | D6 d => 54%N :: uint_digits d
  | D7 d => 55%N :: uint_digits d
  | D8 d => 56%N :: uint_digits d
  | D9 d => 57%N :: uint_digits d
  end.

Definition dec_N (n : N) : pystr := uint_digits (N.to_uint n).

(** [str(n)], [repr(n)] for an int. *)
Definition dec_Z (z : Z) : pystr :=
  match z with
  | Zneg p => 45%N :: dec_N (Npos p)
  | Z0 => dec_N 0
  | Zpos p => dec_N (Npos p)
  end.

(** [float.is_integer] together with [int(f)]. *)
Definition flt_int (f : spec_float) : option Z :=
  match f with
  | S754_zero _ => Some 0%Z
  | S754_finite s m e =>
      let z := if s then Zneg m else Zpos m in
      match e with
      | Zneg p => if (z mod 2 ^ Zpos p =? 0)%Z then Some (z / 2 ^ Zpos p)%Z else None
      | _ => Some (z * 2 ^ e)%Z
      end
  | _ => None
  end.

(** One lower case hexadecimal digit. *)
Definition hex1 (n : N) : N := if (n <? 10)%N then (48 + n)%N else (87 + n)%N.

(** The [k] lowest hexadecimal digits of [n]. *)
Fixpoint hexk (k : nat) (n : N) : pystr :=
  match k with
  | O => []
  | S k' => hexk k' (n / 16)%N ++ [hex1 (n mod 16)]
  end.

(** Python's codec "unicode_escape", one character. *)
Definition esc_char (c : N) : pystr :=
  if (c =? 92)%N then [92; 92]%N
  else if (c =? 9)%N then [92; 116]%N
  else if (c =? 10)%N then [92; 110]%N
  else if (c =? 13)%N then [92; 114]%N
  else if (32 <=? c)%N && (c <? 127)%N then [c]
  else if (c <? 256)%N then 92%N :: 120%N :: hexk 2 c
  else if (c <? 65536)%N then 92%N :: 117%N :: hexk 4 c
  else 92%N :: 85%N :: hexk 8 c.

(** [s.encode("unicode_escape").decode("utf-8")] *)
Fixpoint unicode_escape (s : pystr) : pystr :=
  match s with
  | [] => []
  | c :: s' => esc_char c ++ unicode_escape s'
  end.

(** [s.replace('"', '\\"')] *)
Fixpoint esc_quotes (s : pystr) : pystr :=
  match s with
  | [] => []
  | c :: s' => if (c =? 34)%N then 92%N :: 34%N :: esc_quotes s' else c :: esc_quotes s'
  end.

(** asl_repr of a string (346-349). *)
Definition str_repr (s : pystr) : pystr := 34%N :: esc_quotes (unicode_escape s) ++ [34%N].

(** [sep.join(l)] *)
Fixpoint joins (sep : pystr) (l : list pystr) : pystr :=
  match l with
  | [] => []
  | [x] => x
  | x :: l' => x ++ sep ++ joins sep l'
  end.

(** Lexemes of the operators (261-290). *)
Definition unop_lex (op : unop) : pystr :=
  match op with UNot => s2p "not" | UPos => s2p "+" | UNeg => s2p "-" end.
Definition nop_lex (op : nop) : pystr :=
  match op with
  | NPow => s2p "**" | NMul => s2p "*" | NTruediv => s2p "/"
  | NFloordiv => s2p "div" | NMod => s2p "mod" | NAdd => s2p "+" | NSub => s2p "-"
  end.
Definition cop_lex (c : cop) : pystr :=
  match c with CLt => s2p "<" | CLe => s2p "<=" | CGt => s2p ">" | CGe => s2p ">=" end.
Definition binop_lex (op : binop) : pystr :=
  match op with
  | BNum o => nop_lex o
  | BUnify => s2p "=" | BDecompose => s2p "=.."
  | BCmp c => cop_lex c
  | BEq => s2p "==" | BNe => s2p "\=="
  | BAnd => s2p "&" | BOr => s2p "|"
  end.

Section WithPy.
Context {PY : Py}.

(** [repr(x)] and [str(x)] of a number that is not an integral float. *)
Definition num_str (x : num) : pystr :=
  match x with NInt z => dec_Z z | NFlt f => frepr f end.

(** The number branch of asl_str and asl_repr (333-335, 352-359). *)
Definition num_asl (x : num) : pystr :=
  match x with
  | NInt z => dec_Z z
  | NFlt f => match flt_int f with Some z => dec_Z z | None => frepr f end
  end.

(** asl_repr (338-359) with the [asl_repr] methods of Var (465-469), Wildcard
    (496-497), UnaryExpr (538-540), BinaryExpr (589-594), Literal (693-704) and
    LinkedList (813-820). *)
Fixpoint asl_repr (t : term) : pystr :=
  match t with
  | TBool true => s2p "true"
  | TBool false => s2p "false"
  | TNum x => num_asl x
  | TStr s => str_repr s
  | TVar v => vname v
  | TWild _ => s2p "_"
  | TUn op a => s2p "(" ++ unop_lex op ++ s2p " " ++ asl_repr a ++ s2p ")"
  | TBin op l r =>
      s2p "(" ++ asl_repr l ++ s2p " " ++ binop_lex op ++ s2p " " ++ asl_repr r ++ s2p ")"
  | TLit f args annots =>
      f ++ (match args with [] => [] | _ => s2p "(" ++ joins (s2p ", ") (map asl_repr args) ++ s2p ")" end)
        ++ (match annots with [] => [] | _ => s2p "[" ++ joins (s2p ", ") (map asl_repr annots) ++ s2p "]" end)
  | TTup ts => s2p "[" ++ joins (s2p ", ") (map asl_repr ts) ++ s2p "]"
  | TLL h t => s2p "[" ++ asl_repr h ++ s2p "|" ++ asl_repr t ++ s2p "]"
  end.

(** Python's [str(term)]: the classes of agentspeak alias [__str__] to
    [asl_repr].  The [str] of a tuple is Python's own notation, outside the
    model. *)
Definition py_str (t : term) : res pystr :=
  match t with
  | TBool true => Ok (s2p "True")
  | TBool false => Ok (s2p "False")
  | TNum x => Ok (num_str x)
  | TStr s => Ok s
  | TTup _ => Err EUnmodelled
  | _ => Ok (asl_repr t)
  end.

(** asl_str (324-335) *)
Fixpoint asl_str (t : term) : pystr :=
  match t with
  | TBool true => s2p "true"
  | TBool false => s2p "false"
  | TTup ts => s2p "[" ++ joins (s2p ", ") (map asl_str ts) ++ s2p "]"
  | TNum x => num_asl x
  | TStr s => s
  | _ => asl_repr t
  end.

End WithPy.
