(** Which values can be read back from their text. *)
From Verif Require Import Base Num Term Unify Str World Ast Names Quote QuoteSpec Lex LexSpec Parse RoundSpec GramSpec Build.
From Coq Require Import Floats.SpecFloat.

Section WithPy.
Context {PY : Py}.

Definition numeral_text (w : pystr) : Prop := exists m e, w = m ++ e /\ mantissa m /\ exponent e.

(** The text of the number is a numeral, perhaps after a minus sign, that means
    an equal number. *)
Definition writable_num (x : num) : Prop := exists w, numeral_text w /\
  ((num_asl x = w /\ num_eqb x (NFlt (float_lit w)) = true) \/
   (num_asl x = 45%N :: w /\ num_eqb x (num_opp (NFlt (float_lit w))) = true)).

(** Values made of truth values, such numbers, strings, and literals and lists
    of values; functors are names of the language. *)
Fixpoint writable (t : term) : Prop :=
  match t with
  | TBool _ => True
  | TNum x => writable_num x
  | TStr s => Forall code_point s
  | TLit f args annots =>
      functor_name f /\ fold_right and True (map writable args) /\ fold_right and True (map writable annots)
  | TTup ts => fold_right and True (map writable ts)
  | TLL h t => writable h /\ writable t
  | _ => False
  end.

(** The text [s] is a term: parsed up to the full stop, built and evaluated,
    it is the value [v], up to Python's equality. *)
Definition means (s : pystr) (v : term) : Prop :=
  exists a f e u v',
    tokenize 1 (string_source (s ++ s2p ".")) = Ok (map ITok (a ++ [f])) /\
    accepts parse_term a e f /\
    (forall b, build_term false e b = (Ok u, b)) /\
    (exists N, forall n st, (N <= n)%nat -> grounded n u st = Ok v') /\
    py_eqb v v' = true.

(** What Python promises of [repr] of a float that is not a whole number: the
    digits that mean that float. *)
Definition repr_exact : Prop := forall f, valid_binary prec emax f = true -> flt_int f = None ->
  match f with
  | S754_finite s _ _ => exists w, numeral_text w /\ float_lit w = SFabs f /\ frepr f = (if s then 45%N :: w else w)
  | _ => True
  end.
End WithPy.
