(** What a correctly rounded float is: over the rational numbers, without
    reference to how floats are computed. *)
From Verif Require Import Base Num Names Lex LexSpec.
From Coq Require Import QArith Qabs Floats.SpecFloat.

(** Floats of double precision, and their rational values. *)
Definition float64 (f : spec_float) : Prop := valid_binary 53 1024 f = true.
Definition finite (f : spec_float) : Prop := match f with S754_zero _ | S754_finite _ _ _ => True | _ => False end.
Definition qval (f : spec_float) : Q :=
  match f with
  | S754_finite s m e => inject_Z (if s then Zneg m else Zpos m) * 2 ^ e
  | _ => 0
  end.
Definition even (f : spec_float) : Prop :=
  match f with S754_finite _ m _ => Z.even (Zpos m) = true | _ => True end.
Definition negative (f : spec_float) : bool :=
  match f with S754_zero s | S754_infinity s | S754_finite s _ _ => s | S754_nan => false end.

(** Halfway between the largest float and 2^1024. *)
Definition limit : Q := inject_Z (2 ^ 1024 - 2 ^ 970).

(** [rounded x f]: no float is closer to [x] than [f], and if another one is as
    close, [f] is the even one; beyond the limit, [f] is infinite. *)
Definition rounded (x : Q) (f : spec_float) : Prop :=
  float64 f /\
  ((x < 0)%Q -> negative f = true) /\ ((0 < x)%Q -> negative f = false) /\
  ((Qabs x < limit)%Q -> finite f /\ forall g, float64 g -> finite g ->
     (Qabs (qval f - x) <= Qabs (qval g - x))%Q /\
     ((Qabs (qval f - x) == Qabs (qval g - x))%Q -> (qval g == qval f)%Q \/ even f)) /\
  ((limit <= Qabs x)%Q -> exists s, f = S754_infinity s).

(** The value of a numeral as written: digits, possibly with a fraction and an
    exponent. *)
Definition whole (d : pystr) : Z := fold_left (fun a c => 10 * a + (Z.of_N c - 48))%Z d 0%Z.
Inductive mantissa_value : pystr -> Q -> Prop :=
| mv_int d : d <> [] -> all is_digit d -> mantissa_value d (inject_Z (whole d))
| mv_frac d e : all is_digit d -> e <> [] -> all is_digit e ->
    mantissa_value (d ++ 46%N :: e) (inject_Z (whole d) + inject_Z (whole e) / 10 ^ Z.of_nat (List.length e)).
Inductive exponent_value : pystr -> Z -> Prop :=
| ev_none : exponent_value [] 0
| ev_plain c d : In c [101; 69]%N -> d <> [] -> all is_digit d -> exponent_value (c :: d) (whole d)
| ev_plus c d : In c [101; 69]%N -> d <> [] -> all is_digit d -> exponent_value (c :: 43%N :: d) (whole d)
| ev_minus c d : In c [101; 69]%N -> d <> [] -> all is_digit d -> exponent_value (c :: 45%N :: d) (- whole d).
Inductive numeral_value : pystr -> Q -> Prop :=
| numeral_value_intro m x e k : mantissa_value m x -> exponent_value e k -> numeral_value (m ++ e) (x * 10 ^ k).

(** [operand x a]: [a] is the number [x], as a float. *)
Definition operand (x : Num.num) (a : spec_float) : Prop :=
  match x with
  | NFlt f => a = f /\ float64 f /\ finite f
  | NInt z => rounded (inject_Z z) a /\ finite a
  end.
(** Numbers that are floats, or integers within their range. *)
Definition in_range (x : Num.num) : Prop :=
  match x with NFlt f => float64 f /\ finite f | NInt z => (Qabs (inject_Z z) < limit)%Q end.
Definition is_float (x : Num.num) : Prop := match x with NFlt _ => True | NInt _ => False end.
