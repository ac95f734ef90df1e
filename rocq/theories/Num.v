(** Python numbers: [int] is [Z], [float] is IEEE-754 binary64 ([spec_float]
    of the standard library, precision 53, emax 1024). *)
From Verif Require Import Base.
From Coq Require Import QArith Qreduction Floats.SpecFloat.
Open Scope Z_scope.

Inductive num : Type :=
| NInt (z : Z)
| NFlt (f : spec_float).

(** Mathematical value of a number. *)
Inductive xval : Type :=
| XNan
| XNInf
| XPInf
| XQ (q : Q).

Definition dyadic (m e : Z) : Q :=
  match e with
  | Zneg p => (m # (Pos.pow 2 p))%Q
  | _ => inject_Z (m * 2 ^ e)
  end.

Definition flt_val (f : spec_float) : xval :=
  match f with
  | S754_zero _ => XQ 0
  | S754_infinity false => XPInf
  | S754_infinity true => XNInf
  | S754_nan => XNan
  | S754_finite s m e => XQ (dyadic (if s then Zneg m else Zpos m) e)
  end.

Definition num_val (x : num) : xval :=
  match x with
  | NInt z => XQ (inject_Z z)
  | NFlt f => flt_val f
  end.

Definition is_nan (x : num) : bool :=
  match num_val x with XNan => true | _ => false end.

(** Comparison of int/float in any combination is exact in Python (the int is
    not rounded); [None] means unordered (a NaN is involved). *)
Definition xcmp (a b : xval) : option comparison :=
  match a, b with
  | XNan, _ | _, XNan => None
  | XNInf, XNInf => Some Eq
  | XNInf, _ => Some Lt
  | _, XNInf => Some Gt
  | XPInf, XPInf => Some Eq
  | XPInf, _ => Some Gt
  | _, XPInf => Some Lt
  | XQ p, XQ q => Some (Qcompare p q)
  end.

Definition num_cmp (a b : num) : option comparison := xcmp (num_val a) (num_val b).

(** Python [==] on numbers. *)
Definition num_eqb (a b : num) : bool :=
  match num_cmp a b with Some Eq => true | _ => false end.

Inductive cop : Type := CLt | CLe | CGt | CGe.

Definition cop_of (c : cop) (r : comparison) : bool :=
  match c, r with
  | CLt, Lt => true
  | CLe, Lt => true | CLe, Eq => true
  | CGt, Gt => true
  | CGe, Gt => true | CGe, Eq => true
  | _, _ => false
  end.

(** Python [<], [<=], [>], [>=] on numbers (always False if unordered). *)
Definition num_ord (c : cop) (a b : num) : bool :=
  match num_cmp a b with Some r => cop_of c r | None => false end.

(** * Arithmetic: the functions of the operator module on int and float *)

Definition prec := 53.
Definition emax := 1024.

(** Conversion int -> float; OverflowError if too large. *)
Definition to_float (z : Z) : res spec_float :=
  match binary_normalize prec emax z 0 false with
  | S754_infinity _ => Err EOverflow
  | f => Ok f
  end.

Definition as_float (x : num) : res spec_float :=
  match x with NInt z => to_float z | NFlt f => Ok f end.

Definition flt_is_zero (f : spec_float) : bool :=
  match f with S754_zero _ => true | _ => false end.

Definition flt_neg (f : spec_float) : bool :=
  (* f < 0 *)
  match f with S754_infinity true => true | S754_finite true _ _ => true | _ => false end.

Definition flt_signbit (f : spec_float) : bool :=
  match f with
  | S754_infinity s | S754_finite s _ _ | S754_zero s => s
  | S754_nan => false
  end.

(** int / int, correctly rounded. *)
Definition int_truediv (a b : Z) : res num :=
  match b with
  | 0 => Err EZeroDiv
  | _ =>
      match Z.abs a, Z.abs b with
      | Zpos ma, Zpos mb =>
          let '(m, e, l) := SFdiv_core_binary prec emax (Zpos ma) 0 (Zpos mb) 0 in
          match binary_round_aux prec emax (xorb (a <? 0) (b <? 0)) m e l with
          | S754_infinity _ => Err EOverflow
          | f => Ok (NFlt f)
          end
      | _, _ => Ok (NFlt (S754_zero (b <? 0)))
      end
  end.

(** C fmod: exact remainder with the sign of the dividend. *)
Definition flt_fmod (x y : spec_float) : spec_float :=
  match x, y with
  | S754_nan, _ | _, S754_nan => S754_nan
  | S754_infinity _, _ => S754_nan
  | _, S754_zero _ => S754_nan
  | S754_zero _, _ => x
  | _, S754_infinity _ => x
  | S754_finite sx mx ex, S754_finite _ my ey =>
      let e := Z.min ex ey in
      let r := (Zpos mx * 2 ^ (ex - e)) mod (Zpos my * 2 ^ (ey - e)) in
      binary_normalize prec emax (if sx then - r else r) e sx
  end.

Definition flt_floor (x : spec_float) : spec_float :=
  match x with
  | S754_finite s m e =>
      match e with
      | Zneg p => binary_normalize prec emax ((if s then Zneg m else Zpos m) / 2 ^ (Zpos p)) 0 false
      | _ => x
      end
  | _ => x
  end.

Definition flt_one : spec_float := binary_normalize prec emax 1 0 false.
Definition flt_half : spec_float := binary_normalize prec emax 1 (-1) false.

(** CPython float_rem: result has the sign of the divisor. *)
Definition flt_mod (v w : spec_float) : res num :=
  if flt_is_zero w then Err EZeroDiv else
  let m := flt_fmod v w in
  if flt_is_zero m then Ok (NFlt (S754_zero (flt_signbit w)))
  else if Bool.eqb (flt_neg w) (flt_neg m) then Ok (NFlt m)
  else Ok (NFlt (SFadd prec emax m w)).

(** CPython float_floor_div. *)
Definition flt_floordiv (v w : spec_float) : res num :=
  if flt_is_zero w then Err EZeroDiv else
  let m := flt_fmod v w in
  let d := SFdiv prec emax (SFsub prec emax v m) w in
  let d := if flt_is_zero m then d
           else if Bool.eqb (flt_neg w) (flt_neg m) then d
           else SFsub prec emax d flt_one in
  if flt_is_zero d then Ok (NFlt (S754_zero (flt_signbit (SFdiv prec emax v w))))
  else
    let fl := flt_floor d in
    if num_ord CGt (NFlt (SFsub prec emax d fl)) (NFlt flt_half)
    then Ok (NFlt (SFadd prec emax fl flt_one))
    else Ok (NFlt fl).

Inductive nop : Type := NPow | NMul | NTruediv | NFloordiv | NMod | NAdd | NSub.

Section Arith.
  (** C's pow on floats, including Python's error cases; a complex result is
      [Err EUnmodelled]. *)
  Variable fpow : spec_float -> spec_float -> res num.

  Definition flt_op (op : nop) (a b : spec_float) : res num :=
    match op with
    | NAdd => Ok (NFlt (SFadd prec emax a b))
    | NSub => Ok (NFlt (SFsub prec emax a b))
    | NMul => Ok (NFlt (SFmul prec emax a b))
    | NTruediv => if flt_is_zero b then Err EZeroDiv else Ok (NFlt (SFdiv prec emax a b))
    | NFloordiv => flt_floordiv a b
    | NMod => flt_mod a b
    | NPow => fpow a b
    end.

  Definition int_op (op : nop) (a b : Z) : res num :=
    match op with
    | NAdd => Ok (NInt (a + b))
    | NSub => Ok (NInt (a - b))
    | NMul => Ok (NInt (a * b))
    | NTruediv => int_truediv a b
    | NFloordiv => if b =? 0 then Err EZeroDiv else Ok (NInt (a / b))
    | NMod => if b =? 0 then Err EZeroDiv else Ok (NInt (a mod b))
    | NPow =>
        if 0 <=? b then Ok (NInt (a ^ b))
        else if a =? 0 then Err EZeroDiv
        else rbind (to_float a) (fun x => rbind (to_float b) (fun y => fpow x y))
    end.

  (** operator.pow, mul, truediv, floordiv, mod, add, sub
      (agentspeak/__init__.py:269-277). *)
  Definition num_op (op : nop) (a b : num) : res num :=
    match a, b with
    | NInt x, NInt y => int_op op x y
    | _, _ => rbind (as_float a) (fun x => rbind (as_float b) (fun y => flt_op op x y))
    end.
End Arith.

(** operator.neg (agentspeak/__init__.py:264). *)
Definition num_opp (a : num) : num :=
  match a with NInt z => NInt (- z) | NFlt f => NFlt (SFopp f) end.

(** * Canonical values: two numbers are [==] exactly if their canonical values
    are equal *)
Definition xcanon (x : xval) : xval :=
  match x with XQ q => XQ (Qred q) | _ => x end.

Definition num_canon (x : num) : xval := xcanon (num_val x).

Lemma num_eqb_canon a b :
  num_eqb a b = true <-> num_canon a = num_canon b /\ is_nan a = false.
Proof.
  unfold num_eqb, num_cmp, num_canon, is_nan.
  destruct (num_val a) as [| | |p], (num_val b) as [| | |q]; cbn; try (split; [easy | intros [H1 H2]; easy]).
  destruct (Qcompare p q) eqn:E; split; intro H; try easy.
  - split; [|easy]. f_equal. apply Qred_complete. now apply Qeq_alt.
  - destruct H as [H _]. inversion H as [H1]. apply (f_equal Qred) in H1.
    assert (p == q)%Q by (rewrite <- (Qred_correct p), <- (Qred_correct q), ?H1; inversion H; reflexivity).
    apply Qeq_alt in H0. congruence.
  - destruct H as [H _]. inversion H as [H1]. 
    assert (p == q)%Q by (rewrite <- (Qred_correct p), <- (Qred_correct q), H1; reflexivity).
    apply Qeq_alt in H0. congruence.
Qed.
