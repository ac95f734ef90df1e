(** C49: arithmetic.  [l] and [r] are any expressions with the given values. *)
From Verif Require Import Base Num Term Unify ArithCor ExPy.
From Coq Require Import Lia.

(** Integers: +, -, * and ** are exact ... *)
Theorem C49_exact : forall (PY : Py) n s l r a b,
  evaluate n l s = Ok (TNum (NInt a)) -> evaluate n r s = Ok (TNum (NInt b)) ->
  evaluate (S n) (TBin (BNum NAdd) l r) s = Ok (TNum (NInt (a + b))) /\
  evaluate (S n) (TBin (BNum NSub) l r) s = Ok (TNum (NInt (a - b))) /\
  evaluate (S n) (TBin (BNum NMul) l r) s = Ok (TNum (NInt (a * b))) /\
  ((0 <= b)%Z -> evaluate (S n) (TBin (BNum NPow) l r) s = Ok (TNum (NInt (a ^ b)))).
Proof. exact @int_exact. Qed.
Print Assumptions C49_exact.

(** ... [div] and [mod] give quotient and remainder, which has the sign of the
    divisor ... *)
Theorem C49_division : forall (PY : Py) n s l r a b,
  evaluate n l s = Ok (TNum (NInt a)) -> evaluate n r s = Ok (TNum (NInt b)) -> b <> 0%Z -> exists q m,
  evaluate (S n) (TBin (BNum NFloordiv) l r) s = Ok (TNum (NInt q)) /\
  evaluate (S n) (TBin (BNum NMod) l r) s = Ok (TNum (NInt m)) /\
  (a = b * q + m)%Z /\ ((0 <= m < b)%Z \/ (b < m <= 0)%Z).
Proof. exact @int_division. Qed.
Print Assumptions C49_division.

(** ... and dividing by 0 is an error. *)
Theorem C49_zero : forall (PY : Py) n s l r a b,
  evaluate n l s = Ok (TNum (NInt a)) -> evaluate n r s = Ok (TNum (NInt b)) -> b = 0%Z ->
  Forall (fun op => evaluate (S n) (TBin (BNum op) l r) s = Err EZeroDiv) [NTruediv; NFloordiv; NMod].
Proof. exact @int_zero. Qed.
Print Assumptions C49_zero.

Theorem C49_unary : forall (PY : Py) n s l a, evaluate n l s = Ok (TNum (NInt a)) ->
  evaluate (S n) (TUn UNeg l) s = Ok (TNum (NInt (- a))) /\ evaluate (S n) (TUn UPos l) s = Ok (TNum (NInt a)).
Proof. exact @int_unary. Qed.
Print Assumptions C49_unary.

(** Operands that are not numbers are refused. *)
Theorem C49_refused : forall (PY : Py) n s l r op lv rv,
  evaluate n l s = Ok lv -> evaluate n r s = Ok rv -> (forall x, lv <> TNum x) \/ (forall x, rv <> TNum x) ->
  evaluate (S n) (TBin (BNum op) l r) s = Err EAsl.
Proof. exact @arith_refused. Qed.
Print Assumptions C49_refused.

Theorem C49_logic : forall (PY : Py) n s l r x y, evaluate n l s = Ok (TBool x) -> evaluate n r s = Ok (TBool y) ->
  evaluate (S n) (TBin BAnd l r) s = Ok (TBool (x && y)) /\
  evaluate (S n) (TBin BOr l r) s = Ok (TBool (x || y)) /\
  evaluate (S n) (TUn UNot l) s = Ok (TBool (negb x)).
Proof. exact @bool_ops. Qed.
Print Assumptions C49_logic.

(** -7 div 2 = -4, -7 mod 2 = 1, with X = -7. *)
Example C49_case : let s := [(0%N, TNum (NInt (-7)))] in
  @evaluate PyEx 3 (TVar 0) s = Ok (TNum (NInt (-7))) /\
  @evaluate PyEx 4 (TBin (BNum NFloordiv) (TVar 0) (TNum (NInt 2))) s = Ok (TNum (NInt (-4))) /\
  @evaluate PyEx 4 (TBin (BNum NMod) (TVar 0) (TNum (NInt 2))) s = Ok (TNum (NInt 1)).
Proof. split; [vm_compute; reflexivity|]. split; vm_compute; reflexivity. Qed.
