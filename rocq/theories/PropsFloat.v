(** C57: arithmetic with floats.  The result of an operation is the float that
    is nearest to the exact result, over the rational numbers. *)
From Verif Require Import Base Num Term Unify Parse FloatSpec FloatEval FloatCor ExPy.
From Coq Require Import QArith Qabs Qround Floats.SpecFloat Lia.
Local Open Scope Z_scope.

(** Sums, differences and products, if one operand is a float ... *)
Theorem C57_sums : forall (PY : Py) n s l r x y,
  evaluate n l s = Ok (TNum x) -> evaluate n r s = Ok (TNum y) -> is_float x \/ is_float y -> in_range x -> in_range y ->
  exists a b, operand x a /\ operand y b /\
  (exists f, evaluate (S n) (TBin (BNum NAdd) l r) s = Ok (TNum (NFlt f)) /\ rounded (qval a + qval b) f /\
     ((qval a + qval b == 0)%Q -> negative f = negative a && negative b)) /\
  (exists f, evaluate (S n) (TBin (BNum NSub) l r) s = Ok (TNum (NFlt f)) /\ rounded (qval a - qval b) f /\
     ((qval a - qval b == 0)%Q -> negative f = negative a && negb (negative b))) /\
  (exists f, evaluate (S n) (TBin (BNum NMul) l r) s = Ok (TNum (NFlt f)) /\ rounded (qval a * qval b) f /\
     negative f = xorb (negative a) (negative b)).
Proof. exact @float_sums. Qed.
Print Assumptions C57_sums.

(** ... quotients and remainders; a remainder has the sign of the divisor, [div]
    is the floor of the exact quotient, if that is less than 2^48 or the
    operands are whole numbers up to 2^53, and dividing by zero is an error ... *)
Theorem C57_quotients : forall (PY : Py) n s l r x y,
  evaluate n l s = Ok (TNum x) -> evaluate n r s = Ok (TNum y) -> is_float x \/ is_float y -> in_range x -> in_range y ->
  exists a b, operand x a /\ operand y b /\
  (~ (qval b == 0)%Q ->
    (exists f, evaluate (S n) (TBin (BNum NTruediv) l r) s = Ok (TNum (NFlt f)) /\ rounded (qval a / qval b) f /\
       negative f = xorb (negative a) (negative b)) /\
    (exists f, evaluate (S n) (TBin (BNum NMod) l r) s = Ok (TNum (NFlt f)) /\
       rounded (qval a - qval b * inject_Z (Qfloor (qval a / qval b))) f /\ negative f = negative b) /\
    (Z.abs (Qfloor (qval a / qval b)) < 2 ^ 48 ->
       exists f, evaluate (S n) (TBin (BNum NFloordiv) l r) s = Ok (TNum (NFlt f)) /\ float64 f /\ finite f /\
         (qval f == inject_Z (Qfloor (qval a / qval b)))%Q) /\
    (forall p q, (qval a == inject_Z p)%Q -> (qval b == inject_Z q)%Q -> Z.abs p <= 2 ^ 53 ->
       exists f, evaluate (S n) (TBin (BNum NFloordiv) l r) s = Ok (TNum (NFlt f)) /\ float64 f /\ finite f /\ (qval f == inject_Z (p / q))%Q)) /\
  ((qval b == 0)%Q -> Forall (fun op => evaluate (S n) (TBin (BNum op) l r) s = Err EZeroDiv) [NTruediv; NMod; NFloordiv]).
Proof. exact @float_quotients. Qed.
Print Assumptions C57_quotients.

(** ... and an integer beyond the range of floats is an error. *)
Theorem C57_too_large : forall (PY : Py) n s l r x y,
  evaluate n l s = Ok (TNum x) -> evaluate n r s = Ok (TNum y) -> forall op z, (limit <= Qabs (inject_Z z))%Q ->
  (x = NInt z /\ is_float y) \/ (y = NInt z /\ is_float x) -> evaluate (S n) (TBin (BNum op) l r) s = Err EOverflow.
Proof. exact @too_large. Qed.
Print Assumptions C57_too_large.

(** The quotient of two integers, even if they are beyond that range. *)
Theorem C57_int_quotients : forall (PY : Py) n s l r x y,
  evaluate n l s = Ok (TNum x) -> evaluate n r s = Ok (TNum y) -> forall a b, x = NInt a -> y = NInt b -> b <> 0 ->
  ((Qabs (inject_Z a / inject_Z b) < limit)%Q -> exists f, evaluate (S n) (TBin (BNum NTruediv) l r) s = Ok (TNum (NFlt f)) /\
     rounded (inject_Z a / inject_Z b) f /\ negative f = xorb (a <? 0) (b <? 0)) /\
  ((limit <= Qabs (inject_Z a / inject_Z b))%Q -> evaluate (S n) (TBin (BNum NTruediv) l r) s = Err EOverflow).
Proof. exact @int_quotients. Qed.
Print Assumptions C57_int_quotients.

(** A numeral is the float nearest to the number that is written. *)
Theorem C57_numeral : forall w x, numeral_value w x -> rounded x (float_lit w).
Proof. exact numeral_rounded. Qed.
Print Assumptions C57_numeral.

(** Rounding leaves floats alone, so whole numbers up to 2^53 are computed
    exactly. *)
Theorem C57_self : forall x f g, rounded x f -> float64 g -> finite g -> (qval g == x)%Q -> finite f /\ (qval f == x)%Q.
Proof. exact rounded_self. Qed.
Print Assumptions C57_self.
Theorem C57_whole : forall x f z, rounded x f -> (x == inject_Z z)%Q -> Z.abs z <= 2 ^ 53 -> finite f /\ (qval f == inject_Z z)%Q.
Proof. exact rounded_whole. Qed.
Print Assumptions C57_whole.

(** 0.1 + 2 with X = 0.1: the hypotheses are met.  -7.5 mod 2 is 0.5 and -7 div 2
    is -4. *)
Definition flt (w : pystr) : Num.num := NFlt (float_lit w).
Example C57_case : let s := [(0%N, TNum (flt (s2p "0.1")))] in
  @evaluate PyEx 3 (TVar 0) s = Ok (TNum (flt (s2p "0.1"))) /\ @evaluate PyEx 3 (TNum (NInt 2)) s = Ok (TNum (NInt 2)) /\
  is_float (flt (s2p "0.1")) /\ in_range (flt (s2p "0.1")) /\ in_range (NInt 2).
Proof. split; [vm_compute; reflexivity|]. split; [vm_compute; reflexivity|]. split; [exact I|]. split; [split; [vm_compute; reflexivity|exact I]|]. vm_compute. reflexivity. Qed.
Example C57_case_mod : let ev op a b := @evaluate PyEx 3 (TBin (BNum op) (TUn UNeg (TNum (flt a))) (TNum (flt b))) [] in
  ev NMod (s2p "7.5") (s2p "2") = Ok (TNum (flt (s2p "0.5"))) /\
  ev NFloordiv (s2p "7") (s2p "2") = Ok (TNum (num_opp (flt (s2p "4")))).
Proof. vm_compute. split; reflexivity. Qed.
Example C57_case_numeral : numeral_value (s2p "12.50e-1") ((inject_Z 12 + inject_Z 50 / 10 ^ 2) * 10 ^ (-1)) /\
  float_lit (s2p "12.50e-1") = float_lit (s2p "1.25").
Proof.
  split; [|vm_compute; reflexivity].
  apply (numeral_value_intro (s2p "12.50") _ (s2p "e-1") (-1)).
  - apply (mv_frac (s2p "12") (s2p "50")); reflexivity || discriminate.
  - apply (ev_minus 101 (s2p "1")); [now left|discriminate|reflexivity].
Qed.
(** The sum of the floats 0.1 and 0.2 is not the float 0.3, but the result is
    rounded only once: it is the float next to it. *)
Example C57_case_sum : @evaluate PyEx 2 (TBin (BNum NAdd) (TNum (flt (s2p "0.1"))) (TNum (flt (s2p "0.2")))) [] =
  Ok (TNum (flt (s2p "0.30000000000000004"))).
Proof. vm_compute. reflexivity. Qed.
(** Larger quotients need not be exact: the floor may not even be a float. *)
Example C57_limit : let f := S754_finite false 5604060912706050 946 in
  @evaluate PyEx 2 (TBin (BNum NFloordiv) (TNum (flt (s2p "1e300"))) (TNum (flt (s2p "0.3")))) [] = Ok (TNum (NFlt f)) /\
  Qeq_bool (qval f) (inject_Z (Qfloor (qval (float_lit (s2p "1e300")) / qval (float_lit (s2p "0.3"))))) = false.
Proof. split; vm_compute; reflexivity. Qed.
