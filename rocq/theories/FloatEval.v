(** Arithmetic expressions with floats. *)
From Verif Require Import Base Num Term Unify TrailFacts ArithCor FloatSpec FloatRound FloatOps FloatCor FloatDiv.
From Coq Require Import QArith Qabs Qround Lqa Floats.SpecFloat Lia.
Local Open Scope Z_scope.

Lemma mixed_op fp op x y a b : is_float x \/ is_float y -> as_float x = Ok a -> as_float y = Ok b -> num_op fp op x y = flt_op fp op a b.
Proof.
  intros H Ea Eb. unfold num_op. destruct x as [x|x], y as [y|y]; [destruct H as [[]|[]]|..]; rewrite Ea; cbn [rbind]; rewrite Eb; reflexivity.
Qed.

Section WithPy.
Context {PY : Py}.
Variables (n : nat) (s : scope) (l r : term) (x y : Num.num).
Hypothesis El : evaluate n l s = Ok (TNum x).
Hypothesis Er : evaluate n r s = Ok (TNum y).

Lemma step op : evaluate (S n) (TBin (BNum op) l r) s = rmap TNum (num_op fpow op x y).
Proof. now rewrite (arith_step n s l r op _ _ El Er). Qed.

Section Mixed.
Hypothesis Hf : is_float x \/ is_float y.
Hypothesis Hx : in_range x.
Hypothesis Hy : in_range y.

Theorem float_sums : exists a b, operand x a /\ operand y b /\
  (exists f, evaluate (S n) (TBin (BNum NAdd) l r) s = Ok (TNum (NFlt f)) /\ rounded (qval a + qval b) f /\
     ((qval a + qval b == 0)%Q -> negative f = negative a && negative b)) /\
  (exists f, evaluate (S n) (TBin (BNum NSub) l r) s = Ok (TNum (NFlt f)) /\ rounded (qval a - qval b) f /\
     ((qval a - qval b == 0)%Q -> negative f = negative a && negb (negative b))) /\
  (exists f, evaluate (S n) (TBin (BNum NMul) l r) s = Ok (TNum (NFlt f)) /\ rounded (qval a * qval b) f /\
     negative f = xorb (negative a) (negative b)).
Proof.
  destruct (operand_float x Hx) as (a & Ea & Oa & Va & Fa). destruct (operand_float y Hy) as (b & Eb & Ob & Vb & Fb).
  exists a, b. split; [exact Oa|]. split; [exact Ob|]. rewrite !step, !(mixed_op _ _ x y a b Hf Ea Eb). cbn [flt_op rmap rbind]. split; [|split].
  - eexists. split; [reflexivity|]. now apply add_rounded.
  - eexists. split; [reflexivity|]. now apply sub_rounded.
  - eexists. split; [reflexivity|]. now apply mul_rounded.
Qed.

Theorem float_quotients : exists a b, operand x a /\ operand y b /\
  (~ (qval b == 0)%Q ->
    (exists f, evaluate (S n) (TBin (BNum NTruediv) l r) s = Ok (TNum (NFlt f)) /\ rounded (qval a / qval b) f /\
       negative f = xorb (negative a) (negative b)) /\
    (exists f, evaluate (S n) (TBin (BNum NMod) l r) s = Ok (TNum (NFlt f)) /\
       rounded (qval a - qval b * inject_Z (Qfloor (qval a / qval b))) f /\ negative f = negative b) /\
    (Z.abs (Qfloor (qval a / qval b)) < 2 ^ 48 ->
       exists f, evaluate (S n) (TBin (BNum NFloordiv) l r) s = Ok (TNum (NFlt f)) /\ float64 f /\ finite f /\
         (qval f == inject_Z (Qfloor (qval a / qval b)))%Q) /\
    (forall p q, (qval a == inject_Z p)%Q -> (qval b == inject_Z q)%Q -> Z.abs p <= 2 ^ 53 ->
       exists f, evaluate (S n) (TBin (BNum NFloordiv) l r) s = Ok (TNum (NFlt f)) /\ float64 f /\ finite f /\ (qval f == inject_Z (p / q))%Q)) /\
  ((qval b == 0)%Q -> Forall (fun op => evaluate (S n) (TBin (BNum op) l r) s = Err EZeroDiv) [NTruediv; NMod; NFloordiv]).
Proof.
  destruct (operand_float x Hx) as (a & Ea & Oa & Va & Fa). destruct (operand_float y Hy) as (b & Eb & Ob & Vb & Fb).
  exists a, b. split; [exact Oa|]. split; [exact Ob|]. split.
  - intros Nb. rewrite !step, !(mixed_op _ _ x y a b Hf Ea Eb). cbn [flt_op]. rewrite nonzero_float by assumption. split; [|split; [|split]].
    + eexists. split; [reflexivity|]. now apply div_rounded.
    + destruct (mod_rounded a b Va Vb Fa Fb Nb) as (f & E & R). exists f. rewrite E. split; [reflexivity|exact R].
    + intros B. destruct (floordiv_exact a b Va Vb Fa Fb Nb B) as (f & E & R). exists f. rewrite E. split; [reflexivity|exact R].
    + intros p q Hp Hq B. assert (Nq : q <> 0) by (intros ->; apply Nb; rewrite Hq; reflexivity).
      destruct (floordiv_whole a b p q Va Vb Fa Fb Hp Hq Nq B) as (f & E & R). exists f. rewrite E. split; [reflexivity|exact R].
  - intros Zb. apply is_zero_val in Zb; [|exact Fb].
    repeat constructor; rewrite step, (mixed_op _ _ x y a b Hf Ea Eb); cbn [flt_op]; unfold flt_mod, flt_floordiv; rewrite Zb; reflexivity.
Qed.
End Mixed.

Theorem too_large op z : (limit <= Qabs (inject_Z z))%Q ->
  (x = NInt z /\ is_float y) \/ (y = NInt z /\ is_float x) -> evaluate (S n) (TBin (BNum op) l r) s = Err EOverflow.
Proof.
  intros H C. rewrite step. pose proof (proj2 (int_float z) H) as O. destruct C as [[Ex F]|[Ex F]]; rewrite Ex.
  - destruct y as [|f]; [destruct F|]. cbn [num_op as_float]. rewrite O. reflexivity.
  - destruct x as [|f]; [destruct F|]. cbn [num_op as_float rbind]. rewrite O. reflexivity.
Qed.

Theorem int_quotients a b : x = NInt a -> y = NInt b -> b <> 0 ->
  ((Qabs (inject_Z a / inject_Z b) < limit)%Q -> exists f, evaluate (S n) (TBin (BNum NTruediv) l r) s = Ok (TNum (NFlt f)) /\
     rounded (inject_Z a / inject_Z b) f /\ negative f = xorb (a <? 0) (b <? 0)) /\
  ((limit <= Qabs (inject_Z a / inject_Z b))%Q -> evaluate (S n) (TBin (BNum NTruediv) l r) s = Err EOverflow).
Proof.
  intros Ex Ey Hb. rewrite step, Ex, Ey. cbn [num_op int_op]. destruct (int_quotient a b Hb) as [A B]. split; intros H.
  - destruct (A H) as (f & E & R & _ & N). exists f. rewrite E. split; [reflexivity|]. split; assumption.
  - rewrite (B H). reflexivity.
Qed.
End WithPy.

Theorem rounded_whole x f z : rounded x f -> (x == inject_Z z)%Q -> Z.abs z <= 2 ^ 53 -> finite f /\ (qval f == inject_Z z)%Q.
Proof. intros R E B. now apply (rounded_int z x f). Qed.
Theorem rounded_self x f g : rounded x f -> float64 g -> finite g -> (qval g == x)%Q -> finite f /\ (qval f == x)%Q.
Proof. intros R V F E. now apply (rounded_float g x f). Qed.
