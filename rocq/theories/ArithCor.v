(** Arithmetic on integers. *)
From Verif Require Import Base Num Term Unify TrailFacts.
From Coq Require Import Lia.

Section WithPy.
Context {PY : Py}.
Variables (n : nat) (s : scope) (l r : term).

Lemma arith_step op lv rv : evaluate n l s = Ok lv -> evaluate n r s = Ok rv ->
  evaluate (S n) (TBin (BNum op) l r) s = eval_binop (BNum op) lv rv.
Proof. intros El Er. rewrite evaluate_S, El, Er. reflexivity. Qed.

Section Ints.
Variables a b : Z.
Hypothesis El : evaluate n l s = Ok (TNum (NInt a)).
Hypothesis Er : evaluate n r s = Ok (TNum (NInt b)).
Theorem int_exact :
  evaluate (S n) (TBin (BNum NAdd) l r) s = Ok (TNum (NInt (a + b))) /\
  evaluate (S n) (TBin (BNum NSub) l r) s = Ok (TNum (NInt (a - b))) /\
  evaluate (S n) (TBin (BNum NMul) l r) s = Ok (TNum (NInt (a * b))) /\
  ((0 <= b)%Z -> evaluate (S n) (TBin (BNum NPow) l r) s = Ok (TNum (NInt (a ^ b)))).
Proof.
  do 3 (split; [rewrite (arith_step _ _ _ El Er); reflexivity|]). intro Hb.
  rewrite (arith_step _ _ _ El Er). cbn [eval_binop num_op int_op]. destruct (Z.leb_spec 0 b); [reflexivity|lia].
Qed.
Theorem int_division : b <> 0%Z -> exists q m,
  evaluate (S n) (TBin (BNum NFloordiv) l r) s = Ok (TNum (NInt q)) /\
  evaluate (S n) (TBin (BNum NMod) l r) s = Ok (TNum (NInt m)) /\
  (a = b * q + m)%Z /\ ((0 <= m < b)%Z \/ (b < m <= 0)%Z).
Proof.
  intro Hb. exists (a / b)%Z, (a mod b)%Z.
  assert (Hz : (b =? 0)%Z = false) by now apply Z.eqb_neq.
  split; [rewrite (arith_step _ _ _ El Er); cbn [eval_binop num_op int_op]; now rewrite Hz|].
  split; [rewrite (arith_step _ _ _ El Er); cbn [eval_binop num_op int_op]; now rewrite Hz|]. split; [now apply Z.div_mod|].
  destruct (Z.lt_total b 0) as [H|[H|H]]; [right; now apply Z.mod_neg_bound|contradiction|left; now apply Z.mod_pos_bound].
Qed.
Theorem int_zero : b = 0%Z -> Forall (fun op => evaluate (S n) (TBin (BNum op) l r) s = Err EZeroDiv) [NTruediv; NFloordiv; NMod].
Proof. intros Hb. repeat constructor; rewrite (arith_step _ _ _ El Er), Hb; reflexivity. Qed.
Theorem int_unary : evaluate (S n) (TUn UNeg l) s = Ok (TNum (NInt (- a))) /\ evaluate (S n) (TUn UPos l) s = Ok (TNum (NInt a)).
Proof. rewrite !evaluate_S, El. split; reflexivity. Qed.
End Ints.

(** Anything that is not a number is refused. *)
Definition not_number (v : term) : Prop := forall x, v <> TNum x.
Theorem arith_refused op lv rv : evaluate n l s = Ok lv -> evaluate n r s = Ok rv -> not_number lv \/ not_number rv ->
  evaluate (S n) (TBin (BNum op) l r) s = Err EAsl.
Proof.
  intros El Er H. rewrite (arith_step _ _ _ El Er). cbn [eval_binop].
  destruct lv; try reflexivity. destruct rv; try reflexivity. destruct H as [H|H]; exfalso; now eapply H.
Qed.

Theorem bool_ops x y : evaluate n l s = Ok (TBool x) -> evaluate n r s = Ok (TBool y) ->
  evaluate (S n) (TBin BAnd l r) s = Ok (TBool (x && y)) /\
  evaluate (S n) (TBin BOr l r) s = Ok (TBool (x || y)) /\
  evaluate (S n) (TUn UNot l) s = Ok (TBool (negb x)).
Proof. intros El Er. rewrite !evaluate_S, El, Er. repeat split. Qed.
End WithPy.
