(** Numbers whose text means them. *)
From Verif Require Import Base Num Term PyEq Str World Ast Names Quote QuoteSpec Lex LexSpec Parse RoundSpec NumRead CmpFacts GramSpec Build ShowSpec.
From Coq Require Import QArith Floats.SpecFloat Lia.
Local Open Scope Z_scope.

Definition xopp (x : xval) : xval :=
  match x with XNan => XNan | XNInf => XPInf | XPInf => XNInf | XQ q => XQ (- q)%Q end.

Lemma opp_inject z : (inject_Z (- z) = - inject_Z z)%Q.
Proof. reflexivity. Qed.

Lemma val_opp x : num_val (num_opp x) = xopp (num_val x).
Proof.
  destruct x as [z|[s|[|]| |s m e]]; cbn [num_opp num_val SFopp flt_val xopp negb]; try reflexivity.
  f_equal. destruct e as [|p|p]; cbn [dyadic]; destruct s; cbn [negb]; try reflexivity;
    rewrite <- opp_inject; f_equal; change (Zneg m) with (- Zpos m); lia.
Qed.

Lemma opp_eqb x y : num_eqb x y = true -> num_eqb (num_opp x) (num_opp y) = true.
Proof.
  unfold num_eqb, num_cmp. rewrite !val_opp. destruct (num_val x) as [| | |p], (num_val y) as [| | |q]; cbn [xopp xcmp]; try easy.
  destruct (p ?= q)%Q eqn:E; try easy. intros _. apply Qeq_alt in E.
  assert (F : (- p == - q)%Q) by (rewrite E; reflexivity). apply Qeq_alt in F. now rewrite F.
Qed.

(** A float that is a whole number is that number. *)
Lemma whole_value f z : flt_int f = Some z -> num_eqb (NInt z) (NFlt f) = true.
Proof.
  intros H. unfold num_eqb, num_cmp. cbn [num_val].
  destruct f as [s|s| |s m e]; try discriminate; cbn [flt_val].
  - apply Some_inj in H. now subst z.
  - cbn [xcmp]. assert (E : (inject_Z z == dyadic (if s then Zneg m else Zpos m) e)%Q); [|apply Qeq_alt in E; now rewrite E].
    unfold flt_int in H. set (k := if s then Zneg m else Zpos m) in *. clearbody k. destruct e as [|p|p]; cbn [dyadic].
    + apply Some_inj in H. now subst z.
    + apply Some_inj in H. now subst z.
    + destruct (k mod 2 ^ Zpos p =? 0) eqn:M; [|discriminate]. apply Z.eqb_eq in M. apply Some_inj in H. subst z.
      unfold Qeq. cbn [Qnum Qden inject_Z]. rewrite pow2_Zpos, Z.mul_1_r.
      assert (P : 0 < 2 ^ Zpos p) by (apply Z.pow_pos_nonneg; lia). pose proof (Z.div_mod k (2 ^ Zpos p)). lia.
Qed.

Lemma abs_valid f : valid_binary prec emax f = true -> valid_binary prec emax (SFabs f) = true.
Proof. now destruct f. Qed.

Lemma int_opp f z : flt_int f = Some z -> flt_int (SFopp f) = Some (- z).
Proof.
  destruct f as [s|s| |s m e]; try discriminate; cbn [flt_int SFopp]; intros H; [apply Some_inj in H; now subst|].
  assert (K : (if negb s then Zneg m else Zpos m) = - (if s then Zneg m else Zpos m)) by now destruct s.
  rewrite K. set (k := if s then Zneg m else Zpos m) in *. clearbody k. destruct e as [|p|p].
  - apply Some_inj in H. subst z. f_equal. lia.
  - apply Some_inj in H. subst z. f_equal. lia.
  - destruct (k mod 2 ^ Zpos p =? 0) eqn:M; [|discriminate]. apply Z.eqb_eq in M. apply Some_inj in H. subst z.
    rewrite Z.mod_opp_l_z by (assumption || (pose proof (Z.pow_pos_nonneg 2 (Zpos p)); lia)). cbn [Z.eqb].
    now rewrite Z.div_opp_l_z by (assumption || (pose proof (Z.pow_pos_nonneg 2 (Zpos p)); lia)).
Qed.

Section WithPy.
Context {PY : Py}.

(** The digits of a whole number that some float is. *)
Lemma digits_mean f z : valid_binary prec emax f = true -> flt_int f = Some z -> 0 <= z ->
  exists w, numeral_text w /\ dec_Z z = w /\ num_eqb (NInt z) (NFlt (float_lit w)) = true.
Proof.
  intros Hv Hz H0. exists (dec_Z z).
  assert (F : exists g, valid_binary prec emax g = true /\ flt_signbit g = false /\ flt_int g = Some z).
  { destruct f as [s|s| |s m e]; try discriminate.
    - exists (S754_zero false). apply Some_inj in Hz. now subst z.
    - exists (S754_finite false m e). split; [exact Hv|]. split; [reflexivity|]. destruct s; [|assumption]. exfalso.
      cbn [flt_int] in Hz. destruct e as [|p|p].
      + apply Some_inj in Hz. change (2 ^ 0) with 1 in Hz. lia.
      + apply Some_inj in Hz. assert (0 < 2 ^ Zpos p) by (apply Z.pow_pos_nonneg; lia). nia.
      + destruct (Zneg m mod 2 ^ Zpos p =? 0) eqn:M; [|discriminate]. apply Z.eqb_eq in M. apply Some_inj in Hz.
        assert (P : 0 < 2 ^ Zpos p) by (apply Z.pow_pos_nonneg; lia). pose proof (Z.div_mod (Zneg m) (2 ^ Zpos p)). nia. }
  destruct F as (g & Gv & Gs & Gz). destruct (whole_numeral g z Gv Gs Gz) as (m & e & E1 & Hm & He & E2).
  cbn [num_asl] in E1. rewrite Gz in E1. split; [now exists m, e|]. split; [reflexivity|].
  rewrite E1. injection E2 as <-. now apply whole_value.
Qed.

Lemma int_writable f z : valid_binary prec emax f = true -> flt_int f = Some z -> writable_num (NInt z).
Proof.
  intros Hv Hz. destruct (Z.le_gt_cases 0 z) as [H|H].
  - destruct (digits_mean f z Hv Hz H) as (w & Hw & E & Q). exists w. split; [assumption|]. left. now split.
  - destruct (digits_mean (SFopp f) (- z)) as (w & Hw & E & Q); [now destruct f|now apply int_opp|lia|].
    exists w. split; [assumption|]. right. split.
    + cbn [num_asl]. destruct z as [|p|p]; try lia. cbn [dec_Z Z.opp] in *. now rewrite E.
    + apply opp_eqb in Q. cbn [num_opp] in Q. now rewrite Z.opp_involutive in Q.
Qed.

Lemma flt_writable f z : valid_binary prec emax f = true -> flt_int f = Some z -> writable_num (NFlt f).
Proof.
  intros Hv Hz. destruct (int_writable f z Hv Hz) as (w & Hw & H). exists w. split; [assumption|].
  pose proof (whole_value f z Hz) as V. rewrite num_eqb_sym in V.
  assert (A : num_asl (NFlt f) = num_asl (NInt z)) by (cbn [num_asl]; now rewrite Hz).
  rewrite A. destruct H as [[E Q]|[E Q]]; [left|right]; (split; [assumption|]); eapply num_eqb_trans; eassumption.
Qed.

Lemma fraction_writable f : repr_exact -> valid_binary prec emax f = true -> flt_int f = None ->
  (exists s m e, f = S754_finite s m e) -> writable_num (NFlt f).
Proof.
  intros R Hv Hn (s & m & e & ->). destruct (R _ Hv Hn) as (w & Hw & E & T). exists w. split; [assumption|].
  cbn [num_asl]. rewrite Hn, T. cbn [SFabs] in E. rewrite E.
  assert (X : forall g, (exists s' m' e', g = S754_finite s' m' e') -> num_eqb (NFlt g) (NFlt g) = true).
  { intros g (s' & m' & e' & ->). unfold num_eqb, num_cmp. cbn [num_val flt_val xcmp].
    assert (Q : forall q, (q ?= q)%Q = Eq) by (intros q; apply Qeq_alt; reflexivity). now rewrite Q. }
  destruct s; [right|left]; (split; [reflexivity|]); apply X; repeat eexists.
Qed.

(** Whole numbers of up to 53 bits are floats. *)
Lemma small_float z : Z.abs z < 2 ^ 53 -> exists f, valid_binary prec emax f = true /\ flt_int f = Some z.
Proof.
  assert (P : forall n, Zpos n < 2 ^ 53 -> exists m e, bounded prec emax m e = true /\ flt_int (S754_finite false m e) = Some (Zpos n)).
  { intros n Hn.
    assert (D : Zpos (digits2_pos n) <= 53).
    { apply Z.nlt_ge. intros C.
      assert (B : forall p, 2 ^ (Zpos (digits2_pos p) - 1) <= Zpos p).
      { induction p as [p IH|p IH|]; cbn [digits2_pos]; [| |cbn; lia];
          rewrite Pos2Z.inj_succ; replace (Z.succ (Zpos (digits2_pos p)) - 1) with (Z.succ (Zpos (digits2_pos p) - 1)) by lia;
          rewrite Z.pow_succ_r by lia; lia. }
      specialize (B n). assert (2 ^ 53 <= 2 ^ (Zpos (digits2_pos n) - 1)) by (apply Z.pow_le_mono_r; lia). lia. }
    set (k := Z.to_nat (53 - Zpos (digits2_pos n))).
    exists (up k n), (Zpos (digits2_pos n) - 53).
    assert (Dk : Zpos (digits2_pos (up k n)) = 53) by (rewrite digits_up; subst k; lia).
    split.
    - unfold bounded, canonical_mantissa, fexp, emin. rewrite Dk. apply andb_true_intro. split.
      + apply Zeq_is_eq_bool. unfold prec, emax. lia.
      + apply Z.leb_le. unfold prec, emax. lia.
    - cbn [flt_int]. destruct (Zpos (digits2_pos n) - 53) as [|p|p] eqn:Ed; [| lia |].
      + assert (k = 0%nat) as -> by (subst k; lia). cbn. f_equal. lia.
      + assert (E : Zpos (up k n) = Zpos n * 2 ^ Zpos p) by (rewrite up_val; do 2 f_equal; subst k; lia).
        assert (0 < 2 ^ Zpos p) by (apply Z.pow_pos_nonneg; lia).
        rewrite E, Z.mod_mul, Z.div_mul by lia. reflexivity. }
  intros Hz. destruct z as [|n|n].
  - now exists (S754_zero false).
  - destruct (P n Hz) as (m & e & B & I). exists (S754_finite false m e). now split.
  - destruct (P n Hz) as (m & e & B & I). exists (S754_finite true m e). split; [exact B|]. exact (int_opp _ _ I).
Qed.
End WithPy.
