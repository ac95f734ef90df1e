(** Conversions, remainders, whole quotients and numerals. *)
From Verif Require Import Base Num Term Unify TrailFacts Names Lex QuoteSpec LexSpec RegexFacts Parse NumRead ShowRepr ArithCor FloatSpec FloatRound FloatOps.
From Coq Require Import QArith Qpower Qabs Qround Lqa Floats.SpecFloat Lia.
Local Open Scope Z_scope.

(** ** Integers as floats *)
Lemma finite_not_inf x f : rounded x f -> (Qabs x < limit)%Q -> finite f.
Proof. intros (_ & _ & _ & F & _) H. exact (proj1 (F H)). Qed.
Lemma beyond_inf x f : rounded x f -> (limit <= Qabs x)%Q -> exists s, f = S754_infinity s.
Proof. intros (_ & _ & _ & _ & I) H. exact (I H). Qed.

Lemma pow_opp a n : (a ^ (- n) == / a ^ n)%Q.
Proof. destruct n; cbn [Qpower Z.opp]; [reflexivity|reflexivity|now rewrite Qinv_involutive]. Qed.
Lemma pw0 : (pw 0 == 1)%Q.
Proof. reflexivity. Qed.

Theorem int_float z : ((Qabs (inject_Z z) < limit)%Q -> exists f, to_float z = Ok f /\ rounded (inject_Z z) f /\ finite f) /\
  ((limit <= Qabs (inject_Z z))%Q -> to_float z = Err EOverflow).
Proof.
  assert (R : rounded (inject_Z z) (binary_normalize prec emax z 0 false)).
  { eapply rounded_compat; [|apply normalize_rounded]. rewrite pw0. ring. }
  unfold to_float. set (f := binary_normalize prec emax z 0 false) in *. clearbody f. split; intros H.
  - pose proof (finite_not_inf _ _ R H) as F. exists f. split; [destruct f; try destruct F; reflexivity|auto].
  - destruct (beyond_inf _ _ R H) as [s ->]. reflexivity.
Qed.

Theorem int_quotient a b : b <> 0 ->
  ((Qabs (inject_Z a / inject_Z b) < limit)%Q -> exists f, int_truediv a b = Ok (NFlt f) /\ rounded (inject_Z a / inject_Z b) f /\
     finite f /\ negative f = xorb (a <? 0) (b <? 0)) /\
  ((limit <= Qabs (inject_Z a / inject_Z b))%Q -> int_truediv a b = Err EOverflow).
Proof.
  intros Hb. destruct (Z.eq_dec a 0) as [->|Ha].
  - assert (E : int_truediv 0 b = Ok (NFlt (S754_zero (b <? 0)))) by (destruct b; [lia|reflexivity|reflexivity]).
    assert (Z0 : (inject_Z 0 / inject_Z b == 0)%Q) by (unfold Qdiv; change (inject_Z 0) with 0%Q; ring). rewrite Z0, E. split; intros H.
    + exists (S754_zero (b <? 0)). split; [reflexivity|]. split; [|split; [exact I|cbn [negative]; change (0 <? 0) with false; now destruct (b <? 0)]]. eapply rounded_compat; [|apply zero_rounded]. now symmetry.
    + exfalso. change (Qabs 0) with 0%Q in H. pose proof limit_pos. lra.
  - unfold int_truediv. destruct (Z.abs a) as [|ma|ma] eqn:Ea; [lia| |lia]. destruct (Z.abs b) as [|mb|mb] eqn:Eb; [lia| |lia].
    destruct (div_core ma 0 mb 0) as (q & k & l & E & Hq & L & He). rewrite E.
    set (x := ((inject_Z (Zpos ma) * pw 0) / (inject_Z (Zpos mb) * pw 0))%Q) in *. set (s := xorb (a <? 0) (b <? 0)).
    assert (P1 : (0 < inject_Z (Zpos mb) * pw 0)%Q) by (apply Qmult_lt_0_compat; [reflexivity|apply pw_pos]).
    assert (P : (0 <= x)%Q) by (apply Qle_shift_div_l; [assumption|rewrite Qmult_0_l; apply pos_pw]).
    assert (EQ : ((if s then - x else x) == inject_Z a / inject_Z b)%Q).
    { assert (X : (x == inject_Z (Zpos ma) / inject_Z (Zpos mb))%Q) by (unfold x; rewrite pw0; field; discriminate).
      assert (A : a = if a <? 0 then - Zpos ma else Zpos ma) by (destruct (Z.ltb_spec a 0); lia).
      assert (B : b = if b <? 0 then - Zpos mb else Zpos mb) by (destruct (Z.ltb_spec b 0); lia).
      rewrite A, B. unfold s. destruct (a <? 0), (b <? 0); cbn [xorb]; rewrite X, ?inject_Z_opp; field; discriminate. }
    assert (R : rounded (inject_Z a / inject_Z b) (binary_round_aux prec emax s q k l)).
    { eapply rounded_compat; [exact EQ|]. now apply round_aux_rounded. }
    assert (N : negative (binary_round_aux prec emax s q k l) = s) by (eapply round_aux_neg; eassumption).
    set (f := binary_round_aux prec emax s q k l) in *. clearbody f.
    split; intros H.
    + pose proof (finite_not_inf _ _ R H) as F. exists f. split; [|auto].
      destruct b; [lia|destruct f; try destruct F; reflexivity|destruct f; try destruct F; reflexivity].
    + destruct (beyond_inf _ _ R H) as [s' ->]. destruct b; [lia|reflexivity|reflexivity].
Qed.

Lemma operand_float x : in_range x -> exists a, as_float x = Ok a /\ operand x a /\ float64 a /\ finite a.
Proof.
  destruct x as [z|f]; cbn [in_range as_float operand].
  - intros H. destruct (proj1 (int_float z) H) as (f & E & R & F). exists f. split; [exact E|]. split; [now split|]. split; [exact (proj1 R)|exact F].
  - intros [V F]. exists f. auto.
Qed.

(** ** Remainders *)
Lemma mul_pw_eq a b e : (inject_Z a * pw e == inject_Z b * pw e)%Q -> a = b.
Proof.
  intros H. apply Qmult_inj_r in H; [|pose proof (pw_pos e); lra]. unfold Qeq in H. cbn [Qnum Qden inject_Z] in H. lia.
Qed.

Lemma common a b : float64 a -> float64 b -> finite a -> finite b -> ~ (qval b == 0)%Q ->
  exists e a' b', -1074 <= e /\ (qval a == inject_Z a' * pw e)%Q /\ (qval b == inject_Z b' * pw e)%Q /\ b' <> 0 /\
    let m := flt_fmod a b in float64 m /\ finite m /\ (qval m == inject_Z (Z.rem a' b') * pw e)%Q /\
    negative b = (b' <? 0) /\ (Z.rem a' b' <> 0 -> flt_neg m = (Z.rem a' b' <? 0) /\ negative m = (Z.rem a' b' <? 0)) /\ flt_is_zero m = (Z.rem a' b' =? 0).
Proof.
  intros Va Vb Fa Fb Nb. destruct b as [s'|s'| |s' m' e']; try destruct Fb; [exfalso; apply Nb; reflexivity|].
  destruct a as [s|s| |s m e]; try destruct Fa.
  - exists e', 0, (if s' then Zneg m' else Zpos m'). cbn [flt_fmod].
    assert (E : Z.rem 0 (if s' then Zneg m' else Zpos m') = 0) by now destruct s'. rewrite E.
    split; [apply (valid_finite _ _ _ Vb)|]. split; [cbn [qval]; change (inject_Z 0) with 0%Q; ring|]. split; [reflexivity|]. split; [now destruct s'|].
    split; [reflexivity|]. split; [exact I|]. split; [cbn [qval]; change (inject_Z 0) with 0%Q; ring|]. split; [now destruct s'|]. split; [lia|reflexivity].
  - set (k := Z.min e e'). set (A := Zpos m * 2 ^ (e - k)). set (B := Zpos m' * 2 ^ (e' - k)).
    exists k, (if s then - A else A), (if s' then - B else B).
    destruct (valid_finite _ _ _ Va) as [Ma Ka]. destruct (valid_finite _ _ _ Vb) as [Mb Kb].
    assert (PA : 0 < A) by (apply Z.mul_pos_pos; [lia|apply Z.pow_pos_nonneg; lia]).
    assert (PB : 0 < B) by (apply Z.mul_pos_pos; [lia|apply Z.pow_pos_nonneg; lia]).
    assert (VA : (inject_Z A * pw k == inject_Z (Zpos m) * pw e)%Q).
    { unfold A. rewrite inject_Z_mult, pw_Z, <- Qmult_assoc, <- pw_add by lia. now replace (e - k + k) with e by lia. }
    assert (VB : (inject_Z B * pw k == inject_Z (Zpos m') * pw e')%Q).
    { unfold B. rewrite inject_Z_mult, pw_Z, <- Qmult_assoc, <- pw_add by lia. now replace (e' - k + k) with e' by lia. }
    cbn [flt_fmod]. fold k A B. set (r := A mod B). assert (Hr : 0 <= r < B) by (apply Z.mod_pos_bound; lia).
    assert (Hr2 : r <= A) by (apply Z.mod_le; lia).
    assert (RM : Z.rem (if s then - A else A) (if s' then - B else B) = if s then - r else r).
    { unfold r. rewrite <- Z.rem_mod_nonneg by lia. destruct s, s'; rewrite ?Z.rem_opp_r, ?Z.rem_opp_l by lia; reflexivity. }
    rewrite RM. set (w := if s then - r else r).
    assert (Bw : Z.abs w < 2 ^ 53).
    { assert (r < 2 ^ 53); [|unfold w; destruct s; lia]. destruct (Z.min_spec e e') as [[_ Q]|[_ Q]]; fold k in Q.
      - assert (A = Zpos m) by (unfold A; rewrite Q, Z.sub_diag; lia). lia.
      - assert (B = Zpos m') by (unfold B; rewrite Q, Z.sub_diag; lia). lia. }
    pose proof (normalize_rounded w k s) as R. destruct (rounded_exact w k _ Bw ltac:(lia) R) as [F1 F2].
    pose proof (normalize_neg w k s) as N. set (f := binary_normalize prec emax w k s) in *.
    split; [lia|]. split; [rewrite qval_signed; destruct s; cbn [signed]; rewrite ?inject_Z_opp, <- VA; ring|].
    split; [rewrite qval_signed; destruct s'; cbn [signed]; rewrite ?inject_Z_opp, <- VB; ring|].
    split; [destruct s'; lia|]. split; [exact (proj1 R)|]. split; [exact F1|]. split; [exact F2|].
    split; [cbn [negative]; destruct s'; [destruct (Z.ltb_spec (- B) 0)|destruct (Z.ltb_spec B 0)]; auto; lia|].
    assert (Fz : forall t, f = S754_zero t -> w = 0).
    { intros t Et. rewrite Et in F2. cbn [qval] in F2. apply (mul_pw_eq w 0 k). rewrite <- F2. change (inject_Z 0) with 0%Q. ring. }
    assert (Fn : forall t p q, f = S754_finite t p q -> w <> 0).
    { intros t p q Et E0. rewrite Et, E0 in F2. rewrite qval_signed in F2. change (inject_Z 0) with 0%Q in F2.
      assert (0 < inject_Z (Zpos p) * pw q)%Q by (apply Qmult_lt_0_compat; [reflexivity|apply pw_pos]).
      assert (Z0 : (0 * pw k == 0)%Q) by ring. rewrite Z0 in F2. set (y := (inject_Z (Zpos p) * pw q)%Q) in *. clearbody y.
      destruct t; cbn [signed] in F2; lra. }
    clearbody f. split.
    + intros Nw. assert (w =? 0 = false) as W by now apply Z.eqb_neq. rewrite W in N. split; [|exact N].
      destruct f as [t|t| |t p q]; try destruct F1; [exfalso; now apply Nw, (Fz t)|]. cbn [negative flt_neg] in *. rewrite <- N. now destruct t.
    + destruct f as [t|t| |t p q]; try destruct F1; cbn [flt_is_zero]; symmetry; [apply Z.eqb_eq; now apply (Fz t)|apply Z.eqb_neq; now apply (Fn t p q)].
Qed.

Lemma floor_ratio x y a b e : (x == inject_Z a * pw e)%Q -> (y == inject_Z b * pw e)%Q -> b <> 0 -> Qfloor (x / y) = a / b.
Proof.
  intros Hx Hy Hb. rewrite Zdiv_Qdiv. apply Qfloor_comp. rewrite Hx, Hy. field. split; [|pose proof (pw_pos e); lra].
  intros H. apply Hb. unfold Qeq in H. cbn [Qnum Qden inject_Z] in H. lia.
Qed.

Lemma is_zero_val f : finite f -> flt_is_zero f = true <-> (qval f == 0)%Q.
Proof.
  intros F. destruct f as [t|t| |t p q]; try destruct F; cbn [flt_is_zero]; [split; reflexivity|]. split; [discriminate|]. rewrite qval_signed.
  assert (0 < inject_Z (Zpos p) * pw q)%Q by (apply Qmult_lt_0_compat; [reflexivity|apply pw_pos]).
  set (y := (inject_Z (Zpos p) * pw q)%Q) in *. clearbody y. destruct t; cbn [signed]; intros; exfalso; lra.
Qed.

Lemma nonzero_float b : finite b -> ~ (qval b == 0)%Q -> flt_is_zero b = false.
Proof. intros F N. destruct (flt_is_zero b) eqn:E; [|reflexivity]. exfalso. apply N. now apply is_zero_val. Qed.

Lemma neg_val b : finite b -> ~ (qval b == 0)%Q -> flt_neg b = negative b.
Proof. intros F N. destruct b as [t|t| |t p q]; try destruct F; [exfalso; apply N; reflexivity|now destruct t]. Qed.

Lemma rem_div a b : b <> 0 -> let r := Z.rem a b in
  (r = 0 -> a mod b = 0) /\ (r <> 0 -> (b <? 0) = (r <? 0) -> a mod b = r) /\
  (r <> 0 -> (b <? 0) <> (r <? 0) -> a mod b = r + b /\ (r + b <? 0) = (b <? 0) /\ r + b <> 0).
Proof.
  intros Hb r. pose proof (Z.quot_rem' a b) as Q. fold r in Q. pose proof (Z.rem_bound_abs a b Hb) as B. fold r in B.
  assert (U : forall q m, a = b * q + m -> (0 <= m < b \/ b < m <= 0) -> a mod b = m).
  { intros q m E Hm. symmetry. now apply (Z.mod_unique a b q m). }
  split; [|split].
  - intros H. apply (U (Z.quot a b)); lia.
  - intros H S1. apply (U (Z.quot a b)); [assumption|]. destruct (Z.ltb_spec b 0), (Z.ltb_spec r 0); try discriminate; lia.
  - intros H S1. destruct (Z.ltb_spec b 0), (Z.ltb_spec r 0); try (exfalso; now apply S1).
    + split; [apply (U (Z.quot a b - 1)); lia|]. split; [apply Z.ltb_lt; lia|lia].
    + split; [apply (U (Z.quot a b - 1)); lia|]. split; [apply Z.ltb_ge; lia|lia].
Qed.

Theorem mod_rounded a b : float64 a -> float64 b -> finite a -> finite b -> ~ (qval b == 0)%Q ->
  exists f, flt_mod a b = Ok (NFlt f) /\ rounded (qval a - qval b * inject_Z (Qfloor (qval a / qval b))) f /\ negative f = negative b.
Proof.
  intros Va Vb Fa Fb Nb. destruct (common a b Va Vb Fa Fb Nb) as (e & a' & b' & _ & Ha & Hb & Nb' & Vm & Fm & Hm & Sb & Sm & Zm).
  set (m := flt_fmod a b) in *. unfold flt_mod. rewrite nonzero_float by assumption. fold m.
  assert (EX : (qval a - qval b * inject_Z (Qfloor (qval a / qval b)) == inject_Z (a' mod b') * pw e)%Q).
  { rewrite (floor_ratio _ _ a' b' e Ha Hb Nb'), Ha, Hb. assert (M : a' mod b' = a' + - (b' * (a' / b'))) by (pose proof (Z.div_mod a' b' Nb'); lia).
    rewrite M, inject_Z_plus, inject_Z_opp, inject_Z_mult. ring. }
  destruct (rem_div a' b' Nb') as (D0 & D1 & D2). rewrite Zm, (neg_val b) by assumption. rewrite Sb.
  destruct (Z.eqb_spec (Z.rem a' b') 0) as [E0|N0].
  - exists (S754_zero (flt_signbit b)). split; [reflexivity|]. split.
    + eapply rounded_compat; [|apply zero_rounded]. rewrite EX, (D0 E0). change (inject_Z 0) with 0%Q. ring.
    + destruct b; try destruct Fb; exact Sb.
  - destruct (Sm N0) as [S1 S2]. rewrite S1. destruct (Bool.eqb (b' <? 0) (Z.rem a' b' <? 0)) eqn:Eb.
    + apply eqb_prop in Eb. exists m. split; [reflexivity|]. split; [|rewrite S2; now symmetry].
      eapply rounded_compat; [|apply float_rounded; assumption]. rewrite EX, Hm, (D1 N0 Eb). reflexivity.
    + apply eqb_false_iff in Eb. destruct (D2 N0 Eb) as (D3 & D4 & D5). exists (SFadd prec emax m b). split; [reflexivity|].
      destruct (add_rounded m b Vm Vb Fm Fb) as [R _].
      assert (S3 : (qval m + qval b == inject_Z (Z.rem a' b' + b') * pw e)%Q) by (rewrite Hm, Hb, inject_Z_plus; ring).
      split; [eapply rounded_compat; [|exact R]; rewrite S3, EX, D3; reflexivity|].
      destruct R as (_ & R1 & R2 & _). rewrite S3 in R1, R2. rewrite <- D4. pose proof (pw_pos e) as P.
      destruct (Z.ltb_spec (Z.rem a' b' + b') 0) as [L|G].
      * apply R1. assert (X : (inject_Z (Z.rem a' b' + b') < 0)%Q) by (rewrite <- (Zlt_Qlt _ 0); assumption).
        apply (Qmult_lt_r _ _ (pw e) P) in X. rewrite Qmult_0_l in X. exact X.
      * apply R2. apply Qmult_lt_0_compat; [|assumption]. rewrite <- (Zlt_Qlt 0). lia.
Qed.

(** ** Whole quotients *)
Lemma floor_exact x : float64 x -> finite x -> float64 (flt_floor x) /\ finite (flt_floor x) /\ (qval (flt_floor x) == inject_Z (Qfloor (qval x)))%Q.
Proof.
  intros V F. destruct x as [s|s| |s m e]; try destruct F.
  - split; [exact V|]. split; [exact I|]. reflexivity.
  - destruct (valid_finite _ _ _ V) as [M K]. set (n := if s then Zneg m else Zpos m).
    assert (Whole : 0 <= e -> (qval (S754_finite s m e) == inject_Z (Qfloor (qval (S754_finite s m e))))%Q).
    { intros He. assert (E : (qval (S754_finite s m e) == inject_Z (n * 2 ^ e))%Q) by (cbn [qval]; fold n (pw e); rewrite inject_Z_mult, pw_Z by assumption; reflexivity).
      rewrite (Qfloor_comp _ _ E), Qfloor_Z. exact E. }
    destruct e as [|p|p]; cbn [flt_floor].
    + split; [exact V|]. split; [exact I|]. apply Whole. lia.
    + split; [exact V|]. split; [exact I|]. apply Whole. lia.
    + fold n. pose proof (Z.pow_pos_nonneg 2 (Zpos p) ltac:(lia) ltac:(lia)) as P.
      assert (B : Z.abs (n / 2 ^ Zpos p) <= 2 ^ 53).
      { assert (Z.abs n < 2 ^ 53) by (unfold n; destruct s; lia). pose proof (Z.div_mod n (2 ^ Zpos p) ltac:(lia)) as D.
        pose proof (Z.mod_pos_bound n (2 ^ Zpos p) P). nia. }
      pose proof (normalize_rounded (n / 2 ^ Zpos p) 0 false) as R. split; [exact (proj1 R)|].
      assert (E0 : (inject_Z (n / 2 ^ Zpos p) * pw 0 == inject_Z (n / 2 ^ Zpos p))%Q) by (rewrite pw0; ring).
      destruct (rounded_int _ _ _ E0 B R) as [F1 F2]. split; [exact F1|]. rewrite F2.
      assert (Q : Qfloor (qval (S754_finite s m (Zneg p))) = n / 2 ^ Zpos p); [|now rewrite Q].
      rewrite Zdiv_Qdiv. apply Qfloor_comp. cbn [qval]. fold n. change (Zneg p) with (- Zpos p). rewrite pow_opp.
      rewrite (pw_Z (Zpos p)) by lia. reflexivity.
Qed.

Lemma integer_zero f : finite f -> (qval f == 0)%Q -> exists s, f = S754_zero s.
Proof. intros F H. apply is_zero_val in H; [|exact F]. destruct f as [s| | |]; try discriminate. now exists s. Qed.

Lemma one_val : float64 flt_one /\ finite flt_one /\ (qval flt_one == 1)%Q.
Proof. split; [reflexivity|]. split; [exact I|]. reflexivity. Qed.

Lemma inject_inj x y : (inject_Z x == inject_Z y)%Q -> x = y.
Proof. unfold Qeq. cbn [Qnum Qden inject_Z]. lia. Qed.

Lemma scale_common a p e : (inject_Z a * pw e == inject_Z p)%Q -> forall b q, (inject_Z b * pw e == inject_Z q)%Q -> b <> 0 ->
  (inject_Z (Z.rem a b) * pw e == inject_Z (Z.rem p q))%Q.
Proof.
  intros Ha b q Hb Nb. destruct (Z.le_gt_cases 0 e) as [L|G].
  - rewrite <- pw_Z, <- inject_Z_mult in Ha, Hb by assumption. apply inject_inj in Ha, Hb. subst p q.
    rewrite Z.mul_rem_distr_r; [|assumption|apply Z.pow_nonzero; lia]. rewrite <- pw_Z, inject_Z_mult by assumption. reflexivity.
  - assert (X : forall c d, (inject_Z c * pw e == inject_Z d)%Q <-> c = d * 2 ^ (- e)).
    { intros c d. assert (U : (pw e * pw (- e) == 1)%Q) by (rewrite <- pw_add, Z.add_opp_diag_r; reflexivity). split.
      - intros H. apply inject_inj. rewrite inject_Z_mult, pw_Z by lia. rewrite <- H, <- Qmult_assoc, U. ring.
      - intros ->. rewrite inject_Z_mult, pw_Z by lia. rewrite <- Qmult_assoc, (Qmult_comm (pw (- e))), U. ring. }
    apply X in Ha, Hb. apply X. rewrite Ha, Hb. apply Z.mul_rem_distr_r; [intros ->; lia|apply Z.pow_nonzero; lia].
Qed.

Theorem floordiv_whole a b p q : float64 a -> float64 b -> finite a -> finite b ->
  (qval a == inject_Z p)%Q -> (qval b == inject_Z q)%Q -> q <> 0 -> Z.abs p <= 2 ^ 53 ->
  exists f, flt_floordiv a b = Ok (NFlt f) /\ float64 f /\ finite f /\ (qval f == inject_Z (p / q))%Q.
Proof.
  intros Va Vb Fa Fb Hp Hq Nq Bp.
  assert (Nb : ~ (qval b == 0)%Q) by (rewrite Hq; intros H; apply Nq; now apply inject_inj).
  destruct (common a b Va Vb Fa Fb Nb) as (e & a' & b' & _ & Ha & Hb & Nb' & Vm & Fm & Hm & Sb & Sm & Zm).
  assert (Hm2 : (qval (flt_fmod a b) == inject_Z (Z.rem p q))%Q).
  { rewrite Hm. apply scale_common; [rewrite <- Ha; exact Hp|rewrite <- Hb; exact Hq|assumption]. }
  assert (Pe : (0 < pw e)%Q) by apply pw_pos.
  assert (Zr : Z.rem a' b' = 0 <-> Z.rem p q = 0).
  { rewrite Hm in Hm2. split; intros H; rewrite H in Hm2; change (inject_Z 0) with 0%Q in Hm2.
    - apply inject_inj. rewrite <- Hm2. change (inject_Z 0) with 0%Q. ring.
    - apply (mul_pw_eq _ 0 e). rewrite Hm2. change (inject_Z 0) with 0%Q. ring. }
  assert (Sgn : forall x y, (inject_Z x * pw e == inject_Z y)%Q -> (x <? 0) = (y <? 0)).
  { intros x y H. destruct (Z.ltb_spec x 0) as [L|L], (Z.ltb_spec y 0) as [L'|L']; try reflexivity; exfalso.
    - rewrite (Zlt_Qlt x 0) in L. apply (Qmult_lt_r _ _ _ Pe) in L. rewrite (Zle_Qle 0 y) in L'. change (inject_Z 0) with 0%Q in L, L'.
      rewrite Qmult_0_l in L. lra.
    - rewrite (Zlt_Qlt y 0) in L'. rewrite (Zle_Qle 0 x) in L. change (inject_Z 0) with 0%Q in L, L'.
      apply (Qmult_le_compat_r _ _ (pw e)) in L; [|lra]. rewrite Qmult_0_l in L. lra. }
  assert (Sr : (Z.rem a' b' <? 0) = (Z.rem p q <? 0)) by (apply Sgn; rewrite <- Hm; exact Hm2).
  assert (Sq : (b' <? 0) = (q <? 0)) by (apply Sgn; rewrite <- Hb; exact Hq).
  rewrite Sr in Sm. rewrite Sq in Sb.
  assert (Zm2 : flt_is_zero (flt_fmod a b) = (Z.rem p q =? 0)).
  { rewrite Zm. destruct (Z.eqb_spec (Z.rem a' b') 0), (Z.eqb_spec (Z.rem p q) 0); tauto. }
  assert (Sm2 : Z.rem p q <> 0 -> flt_neg (flt_fmod a b) = (Z.rem p q <? 0)) by (intros H; apply Sm; tauto).
  clear Ha Hb Hm Zm Sm Zr Sgn Sr Sq Nb'. clear a' b' Pe. set (m := flt_fmod a b) in *.
  pose proof (Z.quot_rem' p q) as QR. set (t := Z.quot p q) in *. set (r := Z.rem p q) in *.
  assert (Bqt : Z.abs (q * t) <= Z.abs p /\ Z.abs t <= Z.abs p /\ (r <> 0 -> Z.abs t + 1 <= Z.abs p)).
  { pose proof (Z.quot_abs p q Nq) as A1. pose proof (Z.rem_abs p q Nq) as A2. fold t in A1. fold r in A2.
    pose proof (Z.quot_rem' (Z.abs p) (Z.abs q)) as A3. rewrite A1, A2 in A3. rewrite Z.abs_mul.
    pose proof (Z.rem_bound_abs p q Nq). fold r in H. nia. }
  destruct (sub_rounded a m Va Vm Fa Fm) as [R1 _]. set (v := SFsub prec emax a m) in *.
  assert (X1 : (qval a - qval m == inject_Z (q * t))%Q).
  { rewrite Hp, Hm2. assert (E : q * t = p + - r) by lia. rewrite E, inject_Z_plus, inject_Z_opp. ring. }
  destruct (rounded_int (q * t) _ _ X1 ltac:(lia) R1) as [F1 E1].
  destruct (div_rounded v b F1 Fb Nb) as [R2 _]. set (d := SFdiv prec emax v b) in *.
  assert (Nq' : ~ (inject_Z q == 0)%Q) by (intros H; apply Nq; now apply inject_inj).
  assert (X2 : (qval v / qval b == inject_Z t)%Q) by (rewrite E1, Hq, inject_Z_mult; field; exact Nq').
  destruct (rounded_int t _ _ X2 ltac:(lia) R2) as [F2 E2].
  destruct one_val as (V1 & F3 & E3). destruct (sub_rounded d flt_one (proj1 R2) V1 F2 F3) as [R3 _].
  destruct (rem_div p q Nq) as (D0 & D1 & D2). fold r in D0, D1, D2. pose proof (Z.div_mod p q Nq) as DM.
  set (d2 := if flt_is_zero m then d else if Bool.eqb (flt_neg b) (flt_neg m) then d else SFsub prec emax d flt_one).
  assert (FL : float64 d2 /\ finite d2 /\ (qval d2 == inject_Z (p / q))%Q).
  { unfold d2. rewrite Zm2. destruct (Z.eqb_spec r 0) as [Er|Nr].
    - split; [exact (proj1 R2)|]. split; [exact F2|]. rewrite E2. replace t with (p / q); [reflexivity|]. specialize (D0 Er). nia.
    - rewrite (neg_val b), Sb, (Sm2 Nr) by assumption. destruct (Bool.eqb (q <? 0) (r <? 0)) eqn:Eq.
      + apply eqb_prop in Eq. split; [exact (proj1 R2)|]. split; [exact F2|]. rewrite E2. replace t with (p / q); [reflexivity|]. specialize (D1 Nr Eq). nia.
      + apply eqb_false_iff in Eq. destruct (D2 Nr Eq) as (D3 & _).
        assert (Et : p / q = t - 1) by nia. split; [exact (proj1 R3)|]. rewrite Et.
        assert (X3 : (qval d - qval flt_one == inject_Z (t - 1))%Q) by (rewrite E2, E3; unfold Z.sub; rewrite inject_Z_plus; reflexivity).
        apply (rounded_int (t - 1) _ _ X3 ltac:(lia) R3). }
  destruct FL as (V4 & F4 & E4). unfold flt_floordiv. rewrite nonzero_float by assumption. fold m v d d2.
  clearbody d2. clear - V4 F4 E4. destruct (flt_is_zero d2) eqn:Ez.
  - eexists. split; [reflexivity|]. split; [reflexivity|]. split; [exact I|]. apply is_zero_val in Ez; [|exact F4].
    rewrite <- E4, Ez. reflexivity.
  - destruct (floor_exact d2 V4 F4) as (V5 & F5 & E5). rewrite (Qfloor_comp _ _ E4), Qfloor_Z in E5.
    set (fl := flt_floor d2) in *. destruct (sub_rounded d2 fl V4 V5 F4 F5) as [R6 _].
    assert (Z6 : (qval d2 - qval fl == inject_Z 0)%Q) by (rewrite E4, E5; change (inject_Z 0) with 0%Q; ring).
    destruct (rounded_int 0 _ _ Z6 ltac:(lia) R6) as [F7 E7]. destruct (integer_zero _ F7 E7) as [s7 E8]. rewrite E8.
    exists fl. split; [|now auto]. now destruct s7.
Qed.

(** ** Numerals *)
Lemma digits_whole d : forall acc, digits_val d acc = fold_left (fun a c => 10 * a + (Z.of_N c - 48)) d acc.
Proof. induction d as [|c d IH]; intros acc; [reflexivity|]. cbn [digits_val fold_left]. apply IH. Qed.
Lemma digits_scale d : forall acc, digits_val d acc = acc * 10 ^ Z.of_nat (List.length d) + whole d.
Proof.
  unfold whole. induction d as [|c d IH]; intros acc; [cbn; lia|]. cbn [digits_val List.length fold_left].
  set (x := Z.of_N c - 48). rewrite (IH (10 * acc + x)), <- (digits_whole d (10 * 0 + x)), (IH (10 * 0 + x)). rewrite Nat2Z.inj_succ, Z.pow_succ_r by lia. lia.
Qed.
Lemma whole_nonneg d : all is_digit d -> 0 <= whole d.
Proof.
  intros H. assert (X : forall acc, 0 <= acc -> 0 <= digits_val d acc).
  { induction d as [|c d IH]; intros acc Ha; [assumption|]. apply all_cons in H as [H1 H2]. cbn [digits_val]. apply IH; [assumption|].
    unfold is_digit in H1. apply andb_prop in H1 as [H1 _]. apply N.leb_le in H1. lia. }
  unfold whole. rewrite <- digits_whole. apply X. lia.
Qed.

Lemma ten_pos k : (0 < 10 ^ k)%Q.
Proof. apply Qpower_0_lt. reflexivity. Qed.
Lemma ten_Z n : 0 <= n -> (inject_Z (10 ^ n) == 10 ^ n)%Q.
Proof. intros H. exact (Zpower_Qpower 10 n H). Qed.

Theorem scaled_rounded d k : 0 <= d -> rounded (inject_Z d * 10 ^ k) (scaled d k).
Proof.
  intros Hd. destruct (Z.le_gt_cases 0 k) as [L|G].
  - assert (E : scaled d k = binary_normalize prec emax (d * 10 ^ k) 0 false) by (destruct k; [reflexivity|reflexivity|lia]). rewrite E.
    eapply rounded_compat; [|apply normalize_rounded]. rewrite pw0, inject_Z_mult, ten_Z by assumption. ring.
  - destruct k as [|p|p]; try lia. cbn [scaled]. destruct d as [|m|m]; [|clear Hd|lia].
    + eapply rounded_compat; [|apply zero_rounded]. change (inject_Z 0) with 0%Q. ring.
    + pose proof (Z.pow_pos_nonneg 10 (Zpos p) ltac:(lia) ltac:(lia)) as P.
      assert (T : (inject_Z (10 ^ Zpos p) == 10 ^ Zpos p)%Q) by (apply ten_Z; lia).
      assert (X : (10 ^ Zneg p == / 10 ^ Zpos p)%Q) by reflexivity.
      pose proof (ten_pos (Zpos p)) as TP. destruct (10 ^ Zpos p)%Z as [|b|b] eqn:Eb; try lia.
      destruct (div_core m 0 b 0) as (q & e & l & E & Hq & Lo & He). rewrite E.
      set (x := ((inject_Z (Zpos m) * pw 0) / (inject_Z (Zpos b) * pw 0))%Q) in *.
      assert (P1 : (0 < inject_Z (Zpos b) * pw 0)%Q) by (apply Qmult_lt_0_compat; [reflexivity|apply pw_pos]).
      assert (Px : (0 <= x)%Q) by (apply Qle_shift_div_l; [assumption|rewrite Qmult_0_l; apply pos_pw]).
      eapply rounded_compat; [|apply (round_aux_rounded false x q e l Px Hq Lo He)]. unfold x. rewrite X, <- T, pw0. field. discriminate.
Qed.

Lemma exponent_read e k : exponent_value e k ->
  match e with
  | _ :: c :: r' => if (c =? 45)%N then - digits_val r' 0 else if (c =? 43)%N then digits_val r' 0 else digits_val (c :: r') 0
  | _ => 0
  end = k.
Proof.
  intros H. destruct H as [|c d _ Nd Hd|c d _ Nd Hd|c d _ Nd Hd]; [reflexivity| |apply digits_whole|apply (f_equal Z.opp); apply digits_whole].
  destruct d as [|x d]; [contradiction|]. apply all_cons in Hd as [H1 H2]. unfold is_digit in H1. apply andb_prop in H1 as [H1 _]. apply N.leb_le in H1.
  destruct (N.eqb_spec x 45); [lia|]. destruct (N.eqb_spec x 43); [lia|]. apply digits_whole.
Qed.
Lemma exponent_head e k : exponent_value e k -> match e with [] => True | c :: _ => is_digit c = false /\ (c =? 46)%N = false end.
Proof. intros H. destruct H as [|c d Hc|c d Hc|c d Hc]; [exact I|..]; cbn [In] in Hc; destruct Hc as [<-|[<-|[]]]; split; reflexivity. Qed.

Theorem numeral_rounded w x : numeral_value w x -> rounded x (float_lit w).
Proof.
  intros H. destruct H as [m x e k Hm He]. pose proof (exponent_read e k He) as Ek. pose proof (exponent_head e k He) as Eh.
  unfold float_lit. destruct Hm as [d Nd Hd|d g Hd Ng Hg].
  - assert (S1 : span is_digit (d ++ e) = (d, e)).
    { destruct e as [|c e]; [rewrite app_nil_r; now apply span_all|apply span_stop; [assumption|apply Eh]]. }
    rewrite S1. assert (S2 : match e with c :: r' => if (c =? 46)%N then span is_digit r' else ([], e) | [] => ([], e) end = ([], e)).
    { destruct e as [|c e]; [reflexivity|]. destruct Eh as [_ ->]. reflexivity. }
    rewrite S2, Ek, app_nil_r. cbn [List.length Z.of_nat]. rewrite Z.sub_0_r, digits_whole. apply scaled_rounded. now apply whole_nonneg.
  - rewrite <- app_assoc. cbn [app]. rewrite span_stop by (assumption || reflexivity). rewrite N.eqb_refl.
    assert (S1 : span is_digit (g ++ e) = (g, e)).
    { destruct e as [|c e]; [rewrite app_nil_r; now apply span_all|apply span_stop; [assumption|apply Eh]]. }
    rewrite S1, Ek, digits_app, digits_scale. rewrite digits_whole. fold (whole d). set (n := Z.of_nat (List.length g)).
    eapply rounded_compat; [|apply scaled_rounded].
    + rewrite inject_Z_plus, inject_Z_mult, ten_Z by lia. unfold Z.sub. rewrite Qpower_plus by discriminate. rewrite pow_opp.
      field. pose proof (ten_pos n). lra.
    + pose proof (whole_nonneg d Hd). pose proof (whole_nonneg g Hg). pose proof (Z.pow_nonneg 10 n). nia.
Qed.
