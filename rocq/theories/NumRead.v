(** Whole numbers are read back. *)
From Verif Require Import Base Num Term Str Names Lex LexSpec Parse RoundSpec.
From Coq Require Import Floats.SpecFloat Decimal DecimalN.

Local Open Scope Z_scope.

(** ** Decimal digits *)

Lemma digits_acc d : forall acc, digits_val (uint_digits d) (Zpos acc) = Zpos (Pos.of_uint_acc d acc).
Proof.
  induction d; intros acc; [reflexivity|..]; cbn [uint_digits digits_val Pos.of_uint_acc]; rewrite <- IHd; f_equal;
    cbn [Z.of_N]; lia.
Qed.
Lemma digits_uint d : digits_val (uint_digits d) 0 = Z.of_N (N.of_uint d).
Proof.
  unfold N.of_uint. induction d; [reflexivity| |..]; cbn [uint_digits digits_val Pos.of_uint]; [exact IHd|..];
    cbn [Z.of_N]; rewrite <- digits_acc; f_equal.
Qed.
Lemma digits_dec n : digits_val (dec_N n) 0 = Z.of_N n.
Proof. unfold dec_N. rewrite digits_uint. now rewrite Unsigned.of_to. Qed.

Lemma uint_all d : all is_digit (uint_digits d).
Proof. unfold all. induction d; cbn [uint_digits forallb]; [reflexivity|..]; rewrite IHd; reflexivity. Qed.

Lemma span_all p s : all p s -> span p s = (s, []).
Proof.
  unfold all. induction s as [|c s IH]; [reflexivity|]. cbn [forallb span]. intros H. apply andb_prop in H as [H1 H2].
  rewrite H1, (IH H2). reflexivity.
Qed.

Lemma dec_nonempty n : dec_N n <> [].
Proof.
  intros E. assert (H : digits_val (dec_N n) 0 = 0) by now rewrite E. rewrite digits_dec in H.
  assert (n = 0%N) by lia. subst n. discriminate E.
Qed.

Lemma float_dec n : float_lit (dec_N n) = binary_normalize prec emax (Z.of_N n) 0 false.
Proof.
  unfold float_lit. rewrite span_all by apply uint_all. rewrite app_nil_r, digits_dec. cbn [List.length Z.of_nat Z.sub Z.add Z.opp scaled].
  change (10 ^ 0) with 1. now rewrite Z.mul_1_r.
Qed.

(** ** Rounding what needs no rounding *)

Definition up (k : nat) (m : positive) : positive := Nat.iter k xO m.

Lemma iter_pos_nat {A} (f : A -> A) n : forall x, iter_pos f n x = Nat.iter (Pos.to_nat n) f x.
Proof.
  assert (C : forall a b x, Nat.iter (a + b) f x = Nat.iter a f (Nat.iter b f x)).
  { induction a as [|a IH]; intros b x; [reflexivity|]. cbn. unfold Nat.iter in *. now rewrite IH. }
  induction n as [n IH|n IH|]; intros x; cbn [iter_pos]; rewrite ?IH.
  - rewrite Pos2Nat.inj_xI. replace (S (2 * Pos.to_nat n))%nat with ((Pos.to_nat n + Pos.to_nat n) + 1)%nat by lia.
    rewrite !C. reflexivity.
  - rewrite Pos2Nat.inj_xO. replace (2 * Pos.to_nat n)%nat with (Pos.to_nat n + Pos.to_nat n)%nat by lia. now rewrite C.
  - reflexivity.
Qed.

Lemma iter_S {A} (f : A -> A) k x : Nat.iter (S k) f x = Nat.iter k f (f x).
Proof. induction k as [|k IH]; [reflexivity|]. change (Nat.iter (S (S k)) f x) with (f (Nat.iter (S k) f x)). now rewrite IH. Qed.

Lemma shr_up k m : Nat.iter k shr_1 (Build_shr_record (Zpos (up k m)) false false) = Build_shr_record (Zpos m) false false.
Proof. induction k as [|k IH]; [reflexivity|]. rewrite iter_S. exact IH. Qed.

Lemma digits_up k m : Zpos (digits2_pos (up k m)) = Zpos (digits2_pos m) + Z.of_nat k.
Proof.
  induction k as [|k IH]; [cbn; lia|]. change (up (S k) m) with (xO (up k m)). cbn [digits2_pos]. lia.
Qed.

Lemma up_val k m : Zpos (up k m) = Zpos m * 2 ^ Z.of_nat k.
Proof.
  induction k as [|k IH]; [cbn; lia|]. change (up (S k) m) with (xO (up k m)).
  rewrite Nat2Z.inj_succ, Z.pow_succ_r by lia. rewrite Pos2Z.inj_xO. lia.
Qed.

Lemma aux_up k m e : bounded prec emax m e = true ->
  binary_round_aux prec emax false (Zpos (up k m)) (e - Z.of_nat k) loc_Exact = S754_finite false m e.
Proof.
  intros H. unfold bounded, canonical_mantissa in H. apply andb_prop in H as [H1 H2]. apply Zeq_bool_eq in H1.
  assert (S1 : shr_fexp prec emax (Zpos (up k m)) (e - Z.of_nat k) loc_Exact = (Build_shr_record (Zpos m) false false, e)).
  { unfold shr_fexp. cbn [Zdigits2 shr_record_of_loc]. rewrite digits_up.
    replace (Zpos (digits2_pos m) + Z.of_nat k + (e - Z.of_nat k)) with (Zpos (digits2_pos m) + e) by lia. rewrite H1.
    replace (e - (e - Z.of_nat k)) with (Z.of_nat k) by lia. destruct k as [|k]; [cbn [Z.of_nat shr]; f_equal; lia|].
    unfold shr. cbn [Z.of_nat]. rewrite iter_pos_nat, SuccNat2Pos.id_succ, shr_up. f_equal. lia. }
  unfold binary_round_aux. rewrite S1. cbn [shr_m loc_of_shr_record round_nearest_even].
  assert (S2 : shr_fexp prec emax (Zpos m) e loc_Exact = (Build_shr_record (Zpos m) false false, e)).
  { unfold shr_fexp. cbn [Zdigits2 shr_record_of_loc]. rewrite H1, Z.sub_diag. reflexivity. }
  rewrite S2. cbn [shr_m]. now rewrite H2.
Qed.

Lemma iter_xO p z : Pos.iter xO z p = up (Pos.to_nat p) z.
Proof. unfold up. rewrite Pos2Nat.inj_iter. reflexivity. Qed.

Lemma Some_inj {A} (a b : A) : Some a = Some b -> a = b.
Proof. congruence. Qed.

Lemma round_back m e z : bounded prec emax m e = true -> flt_int (S754_finite false m e) = Some z ->
  exists n, z = Zpos n /\ binary_normalize prec emax z 0 false = S754_finite false m e.
Proof.
  intros Hb Hz. pose proof Hb as H. unfold bounded, canonical_mantissa in H. apply andb_prop in H as [H1 _]. apply Zeq_bool_eq in H1.
  cbn [flt_int] in Hz. destruct e as [|p|p].
  - apply Some_inj in Hz. change (2 ^ 0) with 1 in Hz. rewrite Z.mul_1_r in Hz. subst z. exists m. split; [reflexivity|]. cbn [binary_normalize]. unfold binary_round. rewrite H1.
    unfold shl_align. rewrite Z.sub_diag. exact (aux_up 0 m 0 Hb).
  - apply Some_inj in Hz. subst z. exists (up (Pos.to_nat p) m).
    assert (E : Zpos m * 2 ^ Zpos p = Zpos (up (Pos.to_nat p) m)) by (rewrite up_val, positive_nat_Z; reflexivity).
    rewrite E. split; [reflexivity|]. cbn [binary_normalize]. unfold binary_round. rewrite digits_up, positive_nat_Z, Z.add_0_r, H1.
    unfold shl_align. rewrite Z.sub_0_r.
    pose proof (aux_up (Pos.to_nat p) m (Zpos p) Hb) as A. rewrite positive_nat_Z, Z.sub_diag in A. exact A.
  - destruct (Zpos m mod 2 ^ Zpos p =? 0) eqn:Em; [|discriminate]. apply Z.eqb_eq in Em. apply Some_inj in Hz. subst z.
    assert (P2 : 0 < 2 ^ Zpos p) by (apply Z.pow_pos_nonneg; lia).
    assert (D : Zpos m = 2 ^ Zpos p * (Zpos m / 2 ^ Zpos p)) by (pose proof (Z.div_mod (Zpos m) (2 ^ Zpos p)); lia).
    destruct (Zpos m / 2 ^ Zpos p) as [|n|n]; [lia| |lia]. exists n. split; [reflexivity|].
    assert (M : m = up (Pos.to_nat p) n).
    { apply Pos2Z.inj. rewrite up_val, positive_nat_Z. lia. }
    cbn [binary_normalize]. unfold binary_round. rewrite Z.add_0_r.
    assert (F : fexp prec emax (Zpos (digits2_pos n)) = Zneg p).
    { rewrite <- H1. f_equal. rewrite M, digits_up, positive_nat_Z. lia. }
    rewrite F. unfold shl_align. cbn [Z.sub Z.add Z.opp]. unfold shift_pos. rewrite iter_xO, <- M.
    pose proof (aux_up 0 m (Zneg p) Hb) as A. cbn [Z.of_nat] in A. rewrite Z.sub_0_r in A. exact A.
Qed.

Section WithPy.
Context {PY : Py}.

Lemma whole_numeral f z : valid_binary prec emax f = true -> flt_signbit f = false -> flt_int f = Some z ->
  numeral (NFlt f).
Proof.
  intros Hv Hs Hz.
  assert (H : exists n, num_asl (NFlt f) = dec_N n /\ binary_normalize prec emax (Z.of_N n) 0 false = f).
  { unfold num_asl. rewrite Hz. destruct f as [s|s| |s m e]; try discriminate; cbn [flt_signbit] in Hs; subst s.
    - injection Hz as <-. now exists 0%N.
    - destruct (round_back m e z Hv Hz) as (n & -> & E). exists (Npos n). split; [reflexivity|exact E]. }
  destruct H as (n & E & R). exists (dec_N n), []. rewrite app_nil_r. split; [exact E|]. split; [|split; [constructor|]].
  - apply mant_int; [apply dec_nonempty|apply uint_all].
  - now rewrite float_dec, R.
Qed.
End WithPy.
