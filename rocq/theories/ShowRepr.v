(** A way to write floats such that they can be read: their exact decimal expansion. *)
From Verif Require Import Base Num Term Str World Ast Names Quote QuoteSpec Lex LexSpec LexFacts RegexFacts Parse RoundSpec NumRead ShowSpec ExPy.
From Coq Require Import Floats.SpecFloat Lia Permutation.
Local Open Scope Z_scope.

Lemma digits_low p : 2 ^ (Zpos (digits2_pos p) - 1) <= Zpos p.
Proof.
  induction p as [p IH|p IH|]; cbn [digits2_pos]; [| |cbn; lia];
    rewrite Pos2Z.inj_succ; replace (Z.succ (Zpos (digits2_pos p)) - 1) with (Z.succ (Zpos (digits2_pos p) - 1)) by lia;
    rewrite Z.pow_succ_r by lia; lia.
Qed.
Lemma digits_high p : Zpos p < 2 ^ Zpos (digits2_pos p).
Proof.
  induction p as [p IH|p IH|]; cbn [digits2_pos]; [| |cbn; lia]; rewrite Pos2Z.inj_succ, Z.pow_succ_r by lia; lia.
Qed.

(** The digits of a quotient *)
Lemma digits_ratio a b m p : Zpos a = Zpos m * 5 ^ Zpos p -> Zpos b = 10 ^ Zpos p ->
  Zpos (digits2_pos a) - Zpos (digits2_pos b) <= Zpos (digits2_pos m) - Zpos p.
Proof.
  intros Ha Hb. apply Z.nlt_ge. intros C.
  pose proof (digits_low a) as A. pose proof (digits_high b) as B. pose proof (digits_high m) as M.
  set (da := Zpos (digits2_pos a)) in *. set (db := Zpos (digits2_pos b)) in *. set (dm := Zpos (digits2_pos m)) in *.
  assert (E : 10 ^ Zpos p = 2 ^ Zpos p * 5 ^ Zpos p) by (rewrite <- Z.pow_mul_l; reflexivity).
  (* a * 2^p = m * b *)
  assert (X : Zpos a * 2 ^ Zpos p = Zpos m * Zpos b) by (rewrite Ha, Hb, E; ring).
  assert (P2 : 0 < 2 ^ Zpos p) by (apply Z.pow_pos_nonneg; lia).
  assert (L : 2 ^ (da - 1) * 2 ^ Zpos p <= Zpos a * 2 ^ Zpos p) by (apply Z.mul_le_mono_nonneg_r; lia).
  rewrite <- Z.pow_add_r in L by (subst da; lia).
  assert (R : Zpos m * Zpos b < 2 ^ dm * 2 ^ db) by (apply Z.mul_lt_mono_nonneg; lia).
  rewrite <- Z.pow_add_r in R by (subst dm db; lia).
  assert (2 ^ (dm + db) <= 2 ^ (da - 1 + Zpos p)) by (apply Z.pow_le_mono_r; lia). lia.
Qed.

Lemma scaled_exact m p : bounded prec emax m (Zneg p) = true ->
  scaled (Zpos m * 5 ^ Zpos p) (Zneg p) = S754_finite false m (Zneg p).
Proof.
  intros Hb. pose proof Hb as H. unfold bounded, canonical_mantissa in H. apply andb_prop in H as [H1 _]. apply Zeq_bool_eq in H1.
  assert (P5 : 0 < 5 ^ Zpos p) by (apply Z.pow_pos_nonneg; lia).
  assert (P10 : 0 < 10 ^ Zpos p) by (apply Z.pow_pos_nonneg; lia).
  assert (P2 : 0 < 2 ^ Zpos p) by (apply Z.pow_pos_nonneg; lia).
  destruct (Zpos m * 5 ^ Zpos p) as [|a|a] eqn:Ea; try nia. cbn [scaled]. unfold SFdiv_core_binary.
  destruct (10 ^ Zpos p) as [|b|b] eqn:Eb; try lia. cbn [Zdigits2]. rewrite !Z.add_0_r, Z.sub_diag.
  pose proof (digits_ratio a b m p (eq_sym Ea) (eq_sym Eb)) as D.
  set (e' := Z.min (fexp prec emax (Zpos (digits2_pos a) - Zpos (digits2_pos b))) 0).
  assert (E' : e' <= Zneg p).
  { unfold e'. apply Z.le_trans with (fexp prec emax (Zpos (digits2_pos a) - Zpos (digits2_pos b))); [apply Z.le_min_l|].
    rewrite <- H1. unfold fexp. apply Z.max_le_compat_r. lia. }
  clearbody e'. destruct (0 - e') as [|s|s] eqn:Es; try lia.
  set (k := Z.to_nat (Zneg p - e')).
  assert (Q : Z.shiftl (Zpos a) (Zpos s) = Zpos (up k m) * Zpos b + 0).
  { rewrite Z.shiftl_mul_pow2, up_val by lia. rewrite <- Ea, <- Eb.
    assert (T : 10 ^ Zpos p = 2 ^ Zpos p * 5 ^ Zpos p) by (rewrite <- Z.pow_mul_l; reflexivity). rewrite T.
    assert (S1 : 2 ^ Zpos s = 2 ^ Z.of_nat k * 2 ^ Zpos p) by (rewrite <- Z.pow_add_r by lia; f_equal; subst k; lia).
    rewrite S1. ring. }
  destruct (Z.div_eucl (Z.shiftl (Zpos a) (Zpos s)) (Zpos b)) as [q r] eqn:Ed.
  assert (Eqr : q = Zpos (up k m) /\ r = 0).
  { pose proof (Z_div_mod (Z.shiftl (Zpos a) (Zpos s)) (Zpos b) ltac:(lia)) as Y. rewrite Ed in Y. destruct Y as [Y1 Y2].
    apply (Z.div_mod_unique (Zpos b)); [left; lia|left; lia|]. rewrite <- Y1, Q. ring. }
  destruct Eqr as [-> ->].
  assert (N0 : new_location (Zpos b) 0 = loc_Exact) by (unfold new_location, new_location_even, new_location_odd; destruct (Z.even (Zpos b)); reflexivity).
  rewrite N0. replace e' with (Zneg p - Z.of_nat k) by (subst k; lia). now apply aux_up.
Qed.

Lemma digits_app s t acc : digits_val (s ++ t) acc = digits_val t (digits_val s acc).
Proof. revert acc. induction s as [|c s IH]; intros acc; [reflexivity|]. cbn. apply IH. Qed.

(** The text: the digits of m * 5^p, then "e-" and p. *)
Definition expansion (f : spec_float) : pystr :=
  match f with
  | S754_finite s m (Zneg p) =>
      let w := dec_N (Npos m * 5 ^ Npos p) ++ 101%N :: 45%N :: dec_N (Npos p) in if s then 45%N :: w else w
  | _ => []
  end.

Lemma span_stop p a c t : all p a -> p c = false -> span p (a ++ c :: t) = (a, c :: t).
Proof.
  intros H Hc. induction a as [|x a IH]; cbn; [now rewrite Hc|]. apply all_cons in H as [H1 H2]. rewrite H1, IH by assumption. reflexivity.
Qed.

Lemma float_expansion n q : float_lit (dec_N n ++ 101%N :: 45%N :: dec_N q) = scaled (Z.of_N n) (- Z.of_N q).
Proof.
  unfold float_lit. rewrite span_stop by (apply uint_all || reflexivity).
  cbn [N.eqb Pos.eqb]. rewrite app_nil_r, !digits_dec. cbn [List.length Z.of_nat]. now rewrite Z.sub_0_r.
Qed.

Definition PyDec : Py := {|
  horder := fun l => l; fpow := fun _ _ => Err EUnmodelled;
  py_call := fun _ _ _ => Err EUnmodelled; py_time := fun k => NInt (Z.of_N k);
  frepr := expansion; vname := fun v => s2p "_X_";
  u_alnum := fun _ => true; u_lower := fun c => [c] |}.

Lemma PyDec_lawful : PyLawful PyDec.
Proof. intro l. apply Permutation_refl. Qed.

Lemma PyDec_repr : @repr_exact PyDec.
Proof.
  intros f Hv Hn. destruct f as [s|s| |s m e]; try exact I. destruct e as [|p|p]; try discriminate Hn.
  exists (dec_N (Npos m * 5 ^ Npos p) ++ 101%N :: 45%N :: dec_N (Npos p)). split; [|split].
  - exists (dec_N (Npos m * 5 ^ Npos p)), (101%N :: 45%N :: dec_N (Npos p)). split; [reflexivity|]. split.
    + apply mant_int; [apply dec_nonempty|apply uint_all].
    + apply (exp_some 101%N [45%N] (dec_N (Npos p))); [cbn; tauto|cbn; tauto|apply dec_nonempty|apply uint_all].
  - rewrite float_expansion. cbn [SFabs Z.of_N Z.opp].
    replace (Z.of_N (Npos m * 5 ^ Npos p)) with (Zpos m * 5 ^ Zpos p) by (rewrite N2Z.inj_mul, N2Z.inj_pow; reflexivity).
    now apply scaled_exact.
  - destruct s; reflexivity.
Qed.
