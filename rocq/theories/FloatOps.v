(** The operations on floats round the exact result. *)
From Verif Require Import Base Num Parse ShowRepr FloatSpec FloatRound.
From Coq Require Import QArith Qabs Qround Lqa Floats.SpecFloat Lia.
Local Open Scope Z_scope.

Lemma rounded_compat x y f : (x == y)%Q -> rounded x f -> rounded y f.
Proof.
  intros E (V & S1 & S2 & F & I). split; [exact V|]. split; [rewrite <- E; exact S1|]. split; [rewrite <- E; exact S2|]. split.
  - rewrite <- E. intros H. destruct (F H) as [F1 F2]. split; [exact F1|]. intros g Vg Fg. rewrite <- E. exact (F2 g Vg Fg).
  - rewrite <- E. exact I.
Qed.

Lemma limit_pos : (0 < limit)%Q.
Proof. reflexivity. Qed.

Lemma zero_rounded s : rounded 0 (S754_zero s).
Proof.
  split; [reflexivity|]. split; [intros H; exfalso; lra|]. split; [intros H; exfalso; lra|]. split.
  - intros _. split; [exact I|]. intros g _ _. cbn [qval]. split; [|intros _; right; exact I].
    change (Qabs (0 - 0)) with 0%Q. apply Qabs_nonneg.
  - intros H. exfalso. change (Qabs 0) with 0%Q in H. pose proof limit_pos. lra.
Qed.

Lemma round_aux_neg (s : bool) x m e l : (0 <= x)%Q -> 0 <= m -> located x e (shr_record_of_loc m l) -> e <= fx (dg m + e) ->
  negative (binary_round_aux prec emax s m e l) = s.
Proof. intros A B C D. now destruct (round_aux_spec s x m e l A B C D) as (_ & N & _). Qed.

Lemma pos_pw n e : (0 <= inject_Z (Zpos n) * pw e)%Q.
Proof. apply Qmult_le_0_compat; [rewrite <- (Zle_Qle 0); lia|]. pose proof (pw_pos e). lra. Qed.

Lemma shift_value d m : Zpos (shift_pos d m) = Zpos m * 2 ^ Zpos d.
Proof. rewrite shift_pos_correct, <- Z.pow_pos_fold. lia. Qed.

Lemma dg_shift m d : 0 < m -> 0 <= d -> dg (m * 2 ^ d) = dg m + d.
Proof.
  intros Hm Hd. destruct (dg_bounds m) as [A B]; [lia|]. destruct (B Hm) as [B1 B2]. pose proof (Z.pow_pos_nonneg 2 d ltac:(lia) Hd) as P.
  apply dg_unique; [|lia]. replace (dg m + d - 1) with (dg m - 1 + d) by lia. rewrite !Z.pow_add_r by lia. split; [apply Z.mul_le_mono_nonneg_r; [lia|assumption]|].
  now apply Z.mul_lt_mono_pos_r.
Qed.

Lemma round_spec (s : bool) m e : rounded (if s then - (inject_Z (Zpos m) * pw e) else inject_Z (Zpos m) * pw e)%Q (binary_round prec emax s m e)
  /\ negative (binary_round prec emax s m e) = s.
Proof.
  unfold binary_round. change (fexp prec emax (Zpos (digits2_pos m) + e)) with (fx (dg (Zpos m) + e)). unfold shl_align.
  assert (P : (0 <= inject_Z (Zpos m) * pw e)%Q) by apply pos_pw.
  set (d := dg (Zpos m)) in *. destruct (fx (d + e) - e) as [|p|p] eqn:E.
  - split; [apply round_aux_rounded; auto; try lia|eapply round_aux_neg; eauto; try lia]; try reflexivity; fold d; lia.
  - split; [apply round_aux_rounded; auto; try lia|eapply round_aux_neg; eauto; try lia]; try reflexivity; fold d; lia.
  - assert (L : located (inject_Z (Zpos m) * pw e)%Q (fx (d + e)) (shr_record_of_loc (Zpos (shift_pos p m)) loc_Exact)).
    { cbn [shr_record_of_loc located]. rewrite shift_value, inject_Z_mult, pw_Z by lia. rewrite <- Qmult_assoc, <- pw_add.
      replace (Zpos p + fx (d + e)) with e by lia. reflexivity. }
    assert (D : fx (d + e) <= fx (dg (Zpos (shift_pos p m)) + fx (d + e))).
    { rewrite shift_value, dg_shift by lia. fold d. replace (d + Zpos p + fx (d + e)) with (d + e) by lia. lia. }
    split; [apply round_aux_rounded; auto; lia|]. eapply round_aux_neg; eauto; lia.
Qed.

Theorem normalize_rounded z e s : rounded (inject_Z z * pw e) (binary_normalize prec emax z e s).
Proof.
  destruct z as [|m|m]; cbn [binary_normalize].
  - apply rounded_compat with 0%Q; [|apply zero_rounded]. change (inject_Z 0) with 0%Q. ring.
  - exact (proj1 (round_spec false m e)).
  - apply rounded_compat with (2 := proj1 (round_spec true m e)). change (Zneg m) with (- Zpos m). rewrite inject_Z_opp. ring.
Qed.
Lemma normalize_neg z e s : negative (binary_normalize prec emax z e s) = (if z =? 0 then s else z <? 0).
Proof.
  destruct z as [|m|m]; cbn [binary_normalize]; [reflexivity|exact (proj2 (round_spec false m e))|exact (proj2 (round_spec true m e))].
Qed.

(** ** Floats that are exact *)
Lemma representable z e : Z.abs z < 2 ^ 53 -> -1074 <= e <= 971 -> exists g, float64 g /\ finite g /\ (qval g == inject_Z z * pw e)%Q.
Proof.
  intros Hz He. destruct (Z.eq_dec z 0) as [->|N].
  - exists (S754_zero false). split; [reflexivity|split; [exact I|]]. change (inject_Z 0) with 0%Q. cbn [qval]. ring.
  - assert (Ha : 0 < Z.abs z) by lia. destruct (dg_bounds (Z.abs z)) as [A B]; [lia|]. destruct (B Ha) as [B1 B2].
    set (d := dg (Z.abs z)) in *. assert (Hd : d <= 53).
    { assert (d - 1 < 53); [|lia]. apply (Z.pow_lt_mono_r_iff 2); lia. }
    set (e' := fx (d + e)). assert (H1 : e' <= e /\ -1074 <= e' <= 971) by (unfold e', fx; lia).
    assert (Pp : 0 < Z.abs z * 2 ^ (e - e')) by (apply Z.mul_pos_pos; [lia|apply Z.pow_pos_nonneg; lia]).
    destruct (Z.abs z * 2 ^ (e - e')) as [|p|p] eqn:Ep; try lia.
    exists (S754_finite (z <? 0) p e'). split; [|split; [exact I|]].
    + unfold float64. cbn [valid_binary]. unfold bounded, canonical_mantissa. apply andb_true_intro. split; [|apply Zle_is_le_bool; lia].
      apply Zeq_is_eq_bool. change (fexp 53 1024) with fx. change (Zpos (digits2_pos p)) with (dg (Zpos p)). rewrite <- Ep, dg_shift by lia. fold d.
      replace (d + (e - e') + e') with (d + e) by lia. reflexivity.
    + cbn [qval]. fold (pw e'). assert (K : (if z <? 0 then Zneg p else Zpos p) = z * 2 ^ (e - e')).
      { destruct (z <? 0) eqn:Ez; [change (Zneg p) with (- Zpos p)|]; rewrite <- Ep.
        - apply Z.ltb_lt in Ez. rewrite Z.abs_neq by lia. lia.
        - apply Z.ltb_ge in Ez. rewrite Z.abs_eq by lia. lia. }
      rewrite K, inject_Z_mult, pw_Z, <- Qmult_assoc, <- pw_add by lia. now replace (e - e' + e') with e by lia.
Qed.

Lemma float_below g : float64 g -> finite g -> (Qabs (qval g) < limit)%Q.
Proof.
  intros V F. destruct g as [s|s| |s m e]; try destruct F; [reflexivity|]. destruct (valid_finite _ _ _ V) as [A B].
  assert (E : (Qabs (qval (S754_finite s m e)) == inject_Z (Zpos m) * pw e)%Q).
  { cbn [qval]. fold (pw e). rewrite Qabs_Qmult. rewrite (Qabs_pos (pw e)) by (pose proof (pw_pos e); lra).
    destruct s; [change (Zneg m) with (- Zpos m); rewrite inject_Z_opp, Qabs_opp|]; rewrite Qabs_pos by (rewrite <- (Zle_Qle 0); lia); reflexivity. }
  rewrite E, limit_pw. pose proof (pw_pos 971) as P. pose proof (pw_le e 971 ltac:(lia)) as L.
  apply Qle_lt_trans with (inject_Z (Zpos m) * pw 971)%Q.
  - rewrite !(Qmult_comm (inject_Z (Zpos m))). apply Qmult_le_compat_r; [assumption|]. rewrite <- (Zle_Qle 0). lia.
  - apply Qmult_lt_r; [assumption|]. assert (inject_Z (Zpos m) <= inject_Z (2 ^ 53 - 1))%Q by (rewrite <- Zle_Qle; lia). lra.
Qed.

Lemma rounded_float g x f : float64 g -> finite g -> (qval g == x)%Q -> rounded x f -> finite f /\ (qval f == x)%Q.
Proof.
  intros Vg Fg E (V & _ & _ & F & _). destruct F as [F1 F2]; [rewrite <- E; now apply float_below|]. split; [exact F1|].
  destruct (F2 g Vg Fg) as [N _]. assert (Z1 : (qval g - x == 0)%Q) by (rewrite E; ring). rewrite Z1 in N. change (Qabs 0) with 0%Q in N.
  destruct (Qabs_cases (qval f - x)) as [[A B]|[A B]]; rewrite B in N; lra.
Qed.
Lemma rounded_exact z e f : Z.abs z < 2 ^ 53 -> -1074 <= e <= 971 -> rounded (inject_Z z * pw e) f -> finite f /\ (qval f == inject_Z z * pw e)%Q.
Proof. intros Hz He. destruct (representable z e Hz He) as (g & A & B & C). now apply rounded_float with g. Qed.
Lemma rounded_int z x f : (x == inject_Z z)%Q -> Z.abs z <= 2 ^ 53 -> rounded x f -> finite f /\ (qval f == inject_Z z)%Q.
Proof.
  intros E Hz R. destruct (Z.eq_dec (Z.abs z) (2 ^ 53)) as [Q|Q].
  - set (w := if z <? 0 then - 2 ^ 52 else 2 ^ 52). assert (W : z = w * 2).
    { unfold w. destruct (z <? 0) eqn:Ez; [apply Z.ltb_lt in Ez|apply Z.ltb_ge in Ez]; lia. }
    assert (E2 : (inject_Z w * pw 1 == inject_Z z)%Q) by (rewrite W, inject_Z_mult; change (pw 1) with (inject_Z 2); reflexivity).
    rewrite <- E2. apply rounded_exact; [unfold w; destruct (z <? 0); lia|lia|]. apply rounded_compat with x; [now rewrite E2|assumption].
  - assert (E2 : (inject_Z z * pw 0 == inject_Z z)%Q) by (change (pw 0) with 1%Q; ring).
    rewrite <- E2. apply rounded_exact; [lia|lia|]. apply rounded_compat with x; [now rewrite E2|assumption].
Qed.

(** ** Multiplication *)
Lemma valid_digits m e : bounded 53 1024 m e = true -> dg (Zpos m) = 53 /\ -1074 <= e <= 971 \/ dg (Zpos m) <= 53 /\ e = -1074.
Proof.
  unfold bounded, canonical_mantissa. intros H. apply andb_prop in H as [H1 H2]. apply Zeq_bool_eq in H1. change (fexp 53 1024) with fx in H1.
  apply Zle_bool_imp_le in H2. change (Zpos (digits2_pos m)) with (dg (Zpos m)) in H1. unfold fx in H1. lia.
Qed.

Lemma dg_mul a b : 0 < a -> 0 < b -> dg a <= dg (a * b) /\ dg b <= dg (a * b).
Proof.
  assert (M : forall x y, 0 < x -> x <= y -> dg x <= dg y).
  { intros x y Hx Hy. destruct (dg_bounds x) as [_ B]; [lia|]. destruct (B Hx) as [_ B2]. destruct (dg_bounds y) as [A C]; [lia|].
    destruct (C ltac:(lia)) as [C1 _]. assert (dg x - 1 < dg y); [|lia]. apply (Z.pow_lt_mono_r_iff 2); lia. }
  intros Ha Hb. split; apply M; nia.
Qed.

Definition signed (s : bool) (x : Q) : Q := if s then (- x)%Q else x.
Lemma qval_signed s m e : (qval (S754_finite s m e) == signed s (inject_Z (Zpos m) * pw e))%Q.
Proof. cbn [qval]. fold (pw e). destruct s; cbn [signed]; [change (Zneg m) with (- Zpos m); rewrite inject_Z_opp; ring|reflexivity]. Qed.

Theorem mul_rounded a b : float64 a -> float64 b -> finite a -> finite b ->
  rounded (qval a * qval b) (SFmul prec emax a b) /\ negative (SFmul prec emax a b) = xorb (negative a) (negative b).
Proof.
  intros Va Vb Fa Fb. destruct a as [s|s| |s m e], b as [s'|s'| |s' m' e']; try destruct Fa; try destruct Fb; cbn [SFmul].
  1-3: split; [|reflexivity]; eapply rounded_compat; [|apply zero_rounded]; cbn [qval]; ring.
  assert (He : e + e' <= fx (dg (Zpos (m * m')) + (e + e'))).
  { destruct (dg_mul (Zpos m) (Zpos m')) as [D1 D2]; [lia|lia|]. change (Zpos (m * m')) with (Zpos m * Zpos m').
    destruct (valid_digits _ _ Va), (valid_digits _ _ Vb); unfold fx; lia. }
  assert (L : located (inject_Z (Zpos (m * m')) * pw (e + e'))%Q (e + e') (shr_record_of_loc (Zpos (m * m')) loc_Exact)) by reflexivity.
  assert (P : (0 <= inject_Z (Zpos (m * m')) * pw (e + e'))%Q) by apply pos_pw.
  split; [|eapply round_aux_neg; eauto; lia].
  eapply rounded_compat; [|apply round_aux_rounded; [exact P|lia|exact L|exact He]].
  assert (E : (inject_Z (Zpos (m * m')) * pw (e + e') == (inject_Z (Zpos m) * pw e) * (inject_Z (Zpos m') * pw e'))%Q).
  { rewrite pw_add. change (Zpos (m * m')) with (Zpos m * Zpos m'). rewrite inject_Z_mult. ring. }
  rewrite !qval_signed. destruct s, s'; cbn [xorb signed]; rewrite E; ring.
Qed.

(** ** Addition *)
Lemma align_value m e k : k <= e -> (inject_Z (Zpos (fst (shl_align m e k))) * pw k == inject_Z (Zpos m) * pw e)%Q.
Proof.
  intros H. unfold shl_align. destruct (k - e) as [|p|p] eqn:E; [|lia|]; cbn [fst].
  - now replace k with e by lia.
  - rewrite shift_value, inject_Z_mult, pw_Z, <- Qmult_assoc, <- pw_add by lia. now replace (Zpos p + k) with e by lia.
Qed.
Lemma cond_value s n k : (inject_Z (cond_Zopp s n) * pw k == signed s (inject_Z n * pw k))%Q.
Proof. destruct s; cbn [cond_Zopp signed]; [rewrite inject_Z_opp; ring|reflexivity]. Qed.

Lemma float_rounded f : float64 f -> finite f -> rounded (qval f) f.
Proof.
  intros V F. pose proof (float_below f V F) as B. split; [exact V|]. split; [|split; [|split]].
  - destruct f as [s|s| |[|] m e]; try destruct F; cbn [qval negative]; [intros H; exfalso; lra|reflexivity|].
    intros H. exfalso. pose proof (pos_pw m e). unfold pw in *. lra.
  - destruct f as [s|s| |[|] m e]; try destruct F; cbn [qval negative]; [intros H; exfalso; lra| |reflexivity].
    intros H. exfalso. pose proof (pos_pw m e) as P. change (Zneg m) with (- Zpos m) in H. rewrite inject_Z_opp in H. unfold pw in *.
    set (u := (2 ^ e)%Q) in *. assert (E : (- inject_Z (Zpos m) * u == - (inject_Z (Zpos m) * u))%Q) by ring. lra.
  - intros _. split; [exact F|]. intros g _ _. assert (E : (qval f - qval f == 0)%Q) by ring. rewrite E. change (Qabs 0) with 0%Q.
    split; [apply Qabs_nonneg|]. intros X. left. symmetry in X.
    destruct (Qabs_cases (qval g - qval f)) as [[A C]|[A C]]; rewrite C in X; lra.
  - intros H. exfalso. lra.
Qed.

Theorem add_rounded a b : float64 a -> float64 b -> finite a -> finite b ->
  rounded (qval a + qval b) (SFadd prec emax a b) /\
  ((qval a + qval b == 0)%Q -> negative (SFadd prec emax a b) = negative a && negative b).
Proof.
  intros Va Vb Fa Fb. destruct a as [s|s| |s m e], b as [s'|s'| |s' m' e']; try destruct Fa; try destruct Fb; cbn [SFadd].
  - split; [destruct (Bool.eqb s s'); (eapply rounded_compat; [|apply zero_rounded]; cbn [qval]; ring)|]. intros _. now destruct s, s'.
  - split; [eapply rounded_compat; [|apply float_rounded; [exact Vb|exact I]]; cbn [qval]; ring|].
    intros H. exfalso. rewrite qval_signed in H. cbn [qval] in H. assert (0 < inject_Z (Zpos m') * pw e')%Q by (apply Qmult_lt_0_compat; [reflexivity|apply pw_pos]).
    set (q := (inject_Z (Zpos m') * pw e')%Q) in *. clearbody q. destruct s'; cbn [signed] in H; lra.
  - split; [eapply rounded_compat; [|apply float_rounded; [exact Va|exact I]]; cbn [qval]; ring|].
    intros H. exfalso. rewrite qval_signed in H. cbn [qval] in H. assert (0 < inject_Z (Zpos m) * pw e)%Q by (apply Qmult_lt_0_compat; [reflexivity|apply pw_pos]).
    set (q := (inject_Z (Zpos m) * pw e)%Q) in *. clearbody q. destruct s; cbn [signed] in H; lra.
  - set (k := Z.min e e'). set (n := cond_Zopp s _ + cond_Zopp s' _).
    assert (E : (inject_Z n * pw k == qval (S754_finite s m e) + qval (S754_finite s' m' e'))%Q).
    { unfold n. rewrite inject_Z_plus, Qmult_plus_distr_l, !cond_value, !qval_signed.
      pose proof (align_value m e k ltac:(lia)) as A1. pose proof (align_value m' e' k ltac:(lia)) as A2.
      destruct s, s'; cbn [signed]; rewrite A1, A2; reflexivity. }
    split; [apply rounded_compat with (1 := E); apply normalize_rounded|]. rewrite <- E. intros H. rewrite normalize_neg.
    assert (N : n = 0).
    { destruct (Z.eq_dec n 0) as [|N]; [assumption|]. exfalso. apply Qmult_integral in H as [H|H].
      - apply N. unfold Qeq in H. cbn [Qnum Qden inject_Z] in H. lia.
      - pose proof (pw_pos k). lra. }
    rewrite N. cbn [Z.eqb negative]. rewrite N in E. rewrite !qval_signed in E. change (inject_Z 0) with 0%Q in E.
    assert (0 < inject_Z (Zpos m) * pw e)%Q by (apply Qmult_lt_0_compat; [reflexivity|apply pw_pos]).
    assert (0 < inject_Z (Zpos m') * pw e')%Q by (apply Qmult_lt_0_compat; [reflexivity|apply pw_pos]).
    assert (Z0 : (0 * pw k == 0)%Q) by ring. rewrite Z0 in E.
    set (q := (inject_Z (Zpos m) * pw e)%Q) in *. set (q' := (inject_Z (Zpos m') * pw e')%Q) in *. clearbody q q'. clear - E H0 H1.
    destruct s, s'; cbn [signed andb] in *; try reflexivity. exfalso. lra.
Qed.

Lemma sub_add a b : SFsub prec emax a b = SFadd prec emax a (SFopp b).
Proof.
  destruct a as [s|s| |s m e], b as [s'|s'| |s' m' e']; try reflexivity. cbn [SFsub SFadd SFopp]. f_equal.
  destruct s'; cbn [cond_Zopp negb]; lia.
Qed.
Lemma opp_valid f : float64 f -> float64 (SFopp f). Proof. now destruct f. Qed.
Lemma opp_finite f : finite f -> finite (SFopp f). Proof. now destruct f. Qed.
Lemma opp_neg f : finite f -> negative (SFopp f) = negb (negative f). Proof. now destruct f. Qed.

Theorem sub_rounded a b : float64 a -> float64 b -> finite a -> finite b ->
  rounded (qval a - qval b) (SFsub prec emax a b) /\
  ((qval a - qval b == 0)%Q -> negative (SFsub prec emax a b) = negative a && negb (negative b)).
Proof.
  intros Va Vb Fa Fb. rewrite sub_add. destruct (add_rounded a (SFopp b) Va (opp_valid b Vb) Fa (opp_finite b Fb)) as [A B].
  assert (E : (qval a + qval (SFopp b) == qval a - qval b)%Q) by (rewrite qval_opp; ring).
  split; [exact (rounded_compat _ _ _ E A)|]. rewrite <- E, <- opp_neg by assumption. exact B.
Qed.

(** ** Division *)
Lemma location_spec b q r e x : 0 < b -> 0 <= r < b -> (x * inject_Z b == (inject_Z q * inject_Z b + inject_Z r) * pw e)%Q ->
  located x e (shr_record_of_loc q (new_location b r)).
Proof.
  intros Hb Hr Hx. pose proof (pw_pos e) as P. set (u := pw e) in *.
  assert (B : (0 < inject_Z b)%Q) by now rewrite <- (Zlt_Qlt 0).
  assert (E : (x == inject_Z q * u + (inject_Z r / inject_Z b) * u)%Q).
  { assert (X : (x == x * inject_Z b / inject_Z b)%Q) by (field; lra). rewrite X, Hx. field. lra. }
  set (t := (inject_Z r / inject_Z b)%Q) in *. assert (T : (t * inject_Z b == inject_Z r)%Q) by (unfold t; field; lra).
  assert (T0 : r = 0 -> (t == 0)%Q) by (intros ->; unfold t; change (inject_Z 0) with 0%Q; field; lra).
  assert (T1 : r < b -> (t < 1)%Q).
  { intros H. unfold t. apply Qlt_shift_div_r; [assumption|]. rewrite Qmult_1_l, <- Zlt_Qlt. assumption. }
  assert (T2 : 0 < r -> (0 < t)%Q).
  { intros H. unfold t. apply Qlt_shift_div_l; [assumption|]. rewrite Qmult_0_l, <- (Zlt_Qlt 0). assumption. }
  assert (T3 : 2 * r < b -> (t < 1#2)%Q).
  { intros H. unfold t. apply Qlt_shift_div_r; [assumption|]. rewrite Zlt_Qlt in H. rewrite inject_Z_mult in H. change (inject_Z 2) with 2%Q in H. lra. }
  assert (T4 : b < 2 * r -> (1#2 < t)%Q).
  { intros H. unfold t. apply Qlt_shift_div_l; [assumption|]. rewrite Zlt_Qlt in H. rewrite inject_Z_mult in H. change (inject_Z 2) with 2%Q in H. lra. }
  assert (T5 : 2 * r = b -> (t == 1#2)%Q).
  { intros H. assert (F : (2 * inject_Z r == inject_Z b)%Q) by (rewrite <- H, inject_Z_mult; reflexivity).
    unfold t. rewrite <- F. field. rewrite <- F in B. lra. }
  assert (M1 : forall c, (t < c -> t * u < c * u)%Q) by (intros c H; now apply Qmult_lt_r).
  assert (M2 : forall c, (c < t -> c * u < t * u)%Q) by (intros c H; now apply Qmult_lt_r).
  assert (M3 : forall c, (t == c -> t * u == c * u)%Q) by (intros c H; now rewrite H).
  pose proof (M1 (1#2)%Q) as M1h. pose proof (M1 1%Q) as M1o. pose proof (M2 0%Q) as M2z. pose proof (M2 (1#2)%Q) as M2h.
  pose proof (M3 0%Q) as M3z. pose proof (M3 (1#2)%Q) as M3h. clear M1 M2 M3 Hx T.
  set (tu := (t * u)%Q) in *. set (qu := (inject_Z q * u)%Q) in *. clearbody t tu.
  assert (Exact : r = 0 -> located x e (shr_record_of_loc q loc_Exact)).
  { intros H. cbn [shr_record_of_loc located]. fold u qu. specialize (M3z (T0 H)). lra. }
  assert (Less : 0 < r -> 2 * r < b -> located x e (shr_record_of_loc q (loc_Inexact Lt))).
  { intros H H'. cbn [shr_record_of_loc located]. fold u qu. specialize (M2z (T2 H)). specialize (M1h (T3 H')). clearbody qu. lra. }
  assert (Same : 2 * r = b -> located x e (shr_record_of_loc q (loc_Inexact Eq))).
  { intros H. cbn [shr_record_of_loc located]. fold u qu. specialize (M3h (T5 H)). clearbody qu. lra. }
  assert (More : b < 2 * r -> located x e (shr_record_of_loc q (loc_Inexact Gt))).
  { intros H. cbn [shr_record_of_loc located]. fold u qu. specialize (M2h (T4 H)). specialize (M1o (T1 (proj2 Hr))). clearbody qu. lra. }
  unfold new_location. destruct (Z.even b) eqn:Eb.
  - unfold new_location_even. destruct (Zeq_bool r 0) eqn:Er; [apply Zeq_bool_eq in Er; auto|apply Zeq_bool_neq in Er].
    destruct (Z.compare_spec (2 * r) b); [now apply Same|apply Less; lia|now apply More].
  - unfold new_location_odd. destruct (Zeq_bool r 0) eqn:Er; [apply Zeq_bool_eq in Er; auto|apply Zeq_bool_neq in Er].
    assert (Od : 2 * r <> b) by (intros <-; now rewrite Z.even_mul in Eb).
    destruct (Z.compare_spec (2 * r + 1) b); [apply Less; lia|apply Less; lia|apply More; lia].
Qed.

Theorem div_core m1 e1 m2 e2 : exists q e l, SFdiv_core_binary prec emax (Zpos m1) e1 (Zpos m2) e2 = (q, e, l) /\ 0 <= q /\
  located ((inject_Z (Zpos m1) * pw e1) / (inject_Z (Zpos m2) * pw e2))%Q e (shr_record_of_loc q l) /\ e <= fx (dg q + e).
Proof.
  unfold SFdiv_core_binary. change (fexp prec emax) with fx. change (Zdigits2 (Zpos m1)) with (dg (Zpos m1)). change (Zdigits2 (Zpos m2)) with (dg (Zpos m2)).
  set (d1 := dg (Zpos m1)). set (d2 := dg (Zpos m2)). set (D := d1 + e1 - (d2 + e2)). set (e := Z.min (fx D) (e1 - e2)). set (s := e1 - e2 - e).
  assert (Hs : 0 <= s) by lia.
  assert (Em : match s with Z0 => Zpos m1 | Zpos _ => Z.shiftl (Zpos m1) s | Zneg _ => 0 end = Zpos m1 * 2 ^ s).
  { destruct s as [|p|p]; [lia| |lia]. now apply Z.shiftl_mul_pow2. }
  rewrite Em. set (a := Zpos m1 * 2 ^ s). pose proof (Z_div_mod a (Zpos m2) ltac:(lia)) as DM.
  destruct (Z.div_eucl a (Zpos m2)) as [q r]. destruct DM as [DM Hr].
  assert (Pa : 0 < a) by (apply Z.mul_pos_pos; [lia|apply Z.pow_pos_nonneg; lia]).
  assert (Hq : 0 <= q) by nia.
  exists q, e, (new_location (Zpos m2) r). split; [reflexivity|]. split; [assumption|]. split.
  - apply location_spec; [lia|assumption|].
    assert (B : ~ (inject_Z (Zpos m2) == 0)%Q) by discriminate. pose proof (pw_pos e2) as P2. pose proof (pw_pos e) as Pe.
    assert (F : (inject_Z (Zpos m1) * pw e1 == inject_Z a * pw e * pw e2)%Q).
    { unfold a. rewrite inject_Z_mult, pw_Z by assumption. rewrite <- !Qmult_assoc, <- !pw_add. replace (s + (e + e2)) with e1 by lia. reflexivity. }
    rewrite F, <- inject_Z_mult, <- inject_Z_plus. replace (q * Zpos m2 + r) with a by lia. field. split; [lra|assumption].
  - destruct (Z.le_gt_cases e (-1074)) as [L|G]; [unfold fx; lia|].
    assert (FD : e <= D - 53) by (unfold e, fx in *; lia).
    assert (Q : 2 ^ (D - e - 1) <= q).
    { assert (A1 : 2 ^ (d1 - 1 + s) <= a).
      { unfold a. rewrite Z.pow_add_r; [|unfold d1; destruct (dg_bounds (Zpos m1)) as [_ X]; lia|lia].
        apply Z.mul_le_mono_nonneg_r; [apply Z.pow_nonneg; lia|]. destruct (dg_bounds (Zpos m1)) as [_ X]; [lia|]. now destruct X. }
      assert (A2 : Zpos m2 < 2 ^ d2) by (destruct (dg_bounds (Zpos m2)); [lia|assumption]).
      assert (Hd2 : 0 < d2) by (destruct (dg_bounds (Zpos m2)) as [_ X]; [lia|now destruct X]).
      replace (d1 - 1 + s) with (d2 + (D - e - 1)) in A1 by lia. rewrite Z.pow_add_r in A1 by lia.
      pose proof (Z.pow_pos_nonneg 2 (D - e - 1) ltac:(lia) ltac:(lia)) as Pw.
      apply Z.nlt_ge. intros Lt. set (w := 2 ^ (D - e - 1)) in *. clearbody w. nia. }
    assert (Dq : 53 <= dg q).
    { destruct (dg_bounds q) as [X _]; [assumption|]. assert (D - e - 1 < dg q); [|lia].
      apply (Z.pow_lt_mono_r_iff 2); [lia| |lia]. destruct q; unfold dg; cbn [Zdigits2]; lia. }
    unfold fx. lia.
Qed.

Theorem div_rounded a b : finite a -> finite b -> ~ (qval b == 0)%Q ->
  rounded (qval a / qval b) (SFdiv prec emax a b) /\ negative (SFdiv prec emax a b) = xorb (negative a) (negative b).
Proof.
  intros Fa Fb Nb. destruct a as [s|s| |s m e], b as [s'|s'| |s' m' e']; try destruct Fa; try destruct Fb; cbn [SFdiv]; try (exfalso; apply Nb; reflexivity).
  - split; [|reflexivity]. eapply rounded_compat; [|apply zero_rounded]. cbn [qval]. unfold Qdiv. ring.
  - destruct (div_core m e m' e') as (q & k & l & E & Hq & L & He). rewrite E.
    set (x := ((inject_Z (Zpos m) * pw e) / (inject_Z (Zpos m') * pw e'))%Q) in *.
    assert (P1 : (0 < inject_Z (Zpos m') * pw e')%Q) by (apply Qmult_lt_0_compat; [reflexivity|apply pw_pos]).
    assert (P : (0 <= x)%Q) by (apply Qle_shift_div_l; [assumption|rewrite Qmult_0_l; apply pos_pw]).
    split; [|eapply round_aux_neg; eassumption].
    eapply rounded_compat; [|apply round_aux_rounded; [exact P|exact Hq|exact L|exact He]].
    rewrite !qval_signed. unfold x. destruct s, s'; cbn [xorb signed]; field; repeat split; try lra; discriminate || (pose proof (pw_pos e'); lra).
Qed.
