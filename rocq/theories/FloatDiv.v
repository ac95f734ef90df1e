(** [div] on floats is the floor of the exact quotient, unless that is huge. *)
From Verif Require Import Base Num FloatSpec FloatRound FloatOps FloatCor.
From Coq Require Import QArith Qpower Qabs Qround Lqa Floats.SpecFloat Lia.
Local Open Scope Z_scope.

Lemma Qabs_bound x y : (Qabs x <= y <-> - y <= x /\ x <= y)%Q.
Proof. apply Qabs_Qle_condition. Qed.

(** A float close to an integer multiple of a float, not farther from 0. *)
Lemma multiple_near n k : -1074 <= k -> (Qabs (inject_Z n * pw k) < limit)%Q ->
  exists g, float64 g /\ finite g /\ (Qabs (qval g - inject_Z n * pw k) * inject_Z (2 ^ 52) <= Qabs (inject_Z n * pw k))%Q.
Proof.
  intros Hk Hl. pose proof (pw_pos k) as Pk. destruct (Z.lt_ge_cases (Z.abs n) (2 ^ 53)) as [S|B].
  - destruct (Z.le_gt_cases k 971) as [L|G].
    + destruct (representable n k S ltac:(lia)) as (g & A & C & D). exists g. split; [exact A|]. split; [exact C|].
      assert (Z0 : (qval g - inject_Z n * pw k == 0)%Q) by (rewrite D; ring). rewrite Z0. change (Qabs 0) with 0%Q. rewrite Qmult_0_l. apply Qabs_nonneg.
    + assert (Hn : Z.abs n * 2 ^ (k - 971) < 2 ^ 53).
      { apply Z.nle_gt. intros X. apply (Qlt_irrefl limit). apply Qle_lt_trans with (2 := Hl).
        assert (E : (Qabs (inject_Z n * pw k) == inject_Z (Z.abs n * 2 ^ (k - 971)) * pw 971)%Q).
        { rewrite Qabs_Qmult, (Qabs_pos (pw k)) by lra. rewrite inject_Z_mult, pw_Z, <- Qmult_assoc, <- pw_add by lia.
          replace (k - 971 + 971) with k by lia. assert (A : (Qabs (inject_Z n) == inject_Z (Z.abs n))%Q) by reflexivity. rewrite A. reflexivity. }
        rewrite E, limit_pw. apply Qmult_le_compat_r; [|pose proof (pw_pos 971); lra].
        assert (Y : (inject_Z (2 ^ 53) <= inject_Z (Z.abs n * 2 ^ (k - 971)))%Q) by now rewrite <- Zle_Qle.
        apply Qle_trans with (2 := Y). vm_compute. discriminate. }
      destruct (representable (n * 2 ^ (k - 971)) 971) as (g & A & C & D); [rewrite Z.abs_mul, (Z.abs_eq (2 ^ _)) by (apply Z.pow_nonneg; lia); exact Hn|lia|].
      exists g. split; [exact A|]. split; [exact C|].
      assert (Z0 : (qval g - inject_Z n * pw k == 0)%Q).
      { rewrite D, inject_Z_mult, pw_Z, <- Qmult_assoc, <- pw_add by lia. replace (k - 971 + 971) with k by lia. ring. }
      rewrite Z0. change (Qabs 0) with 0%Q. rewrite Qmult_0_l. apply Qabs_nonneg.
  - set (d := dg (Z.abs n)). destruct (dg_bounds (Z.abs n)) as [B1 B2]; [lia|]. destruct (B2 ltac:(lia)) as [B3 B4]. fold d in B1, B3, B4.
    assert (Hd : 53 < d). { apply (Z.pow_lt_mono_r_iff 2); lia. }
    set (j := d - 53). set (c := Z.quot n (2 ^ j)). set (r := Z.rem n (2 ^ j)).
    pose proof (Z.quot_rem' n (2 ^ j)) as QR. fold c r in QR.
    assert (Pj : 0 < 2 ^ j) by (apply Z.pow_pos_nonneg; lia).
    assert (Rj : Z.abs r < 2 ^ j) by (pose proof (Z.rem_bound_abs n (2 ^ j) ltac:(lia)); fold r in H; lia).
    assert (Cj : Z.abs c < 2 ^ 53).
    { unfold c. rewrite <- Z.quot_abs by lia. rewrite (Z.abs_eq (2 ^ j)) by lia. rewrite Z.quot_div_nonneg by lia.
      apply Z.div_lt_upper_bound; [lia|]. rewrite <- Z.pow_add_r by lia. replace (j + 53) with d by lia. exact B1. }
    assert (Ej : 2 ^ (d - 1) = 2 ^ 52 * 2 ^ j) by (rewrite <- Z.pow_add_r by lia; f_equal; lia).
    assert (An : (Qabs (inject_Z n * pw k) == inject_Z (Z.abs n) * pw k)%Q).
    { rewrite Qabs_Qmult, (Qabs_pos (pw k)) by lra. reflexivity. }
    assert (Top : k + j <= 971).
    { apply Z.nlt_ge. intros X. apply (Qlt_irrefl limit). apply Qle_lt_trans with (2 := Hl). rewrite An, limit_pw.
      apply Qle_trans with (inject_Z (2 ^ 52) * pw 972)%Q.
      - change 972 with (971 + 1). rewrite pw_succ. pose proof (pw_pos 971) as P0.
        assert (F : (inject_Z (2 ^ 52) * (2 * pw 971) == inject_Z (2 ^ 53) * pw 971)%Q).
        { assert (F0 : (inject_Z (2 ^ 53) == 2 * inject_Z (2 ^ 52))%Q) by (vm_compute; reflexivity). rewrite F0. ring. }
        rewrite F. apply Qmult_le_compat_r; [|lra]. vm_compute. discriminate.
      - apply Qle_trans with (inject_Z (2 ^ 52) * pw (k + j))%Q.
        + rewrite !(Qmult_comm (inject_Z (2 ^ 52))). apply Qmult_le_compat_r; [apply pw_le; lia|]. vm_compute. discriminate.
        + rewrite (Z.add_comm k j), pw_add, Qmult_assoc, <- pw_Z, <- inject_Z_mult by lia.
          apply Qmult_le_compat_r; [|lra]. rewrite <- Zle_Qle. lia. }
    destruct (representable c (k + j) Cj ltac:(lia)) as (g & A & C & D). exists g. split; [exact A|]. split; [exact C|].
    assert (Df : (qval g - inject_Z n * pw k == - (inject_Z r * pw k))%Q).
    { assert (Nr : (inject_Z n == inject_Z (2 ^ j) * inject_Z c + inject_Z r)%Q) by (rewrite <- inject_Z_mult, <- inject_Z_plus, <- QR; reflexivity).
      rewrite D, (Z.add_comm k j), pw_add, <- (pw_Z j), Nr by lia. ring. }
    rewrite Df, Qabs_opp, An, Qabs_Qmult, (Qabs_pos (pw k)) by lra.
    assert (Ar : (Qabs (inject_Z r) == inject_Z (Z.abs r))%Q) by reflexivity. rewrite Ar.
    assert (Fin : (inject_Z (Z.abs r) * pw k * inject_Z (2 ^ 52) == inject_Z (Z.abs r * 2 ^ 52) * pw k)%Q) by (rewrite inject_Z_mult; ring).
    rewrite Fin. apply Qmult_le_compat_r; [|lra]. rewrite <- Zle_Qle. nia.
Qed.

Lemma int_float_exists z : Z.abs z < 2 ^ 53 -> exists g, float64 g /\ finite g /\ (qval g == inject_Z z)%Q.
Proof. intros H. destruct (representable z 0 H ltac:(lia)) as (g & A & B & C). exists g. split; [exact A|]. split; [exact B|]. rewrite C, pw0. ring. Qed.

Lemma rounded_near x f : rounded x f -> forall z, Z.abs z < 2 ^ 53 -> (Qabs x < limit)%Q -> (Qabs (qval f - inject_Z z) <= 2 * Qabs (inject_Z z - x))%Q.
Proof.
  intros (_ & _ & _ & F & _) z Hz Hx. destruct (F Hx) as [_ N]. destruct (int_float_exists z Hz) as (g & A & B & C).
  destruct (N g A B) as [M _]. rewrite C in M.
  assert (T : (Qabs (qval f - inject_Z z) <= Qabs (qval f - x) + Qabs (x - inject_Z z))%Q).
  { assert (E : (qval f - inject_Z z == (qval f - x) + (x - inject_Z z))%Q) by ring. rewrite E. apply Qabs_triangle. }
  rewrite (Qabs_Qminus x) in T. lra.
Qed.

Lemma small_limit q : (Qabs q <= inject_Z (2 ^ 53))%Q -> (Qabs q < limit)%Q.
Proof. intros H. apply Qle_lt_trans with (1 := H). vm_compute. reflexivity. Qed.

Lemma floor_near x z : (Qabs (x - inject_Z z) <= 1#4)%Q -> (Qfloor x = z /\ (0 <= x - inject_Z z)%Q) \/ (Qfloor x = z - 1 /\ (x - inject_Z z < 0)%Q).
Proof.
  intros H. apply Qabs_bound in H as [H1 H2]. destruct (Qlt_le_dec (x - inject_Z z) 0) as [N|N]; [right|left]; (split; [|assumption]).
  - pose proof (Qfloor_le x) as L. pose proof (Qlt_floor x) as U. rewrite inject_Z_plus in U. change (inject_Z 1) with 1%Q in U.
    assert (A : (inject_Z (Qfloor x) < inject_Z z)%Q) by lra. rewrite <- Zlt_Qlt in A.
    assert (B : (inject_Z (z - 2) < inject_Z (Qfloor x))%Q).
    { replace (z - 2) with (z + -2) by lia. rewrite inject_Z_plus. change (inject_Z (-2)) with (-2)%Q. lra. }
    rewrite <- Zlt_Qlt in B. lia.
  - pose proof (Qfloor_le x) as L. pose proof (Qlt_floor x) as U. rewrite inject_Z_plus in U. change (inject_Z 1) with 1%Q in U.
    assert (A : (inject_Z (Qfloor x) < inject_Z (z + 1))%Q) by (rewrite inject_Z_plus; change (inject_Z 1) with 1%Q; lra). rewrite <- Zlt_Qlt in A.
    assert (B : (inject_Z (z - 1) < inject_Z (Qfloor x))%Q).
    { replace (z - 1) with (z + -1) by lia. rewrite inject_Z_plus. change (inject_Z (-1)) with (-1)%Q. lra. }
    rewrite <- Zlt_Qlt in B. lia.
Qed.

(** Comparison with one half. *)
Lemma dyadic_val m e : (dyadic m e == inject_Z m * pw e)%Q.
Proof.
  unfold pw. destruct e as [|p|p]; cbn [dyadic].
  - change (2 ^ 0)%Z with 1. rewrite Z.mul_1_r. change (2 ^ 0)%Q with 1%Q. ring.
  - rewrite inject_Z_mult. rewrite Zpower_Qpower by lia. reflexivity.
  - change (2 ^ Zneg p)%Q with (/ 2 ^ Zpos p)%Q. rewrite <- (Zpower_Qpower 2 (Zpos p)) by lia.
    assert (E : (2 ^ Zpos p)%Z = Zpos (2 ^ p)) by now rewrite Pos2Z.inj_pow. change (inject_Z (2 ^ Zpos p)) with ((2 ^ Zpos p)%Z # 1). rewrite E.
    unfold Qeq, Qmult, Qinv, inject_Z. cbn [Qnum Qden]. lia.
Qed.
Lemma above_half f : finite f -> num_ord CGt (NFlt f) (NFlt flt_half) = true <-> (1#2 < qval f)%Q.
Proof.
  intros F. unfold num_ord, num_cmp. cbn [num_val].
  assert (H : flt_val flt_half = XQ (dyadic 4503599627370496 (-53))) by (vm_compute; reflexivity). rewrite H.
  assert (V : exists v, flt_val f = XQ v /\ (v == qval f)%Q).
  { destruct f as [s|s| |s m e]; try destruct F; cbn [flt_val qval]; eexists; (split; [reflexivity|]); [reflexivity|]. apply dyadic_val. }
  destruct V as (v & -> & Ev). cbn [xcmp].
  assert (Eh : (dyadic 4503599627370496 (-53) == 1#2)%Q) by (vm_compute; reflexivity).
  set (h := dyadic 4503599627370496 (-53)) in *. clearbody h. rewrite <- Ev. unfold cop_of. destruct (Qcompare_spec v h) as [E|E|E].
  - split; [discriminate|]. intros X. exfalso. lra.
  - split; [discriminate|]. intros X. exfalso. lra.
  - split; [|reflexivity]. intros _. lra.
Qed.

Theorem floordiv_exact a b : float64 a -> float64 b -> finite a -> finite b -> ~ (qval b == 0)%Q ->
  Z.abs (Qfloor (qval a / qval b)) < 2 ^ 48 ->
  exists f, flt_floordiv a b = Ok (NFlt f) /\ float64 f /\ finite f /\ (qval f == inject_Z (Qfloor (qval a / qval b)))%Q.
Proof.
  intros Va Vb Fa Fb Nb Bq.
  destruct (common a b Va Vb Fa Fb Nb) as (e & a' & b' & He & Ha & Hb & Nb' & Vm & Fm & Hm & Sb & Sm & Zm).
  rewrite (floor_ratio _ _ a' b' e Ha Hb Nb') in *. set (m := flt_fmod a b) in *. pose proof (pw_pos e) as Pe.
  pose proof (Z.quot_rem' a' b') as QR. set (t := Z.quot a' b') in *. set (r := Z.rem a' b') in *. set (z := a' / b') in *.
  destruct (rem_div a' b' Nb') as (D0 & D1 & D2). fold r in D0, D1, D2. pose proof (Z.div_mod a' b' Nb') as DM. fold z in DM.
  assert (Tz : z = t \/ r <> 0 /\ z = t - 1 /\ (b' <? 0) <> (r <? 0)).
  { destruct (Z.eq_dec r 0) as [E|N]; [left; specialize (D0 E); nia|]. destruct (Bool.bool_dec (b' <? 0) (r <? 0)) as [E|N2].
    - left. specialize (D1 N E). nia.
    - right. destruct (D2 N N2) as (D3 & _). split; [assumption|]. split; [nia|assumption]. }
  assert (Bt : Z.abs t <= 2 ^ 48) by lia.
  (* v is close to b * t *)
  destruct (sub_rounded a m Va Vm Fa Fm) as [R1 _]. set (v := SFsub prec emax a m) in *.
  assert (X1 : (qval a - qval m == inject_Z (b' * t) * pw e)%Q).
  { rewrite Ha, Hm. assert (E : b' * t = a' + - r) by lia. rewrite E, inject_Z_plus, inject_Z_opp. ring. }
  assert (Labs : Z.abs (b' * t) <= Z.abs a').
  { pose proof (Z.quot_abs a' b' Nb') as A1. pose proof (Z.rem_abs a' b' Nb') as A2. fold t in A1. fold r in A2.
    pose proof (Z.quot_rem' (Z.abs a') (Z.abs b')) as A3. rewrite A1, A2 in A3. rewrite Z.abs_mul. pose proof (Z.abs_nonneg r). lia. }
  assert (Lim : (Qabs (inject_Z (b' * t) * pw e) < limit)%Q).
  { apply Qle_lt_trans with (2 := float_below a Va Fa). rewrite Ha, !Qabs_Qmult. apply Qmult_le_compat_r; [|apply Qabs_nonneg].
    change (inject_Z (Z.abs (b' * t)) <= inject_Z (Z.abs a'))%Q. now rewrite <- Zle_Qle. }
  assert (V1 : (Qabs (qval v - inject_Z (b' * t) * pw e) * inject_Z (2 ^ 52) <= Qabs (inject_Z (b' * t) * pw e))%Q).
  { destruct (multiple_near (b' * t) e He Lim) as (g & G1 & G2 & G3). pose proof (rounded_compat _ _ _ X1 R1) as R1'.
    destruct R1' as (_ & _ & _ & R1' & _). destruct (R1' Lim) as [_ N]. destruct (N g G1 G2) as [N1 _].
    apply Qle_trans with (2 := G3). apply Qmult_le_compat_r; [exact N1|]. vm_compute. discriminate. }
  pose proof (finite_not_inf _ _ (rounded_compat _ _ _ X1 R1) Lim) as F1.
  (* v / b is close to t *)
  assert (B0 : ~ (inject_Z b' == 0)%Q) by (intros H; apply Nb'; now apply inject_inj).
  assert (Ab : (0 < Qabs (qval b))%Q).
  { destruct (Qlt_le_dec 0 (Qabs (qval b))) as [L|L]; [exact L|]. exfalso. apply Nb.
    apply Qabs_bound in L as [L1 L2]. lra. }
  assert (V2 : (Qabs (qval v / qval b - inject_Z t) * inject_Z (2 ^ 52) <= Qabs (inject_Z t))%Q).
  { assert (E : (qval v - inject_Z (b' * t) * pw e == (qval v / qval b - inject_Z t) * qval b)%Q).
    { rewrite inject_Z_mult. assert (E1 : (inject_Z b' * inject_Z t * pw e == inject_Z t * qval b)%Q) by (rewrite Hb; ring). rewrite E1. field. exact Nb. }
    assert (E2 : (inject_Z (b' * t) * pw e == inject_Z t * qval b)%Q) by (rewrite inject_Z_mult, Hb; ring).
    rewrite E, E2, !Qabs_Qmult in V1. apply (Qmult_le_r _ _ (Qabs (qval b)) Ab).
    apply Qle_trans with (2 := V1). apply Qle_lteq. right. ring. }
  assert (V3 : (Qabs (inject_Z t - qval v / qval b) <= 1#16)%Q).
  { rewrite Qabs_Qminus. assert (T48 : (Qabs (inject_Z t) <= inject_Z (2 ^ 48))%Q) by (change (inject_Z (Z.abs t) <= inject_Z (2 ^ 48))%Q; now rewrite <- Zle_Qle).
    change (inject_Z (2 ^ 52)) with (4503599627370496 # 1)%Q in V2. change (inject_Z (2 ^ 48)) with (281474976710656 # 1)%Q in T48.
    set (u := Qabs (qval v / qval b - inject_Z t)) in *. clearbody u. lra. }
  destruct (div_rounded v b F1 Fb Nb) as [R2 _]. set (d := SFdiv prec emax v b) in *.
  assert (T53 : forall y c, (Qabs (y - inject_Z c) <= 1)%Q -> Z.abs c <= 2 ^ 50 -> (Qabs y < limit)%Q).
  { intros y c Hy Hc. apply small_limit. assert (E : (y == (y - inject_Z c) + inject_Z c)%Q) by ring. rewrite E.
    eapply Qle_trans; [apply Qabs_triangle|]. assert (X : (Qabs (inject_Z c) <= inject_Z (2 ^ 50))%Q) by (change (inject_Z (Z.abs c) <= inject_Z (2 ^ 50))%Q; now rewrite <- Zle_Qle).
    change (inject_Z (2 ^ 50)) with (1125899906842624 # 1)%Q in X. change (inject_Z (2 ^ 53)) with (9007199254740992 # 1)%Q. lra. }
  assert (L2 : (Qabs (qval v / qval b) < limit)%Q) by (apply (T53 _ t); [rewrite Qabs_Qminus; lra|lia]).
  pose proof (rounded_near _ _ R2 t ltac:(lia) L2) as V4.
  assert (V5 : (Qabs (qval d - inject_Z t) <= 1#8)%Q) by lra.
  pose proof (finite_not_inf _ _ R2 L2) as F2.
  destruct one_val as (W1 & W2 & W3). destruct (sub_rounded d flt_one (proj1 R2) W1 F2 W2) as [R3 _].
  set (d2 := if flt_is_zero m then d else if Bool.eqb (flt_neg b) (flt_neg m) then d else SFsub prec emax d flt_one).
  assert (FL : float64 d2 /\ finite d2 /\ (Qabs (qval d2 - inject_Z z) <= 1#4)%Q).
  { assert (Same : z = t -> float64 d /\ finite d /\ (Qabs (qval d - inject_Z z) <= 1#4)%Q).
    { intros ->. split; [exact (proj1 R2)|]. split; [exact F2|]. lra. }
    unfold d2. rewrite Zm, (neg_val b), Sb by assumption. destruct (Z.eqb_spec r 0) as [Er|Nr].
    - apply Same. destruct Tz as [E|(E & _)]; [exact E|contradiction].
    - destruct (Sm Nr) as [-> _]. destruct (Bool.eqb (b' <? 0) (r <? 0)) eqn:Eq.
      + apply eqb_prop in Eq. apply Same. destruct Tz as [E|(_ & _ & E)]; [exact E|contradiction].
      + apply eqb_false_iff in Eq. destruct (D2 Nr Eq) as (D3 & _). assert (Et : z = t - 1) by nia.
        assert (X3 : (inject_Z z == inject_Z t - 1)%Q) by (rewrite Et; unfold Z.sub; rewrite inject_Z_plus; reflexivity).
        assert (N3 : (Qabs (inject_Z z - (qval d - qval flt_one)) <= 1#8)%Q).
        { assert (E : (inject_Z z - (qval d - qval flt_one) == inject_Z t - qval d)%Q) by (rewrite X3, W3; ring). rewrite E, Qabs_Qminus. exact V5. }
        assert (L3 : (Qabs (qval d - qval flt_one) < limit)%Q) by (apply (T53 _ z); [rewrite Qabs_Qminus; lra|lia]).
        split; [exact (proj1 R3)|]. split; [exact (finite_not_inf _ _ R3 L3)|].
        pose proof (rounded_near _ _ R3 z ltac:(lia) L3) as V6. lra. }
  destruct FL as (U1 & U2 & U3). unfold flt_floordiv. rewrite nonzero_float by assumption. fold m v d d2.
  clearbody d2. clear - U1 U2 U3 Bq T53. destruct (flt_is_zero d2) eqn:Ez.
  - eexists. split; [reflexivity|]. split; [reflexivity|]. split; [exact I|]. apply is_zero_val in Ez; [|exact U2].
    rewrite Ez in U3. destruct (floor_near 0 z U3) as [[E _]|[E N]]; change (Qfloor 0) with 0 in E.
    + rewrite <- E. reflexivity.
    + exfalso. assert (z = 1) by lia. subst. apply Qabs_bound in U3 as [X _]. rewrite H in X. change (inject_Z 1) with 1%Q in X. lra.
  - destruct (floor_exact d2 U1 U2) as (U4 & U5 & U6). set (fl := flt_floor d2) in *.
    destruct (sub_rounded d2 fl U1 U4 U2 U5) as [R6 _]. set (y := SFsub prec emax d2 fl) in *.
    assert (Quarter : exists g, float64 g /\ finite g /\ (qval g == 1#4)%Q).
    { destruct (representable 1 (-2)) as (g & A & B & C); [lia|lia|]. exists g. split; [exact A|]. split; [exact B|]. rewrite C. reflexivity. }
    assert (Three : exists g, float64 g /\ finite g /\ (qval g == 3#4)%Q).
    { destruct (representable 3 (-2)) as (g & A & B & C); [lia|lia|]. exists g. split; [exact A|]. split; [exact B|]. rewrite C. reflexivity. }
    apply Qabs_bound in U3 as [U7 U8].
    destruct (floor_near (qval d2) z) as [[E N]|[E N]]; [apply Qabs_bound; split; assumption| |].
    + rewrite E in U6. assert (L6 : (Qabs (qval d2 - qval fl) < limit)%Q) by (apply (T53 _ 0); [apply Qabs_bound; rewrite U6; change (inject_Z 0) with 0%Q; split; lra|lia]).
      destruct R6 as (_ & _ & _ & R6 & _). destruct (R6 L6) as [F7 N7]. destruct Quarter as (g & G1 & G2 & G3). destruct (N7 g G1 G2) as [N8 _].
      rewrite G3, U6 in N8. rewrite (Qabs_pos ((1#4) - _)) in N8 by lra. apply Qabs_bound in N8 as [_ N8].
      assert (Hf : num_ord CGt (NFlt y) (NFlt flt_half) = false).
      { destruct (num_ord CGt (NFlt y) (NFlt flt_half)) eqn:Eo; [|reflexivity]. apply above_half in Eo; [|exact F7]. exfalso. lra. }
      rewrite Hf. exists fl. auto.
    + rewrite E in U6. assert (Z1 : (inject_Z (z - 1) == inject_Z z - 1)%Q) by (unfold Z.sub; rewrite inject_Z_plus; reflexivity). rewrite Z1 in U6.
      assert (L6 : (Qabs (qval d2 - qval fl) < limit)%Q) by (apply (T53 _ 0); [apply Qabs_bound; rewrite U6; change (inject_Z 0) with 0%Q; split; lra|lia]).
      destruct R6 as (_ & _ & _ & R6 & _). destruct (R6 L6) as [F7 N7]. destruct Three as (g & G1 & G2 & G3). destruct (N7 g G1 G2) as [N8 _].
      rewrite G3, U6 in N8. rewrite (Qabs_neg ((3#4) - _)) in N8 by lra. apply Qabs_bound in N8 as [N8 _].
      assert (Hf : num_ord CGt (NFlt y) (NFlt flt_half) = true) by (apply above_half; [exact F7|lra]).
      rewrite Hf. destruct one_val as (W1 & W2 & W3). destruct (add_rounded fl flt_one U4 W1 U5 W2) as [R9 _].
      eexists. split; [reflexivity|]. split; [exact (proj1 R9)|].
      assert (X9 : (qval fl + qval flt_one == inject_Z z)%Q) by (rewrite U6, W3; ring). apply (rounded_int z _ _ X9 ltac:(lia) R9).
Qed.
