(** Rounding in the standard library's floats is correct. *)
From Verif Require Import Base Num NumRead ShowRepr FloatSpec.
From Coq Require Import QArith Qabs Qpower Lqa Floats.SpecFloat Lia.
Local Open Scope Z_scope.

(** ** Powers of two *)
Definition pw (e : Z) : Q := (2 ^ e)%Q.
Lemma pw_pos e : (0 < pw e)%Q.
Proof. apply Qpower_0_lt. reflexivity. Qed.
Lemma pw_add a b : (pw (a + b) == pw a * pw b)%Q.
Proof. apply Qpower_plus. intros H. discriminate H. Qed.
Lemma pw_succ e : (pw (e + 1) == 2 * pw e)%Q.
Proof. rewrite pw_add. change (pw 1) with (2 # 1)%Q. ring. Qed.
Lemma pw_Z n : 0 <= n -> (inject_Z (2 ^ n) == pw n)%Q.
Proof. intros H. exact (Zpower_Qpower 2 n H). Qed.
Lemma pw_le a b : a <= b -> (pw a <= pw b)%Q.
Proof.
  intros H. replace b with (a + (b - a)) by lia. rewrite pw_add. rewrite <- (pw_Z (b - a)) by lia.
  pose proof (pw_pos a) as P. assert (L : (1 <= inject_Z (2 ^ (b - a)))%Q).
  { change 1%Q with (inject_Z 1). rewrite <- Zle_Qle. pose proof (Z.pow_pos_nonneg 2 (b - a)). lia. }
  setoid_replace (pw a) with (pw a * 1)%Q at 1 by ring. apply Qmult_le_l; assumption.
Qed.

(** ** Where a number is between two neighbours *)
Definition located (x : Q) (e : Z) (k : shr_record) : Prop :=
  let '(Build_shr_record m r s) := k in
  let u := pw e in let b := (inject_Z m * u)%Q in
  match r, s with
  | false, false => (x == b)%Q
  | false, true => (b < x /\ x < b + (1#2) * u)%Q
  | true, false => (x == b + (1#2) * u)%Q
  | true, true => (b + (1#2) * u < x /\ x < b + u)%Q
  end.

Lemma inj_double p : (inject_Z (Zpos (xO p)) == 2 * inject_Z (Zpos p))%Q.
Proof. unfold Qeq; cbn [Qnum Qden inject_Z Qmult]. lia. Qed.
Lemma inj_double1 p : (inject_Z (Zpos (xI p)) == 2 * inject_Z (Zpos p) + 1)%Q.
Proof. unfold Qeq, Qplus, Qmult, inject_Z; cbn [Qnum Qden]. lia. Qed.

Lemma located_shr1 x e k : 0 <= shr_m k -> located x e k -> located x (e + 1) (shr_1 k) /\ 0 <= shr_m (shr_1 k) /\
  shr_m (shr_1 k) = shr_m k / 2.
Proof.
  destruct k as [m r s]. cbn [shr_m]. intros Hm H. pose proof (pw_pos e) as P. pose proof (pw_succ e) as S1.
  set (u := pw e) in *. set (v := pw (e + 1)) in *.
  destruct m as [|[p|p|]|p]; [| | | |lia]; cbn [shr_1]; cbn [shr_m]; (split; [|split; [lia|]]); cbn [located] in *;
    fold u in H; fold v.
  - change (inject_Z 0) with 0%Q in *. destruct r, s; cbn [orb]; lra.
  - reflexivity.
  - set (K := inject_Z (Zpos p)) in *.
    assert (E : (K * v == 2 * (K * u))%Q) by (rewrite S1; ring).
    assert (F : (inject_Z (Zpos (xI p)) * u == 2 * (K * u) + u)%Q) by (rewrite inj_double1; fold K; ring).
    set (a := (K * v)%Q) in *. set (b := (K * u)%Q) in *. set (c := (inject_Z (Zpos (xI p)) * u)%Q) in *.
    clearbody a b c u v. destruct r, s; cbn [orb]; lra.
  - rewrite Pos2Z.inj_xI. apply (Z.div_unique_pos _ _ _ 1); lia.
  - set (K := inject_Z (Zpos p)) in *.
    assert (E : (K * v == 2 * (K * u))%Q) by (rewrite S1; ring).
    assert (F : (inject_Z (Zpos (xO p)) * u == 2 * (K * u))%Q) by (rewrite inj_double; fold K; ring).
    set (a := (K * v)%Q) in *. set (b := (K * u)%Q) in *. set (c := (inject_Z (Zpos (xO p)) * u)%Q) in *.
    clearbody a b c u v. destruct r, s; cbn [orb]; lra.
  - rewrite Pos2Z.inj_xO. apply (Z.div_unique_pos _ _ _ 0); lia.
  - change (inject_Z 0) with 0%Q in *. change (inject_Z 1) with 1%Q in *. destruct r, s; cbn [orb]; lra.
  - reflexivity.
Qed.

Lemma located_shr x n : forall e k, 0 <= shr_m k -> located x e k ->
  located x (e + Z.of_nat n) (Nat.iter n shr_1 k) /\ shr_m (Nat.iter n shr_1 k) = shr_m k / 2 ^ Z.of_nat n.
Proof.
  induction n as [|n IH]; intros e k Hm H.
  - cbn [Nat.iter nat_rect Z.of_nat]. change (2 ^ 0) with 1. rewrite Z.add_0_r, Z.div_1_r. now split.
  - rewrite iter_S. destruct (located_shr1 x e k Hm H) as (H1 & H2 & H3).
    destruct (IH (e + 1) (shr_1 k) H2 H1) as (H4 & H5). split.
    + replace (e + Z.of_nat (S n)) with (e + 1 + Z.of_nat n) by lia. exact H4.
    + rewrite H5, H3, Z.div_div by (try apply Z.pow_pos_nonneg; lia). f_equal.
      rewrite Nat2Z.inj_succ, Z.pow_succ_r by lia. reflexivity.
Qed.

(** ** The first shift *)
Definition dg (m : Z) : Z := Zdigits2 m.
Lemma dg_bounds m : 0 <= m -> m < 2 ^ dg m /\ (0 < m -> 0 < dg m /\ 2 ^ (dg m - 1) <= m).
Proof.
  intros H. destruct m as [|p|p]; [split; [reflexivity|lia]| |lia]. unfold dg. cbn [Zdigits2].
  split; [apply digits_high|]. intros _. split; [lia|apply digits_low].
Qed.
Lemma dg_unique m d : 2 ^ (d - 1) <= m < 2 ^ d -> 0 < d -> dg m = d.
Proof.
  intros [H1 H2] Hd. assert (Hm : 0 < m) by (pose proof (Z.pow_pos_nonneg 2 (d - 1)); lia).
  destruct (dg_bounds m) as [A B]; [lia|]. destruct (B Hm) as [B1 B2].
  assert (d - 1 < dg m) by (apply (Z.pow_lt_mono_r_iff 2); lia).
  assert (dg m - 1 < d) by (apply (Z.pow_lt_mono_r_iff 2); lia). lia.
Qed.

Definition fx (d : Z) : Z := Z.max (d - 53) (-1074).
Lemma fexp_fx d : fexp prec emax d = fx d.
Proof. reflexivity. Qed.

Lemma first_shift x m e l : 0 <= m -> located x e (shr_record_of_loc m l) -> e <= fx (dg m + e) ->
  exists k, shr_fexp prec emax m e l = (k, fx (dg m + e)) /\ located x (fx (dg m + e)) k /\
    0 <= shr_m k < 2 ^ 53 /\ (2 ^ 52 <= shr_m k \/ fx (dg m + e) = -1074).
Proof.
  intros Hm Hl He. unfold shr_fexp. rewrite fexp_fx. fold (dg m). set (e1 := fx (dg m + e)) in *.
  set (k0 := shr_record_of_loc m l) in *.
  assert (K0 : shr_m k0 = m) by (subst k0; destruct l as [|[]]; reflexivity).
  assert (X : exists n, shr k0 e (e1 - e) = (Nat.iter n shr_1 k0, e1) /\ Z.of_nat n = e1 - e).
  { destruct (e1 - e) as [|p|p] eqn:E; [|exists (Pos.to_nat p)|lia].
    - exists 0%nat. cbn. split; [f_equal; lia|lia].
    - cbn [shr]. rewrite iter_pos_nat. split; [f_equal; lia|lia]. }
  destruct X as (n & -> & Hn). destruct (located_shr x n e k0) as (L & S1); [lia|assumption|].
  rewrite Hn in L. replace (e + (e1 - e)) with e1 in L by lia.
  exists (Nat.iter n shr_1 k0). split; [reflexivity|]. split; [assumption|]. rewrite S1, K0, Hn.
  destruct (dg_bounds m Hm) as [B1 B2]. assert (P : 0 < 2 ^ (e1 - e)) by (apply Z.pow_pos_nonneg; lia).
  assert (D1 : dg m <= 53 + (e1 - e)) by (unfold e1, fx; lia).
  split; [split|].
  - apply Z.div_pos; lia.
  - apply Z.div_lt_upper_bound; [assumption|]. rewrite <- Z.pow_add_r by lia.
    apply Z.lt_le_trans with (2 ^ dg m); [assumption|]. apply Z.pow_le_mono_r; lia.
  - destruct (Z.eq_dec e1 (-1074)) as [E|E]; [now right|left].
    assert (D2 : e1 = dg m + e - 53) by (unfold e1, fx in *; lia).
    assert (0 < m). { destruct m as [|p|p]; [|lia|lia]. cbn in D2. lia. }
    destruct (B2 H) as [B3 B4]. apply Z.div_le_lower_bound; [assumption|]. rewrite <- Z.pow_add_r by lia.
    replace (e1 - e + 52) with (dg m - 1) by lia. assumption.
Qed.

(** ** Rounding *)
Definition near (k : shr_record) : Z := round_nearest_even (shr_m k) (loc_of_shr_record k).

Lemma Qabs_cases y : (0 <= y /\ Qabs y == y)%Q \/ (y <= 0 /\ Qabs y == - y)%Q.
Proof. destruct (Qlt_le_dec y 0) as [H|H]; [right; split; [lra|apply Qabs_neg; lra]|left; split; [assumption|now apply Qabs_pos]]. Qed.

Lemma inj_succ m : (inject_Z (m + 1) == inject_Z m + 1)%Q.
Proof. now rewrite inject_Z_plus. Qed.

Lemma near_half x e k : located x e k ->
  (Qabs (inject_Z (near k) * pw e - x) <= (1#2) * pw e)%Q /\
  ((Qabs (inject_Z (near k) * pw e - x) == (1#2) * pw e)%Q -> Z.even (near k) = true) /\
  (near k = shr_m k \/ near k = shr_m k + 1 /\ (inject_Z (shr_m k) * pw e + (1#2) * pw e <= x)%Q).
Proof.
  destruct k as [m r s]. unfold near. cbn [shr_m loc_of_shr_record]. intros H. pose proof (pw_pos e) as P.
  assert (F : (inject_Z (m + 1) * pw e == inject_Z m * pw e + pw e)%Q) by (rewrite inj_succ; ring).
  cbn [located] in H. set (u := pw e) in *. set (b := (inject_Z m * u)%Q) in *. set (c := (inject_Z (m + 1) * u)%Q) in *.
  destruct r, s; cbn [round_nearest_even].
  - fold c. clearbody b c u. destruct (Qabs_cases (c - x)) as [[A B]|[A B]]; rewrite B; (split; [lra|split; [intros; exfalso; lra|right; split; [reflexivity|lra]]]).
  - destruct (Z.even m) eqn:Ev.
    + fold b. clearbody b c u. destruct (Qabs_cases (b - x)) as [[A B]|[A B]]; rewrite B; (split; [lra|split; [auto|now left]]).
    + fold c. assert (Z.even (m + 1) = true) by (rewrite Z.add_1_r, Z.even_succ, <- Z.negb_even, Ev; reflexivity).
      clearbody b c u. destruct (Qabs_cases (c - x)) as [[A B]|[A B]]; rewrite B; (split; [lra|split; [auto|right; split; [reflexivity|lra]]]).
  - fold b. clearbody b c u. destruct (Qabs_cases (b - x)) as [[A B]|[A B]]; rewrite B; (split; [lra|split; [intros; exfalso; lra|now left]]).
  - fold b. clearbody b c u. destruct (Qabs_cases (b - x)) as [[A B]|[A B]]; rewrite B; (split; [lra|split; [intros; exfalso; lra|now left]]).
Qed.

Lemma near_best x e k j : located x e k ->
  (Qabs (inject_Z (near k) * pw e - x) <= Qabs (inject_Z j * pw e - x))%Q /\
  ((Qabs (inject_Z (near k) * pw e - x) == Qabs (inject_Z j * pw e - x))%Q -> j = near k \/ Z.even (near k) = true).
Proof.
  intros H. destruct (near_half x e k H) as (H1 & H2 & _). pose proof (pw_pos e) as P. set (M := near k) in *. set (u := pw e) in *.
  destruct (Z.eq_dec j M) as [->|N]; [split; [apply Qle_refl|now left]|].
  assert (G : (u <= inject_Z j * u - inject_Z M * u \/ u <= inject_Z M * u - inject_Z j * u)%Q).
  { assert (C : j <= M - 1 \/ M + 1 <= j) by lia. destruct C as [C|C]; rewrite Zle_Qle in C.
    - right. assert (Y : (inject_Z j * u <= inject_Z (M - 1) * u)%Q) by (apply Qmult_le_compat_r; [assumption|lra]).
      assert (Z1 : (inject_Z (M - 1) * u == inject_Z M * u - u)%Q) by (unfold Z.sub; rewrite inject_Z_plus; change (inject_Z (-(1))) with (-1)%Q; ring).
      lra.
    - left. assert (Y : (inject_Z (M + 1) * u <= inject_Z j * u)%Q) by (apply Qmult_le_compat_r; [assumption|lra]).
      rewrite inj_succ in Y. assert (Z1 : ((inject_Z M + 1) * u == inject_Z M * u + u)%Q) by ring. lra. }
  set (a := (inject_Z M * u)%Q) in *. set (b := (inject_Z j * u)%Q) in *. clearbody a b u.
  destruct (Qabs_cases (a - x)) as [[A A']|[A A']]; destruct (Qabs_cases (b - x)) as [[B B']|[B B']];
    rewrite A' in *; rewrite B' in *; (split; [lra|intros; right; apply H2; lra]).
Qed.

(** ** The second shift *)
Lemma second_shift M e1 : 0 <= M <= 2 ^ 53 -> -1074 <= e1 -> (2 ^ 52 <= M \/ e1 = -1074) ->
  exists k e2, shr_fexp prec emax M e1 loc_Exact = (k, e2) /\ (inject_Z (shr_m k) * pw e2 == inject_Z M * pw e1)%Q /\
    ((M < 2 ^ 53 /\ shr_m k = M /\ e2 = e1) \/ (M = 2 ^ 53 /\ shr_m k = 2 ^ 52 /\ e2 = e1 + 1)).
Proof.
  intros HM He Hc. destruct (Z.eq_dec M (2 ^ 53)) as [->|N].
  - exists (Build_shr_record (2 ^ 52) false false), (e1 + 1). unfold shr_fexp. rewrite fexp_fx.
    change (Zdigits2 (2 ^ 53)) with 54. assert (E : fx (54 + e1) - e1 = 1) by (unfold fx; lia). rewrite E.
    split; [reflexivity|]. split; [|right; repeat split].
    rewrite pw_succ. cbn [shr_m]. rewrite (pw_Z 53), (pw_Z 52) by lia. change 53 with (52 + 1) at 1. rewrite pw_succ. ring.
  - exists (Build_shr_record M false false), e1. unfold shr_fexp. rewrite fexp_fx. fold (dg M).
    assert (E : fx (dg M + e1) - e1 = 0).
    { destruct Hc as [Hc|Hc].
      - assert (D : dg M = 53) by (apply dg_unique; [change (53 - 1) with 52|]; lia). rewrite D. unfold fx. lia.
      - subst e1. assert (D : dg M <= 53).
        { destruct (Z.eq_dec M 0) as [->|NM]; [cbn; lia|]. destruct (dg_bounds M) as [_ B]; [lia|]. destruct (B ltac:(lia)) as [_ B2].
          assert (dg M - 1 < 53); [|lia]. apply (Z.pow_lt_mono_r_iff 2); lia. }
        unfold fx. lia. }
    rewrite E. split; [reflexivity|]. split; [reflexivity|]. left. repeat split. lia.
Qed.

(** ** Floats are multiples, or smaller *)
Lemma valid_finite s m e : float64 (S754_finite s m e) -> Zpos m < 2 ^ 53 /\ -1074 <= e <= 971.
Proof.
  unfold float64. cbn [valid_binary]. unfold bounded, canonical_mantissa. intros H. apply andb_prop in H as [H1 H2].
  apply Zeq_bool_eq in H1. change (fexp 53 1024) with fx in H1. apply Zle_bool_imp_le in H2. change (1024 - 53) with 971 in H2.
  pose proof (digits_high m) as A. split; [|unfold fx in H1; lia].
  apply Z.lt_le_trans with (1 := A). apply Z.pow_le_mono_r; [lia|]. unfold fx in H1. lia.
Qed.

Lemma float_multiple x e1 m1 g : (0 <= x)%Q -> (inject_Z m1 * pw e1 <= x)%Q -> (2 ^ 52 <= m1 \/ e1 = -1074) ->
  float64 g -> finite g -> exists j,
    (Qabs (inject_Z j * pw e1 - x) <= Qabs (qval g - x))%Q /\
    ((Qabs (inject_Z j * pw e1 - x) == Qabs (qval g - x))%Q -> (qval g == inject_Z j * pw e1)%Q).
Proof.
  intros Hx Hm Hc Hv Hf. pose proof (pw_pos e1) as P.
  destruct g as [s|s| |s n k]; try destruct Hf.
  - exists 0. change (inject_Z 0) with 0%Q. cbn [qval].
    assert (E : (0 * pw e1 - x == 0 - x)%Q) by ring. rewrite E. split; [apply Qle_refl|]. intros _. ring.
  - destruct (valid_finite _ _ _ Hv) as (Hn & Hk). cbn [qval]. fold (pw k). pose proof (pw_pos k) as Pk. destruct s.
    + exists 0. change (inject_Z 0) with 0%Q. assert (E : (0 * pw e1 == 0)%Q) by ring.
      assert (N : (inject_Z (Zneg n) * pw k < 0)%Q).
      { change (Zneg n) with (- Zpos n). rewrite inject_Z_opp. assert (0 < inject_Z (Zpos n) * pw k)%Q by (apply Qmult_lt_0_compat; [reflexivity|assumption]). lra. }
      set (q := (inject_Z (Zneg n) * pw k)%Q) in *. set (z := (0 * pw e1)%Q) in *. clearbody q z.
      assert (A : (Qabs (z - x) == x)%Q) by (rewrite E; rewrite Qabs_neg by lra; ring).
      assert (B : (Qabs (q - x) == x - q)%Q) by (rewrite Qabs_neg by lra; ring).
      rewrite A, B. split; [lra|]. intros; exfalso; lra.
    + destruct (Z.le_gt_cases e1 k) as [L|G].
      * exists (Zpos n * 2 ^ (k - e1)).
        assert (E : (inject_Z (Zpos n * 2 ^ (k - e1)) * pw e1 == inject_Z (Zpos n) * pw k)%Q).
        { rewrite inject_Z_mult, pw_Z, <- Qmult_assoc, <- pw_add by lia. now replace (k - e1 + e1) with k by lia. }
        rewrite E. split; [apply Qle_refl|]. reflexivity.
      * assert (C : 2 ^ 52 <= m1) by (destruct Hc; [assumption|lia]). exists (2 ^ 52).
        assert (Q1 : (inject_Z (2 ^ 52) * pw e1 <= x)%Q).
        { apply Qle_trans with (2 := Hm). apply Qmult_le_compat_r; [now rewrite <- Zle_Qle|lra]. }
        assert (Q2 : (inject_Z (Zpos n) * pw k < inject_Z (2 ^ 52) * pw e1)%Q).
        { apply Qlt_le_trans with (inject_Z (2 ^ 53) * pw k)%Q.
          - apply Qmult_lt_r; [assumption|]. now rewrite <- Zlt_Qlt.
          - rewrite !pw_Z by lia. rewrite <- !pw_add. apply pw_le. lia. }
        set (q := (inject_Z (Zpos n) * pw k)%Q) in *. set (z := (inject_Z (2 ^ 52) * pw e1)%Q) in *. clearbody q z.
        assert (A : (Qabs (z - x) == x - z)%Q) by (rewrite Qabs_neg by lra; ring).
        assert (B : (Qabs (q - x) == x - q)%Q) by (rewrite Qabs_neg by lra; ring).
        rewrite A, B. split; [lra|]. intros; exfalso; lra.
Qed.

Lemma located_low x e k : 0 <= shr_m k -> located x e k -> (inject_Z (shr_m k) * pw e <= x)%Q /\ (x < inject_Z (shr_m k) * pw e + pw e)%Q.
Proof.
  destruct k as [m r s]. cbn [shr_m located]. intros _ H. pose proof (pw_pos e) as P.
  set (u := pw e) in *. set (b := (inject_Z m * u)%Q) in *. clearbody b u. destruct r, s; lra.
Qed.

Lemma limit_pw : (limit == (inject_Z (2 ^ 53 - 1) + (1#2)) * pw 971)%Q.
Proof. unfold limit. rewrite <- (pw_Z 971) by lia. vm_compute. reflexivity. Qed.

(** ** The result, up to sign *)
Theorem round_aux_spec (s : bool) x m e l : (0 <= x)%Q -> 0 <= m -> located x e (shr_record_of_loc m l) -> e <= fx (dg m + e) ->
  let f := binary_round_aux prec emax s m e l in
  float64 f /\ negative f = s /\
  ((x < limit)%Q -> exists y, finite f /\ (0 <= y)%Q /\ (qval f == if s then - y else y)%Q /\
     forall g, float64 g -> finite g ->
       (Qabs (y - x) <= Qabs (qval g - x))%Q /\ ((Qabs (y - x) == Qabs (qval g - x))%Q -> (qval g == y)%Q \/ even f)) /\
  ((limit <= x)%Q -> f = S754_infinity s).
Proof.
  intros Hx Hm Hl He f. destruct (first_shift x m e l Hm Hl He) as (k & E1 & L1 & B1 & C1).
  set (e1 := fx (dg m + e)) in *. assert (He1 : -1074 <= e1) by (unfold e1, fx; lia).
  destruct (near_half x e1 k L1) as (N1 & N2 & N3). set (M := near k) in *.
  destruct (located_low x e1 k (proj1 B1) L1) as [Lo Hi].
  assert (BM : 0 <= M <= 2 ^ 53) by (destruct N3 as [->|[-> _]]; lia).
  assert (CM : 2 ^ 52 <= M \/ e1 = -1074) by (destruct C1 as [C1|C1]; [left; destruct N3 as [->|[-> _]]; lia|now right]).
  destruct (second_shift M e1 BM He1 CM) as (k2 & e2 & E2 & V2 & D2).
  assert (Ef : f = match shr_m k2 with
    | Z0 => S754_zero s
    | Zpos m => if Zle_bool e2 971 then S754_finite s m e2 else S754_infinity s
    | _ => S754_nan end).
  { unfold f, binary_round_aux. rewrite E1. change (round_nearest_even (shr_m k) (loc_of_shr_record k)) with M.
    rewrite E2. reflexivity. }
  pose proof (pw_pos e1) as P.
  (* the limit *)
  assert (OV : e2 <= 971 <-> (x < limit)%Q).
  { rewrite limit_pw. split.
    - intros Le. destruct (Z.eq_dec e1 971) as [Q|Q].
      + destruct D2 as [(D2 & _ & _)|(_ & _ & D2)]; [|lia]. rewrite Q in *.
        destruct (Z.eq_dec M (2 ^ 53 - 1)) as [EM|EM].
        * assert (Odd : Z.even M = false) by (rewrite EM; reflexivity).
          assert (NE : ~ (Qabs (inject_Z M * pw 971 - x) == (1#2) * pw 971)%Q) by (intros X; apply N2 in X; congruence).
          assert (F : ((inject_Z (2 ^ 53 - 1) + (1 # 2)) * pw 971 == inject_Z M * pw 971 + (1#2) * pw 971)%Q) by (rewrite EM; ring).
          rewrite F. set (a := (inject_Z M * pw 971)%Q) in *. set (u := pw 971) in *. clearbody a u.
          destruct (Qabs_cases (a - x)) as [[A A']|[A A']]; rewrite A' in *; lra.
        * assert (LM : (inject_Z M <= inject_Z (2 ^ 53 - 1) - 1)%Q).
          { change (inject_Z (2 ^ 53 - 1) - 1)%Q with (inject_Z (2 ^ 53 - 1) + inject_Z (-1))%Q. rewrite <- inject_Z_plus, <- Zle_Qle. lia. }
          assert (LM2 : (inject_Z M * pw 971 <= (inject_Z (2 ^ 53 - 1) - 1) * pw 971)%Q) by (apply Qmult_le_compat_r; [assumption|lra]).
          assert (F : ((inject_Z (2 ^ 53 - 1) + (1 # 2)) * pw 971 == (inject_Z (2 ^ 53 - 1) - 1) * pw 971 + (3#2) * pw 971)%Q) by ring.
          rewrite F. set (a := (inject_Z M * pw 971)%Q) in *. set (c := ((inject_Z (2 ^ 53 - 1) - 1) * pw 971)%Q) in *. set (u := pw 971) in *.
          clearbody a c u. destruct (Qabs_cases (a - x)) as [[A A']|[A A']]; rewrite A' in *; lra.
      + assert (Q1 : e1 <= 970) by (destruct D2 as [(_ & _ & D2)|(_ & _ & D2)]; lia).
        assert (X1 : (x < inject_Z (2 ^ 53) * pw e1)%Q).
        { apply Qlt_le_trans with (1 := Hi). assert (F : (inject_Z (shr_m k) * pw e1 + pw e1 == inject_Z (shr_m k + 1) * pw e1)%Q) by (rewrite inj_succ; ring).
          rewrite F. apply Qmult_le_compat_r; [rewrite <- Zle_Qle; lia|lra]. }
        apply Qlt_le_trans with (1 := X1). apply Qle_trans with (inject_Z (2 ^ 53) * pw 970)%Q.
        * setoid_rewrite Qmult_comm. apply Qmult_le_compat_r; [now apply pw_le|]. rewrite <- (Zle_Qle 0). lia.
        * change 971 with (970 + 1). rewrite pw_succ. pose proof (pw_pos 970) as P0.
          assert (F : ((inject_Z (2 ^ 53 - 1) + (1 # 2)) * (2 * pw 970) == inject_Z (2 ^ 54 - 1) * pw 970)%Q).
          { assert (F0 : (inject_Z (2 ^ 54 - 1) == 2 * (inject_Z (2 ^ 53 - 1) + (1#2)))%Q) by (vm_compute; reflexivity). rewrite F0. ring. }
          rewrite F. apply Qmult_le_compat_r; [rewrite <- Zle_Qle; lia|lra].
    - intros Lt. apply Z.nlt_ge. intros Gt.
      apply (Qlt_irrefl x). apply Qlt_le_trans with (1 := Lt).
      destruct (Z.le_gt_cases 972 e1) as [Q|Q].
      + assert (C2 : 2 ^ 52 <= shr_m k) by (destruct C1 as [C1|C1]; [assumption|lia]).
        apply Qle_trans with (2 := Lo). apply Qle_trans with (inject_Z (2 ^ 52) * pw 972)%Q.
        * change 972 with (971 + 1). rewrite pw_succ. pose proof (pw_pos 971) as P0.
          assert (F : (inject_Z (2 ^ 52) * (2 * pw 971) == inject_Z (2 ^ 53) * pw 971)%Q).
          { assert (F0 : (inject_Z (2 ^ 53) == 2 * inject_Z (2 ^ 52))%Q) by (vm_compute; reflexivity). rewrite F0. ring. }
          rewrite F. apply Qmult_le_compat_r; [|lra]. vm_compute. discriminate.
        * apply Qle_trans with (inject_Z (2 ^ 52) * pw e1)%Q.
          -- setoid_rewrite Qmult_comm. apply Qmult_le_compat_r; [now apply pw_le|]. vm_compute. discriminate.
          -- apply Qmult_le_compat_r; [now rewrite <- Zle_Qle|lra].
      + destruct D2 as [(_ & _ & D2)|(D3 & _ & D2)]; [lia|]. assert (Q2 : e1 = 971) by lia. rewrite Q2 in *.
        destruct N3 as [N3|[N3 N4]]; [lia|]. assert (K : shr_m k = 2 ^ 53 - 1) by lia. rewrite K in N4.
        assert (F : ((inject_Z (2 ^ 53 - 1) + (1 # 2)) * pw 971 == inject_Z (2 ^ 53 - 1) * pw 971 + (1#2) * pw 971)%Q) by ring.
        rewrite F. exact N4. }
  assert (K2 : 0 <= shr_m k2) by (destruct D2 as [(_ & -> & _)|(_ & -> & _)]; lia).
  assert (EV : Z.even M = true -> Z.even (shr_m k2) = true).
  { intros X. destruct D2 as [(_ & -> & _)|(_ & -> & _)]; [assumption|reflexivity]. }
  assert (FV : float64 f).
  { rewrite Ef. destruct (shr_m k2) as [|p|p] eqn:Ek; [reflexivity| |lia]. destruct (Zle_bool e2 971) eqn:Eb; [|reflexivity].
    unfold float64. cbn [valid_binary]. unfold bounded, canonical_mantissa. apply andb_true_intro. split; [|exact Eb].
    apply Zeq_is_eq_bool. change (fexp 53 1024) with fx. assert (DP : Zpos (digits2_pos p) = dg (Zpos p)) by reflexivity. rewrite DP. clear DP.
    destruct D2 as [(D3 & D4 & ->)|(_ & D4 & ->)].
    - rewrite D4. destruct CM as [CM|CM].
      + assert (D : dg M = 53) by (apply dg_unique; [change (53 - 1) with 52|]; lia). rewrite D. unfold fx. lia.
      + assert (D : dg M <= 53).
        { destruct (dg_bounds M) as [_ B]; [lia|]. destruct (B ltac:(lia)) as [_ B2].
          assert (dg M - 1 < 53); [|lia]. apply (Z.pow_lt_mono_r_iff 2); lia. }
        unfold fx. lia.
    - rewrite D4. change (dg (2 ^ 52)) with 53. unfold fx. lia. }
  split; [exact FV|]. split.
  { rewrite Ef. destruct (shr_m k2); [reflexivity| |lia]. now destruct (Zle_bool e2 971). }
  split.
  - intros Lt. apply OV in Lt. exists (inject_Z M * pw e1)%Q.
    assert (Fin : finite f /\ (qval f == if s then - (inject_Z (shr_m k2) * pw e2) else inject_Z (shr_m k2) * pw e2)%Q /\
                  (even f \/ Z.even M = false)).
    { rewrite Ef. destruct (shr_m k2) as [|p|p] eqn:Ek; [| |lia].
      - split; [exact I|]. split; [|now left]. change (inject_Z 0) with 0%Q. destruct s; cbn [qval]; ring.
      - apply Zle_is_le_bool in Lt. rewrite Lt. split; [exact I|]. split.
        + destruct s; cbn [qval]; fold (pw e2); [|reflexivity]. change (Zneg p) with (- Zpos p). rewrite inject_Z_opp. ring.
        + destruct (Z.even M); [left; now apply EV|now right]. }
    destruct Fin as (F1 & F2 & F3). split; [exact F1|]. split.
    { apply Qmult_le_0_compat; [rewrite <- (Zle_Qle 0); lia|lra]. }
    split; [rewrite F2; destruct s; rewrite V2; reflexivity|].
    intros g Hg Fg. destruct (float_multiple x e1 (shr_m k) g Hx Lo C1 Hg Fg) as (j & J1 & J2).
    destruct (near_best x e1 k j L1) as (B2 & B3). fold M in B2, B3.
    split; [eapply Qle_trans; eassumption|]. intros EQ.
    assert (J3 : (Qabs (inject_Z j * pw e1 - x) == Qabs (qval g - x))%Q).
    { apply Qle_antisym; [assumption|]. rewrite <- EQ. assumption. }
    assert (J4 : (Qabs (inject_Z M * pw e1 - x) == Qabs (inject_Z j * pw e1 - x))%Q) by (rewrite J3; assumption).
    destruct (B3 J4) as [->|Y]; [left; now apply J2|]. destruct F3 as [F3|F3]; [now right|congruence].
  - intros Le. assert (Gt : 971 < e2).
    { apply Z.nle_gt. intros X. apply OV in X. apply (Qlt_irrefl x). eapply Qlt_le_trans; eassumption. }
    rewrite Ef. destruct (shr_m k2) as [|p|p] eqn:Ek.
    + exfalso. destruct D2 as [(_ & D4 & D5)|(_ & D4 & _)]; [|discriminate]. subst M. destruct CM; lia.
    + destruct (Zle_bool e2 971) eqn:Eb; [|reflexivity]. apply Zle_bool_imp_le in Eb. lia.
    + lia.
Qed.

Lemma Qabs_swap a x : (Qabs (- a - - x) == Qabs (a - x))%Q.
Proof. rewrite <- (Qabs_opp (a - x)). apply Qabs_wd. ring. Qed.

Lemma qval_opp g : (qval (SFopp g) == - qval g)%Q.
Proof.
  destruct g as [s|s| |s m e]; cbn [SFopp qval]; try reflexivity. destruct s; cbn [negb]; [change (Zneg m) with (- Zpos m)|change (Zneg m) with (- Zpos m)];
    rewrite inject_Z_opp; ring.
Qed.

(** ** The result *)
Theorem round_aux_rounded (s : bool) x m e l : (0 <= x)%Q -> 0 <= m -> located x e (shr_record_of_loc m l) -> e <= fx (dg m + e) ->
  rounded (if s then - x else x)%Q (binary_round_aux prec emax s m e l).
Proof.
  intros Hx Hm Hl He. destruct (round_aux_spec s x m e l Hx Hm Hl He) as (V & S1 & Fi & In).
  set (f := binary_round_aux prec emax s m e l) in *. clearbody f.
  assert (AX : (Qabs (if s then - x else x) == x)%Q) by (destruct s; [rewrite Qabs_opp|]; now apply Qabs_pos).
  split; [exact V|]. rewrite S1.
  split; [destruct s; [reflexivity|intros; exfalso; lra]|]. split; [destruct s; [intros; exfalso; lra|reflexivity]|]. split.
  - rewrite AX. intros Lt. destruct (Fi Lt) as (y & F1 & Y0 & F2 & F3). split; [exact F1|]. intros g Hg Fg. destruct s.
    + destruct (F3 (SFopp g)) as [G1 G2]; [destruct g; exact Hg|destruct g; exact Fg|]. rewrite qval_opp in G1, G2.
      assert (A : (Qabs (qval f - - x) == Qabs (y - x))%Q) by (rewrite F2; apply Qabs_swap).
      assert (B : (Qabs (qval g - - x) == Qabs (- qval g - x))%Q).
      { rewrite <- (Qabs_swap (- qval g) x). apply Qabs_wd. ring. }
      rewrite A, B. split; [assumption|]. intros EQ. destruct (G2 EQ) as [X|X]; [left|now right]. rewrite F2, <- X. ring.
    + destruct (F3 g Hg Fg) as [G1 G2]. rewrite F2. split; [assumption|]. intros EQ. destruct (G2 EQ) as [X|X]; [left|now right]. assumption.
  - rewrite AX. intros Le. exists s. now apply In.
Qed.
