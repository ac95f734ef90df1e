(** asl_repr and asl_str give these texts. *)
From Verif Require Import Base Num Term Str QuoteSpec QuoteFacts NumRead WriteSpec ActSpec.
From Verif Require Import Names Lex LexSpec Parse RoundSpec.
From Coq Require Import Floats.SpecFloat Decimal DecimalFacts DecimalN.

Lemma uint_digit d : Forall (fun c => 48 <= c < 58)%N (uint_digits d).
Proof. induction d; cbn [uint_digits]; constructor; try assumption; lia. Qed.
Lemma nzhead_no_zero d : match nzhead d with D0 _ => False | _ => True end.
Proof. induction d; try exact I. exact IHd. Qed.
Lemma unorm_shape d : unorm d = D0 Nil \/ (unorm d <> Nil /\ match unorm d with D0 _ => False | _ => True end).
Proof. unfold unorm. pose proof (nzhead_no_zero d) as H. destruct (nzhead d); auto; right; split; try exact H; discriminate. Qed.
Lemma dec_shape n : dec_N n = [48%N] \/ exists c w, dec_N n = c :: w /\ c <> 48%N.
Proof.
  unfold dec_N. rewrite <- (Unsigned.of_to n), Unsigned.to_of. destruct (unorm_shape (N.to_uint n)) as [->|[H1 H2]]; [now left|]. right.
  destruct (unorm (N.to_uint n)); [now destruct H1|contradiction|..]; cbn [uint_digits]; eexists; eexists; (split; [reflexivity|discriminate]).
Qed.

Definition nval (w : pystr) : N := fold_left (fun a c => 10 * a + (c - 48))%N w 0%N.
Lemma nval_snoc w c : nval (w ++ [c]) = (10 * nval w + (c - 48))%N.
Proof. unfold nval. now rewrite fold_left_app. Qed.
Lemma digits_nval w : forall a, Forall (fun c => 48 <= c < 58)%N w -> digits_val w (Z.of_N a) = Z.of_N (fold_left (fun a c => 10 * a + (c - 48))%N w a).
Proof.
  induction w as [|c w IH]; intros a H; [reflexivity|]. inversion H; subst. cbn [digits_val fold_left]. rewrite <- IH by assumption. f_equal. lia.
Qed.
Lemma decimal_of w : Forall (fun c => 48 <= c < 58)%N w -> w <> [] -> (w = [48%N] \/ exists c w', w = c :: w' /\ c <> 48%N) ->
  decimal_text (nval w) w /\ (w = [48%N] \/ (0 < nval w)%N).
Proof.
  induction w as [|c w IH] using rev_ind; [congruence|]. intros D _ S. apply Forall_app in D as [D1 D2]. inversion D2; subst.
  rewrite nval_snoc. destruct w as [|c0 w0].
  - change (nval []) with 0%N. rewrite N.mul_0_r, N.add_0_l. cbn [app]. split; [replace [c] with [48 + (c - 48)]%N by (f_equal; lia); constructor; lia|].
    destruct S as [S|(x & y & S & Hx)]; [left; injection S as ->; reflexivity|]. right. injection S as -> <-. lia.
  - assert (S' : c0 <> 48%N). { destruct S as [S|(x & y & S & Hx)]; [destruct w0; discriminate|]. cbn in S. injection S as -> _. exact Hx. }
    destruct (IH D1) as [I1 [I2|I2]]; [discriminate|right; eauto|injection I2 as -> ->; congruence|].
    split; [|right; lia]. replace c with (48 + (c - 48))%N at 2 by lia. constructor; [assumption|lia|assumption].
Qed.
Lemma dec_decimal n : decimal_text n (dec_N n).
Proof.
  assert (E : nval (dec_N n) = n).
  { apply N2Z.inj. unfold nval. rewrite <- digits_nval by apply uint_digit. apply digits_dec. }
  rewrite <- E at 1. apply decimal_of; [apply uint_digit|apply dec_nonempty|apply dec_shape].
Qed.
Lemma dec_signed z : signed z (dec_Z z).
Proof.
  destruct z as [|p|p]; cbn [dec_Z].
  - change 0%Z with (Z.of_N 0). constructor. apply dec_decimal.
  - change (Z.pos p) with (Z.of_N (N.pos p)). constructor. apply dec_decimal.
  - change (Z.neg p) with (- Z.of_N (N.pos p))%Z. constructor; [lia|apply dec_decimal].
Qed.

Lemma whole_some f z : flt_int f = Some z -> whole_float f z.
Proof.
  destruct f as [s|s| |s m e]; cbn [flt_int]; try discriminate; [intros [= <-]; constructor|].
  assert (Es : (if s then Z.neg m else Z.pos m) = (if s then - Z.pos m else Z.pos m)%Z) by now destruct s. rewrite Es.
  destruct e as [|p|p].
  - intros H. apply Some_inj in H. subst z. now constructor.
  - intros H. apply Some_inj in H. subst z. now constructor.
  - destruct (_ =? 0)%Z eqn:E; [|discriminate]. intros H. apply Some_inj in H. subst z. apply Z.eqb_eq in E. apply wf_small; [lia|].
    change (- Z.neg p)%Z with (Z.pos p). assert (2 ^ Z.pos p <> 0)%Z by (apply Z.pow_nonzero; lia).
    rewrite Z.mul_comm. now apply Z_div_exact_full_2.
Qed.
Lemma whole_none f z : flt_int f = None -> ~ whole_float f z.
Proof.
  intros E H. destruct H as [s|s m e He|s m e z He Hz]; [discriminate E|destruct e; discriminate E || lia|].
  destruct e as [|p|p]; try lia. cbn [flt_int] in E. change (- Z.neg p)%Z with (Z.pos p) in Hz.
  assert (Es : (if s then Z.neg m else Z.pos m) = (if s then - Z.pos m else Z.pos m)%Z) by now destruct s. rewrite Es, Hz in E.
  rewrite Z.mod_mul in E by (apply Z.pow_nonzero; lia). discriminate E.
Qed.

Lemma hex1_lower n : (n < 16)%N -> lower_case (hex1 n).
Proof. intros H. constructor. unfold hex1. destruct (N.ltb_spec n 10); lia. Qed.
Lemma hexk_lower k : forall n, Forall lower_case (hexk k n).
Proof.
  induction k as [|k IH]; intros n; [constructor|]. cbn [hexk]. apply Forall_app. split; [apply IH|]. constructor; [|constructor].
  apply hex1_lower. apply N.mod_lt. lia.
Qed.

Lemma esc_escaped c : code_point c -> escaped c (esc_quotes (esc_char c)).
Proof.
  unfold code_point. intros H. unfold esc_char.
  assert (X : forall k, (c < 16 ^ N.of_nat k)%N -> esc_quotes (hexk k c) = hexk k c /\ hexnum k (hexk k c) c /\ Forall lower_case (hexk k c)).
  { intros k Hk. pose proof (hexk_num k c Hk) as Hn. split; [|split; [assumption|apply hexk_lower]].
    apply esc_quotes_plain. eapply hexnum_no_quote; eassumption. }
  destruct (N.eqb_spec c 92) as [->|N1]; [constructor|].
  destruct (N.eqb_spec c 9) as [->|N2]; [constructor|].
  destruct (N.eqb_spec c 10) as [->|N3]; [constructor|].
  destruct (N.eqb_spec c 13) as [->|N4]; [constructor|].
  destruct (N.leb_spec 32 c) as [L1|L1]; cbn [andb].
  - destruct (N.ltb_spec c 127) as [L2|L2].
    + cbn [esc_quotes]. destruct (N.eqb_spec c 34) as [->|N5]; [constructor|]. apply es_plain; lia.
    + destruct (N.ltb_spec c 256) as [L3|L3].
      * destruct (X 2%nat) as (E & A & B); [exact L3|]. cbn [esc_quotes]. rewrite E. cbn. apply es_x; auto; lia.
      * destruct (N.ltb_spec c 65536) as [L4|L4].
        -- destruct (X 4%nat) as (E & A & B); [exact L4|]. cbn [esc_quotes]. rewrite E. cbn. apply es_u; auto; lia.
        -- destruct (X 8%nat) as (E & A & B); [change (16 ^ N.of_nat 8)%N with 4294967296%N; lia|]. cbn [esc_quotes]. rewrite E. cbn. apply es_U; auto; lia.
  - destruct (N.ltb_spec c 256) as [L3|L3]; [|lia].
    destruct (X 2%nat) as (E & A & B); [exact L3|]. cbn [esc_quotes]. rewrite E. cbn. apply es_x; auto; lia.
Qed.
Lemma text_quoted s : Forall code_point s -> quoted_text s (esc_quotes (unicode_escape s)).
Proof.
  induction 1 as [|c s Hc Hs IH]; [constructor|]. cbn [unicode_escape]. rewrite esc_quotes_app. constructor; [now apply esc_escaped|exact IH].
Qed.

Lemma joins_listed l : listed l (joins (s2p ", ") l).
Proof.
  induction l as [|x l IH]; [constructor|]. destruct l as [|y l]; [constructor|].
  change (joins (s2p ", ") (x :: y :: l)) with (x ++ s2p ", " ++ joins (s2p ", ") (y :: l)). constructor; [discriminate|exact IH].
Qed.

Lemma all_Forall (P : term -> Prop) l : fold_right and True (map P l) <-> Forall P l.
Proof.
  induction l as [|x l IH]; cbn; [split; constructor|]. rewrite IH. split; [intros [? ?]; now constructor|]. intros H. inversion H; auto.
Qed.

Section WithPy.
Context {PY : Py}.

Lemma num_written x : plain_written (TNum x) (num_asl x).
Proof.
  destruct x as [z|f]; cbn [num_asl]; [constructor; apply dec_signed|].
  destruct (flt_int f) eqn:E; [eapply pw_whole; [apply whole_some; exact E|apply dec_signed]|]. constructor. intros z. now apply whole_none.
Qed.
Lemma bracketed_map p q (l : list term) : 
  bracketed p q (map asl_repr l) (match l with [] => [] | _ => s2p p ++ joins (s2p ", ") (map asl_repr l) ++ s2p q end).
Proof. destruct l as [|x l]; [constructor|]. constructor; [discriminate|apply joins_listed]. Qed.

Theorem repr_written t : texts t -> written t (asl_repr t).
Proof.
  induction t using term_ind'; intros T.
  - constructor. destruct b; constructor.
  - constructor. apply num_written.
  - cbn [asl_repr]. change (str_repr s) with (s2p """" ++ esc_quotes (unicode_escape s) ++ s2p """"). apply wr_str. now apply text_quoted.
  - apply wr_var.
  - apply wr_wild.
  - cbn [asl_repr]. destruct op; (eapply wr_un; [|auto]); cbn; auto.
  - destruct T as [T1 T2]. cbn [asl_repr]. destruct op as [[]| | |[]| | | |]; (eapply wr_bin; [|auto|auto]); cbn; tauto.
  - destruct T as [T1 T2]. apply all_Forall in T1, T2. cbn [asl_repr]. eapply wr_lit; [| |apply bracketed_map|apply bracketed_map].
    + clear T2. induction args as [|x args IH]; [constructor|]. inversion H; inversion T1; subst. cbn [map]. constructor; auto.
    + clear T1. induction annots as [|x annots IH]; [constructor|]. inversion H0; inversion T2; subst. cbn [map]. constructor; auto.
  - cbn [texts] in T. apply all_Forall in T. cbn [asl_repr]. eapply wr_list; [|apply joins_listed].
    induction ts as [|x ts IH]; [constructor|]. inversion H; inversion T; subst. cbn [map]. constructor; auto.
  - destruct T as [T1 T2]. cbn [asl_repr]. apply wr_pair; auto.
Qed.
Theorem str_printed t : texts t -> printed t (asl_str t).
Proof.
  induction t using term_ind'; intros T; try (apply pr_other; [exact I|now apply repr_written]).
  - constructor. destruct b; constructor.
  - constructor. apply num_written.
  - apply pr_str.
  - cbn [texts] in T. apply all_Forall in T. cbn [asl_str]. eapply pr_list; [|apply joins_listed].
    induction ts as [|x ts IH]; [constructor|]. inversion H; inversion T; subst. cbn [map]. constructor; auto.
Qed.
End WithPy.
