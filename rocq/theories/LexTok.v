(** Which token begins a text. *)
From Verif Require Import Base Num Term Str Names Lex LexSpec RegexFacts LexFacts LexCor Quote QuoteSpec QuoteFacts.

Local Notation len := (@List.length N).

Lemma picks_first s k w r : picks s k w r -> first_token tokens s = Some (k, r).
Proof.
  intros H. destruct (first_token tokens s) as [[k' r']|] eqn:E.
  - apply token_picks in E as (w' & H'). now destruct (picks_unique _ _ _ _ _ _ _ H H') as (-> & _ & ->).
  - apply token_illegal in E. destruct (picks_legal _ _ _ _ H E).
Qed.

(** The characters with which a lexeme can begin. *)
Definition heads (k : kind) (c : N) : bool :=
  match k with
  | KSpace => is_space c
  | KComment => (c =? 47) || (c =? 35)
  | KFunctor => is_lower c || (c =? 46) || (c =? 126)
  | KNumeric => is_digit c || (c =? 46)
  | KVariable => is_upper c || (c =? 95)
  | KString => c =? 34
  | _ => match text k with Some t => match s2p t with d :: _ => c =? d | [] => false end | None => false end
  end%N.

Lemma dotted_head w : dotted w -> exists c v, w = c :: v /\ (is_lower c || (c =? 46)%N)%bool = true.
Proof.
  induction 1 as [w [c v Hc _]|w _|u w _ (c & v & -> & Hc) _].
  - exists c, v. rewrite Hc. now split.
  - exists 46%N, w. now split.
  - exists c, (v ++ 46%N :: w). now split.
Qed.

Lemma shape_head k w r : shape k w r -> exists c v, w = c :: v /\ heads k c = true.
Proof.
  intros H. pose proof (shape_nonempty _ _ _ H) as Hn.
  destruct H as [w r H1 H2|w r H|w r H|w r H1 H2|w r H1 H2|m e r H1 H2|u c w r H1 H2 H3|u r H1 H2|b r H
      |k t r H].
  - destruct w as [|c w]; [congruence|]. exists c, w. split; [reflexivity|]. now apply all_cons in H2 as [H2 _].
  - eexists _, _. split; reflexivity.
  - eexists _, _. split; reflexivity.
  - destruct (dotted_head _ H1) as (c & v & -> & Hc). exists c, v. split; [reflexivity|]. cbn. now rewrite Hc.
  - exists 126%N, w. split; reflexivity.
  - destruct H1 as [d Hd Ha|d f Ha Hd Hf].
    + destruct d as [|c d]; [congruence|]. exists c, (d ++ e). split; [reflexivity|].
      apply all_cons in Ha as [Hc _]. cbn. now rewrite Hc.
    + destruct d as [|c d]; [exists 46%N, (f ++ e); split; reflexivity|].
      exists c, ((d ++ 46%N :: f) ++ e). split; [reflexivity|]. apply all_cons in Ha as [Hc _]. cbn. now rewrite Hc.
  - destruct u as [|x u]; [exists c, w; split; [reflexivity|]; cbn; now rewrite H2|].
    exists x, (u ++ c :: w). split; [reflexivity|]. apply all_cons in H1 as [Hx _]. apply N.eqb_eq in Hx as <-. reflexivity.
  - destruct u as [|x u]; [congruence|]. exists x, u. split; [reflexivity|].
    apply all_cons in H2 as [Hx _]. apply N.eqb_eq in Hx as <-. reflexivity.
  - exists 34%N, (b ++ [34%N]). split; reflexivity.
  - unfold fixed_lexemes in H. cbn [In] in H.
    repeat (destruct H as [H|H]; [injection H as <- <-; eexists _, _; split; reflexivity|]). destruct H.
Qed.

Lemma absent_head k c s : heads k c = false -> absent k (c :: s).
Proof.
  intros H w r E Sh. apply shape_head in Sh as (d & v & -> & Hd). injection E as -> _. congruence.
Qed.

(** ** Strings *)

Lemma string_first b r : string_body b -> first_token tokens (34%N :: b ++ 34%N :: r) = Some (KString, r).
Proof.
  intros H. apply picks_first with (w := 34%N :: b ++ [34%N]). unfold picks.
  split; [cbn; now rewrite <- app_assoc|]. split; [now constructor|]. split.
  - intros w' r' E Sh.
    assert (M : mt re_string (34%N :: b ++ 34%N :: r) r).
    { apply describes_string. exists (34%N :: b ++ [34%N]). split; [cbn; now rewrite <- app_assoc|now constructor]. }
    assert (M' : mt re_string (34%N :: b ++ 34%N :: r) r') by (apply describes_string; exists w'; now split).
    destruct (re_match re_string (34%N :: b ++ 34%N :: r)) as [x|] eqn:Ex.
    + pose proof (longest_string _ _ _ Ex M) as A. pose proof (longest_string _ _ _ Ex M') as B.
      apply match_some in Ex.
      assert (U : x = r /\ x = r').
      { apply describes_string in Ex as (wx & Ewx & Shx).
        assert (forall w1 r1 w2 r2, shape KString w1 r1 -> shape KString w2 r2 -> w1 ++ r1 = w2 ++ r2 -> r1 = r2).
        { clear. intros w1 r1 w2 r2 H1 H2 E.
          assert (X : forall w r, shape KString w r -> exists b, string_body b /\ w = 34%N :: b ++ [34%N]).
          { intros w r Hs. inversion Hs as [| | | | | | | |b ? Hb|? t ? A]; subst; [now exists b|].
            apply in_text in A. discriminate. }
          apply X in H1 as (b1 & B1 & ->). apply X in H2 as (b2 & B2 & ->).
          cbn in E. injection E as E. rewrite <- !app_assoc in E. cbn in E. clear X.
          revert b2 B2 E. induction B1 as [|c b Hc Hq _ IH|c b Hc _ IH]; intros b2 B2 E.
          - destruct B2 as [|c b Hc Hq _|c b Hc _]; cbn in E; injection E; congruence.
          - destruct B2 as [|c2 b2 Hc2 Hq2 B2|c2 b2 Hc2 B2]; cbn in E; injection E; intros; subst; try congruence.
            now apply (IH b2).
          - destruct B2 as [|c2 b2 Hc2 Hq2 B2|c2 b2 Hc2 B2]; cbn in E; injection E; intros; subst; try congruence.
            now apply (IH b2). }
        split.
        - eapply H0; [exact Shx|apply (sh_string b r H)|]. rewrite <- Ewx. cbn. now rewrite <- app_assoc.
        - eapply H0; [exact Shx|exact Sh|]. congruence. }
      destruct U as [-> <-]. apply (f_equal len) in E. cbn in E. rewrite !app_length in E. cbn in E.
      cbn. rewrite !app_length. cbn. lia.
    + destruct (match_none _ _ Ex _ M).
  - exists [KSpace; KComment; KParenOpen; KParenClose; KBracketOpen; KBracketClose; KBraceOpen; KBraceClose;
      KFunctor; KNumeric; KVariable]. eexists. split; [reflexivity|].
    repeat (constructor; [apply absent_head; reflexivity|]). constructor.
Qed.

Lemma printed_body s : Forall code_point s -> string_body (esc_quotes (unicode_escape s)).
Proof.
  assert (X : forall k h x b, hexnum k h x -> string_body b -> string_body (h ++ b)).
  { intros k h x b H. revert b. induction H as [|k h x c d _ IH Hd]; intros b Hb; [assumption|].
    rewrite <- app_assoc. apply IH. cbn. constructor; [| |assumption]; destruct Hd; lia. }
  induction 1 as [|c s H _ IH]; [constructor|]. cbn [unicode_escape]. rewrite esc_quotes_app.
  unfold esc_char, code_point in *.
  destruct (N.eqb_spec c 92) as [->|N92]; [cbn; now apply sb_escape|].
  destruct (N.eqb_spec c 9) as [->|N9]; [cbn; now apply sb_escape|].
  destruct (N.eqb_spec c 10) as [->|N10]; [cbn; now apply sb_escape|].
  destruct (N.eqb_spec c 13) as [->|N13]; [cbn; now apply sb_escape|].
  destruct ((32 <=? c) && (c <? 127))%N eqn:E.
  { cbn [esc_quotes]. destruct (N.eqb_spec c 34) as [->|N34]; cbn [app].
    - now apply sb_escape.
    - now apply sb_plain. }
  assert (Q : forall e k, hexnum k (hexk k c) c -> e <> 34%N -> e <> 10%N ->
              string_body (esc_quotes (92%N :: e :: hexk k c) ++ esc_quotes (unicode_escape s))).
  { intros e k K He He'. rewrite esc_quotes_plain.
    - cbn. apply sb_escape; [assumption|]. eapply X; eassumption.
    - constructor; [lia|]. constructor; [assumption|]. eapply hexnum_no_quote; eassumption. }
  destruct (N.ltb_spec c 256); [|destruct (N.ltb_spec c 65536)]; apply Q; try lia; apply hexk_num; cbn; lia.
Qed.

Lemma str_repr_token s r : Forall code_point s -> first_token tokens (str_repr s ++ r) = Some (KString, r).
Proof.
  intros H. unfold str_repr. cbn [app]. rewrite <- app_assoc. apply string_first. now apply printed_body.
Qed.

(** A line that consists of a printed string is that one token. *)
Lemma str_repr_line n line col s : Forall code_point s -> (len (str_repr s) <= n)%nat ->
  lex_line n line col (str_repr s) false =
  Ok ([ITok (mktok KString (str_repr s) line col (col + len (str_repr s)))], false).
Proof.
  intros H Hn. destruct n as [|n]; [unfold str_repr in Hn; cbn in Hn; lia|].
  pose proof (str_repr_token s [] H) as E. rewrite app_nil_r in E.
  assert (Hd : exists t, str_repr s = 34%N :: t) by (eexists; reflexivity).
  destruct Hd as (t & Et). cbn [lex_line]. rewrite Et at 1. cbv zeta.
  replace (re_match re_start_comment (str_repr s)) with (@None pystr) by (rewrite Et; reflexivity).
  rewrite E. cbn [List.length]. rewrite Nat.sub_0_r. destruct n; cbn [lex_line rbind skipped];
  now rewrite firstn_all.
Qed.

Lemma token_picks_exact s k w r : first_token tokens (w ++ r) = Some (k, r) -> s = w ++ r -> picks s k w r.
Proof.
  intros E ->. apply token_picks in E as (w' & H). pose proof H as (E & _).
  apply app_inv_tail in E. now subst w'.
Qed.

Lemma str_repr_picks s rest : Forall code_point s ->
  exists t, picks (str_repr s ++ rest) KString t rest /\ t = str_repr s.
Proof.
  intros H. exists (str_repr s). split; [|reflexivity].
  apply token_picks_exact; [now apply str_repr_token|reflexivity].
Qed.

Lemma parse_plain_ascii b : Forall ascii b -> Forall (fun c => c <> 92%N) b -> parse_string (literal b) = Ok b.
Proof. intros A H. apply parse_plain; [assumption|]. now apply forallb_ascii_utf8. Qed.

Lemma plain_refuted : exists b : pystr,
  Forall code_point b /\ Forall (fun c => c <> 92%N) b /\ parse_string (literal b) <> Ok b.
Proof.
  exists [233%N]. split; [repeat constructor|]. split; [constructor; [lia|constructor]|].
  vm_compute. discriminate.
Qed.

Lemma parse_not_literal s : (forall b, s <> literal b) -> s <> [34%N] -> parse_string s = Err EAssert.
Proof.
  intros H H'. apply parse_unquoted. destruct (quoted s) eqn:E; [|reflexivity].
  apply quoted_split in E as [E|(b & E)]; [contradiction|]. destruct (H b E).
Qed.

Lemma denotes_case : denotes (s2p "a\tb\x41\101") [97; 9; 98; 65; 65]%N.
Proof.
  apply dn_plain; [unfold ascii; lia|lia|]. apply (dn_short 116 9); [cbn; tauto|].
  apply dn_plain; [unfold ascii; lia|lia|].
  apply (dn_x [52; 49]%N 65 [92; 49; 48; 49]%N).
  - apply (hn_snoc 1 [52%N] 4 49 1); [|now apply (hd_digit 1)].
    apply (hn_snoc 0 [] 0 52 4); [constructor|now apply (hd_digit 4)].
  - apply (dn_oct [49; 48; 49]%N 65 []); [|constructor].
    apply (on_snoc 2 [49; 48]%N 8 1); [|lia]. apply (on_snoc 1 [49]%N 1 0); [|lia].
    apply (on_snoc 0 [] 0 1); [constructor|lia].
Qed.

(** ** Places *)

Lemma cut_places_from line col s b items b' : cut line col s b items b' ->
  forall pre, len pre = col -> Forall (at_place line (pre ++ s)) items.
Proof.
  induction 1 as [col b|col s Hn Hno|col s w r l b (-> & _) _ IH|col s r l b -> _ IH|col s k w r l b Hs (-> & _) Hk _ IH
                 |col s k w r l b Hs (-> & Hw & _) Hk1 Hk2 _ IH|col c s l b Hs Hi _ IH]; intros pre Hp; try constructor.
  - rewrite app_assoc. apply IH. rewrite app_length. lia.
  - rewrite app_assoc. apply IH. rewrite app_length. cbn. lia.
  - rewrite app_assoc. apply IH. rewrite app_length. lia.
  - cbn. apply shape_nonempty in Hw. split; [reflexivity|]. split; [destruct w; [congruence|cbn; lia]|].
    exists pre, r. now repeat split.
  - rewrite app_assoc. apply IH. rewrite app_length. lia.
  - cbn. split; [reflexivity|]. rewrite nth_error_app2 by lia. now rewrite Hp, Nat.sub_diag.
  - change (c :: s) with ([c] ++ s). rewrite app_assoc. apply IH. rewrite app_length. cbn. lia.
Qed.

Lemma cut_places line s b items b' : cut line 0 s b items b' -> Forall (at_place line s) items.
Proof. intros H. now apply (cut_places_from _ _ _ _ _ _ H []). Qed.

Lemma in_order_le l : forall c c', (c' <= c)%nat -> in_order c l -> in_order c' l.
Proof. destruct l as [|[t|x y z] l]; cbn; intros; [exact I|intuition lia|intuition lia]. Qed.

Lemma cut_order line col s b items b' : cut line col s b items b' -> in_order col items.
Proof.
  induction 1 as [col b|col s Hn Hno|col s w r l b _ _ IH|col s r l b _ _ IH|col s k w r l b Hs _ Hk _ IH
                 |col s k w r l b Hs (_ & Hw & _) Hk1 Hk2 _ IH|col c s l b Hs Hi _ IH]; try exact I.
  - eapply in_order_le; [|exact IH]. lia.
  - eapply in_order_le; [|exact IH]. lia.
  - eapply in_order_le; [|exact IH]. lia.
  - cbn. apply shape_nonempty in Hw. split; [destruct w; [congruence|cbn; lia]|exact IH].
  - cbn. split; [lia|]. now rewrite Nat.add_1_r in IH.
Qed.

Lemma functor_not_keyword s k w r : picks s k w r -> k = KFunctor -> ~ In w keywords.
Proof.
  intros (-> & Sh & Max & _) -> Hin.
  inversion Sh as [| | |v ? A B|v ? A B| | | | |? t ? A]; subst.
  - apply B. exists w, r. split; [assumption|]. split; [reflexivity|].
    destruct r as [|c r]; [exact I|]. destruct (is_word c) eqn:E; [exfalso|reflexivity].
    (* otherwise there would be a longer functor *)
    assert (K : shape KFunctor (w ++ [c]) r).
    { apply sh_functor; [apply dotted_more; [assumption|]; apply all_cons; now split|].
      now rewrite <- app_assoc. }
    assert (L := Max (w ++ [c]) r). rewrite <- app_assoc in L. specialize (L eq_refl K).
    rewrite app_length in L. cbn in L. lia.
  - unfold keywords in Hin. cbn in Hin. repeat (destruct Hin as [Hin|Hin]; [discriminate Hin|]). destruct Hin.
  - apply in_text in A. discriminate.
Qed.

(** ** Classes of characters *)
Lemma in_range lo k c : In c (map (fun i => lo + N.of_nat i)%N (seq 0 k)) <-> (lo <= c /\ c < lo + N.of_nat k)%N.
Proof.
  rewrite in_map_iff. split.
  - intros (i & <- & Hi). apply in_seq in Hi. lia.
  - intros [H1 H2]. exists (N.to_nat (c - lo)). split; [lia|]. apply in_seq. lia.
Qed.
Lemma lower_class c : is_lower c = true <-> In c small_letters.
Proof.
  change small_letters with (map (fun i => 97 + N.of_nat i)%N (seq 0 26)). rewrite in_range. unfold is_lower.
  rewrite andb_true_iff, !N.leb_le. lia.
Qed.
Lemma upper_class c : is_upper c = true <-> In c capital_letters.
Proof.
  change capital_letters with (map (fun i => 65 + N.of_nat i)%N (seq 0 26)). rewrite in_range. unfold is_upper.
  rewrite andb_true_iff, !N.leb_le. lia.
Qed.
Lemma digit_class c : is_digit c = true <-> In c digits.
Proof.
  change digits with (map (fun i => 48 + N.of_nat i)%N (seq 0 10)). rewrite in_range. unfold is_digit.
  rewrite andb_true_iff, !N.leb_le. lia.
Qed.
Lemma word_class c : is_word c = true <-> In c (small_letters ++ capital_letters ++ digits ++ [95%N]).
Proof.
  unfold is_word, is_ascii_alnum. rewrite !in_app_iff, !orb_true_iff, lower_class, upper_class, digit_class, N.eqb_eq. cbn [In]. intuition.
Qed.
Lemma space_class c : is_space c = true <-> In c white_space.
Proof.
  change white_space with (map (fun i => 9 + N.of_nat i)%N (seq 0 5) ++ map (fun i => 28 + N.of_nat i)%N (seq 0 5) ++ [133; 160; 5760]%N ++
    map (fun i => 8192 + N.of_nat i)%N (seq 0 11) ++ [8232; 8233; 8239; 8287; 12288]%N).
  rewrite !in_app_iff, !in_range. unfold is_space. rewrite !orb_true_iff, !andb_true_iff, !N.leb_le, !N.eqb_eq. cbn [In]. lia.
Qed.
Lemma nl_class c : not_nl c = true <-> c <> 10%N.
Proof. unfold not_nl. rewrite negb_true_iff, N.eqb_neq. reflexivity. Qed.
Lemma keyword_class w : In w keywords <-> exists k t c r, In (k, t) fixed_lexemes /\ w = s2p t /\ w = c :: r /\ is_lower c = true.
Proof.
  split.
  - intro H. assert (G : forall l, Forall (fun w => exists p, In p fixed_lexemes /\ w = s2p (snd p) /\ match w with c :: _ => is_lower c = true | [] => False end) l ->
      In w l -> exists k t c r, In (k, t) fixed_lexemes /\ w = s2p t /\ w = c :: r /\ is_lower c = true).
    { intros l HF HI. rewrite Forall_forall in HF. destruct (HF w HI) as ([k t] & H1 & H2 & H3). destruct w as [|c r]; [contradiction|].
      exists k, t, c, r. auto. }
    apply (G keywords); [|exact H]. unfold keywords.
    repeat (constructor; [match goal with |- exists p, _ /\ ?w = _ /\ _ => idtac end|]); try constructor.
    + exists (KTrue, "true"%string). split; [cbn; tauto|split; reflexivity].
    + exists (KFalse, "false"%string). split; [cbn; tauto|split; reflexivity].
    + exists (KNot, "not"%string). split; [cbn; tauto|split; reflexivity].
    + exists (KDiv, "div"%string). split; [cbn; tauto|split; reflexivity].
    + exists (KMod, "mod"%string). split; [cbn; tauto|split; reflexivity].
    + exists (KIf, "if"%string). split; [cbn; tauto|split; reflexivity].
    + exists (KElse, "else"%string). split; [cbn; tauto|split; reflexivity].
    + exists (KWhile, "while"%string). split; [cbn; tauto|split; reflexivity].
    + exists (KFor, "for"%string). split; [cbn; tauto|split; reflexivity].
    + exists (KInclude, "include"%string). split; [cbn; tauto|split; reflexivity].
    + exists (KBegin, "begin"%string). split; [cbn; tauto|split; reflexivity].
    + exists (KEnd, "end"%string). split; [cbn; tauto|split; reflexivity].
  - intros (k & t & c & r & H1 & -> & H3 & H4).
    assert (G : forall l, forallb (fun p => match s2p (snd p) with c :: _ => negb (is_lower c) || existsb (pystr_eqb (s2p (snd p))) keywords | [] => true end) l = true ->
      In (k, t) l -> In (s2p t) keywords).
    { intros l HB HI. rewrite forallb_forall in HB. specialize (HB _ HI). cbn [snd] in HB. rewrite H3, H4 in HB. cbn [negb orb] in HB.
      apply existsb_exists in HB as (w & Hw & E). apply pystr_eqb_eq in E. rewrite H3. now rewrite E. }
    apply (G fixed_lexemes); [vm_compute; reflexivity|exact H1].
Qed.
