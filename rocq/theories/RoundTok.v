(** Which tokens printed text consists of: one token at a time. *)
From Verif Require Import Base Num Term Str World Ast Names Quote QuoteSpec QuoteFacts Lex LexSpec RegexFacts LexFacts LexCor LexTok
  Parse RoundSpec RoundLex.

Local Notation len := List.length.

(** Text that ends a name or a number. *)
Definition stop (r : pystr) : Prop :=
  match r with
  | [] => True
  | c :: t => is_word c = false /\ c <> 43%N /\ c <> 45%N /\
      (c = 46%N -> match t with [] => True | d :: _ => is_lower d = false /\ is_digit d = false end)
  end.

Lemma stop_look r r' : look r r' -> stop r -> stop r'.
Proof.
  destruct r as [|c t], r' as [|c' t']; cbn; try tauto. intros [<- H] (H1 & H2 & H3 & H4).
  split; [assumption|]. split; [assumption|]. split; [assumption|]. intros E. specialize (H4 E).
  destruct H as [H|H]; [subst c; discriminate|]. destruct t, t'; try tauto. now subst.
Qed.

Lemma start_none w r : match w with c :: _ => c <> 47%N | [] => True end -> w <> [] -> re_match re_start_comment (w ++ r) = None.
Proof. intros H Hn. destruct w as [|c w]; [congruence|]. now apply start_comment_none. Qed.

(** A longer lexeme would contain the first character of the rest. *)
Lemma longer (w r w' r' : pystr) : w ++ r = w' ++ r' -> (len w < len w')%nat ->
  exists c t, w' = w ++ c :: t /\ r = c :: t ++ r'.
Proof.
  revert w'. induction w as [|x w IH]; intros w' E H.
  - cbn in E. destruct w' as [|c t]; [cbn in H; lia|]. exists c, t. now split.
  - destruct w' as [|y w']; [cbn in H; lia|]. injection E as -> E. cbn in H.
    destruct (IH w' E) as (c & t & -> & ->); [lia|]. exists c, t. now split.
Qed.

Lemma word_char c : is_lower c = true -> is_word c = true.
Proof. unfold is_word, is_ascii_alnum. intros ->. now rewrite !orb_true_r || (rewrite orb_true_r; reflexivity). Qed.

(** In a dotted name every dot is followed by a small letter, all else are
    word characters. *)
Lemma dotted_char w : dotted w -> forall u c t, w = u ++ c :: t ->
  is_word c = true \/ (c = 46%N /\ exists d t', t = d :: t' /\ is_lower d = true).
Proof.
  assert (N1 : forall w, name w -> forall u c t, w = u ++ c :: t -> is_word c = true).
  { intros z [c s Hc Hs] u d t E. destruct u as [|x u].
    - injection E as -> ->. now apply word_char.
    - injection E as -> ->. apply all_app in Hs as [_ Hs]. now apply all_cons in Hs. }
  assert (N2 : forall w, name w -> exists d t', w = d :: t' /\ is_lower d = true).
  { intros z [c s Hc Hs]. now exists c, s. }
  induction 1 as [w Hw|w Hw|v w Hv IH Hw]; intros u c t E.
  - left. eapply N1; eassumption.
  - destruct u as [|x u]; injection E as <- E; subst.
    + right. split; [reflexivity|]. now apply N2.
    + left. eapply N1; [eassumption|reflexivity].
  - apply app_eq_app in E as (l & [[E1 E2]|[E1 E2]]).
    + destruct l as [|x l].
      * cbn in E2. injection E2 as <- <-. right. split; [reflexivity|]. now apply N2.
      * injection E2 as <- E2. destruct (IH u c l) as [H|(H & d & t' & El & Hd)]; [now rewrite E1|now left|].
        right. split; [assumption|]. exists d, (t' ++ 46%N :: w). subst l. split; [now rewrite E2|assumption].
    + destruct l as [|x l].
      * cbn in E2. injection E2 as <- <-. right. split; [reflexivity|]. now apply N2.
      * injection E2 as <- E2. left. eapply N1; [eassumption|exact E2].
Qed.

Lemma keyword_lower : Forall (fun kw => forallb is_lower kw = true) keywords.
Proof. repeat constructor. Qed.

Lemma keyword_rest w r : stop r -> at_keyword (w ++ r) -> at_keyword w.
Proof.
  intros Hs (kw & x & Hin & E & Hx). apply app_eq_app in E as (l & [[E1 E2]|[E1 E2]]).
  - exists kw, l. split; [assumption|]. split; [assumption|]. destruct l as [|c l]; [exact I|].
    subst x. exact Hx.
  - destruct l as [|c l].
    + exists kw, []. rewrite app_nil_r in *. subst. repeat split. assumption.
    + exfalso. subst r. destruct Hs as (Hc & _). pose proof keyword_lower as K. rewrite Forall_forall in K.
      specialize (K _ Hin). rewrite E1, forallb_app in K. apply andb_prop in K as [_ K]. cbn in K.
      apply andb_prop in K as [K _]. rewrite word_char in Hc; [discriminate|assumption].
Qed.

Ltac compare_all := repeat match goal with
  | |- context [(?a <=? ?b)%N] => destruct (N.leb_spec a b); try lia
  | |- context [(?a <? ?b)%N] => destruct (N.ltb_spec a b); try lia
  | |- context [(?a =? ?b)%N] => destruct (N.eqb_spec a b); try lia
  end; try reflexivity; try lia.

Lemma not_space c : (33 <= c <= 126)%N -> is_space c = false.
Proof. intros H. unfold is_space. compare_all. Qed.

Ltac no_head := solve [apply absent_head; (apply not_space; lia) ||
  (unfold heads, is_lower, is_upper, is_digit; cbn [text find fixed_lexemes s2p Ascii.N_of_ascii]; cbn; compare_all)].
Ltac all_absent := repeat first [apply Forall_nil | apply Forall_cons; [no_head|]].

Lemma lower_range c : is_lower c = true -> (97 <= c <= 122)%N.
Proof. unfold is_lower. intros H. apply andb_prop in H as [H1 H2]. apply N.leb_le in H1, H2. lia. Qed.
Lemma upper_range c : is_upper c = true -> (65 <= c <= 90)%N.
Proof. unfold is_upper. intros H. apply andb_prop in H as [H1 H2]. apply N.leb_le in H1, H2. lia. Qed.
Lemma digit_range c : is_digit c = true -> (48 <= c <= 57)%N.
Proof. unfold is_digit. intros H. apply andb_prop in H as [H1 H2]. apply N.leb_le in H1, H2. lia. Qed.

(** ** Names *)

Lemma functor_head f : functor_name f -> exists c v, f = c :: v /\ (is_lower c = true \/ c = 46%N \/ c = 126%N).
Proof.
  intros (w & Hf & Hd & _). destruct (dotted_head _ Hd) as (c & v & -> & Hc).
  apply orb_prop in Hc. rewrite N.eqb_eq in Hc.
  destruct Hf as [-> | ->]; eexists _, _; (split; [reflexivity|]); tauto.
Qed.

Lemma functor_first f r : functor_name f -> stop r -> first_token tokens (f ++ r) = Some (KFunctor, r).
Proof.
  intros Hf Hs. apply picks_first with (w := f). destruct (functor_head _ Hf) as (c & v & Ef & Hc).
  destruct Hf as (w & Hf & Hd & Hk). split; [reflexivity|]. split; [|split].
  - assert (~ at_keyword (w ++ r)) by (intros H; apply Hk; eapply keyword_rest; eassumption).
    destruct Hf as [-> | ->]; now constructor.
  - intros w' r' E Sh. destruct (le_lt_dec (len w') (len f)) as [H|H]; [assumption|exfalso].
    destruct (longer _ _ _ _ E H) as (x & t & -> & ->). destruct Hs as (H1 & H2 & H3 & H4).
    assert (X : forall u, dotted (u ++ x :: t) -> False).
    { intros u D. destruct (dotted_char _ D u x t eq_refl) as [A|(-> & d & t' & -> & Hd')]; [congruence|].
      specialize (H4 eq_refl). cbn in H4. destruct H4. congruence. }
    inversion Sh as [| | |z ? A B|z ? A B| | | | |? y ? A]; subst.
    + exact (X _ A).
    + destruct Hf as [Hf|Hf]; cbn in Hf.
      * subst w. destruct (dotted_head _ Hd) as (c' & v' & E' & Hc'). injection E' as -> ->.
        match goal with H : 126%N :: z = _ |- _ => injection H as <- -> end. discriminate.
      * injection Hf as -> ->. match goal with H : 126%N :: z = _ |- _ => cbn in H; injection H as -> end.
        exact (X _ A).
    + apply in_text in A. discriminate.
  - exists [KSpace; KComment; KParenOpen; KParenClose; KBracketOpen; KBracketClose; KBraceOpen; KBraceClose].
    eexists. split; [reflexivity|]. rewrite Ef. cbn [app].
    assert (Hr : (97 <= c <= 122 \/ c = 46 \/ c = 126)%N).
    { destruct Hc as [Hc|Hc]; [left; now apply lower_range|now right]. }
    destruct Hr as [Hr|[-> | ->]]; all_absent.
Qed.

Lemma variable_head v : variable_name v -> exists c t, v = c :: t /\ (is_upper c = true \/ c = 95%N).
Proof.
  intros [(u & c & w & -> & Hu & Hc & _)|[Hn Hu]].
  - destruct u as [|x u]; [exists c, w; split; [reflexivity|now left]|]. apply all_cons in Hu as [Hx _].
    apply N.eqb_eq in Hx. eexists _, _. split; [reflexivity|]. right. congruence.
  - destruct v as [|x v]; [congruence|]. apply all_cons in Hu as [Hx _]. apply N.eqb_eq in Hx.
    exists x, v. split; [reflexivity|]. right. congruence.
Qed.

Lemma upper_word c : is_upper c = true -> is_word c = true.
Proof. unfold is_word, is_ascii_alnum. intros ->. now rewrite ?orb_true_r. Qed.
Lemma digit_word c : is_digit c = true -> is_word c = true.
Proof. unfold is_word, is_ascii_alnum. intros ->. now rewrite ?orb_true_r. Qed.

Lemma shape_variable_word w r : shape KVariable w r -> all is_word w.
Proof.
  assert (U : forall u, all (N.eqb 95) u -> all is_word u).
  { intros u H. unfold all in *. rewrite forallb_forall in *. intros x Hx. specialize (H x Hx).
    apply N.eqb_eq in H as <-. reflexivity. }
  intros H. inversion H as [| | | | | |u c v ? H1 H2 H3|u ? H1 H2| |? t ? A]; subst.
  - apply all_app. split; [now apply U|]. apply all_cons. split; [now apply upper_word|assumption].
  - now apply U.
  - apply in_text in A. discriminate.
Qed.

Lemma variable_first v r : variable_name v -> stop r -> first_token tokens (v ++ r) = Some (KVariable, r).
Proof.
  intros Hv Hs. apply picks_first with (w := v). destruct (variable_head _ Hv) as (c & t & Ev & Hc).
  split; [reflexivity|]. split; [|split].
  - destruct Hv as [(u & d & w & -> & H1 & H2 & H3)|[H1 H2]]; now constructor.
  - intros w' r' E Sh. destruct (le_lt_dec (len w') (len v)) as [H|H]; [assumption|exfalso].
    destruct (longer _ _ _ _ E H) as (x & z & -> & ->). destruct Hs as (H1 & _).
    apply shape_variable_word in Sh. apply all_app in Sh as [_ Sh]. apply all_cons in Sh as [Sh _]. congruence.
  - exists [KSpace; KComment; KParenOpen; KParenClose; KBracketOpen; KBracketClose; KBraceOpen; KBraceClose; KFunctor; KNumeric].
    eexists. split; [reflexivity|]. rewrite Ev. cbn [app].
    assert (Hr : (65 <= c <= 90 \/ c = 95)%N).
    { destruct Hc as [Hc|Hc]; [left; now apply upper_range|now right]. }
    destruct Hr as [Hr| ->]; all_absent.
Qed.

(** ** Numbers *)

Definition numeric (w : pystr) : Prop := exists m e, w = m ++ e /\ mantissa m /\ exponent e.

(** Where a numeral can be continued. *)
Lemma digits_char d : all is_digit d -> forall u c t, d = u ++ c :: t -> is_digit c = true.
Proof. intros H u c t ->. apply all_app in H as [_ H]. now apply all_cons in H. Qed.

Lemma numeric_char w : numeric w -> forall u c t, w = u ++ c :: t ->
  is_word c = true \/ (c = 46%N /\ exists d t', t = d :: t' /\ is_digit d = true) \/ c = 43%N \/ c = 45%N.
Proof.
  intros (m & e & -> & Hm & He) u c t E. apply app_eq_app in E as (l & [[E1 E2]|[E1 E2]]).
  - destruct l as [|x l].
    + (* c in e *)
      cbn in E2. subst e. inversion He as [|y sign d H1 H2 H3 H4]; subst.
      left. cbn in H1. destruct H1 as [<-|[<-|[]]]; reflexivity.
    + injection E2 as <- ->. inversion Hm as [d Hd Ha|d f Ha Hf Hb]; subst.
      * left. apply digit_word. eapply digits_char; [exact Ha|reflexivity].
      * match goal with H : d ++ 46%N :: f = u ++ c :: l |- _ => apply app_eq_app in H as (z & [[E3 E4]|[E3 E4]]) end.
        -- destruct z as [|q z].
           ++ cbn in E4. injection E4 as -> ->. right. left. split; [reflexivity|].
              match goal with Hb : all is_digit ?f, Hn : ?f <> [] |- _ =>
                destruct f as [|d1 f']; [congruence|]; apply all_cons in Hb as [Hb _]; eexists _, _; split; [reflexivity|assumption] end.
           ++ injection E4 as <- ->. left. apply digit_word. eapply digits_char; [exact Ha|exact E3].
        -- destruct z as [|q z].
           ++ cbn in E4. injection E4 as -> ->. right. left. split; [reflexivity|].
              match goal with Hb : all is_digit ?f, Hn : ?f <> [] |- _ =>
                destruct f as [|d1 f']; [congruence|]; apply all_cons in Hb as [Hb _]; eexists _, _; split; [reflexivity|assumption] end.
           ++ injection E4 as <- ->. left. apply digit_word. eapply digits_char; [exact Hb|reflexivity].
  - inversion He as [|y sign d H1 H2 H3 H4]; subst e.
    + destruct l; discriminate.
    + destruct l as [|q l].
      * cbn in H. injection H as <- _. left. cbn in H1. destruct H1 as [<-|[<-|[]]]; reflexivity.
      * injection H as <- H. cbn in H2. destruct H2 as [<-|[<-|[<-|[]]]]; cbn in H.
        -- left. apply digit_word. eapply digits_char; [exact H4|exact H].
        -- destruct l as [|q l]; injection H as <- H; [tauto|]. left. apply digit_word. eapply digits_char; [exact H4|exact H].
        -- destruct l as [|q l]; injection H as <- H; [tauto|]. left. apply digit_word. eapply digits_char; [exact H4|exact H].
Qed.

Lemma numeric_head w : numeric w -> exists c t, w = c :: t /\
  (is_digit c = true \/ (c = 46%N /\ exists d t', t = d :: t' /\ is_digit d = true)).
Proof.
  intros (m & e & -> & Hm & _). destruct Hm as [d Hn Hd|d f Hd Hn Hf].
  - destruct d as [|c d]; [congruence|]. apply all_cons in Hd as [Hc _]. eexists _, _. split; [reflexivity|now left].
  - destruct d as [|c d].
    + destruct f as [|c f]; [congruence|]. apply all_cons in Hf as [Hc _]. eexists _, _. split; [reflexivity|]. right.
      split; [reflexivity|]. eexists _, _. split; [reflexivity|assumption].
    + apply all_cons in Hd as [Hc _]. eexists _, _. split; [reflexivity|now left].
Qed.

Lemma functor_dot d t : is_digit d = true -> absent KFunctor (46%N :: d :: t).
Proof.
  intros Hd w r E Sh. apply digit_range in Hd.
  assert (X : forall w r, 46%N :: d :: t = w ++ r -> dotted w -> False).
  { intros z q Ez D. destruct (dotted_head _ D) as (c & v & -> & _). injection Ez as <- Ez.
    destruct (dotted_char _ D [] 46%N v eq_refl) as [A|(_ & x & t' & -> & A)]; [discriminate|].
    injection Ez as <- _. apply lower_range in A. lia. }
  inversion Sh as [| | |z ? A B|z ? A B| | | | |? y ? A]; subst.
  - exact (X _ _ E A).
  - discriminate.
  - apply in_text in A. discriminate.
Qed.

Lemma numeric_first w r : numeric w -> stop r -> first_token tokens (w ++ r) = Some (KNumeric, r).
Proof.
  intros Hw Hs. apply picks_first with (w := w). destruct (numeric_head _ Hw) as (c & t & Ew & Hc).
  split; [reflexivity|]. split; [|split].
  - destruct Hw as (m & e & -> & Hm & He). now constructor.
  - intros w' r' E Sh. destruct (le_lt_dec (len w') (len w)) as [H|H]; [assumption|exfalso].
    destruct (longer _ _ _ _ E H) as (x & z & -> & ->). destruct Hs as (H1 & H2 & H3 & H4).
    assert (Hn : numeric (w ++ x :: z)).
    { inversion Sh as [| | | | |m e ? Hm He| | | |? y ? A]; subst; [exists m, e; tauto|].
      apply in_text in A. discriminate. }
    destruct (numeric_char _ Hn w x z eq_refl) as [A|[(-> & d & t' & -> & A)|[A|A]]]; try congruence.
    specialize (H4 eq_refl). cbn in H4. destruct H4. congruence.
  - exists [KSpace; KComment; KParenOpen; KParenClose; KBracketOpen; KBracketClose; KBraceOpen; KBraceClose; KFunctor].
    eexists. split; [reflexivity|]. rewrite Ew. cbn [app].
    destruct Hc as [Hc|(-> & d & t' & -> & Hd)].
    + apply digit_range in Hc. all_absent.
    + repeat (apply Forall_cons; [no_head|]). apply Forall_cons; [|constructor]. now apply functor_dot.
Qed.

(** ** Token conditions *)

Lemma word_clean c : is_word c = true -> c <> 9%N /\ c <> 10%N.
Proof. intros H. split; intros ->; discriminate. Qed.

Lemma dotted_clean w : dotted w -> clean w.
Proof.
  intros H. apply Forall_forall. intros c Hc. apply in_split in Hc as (u & t & ->).
  destruct (dotted_char _ H u c t eq_refl) as [A|(-> & _)]; [now apply word_clean|lia].
Qed.

Lemma numeric_clean w : numeric w -> clean w.
Proof.
  intros H. apply Forall_forall. intros c Hc. apply in_split in Hc as (u & t & ->).
  destruct (numeric_char _ H u c t eq_refl) as [A|[(-> & _)|[-> | ->]]]; [now apply word_clean|lia|lia|lia].
Qed.

Lemma tok_functor f r : functor_name f -> stop r -> tokc KFunctor f r.
Proof.
  intros Hf Hs. destruct (functor_head _ Hf) as (c & v & Ef & Hc). split; [now subst|]. split; [|split; [reflexivity|]].
  - destruct Hf as (w & [-> | ->] & Hd & _); [now apply dotted_clean|]. constructor; [lia|now apply dotted_clean].
  - intros r' Hr. split; [apply functor_first; [assumption|eapply stop_look; eassumption]|].
    apply start_none; [subst f|now subst]. destruct Hc as [Hc|[-> | ->]]; [apply lower_range in Hc; lia|lia|lia].
Qed.

Lemma tok_variable v r : variable_name v -> stop r -> tokc KVariable v r.
Proof.
  intros Hv Hs. destruct (variable_head _ Hv) as (c & t & Ev & Hc). split; [now subst|]. split; [|split; [reflexivity|]].
  - assert (A : all is_word v).
    { apply (shape_variable_word v []). destruct Hv as [(u & d & w & -> & H1 & H2 & H3)|[H1 H2]]; now constructor. }
    apply Forall_forall. intros x Hx. unfold all in A. rewrite forallb_forall in A. now apply word_clean, A.
  - intros r' Hr. split; [apply variable_first; [assumption|eapply stop_look; eassumption]|].
    apply start_none; [subst v|now subst]. destruct Hc as [Hc| ->]; [apply upper_range in Hc; lia|lia].
Qed.

Lemma tok_numeric w r : numeric w -> stop r -> tokc KNumeric w r.
Proof.
  intros Hw Hs. destruct (numeric_head _ Hw) as (c & t & Ew & Hc). split; [now subst|]. split; [|split; [reflexivity|]].
  - now apply numeric_clean.
  - intros r' Hr. split; [apply numeric_first; [assumption|eapply stop_look; eassumption]|].
    apply start_none; [subst w|now subst]. destruct Hc as [Hc|(-> & _)]; [apply digit_range in Hc; lia|lia].
Qed.

Lemma esc_clean s : Forall code_point s -> clean (esc_quotes (unicode_escape s)).
Proof.
  assert (Hx : forall k n, clean (hexk k n)).
  { induction k as [|k IH]; intros n; [constructor|]. cbn. apply Forall_app. split; [apply IH|].
    constructor; [|constructor]. unfold hex1. generalize (n mod 16)%N. intros m. cbv beta. destruct (m <? 10)%N; lia. }
  assert (Q : forall s, clean s -> clean (esc_quotes s)).
  { induction 1 as [|c z H _ IH]; [constructor|]. cbn. destruct (c =? 34)%N; repeat (constructor; [first [exact H|lia]|]); assumption. }
  intros H. apply Q. induction H as [|c s Hc _ IH]; [constructor|]. cbn. apply Forall_app. split; [|assumption].
  unfold esc_char. destruct (N.eqb_spec c 92); [repeat constructor; lia|].
  destruct (N.eqb_spec c 9); [repeat constructor; lia|]. destruct (N.eqb_spec c 10); [repeat constructor; lia|].
  destruct (N.eqb_spec c 13); [repeat constructor; lia|].
  destruct ((32 <=? c)%N && (c <? 127)%N); [repeat constructor; assumption|].
  destruct (c <? 256)%N; [|destruct (c <? 65536)%N];
    (constructor; [lia|]; constructor; [lia|]; apply Hx).
Qed.

Lemma tok_string s r : Forall code_point s -> tokc KString (str_repr s) r.
Proof.
  intros H. split; [discriminate|]. split; [|split; [reflexivity|]].
  - unfold str_repr. constructor; [lia|]. apply Forall_app. split; [now apply esc_clean|]. repeat constructor; lia.
  - intros r' _. split; [now apply str_repr_token|]. apply start_none; [cbn; lia|discriminate].
Qed.

Lemma clean_bool w : forallb (fun c => negb (c =? 9)%N && negb (c =? 10)%N) w = true -> clean w.
Proof.
  intros H. apply Forall_forall. intros c Hc. rewrite forallb_forall in H. specialize (H c Hc).
  apply andb_prop in H as [H1 H2]. apply negb_true_iff in H1, H2. apply N.eqb_neq in H1, H2. now split.
Qed.

(** Tokens that are recognised whatever follows. *)
Definition closed (k : kind) (t : string) : Prop := In (k, t)
  [(KParenOpen, "("); (KParenClose, ")"); (KBracketOpen, "["); (KBracketClose, "]"); (KBraceOpen, "{"); (KBraceClose, "}");
   (KArrow, "<-"); (KDefine, ":-"); (KQuestion, "?"); (KPlus, "+"); (KMinusPlus, "-+"); (KDoubleExclam, "!!"); (KComma, ","); (KSemicolon, ";"); (KAt, "@")]%string.

Ltac each_in H := cbn [In] in H; repeat (destruct H as [H|H]; [injection H as <- <-|]); [..|destruct H].

Lemma tok_closed k t r : closed k t -> tokc k (s2p t) r.
Proof.
  intros H. unfold closed in H. each_in H;
    (split; [discriminate|]; split; [now apply clean_bool|]; split; [reflexivity|];
     intros r' _; split; reflexivity).
Qed.

(** Tokens that are recognised before a blank or a newline. *)
Definition spaced (k : kind) (t : string) : Prop := In (k, t)
  [(KIf, "if"); (KElse, "else"); (KWhile, "while"); (KFor, "for"); (KColon, ":"); (KNot, "not"); (KPlus, "+"); (KMinus, "-");
   (KPower, "**"); (KMult, "*"); (KFdiv, "/"); (KDiv, "div"); (KMod, "mod"); (KAnd, "&"); (KOr, "|");
   (KLe, "<="); (KGe, ">="); (KNe, "\=="); (KEq, "=="); (KDecompose, "=.."); (KUnify, "="); (KLt, "<"); (KGt, ">");
   (KFullstop, ".")]%string.

Lemma look_space c r r' : c = 32%N \/ c = 10%N -> look (c :: r) r' -> exists t, r' = c :: t.
Proof. intros _ H. destruct r' as [|d t]; [destruct H|]. destruct H as [<- _]. now exists t. Qed.

Lemma tok_spaced k t c r : spaced k t -> c = 32%N \/ c = 10%N -> tokc k (s2p t) (c :: r).
Proof.
  intros H Hc. unfold spaced in H.
  assert (G : s2p t <> [] /\ clean (s2p t) /\ skipped k = false /\ forall z, fits k (s2p t) (c :: z)).
  { destruct Hc as [-> | ->]; each_in H;
      (split; [discriminate|]; split; [now apply clean_bool|]; split; [reflexivity|];
       intros [|d z]; split; reflexivity). }
  destruct G as (G1 & G2 & G3 & G4). repeat (split; [assumption|]). intros r' Hr.
  destruct (look_space _ _ _ Hc Hr) as (z & ->). apply G4.
Qed.

Lemma tok_dot_end : tokc KFullstop (s2p ".") [].
Proof.
  split; [discriminate|]. split; [now apply clean_bool|]. split; [reflexivity|].
  intros [|c r'] Hr; [split; reflexivity|destruct Hr].
Qed.

Lemma tok_bool (b : bool) r : stop r -> tokc (if b then KTrue else KFalse) (s2p (if b then "true" else "false")) r.
Proof.
  intros Hs. split; [destruct b; discriminate|]. split; [destruct b; now apply clean_bool|].
  split; [destruct b; reflexivity|]. intros r' Hr. split.
  - apply picks_first with (w := s2p (if b then "true" else "false")). pose proof (stop_look _ _ Hr Hs) as Hs'.
    split; [reflexivity|]. split; [destruct b; constructor; cbn; tauto|]. split.
    + intros w' r2 _ Sh. destruct b; [apply (shape_fixed KTrue "true" eq_refl) in Sh as ->|apply (shape_fixed KFalse "false" eq_refl) in Sh as ->]; reflexivity.
    + assert (F : absent KFunctor (s2p (if b then "true" else "false") ++ r')).
      { intros w x E Sh. inversion Sh as [| | |z ? A B|z ? A B| | | | |? y ? A]; subst.
        - apply B. rewrite <- E. exists (s2p (if b then "true" else "false")), r'.
          split; [destruct b; cbn; tauto|]. split; [reflexivity|]. destruct r'; [exact I|]. apply Hs'.
        - destruct b; discriminate.
        - apply in_text in A. discriminate. }
      destruct b.
      * exists [KSpace; KComment; KParenOpen; KParenClose; KBracketOpen; KBracketClose; KBraceOpen; KBraceClose; KFunctor;
                KNumeric; KVariable; KString].
        eexists. split; [reflexivity|]. repeat (apply Forall_cons; [first [exact F|cbn [s2p app]; no_head]|]). constructor.
      * exists [KSpace; KComment; KParenOpen; KParenClose; KBracketOpen; KBracketClose; KBraceOpen; KBraceClose; KFunctor;
                KNumeric; KVariable; KString; KTrue].
        eexists. split; [reflexivity|]. repeat (apply Forall_cons; [first [exact F|cbn [s2p app]; no_head]|]). constructor.
  - apply start_none; [destruct b; cbn; lia|destruct b; discriminate].
Qed.

(** Tokens that are recognised before an expression. *)
Definition opens (r : pystr) : Prop :=
  match r with c :: _ => c <> 33%N /\ c <> 38%N /\ c <> 124%N /\ c <> 43%N /\ c <> 45%N | [] => False end.

Lemma opens_look r r' : look r r' -> opens r -> exists c t, r' = c :: t /\ opens (c :: t).
Proof.
  destruct r as [|c t], r' as [|c' t']; cbn; try tauto. intros [<- _] H. exists c, t'. now split.
Qed.

Lemma first_skip k r l s : re_match r s = None -> first_token ((k, r) :: l) s = first_token l s.
Proof. intros H. cbn [first_token]. now rewrite H. Qed.

Lemma rlit_none2 a b t c s : c <> b -> re_match (rstr (a :: b :: t)) (a :: c :: s) = None.
Proof.
  intros H. destruct (re_match _ _) eqn:E; [|reflexivity]. apply re_match_str in E. injection E. congruence.
Qed.

Lemma tok_opens k t r : In (k, t) [(KOr, "|"); (KExclam, "!"); (KMinus, "-"); (KColon, ":")]%string -> opens r -> tokc k (s2p t) r.
Proof.
  intros H Ho.
  split; [each_in H; discriminate|]. split; [each_in H; now apply clean_bool|]. split; [each_in H; reflexivity|].
  intros r' Hr. destruct (opens_look _ _ Hr Ho) as (c & z & -> & H1 & H2 & H3 & H4 & H5).
  split; [|each_in H; reflexivity]. unfold tokens.
  each_in H; cbn [s2p String.list_ascii_of_string app];
    repeat (rewrite first_skip by (reflexivity || (first [apply (rlit_none2 124 38 [124%N]) | apply (rlit_none2 124 124 [124%N]) | apply (rlit_none2 33 33 []) | apply (rlit_none2 45 43 []) | apply (rlit_none2 58 45 [])]; congruence))); reflexivity.
Qed.
