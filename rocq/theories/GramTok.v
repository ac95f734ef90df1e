(** The kind of a token is determined by its text. *)
From Verif Require Import Base Num Term Str World Ast Names Quote QuoteSpec QuoteFacts Lex LexSpec LexFacts LexCor LexTok
  Parse RegexFacts RoundSpec RoundTok ParseInv GramSpec.

Definition fit (t : tok) : Prop := first_token tokens (t_lex t) = Some (t_kind t, []).

Lemma fit_picks s k w r line col : k <> KSpace -> k <> KComment -> picks s k w r ->
  fit (mktok k w line col (col + List.length w)).
Proof.
  intros K1 K2 Hp. unfold fit. cbn [t_kind t_lex].
  destruct (text k) as [t|] eqn:Et.
  - destruct Hp as (_ & Sh & _). apply (shape_fixed k t Et) in Sh as ->. apply text_in in Et.
    unfold fixed_lexemes in Et. cbn [In] in Et.
    repeat (destruct Et as [Et|Et]; [injection Et as <- <-; vm_compute; reflexivity|]). destruct Et.
  - rewrite <- (app_nil_r w) at 1. assert (S0 : stop []) by (cbn; auto). destruct k; try discriminate Et; try congruence.
    + apply functor_first; [eapply picks_functor; exact Hp|exact S0].
    + apply numeric_first; [eapply picks_numeric; exact Hp|exact S0].
    + apply variable_first; [eapply picks_variable; exact Hp|exact S0].
    + destruct Hp as (_ & Sh & _). inversion Sh as [| | | | | | | |b ? A|? t ? A]; subst; [|apply in_text in A; discriminate].
      cbn [app]. rewrite <- app_assoc. now apply string_first.
Qed.

Lemma cut_fit line col s b items b' : cut line col s b items b' -> forall t, In (ITok t) items -> fit t.
Proof.
  induction 1 as [col b|col s Hs Hn|col s w r l b Hw _ IH|col s r l b Hs _ IH|col s k w r l b Hs Hp Hk _ IH
                 |col s k w r l b Hs Hp Hk1 Hk2 _ IH|col c s l b Hs Hi _ IH]; intros t Hin; try (now apply IH); try now destruct Hin.
  - destruct Hin as [[= <-]|Hin]; [eapply fit_picks; eassumption|now apply IH].
  - destruct Hin as [Hin|Hin]; [discriminate|now apply IH].
Qed.

Lemma cut_lines_fit n l b items : cut_lines n l b items -> forall t, In (ITok t) items -> fit t.
Proof.
  induction 1 as [|n line line' rest b b' l l' He Hc _ IH]; intros t Hin; [destruct Hin|].
  apply in_app_or in Hin as [Hin|Hin]; [eapply cut_fit; eassumption|now apply IH].
Qed.

Lemma lexed_fit t : lexed t -> fit t.
Proof. intros (n & source & items & E & Hin). apply tokenize_cut in E. eapply cut_lines_fit; eassumption. Qed.

Lemma fit_kind k s t : In (k, s) fixed_lexemes -> fit t -> (t_kind t = k <-> the s t).
Proof.
  intros Hk F. unfold fit in F. split.
  - intros E. rewrite E in F. assert (P := token_picks_exact (t_lex t) k (t_lex t) []). rewrite app_nil_r in P.
    specialize (P F eq_refl). destruct P as (_ & Sh & _). apply in_text in Hk. now apply (shape_fixed k s Hk) in Sh.
  - unfold the. intros E. rewrite E in F. clear E. generalize dependent (t_kind t). intros k' F. unfold fixed_lexemes in Hk. cbn [In] in Hk.
    repeat (destruct Hk as [Hk|Hk]; [injection Hk as <- <-; vm_compute in F; congruence|]). destruct Hk.
Qed.

Lemma is_lex_the t s : is_lex t s = true <-> the s t.
Proof. unfold is_lex, the. split; [apply pystr_eqb_eq|intros ->; apply pystr_eqb_refl]. Qed.
Lemma is_lex_false t s : is_lex t s = false <-> ~ the s t.
Proof. rewrite <- is_lex_the. destruct (is_lex t s); split; congruence. Qed.
