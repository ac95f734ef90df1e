(** The trees the parser builds. *)
From Verif Require Import Base Num Term Str World Ast Names Quote QuoteSpec QuoteFacts Lex LexSpec LexFacts LexCor LexTok
  Parse RegexFacts RoundSpec RoundTok.

Local Notation len := List.length.

(** ** Tokens *)

Definition good_tok (t : tok) : Prop :=
  match t_kind t with
  | KFunctor => functor_name (t_lex t)
  | KVariable => variable_name (t_lex t)
  | KNumeric => numeric (t_lex t)
  | KString => Forall code_point (t_lex t)
  | _ => True
  end.
Definition good_item (i : item) : Prop := match i with ITok t => good_tok t | IBad _ _ _ => True end.

Lemma keyword_tail w r : at_keyword w -> ~ at_keyword (w ++ r) -> In w keywords.
Proof.
  intros (kw & r' & Hin & -> & Hr) H. destruct r' as [|c r']; [now rewrite app_nil_r|].
  exfalso. apply H. exists kw, (c :: r' ++ r). rewrite <- app_assoc. now split.
Qed.

Lemma picks_functor s w r : picks s KFunctor w r -> functor_name w.
Proof.
  intros H. pose proof (functor_not_keyword _ _ _ _ H eq_refl) as Hk. destruct H as (-> & Sh & Max & _).
  inversion Sh as [| | |v ? A B|v ? A B| | | | |? t ? A]; subst.
  - exists w. split; [now left|]. split; [assumption|]. intros Ha. apply Hk. eapply keyword_tail; eassumption.
  - exists v. split; [now right|]. split; [assumption|]. intros Ha. pose proof (keyword_tail _ _ Ha B) as Hin.
    apply B. exists v, r. split; [assumption|]. split; [reflexivity|].
    destruct r as [|c r]; [exact I|]. destruct (is_word c) eqn:E; [exfalso|reflexivity].
    assert (K : shape KFunctor (126%N :: v ++ [c]) r).
    { apply sh_negated; [apply dotted_more; [assumption|]; apply all_cons; now split|]. now rewrite <- app_assoc. }
    assert (L := Max (126%N :: v ++ [c]) r). cbn [app] in L. rewrite <- app_assoc in L. specialize (L eq_refl K).
    cbn in L. rewrite app_length in L. cbn in L. lia.
  - apply in_text in A. discriminate.
Qed.

Lemma picks_variable s w r : picks s KVariable w r -> variable_name w.
Proof.
  intros (-> & Sh & _). inversion Sh as [| | | | | |u c v ? A B C|u ? A B| |? t ? A]; subst.
  - left. now exists u, c, v.
  - right. now split.
  - apply in_text in A. discriminate.
Qed.

Lemma picks_numeric s w r : picks s KNumeric w r -> numeric w.
Proof.
  intros (-> & Sh & _). inversion Sh as [| | | | |m e ? A B| | | |? t ? A]; subst.
  - now exists m, e.
  - apply in_text in A. discriminate.
Qed.

Lemma cut_good line col s b items b' : cut line col s b items b' -> Forall code_point s -> Forall good_item items.
Proof.
  induction 1 as [col b|col s Hs Hn|col s w r l b Hw _ IH|col s r l b Hs _ IH|col s k w r l b Hs Hp Hk _ IH
                 |col s k w r l b Hs Hp Hk1 Hk2 _ IH|col c s l b Hs Hi _ IH]; intros Hc; try constructor.
  - destruct Hw as (-> & _). apply Forall_app in Hc as [_ Hc]. now apply IH.
  - subst s. apply Forall_app in Hc as [_ Hc]. now apply IH.
  - destruct Hp as (-> & _). apply Forall_app in Hc as [_ Hc]. now apply IH.
  - unfold good_item, good_tok. cbn [t_kind t_lex]. destruct k; try exact I.
    + eapply picks_functor; exact Hp.
    + eapply picks_numeric; exact Hp.
    + eapply picks_variable; exact Hp.
    + destruct Hp as (-> & _). now apply Forall_app in Hc as [Hc _].
  - destruct Hp as (-> & _). apply Forall_app in Hc as [_ Hc]. now apply IH.
  - exact I.
  - inversion Hc; subst. now apply IH.
Qed.

Lemma expands_points s t : expands s t -> Forall code_point s -> Forall code_point t.
Proof.
  induction 1 as [|s t _ IH|c s t _ _ IH]; intros H; [constructor| |]; inversion H; subst.
  - apply Forall_app. split; [|now apply IH]. repeat constructor.
  - constructor; [assumption|now apply IH].
Qed.

Lemma cut_lines_good n l b items : cut_lines n l b items -> Forall (Forall code_point) l -> Forall good_item items.
Proof.
  induction 1 as [|n line line' rest b b' l l' He Hc _ IH]; intros H; [constructor|]. inversion H; subst.
  apply Forall_app. split; [|now apply IH]. eapply cut_good; [exact Hc|]. eapply expands_points; eassumption.
Qed.

Lemma tokenize_good n l items : tokenize n l = Ok items -> Forall (Forall code_point) l -> Forall good_item items.
Proof. intros E. apply tokenize_cut in E. now apply (cut_lines_good n l false). Qed.

(** ** Strings *)

Definition byte (c : N) : Prop := (c < 256)%N.

Lemma utf8_bytes s : Forall code_point s -> forall b, utf8 s = Ok b -> Forall byte b.
Proof.
  induction 1 as [|c s Hc _ IH]; intros b E; [injection E as <-; constructor|].
  cbn [utf8] in E. unfold rbind in E. destruct (utf8_char c) as [u|] eqn:Eu; [|discriminate].
  unfold rmap in E. destruct (utf8 s) as [v|] eqn:Ev; [|discriminate].
  apply Ok_inj in E. subst b. apply Forall_app. split; [|now apply IH].
  unfold utf8_char in Eu. unfold code_point in Hc.
  assert (M : forall x, (128 + x mod 64 < 256)%N) by (intros x; pose proof (N.mod_lt x 64 ltac:(lia)); lia).
  destruct (c <? 128)%N eqn:C1; [apply Ok_inj in Eu; subst u; apply N.ltb_lt in C1; repeat constructor; unfold byte; lia|].
  destruct (c <? 2048)%N eqn:C2.
  { apply Ok_inj in Eu; subst u. apply N.ltb_lt in C2. repeat constructor; unfold byte; [|apply M].
    pose proof (N.div_lt_upper_bound c 64 32 ltac:(lia) ltac:(lia)). lia. }
  destruct ((55296 <=? c) && (c <? 57344))%N; [discriminate|].
  destruct (c <? 65536)%N eqn:C3; apply Ok_inj in Eu; subst u; repeat constructor; unfold byte; try apply M.
  - apply N.ltb_lt in C3. pose proof (N.div_lt_upper_bound c 4096 16 ltac:(lia) ltac:(lia)). lia.
  - pose proof (N.div_lt_upper_bound c 262144 5 ltac:(lia) ltac:(lia)). lia.
Qed.

Lemma oct_bound k : forall acc s, Forall byte s -> Forall byte (snd (oct_digits k acc s)) /\
  (fst (oct_digits k acc s) <= 8 ^ N.of_nat k * acc + 8 ^ N.of_nat k)%N.
Proof.
  induction k as [|k IH]; intros acc s H; [split; [assumption|cbn [oct_digits fst]; change (8 ^ N.of_nat 0)%N with 1%N; lia]|].
  rewrite Nat2N.inj_succ, N.pow_succ_r'. assert (Q : (1 <= 8 ^ N.of_nat k)%N) by (pose proof (N.pow_nonzero 8 (N.of_nat k)); lia).
  cbn [oct_digits]. set (q := (8 ^ N.of_nat k)%N) in *. destruct s as [|c s]; [split; [assumption|cbn [fst]; nia]|].
  destruct (is_octal c) eqn:E; [|split; [assumption|cbn [fst]; nia]]. inversion H; subst.
  destruct (IH (8 * acc + (c - 48))%N s) as [B1 B2]; [assumption|]. split; [assumption|].
  unfold is_octal in E. apply andb_prop in E as [E1 E2]. apply N.leb_le in E1, E2.
  assert (c - 48 <= 7)%N by lia. nia.
Qed.

Lemma hex_rest k : forall acc s x s', Forall byte s -> hex_digits k acc s = Some (x, s') -> Forall byte s'.
Proof.
  induction k as [|k IH]; intros acc s x s' H E; cbn [hex_digits] in E; [injection E as _ <-; assumption|].
  destruct s as [|c s]; [discriminate|]. inversion H; subst. destruct (hex_val c); [|discriminate]. eapply IH; eassumption.
Qed.

Lemma escape_points c s x s' : byte c -> Forall byte s -> escape c s = Ok (x, s') -> Forall code_point x /\ Forall byte s'.
Proof.
  intros Hc Hs E. unfold escape in E. unfold byte in Hc.
  repeat match type of E with (if ?b then _ else _) = _ => let e := fresh "e" in destruct b eqn:e end;
    try discriminate;
    try (apply Ok_inj in E; injection E as <- <-; split; [repeat constructor; unfold code_point; lia|assumption]).
  - destruct (oct_digits 2 (c - 48) s) as [y t] eqn:Eo. apply Ok_inj in E; injection E as <- <-.
    destruct (oct_bound 2 (c - 48)%N s Hs) as [H1 H2]. rewrite Eo in H1, H2. cbn [fst snd] in H1, H2.
    split; [|assumption]. repeat constructor. unfold code_point. change (8 ^ N.of_nat 2)%N with 64%N in H2. lia.
  - destruct (hex_digits 2 0 s) as [[y t]|] eqn:Eh; [|discriminate]. destruct (y <? 1114112)%N eqn:Ey; [|discriminate].
    apply Ok_inj in E; injection E as <- <-. apply N.ltb_lt in Ey. split; [now repeat constructor|]. eapply hex_rest; eassumption.
  - destruct (hex_digits 4 0 s) as [[y t]|] eqn:Eh; [|discriminate]. destruct (y <? 1114112)%N eqn:Ey; [|discriminate].
    apply Ok_inj in E; injection E as <- <-. apply N.ltb_lt in Ey. split; [now repeat constructor|]. eapply hex_rest; eassumption.
  - destruct (hex_digits 8 0 s) as [[y t]|] eqn:Eh; [|discriminate]. destruct (y <? 1114112)%N eqn:Ey; [|discriminate].
    apply Ok_inj in E; injection E as <- <-. apply N.ltb_lt in Ey. split; [now repeat constructor|]. eapply hex_rest; eassumption.
Qed.

Lemma unescape_points n : forall s x, Forall byte s -> unescape n s = Ok x -> Forall code_point x.
Proof.
  induction n as [|n IH]; intros s x H E; (destruct s as [|c s]; [injection E as <-; constructor|]); cbn [unescape] in E; [discriminate|].
  inversion H as [|? ? Hc Hs]; subst. destruct (c =? 92)%N.
  - destruct s as [|d s]; [discriminate|]. inversion Hs as [|? ? Hd Hs2]; subst. unfold rbind in E.
    destruct (escape d s) as [[y t]|] eqn:Ee; [|discriminate]. destruct (escape_points _ _ _ _ Hd Hs2 Ee) as [H1 H2].
    unfold rmap in E. destruct (unescape n t) as [z|] eqn:Ez; [|discriminate]. apply Ok_inj in E. subst x.
    apply Forall_app. split; [assumption|]. eapply IH; eassumption.
  - unfold rmap in E. destruct (unescape n s) as [z|] eqn:Ez; [|discriminate]. apply Ok_inj in E. subst x.
    constructor; [unfold byte in Hc; unfold code_point; lia|]. eapply IH; eassumption.
Qed.

Lemma parse_string_points s x : Forall code_point s -> parse_string s = Ok x -> Forall code_point x.
Proof.
  intros H E. unfold parse_string in E. destruct (quoted s); [|discriminate]. unfold rbind in E.
  destruct (utf8 (removelast (tl s))) as [b|] eqn:Eb; [|discriminate].
  assert (Hb : Forall code_point (removelast (tl s))).
  { assert (Ht : Forall code_point (tl s)) by (destruct H; [constructor|assumption]).
    destruct (tl s) as [|c t] eqn:Et; [constructor|]. rewrite (app_removelast_last 0%N) in Ht by discriminate.
    now apply Forall_app in Ht as [Ht _]. }
  eapply unescape_points; [|exact E]. eapply utf8_bytes; eassumption.
Qed.

(** ** What the parser keeps *)

Definition keeps {A} (Q : A -> Prop) (m : P A) : Prop :=
  forall s, Forall good_item (p_items s) ->
    match m s with
    | (Ok x, s') => Forall good_item (p_items s') /\ Q x
    | (Err _, _) => True
    end.

Lemma keeps_ret {A} (Q : A -> Prop) x : Q x -> keeps Q (pret x).
Proof. intros H s Hs. now split. Qed.
Lemma keeps_fail {A} (Q : A -> Prop) e : keeps Q (pfail e).
Proof. intros s Hs. exact I. Qed.
Lemma keeps_raise {A} (Q : A -> Prop) : keeps Q p_raise.
Proof. intros s Hs. unfold p_raise. destruct (log_error (p_log s)). exact I. Qed.
Lemma keeps_bind {A C} (Q : A -> Prop) (R : C -> Prop) m k :
  keeps Q m -> (forall x, Q x -> keeps R (k x)) -> keeps R (pbind m k).
Proof.
  intros Hm Hk s Hs. unfold pbind. specialize (Hm s Hs). destruct (m s) as [[x|] s']; [|exact I].
  destruct Hm as [H1 H2]. exact (Hk x H2 s' H1).
Qed.
Lemma keeps_next : keeps good_tok next.
Proof.
  intros s Hs. unfold next. destruct s as [items lg own]. cbn [p_items p_log p_own] in *. revert lg.
  induction Hs as [|i items Hi Hs IH]; intros lg; [exact I|]. cbn [next_in]. destruct i as [t|c l col]; [now split|].
  destruct own; [|exact I]. destruct (log_error lg) as [[u|] lg']; [apply IH|exact I].
Qed.
Lemma keeps_warn : keeps (fun _ => True) p_warn.
Proof. intros s Hs. now split. Qed.

Definition good_at {A} (Q : A -> Prop) (x : tok * A) : Prop := good_tok (fst x) /\ Q (snd x).

Lemma keeps_next_bind {C} (R : C -> Prop) k : (forall t, good_tok t -> keeps R (k t)) -> keeps R (pbind next k).
Proof. apply keeps_bind, keeps_next. Qed.
Lemma keeps_pair {A C} (Q : A -> Prop) (R : C -> Prop) m (k : tok -> A -> P C) :
  keeps (good_at Q) m -> (forall t x, good_tok t -> Q x -> keeps R (k t x)) ->
  keeps R (pbind m (fun y => let '(t, x) := y in k t x)).
Proof. intros Hm Hk. eapply keeps_bind; [exact Hm|]. intros [t x] [H1 H2]. now apply Hk. Qed.
Lemma keeps_pret2 {A} (Q : A -> Prop) t x : good_tok t -> Q x -> keeps (good_at Q) (pret (t, x)).
Proof. intros. now apply keeps_ret. Qed.

(** Well-formed trees *)
Fixpoint formed (t : ast) : Prop :=
  match t with
  | ABool _ => True
  | ANum _ => True
  | AStr s => Forall code_point s
  | AVar v => variable_name v
  | ALit f ts an =>
      functor_name f /\ fold_right and True (map formed ts) /\ fold_right and True (map formed an)
  | AList ts => fold_right and True (map formed ts)
  | ALL h t => formed h /\ formed t
  | AUn _ a => formed a
  | ABin _ l r => formed l /\ formed r
  end.
Fixpoint formed_form (f : form) : Prop :=
  match f with
  | FForm _ t => formed t
  | FFor c b | FWhile c b => formed c /\ fold_right and True (map formed_form b)
  | FIf c ib eb =>
      formed c /\ fold_right and True (map formed_form ib) /\
      match eb with Some b => fold_right and True (map formed_form b) | None => True end
  end.
Definition formed_lit (l : alit) : Prop := formed (lit_ast l).
Definition formed_event (e : aevent) : Prop :=
  (ae_gt e = GtBelief \/ ae_gt e = GtAchieve \/ ae_gt e = GtTest) /\ formed_lit (ae_head e).
Definition formed_plan (p : aplan) : Prop :=
  (forall l, ap_annot p = Some l -> formed_lit l) /\
  formed_event (ap_event p) /\
  (forall c, ap_ctx p = Some c -> formed c) /\
  (forall b, ap_body p = Some b -> b <> [] /\ Forall formed_form b).

Lemma and_all {A} (Q : A -> Prop) l : fold_right and True (map Q l) <-> Forall Q l.
Proof.
  induction l as [|x l IH]; cbn; [split; [constructor|tauto]|]. rewrite IH. split; [intros [? ?]; now constructor|].
  intros H. inversion H; tauto.
Qed.

Definition kp (f : tok -> P (tok * ast)) : Prop := forall tk, good_tok tk -> keeps (good_at formed) (f tk).

Lemma keeps_binloop k sel operand : kp operand -> forall tk e, good_tok tk -> formed e ->
  keeps (good_at formed) (binloop k sel operand tk e).
Proof.
  intros Ho. induction k as [|k IH]; intros tk e Ht He; cbn [binloop]; (destruct (sel tk); [|now apply keeps_pret2]); [apply keeps_fail|].
  apply keeps_next_bind. intros t1 H1. apply (keeps_pair formed); [now apply Ho|]. intros t2 r H2 Hr. apply IH; [assumption|]. now split.
Qed.

Section Levels.
Variable atom : tok -> P (tok * ast).
Hypothesis Ha : kp atom.

Lemma keeps_factor k : kp (factor_lv atom k).
Proof.
  induction k as [|k IH]; intros tk Ht; cbn [factor_lv]; [apply keeps_fail|]. destruct (tk_unary tk).
  - apply keeps_next_bind. intros t1 H1. apply (keeps_pair formed); [now apply IH|]. intros t2 r H2 Hr. now apply keeps_pret2.
  - apply (keeps_pair formed); [now apply Ha|]. intros t2 r H2 Hr. now apply keeps_binloop.
Qed.
Lemma keeps_product k : kp (product_lv atom k).
Proof.
  intros tk Ht. apply (keeps_pair formed); [now apply keeps_factor|]. intros t2 r H2 Hr.
  apply keeps_binloop; [apply keeps_factor|assumption|assumption].
Qed.
Lemma keeps_arith k : kp (arith_lv atom k).
Proof.
  intros tk Ht. apply (keeps_pair formed); [now apply keeps_product|]. intros t2 r H2 Hr.
  apply keeps_binloop; [apply keeps_product|assumption|assumption].
Qed.
Lemma keeps_comp_loop operand j : kp operand -> forall tk c r, good_tok tk ->
  match c with Some e => formed e | None => True end -> formed r ->
  keeps (good_at formed) (comp_loop j operand tk c r).
Proof.
  intros Ho. induction j as [|j IH]; intros tk c r Ht Hc Hr; cbn [comp_loop]; (destruct (tk_comp tk);
    [|apply keeps_pret2; [assumption|]; now destruct c]); [apply keeps_fail|].
  apply keeps_next_bind. intros t1 H1. apply (keeps_pair formed); [now apply Ho|]. intros t2 x H2 Hx. cbv zeta.
  apply IH; [assumption| |assumption]. destruct c; cbn; tauto.
Qed.
Lemma keeps_comparison k : kp (comparison_lv atom k).
Proof.
  intros tk Ht. apply (keeps_pair formed); [now apply keeps_arith|]. intros t2 r H2 Hr.
  apply keeps_comp_loop; [apply keeps_arith|assumption|exact I|assumption].
Qed.
Lemma keeps_not_loop j k : kp (not_loop atom j k).
Proof.
  induction j as [|j IH]; intros tk Ht; cbn [not_loop]; (destruct (is_lex tk "not"); [|now apply keeps_comparison]); [apply keeps_fail|].
  apply keeps_next_bind. intros t1 H1. apply (keeps_pair formed); [now apply IH|]. intros t2 x H2 Hx. now apply keeps_pret2.
Qed.
Lemma keeps_and k : kp (and_lv atom k).
Proof.
  intros tk Ht. apply (keeps_pair formed); [now apply keeps_not_loop|]. intros t2 r H2 Hr.
  apply keeps_binloop; [intros t H; now apply keeps_not_loop|assumption|assumption].
Qed.
Lemma keeps_term k : kp (term_lv atom k).
Proof.
  intros tk Ht. apply (keeps_pair formed); [now apply keeps_and|]. intros t2 r H2 Hr.
  apply keeps_binloop; [apply keeps_and|assumption|assumption].
Qed.
End Levels.

Lemma keeps_terms_loop close term : kp term -> forall k acc, Forall formed acc ->
  keeps (good_at (Forall formed)) (terms_loop k close term acc).
Proof.
  intros Hterm. induction k as [|k IH]; intros acc Hacc; cbn [terms_loop]; [apply keeps_fail|].
  apply keeps_next_bind. intros t1 H1. apply (keeps_pair formed); [now apply Hterm|]. intros t2 x H2 Hx. cbv zeta.
  assert (Forall formed (acc ++ [x])) by (apply Forall_app; split; [assumption|now constructor]).
  destruct (is_lex t2 close); [apply keeps_next_bind; intros t3 H3; now apply keeps_pret2|].
  destruct (is_lex t2 ","); [now apply IH|apply keeps_raise].
Qed.

Lemma good_functor tk : good_tok tk -> tk_functor tk = true -> functor_name (t_lex tk).
Proof. unfold good_tok, tk_functor. destruct (t_kind tk); intros; try discriminate; assumption. Qed.

Lemma keeps_literal term k tk : kp term -> good_tok tk -> keeps (good_at formed_lit) (literal_lv term k tk).
Proof.
  intros Hterm Ht. unfold literal_lv. destruct (tk_functor tk) eqn:Ef; cbn [negb]; [|apply keeps_raise].
  apply keeps_next_bind. intros t1 H1. apply (keeps_pair (Forall formed)).
  { destruct (is_lex t1 "("); [now apply keeps_terms_loop|now apply keeps_pret2]. }
  intros t2 ts H2 Hts. apply (keeps_pair (Forall formed)).
  { destruct (is_lex t2 "["); [now apply keeps_terms_loop|now apply keeps_pret2]. }
  intros t3 an H3 Han. apply keeps_pret2; [assumption|]. unfold formed_lit, lit_ast. cbn [formed l_functor l_terms l_annots].
  rewrite !and_all. split; [now apply good_functor|tauto].
Qed.

Lemma keeps_tail_loop and_ : kp and_ -> forall k, keeps (good_at formed) (tail_loop k and_).
Proof.
  intros Hand. induction k as [|k IH]; cbn [tail_loop]; [apply keeps_fail|].
  apply keeps_next_bind. intros t1 H1. apply (keeps_pair formed); [now apply Hand|]. intros t2 x H2 Hx.
  destruct (is_lex t2 "|").
  { apply (keeps_pair formed); [exact IH|]. intros t3 y H3 Hy. apply keeps_pret2; [assumption|]. now split. }
  destruct (is_lex t2 "]"); [|apply keeps_raise]. apply keeps_next_bind. intros t3 H3. now apply keeps_pret2.
Qed.

Lemma keeps_list_loop and_ : kp and_ -> forall k tk acc, good_tok tk -> Forall formed acc ->
  keeps (good_at formed) (list_loop k and_ tk acc).
Proof.
  intros Hand. induction k as [|k IH]; intros tk acc Ht Hacc; cbn [list_loop];
    (destruct (is_lex tk "]"); [apply keeps_next_bind; intros t1 H1; apply keeps_pret2; [assumption|]; cbn [formed]; now rewrite and_all|]);
    [apply keeps_fail|].
  apply (keeps_pair formed); [now apply Hand|]. intros t1 x H1 Hx.
  assert (Forall formed (acc ++ [x])) by (apply Forall_app; split; [assumption|now constructor]).
  destruct (is_lex t1 "|").
  { destruct acc; [|apply keeps_raise]. apply (keeps_pair formed); [now apply keeps_tail_loop|]. intros t3 y H3 Hy.
    apply keeps_pret2; [assumption|]. now split. }
  destruct (is_lex t1 ","); [apply keeps_next_bind; intros t2 H2; now apply IH|].
  destruct (is_lex t1 "]"); [now apply IH|apply keeps_raise].
Qed.

Lemma keeps_atom n : kp (parse_atom n).
Proof.
  induction n as [|n IH]; intros tk Ht; cbn [parse_atom]; [apply keeps_fail|]. cbv zeta.
  destruct (tk_variable tk) eqn:Ev.
  { apply keeps_next_bind. intros t1 H1. apply keeps_pret2; [assumption|]. unfold good_tok, tk_variable in *.
    destruct (t_kind tk); try discriminate. exact Ht. }
  destruct (tk_functor tk) eqn:Ef.
  { apply (keeps_pair formed_lit); [apply keeps_literal; [now apply keeps_term|assumption]|]. intros t1 l H1 Hl. now apply keeps_pret2. }
  destruct (is_lex tk "["); [apply keeps_next_bind; intros t1 H1; apply keeps_list_loop; [now apply keeps_and|assumption|constructor]|].
  destruct (is_lex tk "(").
  { apply keeps_next_bind. intros t1 H1. apply (keeps_pair formed); [now apply keeps_term|]. intros t2 x H2 Hx.
    destruct (is_lex t2 ")"); [|apply keeps_raise]. apply keeps_next_bind. intros t3 H3. now apply keeps_pret2. }
  destruct (tk_numeric tk); [apply keeps_next_bind; intros t1 H1; now apply keeps_pret2|].
  destruct (tk_boolean tk); [apply keeps_next_bind; intros t1 H1; now apply keeps_pret2|].
  destruct (tk_string tk) eqn:Es; [|apply keeps_raise]. destruct (parse_string (t_lex tk)) as [s|] eqn:Ep; [|apply keeps_fail].
  apply keeps_next_bind. intros t1 H1. apply keeps_pret2; [assumption|]. cbn [formed]. unfold good_tok, tk_string in *.
  destruct (t_kind tk); try discriminate. eapply parse_string_points; eassumption.
Qed.

Lemma keeps_parse_term n : kp (parse_term n).
Proof. apply keeps_term, keeps_atom. Qed.
Lemma keeps_parse_literal n tk : good_tok tk -> keeps (good_at formed_lit) (parse_literal n tk).
Proof. intros H. apply keeps_literal; [apply keeps_parse_term|assumption]. Qed.

Lemma keeps_expect tk s : keeps good_tok (expect tk s).
Proof. unfold expect. destruct (is_lex tk s); [apply keeps_next|apply keeps_raise]. Qed.

Lemma keeps_condition n tk : good_tok tk -> keeps (good_at formed) (condition n tk).
Proof.
  intros Ht. unfold condition. eapply keeps_bind; [apply keeps_expect|]. intros t1 H1.
  apply (keeps_pair formed); [now apply keeps_parse_term|]. intros t2 c H2 Hc.
  eapply keeps_bind; [apply keeps_expect|]. intros t3 H3. now apply keeps_pret2.
Qed.

Definition kf (f : tok -> P (tok * form)) : Prop := forall tk, good_tok tk -> keeps (good_at formed_form) (f tk).

Lemma snoc_all {A} (Q : A -> Prop) l x : Forall Q l -> Q x -> Forall Q (l ++ [x]).
Proof. intros. apply Forall_app. split; [assumption|now constructor]. Qed.

Lemma keeps_body_loop formula : kf formula -> forall k tk acc, good_tok tk -> Forall formed_form acc ->
  keeps (good_at (Forall formed_form)) (body_loop k formula tk acc).
Proof.
  intros Hf. induction k as [|k IH]; intros tk acc Ht Hacc; cbn [body_loop];
    (destruct (is_lex tk "}"); [now apply keeps_pret2|]); [apply keeps_fail|].
  apply (keeps_pair formed_form); [now apply Hf|]. intros t1 f H1 Hff. cbv zeta.
  pose proof (snoc_all _ _ _ Hacc Hff) as Hs.
  destruct (is_lex t1 ";").
  { apply keeps_next_bind. intros t2 H2. destruct (is_lex t2 "}"); [now apply keeps_pret2|now apply IH]. }
  destruct (is_lex t1 "}"); [now apply keeps_pret2|]. destruct (is_formula f); [apply keeps_raise|now apply IH].
Qed.

Lemma keeps_block body tk : (forall t, good_tok t -> keeps (good_at (Forall formed_form)) (body t)) -> good_tok tk ->
  keeps (good_at (Forall formed_form)) (block_lv body tk).
Proof.
  intros Hb Ht. unfold block_lv. eapply keeps_bind; [apply keeps_expect|]. intros t1 H1.
  apply (keeps_pair (Forall formed_form)); [now apply Hb|]. intros t2 c H2 Hc.
  eapply keeps_bind; [apply keeps_expect|]. intros t3 H3. now apply keeps_pret2.
Qed.

Lemma keeps_formula n : kf (parse_formula n).
Proof.
  induction n as [|n IH]; intros tk Ht; cbn [parse_formula]; [apply keeps_fail|]. cbv zeta.
  assert (B : forall t, good_tok t ->
    keeps (good_at (Forall formed_form)) (block_lv (fun tk => body_loop n (parse_formula n) tk []) t)).
  { intros t H. apply keeps_block; [|assumption]. intros t' H'. now apply keeps_body_loop. }
  destruct (is_lex tk "while").
  { apply keeps_next_bind. intros t1 H1. apply (keeps_pair formed); [now apply keeps_condition|]. intros t2 c H2 Hc.
    apply (keeps_pair (Forall formed_form)); [now apply B|]. intros t3 b H3 Hb. apply keeps_pret2; [assumption|].
    cbn [formed_form]. now rewrite and_all. }
  destruct (is_lex tk "if").
  { apply keeps_next_bind. intros t1 H1. apply (keeps_pair formed); [now apply keeps_condition|]. intros t2 c H2 Hc.
    apply (keeps_pair (Forall formed_form)); [now apply B|]. intros t3 b H3 Hb.
    destruct (is_lex t3 "else").
    - apply keeps_next_bind. intros t4 H4. apply (keeps_pair (Forall formed_form)); [now apply B|]. intros t5 b2 H5 Hb2.
      apply keeps_pret2; [assumption|]. cbn [formed_form]. now rewrite !and_all.
    - apply keeps_pret2; [assumption|]. cbn [formed_form]. now rewrite and_all. }
  destruct (is_lex tk "for").
  { apply keeps_next_bind. intros t1 H1. apply (keeps_pair formed); [now apply keeps_condition|]. intros t2 c H2 Hc.
    apply (keeps_pair (Forall formed_form)); [now apply B|]. intros t3 b H3 Hb. apply keeps_pret2; [assumption|].
    cbn [formed_form]. now rewrite and_all. }
  destruct (tk_formula tk).
  - apply keeps_next_bind. intros t1 H1. apply (keeps_pair formed); [now apply keeps_parse_term|]. intros t2 c H2 Hc. now apply keeps_pret2.
  - apply (keeps_pair formed); [now apply keeps_parse_term|]. intros t2 c H2 Hc. now apply keeps_pret2.
Qed.

Lemma keeps_plan_body n : forall k tk acc, good_tok tk -> Forall formed_form acc ->
  keeps (good_at (fun l => l <> [] /\ Forall formed_form l)) (plan_body_loop k n tk acc).
Proof.
  induction k as [|k IH]; intros tk acc Ht Hacc; cbn [plan_body_loop]; [apply keeps_fail|].
  apply (keeps_pair formed_form); [now apply keeps_formula|]. intros t1 f H1 Hf. cbv zeta.
  pose proof (snoc_all _ _ _ Hacc Hf) as Hs.
  destruct (is_lex t1 ";"); [apply keeps_next_bind; intros t2 H2; now apply IH|].
  destruct (is_lex t1 "."); [|destruct (is_formula f); [apply keeps_raise|now apply IH]].
  apply keeps_pret2; [assumption|]. split; [|assumption]. now destruct acc.
Qed.

Lemma keeps_event n tk : good_tok tk -> keeps (good_at formed_event) (parse_event n tk).
Proof.
  intros Ht. unfold parse_event. destruct (tk_trigger tk); [|apply keeps_raise]. apply keeps_next_bind. intros t1 H1.
  apply (keeps_pair (fun g => g = GtBelief \/ g = GtAchieve \/ g = GtTest)).
  { destruct (tk_goal t1) eqn:Eg; [|apply keeps_pret2; [assumption|tauto]].
    apply keeps_next_bind. intros t2 H2. apply keeps_pret2; [assumption|]. unfold tk_goal in Eg.
    destruct (t_kind t1); try discriminate; injection Eg as <-; tauto. }
  intros t2 g H2 Hg. apply (keeps_pair formed_lit); [now apply keeps_parse_literal|]. intros t3 h H3 Hh.
  apply keeps_pret2; [assumption|]. now split.
Qed.

Lemma keeps_plan n tk : good_tok tk -> keeps (good_at formed_plan) (parse_plan n tk).
Proof.
  intros Ht. unfold parse_plan.
  apply (keeps_pair (fun o => forall l, o = Some l -> formed_lit l)).
  { destruct (is_lex tk "@"); [|apply keeps_pret2; [assumption|discriminate]].
    apply keeps_next_bind. intros t1 H1. apply (keeps_pair formed_lit); [now apply keeps_parse_literal|]. intros t2 l H2 Hl.
    apply keeps_pret2; [assumption|]. intros l' E. now injection E as <-. }
  intros t1 an H1 Han. apply (keeps_pair formed_event); [now apply keeps_event|]. intros t2 e H2 He.
  apply (keeps_pair (fun o => forall l, o = Some l -> formed l)).
  { destruct (is_lex t2 ":"); [|apply keeps_pret2; [assumption|discriminate]].
    apply keeps_next_bind. intros t3 H3. apply (keeps_pair formed); [now apply keeps_parse_term|]. intros t4 l H4 Hl.
    apply keeps_pret2; [assumption|]. intros l' E. now injection E as <-. }
  intros t3 c H3 Hc. apply (keeps_pair (fun o => forall b, o = Some b -> b <> [] /\ Forall formed_form b)).
  { destruct (is_lex t3 "<-"); [|apply keeps_pret2; [assumption|discriminate]].
    apply keeps_next_bind. intros t4 H4. apply (keeps_pair (fun l => l <> [] /\ Forall formed_form l)).
    { now apply keeps_plan_body. }
    intros t5 l H5 Hl. apply keeps_pret2; [assumption|]. intros l' E. now injection E as <-. }
  intros t4 b H4 Hb. apply keeps_pret2; [assumption|]. unfold formed_plan. cbn [ap_annot ap_event ap_ctx ap_body]. tauto.
Qed.

Lemma came_keeps {A} (parse : nat -> tok -> P (tok * A)) Q a :
  (forall n tk, good_tok tk -> keeps (good_at Q) (parse n tk)) -> came parse a -> Q a.
Proof.
  intros H (n & source & items & before & first & rest & lg & own & tk & s & Hc & Et & -> & E).
  apply tokenize_good in Et; [|assumption]. apply Forall_app in Et as [_ Et]. inversion Et as [|? ? H1 H2]; subst.
  specialize (H n first H1 (mkpst rest lg own) H2). rewrite E in H. now destruct H as [_ [_ H]].
Qed.

(** ** Trees of the parser are readable, up to numbers and empty branches *)
Section WithPy.
Context {PY : Py}.

Lemma exact_readable t : formed t -> exact t -> readable t.
Proof.
  induction t as [b|x|s|v|f ts an Hts Han|ts Hts|h t IHh IHt|op b IH|op a b IHl IHr] using ast_ind';
    cbn [formed exact readable]; intros Hf He; try assumption; try tauto; rewrite ?and_all in *.
  - destruct Hf as (Hf & H1 & H2). destruct He as [H3 H4]. split; [assumption|]. rewrite !Forall_forall in *.
    split; intros x Hx; [apply Hts|apply Han]; auto.
  - rewrite !Forall_forall in *. intros x Hx. apply Hts; auto.
Qed.

Lemma exact_form_readable f : formed_form f -> exact_form f -> readable_form f.
Proof.
  induction f as [ft t|c b IH|c ib eb IHi IHe|c b IH] using form_ind'; cbn [formed_form exact_form readable_form];
    rewrite ?and_all; intros Hf He.
  - now apply exact_readable.
  - destruct Hf, He. split; [now apply exact_readable|]. rewrite !Forall_forall in *. auto.
  - destruct Hf as (F1 & F2 & F3), He as (E1 & E2 & E3). split; [now apply exact_readable|].
    split; [rewrite !Forall_forall in *; auto|]. destruct eb as [b|]; [|exact I]. destruct E3 as [E3 E4].
    rewrite and_all in *. split; [assumption|]. cbn [opt_all] in IHe. rewrite !Forall_forall in *. auto.
  - destruct Hf, He. split; [now apply exact_readable|]. rewrite !Forall_forall in *. auto.
Qed.

Lemma exact_plan_readable p : formed_plan p -> exact_plan p -> readable_plan p.
Proof.
  intros (F1 & F2 & F3 & F4) (E1 & E2 & E3 & E4). split; [|split; [|split]].
  - intros l H. apply exact_readable; [now apply F1|now apply E1].
  - destruct F2 as [F2 F5]. split; [assumption|]. now apply exact_readable.
  - intros c H. apply exact_readable; [now apply F3|now apply E3].
  - intros b H. destruct (F4 b H) as [H1 H2]. split; [assumption|]. specialize (E4 b H). rewrite !Forall_forall in *.
    intros x Hx. apply exact_form_readable; auto.
Qed.
End WithPy.
