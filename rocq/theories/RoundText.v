(** The tokens of printed expressions, formulas and plans. *)
From Verif Require Import Base Num Term Str World Ast Names Quote QuoteSpec Lex LexSpec LexCor
  Parse RoundSpec RoundLex RoundTok.

Section WithPy.
Context {PY : Py}.

Definition wd (k : kind) (s : string) : word := (k, s2p s).

Definition unop_word (op : unop) : word :=
  match op with UNot => wd KNot "not" | UPos => wd KPlus "+" | UNeg => wd KMinus "-" end.
Definition binop_word (op : binop) : word :=
  match op with
  | BNum NPow => wd KPower "**" | BNum NMul => wd KMult "*" | BNum NTruediv => wd KFdiv "/"
  | BNum NFloordiv => wd KDiv "div" | BNum NMod => wd KMod "mod" | BNum NAdd => wd KPlus "+" | BNum NSub => wd KMinus "-"
  | BUnify => wd KUnify "=" | BDecompose => wd KDecompose "=.."
  | BCmp CLt => wd KLt "<" | BCmp CLe => wd KLe "<=" | BCmp CGt => wd KGt ">" | BCmp CGe => wd KGe ">="
  | BEq => wd KEq "==" | BNe => wd KNe "\==" | BAnd => wd KAnd "&" | BOr => wd KOr "|"
  end.

Fixpoint joinw (sep : list word) (l : list (list word)) : list word :=
  match l with [] => [] | [x] => x | x :: l' => x ++ sep ++ joinw sep l' end.

Definition commas : list (list word) -> list word := joinw [wd KComma ","].

Fixpoint ast_toks (t : ast) : list word :=
  match t with
  | ABool b => [(if b then KTrue else KFalse, s2p (if b then "true" else "false"))]
  | ANum x => [(KNumeric, num_asl x)]
  | AStr s => [(KString, str_repr s)]
  | AVar v => [(KVariable, v)]
  | ALit f ts an =>
      (KFunctor, f) :: (match ts with [] => [] | _ => wd KParenOpen "(" :: commas (map ast_toks ts) ++ [wd KParenClose ")"] end)
      ++ (match an with [] => [] | _ => wd KBracketOpen "[" :: commas (map ast_toks an) ++ [wd KBracketClose "]"] end)
  | AList ts => wd KBracketOpen "[" :: commas (map ast_toks ts) ++ [wd KBracketClose "]"]
  | ALL h t => wd KBracketOpen "[" :: ast_toks h ++ wd KOr "|" :: ast_toks t ++ [wd KBracketClose "]"]
  | AUn op a => wd KParenOpen "(" :: unop_word op :: ast_toks a ++ [wd KParenClose ")"]
  | ABin op l r => wd KParenOpen "(" :: ast_toks l ++ binop_word op :: ast_toks r ++ [wd KParenClose ")"]
  end.

Definition good (t : ast) : Prop := forall a, stop a -> sp (ast_str t) a (ast_toks t).

Lemma fold_and {A} (Q : A -> Prop) l : fold_right and True (map Q l) <-> Forall Q l.
Proof.
  induction l as [|x l IH]; cbn; [split; [constructor|trivial]|]. rewrite IH. split.
  - intros [H1 H2]. now constructor.
  - intros H. now inversion H.
Qed.

Lemma sp_closed k t s a l : closed k t -> sp s a l -> sp (s2p t ++ s) a ((k, s2p t) :: l).
Proof. intros H Hs. constructor; [now apply tok_closed|assumption]. Qed.

Ltac in_list := unfold closed, spaced; cbn [In]; tauto.
Ltac is_stop := cbn; repeat split; discriminate.

Lemma sp_space1 s a l : sp s a l -> sp (s2p " " ++ s) a l.
Proof. intros H. apply sp_space; [now left|assumption]. Qed.

Lemma sp_spaced k t s a l : spaced k t -> sp s a l -> sp (s2p t ++ s2p " " ++ s) a ((k, s2p t) :: l).
Proof.
  intros H Hs. constructor; [|now apply sp_space1]. apply (tok_spaced k t 32%N); [assumption|now left].
Qed.

Lemma sp_good t s a l : good t -> stop (s ++ a) -> sp s a l -> sp (ast_str t ++ s) a (ast_toks t ++ l).
Proof. intros Hg Hs H. apply sp_app; [now apply Hg|assumption]. Qed.

Lemma joins_cons2 sep x y l : joins sep (x :: y :: l) = x ++ sep ++ joins sep (y :: l).
Proof. reflexivity. Qed.
Lemma joinw_cons2 sep x y l : joinw sep (x :: y :: l) = x ++ sep ++ joinw sep (y :: l).
Proof. reflexivity. Qed.

Lemma sp_commas ts : Forall good ts -> forall s a l, stop (s ++ a) -> sp s a l ->
  sp (joins (s2p ", ") (map ast_str ts) ++ s) a (commas (map ast_toks ts) ++ l).
Proof.
  induction 1 as [|t ts Ht Hts IH]; intros s a l Hs H; [assumption|].
  destruct ts as [|u ts]; [now apply sp_good|].
  cbn [map] in *. rewrite joins_cons2. unfold commas in *. rewrite joinw_cons2, <- !app_assoc.
  apply sp_good; [assumption|is_stop|].
  change (s2p ", ") with (s2p "," ++ s2p " "). rewrite <- app_assoc.
  apply sp_closed; [in_list|]. apply sp_space1. now apply IH.
Qed.

Lemma un_lex op : unop_lex op = snd (unop_word op).
Proof. now destruct op. Qed.
Lemma bin_lex op : binop_lex op = snd (binop_word op).
Proof. destruct op as [[]| | |[]| | | |]; reflexivity. Qed.

Lemma spaced_un op : exists t, spaced (fst (unop_word op)) t /\ unop_word op = wd (fst (unop_word op)) t.
Proof. destruct op; eexists; (split; [|reflexivity]); in_list. Qed.
Lemma spaced_bin op : exists t, spaced (fst (binop_word op)) t /\ binop_word op = wd (fst (binop_word op)) t.
Proof. destruct op as [[]| | |[]| | | |]; eexists; (split; [|reflexivity]); in_list. Qed.

Lemma head_opens f c v a : f = c :: v ->
  (is_lower c = true \/ is_upper c = true \/ is_digit c = true \/ In c [34; 40; 46; 91; 95; 126]%N) -> opens (f ++ a).
Proof.
  intros -> H. cbn.
  assert (c <> 33 /\ c <> 38 /\ c <> 124 /\ c <> 43 /\ c <> 45)%N; [|tauto].
  destruct H as [H|[H|[H|H]]]; [apply lower_range in H; lia|apply upper_range in H; lia|apply digit_range in H; lia|].
  cbn in H. repeat (destruct H as [<-|H]; [lia|]). destruct H.
Qed.

Lemma ast_opens t a : readable t -> opens (ast_str t ++ a).
Proof.
  destruct t as [b|x|s|v|f ts an|ts|h t|op b|op l r]; cbn [readable ast_str asl_repr]; intros H.
  - destruct b; (eapply head_opens; [reflexivity|left; reflexivity]).
  - destruct H as (m & e & E & Hm & He & _). rewrite E.
    destruct (numeric_head (m ++ e)) as (c & t & Ec & Hc); [exists m, e; tauto|].
    eapply head_opens; [exact Ec|]. destruct Hc as [Hc|(-> & _)]; [tauto|cbn; tauto].
  - eapply head_opens; [reflexivity|cbn; tauto].
  - destruct (variable_head _ H) as (c & t & E & Hc). eapply head_opens; [exact E|].
    destruct Hc as [Hc| ->]; [tauto|cbn; tauto].
  - destruct H as (H & _). destruct (functor_head _ H) as (c & v & E & Hc). rewrite <- app_assoc.
    eapply head_opens; [exact E|]. destruct Hc as [Hc|[-> | ->]]; [tauto|cbn; tauto|cbn; tauto].
  - eapply head_opens; [reflexivity|cbn; tauto].
  - eapply head_opens; [reflexivity|cbn; tauto].
  - eapply head_opens; [reflexivity|cbn; tauto].
  - eapply head_opens; [reflexivity|cbn; tauto].
Qed.

Lemma sp_ast t : readable t -> good t.
Proof.
  induction t as [b|x|s|v|f ts an Hts Han|ts Hts|h t IHh IHt|op b IH|op l r IHl IHr] using ast_ind'; intros Hr a Ha;
    cbn [readable] in Hr; cbn [ast_str ast_toks].
  - replace (asl_repr (TBool b)) with (s2p (if b then "true" else "false")) by now destruct b. apply sp_one. now apply tok_bool.
  - destruct Hr as (m & e & E & Hm & He & _). cbn [asl_repr]. apply sp_one. apply tok_numeric; [|assumption].
    rewrite E. exists m, e. tauto.
  - apply sp_one. now apply tok_string.
  - apply sp_one. now apply tok_variable.
  - destruct Hr as (Hf & H1 & H2). rewrite fold_and in H1, H2.
    assert (G1 : Forall good ts).
    { rewrite Forall_forall in *. intros x Hx. apply Hts; [assumption|]. now apply H1. }
    assert (G2 : Forall good an).
    { rewrite Forall_forall in *. intros x Hx. apply Han; [assumption|]. now apply H2. }
    assert (S2 : sp (match an with [] => [] | _ => s2p "[" ++ joins (s2p ", ") (map ast_str an) ++ s2p "]" end) a
      (match an with [] => [] | _ => wd KBracketOpen "[" :: commas (map ast_toks an) ++ [wd KBracketClose "]"] end)).
    { destruct an as [|y an]; [constructor|]. apply sp_closed; [in_list|]. apply sp_commas; [assumption|is_stop|].
      apply sp_one, tok_closed. in_list. }
    assert (T2 : stop (match an with [] => [] | _ => s2p "[" ++ joins (s2p ", ") (map ast_str an) ++ s2p "]" end ++ a)).
    { destruct an; [assumption|is_stop]. }
    apply sp_tok.
    + apply tok_functor; [assumption|]. destruct ts; [assumption|is_stop].
    + destruct ts as [|y ts]; [assumption|]. rewrite <- !app_assoc. cbn [app]. rewrite <- app_assoc.
      apply sp_closed; [in_list|]. apply sp_commas; [assumption|is_stop|]. cbn [app]. apply sp_closed; [in_list|assumption].
  - rewrite fold_and in Hr. apply sp_closed; [in_list|]. apply sp_commas; [|is_stop|apply sp_one, tok_closed; in_list].
    rewrite Forall_forall in *. intros x Hx. apply Hts; [assumption|]. now apply Hr.
  - destruct Hr as [H1 H2]. apply sp_closed; [in_list|]. apply sp_good; [now apply IHh|is_stop|].
    apply sp_tok.
    + apply tok_opens; [in_list|]. rewrite <- app_assoc. now apply ast_opens.
    + apply sp_good; [now apply IHt|is_stop|]. apply sp_one, tok_closed. in_list.
  - apply sp_closed; [in_list|]. rewrite un_lex. destruct (spaced_un op) as (t & H1 & H2). rewrite H2. cbn [snd wd].
    apply sp_spaced; [assumption|]. apply sp_good; [now apply IH|is_stop|]. apply sp_one, tok_closed. in_list.
  - destruct Hr as [H1 H2]. apply sp_closed; [in_list|]. apply sp_good; [now apply IHl|is_stop|]. apply sp_space1.
    rewrite bin_lex. destruct (spaced_bin op) as (t & H3 & H4). rewrite H4. cbn [snd wd].
    apply sp_spaced; [assumption|]. apply sp_good; [now apply IHr|is_stop|]. apply sp_one, tok_closed. in_list.
Qed.

(** ** No newline inside expressions, none at the end of formulas *)

Lemma clean_app u v : clean u -> clean v -> clean (u ++ v).
Proof. intros. apply Forall_app. now split. Qed.

Lemma clean_lex t : forallb (fun c => negb (c =? 9)%N && negb (c =? 10)%N) (s2p t) = true -> clean (s2p t).
Proof. apply clean_bool. Qed.

Lemma clean_joins sep l : clean sep -> Forall clean l -> clean (joins sep l).
Proof.
  intros Hs. induction 1 as [|x l Hx Hl IH]; [constructor|]. destruct l as [|y l]; [assumption|].
  rewrite joins_cons2. apply clean_app; [assumption|]. now apply clean_app.
Qed.

Lemma tokc_clean k w r : tokc k w r -> clean w.
Proof. now intros (_ & H & _). Qed.

Ltac clean_parts := repeat first [apply clean_app | now apply clean_bool | apply clean_joins; [now apply clean_bool|] | assumption].

Lemma ast_clean t : readable t -> clean (ast_str t).
Proof.
  induction t as [b|x|s|v|f ts an Hts Han|ts Hts|h t IHh IHt|op b IH|op l r IHl IHr] using ast_ind'; intros Hr;
    cbn [readable] in Hr; cbn [ast_str].
  - destruct b; now apply clean_bool.
  - destruct Hr as (m & e & E & Hm & He & _). cbn [asl_repr]. rewrite E. apply numeric_clean. exists m, e. tauto.
  - eapply tokc_clean. now apply (tok_string s []).
  - eapply tokc_clean. now apply (tok_variable v []).
  - destruct Hr as (Hf & H1 & H2). rewrite fold_and in H1, H2.
    assert (G1 : Forall clean (map ast_str ts)).
    { rewrite Forall_forall in *. intros y Hy. apply in_map_iff in Hy as (x & <- & Hx). apply Hts; [assumption|]. now apply H1. }
    assert (G2 : Forall clean (map ast_str an)).
    { rewrite Forall_forall in *. intros y Hy. apply in_map_iff in Hy as (x & <- & Hx). apply Han; [assumption|]. now apply H2. }
    apply clean_app; [eapply tokc_clean; now apply (tok_functor f [])|].
    apply clean_app; [destruct ts; [constructor|clean_parts]|destruct an; [constructor|clean_parts]].
  - rewrite fold_and in Hr.
    assert (G1 : Forall clean (map ast_str ts)).
    { rewrite Forall_forall in *. intros y Hy. apply in_map_iff in Hy as (x & <- & Hx). apply Hts; [assumption|]. now apply Hr. }
    clean_parts.
  - destruct Hr as [H1 H2]. specialize (IHh H1). specialize (IHt H2). clean_parts.
  - specialize (IH Hr). destruct op; cbn [unop_lex]; clean_parts.
  - destruct Hr as [H1 H2]. specialize (IHl H1). specialize (IHr H2). destruct op as [[]| | |[]| | | |]; cbn [binop_lex nop_lex cop_lex]; clean_parts.
Qed.

(** Ends with a character that is not a newline. *)
Definition closed_text (s : pystr) : Prop := s <> [] /\ last s 0%N <> 10%N.

Lemma closed_app u v : closed_text v -> closed_text (u ++ v).
Proof.
  intros [H1 H2]. split; [intros E; apply app_eq_nil in E; tauto|].
  induction u as [|c u IH]; [assumption|]. cbn [app]. destruct (u ++ v) eqn:E; [|exact IH].
  apply app_eq_nil in E. tauto.
Qed.

Lemma clean_closed s : clean s -> s <> [] -> closed_text s.
Proof.
  intros H Hn. split; [assumption|]. induction H as [|c s [H1 H2] Hs IH]; [congruence|].
  destruct s as [|d s]; [assumption|]. cbn [last]. apply IH. discriminate.
Qed.

Lemma ast_closed t : readable t -> closed_text (ast_str t).
Proof.
  intros H. apply clean_closed; [now apply ast_clean|]. intros E. pose proof (ast_opens t [] H) as X. rewrite E in X. exact X.
Qed.

Lemma form_closed f : readable_form f -> closed_text (form_str f).
Proof.
  destruct f as [ft t|g b|c ib eb|c b]; cbn [readable_form form_str]; intros H.
  - apply closed_app. now apply ast_closed.
  - repeat apply closed_app. split; [discriminate|]. cbn. discriminate.
  - repeat apply closed_app. split; [discriminate|]. cbn. discriminate.
  - repeat apply closed_app. split; [discriminate|]. cbn. discriminate.
Qed.

Lemma body_closed b : b <> [] -> Forall readable_form b -> closed_text (body_str b).
Proof.
  intros Hn H. unfold body_str. induction H as [|f b Hf Hb IH]; [congruence|]. cbn [map].
  destruct b as [|g b]; [now apply form_closed|]. cbn [map] in *. rewrite joins_cons2. apply closed_app, closed_app.
  apply IH. discriminate.
Qed.

(** ** Formulas *)

Definition ftype_toks (ft : ftype) : list word :=
  match ft with
  | FtTerm => [] | FtTest => [wd KQuestion "?"] | FtAchieve => [wd KExclam "!"] | FtAchieveLater => [wd KDoubleExclam "!!"]
  | FtAdd => [wd KPlus "+"] | FtRemove => [wd KMinus "-"] | FtReplace => [wd KMinusPlus "-+"]
  end.

Definition semis : list (list word) -> list word := joinw [wd KSemicolon ";"].

Definition cond_toks (k : kind) (t : string) (c : ast) : list word :=
  wd k t :: wd KParenOpen "(" :: ast_toks c ++ [wd KParenClose ")"; wd KBraceOpen "{"].

Fixpoint form_toks (f : form) : list word :=
  let blk (l : list form) := match l with [] => [] | _ => semis (map form_toks l) ++ [wd KSemicolon ";"] end in
  match f with
  | FForm ft t => ftype_toks ft ++ ast_toks t
  | FFor g b => cond_toks KFor "for" g ++ blk b ++ [wd KBraceClose "}"]
  | FWhile c b => cond_toks KWhile "while" c ++ blk b ++ [wd KBraceClose "}"]
  | FIf c ib eb =>
      cond_toks KIf "if" c ++ blk ib
      ++ (match eb with
          | Some ((_ :: _) as b) => wd KBraceClose "}" :: wd KElse "else" :: wd KBraceOpen "{" :: blk b
          | _ => []
          end)
      ++ [wd KBraceClose "}"]
  end.
Definition body_toks (l : list form) : list word := semis (map form_toks l).
Definition block_toks (l : list form) : list word := match l with [] => [] | _ => body_toks l ++ [wd KSemicolon ";"] end.

Definition goodf (f : form) : Prop := forall a, stop a -> sp (form_str f) a (form_toks f).

Lemma sp_nl s a l : sp s a l -> sp (nl ++ s) a l.
Proof. intros H. apply sp_space; [now right|assumption]. Qed.

Lemma sp_body b : Forall goodf b -> forall a, stop a -> sp (body_str b) a (body_toks b).
Proof.
  unfold body_str, body_toks, semis. induction 1 as [|f b Hf Hb IH]; intros a Ha; [constructor|].
  cbn [map]. destruct b as [|g b]; [now apply Hf|]. cbn [map] in *. rewrite joins_cons2, joinw_cons2.
  apply sp_app; [apply Hf; is_stop|]. rewrite <- app_assoc. cbn [app]. apply sp_closed; [in_list|]. apply sp_nl.
  now apply IH.
Qed.

Lemma sp_block b : Forall readable_form b -> Forall goodf b -> forall s a l, sp s a l ->
  sp (block (body_str b) (match b with [] => true | _ => false end) ++ s) a (block_toks b ++ l).
Proof.
  intros Hr Hg s a l H. destruct b as [|f b]; [assumption|]. unfold block, block_toks.
  destruct (body_closed (f :: b)) as [H1 H2]; [discriminate|assumption|].
  rewrite indent_ind by assumption. rewrite <- !app_assoc.
  change (s2p "  ") with (s2p " " ++ s2p " "). rewrite <- app_assoc. apply sp_space1, sp_space1.
  apply sp_app; [apply sp_indented, sp_body; [assumption|is_stop]|]. cbn [app]. apply sp_closed; [in_list|].
  now apply sp_nl.
Qed.

Lemma sp_cond k t c s a l : spaced k t -> good c -> sp s a l ->
  sp (s2p t ++ s2p " (" ++ ast_str c ++ s2p ") {" ++ nl ++ s) a (cond_toks k t c ++ l).
Proof.
  intros Hk Hc H. unfold cond_toks. cbn [app]. rewrite <- app_assoc. cbn [app].
  change (s2p " (") with (s2p " " ++ s2p "("). rewrite <- app_assoc. apply sp_spaced; [assumption|].
  apply sp_closed; [in_list|]. apply sp_good; [assumption|is_stop|].
  change (s2p ") {") with (s2p ")" ++ s2p " " ++ s2p "{"). rewrite <- !app_assoc. apply sp_closed; [in_list|].
  apply sp_space1. apply sp_closed; [in_list|]. now apply sp_nl.
Qed.

Lemma sp_form f : readable_form f -> goodf f.
Proof.
  induction f as [ft t|g b IH|c ib eb IHi IHe|c b IH] using form_ind'; intros Hr a Ha; cbn [readable_form] in Hr.
  - cbn [form_str form_toks]. pose proof (sp_ast t Hr a Ha) as Ht.
    destruct ft; cbn [ftype_lex ftype_toks app]; try assumption; try (apply sp_closed; [in_list|assumption]).
    + apply sp_tok; [apply tok_opens; [in_list|now apply ast_opens]|assumption].
    + apply sp_tok; [apply tok_opens; [in_list|now apply ast_opens]|assumption].
  - destruct Hr as [H1 H2]. rewrite fold_and in H2.
    assert (G : Forall goodf b) by (rewrite Forall_forall in *; intros x Hx; apply IH; [assumption|now apply H2]).
    change (form_str (FFor g b)) with
      (s2p "for" ++ s2p " (" ++ ast_str g ++ s2p ") {" ++ nl ++ block (body_str b) (match b with [] => true | _ => false end) ++ s2p "}").
    change (form_toks (FFor g b)) with (cond_toks KFor "for" g ++ block_toks b ++ [wd KBraceClose "}"]).
    apply sp_cond; [in_list|now apply sp_ast|]. apply sp_block; [assumption|assumption|]. apply sp_one, tok_closed. in_list.
  - destruct Hr as (H1 & H2 & H3). rewrite fold_and in H2.
    assert (G : Forall goodf ib) by (rewrite Forall_forall in *; intros x Hx; apply IHi; [assumption|now apply H2]).
    change (form_str (FIf c ib eb)) with
      (s2p "if" ++ s2p " (" ++ ast_str c ++ s2p ") {" ++ nl ++ block (body_str ib) (match ib with [] => true | _ => false end) ++
       (match eb with Some ((_ :: _) as b) => s2p "} else {" ++ nl ++ block (body_str b) false | _ => [] end) ++ s2p "}").
    change (form_toks (FIf c ib eb)) with
      (cond_toks KIf "if" c ++ block_toks ib ++
       (match eb with Some ((_ :: _) as b) => wd KBraceClose "}" :: wd KElse "else" :: wd KBraceOpen "{" :: block_toks b | _ => [] end)
       ++ [wd KBraceClose "}"]).
    apply sp_cond; [in_list|now apply sp_ast|]. apply sp_block; [assumption|assumption|].
    destruct eb as [b|]; [|apply sp_one, tok_closed; in_list]. destruct H3 as [H3 H4]. rewrite fold_and in H4.
    destruct b as [|f b]; [congruence|]. rewrite <- !app_assoc. cbn [app].
    change (s2p "} else {") with (s2p "}" ++ s2p " " ++ s2p "else" ++ s2p " " ++ s2p "{"). rewrite <- !app_assoc.
    apply sp_closed; [in_list|]. apply sp_space1, sp_spaced; [in_list|]. apply sp_closed; [in_list|]. apply sp_nl.
    apply (sp_block (f :: b)); [assumption| |apply sp_one, tok_closed; in_list].
    cbn [opt_all] in IHe. rewrite Forall_forall in *. intros x Hx. apply IHe; [assumption|now apply H4].
  - destruct Hr as [H1 H2]. rewrite fold_and in H2.
    assert (G : Forall goodf b) by (rewrite Forall_forall in *; intros x Hx; apply IH; [assumption|now apply H2]).
    change (form_str (FWhile c b)) with
      (s2p "while" ++ s2p " (" ++ ast_str c ++ s2p ") {" ++ nl ++ block (body_str b) (match b with [] => true | _ => false end) ++ s2p "}").
    change (form_toks (FWhile c b)) with (cond_toks KWhile "while" c ++ block_toks b ++ [wd KBraceClose "}"]).
    apply sp_cond; [in_list|now apply sp_ast|]. apply sp_block; [assumption|assumption|]. apply sp_one, tok_closed. in_list.
Qed.

(** ** Events, plans, rules *)

Definition lit_toks (l : alit) : list word := ast_toks (lit_ast l).
Definition event_toks (e : aevent) : list word :=
  (match ae_trig e with TrAdd => wd KPlus "+" | TrRem => wd KMinus "-" end)
  :: (match ae_gt e with GtAchieve => [wd KExclam "!"] | GtTest => [wd KQuestion "?"] | _ => [] end)
  ++ lit_toks (ae_head e).
Definition plan_toks (p : aplan) : list word :=
  (match ap_annot p with Some l => wd KAt "@" :: lit_toks l | None => [] end)
  ++ event_toks (ap_event p)
  ++ (match ap_ctx p with Some c => wd KColon ":" :: ast_toks c | None => [] end)
  ++ (match ap_body p with Some b => wd KArrow "<-" :: body_toks b | None => [] end).

(** "-" is a token before anything but "+". *)
Lemma tok_minus c r : c <> 43%N -> tokc KMinus (s2p "-") (c :: r).
Proof.
  intros Hc. split; [discriminate|]. split; [now apply clean_bool|]. split; [reflexivity|].
  intros [|d z] Hr; [destruct Hr|]. destruct Hr as [<- _]. split; [|reflexivity]. unfold tokens.
  cbn [s2p String.list_ascii_of_string app].
  repeat (rewrite first_skip by (reflexivity || (apply (rlit_none2 45 43 []); congruence))); reflexivity.
Qed.

Lemma sp_event e : readable_event e -> forall a, stop a -> sp (event_str e) a (event_toks e).
Proof.
  intros [Hg Hl] a Ha. destruct e as [tr gt h]. unfold event_str, event_toks. cbn [ae_trig ae_gt ae_head] in *.
  pose proof (sp_ast _ Hl a Ha) as Hs. pose proof (ast_opens _ a Hl) as Ho. unfold lit_str, lit_toks.
  assert (G : sp (gtype_lex gt ++ ast_str (lit_ast h)) a
    ((match gt with GtAchieve => [wd KExclam "!"] | GtTest => [wd KQuestion "?"] | _ => [] end) ++ ast_toks (lit_ast h))).
  { destruct Hg as [-> | [-> | ->]]; cbn [gtype_lex app]; [assumption| |].
    - apply sp_tok; [apply tok_opens; [in_list|assumption]|assumption].
    - apply sp_closed; [in_list|assumption]. }
  destruct tr; cbn [trig_lex]; [now apply sp_closed; [in_list|]|].
  apply sp_tok; [|assumption].
  destruct Hg as [-> | [-> | ->]]; cbn [gtype_lex app].
  - apply tok_opens; [in_list|assumption].
  - apply (tok_minus 33). discriminate.
  - apply (tok_minus 63). discriminate.
Qed.

Lemma sp_plan p : readable_plan p -> forall a, stop a -> sp (aplan_str p) a (plan_toks p).
Proof.
  intros (H1 & H2 & H3 & H4) a Ha. destruct p as [an e c b]. unfold aplan_str, plan_toks.
  cbn [ap_annot ap_event ap_ctx ap_body] in *.
  set (bs := match b with Some b0 => s2p " <-" ++ nl ++ indent (body_str b0) | None => [] end).
  set (cs := match c with Some c0 => s2p " : " ++ ast_str c0 | None => [] end).
  assert (B : sp bs a (match b with Some b0 => wd KArrow "<-" :: body_toks b0 | None => [] end)).
  { unfold bs. destruct b as [b|]; [|constructor]. destruct (H4 b eq_refl) as [Hn Hf].
    change (s2p " <-") with (s2p " " ++ s2p "<-"). rewrite <- app_assoc. apply sp_space1, sp_closed; [in_list|]. apply sp_nl.
    destruct (body_closed b Hn Hf) as [C1 C2]. rewrite indent_ind by assumption.
    change (s2p "  ") with (s2p " " ++ s2p " "). rewrite <- app_assoc. apply sp_space1, sp_space1, sp_indented.
    apply sp_body; [|assumption]. eapply Forall_impl; [|exact Hf]. exact sp_form. }
  assert (Sb : stop (bs ++ a)) by (unfold bs; destruct b; [is_stop|assumption]).
  assert (C : sp (cs ++ bs) a ((match c with Some c0 => wd KColon ":" :: ast_toks c0 | None => [] end)
    ++ match b with Some b0 => wd KArrow "<-" :: body_toks b0 | None => [] end)).
  { unfold cs. destruct c as [c|]; [|assumption].
    change (s2p " : ") with (s2p " " ++ s2p ":" ++ s2p " "). rewrite <- !app_assoc. apply sp_space1. cbn [app].
    apply sp_spaced; [in_list|]. apply sp_good; [apply sp_ast; now apply H3|assumption|assumption]. }
  assert (Sc : stop ((cs ++ bs) ++ a)) by (unfold cs; destruct c; [is_stop|assumption]).
  assert (E : sp (event_str e ++ cs ++ bs) a (event_toks e ++ (match c with Some c0 => wd KColon ":" :: ast_toks c0 | None => [] end)
    ++ match b with Some b0 => wd KArrow "<-" :: body_toks b0 | None => [] end)).
  { apply sp_app; [|assumption]. now apply sp_event. }
  destruct an as [l|]; [|assumption]. rewrite <- !app_assoc. cbn [app]. apply sp_closed; [in_list|].
  unfold lit_str, lit_toks. apply sp_good; [apply sp_ast; now apply H1|is_stop|]. now apply sp_nl.
Qed.
End WithPy.
