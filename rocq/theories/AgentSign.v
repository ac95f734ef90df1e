(** The text of agents with negative numbers. *)
From Verif Require Import Base Num Term Unify Str World Ast Names Quote QuoteSpec QuoteFacts Lex LexSpec LexFacts LexCor LexTok
  Parse ParseTotal ParseInv Fold Program RoundSpec RoundLex RoundTok RoundText RoundParse RoundCor
  GramSpec GramTok GramSound GramComp GramCor Counts Closed SrcSpec SrcQuiet SrcVal SrcFacts SrcComp AgentSpec AgentFold AgentFacts.
From Coq Require Import Floats.SpecFloat.

Section WithPy.
Context {PY : Py}.

Definition num_toks (x : num) : list word :=
  match num_asl x with
  | [] => [(KNumeric, [])]
  | c :: w => if (c =? 45)%N then [wd KMinus "-"; (KNumeric, w)] else [(KNumeric, c :: w)]
  end.
Fixpoint sign_toks (t : ast) : list word :=
  match t with
  | ABool b => [(if b then KTrue else KFalse, s2p (if b then "true" else "false"))]
  | ANum x => num_toks x
  | AStr s => [(KString, str_repr s)]
  | AVar v => [(KVariable, v)]
  | ALit f ts an =>
      (KFunctor, f) :: (match ts with [] => [] | _ => wd KParenOpen "(" :: commas (map sign_toks ts) ++ [wd KParenClose ")"] end)
      ++ (match an with [] => [] | _ => wd KBracketOpen "[" :: commas (map sign_toks an) ++ [wd KBracketClose "]"] end)
  | AList ts => wd KBracketOpen "[" :: commas (map sign_toks ts) ++ [wd KBracketClose "]"]
  | ALL h t => wd KBracketOpen "[" :: sign_toks h ++ wd KOr "|" :: sign_toks t ++ [wd KBracketClose "]"]
  | AUn op a => wd KParenOpen "(" :: unop_word op :: sign_toks a ++ [wd KParenClose ")"]
  | ABin op l r => wd KParenOpen "(" :: sign_toks l ++ binop_word op :: sign_toks r ++ [wd KParenClose ")"]
  end.

(** The tree that is read from the text. *)
Definition unsign_num (x : num) : ast :=
  match num_asl x with c :: _ => if (c =? 45)%N then AUn UNeg (ANum (num_opp x)) else ANum x | [] => ANum x end.
Fixpoint unsign (t : ast) : ast :=
  match t with
  | ANum x => unsign_num x
  | ALit f ts an => ALit f (map unsign ts) (map unsign an)
  | AList ts => AList (map unsign ts)
  | ALL h t => ALL (unsign h) (unsign t)
  | AUn op a => AUn op (unsign a)
  | ABin op l r => ABin op (unsign l) (unsign r)
  | _ => t
  end.

Lemma opp_opp f : num_opp (num_opp (NFlt f)) = NFlt f.
Proof. destruct f as [[]|[]| |[] m e]; reflexivity. Qed.

Lemma numeral_head x : numeral x -> exists c w, num_asl x = c :: w /\ (c =? 45)%N = false /\ numeric (c :: w) /\ x = NFlt (float_lit (c :: w)).
Proof.
  intros (m & e & E & Hm & He & Ex). destruct (numeric_head (m ++ e)) as (c & t & Ec & Hc); [exists m, e; tauto|].
  exists c, t. rewrite <- Ec. split; [exact E|]. split; [|split; [exists m, e; tauto|exact Ex]].
  apply N.eqb_neq. destruct Hc as [Hc|(-> & _)]; [apply digit_range in Hc; lia|discriminate].
Qed.
Lemma minus_head x : negated x -> exists w, num_asl x = 45%N :: w /\ numeric w /\ x = num_opp (NFlt (float_lit w)).
Proof. intros (m & e & E & Hm & He & Ex). exists (m ++ e). split; [exact E|]. split; [exists m, e; tauto|exact Ex]. Qed.
Lemma minus_not x : negated x -> numeral x -> False.
Proof.
  intros (w & E & _)%minus_head (c & w' & E' & Hc & _)%numeral_head. rewrite E in E'. injection E' as <- _. discriminate.
Qed.

(** ** Tokens *)

Definition sgood (t : ast) : Prop := forall a, stop a -> sp (ast_str t) a (sign_toks t).
Lemma sp_sgood t s a l : sgood t -> stop (s ++ a) -> sp s a l -> sp (ast_str t ++ s) a (sign_toks t ++ l).
Proof. intros Hg Hs H. apply sp_app; [now apply Hg|assumption]. Qed.
Ltac in_list := unfold closed, spaced; cbn [In]; tauto.
Ltac is_stop := cbn; repeat split; discriminate.
Lemma sp_scommas ts : Forall sgood ts -> forall s a l, stop (s ++ a) -> sp s a l ->
  sp (joins (s2p ", ") (map ast_str ts) ++ s) a (commas (map sign_toks ts) ++ l).
Proof.
  induction 1 as [|t ts Ht Hts IH]; intros s a l Hs H; [assumption|].
  destruct ts as [|u ts]; [now apply sp_sgood|].
  cbn [map] in *. rewrite joins_cons2. unfold commas in *. rewrite joinw_cons2, <- !app_assoc.
  apply sp_sgood; [assumption|is_stop|].
  change (s2p ", ") with (s2p "," ++ s2p " "). rewrite <- app_assoc.
  apply sp_closed; [in_list|]. apply sp_space1. now apply IH.
Qed.

Lemma signed_opens t a : signed_readable t -> ~ negative t -> opens (ast_str t ++ a).
Proof.
  destruct t as [b|x|s|v|f ts an|ts|h t|op b|op l r]; cbn [signed_readable negative ast_str asl_repr]; intros H Hn.
  - destruct b; (eapply head_opens; [reflexivity|left; reflexivity]).
  - destruct H as [H|H]; [|contradiction]. exact (ast_opens (ANum x) a H).
  - eapply head_opens; [reflexivity|cbn; tauto].
  - exact (ast_opens (AVar v) a H).
  - destruct H as (H & _). destruct (functor_head _ H) as (c & v & E & Hc). rewrite <- app_assoc.
    eapply head_opens; [exact E|]. destruct Hc as [Hc|[-> | ->]]; [tauto|cbn; tauto|cbn; tauto].
  - eapply head_opens; [reflexivity|cbn; tauto].
  - eapply head_opens; [reflexivity|cbn; tauto].
  - eapply head_opens; [reflexivity|cbn; tauto].
  - eapply head_opens; [reflexivity|cbn; tauto].
Qed.

(** "|" is a token before anything but "&" and "|". *)
Lemma tok_bar c r : c <> 38%N -> c <> 124%N -> tokc KOr (s2p "|") (c :: r).
Proof.
  intros H1 H2. split; [discriminate|]. split; [now apply clean_bool|]. split; [reflexivity|].
  intros [|d z] Hr; [destruct Hr|]. destruct Hr as [<- _]. split; [|reflexivity]. unfold tokens.
  cbn [s2p String.list_ascii_of_string app].
  repeat (rewrite first_skip by (reflexivity || (first [apply (rlit_none2 124 38 [124%N]) | apply (rlit_none2 124 124 [124%N])]; congruence))); reflexivity.
Qed.
Lemma signed_starts t a : signed_readable t -> exists c z, ast_str t ++ a = c :: z /\ c <> 38%N /\ c <> 124%N.
Proof.
  intros H. assert (X : ~ negative t -> exists c z, ast_str t ++ a = c :: z /\ c <> 38%N /\ c <> 124%N).
  { intros Hn. pose proof (signed_opens t a H Hn) as O. destruct (ast_str t ++ a) as [|c z]; [destruct O|]. exists c, z. cbn in O. tauto. }
  destruct t; try (apply X; intros []; fail). cbn [signed_readable] in H. destruct H as [H|H].
  - apply X. intros N. exact (minus_not _ N H).
  - destruct (minus_head _ H) as (w & E & _). cbn [ast_str asl_repr]. rewrite E. do 2 eexists. split; [reflexivity|split; discriminate].
Qed.

Lemma sp_signed t : signed_readable t -> sgood t.
Proof.
  induction t as [b|x|s|v|f ts an Hts Han|ts Hts|h t IHh IHt|op b IH|op l r IHl IHr] using ast_ind'; intros Hr a Ha;
    cbn [signed_readable] in Hr; cbn [ast_str sign_toks].
  - replace (asl_repr (TBool b)) with (s2p (if b then "true" else "false")) by now destruct b. apply sp_one. now apply tok_bool.
  - cbn [asl_repr]. unfold num_toks. destruct Hr as [H|H].
    + destruct (numeral_head x H) as (c & w & -> & -> & Hw & _). apply sp_one. now apply tok_numeric.
    + destruct (minus_head x H) as (w & -> & Hw & _). destruct (numeric_head w Hw) as (c & t & -> & Hc).
      change (if (45 =? 45)%N then [wd KMinus "-"; (KNumeric, c :: t)] else [(KNumeric, 45%N :: c :: t)]) with [wd KMinus "-"; (KNumeric, c :: t)].
      change (45%N :: c :: t) with (s2p "-" ++ (c :: t)). apply sp_tok; [|now apply sp_one, tok_numeric]. apply tok_minus.
      destruct Hc as [Hc|(-> & _)]; [apply digit_range in Hc; lia|discriminate].
  - apply sp_one. now apply tok_string.
  - apply sp_one. now apply tok_variable.
  - destruct Hr as (Hf & H1 & H2). rewrite fold_and in H1, H2.
    assert (G1 : Forall sgood ts).
    { rewrite Forall_forall in *. intros x Hx. apply Hts; [assumption|]. now apply H1. }
    assert (G2 : Forall sgood an).
    { rewrite Forall_forall in *. intros x Hx. apply Han; [assumption|]. now apply H2. }
    assert (S2 : sp (match an with [] => [] | _ => s2p "[" ++ joins (s2p ", ") (map ast_str an) ++ s2p "]" end) a
      (match an with [] => [] | _ => wd KBracketOpen "[" :: commas (map sign_toks an) ++ [wd KBracketClose "]"] end)).
    { destruct an as [|y an]; [constructor|]. apply sp_closed; [in_list|]. apply sp_scommas; [assumption|is_stop|].
      apply sp_one, tok_closed. in_list. }
    assert (T2 : stop (match an with [] => [] | _ => s2p "[" ++ joins (s2p ", ") (map ast_str an) ++ s2p "]" end ++ a)).
    { destruct an; [assumption|is_stop]. }
    apply sp_tok.
    + apply tok_functor; [assumption|]. destruct ts; [assumption|is_stop].
    + destruct ts as [|y ts]; [assumption|]. rewrite <- !app_assoc. cbn [app]. rewrite <- app_assoc.
      apply sp_closed; [in_list|]. apply sp_scommas; [assumption|is_stop|]. cbn [app]. apply sp_closed; [in_list|assumption].
  - rewrite fold_and in Hr. apply sp_closed; [in_list|]. apply sp_scommas; [|is_stop|apply sp_one, tok_closed; in_list].
    rewrite Forall_forall in *. intros x Hx. apply Hts; [assumption|]. now apply Hr.
  - destruct Hr as (H1 & H2). apply sp_closed; [in_list|]. apply sp_sgood; [now apply IHh|is_stop|].
    apply sp_tok.
    + rewrite <- app_assoc. destruct (signed_starts t (s2p "]" ++ a) H2) as (c & z & -> & C1 & C2). now apply tok_bar.
    + apply sp_sgood; [now apply IHt|is_stop|]. apply sp_one, tok_closed. in_list.
  - apply sp_closed; [in_list|]. rewrite un_lex. destruct (spaced_un op) as (t & H1 & H2). rewrite H2. cbn [snd wd].
    apply sp_spaced; [assumption|]. apply sp_sgood; [now apply IH|is_stop|]. apply sp_one, tok_closed. in_list.
  - destruct Hr as (H1 & H2 & _). apply sp_closed; [in_list|]. apply sp_sgood; [now apply IHl|is_stop|]. apply sp_space1.
    rewrite bin_lex. destruct (spaced_bin op) as (t & H3 & H4). rewrite H4. cbn [snd wd].
    apply sp_spaced; [assumption|]. apply sp_sgood; [now apply IHr|is_stop|]. apply sp_one, tok_closed. in_list.
Qed.

(** ** Phrases *)

Lemma atom_factor a x : expr LAtom a x -> expr LFactor a x.
Proof. intros H. now apply (e_tighter LFactor). Qed.
Lemma factor_up lv a x : lv <> LAtom -> expr LFactor a x -> expr lv a x.
Proof.
  intros Hlv H. assert (H1 : expr LProd a x) by now apply (e_tighter LProd).
  assert (H2 : expr LSum a x) by now apply (e_tighter LSum). assert (H3 : expr LComp a x) by now apply (e_tighter LComp).
  assert (H4 : expr LNot a x) by now apply (e_tighter LNot). assert (H5 : expr LAnd a x) by now apply (e_tighter LAnd).
  assert (H6 : expr LOr a x) by now apply (e_tighter LOr). destruct lv; auto. congruence.
Qed.

(** Any factor; an atom, if it is not a negative number. *)
Definition reads_as (t : ast) : Prop := forall toks, map tw toks = sign_toks t ->
  expr LFactor toks (unsign t) /\ (~ negative t -> expr LAtom toks (unsign t)).
Lemma atom_reads t toks : expr LAtom toks (unsign t) -> expr LFactor toks (unsign t) /\ (~ negative t -> expr LAtom toks (unsign t)).
Proof. intros H. split; [now apply atom_factor|auto]. Qed.

Ltac one E := let l := fresh "l" in let a := fresh "p" in let b := fresh "p" in let t := fresh "t" in
  apply tok_cons in E as (l & a & b & t & -> & E).
Ltac fin E := match type of E with map _ ?t = [] => apply map_eq_nil in E; subst t end.
Ltac two E F := let u := fresh "u" in let v := fresh "v" in apply tok_app in E as (u & v & -> & F & E).

Lemma listed_reads lv ts : lv <> LAtom -> ts <> [] -> Forall reads_as ts -> forall toks, map tw toks = commas (map sign_toks ts) ->
  listed lv toks (map unsign ts).
Proof.
  intros Hlv Hn F. induction F as [|t ts Ht F IH]; [congruence|]. intros toks E. destruct ts as [|u ts].
  - apply l_one. apply factor_up; [assumption|]. now apply Ht.
  - cbn [map] in E. unfold commas in *. rewrite joinw_cons2 in E. two E E1. cbn [app] in E. one E.
    cbn [map]. apply l_more; [apply factor_up; [assumption|now apply Ht]|reflexivity|]. apply IH; [discriminate|exact E].
Qed.

Lemma grouped_reads ko o kc c ts : Forall reads_as ts -> forall toks,
  map tw toks = match ts with [] => [] | _ => wd ko o :: commas (map sign_toks ts) ++ [wd kc c] end -> grouped o c toks (map unsign ts).
Proof.
  intros F toks E. destruct ts as [|t ts]; [destruct toks; [constructor|discriminate]|].
  one E. two E E1. one E. fin E. apply p_some; [reflexivity| |reflexivity].
  apply listed_reads; [discriminate|discriminate|assumption|assumption].
Qed.

Lemma regroup {A} (u : list A) x v w : u ++ x :: v ++ w = (u ++ x :: v) ++ w.
Proof. now rewrite <- app_assoc. Qed.

Definition unsign_lit (l : alit) : alit := mkalit (l_functor l) (map unsign (l_terms l)) (map unsign (l_annots l)).

Lemma literal_reads f ts an toks : Forall reads_as ts -> Forall reads_as an -> map tw toks = sign_toks (ALit f ts an) ->
  literal toks (mkalit f (map unsign ts) (map unsign an)).
Proof.
  intros F1 F2 E. cbn [sign_toks] in E. one E. two E E1.
  exact (g_literal (mktok KFunctor f l p p0) u (map unsign ts) v (map unsign an) eq_refl (grouped_reads _ _ _ _ ts F1 u E1) (grouped_reads _ _ _ _ an F2 v E)).
Qed.

Lemma signed_reads t : signed_readable t -> reads_as t.
Proof.
  induction t as [b|x|s|v|f ts an Hts Han|ts Hts|h t IHh IHt|op b IH|op l r IHl IHr] using ast_ind'; intros Hr toks E;
    cbn [signed_readable] in Hr; cbn [sign_toks] in E.
  - apply atom_reads. cbn [unsign]. one E. fin E. destruct b; [now apply e_true|now apply e_false].
  - cbn [unsign]. unfold unsign_num. unfold num_toks in E. destruct Hr as [H|H].
    + destruct (numeral_head x H) as (c & w & Ex & Hc & Hw & Ev). rewrite Ex, Hc in E. rewrite Ex, Hc. one E. fin E.
      rewrite Ev. assert (X : expr LAtom [mktok KNumeric (c :: w) l p p0] (ANum (NFlt (float_lit (c :: w))))).
      { exact (e_number (mktok KNumeric (c :: w) l p p0) eq_refl). }
      split; [now apply atom_factor|auto].
    + destruct (minus_head x H) as (w & Ex & Hw & Ev). rewrite Ex in E. rewrite Ex. cbn [N.eqb Pos.eqb] in E |- *. one E. one E. fin E.
      split; [|intros Hn; exfalso; exact (Hn H)].
      apply (e_sign "-"); [cbn; tauto|reflexivity|]. apply atom_factor. rewrite Ev, opp_opp.
      exact (e_number (mktok KNumeric w l0 p1 p2) eq_refl).
  - apply atom_reads. cbn [unsign]. one E. fin E. apply e_string; [reflexivity|]. now apply parse_str_repr.
  - apply atom_reads. cbn [unsign]. one E. fin E. exact (e_variable (mktok KVariable v l p p0) eq_refl).
  - apply atom_reads. destruct Hr as (_ & H1 & H2). rewrite fold_and in H1, H2. rewrite Forall_forall in *.
    apply (e_literal toks (mkalit f (map unsign ts) (map unsign an))).
    apply literal_reads; [|  |exact E]; apply Forall_forall; intros y Hy; [apply Hts|apply Han]; auto.
  - apply atom_reads. rewrite fold_and in Hr. cbn [unsign]. one E. two E E1. one E. fin E.
    destruct ts as [|y ts].
    + destruct u; [|discriminate]. now apply e_nil.
    + apply e_list; [reflexivity| |reflexivity]. apply listed_reads; [discriminate|discriminate| |assumption].
      rewrite Forall_forall in *. auto.
  - apply atom_reads. destruct Hr as (H1 & H2). cbn [unsign]. one E. two E E1. one E. two E E2. one E. fin E.
    rewrite (regroup u). apply e_linked; [reflexivity| |reflexivity].
    apply k_two; [|reflexivity|]; (apply factor_up; [discriminate|]); [now apply IHh|now apply IHt].
  - apply atom_reads. cbn [unsign]. one E. 
    assert (Eu : exists k w, unop_word op = (k, w)) by (destruct (unop_word op); eauto). destruct Eu as (k & w & Eu). rewrite Eu in E.
    one E. two E E1. one E. fin E. match goal with |- expr _ (?o :: ?n :: ?b ++ ?c) _ => change (o :: n :: b ++ c) with (o :: (n :: b) ++ c) end. apply e_parens; [reflexivity| |reflexivity].
    destruct (IH Hr u E1) as [X _].
    destruct op; unfold unop_word, wd in Eu; injection Eu as <- <-.
    + apply (e_tighter LOr), (e_tighter LAnd). apply e_not; [reflexivity|]. apply factor_up; [discriminate|assumption].
    + apply factor_up; [discriminate|]. apply (e_sign "+"); [cbn; tauto|reflexivity|assumption].
    + apply factor_up; [discriminate|]. apply (e_sign "-"); [cbn; tauto|reflexivity|assumption].
  - apply atom_reads. destruct Hr as (H1 & H2 & H3). cbn [unsign]. one E. two E E1.
    assert (Eb : exists k w, binop_word op = (k, w)) by (destruct (binop_word op); eauto). destruct Eb as (k & w & Eb). rewrite Eb in E.
    one E. two E E2. one E. fin E.
    rewrite (regroup u). apply e_parens; [reflexivity| |reflexivity].
    destruct (IHl H1 u E1) as [X X']. destruct (IHr H2 u0 E2) as [Y _].
    assert (In2 : forall lv s, In (lv, s, op) infixes -> w = s2p s -> lv <> LAtom -> tighter lv <> LAtom ->
      expr lv (u ++ mktok k w l1 p1 p2 :: u0) (ABin op (unsign l) (unsign r))).
    { intros lv s Hin -> N1 N2. apply (e_infix lv s); [assumption|reflexivity|now apply factor_up|now apply factor_up]. }
    assert (Cmp : forall s, In (s, op) comparisons -> w = s2p s -> expr LComp (u ++ mktok k w l1 p1 p2 :: u0) (ABin op (unsign l) (unsign r))).
    { intros s Hin ->. eapply e_chain. apply (c_two s); [assumption|reflexivity|now apply factor_up|now apply factor_up]. }
    assert (Up : forall lv x, lv <> LAtom -> expr lv (u ++ mktok k w l1 p1 p2 :: u0) x -> expr LOr (u ++ mktok k w l1 p1 p2 :: u0) x).
    { intros lv x N Z. assert (W1 : lv = LFactor -> expr LOr (u ++ mktok k w l1 p1 p2 :: u0) x) by (intros ->; now apply factor_up).
      destruct lv; try congruence; auto;
        repeat (first [exact Z | apply (e_tighter LOr) | apply (e_tighter LAnd) | apply (e_tighter LNot) | apply (e_tighter LComp) | apply (e_tighter LSum)]; cbn [tighter]). }
    destruct op as [[]| | |[]| | | |]; unfold binop_word, wd in Eb; injection Eb as <- <-;
      first [ now (apply (Up LFactor); [discriminate|]; apply e_power; [reflexivity|apply X'; now apply H3|assumption])
            | (apply (Up LComp); [discriminate|]; first
                [ apply (Cmp "<"%string); [cbn; tauto|reflexivity] | apply (Cmp "<="%string); [cbn; tauto|reflexivity] | apply (Cmp ">"%string); [cbn; tauto|reflexivity]
                | apply (Cmp ">="%string); [cbn; tauto|reflexivity] | apply (Cmp "=="%string); [cbn; tauto|reflexivity] | apply (Cmp "\=="%string); [cbn; tauto|reflexivity]
                | apply (Cmp "="%string); [cbn; tauto|reflexivity] | apply (Cmp "=.."%string); [cbn; tauto|reflexivity] ])
            | (apply (Up LProd); [discriminate|]; first
                [ apply (In2 LProd "*"%string); [cbn; tauto|reflexivity|discriminate|discriminate] | apply (In2 LProd "/"%string); [cbn; tauto|reflexivity|discriminate|discriminate]
                | apply (In2 LProd "div"%string); [cbn; tauto|reflexivity|discriminate|discriminate] | apply (In2 LProd "mod"%string); [cbn; tauto|reflexivity|discriminate|discriminate] ])
            | (apply (Up LSum); [discriminate|]; first
                [ apply (In2 LSum "+"%string); [cbn; tauto|reflexivity|discriminate|discriminate] | apply (In2 LSum "-"%string); [cbn; tauto|reflexivity|discriminate|discriminate] ])
            | (apply (Up LAnd); [discriminate|]; apply (In2 LAnd "&"%string); [cbn; tauto|reflexivity|discriminate|discriminate])
            | (apply (In2 LOr "|"%string); [cbn; tauto|reflexivity|discriminate|discriminate]) ].
Qed.
End WithPy.
