(** The text of a value means the value. *)
From Verif Require Import Base Num Term InstSpec Unify PyEq SetFacts TrailFacts Str World Ast Names Quote QuoteSpec QuoteFacts
  Lex LexSpec LexCor LexTok Parse ParseTotal RoundSpec RoundLex RoundTok RoundText RoundParse RoundCor NumRead CmpFacts GramSpec GramCor Build ShowSpec ShowNum.

Section WithPy.
Context {PY : Py}.

Definition num_toks (s : pystr) : list word :=
  match s with
  | 45%N :: w => [wd KMinus "-"; (KNumeric, w)]
  | w => [(KNumeric, w)]
  end.
Definition num_ast (s : pystr) : ast :=
  match s with
  | 45%N :: w => AUn UNeg (ANum (NFlt (float_lit w)))
  | w => ANum (NFlt (float_lit w))
  end.
Definition num_built (s : pystr) : term :=
  match s with
  | 45%N :: w => TUn UNeg (TNum (NFlt (float_lit w)))
  | w => TNum (NFlt (float_lit w))
  end.

Fixpoint val_toks (t : term) : list word :=
  match t with
  | TBool b => [(if b then KTrue else KFalse, s2p (if b then "true" else "false"))]
  | TNum x => num_toks (num_asl x)
  | TStr s => [(KString, str_repr s)]
  | TLit f ts an =>
      (KFunctor, f) :: (match ts with [] => [] | _ => wd KParenOpen "(" :: commas (map val_toks ts) ++ [wd KParenClose ")"] end)
      ++ (match an with [] => [] | _ => wd KBracketOpen "[" :: commas (map val_toks an) ++ [wd KBracketClose "]"] end)
  | TTup ts => wd KBracketOpen "[" :: commas (map val_toks ts) ++ [wd KBracketClose "]"]
  | TLL h t => wd KBracketOpen "[" :: val_toks h ++ wd KOr "|" :: val_toks t ++ [wd KBracketClose "]"]
  | _ => []
  end.
Fixpoint val_ast (t : term) : ast :=
  match t with
  | TBool b => ABool b
  | TNum x => num_ast (num_asl x)
  | TStr s => AStr s
  | TLit f ts an => ALit f (map val_ast ts) (map val_ast an)
  | TTup ts => AList (map val_ast ts)
  | TLL h t => ALL (val_ast h) (val_ast t)
  | _ => ABool true
  end.
Fixpoint val_term (t : term) : term :=
  match t with
  | TNum x => num_built (num_asl x)
  | TLit f ts an => TLit f (map val_term ts) (mk_set (map val_term an))
  | TTup ts => TTup (map val_term ts)
  | TLL h t => TLL (val_term h) (val_term t)
  | _ => t
  end.
Fixpoint neg_val (t : term) : term :=
  match t with
  | TUn UNeg (TNum x) => TNum (num_opp x)
  | TUn UNeg (TBool b) => TNum (num_opp (bool_num b))
  | TLit f ts an => TLit f (map neg_val ts) (mk_set (map neg_val an))
  | TTup ts => TTup (map neg_val ts)
  | TLL h t => TLL (neg_val h) (neg_val t)
  | _ => t
  end.

(** ** Numbers *)

Lemma numeral_not_minus w : numeral_text w -> num_toks w = [(KNumeric, w)] /\ num_ast w = ANum (NFlt (float_lit w)) /\
  num_built w = TNum (NFlt (float_lit w)).
Proof.
  intros H. destruct (numeric_head w H) as (c & t & -> & Hc).
  assert (N : c <> 45%N) by (destruct Hc as [Hc|(-> & _)]; [apply digit_range in Hc; lia|discriminate]).
  unfold num_toks, num_ast, num_built. destruct c as [|p]; [now split|].
  do 6 (try (destruct p as [p|p|]; try (split; [reflexivity|split; reflexivity]))). congruence.
Qed.

Lemma num_cases (Q : pystr -> Prop) x : writable_num x ->
  (forall w, numeral_text w -> num_asl x = w -> num_eqb x (NFlt (float_lit w)) = true -> Q w) ->
  (forall w, numeral_text w -> num_asl x = 45%N :: w -> num_eqb x (num_opp (NFlt (float_lit w))) = true -> Q (45%N :: w)) ->
  Q (num_asl x).
Proof. intros (w & Hw & [[E1 E2]|[E1 E2]]) H1 H2; rewrite E1; auto. Qed.

(** ** The tokens of the text *)

Definition told (t : term) : Prop := forall a, stop a -> sp (asl_repr t) a (val_toks t).

Ltac in_list := unfold closed, spaced; cbn [In]; tauto.
Ltac is_stop := cbn; repeat split; discriminate.

Lemma sp_told t s a l : told t -> stop (s ++ a) -> sp s a l -> sp (asl_repr t ++ s) a (val_toks t ++ l).
Proof. intros Hg Hs H. apply sp_app; [now apply Hg|assumption]. Qed.

Lemma sp_tolds ts : Forall told ts -> forall s a l, stop (s ++ a) -> sp s a l ->
  sp (joins (s2p ", ") (map asl_repr ts) ++ s) a (commas (map val_toks ts) ++ l).
Proof.
  induction 1 as [|t ts Ht Hts IH]; intros s a l Hs H; [assumption|].
  destruct ts as [|u ts]; [now apply sp_told|].
  cbn [map] in *. rewrite joins_cons2. unfold commas in *. rewrite joinw_cons2, <- !app_assoc.
  apply sp_told; [assumption|is_stop|].
  change (s2p ", ") with (s2p "," ++ s2p " "). rewrite <- app_assoc.
  apply sp_closed; [in_list|]. apply sp_space1. now apply IH.
Qed.

Lemma tok_bar c r : c <> 38%N -> c <> 124%N -> tokc KOr (s2p "|") (c :: r).
Proof.
  intros Hc Hd. split; [discriminate|]. split; [now apply clean_bool|]. split; [reflexivity|].
  intros [|d z] Hr; [destruct Hr|]. destruct Hr as [<- _]. split; [|reflexivity]. unfold tokens.
  cbn [s2p String.list_ascii_of_string app].
  repeat (rewrite first_skip by (reflexivity || (first [apply (rlit_none2 124 38 [124%N]) | apply (rlit_none2 124 124 [124%N])]; congruence))); reflexivity.
Qed.

Lemma val_head t : writable t -> exists c v, asl_repr t = c :: v /\ c <> 38%N /\ c <> 124%N.
Proof.
  destruct t as [b|x|s|v|w|op b|op l r|f ts an|ts|h t]; cbn [writable asl_repr]; intros H; try destruct H.
  - destruct b; (eexists _, _; split; [reflexivity|split; discriminate]).
  - destruct H as (Hx & [[E _]|[E _]]); rewrite E.
    + destruct (numeric_head _ Hx) as (c & t & -> & Hc). exists c, t. split; [reflexivity|].
      destruct Hc as [Hc|(-> & _)]; [apply digit_range in Hc; lia|split; discriminate].
    + eexists _, _; split; [reflexivity|split; discriminate].
  - unfold str_repr. eexists _, _; split; [reflexivity|split; discriminate].
  - eexists _, _; split; [reflexivity|split; discriminate].
  - destruct (functor_head _ H) as (c & v & -> & Hc). eexists _, _; split; [reflexivity|].
    destruct Hc as [Hc|[-> | ->]]; [apply lower_range in Hc; lia|split; discriminate|split; discriminate].
  - eexists _, _; split; [reflexivity|split; discriminate].
  - eexists _, _; split; [reflexivity|split; discriminate].
Qed.

Lemma val_told t : writable t -> told t.
Proof.
  induction t as [b|x|s|v|w|op b IHb|op l r IHl IHr|f ts an Hts Han|ts Hts|h t IHh IHt] using term_ind'; intros Hw a Ha;
    cbn [writable] in Hw; try contradiction; cbn [asl_repr val_toks].
  - destruct b; apply sp_one; [apply (tok_bool true)|apply (tok_bool false)]; assumption.
  - apply (num_cases (fun w => sp w a (num_toks w)) x Hw).
    + intros w Hn _ _. rewrite (proj1 (numeral_not_minus w Hn)). apply sp_one. now apply tok_numeric.
    + intros w Hn _ _. cbn [num_toks]. change (45%N :: w) with (s2p "-" ++ w). apply sp_tok.
      * destruct (numeric_head _ Hn) as (c & t & -> & Hc). apply tok_minus.
        destruct Hc as [Hc|(-> & _)]; [apply digit_range in Hc; lia|discriminate].
      * apply sp_one. now apply tok_numeric.
  - apply sp_one. now apply tok_string.
  - destruct Hw as (Hf & H1 & H2). rewrite fold_and in H1, H2.
    assert (G1 : Forall told ts).
    { rewrite Forall_forall in *. intros x Hx. apply Hts; [assumption|]. now apply H1. }
    assert (G2 : Forall told an).
    { rewrite Forall_forall in *. intros x Hx. apply Han; [assumption|]. now apply H2. }
    assert (S2 : sp (match an with [] => [] | _ => s2p "[" ++ joins (s2p ", ") (map asl_repr an) ++ s2p "]" end) a
      (match an with [] => [] | _ => wd KBracketOpen "[" :: commas (map val_toks an) ++ [wd KBracketClose "]"] end)).
    { destruct an as [|y an]; [constructor|]. apply sp_closed; [in_list|]. apply sp_tolds; [assumption|is_stop|].
      apply sp_one, tok_closed. in_list. }
    assert (T2 : stop (match an with [] => [] | _ => s2p "[" ++ joins (s2p ", ") (map asl_repr an) ++ s2p "]" end ++ a)).
    { destruct an; [assumption|is_stop]. }
    apply sp_tok.
    + apply tok_functor; [assumption|]. destruct ts; [assumption|is_stop].
    + destruct ts as [|y ts]; [assumption|]. rewrite <- !app_assoc. cbn [app]. rewrite <- app_assoc.
      apply sp_closed; [in_list|]. apply sp_tolds; [assumption|is_stop|]. cbn [app]. apply sp_closed; [in_list|assumption].
  - rewrite fold_and in Hw. apply sp_closed; [in_list|]. apply sp_tolds; [|is_stop|apply sp_one, tok_closed; in_list].
    rewrite Forall_forall in *. intros x Hx. apply Hts; [assumption|]. now apply Hw.
  - destruct Hw as [H1 H2]. apply sp_closed; [in_list|]. apply sp_told; [now apply IHh|is_stop|].
    apply sp_tok.
    + destruct (val_head t H2) as (c & v & -> & Hc1 & Hc2). rewrite <- app_assoc. now apply tok_bar.
    + apply sp_told; [now apply IHt|is_stop|]. apply sp_one, tok_closed. in_list.
Qed.

(** ** The tree *)

Definition parsed (t : term) : Prop := forall l, map tw l = val_toks t -> expr LFactor l (val_ast t).

Lemma at_and l x : expr LFactor l x -> expr LAnd l x.
Proof. intros H. repeat (apply e_tighter; cbn [tighter]; try exact H). Qed.
Lemma at_or l x : expr LFactor l x -> expr LOr l x.
Proof. intros H. apply e_tighter. now apply at_and. Qed.

Lemma listed_val lv ts : (forall l x, expr LFactor l x -> expr lv l x) -> ts <> [] -> Forall parsed ts ->
  forall l, map tw l = commas (map val_toks ts) -> listed lv l (map val_ast ts).
Proof.
  intros Hlv Hn H. induction H as [|t ts Ht Hts IH]; [congruence|]. intros l E.
  destruct ts as [|u ts]; [apply l_one, Hlv, Ht, E|].
  cbn [map] in E. unfold commas in *. rewrite joinw_cons2 in E.
  apply tok_app in E as (l1 & l2 & -> & E1 & E2). apply tok_cons in E2 as (a & b & c & l3 & -> & E2).
  cbn [map]. apply l_more; [apply Hlv, Ht, E1|reflexivity|]. apply IH; [discriminate|assumption].
Qed.

Lemma bracketed lv ts o c ko kc l : (forall l x, expr LFactor l x -> expr lv l x) -> ts <> [] -> Forall parsed ts ->
  map tw l = wd ko o :: commas (map val_toks ts) ++ [wd kc c] ->
  exists t m u, l = t :: m ++ [u] /\ the o t /\ listed lv m (map val_ast ts) /\ the c u.
Proof.
  intros Hlv Hn H E. apply tok_cons in E as (a1 & b1 & c1 & l1 & -> & E).
  apply tok_app in E as (l2 & l3 & -> & E1 & E2). apply tok_cons in E2 as (a2 & b2 & c2 & l4 & -> & E2).
  destruct l4; [|discriminate]. eexists _, l2, _. split; [reflexivity|]. split; [reflexivity|]. split; [|reflexivity].
  now apply listed_val.
Qed.

Lemma val_parsed t : writable t -> parsed t.
Proof.
  induction t as [b|x|s|v|w|op b IHb|op b1 b2 IHb1 IHb2|f ts an Hts Han|ts Hts|h t IHh IHt] using term_ind'; intros Hw l E;
    cbn [writable] in Hw; try contradiction; cbn [val_ast val_toks] in *.
  - destruct l as [|k [|]]; try discriminate. injection E as Ek El. apply (e_tighter LFactor). cbn [tighter].
    destruct b; [now apply e_true|now apply e_false].
  - revert l E. apply (num_cases (fun w => forall l, map tw l = num_toks w -> expr LFactor l (num_ast w)) x Hw).
    + intros w Hn _ _ l E. destruct (numeral_not_minus w Hn) as (E1 & E2 & _). rewrite E1 in E. rewrite E2.
      destruct l as [|k [|]]; try discriminate. injection E as Ek El. subst w. apply (e_tighter LFactor). now apply e_number.
    + intros w Hn _ _ l E. cbn [num_toks num_ast] in *. destruct l as [|k [|k' [|]]]; try discriminate.
      injection E as Ek El Ek' El'. subst w. apply (e_sign "-" UNeg); [cbn; tauto|exact El|].
      apply (e_tighter LFactor). now apply e_number.
  - destruct l as [|k [|]]; try discriminate. injection E as Ek El. apply (e_tighter LFactor). cbn [tighter].
    apply e_string; [assumption|]. rewrite El. now apply parse_str_repr.
  - destruct Hw as (Hf & H1 & H2). rewrite fold_and in H1, H2.
    assert (G1 : Forall parsed ts).
    { rewrite Forall_forall in *. intros x Hx. apply Hts; [assumption|]. now apply H1. }
    assert (G2 : Forall parsed an).
    { rewrite Forall_forall in *. intros x Hx. apply Han; [assumption|]. now apply H2. }
    apply tok_cons in E as (a1 & b1 & c1 & l1 & -> & E). apply tok_app in E as (l2 & l3 & -> & E1 & E2).
    apply (e_tighter LFactor). cbn [tighter].
    change (ALit f (map val_ast ts) (map val_ast an)) with (lit_ast (mkalit f (map val_ast ts) (map val_ast an))).
    apply e_literal. apply (g_literal (mktok KFunctor f a1 b1 c1)); [reflexivity| |].
    + destruct ts as [|y ts].
      * destruct l2; [|discriminate]. apply p_none.
      * apply (bracketed LOr) in E1 as (t & m & u & -> & T & M & U); [|exact at_or|discriminate|assumption]. now apply p_some.
    + destruct an as [|y an].
      * destruct l3; [|discriminate]. apply p_none.
      * apply (bracketed LOr) in E2 as (t & m & u & -> & T & M & U); [|exact at_or|discriminate|assumption]. now apply p_some.
  - rewrite fold_and in Hw.
    assert (G1 : Forall parsed ts).
    { rewrite Forall_forall in *. intros x Hx. apply Hts; [assumption|]. now apply Hw. }
    apply (e_tighter LFactor). cbn [tighter]. destruct ts as [|y ts].
    + destruct l as [|o [|c [|]]]; try discriminate. injection E as _ Eo _ Ec. now apply e_nil.
    + apply (bracketed LAnd) in E as (t & m & u & -> & T & M & U); [|exact at_and|discriminate|assumption]. now apply e_list.
  - destruct Hw as [H1 H2]. apply tok_cons in E as (a1 & b1 & c1 & l1 & -> & E).
    apply tok_app in E as (l2 & l3 & -> & E1 & E2). apply tok_cons in E2 as (a2 & b2 & c2 & l4 & -> & E2).
    apply tok_app in E2 as (l5 & l6 & -> & E3 & E4). apply tok_cons in E4 as (a3 & b3 & c3 & l7 & -> & E4).
    destruct l7; [|discriminate]. apply (e_tighter LFactor). cbn [tighter].
    replace (l2 ++ mktok KOr (s2p "|") a2 b2 c2 :: l5 ++ [mktok KBracketClose (s2p "]") a3 b3 c3])
      with ((l2 ++ mktok KOr (s2p "|") a2 b2 c2 :: l5) ++ [mktok KBracketClose (s2p "]") a3 b3 c3]) by now rewrite <- app_assoc.
    apply e_linked; [reflexivity| |reflexivity]. apply k_two; [apply at_and; now apply IHh|reflexivity|apply at_and; now apply IHt].
Qed.

(** ** The built term *)

Lemma bmapl_pure {A C} (g : A -> B C) (k : A -> C) l : Forall (fun x => forall b, g x b = (Ok (k x), b)) l ->
  forall b, bmapl g l b = (Ok (map k l), b).
Proof.
  induction 1 as [|x l Hx _ IH]; intros b; [reflexivity|]. cbn [bmapl map]. unfold bbind. rewrite Hx, IH. reflexivity.
Qed.

Lemma build_val t : writable t -> forall b, build_term false (val_ast t) b = (Ok (val_term t), b).
Proof.
  induction t as [b|x|s|v|w|op b IHb|op l r IHl IHr|f ts an Hts Han|ts Hts|h t IHh IHt] using term_ind'; intros Hw bs;
    cbn [writable] in Hw; try contradiction; cbn [val_ast val_term]; try reflexivity.
  - apply (num_cases (fun w => build_term false (num_ast w) bs = (Ok (num_built w), bs)) x Hw).
    + intros w Hn _ _. destruct (numeral_not_minus w Hn) as (_ & -> & ->). reflexivity.
    + reflexivity.
  - destruct Hw as (_ & H1 & H2). rewrite fold_and in H1, H2. cbn [build_term]. unfold bbind.
    assert (M : forall l, Forall (fun t => writable t -> forall b, build_term false (val_ast t) b = (Ok (val_term t), b)) l ->
      Forall writable l -> forall b, bmapl (build_term false) (map val_ast l) b = (Ok (map val_term l), b)).
    { induction 1 as [|t l Ht _ IH]; intros H b; [reflexivity|]. inversion H; subst. cbn [map bmapl]. unfold bbind.
      rewrite Ht by assumption. rewrite IH by assumption. reflexivity. }
    rewrite (M ts Hts H1), (M an Han H2). reflexivity.
  - rewrite fold_and in Hw. cbn [build_term]. unfold bbind.
    assert (M : forall l, Forall (fun t => writable t -> forall b, build_term false (val_ast t) b = (Ok (val_term t), b)) l ->
      Forall writable l -> forall b, bmapl (build_term false) (map val_ast l) b = (Ok (map val_term l), b)).
    { induction 1 as [|t l Ht _ IH]; intros H b; [reflexivity|]. inversion H; subst. cbn [map bmapl]. unfold bbind.
      rewrite Ht by assumption. rewrite IH by assumption. reflexivity. }
    rewrite (M ts Hts Hw). reflexivity.
  - destruct Hw as [H1 H2]. cbn [build_term]. unfold bbind. rewrite IHh, IHt by assumption. reflexivity.
Qed.

(** ** Its value *)

Definition settles (u : term) : Prop := exists N, forall n st, (N <= n)%nat -> grounded n u st = Ok (neg_val u).

Lemma rmapl_map {A C} (g : A -> res C) (k : A -> C) l : Forall (fun x => g x = Ok (k x)) l -> rmapl g l = Ok (map k l).
Proof. induction 1 as [|x l Hx _ IH]; [reflexivity|]. cbn. now rewrite Hx, IH. Qed.

Lemma settles_all us : Forall settles us -> exists N, forall n st, (N <= n)%nat -> rmapl (fun a => grounded n a st) us = Ok (map neg_val us).
Proof.
  induction 1 as [|u us (N1 & H1) _ (N2 & H2)]; [now exists 0%nat|]. exists (N1 + N2)%nat. intros n st Hn. cbn.
  rewrite H1 by lia. rewrite H2 by lia. reflexivity.
Qed.

Lemma val_settles t : PyLawful PY -> writable t -> settles (val_term t).
Proof.
  intros L. induction t as [b|x|s|v|w|op b IHb|op l r IHl IHr|f ts an Hts Han|ts Hts|h t IHh IHt] using term_ind'; intros Hw;
    cbn [writable] in Hw; try contradiction; cbn [val_term].
  - exists 1%nat. intros [|n] st Hn; [lia|]. reflexivity.
  - apply (num_cases (fun w => settles (num_built w)) x Hw).
    + intros w Hn _ _. destruct (numeral_not_minus w Hn) as (_ & _ & ->). exists 1%nat. intros [|n] st Hm; [lia|]. reflexivity.
    + intros w Hn _ _. cbn [num_built]. exists 3%nat. intros [|[|[|n]]] st Hm; try lia. rewrite grounded_S, !evaluate_S. reflexivity.
  - exists 1%nat. intros [|n] st Hn; [lia|]. reflexivity.
  - destruct Hw as (_ & H1 & H2). rewrite fold_and in H1, H2.
    assert (G1 : Forall settles (map val_term ts)).
    { rewrite Forall_forall in *. intros y Hy. apply in_map_iff in Hy as (x & <- & Hx). apply Hts; [assumption|]. now apply H1. }
    assert (G2 : Forall settles (mk_set (map val_term an))).
    { apply mk_set_Forall; [assumption|]. rewrite Forall_forall in *. intros y Hy. apply in_map_iff in Hy as (x & <- & Hx).
      apply Han; [assumption|]. now apply H2. }
    destruct (settles_all _ G1) as (N1 & S1), (settles_all _ G2) as (N2 & S2). exists (S (N1 + N2)). intros [|n] st Hn; [lia|].
    rewrite grounded_S, S1 by lia. rewrite S2 by lia. reflexivity.
  - rewrite fold_and in Hw.
    assert (G1 : Forall settles (map val_term ts)).
    { rewrite Forall_forall in *. intros y Hy. apply in_map_iff in Hy as (x & <- & Hx). apply Hts; [assumption|]. now apply Hw. }
    destruct (settles_all _ G1) as (N1 & S1). exists (S N1). intros [|n] st Hn; [lia|]. rewrite grounded_S, S1 by lia. reflexivity.
  - destruct Hw as [H1 H2]. destruct (IHh H1) as (N1 & S1), (IHt H2) as (N2 & S2). exists (S (N1 + N2)). intros [|n] st Hn; [lia|].
    rewrite grounded_S, S1 by lia. rewrite S2 by lia. reflexivity.
Qed.

Lemma neg_tup_view r yh yt : list_view r = Some (yh, yt) -> list_view (neg_val r) = Some (neg_val yh, neg_val yt).
Proof. destruct r as [| | | | | | | |[|y ys]|h t]; try discriminate; intros H; injection H as <- <-; reflexivity. Qed.

Lemma cover l x : PyLawful PY -> In x l -> exists y, In y (mk_set l) /\ (y = x \/ py_eqb y x = true).
Proof. intros L H. now apply (mk_set_of l L). Qed.

Lemma neg_val_eq : PyLawful PY -> forall a b, py_eqb a b = true -> py_eqb (neg_val a) (neg_val b) = true.
Proof.
  intros L. induction a as [b0|x|s|v|w|op a IH|op a1 a2 IH1 IH2|f ts an Hts Han|ts Hts|h t IHh IHt] using term_ind'; intros r E.
  - destruct r; try discriminate E; exact E.
  - destruct r; try discriminate E; exact E.
  - destruct r; try discriminate E; exact E.
  - destruct r; try discriminate E; exact E.
  - destruct r; try discriminate E; exact E.
  - destruct r; try discriminate E. pose proof E as E0. cbn [py_eqb] in E0. apply andb_true_iff in E0 as [A B]. apply unop_eqb_eq in A. subst op0.
    destruct op; try exact E.
    destruct a as [b1|x1| | | | | | |l1|], r as [b2|x2| | | | | | |l2|]; try exact E; try discriminate B; cbn [neg_val py_eqb] in *;
      try (apply opp_eqb; exact B); try (destruct l1; discriminate B).
    apply Bool.eqb_prop in B. subst. apply opp_eqb. now destruct b2.
  - destruct r; try discriminate E; exact E.
  - destruct r as [| | | | | | |f' ts' an'| |]; try discriminate E. cbn [neg_val]. rewrite py_eqb_lit in E |- *.
    apply andb_true_iff in E as [E A4]. apply andb_true_iff in E as [E A3]. apply andb_true_iff in E as [A1 A2].
    rewrite A1. cbn [andb]. rewrite Forall_forall in Han.
    assert (X : list_eqb py_eqb (map neg_val ts) (map neg_val ts') = true).
    { clear - Hts A2. revert ts' A2. induction Hts as [|x ts Hx _ IH]; intros [|y ys] A; try discriminate A; [reflexivity|].
      cbn [list_eqb map] in *. apply andb_true_iff in A as [A B]. apply andb_true_iff. split; auto. }
    rewrite X. cbn [andb]. unfold set_le in *. rewrite forallb_forall in A3, A4. apply andb_true_iff. rewrite !forallb_forall. split.
    + intros z Hz. apply mk_set_incl in Hz; [|assumption]. apply in_map_iff in Hz as (x & <- & Hx).
      specialize (A3 x Hx). rewrite existsb_exists in A3 |- *. destruct A3 as (y & Hy & Exy).
      destruct (cover (map neg_val an') (neg_val y) L) as (z & Hz & [->|Ez]); [now apply in_map| |].
      * exists (neg_val y). split; [assumption|]. now apply Han.
      * exists z. split; [assumption|]. apply (py_eqb_trans _ (neg_val y)); [now apply Han|now rewrite py_eqb_sym].
    + intros z Hz. apply mk_set_incl in Hz; [|assumption]. apply in_map_iff in Hz as (y & <- & Hy).
      specialize (A4 y Hy). rewrite existsb_exists in A4 |- *. destruct A4 as (x & Hx & Exy).
      destruct (cover (map neg_val an) (neg_val x) L) as (z & Hz & [->|Ez]); [now apply in_map| |].
      * exists (neg_val x). split; [assumption|]. now apply Han.
      * exists z. split; [assumption|]. apply (py_eqb_trans _ (neg_val x)); [assumption|now apply Han].
  - revert r E. induction Hts as [|x xs Hx _ IH]; intros r E.
    + rewrite py_eqb_nil in E. destruct r as [| | | | | | | |[|]|]; try discriminate. reflexivity.
    + rewrite py_eqb_tup_cons in E. destruct (list_view r) as [[yh yt]|] eqn:Er; [|discriminate]. apply andb_true_iff in E as [A B].
      cbn [neg_val map]. rewrite py_eqb_tup_cons, (neg_tup_view _ _ _ Er). apply andb_true_iff. split; [auto|]. apply (IH yt B).
  - cbn [py_eqb] in E. destruct (list_view r) as [[yh yt]|] eqn:Er; [|discriminate]. apply andb_true_iff in E as [A B].
    cbn [neg_val py_eqb]. rewrite (neg_tup_view _ _ _ Er). apply andb_true_iff. split; auto.
Qed.

Lemma val_equal t : PyLawful PY -> writable t -> py_eqb t (neg_val (val_term t)) = true.
Proof.
  intros L. induction t as [b|x|s|v|w|op b IHb|op l r IHl IHr|f ts an Hts Han|ts Hts|h t IHh IHt] using term_ind'; intros Hw;
    cbn [writable] in Hw; try contradiction; cbn [val_term].
  - now destruct b.
  - apply (num_cases (fun w => py_eqb (TNum x) (neg_val (num_built w)) = true) x Hw).
    + intros w Hn _ E. destruct (numeral_not_minus w Hn) as (_ & _ & ->). exact E.
    + intros w Hn _ E. exact E.
  - cbn. apply pystr_eqb_refl.
  - destruct Hw as (_ & H1 & H2). rewrite fold_and in H1, H2. cbn [neg_val]. rewrite py_eqb_lit, pystr_eqb_refl. cbn [andb].
    assert (X : list_eqb py_eqb ts (map neg_val (map val_term ts)) = true).
    { clear - Hts H1. induction Hts as [|x ts Hx _ IH]; [reflexivity|]. inversion H1; subst. cbn [map list_eqb].
      apply andb_true_iff. split; auto. }
    rewrite X. cbn [andb]. unfold set_le. rewrite Forall_forall in Han, H2. apply andb_true_iff. rewrite !forallb_forall. split.
    + intros x Hx. rewrite existsb_exists. pose proof (Han x Hx (H2 x Hx)) as Ex.
      destruct (cover (map val_term an) (val_term x) L) as (y & Hy & Ey); [now apply in_map|].
      assert (Ey' : py_eqb x (neg_val y) = true).
      { destruct Ey as [->|Ey]; [assumption|]. rewrite py_eqb_sym in Ey. apply (py_eqb_trans _ _ _ Ex). now apply neg_val_eq. }
      destruct (cover (map neg_val (mk_set (map val_term an))) (neg_val y) L) as (z & Hz & Ez); [now apply in_map|].
      exists z. split; [assumption|]. destruct Ez as [->|Ez]; [assumption|]. rewrite py_eqb_sym in Ez. now apply (py_eqb_trans _ _ _ Ey').
    + intros z Hz. apply mk_set_incl in Hz; [|assumption]. apply in_map_iff in Hz as (y & <- & Hy).
      apply mk_set_incl in Hy; [|assumption]. apply in_map_iff in Hy as (x & <- & Hx).
      rewrite existsb_exists. exists x. split; [assumption|]. auto.
  - rewrite fold_and in Hw. cbn [neg_val]. induction Hts as [|x ts Hx _ IH]; [reflexivity|]. inversion Hw; subst.
    cbn [map]. rewrite py_eqb_tup_cons. cbn [list_view]. apply andb_true_iff. split; auto.
  - destruct Hw. cbn [neg_val py_eqb list_view]. apply andb_true_iff. split; auto.
Qed.

(** ** Together *)

Lemma val_toks_some t : writable t -> val_toks t <> [].
Proof.
  intros H. destruct (val_head t H) as (c & v & E & _). intros X.
  assert (S1 : sp (asl_repr t) (s2p "." ++ []) (val_toks t)) by (apply val_told; [assumption|apply stop_dot]).
  destruct t; cbn [val_toks] in X; try discriminate X; try (destruct H; fail).
  cbn [writable] in H. revert X. apply (num_cases (fun w => num_toks w = [] -> False) x H).
  - intros w Hn _ _. rewrite (proj1 (numeral_not_minus w Hn)). discriminate.
  - discriminate.
Qed.

Theorem text_means t : PyLawful PY -> writable t -> means (asl_repr t) t.
Proof.
  intros L H. destruct (dot_items (asl_repr t) (val_toks t)) as (a & i & j & k & E1 & E2).
  { apply val_told; [assumption|apply stop_dot]. }
  exists a, (mktok KFullstop (s2p ".") i j k), (val_ast t), (val_term t), (neg_val (val_term t)).
  assert (X : forall u, In u (a ++ [mktok KFullstop (s2p ".") i j k]) -> lexed u).
  { intros u Hu. exists 1%nat, (string_source (asl_repr t ++ s2p ".")), (map ITok (a ++ [mktok KFullstop (s2p ".") i j k])).
    split; [exact E1|]. now apply in_map. }
  split; [exact E1|]. split; [|split; [|split]].
  - apply term_accepts.
    + apply at_or. now apply val_parsed.
    + apply Forall_forall. intros u Hu. apply X. apply in_or_app. now left.
    + apply X. apply in_or_app. right. now left.
    + intros s Hs Ht. unfold the in Ht. cbn [t_lex] in Ht. cbn in Hs.
      repeat (destruct Hs as [<-|Hs]; [discriminate Ht|]). destruct Hs.
  - now apply build_val.
  - now apply val_settles.
  - now apply val_equal.
Qed.
End WithPy.

(** A text means one value. *)
Lemma means_one {PY : Py} s v w : means s v -> means s w -> py_eqb v w = true.
Proof.
  intros (a & f & e & u & v' & T & A & B & (N & G) & E) (a' & f' & e' & u' & w' & T' & A' & B' & (N' & G') & E').
  rewrite T in T'. assert (X : map ITok (a ++ [f]) = map ITok (a' ++ [f'])) by congruence.
  assert (Y : a ++ [f] = a' ++ [f']).
  { clear - X. revert X. generalize (a ++ [f]) (a' ++ [f']). induction l as [|x l IH]; intros [|y l'] H; try discriminate; [reflexivity|].
    cbn in H. injection H as -> H. f_equal. auto. }
  apply app_inj_tail in Y as [<- <-].
  destruct A as (x & l & n & -> & A), A' as (x' & l' & n' & Ex & A'). injection Ex as <- <-.
  destruct (A (n + n')%nat [] (mklog None 0 0) false ltac:(lia)) as (lg & A1 & _).
  destruct (A' (n + n')%nat [] (mklog None 0 0) false ltac:(lia)) as (lg' & A2 & _).
  rewrite A1 in A2. injection A2 as <- _.
  assert (Eu : Ok u = Ok u').
  { pose proof (B (mkbs [] 0 (mklog None 0 0))) as B1. pose proof (B' (mkbs [] 0 (mklog None 0 0))) as B2. rewrite B1 in B2. congruence. }
  injection Eu as <-.
  pose proof (G (N + N')%nat [] ltac:(lia)) as G1. pose proof (G' (N + N')%nat [] ltac:(lia)) as G2. rewrite G1 in G2. injection G2 as <-.
  apply (py_eqb_trans _ _ _ E). now rewrite py_eqb_sym.
Qed.

Theorem same_text {PY : Py} t u : PyLawful PY -> writable t -> writable u -> asl_repr t = asl_repr u -> py_eqb t u = true.
Proof.
  intros L Ht Hu E. apply (means_one (asl_repr t)); [now apply text_means|]. rewrite E. now apply text_means.
Qed.
