(** Plans with negative numbers: their text. *)
From Verif Require Import Base Num Term Unify Str World Ast Names Quote QuoteSpec QuoteFacts Lex LexSpec LexFacts LexCor LexTok
  Parse AgentSpec AgentSign RoundSpec RoundLex RoundTok RoundText.

Section WithPy.
Context {PY : Py}.
Ltac in_list := unfold closed, spaced; cbn [In]; tauto.
Ltac is_stop := cbn; repeat split; discriminate.
Ltac clean_parts := repeat first [apply clean_app | now apply clean_bool | apply clean_joins; [now apply clean_bool|] | assumption].
Definition slit_toks (l : alit) : list word := sign_toks (lit_ast l).
Definition signed_lit (l : alit) : Prop := signed_readable (lit_ast l).
Definition signed_event (e : aevent) : Prop :=
  (ae_gt e = GtBelief \/ ae_gt e = GtAchieve \/ ae_gt e = GtTest) /\ signed_lit (ae_head e).

Lemma sast_clean t : signed_readable t -> clean (ast_str t).
Proof.
  induction t as [b|x|s|v|f ts an Hts Han|ts Hts|h t IHh IHt|op b IH|op l r IHl IHr] using ast_ind'; intros Hr;
    cbn [signed_readable] in Hr; cbn [ast_str].
  - destruct b; now apply clean_bool.
  - cbn [asl_repr]. destruct Hr as [H|H].
    + destruct (numeral_head x H) as (c & w & -> & _ & Hw & _). now apply numeric_clean.
    + destruct (minus_head x H) as (w & -> & Hw & _). apply numeric_clean in Hw. constructor; [split; discriminate|exact Hw].
  - eapply tokc_clean. now apply (tok_string s []).
  - eapply tokc_clean. now apply (tok_variable v []).
  - destruct Hr as (Hf & H1 & H2). rewrite fold_and in H1, H2.
    assert (G1 : Forall clean (map ast_str ts)).
    { rewrite Forall_forall in *. intros y Hy. apply in_map_iff in Hy as (x & <- & Hx). apply Hts; [assumption|]. now apply H1. }
    assert (G2 : Forall clean (map ast_str an)).
    { rewrite Forall_forall in *. intros y Hy. apply in_map_iff in Hy as (x & <- & Hx). apply Han; [assumption|]. now apply H2. }
    apply clean_app; [eapply tokc_clean; now apply (tok_functor f [])|].
    apply clean_app; [destruct ts; [constructor|clean_parts]|destruct an; [constructor|clean_parts]].
  - rewrite fold_and in Hr.
    assert (G1 : Forall clean (map ast_str ts)).
    { rewrite Forall_forall in *. intros y Hy. apply in_map_iff in Hy as (x & <- & Hx). apply Hts; [assumption|]. now apply Hr. }
    clean_parts.
  - destruct Hr as (H1 & H2). specialize (IHh H1). specialize (IHt H2). clean_parts.
  - specialize (IH Hr). destruct op; cbn [unop_lex]; clean_parts.
  - destruct Hr as (H1 & H2 & _). specialize (IHl H1). specialize (IHr H2). destruct op as [[]| | |[]| | | |]; cbn [binop_lex nop_lex cop_lex]; clean_parts.
Qed.

Lemma sast_closed t : signed_readable t -> closed_text (ast_str t).
Proof.
  intros H. apply clean_closed; [now apply sast_clean|]. intros E.
  assert (X : ~ negative t -> False) by (intros Hn; pose proof (signed_opens t [] H Hn) as X; rewrite E in X; exact X).
  destruct t; try (apply X; intros []; fail). cbn [ast_str asl_repr] in E.
  apply X. intros N. destruct (minus_head _ N) as (w & Ew & _). rewrite Ew in E. discriminate.
Qed.

Lemma sform_closed f : signed_form f -> closed_text (form_str f).
Proof.
  destruct f as [ft t|g b|c ib eb|c b]; cbn [signed_form form_str]; intros H.
  - apply closed_app. now apply sast_closed.
  - repeat apply closed_app. split; [discriminate|]. cbn. discriminate.
  - repeat apply closed_app. split; [discriminate|]. cbn. discriminate.
  - repeat apply closed_app. split; [discriminate|]. cbn. discriminate.
Qed.

Lemma sbody_closed b : b <> [] -> Forall signed_form b -> closed_text (body_str b).
Proof.
  intros Hn H. unfold body_str. induction H as [|f b Hf Hb IH]; [congruence|]. cbn [map].
  destruct b as [|g b]; [now apply sform_closed|]. cbn [map] in *. rewrite joins_cons2. apply closed_app, closed_app.
  apply IH. discriminate.
Qed.

Definition scond_toks (k : kind) (t : string) (c : ast) : list word :=
  wd k t :: wd KParenOpen "(" :: sign_toks c ++ [wd KParenClose ")"; wd KBraceOpen "{"].

Fixpoint sform_toks (f : form) : list word :=
  let blk (l : list form) := match l with [] => [] | _ => semis (map sform_toks l) ++ [wd KSemicolon ";"] end in
  match f with
  | FForm ft t => ftype_toks ft ++ sign_toks t
  | FFor g b => scond_toks KFor "for" g ++ blk b ++ [wd KBraceClose "}"]
  | FWhile c b => scond_toks KWhile "while" c ++ blk b ++ [wd KBraceClose "}"]
  | FIf c ib eb =>
      scond_toks KIf "if" c ++ blk ib
      ++ (match eb with
          | Some ((_ :: _) as b) => wd KBraceClose "}" :: wd KElse "else" :: wd KBraceOpen "{" :: blk b
          | _ => []
          end)
      ++ [wd KBraceClose "}"]
  end.
Definition sbody_toks (l : list form) : list word := semis (map sform_toks l).
Definition sblock_toks (l : list form) : list word := match l with [] => [] | _ => sbody_toks l ++ [wd KSemicolon ";"] end.

Definition sgoodf (f : form) : Prop := forall a, stop a -> sp (form_str f) a (sform_toks f).

Lemma sp_sbody b : Forall sgoodf b -> forall a, stop a -> sp (body_str b) a (sbody_toks b).
Proof.
  unfold body_str, sbody_toks, semis. induction 1 as [|f b Hf Hb IH]; intros a Ha; [constructor|].
  cbn [map]. destruct b as [|g b]; [now apply Hf|]. cbn [map] in *. rewrite joins_cons2, joinw_cons2.
  apply sp_app; [apply Hf; is_stop|]. rewrite <- app_assoc. cbn [app]. apply sp_closed; [in_list|]. apply sp_nl.
  now apply IH.
Qed.

Lemma sp_sblock b : Forall signed_form b -> Forall sgoodf b -> forall s a l, sp s a l ->
  sp (block (body_str b) (match b with [] => true | _ => false end) ++ s) a (sblock_toks b ++ l).
Proof.
  intros Hr Hg s a l H. destruct b as [|f b]; [assumption|]. unfold block, sblock_toks.
  destruct (sbody_closed (f :: b)) as [H1 H2]; [discriminate|assumption|].
  rewrite indent_ind by assumption. rewrite <- !app_assoc.
  change (s2p "  ") with (s2p " " ++ s2p " "). rewrite <- app_assoc. apply sp_space1, sp_space1.
  apply sp_app; [apply sp_indented, sp_sbody; [assumption|is_stop]|]. cbn [app]. apply sp_closed; [in_list|].
  now apply sp_nl.
Qed.

Lemma sp_scond k t c s a l : spaced k t -> sgood c -> sp s a l ->
  sp (s2p t ++ s2p " (" ++ ast_str c ++ s2p ") {" ++ nl ++ s) a (scond_toks k t c ++ l).
Proof.
  intros Hk Hc H. unfold scond_toks. cbn [app]. rewrite <- app_assoc. cbn [app].
  change (s2p " (") with (s2p " " ++ s2p "("). rewrite <- app_assoc. apply sp_spaced; [assumption|].
  apply sp_closed; [in_list|]. apply sp_sgood; [assumption|is_stop|].
  change (s2p ") {") with (s2p ")" ++ s2p " " ++ s2p "{"). rewrite <- !app_assoc. apply sp_closed; [in_list|].
  apply sp_space1. apply sp_closed; [in_list|]. now apply sp_nl.
Qed.

Lemma sp_sform f : signed_form f -> sgoodf f.
Proof.
  induction f as [ft t|g b IH|c ib eb IHi IHe|c b IH] using form_ind'; intros Hr a Ha; cbn [signed_form] in Hr.
  - cbn [form_str sform_toks]. destruct Hr as [Hr Hn]. pose proof (sp_signed t Hr a Ha) as Ht.
    destruct ft; cbn [ftype_lex ftype_toks app]; try assumption; try (apply sp_closed; [in_list|assumption]).
    + apply sp_tok; [apply tok_opens; [in_list|now apply signed_opens]|assumption].
    + apply sp_tok; [apply tok_opens; [in_list|now apply signed_opens]|assumption].
  - destruct Hr as [H1 H2]. rewrite fold_and in H2.
    assert (G : Forall sgoodf b) by (rewrite Forall_forall in *; intros x Hx; apply IH; [assumption|now apply H2]).
    change (form_str (FFor g b)) with
      (s2p "for" ++ s2p " (" ++ ast_str g ++ s2p ") {" ++ nl ++ block (body_str b) (match b with [] => true | _ => false end) ++ s2p "}").
    change (sform_toks (FFor g b)) with (scond_toks KFor "for" g ++ sblock_toks b ++ [wd KBraceClose "}"]).
    apply sp_scond; [in_list|now apply sp_signed|]. apply sp_sblock; [assumption|assumption|]. apply sp_one, tok_closed. in_list.
  - destruct Hr as (H1 & H2 & H3). rewrite fold_and in H2.
    assert (G : Forall sgoodf ib) by (rewrite Forall_forall in *; intros x Hx; apply IHi; [assumption|now apply H2]).
    change (form_str (FIf c ib eb)) with
      (s2p "if" ++ s2p " (" ++ ast_str c ++ s2p ") {" ++ nl ++ block (body_str ib) (match ib with [] => true | _ => false end) ++
       (match eb with Some ((_ :: _) as b) => s2p "} else {" ++ nl ++ block (body_str b) false | _ => [] end) ++ s2p "}").
    change (sform_toks (FIf c ib eb)) with
      (scond_toks KIf "if" c ++ sblock_toks ib ++
       (match eb with Some ((_ :: _) as b) => wd KBraceClose "}" :: wd KElse "else" :: wd KBraceOpen "{" :: sblock_toks b | _ => [] end)
       ++ [wd KBraceClose "}"]).
    apply sp_scond; [in_list|now apply sp_signed|]. apply sp_sblock; [assumption|assumption|].
    destruct eb as [b|]; [|apply sp_one, tok_closed; in_list]. destruct H3 as [H3 H4]. rewrite fold_and in H4.
    destruct b as [|f b]; [congruence|]. rewrite <- !app_assoc. cbn [app].
    change (s2p "} else {") with (s2p "}" ++ s2p " " ++ s2p "else" ++ s2p " " ++ s2p "{"). rewrite <- !app_assoc.
    apply sp_closed; [in_list|]. apply sp_space1, sp_spaced; [in_list|]. apply sp_closed; [in_list|]. apply sp_nl.
    apply (sp_sblock (f :: b)); [assumption| |apply sp_one, tok_closed; in_list].
    cbn [opt_all] in IHe. rewrite Forall_forall in *. intros x Hx. apply IHe; [assumption|now apply H4].
  - destruct Hr as [H1 H2]. rewrite fold_and in H2.
    assert (G : Forall sgoodf b) by (rewrite Forall_forall in *; intros x Hx; apply IH; [assumption|now apply H2]).
    change (form_str (FWhile c b)) with
      (s2p "while" ++ s2p " (" ++ ast_str c ++ s2p ") {" ++ nl ++ block (body_str b) (match b with [] => true | _ => false end) ++ s2p "}").
    change (sform_toks (FWhile c b)) with (scond_toks KWhile "while" c ++ sblock_toks b ++ [wd KBraceClose "}"]).
    apply sp_scond; [in_list|now apply sp_signed|]. apply sp_sblock; [assumption|assumption|]. apply sp_one, tok_closed. in_list.
Qed.

(** ** Events, plans, rules *)

Definition sevent_toks (e : aevent) : list word :=
  (match ae_trig e with TrAdd => wd KPlus "+" | TrRem => wd KMinus "-" end)
  :: (match ae_gt e with GtAchieve => [wd KExclam "!"] | GtTest => [wd KQuestion "?"] | _ => [] end)
  ++ slit_toks (ae_head e).
Definition splan_toks (p : aplan) : list word :=
  (match ap_annot p with Some l => wd KAt "@" :: slit_toks l | None => [] end)
  ++ sevent_toks (ap_event p)
  ++ (match ap_ctx p with Some c => wd KColon ":" :: sign_toks c | None => [] end)
  ++ (match ap_body p with Some b => wd KArrow "<-" :: sbody_toks b | None => [] end).

Lemma sp_sevent e : signed_event e -> forall a, stop a -> sp (event_str e) a (sevent_toks e).
Proof.
  intros [Hg Hl] a Ha. destruct e as [tr gt h]. unfold event_str, sevent_toks. cbn [ae_trig ae_gt ae_head] in *.
  pose proof (sp_signed _ Hl a Ha) as Hs. pose proof (signed_opens (lit_ast h) a Hl (fun x => x)) as Ho. unfold lit_str, slit_toks.
  assert (G : sp (gtype_lex gt ++ ast_str (lit_ast h)) a
    ((match gt with GtAchieve => [wd KExclam "!"] | GtTest => [wd KQuestion "?"] | _ => [] end) ++ sign_toks (lit_ast h))).
  { destruct Hg as [-> | [-> | ->]]; cbn [gtype_lex app]; [assumption| |].
    - apply sp_tok; [apply tok_opens; [in_list|assumption]|assumption].
    - apply sp_closed; [in_list|assumption]. }
  destruct tr; cbn [trig_lex]; [now apply sp_closed; [in_list|]|].
  apply sp_tok; [|assumption].
  destruct Hg as [-> | [-> | ->]]; cbn [gtype_lex app].
  - apply tok_opens; [in_list|assumption].
  - apply (tok_minus 33). discriminate.
  - apply (tok_minus 63). discriminate.
Qed.

Lemma sp_splan p : signed_plan p -> forall a, stop a -> sp (aplan_str p) a (splan_toks p).
Proof.
  intros (H1 & H2 & H3 & H4) a Ha. destruct p as [an e c b]. unfold aplan_str, splan_toks.
  cbn [ap_annot ap_event ap_ctx ap_body] in *.
  set (bs := match b with Some b0 => s2p " <-" ++ nl ++ indent (body_str b0) | None => [] end).
  set (cs := match c with Some c0 => s2p " : " ++ ast_str c0 | None => [] end).
  assert (B : sp bs a (match b with Some b0 => wd KArrow "<-" :: sbody_toks b0 | None => [] end)).
  { unfold bs. destruct b as [b|]; [|constructor]. destruct (H4 b eq_refl) as [Hn Hf].
    change (s2p " <-") with (s2p " " ++ s2p "<-"). rewrite <- app_assoc. apply sp_space1, sp_closed; [in_list|]. apply sp_nl.
    destruct (sbody_closed b Hn Hf) as [C1 C2]. rewrite indent_ind by assumption.
    change (s2p "  ") with (s2p " " ++ s2p " "). rewrite <- app_assoc. apply sp_space1, sp_space1, sp_indented.
    apply sp_sbody; [|assumption]. eapply Forall_impl; [|exact Hf]. exact sp_sform. }
  assert (Sb : stop (bs ++ a)) by (unfold bs; destruct b; [is_stop|assumption]).
  assert (C : sp (cs ++ bs) a ((match c with Some c0 => wd KColon ":" :: sign_toks c0 | None => [] end)
    ++ match b with Some b0 => wd KArrow "<-" :: sbody_toks b0 | None => [] end)).
  { unfold cs. destruct c as [c|]; [|assumption].
    change (s2p " : ") with (s2p " " ++ s2p ":" ++ s2p " "). rewrite <- !app_assoc. apply sp_space1. cbn [app].
    apply sp_spaced; [in_list|]. apply sp_sgood; [apply sp_signed; now apply H3|assumption|assumption]. }
  assert (Sc : stop ((cs ++ bs) ++ a)) by (unfold cs; destruct c; [is_stop|assumption]).
  assert (E : sp (event_str e ++ cs ++ bs) a (sevent_toks e ++ (match c with Some c0 => wd KColon ":" :: sign_toks c0 | None => [] end)
    ++ match b with Some b0 => wd KArrow "<-" :: sbody_toks b0 | None => [] end)).
  { apply sp_app; [|assumption]. now apply sp_sevent. }
  destruct an as [l|]; [|assumption]. rewrite <- !app_assoc. cbn [app]. apply sp_closed; [in_list|].
  unfold lit_str, slit_toks. apply sp_sgood; [apply sp_signed; now apply H1|is_stop|]. now apply sp_nl.
Qed.
End WithPy.
