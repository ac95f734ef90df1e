(** Plans with negative numbers: their phrases. *)
From Verif Require Import Base Num Term Unify Str World Ast Names Quote QuoteSpec QuoteFacts Lex LexSpec LexFacts LexCor LexTok
  Parse ParseTotal ParseInv RoundSpec RoundLex RoundTok RoundText RoundParse RoundCor
  GramSpec GramTok AgentSpec AgentSign SignPlan.

Section WithPy.
Context {PY : Py}.
Ltac one E := let l := fresh "l" in let a := fresh "p" in let b := fresh "p" in let t := fresh "t" in
  apply tok_cons in E as (l & a & b & t & -> & E).
Ltac fin E := match type of E with map _ ?t = [] => apply map_eq_nil in E; subst t end.
Ltac two E F := let u := fresh "u" in let v := fresh "v" in apply tok_app in E as (u & v & -> & F & E).

Fixpoint unsign_form (f : form) : form :=
  match f with
  | FForm ft t => FForm ft (unsign t)
  | FFor c b => FFor (unsign c) (map unsign_form b)
  | FWhile c b => FWhile (unsign c) (map unsign_form b)
  | FIf c ib eb => FIf (unsign c) (map unsign_form ib) (match eb with Some b => Some (map unsign_form b) | None => None end)
  end.
Definition unsign_event (e : aevent) : aevent := mkaevent (ae_trig e) (ae_gt e) (unsign_lit (ae_head e)).
Definition unsign_plan (p : aplan) : aplan :=
  mkaplan (option_map unsign_lit (ap_annot p)) (unsign_event (ap_event p)) (option_map unsign (ap_ctx p)) (option_map (map unsign_form) (ap_body p)).

Lemma lit_phrase l toks : signed_lit l -> map tw toks = slit_toks l -> literal toks (unsign_lit l).
Proof.
  destruct l as [f ts an]. intros (_ & H1 & H2) E. fold signed_readable in H1, H2. rewrite fold_and in H1, H2.
  apply literal_reads; [| |exact E]; rewrite Forall_forall in *; intros x Hx; apply signed_reads; auto.
Qed.
Lemma expr_phrase t toks : signed_readable t -> map tw toks = sign_toks t -> expr LOr toks (unsign t).
Proof. intros H E. apply factor_up; [discriminate|]. now apply (signed_reads t H). Qed.

Lemma first_word t : signed_readable t -> ~ negative t -> exists k c w ws, sign_toks t = (k, c :: w) :: ws /\ c <> 43%N /\ c <> 45%N.
Proof.
  intros H Hn. pose proof (signed_opens t [] H Hn) as O.
  destruct t as [b|x|s|v|f ts an|ts|h t|op b|op l r]; cbn [sign_toks]; cbn [ast_str asl_repr] in O; cbn [signed_readable] in H.
  - destruct b; do 4 eexists; (split; [reflexivity|split; discriminate]).
  - unfold num_toks. destruct H as [H|H]; [|destruct (Hn H)]. destruct (numeral_head x H) as (c & w & E & Ec & _). rewrite E, Ec. rewrite E in O.
    do 4 eexists. split; [reflexivity|]. cbn in O. tauto.
  - do 4 eexists. split; [reflexivity|split; discriminate].
  - destruct (variable_head _ H) as (c & w & -> & _). do 4 eexists. split; [reflexivity|]. cbn in O. tauto.
  - destruct H as (H & _). destruct (functor_head _ H) as (c & w & -> & _). do 4 eexists. split; [reflexivity|]. cbn in O. tauto.
  - do 4 eexists. split; [reflexivity|split; discriminate].
  - do 4 eexists. split; [reflexivity|split; discriminate].
  - do 4 eexists. split; [reflexivity|split; discriminate].
  - do 4 eexists. split; [reflexivity|split; discriminate].
Qed.
Lemma not_signed t toks : signed_readable t -> ~ negative t -> map tw toks = sign_toks t -> ~ signed toks.
Proof.
  intros H Hn E (x & l' & -> & X). destruct (first_word t H Hn) as (k & c & w & ws & Ew & C1 & C2). rewrite Ew in E.
  assert (E' : tw x = (k, c :: w)) by (cbn [map] in E; congruence). assert (E2 : t_lex x = c :: w) by (unfold tw in E'; congruence).
  unfold the in X. rewrite E2 in X. destruct X as [X|X]; cbn in X; congruence.
Qed.

Definition reads_form (f : form) : Prop := forall toks, map tw toks = sform_toks f -> formula toks (unsign_form f).

Lemma semis_body b : b <> [] -> Forall reads_form b -> forall toks, map tw toks = sbody_toks b ++ [wd KSemicolon ";"] -> body toks (map unsign_form b).
Proof.
  intros Hn F. unfold sbody_toks, semis. induction F as [|f b Hf F IH]; [congruence|]. intros toks E. destruct b as [|g b].
  - cbn [map joinw] in E. two E E1. one E. fin E. cbn [map]. apply b_next; [now apply Hf|reflexivity|constructor].
  - cbn [map] in E. rewrite joinw_cons2, <- !app_assoc in E. two E E1. cbn [app] in E. one E.
    cbn [map]. apply b_next; [now apply Hf|reflexivity|]. apply IH; [discriminate|exact E].
Qed.
Lemma block_body b : Forall reads_form b -> forall toks, map tw toks = sblock_toks b -> body toks (map unsign_form b).
Proof.
  intros F toks E. destruct b as [|f b]; [cbn in E; fin E; constructor|]. apply semis_body; [discriminate|assumption|exact E].
Qed.
Lemma semis_plan b : b <> [] -> Forall reads_form b -> forall toks, map tw toks = sbody_toks b -> plan_body toks (map unsign_form b).
Proof.
  intros Hn F. unfold sbody_toks, semis. induction F as [|f b Hf F IH]; [congruence|]. intros toks E. destruct b as [|g b].
  - cbn [map joinw] in E. apply d_last. now apply Hf.
  - cbn [map] in E. rewrite joinw_cons2 in E. two E E1. cbn [app] in E. one E.
    cbn [map]. apply d_next; [now apply Hf|reflexivity|]. apply IH; [discriminate|exact E].
Qed.

Lemma cond_phrase k s c ws toks : signed_readable c -> map tw toks = scond_toks k s c ++ ws ->
  exists w o a e b v, toks = w :: (o :: a ++ [e]) ++ b :: v /\ the s w /\ condition_of (o :: a ++ [e]) (unsign c) /\ the "{" b /\ map tw v = ws.
Proof.
  intros H E. unfold scond_toks in E. cbn [app] in E. rewrite <- app_assoc in E. one E. one E. two E E1. cbn [app] in E. one E. one E.
  do 6 eexists. split; [|split; [|split; [|split; [|exact E]]]].
  - rewrite <- app_comm_cons, <- app_assoc. cbn [app]. reflexivity.
  - reflexivity.
  - apply h_condition; [reflexivity|now apply expr_phrase|reflexivity].
  - reflexivity.
Qed.

Lemma else_group {A} (w : A) C x u c1 e1 v : w :: C ++ x :: u ++ c1 :: e1 :: v = w :: C ++ (x :: u ++ [c1]) ++ e1 :: v.
Proof. cbn [app]. now rewrite <- app_assoc. Qed.

Lemma form_reads f : signed_form f -> reads_form f.
Proof.
  induction f as [ft t|g b IH|c ib eb IHi IHe|c b IH] using form_ind'; intros Hr toks E; cbn [signed_form] in Hr; cbn [unsign_form].
  - destruct Hr as [Hr Hn]. cbn [sform_toks] in E.
    assert (X : forall k s ft' u, In (s, ft') prefixes -> map tw u = wd k s :: sign_toks t -> formula u (FForm ft' (unsign t))).
    { intros k s ft' u Hin E'. unfold wd in E'. one E'. apply (f_prefix s); [assumption|reflexivity|now apply expr_phrase]. }
    destruct ft; cbn [ftype_toks app] in E;
      first [ apply f_term; [now apply expr_phrase|exact (not_signed t toks Hr Hn E)] | eapply X; [|exact E]; cbn; tauto ].
  - destruct Hr as [H1 H2]. rewrite fold_and in H2.
    assert (G : Forall reads_form b) by (rewrite Forall_forall in *; auto).
    change (sform_toks (FFor g b)) with (scond_toks KFor "for" g ++ sblock_toks b ++ [wd KBraceClose "}"]) in E.
    apply cond_phrase in E as (w & o & a & e & x & v & -> & W & C & B & E); [|assumption]. two E E1. one E. fin E.
    apply f_for; [assumption|assumption|]. apply b_block; [assumption|now apply block_body|reflexivity].
  - destruct Hr as (H1 & H2 & H3). rewrite fold_and in H2.
    assert (G : Forall reads_form ib) by (rewrite Forall_forall in *; auto).
    change (sform_toks (FIf c ib eb)) with
      (scond_toks KIf "if" c ++ sblock_toks ib ++
       (match eb with Some ((_ :: _) as b) => wd KBraceClose "}" :: wd KElse "else" :: wd KBraceOpen "{" :: sblock_toks b | _ => [] end)
       ++ [wd KBraceClose "}"]) in E.
    apply cond_phrase in E as (w & o & a & e & x & v & -> & W & C & B & E); [|assumption]. two E E1.
    destruct eb as [b|].
    + destruct H3 as [H3 H4]. rewrite fold_and in H4. destruct b as [|f b]; [congruence|].
      assert (Ge : Forall reads_form (f :: b)) by (cbn [opt_all] in IHe; rewrite Forall_forall in *; auto).
      cbn [app] in E. one E. one E. one E. two E E2. one E. fin E.
      rewrite else_group.
      apply f_if_else; [assumption|assumption| |reflexivity|].
      * apply b_block; [assumption|now apply block_body|reflexivity].
      * apply b_block; [reflexivity|now apply block_body|reflexivity].
    + cbn [app] in E. one E. fin E. apply f_if; [assumption|assumption|]. apply b_block; [assumption|now apply block_body|reflexivity].
  - destruct Hr as [H1 H2]. rewrite fold_and in H2.
    assert (G : Forall reads_form b) by (rewrite Forall_forall in *; auto).
    change (sform_toks (FWhile c b)) with (scond_toks KWhile "while" c ++ sblock_toks b ++ [wd KBraceClose "}"]) in E.
    apply cond_phrase in E as (w & o & a & e & x & v & -> & W & C & B & E); [|assumption]. two E E1. one E. fin E.
    apply f_while; [assumption|assumption|]. apply b_block; [assumption|now apply block_body|reflexivity].
Qed.

Lemma event_reads e toks : signed_event e -> map tw toks = sevent_toks e -> event_of toks (unsign_event e).
Proof.
  intros [Hg H] E. destruct e as [tr gt h]. unfold sevent_toks in E. unfold unsign_event. cbn [ae_trig ae_gt ae_head] in *.
  assert (X : exists s k, In (s, tr) triggers /\ (match tr with TrAdd => wd KPlus "+" | TrRem => wd KMinus "-" end) = wd k s).
  { destruct tr; [exists "+"%string, KPlus|exists "-"%string, KMinus]; (split; [cbn; tauto|reflexivity]). }
  destruct X as (s & k & Hs & Ek). rewrite Ek in E. unfold wd at 1 in E. one E.
  destruct Hg as [-> | [-> | ->]]; cbn [app] in E.
  - apply (v_belief s); [assumption|reflexivity|now apply lit_phrase].
  - one E. apply (v_goal s tr _ "!"); [assumption|reflexivity|cbn; tauto|reflexivity|now apply lit_phrase].
  - one E. apply (v_goal s tr _ "?"); [assumption|reflexivity|cbn; tauto|reflexivity|now apply lit_phrase].
Qed.

Lemma plan_reads p toks : signed_plan p -> map tw toks = splan_toks p -> plan_of toks (unsign_plan p).
Proof.
  intros (H1 & H2 & H3 & H4) E. destruct p as [an e c b]. unfold splan_toks in E. unfold unsign_plan. cbn [ap_annot ap_event ap_ctx ap_body] in *.
  two E E1. two E E2. two E E3. apply q_plan.
  - destruct an as [l|]; [one E1|fin E1]; constructor; [reflexivity|]. now apply lit_phrase; [apply H1|].
  - now apply event_reads.
  - destruct c as [c|]; [one E3|fin E3]; constructor; [reflexivity|]. apply expr_phrase; [now apply H3|assumption].
  - destruct b as [b|]; [one E|fin E]; constructor; [reflexivity|]. destruct (H4 b eq_refl) as [Hn F].
    apply semis_plan; [assumption| |assumption]. eapply Forall_impl; [|exact F]. exact form_reads.
Qed.
End WithPy.
