(** Agents with negative numbers are read back: validation turns -(1) into the
    negative number again. *)
From Verif Require Import Base Num Term Unify Str World Ast Names Quote QuoteSpec QuoteFacts Lex LexSpec LexFacts LexCor LexTok
  Parse ParseTotal ParseInv Fold Program RoundSpec RoundLex RoundTok RoundText RoundParse RoundCor
  GramSpec GramTok GramSound GramComp GramCor Counts Closed SrcSpec SrcQuiet SrcVal SrcFacts SrcComp AgentSpec AgentFold AgentFacts AgentFormed AgentSign SignPlan SignForm.

Section WithPy.
Context {PY : Py}.

(** ** Folding *)

Ltac bl := repeat first [apply blind_ret|apply blind_fail|apply blind_error|apply blind_fold|apply blind_comp
  |apply blind_mapl; intros|apply blind_bind; [|intros]|assumption
  |match goal with |- blind (match ?b with _ => _ end) => destruct b end].
Ltac rb := rewrite runs_bind; [|solve [bl]|intros; solve [bl]].
Ltac inv H := apply runs_bind' in H; [|solve [bl]|intros; solve [bl]].
Ltac bad H := let y := fresh in let X := fresh in
  solve [inv H; destruct H as (y & X & _); now apply runs_error in X | destruct (never _ _ H)].

Definition folds_back (t : ast) : Prop := forall m t', runs (fold m t) t' -> runs (fold m (unsign t)) t'.

Lemma back_list ts : Forall folds_back ts -> forall ts', runs (pmapl (fold MTerm) ts) ts' -> runs (pmapl (fold MTerm) (map unsign ts)) ts'.
Proof.
  intros F ts' H. apply runs_mapl in H; [|intros; bl]. apply runs_mapl; [intros; bl|].
  revert F. induction H as [|x y l l' H _ IH]; intros F; [constructor|]. inversion F; subst. cbn [map]. constructor; [|now apply IH]. auto.
Qed.

Ltac stp H IH := inv H; let y := fresh "y" in let X := fresh "X" in destruct H as (y & X & H); rb; exists y; split; [now apply IH|].

Lemma signed_back t : signed_readable t -> folds_back t.
Proof.
  induction t as [b|x|s|v|f ts an Hts Han|ts Hts|h t IHh IHt|op a IH|op l r IHl IHr] using ast_ind'; intros Hr m t' H;
    cbn [signed_readable] in Hr; cbn [unsign].
  - exact H.
  - unfold unsign_num. destruct Hr as [Hx|Hx].
    + destruct (numeral_head x Hx) as (c & w & -> & -> & _). exact H.
    + destruct (minus_head x Hx) as (w & -> & _ & Ex). cbn [N.eqb Pos.eqb].
      assert (Em : (m = MNum \/ m = MTerm) /\ t' = ANum x).
      { cbn [fold] in H. destruct m; try bad H; inv H; destruct H as (u & _ & H); apply runs_ret in H; auto. }
      destruct Em as [Em ->].
      assert (R : runs (a' <- fold MNum (ANum (num_opp x)) ;; match a' with ANum z => pret (ANum (num_opp z)) | _ => pret (AUn UNeg a') end)%P (ANum x)).
      { rb. exists (ANum (num_opp x)). split; [apply num_runs; now left|]. apply runs_ret. rewrite Ex, !opp_opp. reflexivity. }
      destruct Em as [-> | ->]; exact R.
  - exact H.
  - exact H.
  - destruct Hr as (_ & H1 & H2). rewrite fold_and in H1, H2.
    assert (F1 : Forall folds_back ts) by (rewrite Forall_forall in *; auto).
    assert (F2 : Forall folds_back an) by (rewrite Forall_forall in *; auto).
    cbn [fold] in H |- *. destruct m; try bad H; stp H (back_list ts F1); stp H (back_list an F2); exact H.
  - rewrite fold_and in Hr. assert (F1 : Forall folds_back ts) by (rewrite Forall_forall in *; auto).
    cbn [fold] in H |- *. destruct m; try bad H. stp H (back_list ts F1). exact H.
  - destruct Hr as (H1 & H2). cbn [fold] in H |- *. destruct m; try bad H. stp H (IHh H1). stp H (IHt H2). exact H.
  - cbn [fold] in H |- *. destruct m, op; cbn [unop_mode] in H |- *; try bad H; stp H (IH Hr); exact H.
  - destruct Hr as (H1 & H2 & _). cbn [fold] in H |- *.
    destruct m, op; cbn [binop_mode] in H |- *; try bad H; stp H (IHl H1); stp H (IHr H2); try exact H.
    all: destruct y; try exact H; destruct y0; try exact H; destruct (num_op _ _ _ _) as [z|[]]; try exact H; bad H.
Qed.

Lemma lit_back l l' : signed_readable (lit_ast l) -> folded_lit l l' -> folded_lit (unsign_lit l) l'.
Proof.
  destruct l as [f ts an]. cbn [lit_ast signed_readable l_functor l_terms l_annots]. intros (_ & S1 & S2). rewrite fold_and in S1, S2.
  assert (X : forall us us', Forall signed_readable us -> Forall2 (folded MTerm) us us' -> Forall2 (folded MTerm) (map unsign us) us').
  { intros us us' S F. induction F as [|x y us us' Hx _ IH]; [constructor|]. inversion S; subst. cbn [map].
    constructor; [now apply (signed_back x)|auto]. }
  intros (H1 & H2 & H3). split; [exact H1|]. split; [now apply X|now apply X].
Qed.

Definition unsign_rule (r : arule) : arule := mkarule (unsign_lit (ar_head r)) (unsign (ar_cons r)).
Definition unsign_agent (g : aagent) : aagent :=
  mkaagent (map unsign_rule (ag_rules g)) (map unsign_lit (ag_beliefs g)) (map unsign_lit (ag_goals g)) (map unsign_plan (ag_plans g)).
Definition signed_rule (r : arule) : Prop := signed_readable (lit_ast (ar_head r)) /\ signed_readable (ar_cons r).

Lemma all_back {A} (S : A -> Prop) (u : A -> A) (R : A -> A -> Prop) l l' : (forall x y, S x -> R x y -> R (u x) y) ->
  Forall S l -> Forall2 R l l' -> Forall2 R (map u l) l'.
Proof. intros H F G. induction G; inversion F; subst; cbn [map]; constructor; auto. Qed.

Lemma part_back {A} (S : A -> Prop) (u : A -> A) (R : A -> A -> Prop) o o' : (forall x y, S x -> R x y -> R (u x) y) ->
  (forall x, o = Some x -> S x) -> part R o o' -> part R (option_map u o) o'.
Proof. intros H F G. destruct G; cbn [option_map]; constructor; auto. Qed.

Lemma form_back f : signed_form f -> forall f', folded_form f f' -> folded_form (unsign_form f) f'.
Proof.
  assert (Body : forall b, Forall signed_form b -> Forall (fun f => signed_form f -> forall f', folded_form f f' -> folded_form (unsign_form f) f') b ->
    forall b', Forall2 folded_form b b' -> Forall2 folded_form (map unsign_form b) b').
  { intros b S F b' H. induction H as [|x y b b' Hx _ IH]; inversion F; subst; inversion S; subst; cbn [map]; constructor; auto. }
  induction f as [ft t|c b IH|c ib eb IHi IHe|c b IH] using form_ind'; intros Hs f' H; cbn [signed_form] in Hs.
  - destruct Hs as [Hs _]. inversion H; subst; cbn [unsign_form].
    + constructor. now apply (signed_back t Hs MLog).
    + pose proof (signed_back _ Hs MTerm t') as X. apply ff_other; [assumption|]. apply X. assumption.
    + cbn [unsign]. apply ff_var; assumption.
  - destruct Hs as [S1 S2]. rewrite fold_and in S2. inversion H; subst; cbn [unsign_form]. constructor; [now apply (signed_back c S1 MLog)|auto].
  - destruct Hs as (S1 & S2 & S3). rewrite fold_and in S2. inversion H; subst; cbn [unsign_form].
    + constructor; [now apply (signed_back c S1 MLog)|auto].
    + destruct S3 as [_ S3]. rewrite fold_and in S3. constructor; [now apply (signed_back c S1 MLog)|auto|auto].
  - destruct Hs as [S1 S2]. rewrite fold_and in S2. inversion H; subst; cbn [unsign_form]. constructor; [now apply (signed_back c S1 MLog)|auto].
Qed.

Lemma plan_back p p' : signed_plan p -> folded_plan p p' -> folded_plan (unsign_plan p) p'.
Proof.
  intros (S1 & (_ & S2) & S3 & S4) (H1 & (E1 & E2 & H2) & H3 & H4). unfold folded_plan, unsign_plan, unsign_event.
  cbn [ap_annot ap_event ap_ctx ap_body ae_trig ae_gt ae_head]. split; [|split; [|split]].
  - exact (part_back _ _ _ _ _ lit_back S1 H1).
  - split; [exact E1|]. split; [exact E2|]. now apply lit_back.
  - refine (part_back signed_readable _ _ _ _ _ S3 H3). intros x y Hx. exact (signed_back x Hx MLog y).
  - refine (part_back (Forall signed_form) _ _ _ _ _ (fun b Hb => proj2 (S4 b Hb)) H4). intros x y Hx.
    apply (all_back signed_form unsign_form folded_form _ _ (fun f f' Hf => form_back f Hf f') Hx).
Qed.

Lemma agent_back g g' : signed_agent g -> validated g g' -> validated (unsign_agent g) g'.
Proof.
  intros (S1 & S2 & S3 & S4) ((H1 & H2 & H3 & H4) & H). split; [|exact H]. unfold unsign_agent. cbn [ag_rules ag_beliefs ag_goals ag_plans].
  split; [|split; [|split; [|exact (all_back _ unsign_plan folded_plan _ _ plan_back S4 H4)]]].
  - apply (all_back signed_rule unsign_rule folded_rule _ _); [|exact S1|exact H1].
    intros x y [R1 R2] [Q1 Q2]. split; [now apply lit_back|]. exact (signed_back _ R2 MLog _ Q2).
  - exact (all_back _ unsign_lit folded_lit _ _ lit_back S2 H2).
  - exact (all_back _ unsign_lit folded_lit _ _ lit_back S3 H3).
Qed.

(** ** Tokens *)

Definition srule_toks (r : arule) : list word := sign_toks (lit_ast (ar_head r)) ++ wd KDefine ":-" :: sign_toks (ar_cons r).
Definition sgoal_toks (l : alit) : list word := wd KExclam "!" :: slit_toks l.
Definition sagent_toks (g : aagent) : list word :=
  dotted (map srule_toks (ag_rules g)) ++ dotted (map slit_toks (ag_beliefs g)) ++
  dotted (map sgoal_toks (ag_goals g)) ++ dotted (map splan_toks (ag_plans g)).

Lemma sitem_lit l : signed_lit l -> item_of (lit_str l) (slit_toks l).
Proof. intros H a Ha. now apply (sp_signed (lit_ast l) H). Qed.
Lemma sitem_goal l : signed_lit l -> item_of (s2p "!" ++ lit_str l) (sgoal_toks l).
Proof.
  intros H a Ha. apply sp_tok; [|now apply (sp_signed (lit_ast l) H)]. apply tok_opens; [cbn [In]; tauto|].
  apply (signed_opens (lit_ast l) a H). intros [].
Qed.
Lemma sitem_rule r : signed_rule r -> item_of (arule_str r) (srule_toks r).
Proof.
  intros [H1 H2] a Ha. unfold arule_str, srule_toks, lit_str.
  apply sp_sgood; [now apply sp_signed|cbn; repeat split; discriminate|].
  change (s2p " :- ") with (s2p " " ++ s2p ":-" ++ s2p " "). rewrite <- !app_assoc. apply sp_space1.
  apply sp_closed; [unfold closed; cbn [In]; tauto|]. apply sp_space1. now apply sp_signed.
Qed.

Lemma sitem_plan p : signed_plan p -> item_of (aplan_str p) (splan_toks p).
Proof. intros H a Ha. now apply sp_splan. Qed.

Lemma sagent_text g : signed_agent g -> sp (aagent_str g) [] (sagent_toks g).
Proof.
  intros (H1 & H2 & H3 & H4).
  assert (S0 : so_far [] []) by (split; [reflexivity|constructor]).
  pose proof (items_text nl (or_introl eq_refl) _ _ (items_of _ _ _ _ sitem_rule H1) _ _ S0) as S1.
  pose proof (section_text _ _ (items_of _ _ _ _ sitem_lit H2) _ _ S1) as S2.
  pose proof (section_text _ _ (items_of _ _ _ _ sitem_goal H3) _ _ S2) as S3.
  pose proof (items_text (nl ++ nl) (or_intror eq_refl) _ _ (items_of _ _ _ _ sitem_plan H4) _ _ S3) as [_ S4].
  unfold aagent_str, sagent_toks, dotted. cbn [app] in S4. rewrite <- !app_assoc in S4. apply S4. right. now left.
Qed.

(** ** Phrases *)

Lemma sclause_rule r toks : signed_rule r -> map tw toks = srule_toks r ++ [dot] -> Forall lexed toks ->
  one_clause toks (mkaagent [unsign_rule r] [] [] []).
Proof.
  intros [H1 H2] E _. destruct r as [h c]. unfold srule_toks in E. cbn [ar_head ar_cons] in *. rewrite <- app_assoc in E.
  apply tok_app in E as (u & v & -> & E1 & E2). cbn [app] in E2. apply tok_cons in E2 as (l & a & b & v' & -> & E2).
  apply tok_app in E2 as (w & x & -> & E2 & E3). apply tok_cons in E3 as (l' & a' & b' & x' & -> & E3). destruct x'; [|discriminate].
  rewrite app_comm_cons, app_assoc. apply c_rule; [|reflexivity]. apply q_rule; [now apply lit_phrase|reflexivity|].
  apply factor_up; [discriminate|]. now apply (signed_reads c H2).
Qed.
Lemma sclause_belief h toks : signed_lit h -> map tw toks = slit_toks h ++ [dot] -> Forall lexed toks ->
  one_clause toks (mkaagent [] [unsign_lit h] [] []).
Proof.
  intros H E _. apply tok_app in E as (w & x & -> & E2 & E3). apply tok_cons in E3 as (l' & a' & b' & x' & -> & E3). destruct x'; [|discriminate].
  apply c_belief; [|reflexivity]. apply q_belief. now apply lit_phrase.
Qed.
Lemma sclause_goal h toks : signed_lit h -> map tw toks = sgoal_toks h ++ [dot] -> Forall lexed toks ->
  one_clause toks (mkaagent [] [] [unsign_lit h] []).
Proof.
  intros H E _. unfold sgoal_toks in E. cbn [app] in E. apply tok_cons in E as (l & a & b & v' & -> & E).
  apply tok_app in E as (w & x & -> & E2 & E3). apply tok_cons in E3 as (l' & a' & b' & x' & -> & E3). destruct x'; [|discriminate].
  rewrite app_comm_cons. apply c_goal; [|reflexivity]. apply q_goal; [reflexivity|]. now apply lit_phrase.
Qed.

Lemma sclause_plan p toks : signed_plan p -> map tw toks = splan_toks p ++ [dot] -> Forall lexed toks ->
  one_clause toks (mkaagent [] [] [] [unsign_plan p]).
Proof.
  intros H E _. apply tok_app in E as (w & x & -> & E2 & E3). apply tok_cons in E3 as (l' & a' & b' & x' & -> & E3). destruct x'; [|discriminate].
  apply c_plan; [|reflexivity]. now apply plan_reads.
Qed.

Lemma sagent_program files file within g toks : signed_agent g -> map tw toks = sagent_toks g -> Forall lexed toks ->
  program files file within toks (unsign_agent g).
Proof.
  destruct g as [rs bs gs ps]. intros (H1 & H2 & H3 & H4). unfold sagent_toks, unsign_agent. cbn [ag_rules ag_beliefs ag_goals ag_plans] in *.
  revert toks.
  assert (M : forall {A} (u : A -> A) (mk : A -> aagent) g l,
    fold_right (fun x h => followed (mk (u x)) h) g l = fold_right (fun x h => followed (mk x) h) g (map u l)).
  { intros A u mk g l. induction l as [|x l IH]; [reflexivity|]. cbn [map fold_right]. now rewrite IH. }
  assert (Fp : forall toks, map tw toks = dotted (map splan_toks ps) -> Forall lexed toks ->
    program files file within toks (mkaagent [] [] [] (map unsign_plan ps))).
  { rewrite <- (fold_plans (map unsign_plan ps)), <- (M _ unsign_plan (fun p => mkaagent [] [] [] [p])), <- (app_nil_r (dotted (map splan_toks ps))).
    apply (program_clauses files file within _ _ _ sclause_plan); [assumption|]. intros toks E _. destruct toks; [constructor|discriminate]. }
  assert (Fg : forall toks, map tw toks = dotted (map sgoal_toks gs) ++ dotted (map splan_toks ps) -> Forall lexed toks ->
    program files file within toks (mkaagent [] [] (map unsign_lit gs) (map unsign_plan ps))).
  { rewrite <- (fold_goals (map unsign_lit gs) (map unsign_plan ps)), <- (M _ unsign_lit (fun p => mkaagent [] [] [p] [])).
    now apply (program_clauses files file within _ _ _ sclause_goal). }
  assert (Fb : forall toks, map tw toks = dotted (map slit_toks bs) ++ dotted (map sgoal_toks gs) ++ dotted (map splan_toks ps) -> Forall lexed toks ->
    program files file within toks (mkaagent [] (map unsign_lit bs) (map unsign_lit gs) (map unsign_plan ps))).
  { rewrite <- (fold_beliefs (map unsign_lit bs)), <- (M _ unsign_lit (fun p => mkaagent [] [p] [] [])).
    now apply (program_clauses files file within _ _ _ sclause_belief). }
  rewrite <- (fold_rules (map unsign_rule rs)), <- (M _ unsign_rule (fun p => mkaagent [p] [] [] [])).
  now apply (program_clauses files file within _ _ _ sclause_rule).
Qed.

Theorem signed_says g g' files name : signed_agent g -> validated g g' -> says files name (string_source (aagent_str g)) g'.
Proof.
  intros H Hv. destruct (sp_tokens _ _ _ 1%nat (le_n _) (sagent_text g H)) as (items & E & E2).
  apply spells in E2 as (toks & -> & E2). exists toks, (unsign_agent g). split; [exact E|]. split; [|now apply agent_back].
  apply sagent_program; [assumption|assumption|]. apply Forall_forall. intros t Ht.
  exists 1%nat, (string_source (aagent_str g)), (map ITok toks). split; [exact E|now apply in_map].
Qed.

Theorem signed_agent_back files n name lines g : parse_source files n name lines = Ok g -> signed_agent g ->
  forall files' name', exists N, forall m, (N <= m)%nat -> parse_source files' m name' (string_source (aagent_str g)) = Ok g.
Proof.
  intros H Hr files' name'. apply source_says in H as (l & h & _ & _ & Hv). apply says_source. apply signed_says; [assumption|].
  now apply (validated_settles h).
Qed.

Lemma signed_exact_readable t : formed t -> signed_exact t -> signed_readable t.
Proof.
  induction t as [b|x|s|v|f ts an Hts Han|ts Hts|h t IHh IHt|op a IH|op l r IHl IHr] using ast_ind';
    cbn [formed signed_exact signed_readable]; try tauto.
  - intros (F1 & F2 & F3) (E1 & E2). rewrite !fold_and in *. rewrite !Forall_forall in *. split; [assumption|split]; intros x Hx; auto.
  - intros F1 E1. rewrite !fold_and in *. rewrite !Forall_forall in *. intros x Hx; auto.
Qed.
Lemma signed_exact_form_readable f : formed_form f -> signed_exact_form f -> signed_form f.
Proof.
  induction f as [ft t|c b IH|c ib eb IHi IHe|c b IH] using form_ind'; cbn [formed_form signed_exact_form signed_form];
    rewrite ?fold_and; intros Hf He.
  - destruct He. split; [now apply signed_exact_readable|assumption].
  - destruct Hf, He. split; [now apply signed_exact_readable|]. rewrite !Forall_forall in *. auto.
  - destruct Hf as (F1 & F2 & F3), He as (E1 & E2 & E3). split; [now apply signed_exact_readable|].
    split; [rewrite Forall_forall in *; intros x Hx; apply (IHi x Hx); auto|]. destruct eb as [b|]; [|exact I]. destruct E3 as [E3 E4].
    rewrite fold_and in F3. rewrite fold_and in E4. rewrite fold_and. split; [assumption|]. cbn [opt_all] in IHe.
    apply Forall_forall. intros x Hx. exact (proj1 (Forall_forall _ _) IHe x Hx (proj1 (Forall_forall _ _) F3 x Hx) (proj1 (Forall_forall _ _) E4 x Hx)).
  - destruct Hf, He. split; [now apply signed_exact_readable|]. rewrite !Forall_forall in *. auto.
Qed.
Lemma signed_exact_plan_readable p : formed_plan p -> signed_exact_plan p -> signed_plan p.
Proof.
  intros (F1 & F2 & F3 & F4) (E1 & E2 & E3 & E4). split; [|split; [|split]].
  - intros l H. apply signed_exact_readable; [now apply F1|now apply E1].
  - destruct F2 as [F2 F5]. split; [assumption|]. now apply signed_exact_readable.
  - intros c H. apply signed_exact_readable; [now apply F3|now apply E3].
  - intros b H. destruct (F4 b H) as [H1 H2]. split; [assumption|]. specialize (E4 b H). rewrite !Forall_forall in *.
    intros x Hx. apply signed_exact_form_readable; auto.
Qed.
Lemma signed_exact_agent_readable g : formed_agent g -> signed_exact_agent g -> signed_agent g.
Proof.
  intros (F1 & F2 & F3 & F4) (E1 & E2 & E3 & E4). unfold signed_agent. rewrite !Forall_forall in *. split; [|split; [|split]].
  - intros r Hr. destruct (F1 r Hr), (E1 r Hr). split; apply signed_exact_readable; assumption.
  - intros l Hl. apply signed_exact_readable; auto. exact (F2 l Hl).
  - intros l Hl. apply signed_exact_readable; auto. exact (F3 l Hl).
  - intros l Hl. apply signed_exact_plan_readable; auto.
Qed.
Theorem signed_parsed_back files n name lines g :
  (forall path lines', files path = File lines' -> Forall (Forall code_point) lines') -> Forall (Forall code_point) lines ->
  parse_source files n name lines = Ok g -> signed_exact_agent g ->
  forall files' name', exists N, forall m, (N <= m)%nat -> parse_source files' m name' (string_source (aagent_str g)) = Ok g.
Proof.
  intros Hf Hl H He. apply (signed_agent_back files n name lines g H).
  apply signed_exact_agent_readable; [exact (source_formed files n name lines g Hf Hl H)|exact He].
Qed.
Theorem signed_apart files n name lines files' n' name' lines' g g' : parse_source files n name lines = Ok g ->
  parse_source files' n' name' lines' = Ok g' -> signed_agent g -> signed_agent g' -> aagent_str g = aagent_str g' -> g = g'.
Proof.
  intros H H' R R' E. destruct (signed_agent_back _ _ _ _ _ H R files []) as (N & X).
  destruct (signed_agent_back _ _ _ _ _ H' R' files []) as (N' & X'). specialize (X (N + N')%nat ltac:(lia)). specialize (X' (N + N')%nat ltac:(lia)).
  rewrite E in X. congruence.
Qed.
End WithPy.
