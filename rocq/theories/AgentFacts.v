(** The text of an agent is read back as this agent. *)
From Verif Require Import Base Num Term Str World Ast Names Quote QuoteSpec QuoteFacts Lex LexSpec LexFacts LexCor LexTok
  Parse ParseTotal ParseInv Fold Program RoundSpec RoundLex RoundTok RoundText RoundParse RoundCor
  GramSpec GramTok GramSound GramComp GramCor Counts Closed SrcSpec SrcQuiet SrcVal SrcFacts SrcComp AgentSpec AgentFold.

Local Notation len := List.length.

Section WithPy.
Context {PY : Py}.

(** ** Tokens *)

Definition dot : word := wd KFullstop ".".
Definition rule_toks (r : arule) : list word := lit_toks (ar_head r) ++ wd KDefine ":-" :: ast_toks (ar_cons r).
Definition goal_toks (l : alit) : list word := wd KExclam "!" :: lit_toks l.

(** Before the end of the text or a line break. *)
Definition ends (a : pystr) : Prop := a = [] \/ exists b, a = 10%N :: b.

(** [x] is text of the tokens [l], if a full stop follows. *)
Definition item_of (x : pystr) (l : list word) : Prop := forall a, stop a -> sp x a l.
(** What has been written so far. *)
Definition so_far (out : pystr) (l : list word) : Prop := (out = [] -> l = []) /\ forall a, out = [] \/ ends a -> sp out a l.

Lemma dot_stop a : ends a -> stop (s2p "." ++ a).
Proof. intros [-> | (b & ->)]; cbn; repeat split; discriminate. Qed.
Lemma sp_dot a : ends a -> sp (s2p ".") a [dot].
Proof.
  intros [-> | (b & ->)]; apply sp_one; [apply tok_dot_end|]. apply tok_spaced; [|now right]. unfold spaced. cbn [In]. tauto.
Qed.

Definition breaks (sep : pystr) : Prop := sep = nl \/ sep = nl ++ nl.
Lemma sp_breaks sep s a l : breaks sep -> sp s a l -> sp (sep ++ s) a l.
Proof. intros [-> | ->] H; [now apply sp_nl|]. rewrite <- app_assoc. now apply sp_nl, sp_nl. Qed.
Lemma breaks_ends sep s : breaks sep -> ends (sep ++ s).
Proof. intros [-> | ->]; right; cbn; eauto. Qed.

Lemma items_text sep : breaks sep -> forall items ls, Forall2 item_of items ls -> forall out l, so_far out l ->
  so_far (add_items sep items out) (l ++ List.concat (map (fun m => m ++ [dot]) ls)).
Proof.
  intros Hsep items ls H. induction H as [|x m items ls Hx _ IH]; intros out l Ho; cbn [add_items map List.concat].
  - now rewrite app_nil_r.
  - rewrite (app_assoc l). apply IH.
    assert (Hitem : forall a, ends a -> sp (x ++ s2p ".") a (m ++ [dot])).
    { intros a Ha. apply sp_app; [apply Hx; now apply dot_stop|now apply sp_dot]. }
    destruct Ho as [Hn Ho]. split.
    + intros E. exfalso. apply app_eq_nil in E as [_ E]. apply app_eq_nil in E as [_ E]. apply app_eq_nil in E as [_ E]. discriminate.
    + intros a Ha. assert (Ea : ends a).
      { destruct Ha as [E|E]; [|assumption]. exfalso. apply app_eq_nil in E as [_ E]. apply app_eq_nil in E as [_ E].
        apply app_eq_nil in E as [_ E]. discriminate. }
      destruct out as [|c out]; [rewrite (Hn eq_refl); now apply Hitem|].
      apply sp_app; [apply Ho; right|apply sp_breaks; [assumption|now apply Hitem]].
      rewrite <- app_assoc. now apply breaks_ends.
Qed.

Lemma section_text items ls : Forall2 item_of items ls -> forall out l, so_far out l ->
  so_far (add_section items out) (l ++ List.concat (map (fun m => m ++ [dot]) ls)).
Proof.
  intros H out l Ho. unfold add_section. destruct H as [|x m items ls Hx H]; [cbn; now rewrite app_nil_r|].
  apply (items_text nl (or_introl eq_refl)); [now constructor|]. destruct out as [|c out]; [exact Ho|].
  destruct Ho as [Hn Ho]. split; [discriminate|]. intros a [E|Ha]; [discriminate|].
  rewrite <- (app_nil_r l). apply sp_app; [apply Ho; right; right; cbn; eauto|]. apply sp_nl. constructor.
Qed.

Lemma item_lit l : readable_lit l -> item_of (lit_str l) (lit_toks l).
Proof. intros H a Ha. now apply sp_ast. Qed.
Lemma item_goal l : readable_lit l -> item_of (s2p "!" ++ lit_str l) (goal_toks l).
Proof.
  intros H a Ha. apply sp_tok; [|now apply sp_ast]. apply tok_opens; [cbn [In]; tauto|]. now apply ast_opens.
Qed.
Lemma item_rule r : readable_rule r -> item_of (arule_str r) (rule_toks r).
Proof.
  intros [H1 H2] a Ha. unfold arule_str, rule_toks, lit_str, lit_toks.
  apply sp_good; [now apply sp_ast|cbn; repeat split; discriminate|].
  change (s2p " :- ") with (s2p " " ++ s2p ":-" ++ s2p " "). rewrite <- !app_assoc. apply sp_space1.
  apply sp_closed; [unfold closed; cbn [In]; tauto|]. apply sp_space1. now apply sp_ast.
Qed.
Lemma item_plan p : readable_plan p -> item_of (aplan_str p) (plan_toks p).
Proof. intros H a Ha. now apply sp_plan. Qed.

Lemma items_of {A} (R : A -> Prop) (f : A -> pystr) (g : A -> list word) l :
  (forall x, R x -> item_of (f x) (g x)) -> Forall R l -> Forall2 item_of (map f l) (map g l).
Proof. intros H F. induction F; constructor; auto. Qed.

Definition dotted (ls : list (list word)) : list word := List.concat (map (fun m => m ++ [dot]) ls).
Definition agent_toks (g : aagent) : list word :=
  dotted (map rule_toks (ag_rules g)) ++ dotted (map lit_toks (ag_beliefs g)) ++
  dotted (map goal_toks (ag_goals g)) ++ dotted (map plan_toks (ag_plans g)).

Lemma agent_text g : readable_agent g -> sp (aagent_str g) [] (agent_toks g).
Proof.
  intros (H1 & H2 & H3 & H4).
  assert (S0 : so_far [] []) by (split; [reflexivity|constructor]).
  pose proof (items_text nl (or_introl eq_refl) _ _ (items_of _ _ _ _ item_rule H1) _ _ S0) as S1.
  pose proof (section_text _ _ (items_of _ _ _ _ item_lit H2) _ _ S1) as S2.
  pose proof (section_text _ _ (items_of _ _ _ _ item_goal H3) _ _ S2) as S3.
  pose proof (items_text (nl ++ nl) (or_intror eq_refl) _ _ (items_of _ _ _ _ item_plan H4) _ _ S3) as [_ S4].
  unfold aagent_str, agent_toks, dotted. cbn [app] in S4. rewrite <- !app_assoc in S4. apply S4. right. now left.
Qed.

(** ** Phrases *)

Lemma tokens_of_map l : tokens_of (map ITok l) = l.
Proof. induction l as [|t l IH]; [reflexivity|]. cbn. f_equal. exact IH. Qed.

Lemma phrase_of {A} (parse : nat -> tok -> P (tok * A)) (phrase : list tok -> A -> Prop) n tk toks nx x lg own :
  reads_only parse phrase -> Forall lexed (tk :: toks) -> lexed nx ->
  parse n tk (st (toks ++ [nx]) lg own) = (Ok (nx, x), st [] lg own) -> phrase (tk :: toks) x.
Proof.
  intros Hr F Hx E. destruct (Hr n tk (st (toks ++ [nx]) lg own) nx x (st [] lg own)) as (a & Ea & Ha); [|exact E|].
  - unfold st. cbn [p_items]. rewrite tokens_of_map. inversion F; subst. constructor; [assumption|].
    apply Forall_app. split; [assumption|]. now constructor.
  - unfold st in Ea. cbn [p_items] in Ea. rewrite tokens_of_map in Ea. cbn [map tokens_of flat_map] in Ea.
    change (tk :: toks ++ [nx]) with ((tk :: toks) ++ [nx]) in Ea. apply app_inj_tail in Ea as [-> _]. assumption.
Qed.

Lemma literal_phrase l toks nx : readable_lit l -> map tw toks = lit_toks l -> Forall lexed toks -> lexed nx -> no_call nx -> literal toks l.
Proof.
  intros H E F Fx Hx. destruct toks as [|tk toks]; [destruct l; discriminate|].
  apply (phrase_of parse_literal literal (asize (lit_ast l)) tk toks nx l (log_new None) true); [exact (proj1 (proj2 reads_all))|assumption|assumption|].
  now apply (literal_parse l _ H (le_n _)).
Qed.
Lemma term_phrase t toks nx : readable t -> map tw toks = ast_toks t -> Forall lexed toks -> lexed nx -> no_or nx -> expr LOr toks t.
Proof.
  intros H E F Fx Hx. destruct toks as [|tk toks].
  { destruct (lead t H) as (k & w & ws & X & _). rewrite X in E. discriminate. }
  apply (phrase_of parse_term (expr LOr) (asize t) tk toks nx t (log_new None) true); [exact (proj1 reads_all)|assumption|assumption|].
  now apply (term_parse t _ H (le_n _)).
Qed.
Lemma plan_phrase p toks l a b : readable_plan p -> map tw toks = plan_toks p -> Forall lexed toks ->
  lexed (mktok KFullstop (s2p ".") l a b) -> plan_of toks p.
Proof.
  intros H E F Fx. destruct toks as [|tk toks].
  { unfold plan_toks, event_toks in E. destruct (ap_annot p); discriminate. }
  apply (phrase_of parse_plan plan_of (psize p) tk toks (mktok KFullstop (s2p ".") l a b) p (log_new None) true);
    [exact (proj1 (proj2 (proj2 (proj2 reads_all))))|assumption|assumption|].
  now apply plan_ok.
Qed.

Lemma clause_rule r toks : readable_rule r -> map tw toks = rule_toks r ++ [dot] -> Forall lexed toks ->
  one_clause toks (mkaagent [r] [] [] []).
Proof.
  intros [H1 H2] E F. destruct r as [h c]. unfold rule_toks in E. cbn [ar_head ar_cons] in *. rewrite <- app_assoc in E.
  apply tok_app in E as (u & v & -> & E1 & E2). cbn [app] in E2. apply tok_cons in E2 as (l & a & b & v' & -> & E2).
  apply tok_app in E2 as (w & x & -> & E2 & E3). apply tok_cons in E3 as (l' & a' & b' & x' & -> & E3). destruct x'; [|discriminate].
  apply Forall_app in F as [F1 F]. inversion F as [|? ? F2 F']; subst. apply Forall_app in F' as [F3 F4]. inversion F4 as [|? ? F5 _]; subst.
  rewrite app_comm_cons, app_assoc. apply c_rule; [|reflexivity]. apply q_rule; [|reflexivity|].
  - apply (literal_phrase h u _ H1 E1 F1 F2). split; reflexivity.
  - apply (term_phrase c w _ H2 E2 F3 F5). apply dot_no_or.
Qed.
Lemma clause_belief h toks : readable_lit h -> map tw toks = lit_toks h ++ [dot] -> Forall lexed toks ->
  one_clause toks (mkaagent [] [h] [] []).
Proof.
  intros H E F. apply tok_app in E as (w & x & -> & E2 & E3). apply tok_cons in E3 as (l' & a' & b' & x' & -> & E3). destruct x'; [|discriminate].
  apply Forall_app in F as [F3 F4]. inversion F4 as [|? ? F5 _]; subst. apply c_belief; [|reflexivity]. apply q_belief.
  apply (literal_phrase h w _ H E2 F3 F5). apply dot_no_call.
Qed.
Lemma clause_goal h toks : readable_lit h -> map tw toks = goal_toks h ++ [dot] -> Forall lexed toks ->
  one_clause toks (mkaagent [] [] [h] []).
Proof.
  intros H E F. unfold goal_toks in E. cbn [app] in E. apply tok_cons in E as (l & a & b & v' & -> & E). inversion F as [|? ? F1 F2]; subst.
  apply tok_app in E as (w & x & -> & E2 & E3). apply tok_cons in E3 as (l' & a' & b' & x' & -> & E3). destruct x'; [|discriminate].
  apply Forall_app in F2 as [F3 F4]. inversion F4 as [|? ? F5 _]; subst. rewrite app_comm_cons. apply c_goal; [|reflexivity].
  apply q_goal; [reflexivity|]. apply (literal_phrase h w _ H E2 F3 F5). apply dot_no_call.
Qed.
Lemma clause_plan p toks : readable_plan p -> map tw toks = plan_toks p ++ [dot] -> Forall lexed toks ->
  one_clause toks (mkaagent [] [] [] [p]).
Proof.
  intros H E F. apply tok_app in E as (w & x & -> & E2 & E3). apply tok_cons in E3 as (l' & a' & b' & x' & -> & E3). destruct x'; [|discriminate].
  apply Forall_app in F as [F3 F4]. inversion F4 as [|? ? F5 _]; subst. apply c_plan; [|reflexivity].
  now apply (plan_phrase p w l' a' b').
Qed.

(** ** Programs *)

Variable files : pystr -> file.
Variable file : pystr.
Variable within : list pystr.

(** The clauses [xs], made by [mk], in front of [g]. *)
Lemma program_clauses {A} (R : A -> Prop) (w : A -> list word) (mk : A -> aagent) :
  (forall x toks, R x -> map tw toks = w x ++ [dot] -> Forall lexed toks -> one_clause toks (mk x)) ->
  forall xs ws g, Forall R xs -> (forall toks, map tw toks = ws -> Forall lexed toks -> program files file within toks g) ->
  forall toks, map tw toks = dotted (map w xs) ++ ws -> Forall lexed toks ->
    program files file within toks (fold_right (fun x h => followed (mk x) h) g xs).
Proof.
  intros Hc xs ws g F Hg. induction F as [|x xs Hx _ IH]; intros toks E L; [now apply Hg|].
  unfold dotted in E. cbn [map List.concat] in E. rewrite <- app_assoc in E. apply tok_app in E as (u & v & -> & E1 & E2).
  apply Forall_app in L as [L1 L2]. cbn [fold_right]. apply s_clause; [now apply Hc|]. now apply IH.
Qed.

Lemma fold_plans ps : fold_right (fun p h => followed (mkaagent [] [] [] [p]) h) nothing ps = mkaagent [] [] [] ps.
Proof. induction ps as [|p ps IH]; [reflexivity|]. cbn [fold_right]. now rewrite IH. Qed.
Lemma fold_goals gs ps : fold_right (fun p h => followed (mkaagent [] [] [p] []) h) (mkaagent [] [] [] ps) gs = mkaagent [] [] gs ps.
Proof. induction gs as [|p gs IH]; [reflexivity|]. cbn [fold_right]. now rewrite IH. Qed.
Lemma fold_beliefs bs gs ps : fold_right (fun p h => followed (mkaagent [] [p] [] []) h) (mkaagent [] [] gs ps) bs = mkaagent [] bs gs ps.
Proof. induction bs as [|p bs IH]; [reflexivity|]. cbn [fold_right]. now rewrite IH. Qed.
Lemma fold_rules rs bs gs ps : fold_right (fun p h => followed (mkaagent [p] [] [] []) h) (mkaagent [] bs gs ps) rs = mkaagent rs bs gs ps.
Proof. induction rs as [|p rs IH]; [reflexivity|]. cbn [fold_right]. now rewrite IH. Qed.

Lemma agent_program g toks : readable_agent g -> map tw toks = agent_toks g -> Forall lexed toks -> program files file within toks g.
Proof.
  destruct g as [rs bs gs ps]. intros (H1 & H2 & H3 & H4). unfold agent_toks. cbn [ag_rules ag_beliefs ag_goals ag_plans] in *.
  revert toks. rewrite <- (fold_rules rs bs gs ps). apply (program_clauses _ _ _ clause_rule); [assumption|].
  rewrite <- (fold_beliefs bs gs ps). apply (program_clauses _ _ _ clause_belief); [assumption|].
  rewrite <- (fold_goals gs ps). apply (program_clauses _ _ _ clause_goal); [assumption|].
  rewrite <- (fold_plans ps). rewrite <- (app_nil_r (dotted (map plan_toks ps))).
  apply (program_clauses _ _ _ clause_plan); [assumption|].
  intros toks E _. destruct toks; [constructor|discriminate].
Qed.
End WithPy.

Section WithPy2.
Context {PY : Py}.

Theorem agent_reads g : readable_agent g -> exists l, tokenize 1 (string_source (aagent_str g)) = Ok (map ITok l) /\
  forall files file within, program files file within l g.
Proof.
  intros H. destruct (sp_tokens _ _ _ 1%nat (le_n _) (agent_text g H)) as (items & E & E2).
  apply spells in E2 as (toks & -> & E2). exists toks. split; [exact E|]. intros files file within.
  apply agent_program; [assumption|assumption|]. apply Forall_forall. intros t Ht.
  exists 1%nat, (string_source (aagent_str g)), (map ITok toks). split; [exact E|now apply in_map].
Qed.

Theorem agent_says g g' files name : readable_agent g -> validated g g' -> says files name (string_source (aagent_str g)) g'.
Proof. intros H Hv. destruct (agent_reads g H) as (l & E & Hp). exists l, g. auto. Qed.

(** Nothing else is read from the text. *)
Theorem agent_says_only g g' files name : readable_agent g -> says files name (string_source (aagent_str g)) g' -> validated g g'.
Proof.
  intros H Hs. destruct (says_source files _ _ _ Hs) as (M & Hn). destruct (agent_reads g H) as (l & E & Hp).
  destruct (program_loops files _ _ _ _ (Hp files name [normpath name]) (tokenize_fit _ _ _ E)) as (N & c & R).
  specialize (Hn (S (N + c + M + 2))%nat ltac:(lia)). unfold parse_source in Hn. rewrite E in Hn. cbn [parse_program] in Hn.
  set (n := (N + c + M + 2)%nat) in *.
  destruct (R n n ltac:(lia) ltac:(lia) (n - c)%nat false no_agent false [] (log_new (Some 3%nat)) true) as (lg1 & pl1 & E1 & Ee1).
  rewrite app_nil_r in E1. replace (c + (n - c))%nat with n in E1 by lia.
  destruct (n - c)%nat as [|j] eqn:Ej; [lia|]. cbn [agent_loop] in E1. cbv zeta in E1.
  change no_agent with nothing in *. rewrite nothing_followed in E1.
  unfold at_eof in Hn. rewrite E1 in Hn. unfold next_or in Hn. cbn [next p_items p_log p_own next_in] in Hn.
  destruct (validate g (mkpst [] lg1 true)) as [[h|e] s] eqn:Ev.
  - destruct (log_throw (p_log s)) eqn:El; [|discriminate]. apply Ok_inj in Hn as <-.
    apply (validate_ok g _ _ _ Ev). unfold errs. cbn [p_log]. rewrite Ee1. unfold log_throw in El.
    destruct (lg_errors (p_log s)) eqn:Z; [reflexivity|discriminate].
  - destruct e; try discriminate. unfold p_raise in Hn. destruct (log_error (p_log s)); discriminate.
Qed.

(** The agent of a text is the agent of its own text. *)
Theorem parsed_agent_back files n name lines g : parse_source files n name lines = Ok g -> readable_agent g ->
  forall files' name', exists N, forall m, (N <= m)%nat -> parse_source files' m name' (string_source (aagent_str g)) = Ok g.
Proof.
  intros H Hr files' name'. apply source_says in H as (l & h & _ & _ & Hv). apply says_source. apply agent_says; [assumption|].
  now apply (validated_settles h).
Qed.

Theorem agent_apart files n name lines files' n' name' lines' g g' : parse_source files n name lines = Ok g ->
  parse_source files' n' name' lines' = Ok g' -> readable_agent g -> readable_agent g' -> aagent_str g = aagent_str g' -> g = g'.
Proof.
  intros H H' R R' E. destruct (parsed_agent_back _ _ _ _ _ H R files []) as (N & X).
  destruct (parsed_agent_back _ _ _ _ _ H' R' files []) as (N' & X'). specialize (X (N + N')%nat ltac:(lia)). specialize (X' (N + N')%nat ltac:(lia)).
  rewrite E in X. congruence.
Qed.
End WithPy2.
