(** The parser of programs reads what SrcSpec.v describes. *)
From Verif Require Import Base Num Term Str World Ast Names Quote Lex LexSpec LexFacts Parse Fold Program RoundSpec
  GramSpec GramTok GramSound GramComp GramCor Counts Closed SrcSpec SrcQuiet SrcVal.

Section WithPy.
Context {PY : Py}.

Lemma clean_next_or {A} (stop : P A) go : clean stop -> (forall tk, clean (go tk)) -> clean (next_or stop go).
Proof.
  intros [Cs Hs] Hg. split; [apply counts_next_or; [assumption|intros; apply Hg]|]. intros s x s' E Es. unfold next_or in E.
  destruct (next s) as [[tk|e] s1] eqn:En; pose proof (counts_le _ _ _ _ counts_next En) as L.
  - pose proof (counts_le _ _ _ _ (proj1 (Hg tk)) E) as L1. apply next_quiet in En as [I O]; [|lia].
    destruct (proj2 (Hg tk) _ _ _ E ltac:(lia)) as ((l & J) & O'). split; [exists (tk :: l); rewrite I, J; reflexivity|congruence].
  - destruct e; try discriminate. pose proof (counts_le _ _ _ _ Cs E) as L1. apply next_quiet in En as [I ->]; [|lia].
    exact (Hs _ _ _ E Es).
Qed.
Lemma clean_eof {A} (m : P A) : clean m -> clean (at_eof m).
Proof.
  intros [Cm Hm]. split; [now apply counts_eof|]. intros s x s' E Es. unfold at_eof in E.
  destruct (m s) as [[y|e] s1] eqn:Em; [injection E as <- <-; exact (Hm _ _ _ Em Es)|]. destruct e; try discriminate E.
  now apply raise_not in E.
Qed.
Lemma clean_in_file {A} items (m : P A) : counts m -> clean (in_file items m).
Proof.
  intros Cm. split; [now apply counts_in_file|]. intros s x s' E Es. unfold in_file in E.
  destruct (m _) as [r s1]. injection E as -> <-. split; [now exists []|reflexivity].
Qed.
Lemma clean_res {A} (r : res A) : clean (p_res r).
Proof. split; [apply counts_res|]. intros s x s' [= _ <-] _. split; [now exists []|reflexivity]. Qed.

Ltac cl := first [apply clean_ret|apply clean_error|apply clean_raise|apply clean_warn|apply clean_next|apply clean_fail|assumption
  |apply clean_bind; [|intros ?] | match goal with |- clean (let '(_, _) := ?y in _) => destruct y end
  | match goal with |- clean (if ?b then _ else _) => destruct b end
  | match goal with |- clean (match ?b with _ => _ end) => destruct b end ].

Lemma clean_next_is s : clean (next_is s).
Proof. unfold next_is. repeat cl. Qed.
Lemma clean_must tk s : clean (must tk s).
Proof. unfold must. repeat cl. Qed.
Lemma clean_literal n tk : clean (parse_literal n tk).
Proof. apply (closed_parse_literal (@clean)); by_clean. Qed.
Lemma clean_clause n tk : clean (parse_rule_or_belief n tk).
Proof. apply (closed_rule_or_belief (@clean)); by_clean. Qed.
Lemma clean_goal n tk : clean (parse_initial_goal n tk).
Proof. apply (closed_initial_goal (@clean)); by_clean. Qed.
Lemma clean_plan n tk : clean (parse_plan n tk).
Proof. apply (closed_plan (@clean)); by_clean. Qed.

Variable files : pystr -> file.

Lemma clean_include sub filename included : (forall a b c, clean (sub a b c)) -> clean (include_file files sub filename included).
Proof.
  intros H. unfold include_file. repeat first [apply clean_next_is|apply clean_res|apply clean_in_file; apply H|cl].
Qed.
Lemma clean_agent_loop sub n filename included directive : (forall a b c, clean (sub a b c)) ->
  forall k g plans, clean (agent_loop files sub n k filename included directive g plans).
Proof.
  intros H. induction k as [|k IH]; intros g plans; cbn [agent_loop]; [cl|]. cbv zeta. apply clean_next_or; [|intros tk];
  repeat first [apply IH|apply clean_include; assumption|apply clean_literal|apply clean_must|apply clean_next_is|apply H
    |apply clean_validate|apply clean_clause|apply clean_goal|apply clean_plan|cl].
Qed.
Lemma clean_program n : forall filename included directive, clean (parse_program files n filename included directive).
Proof. induction n as [|n IH]; intros; cbn [parse_program]; [cl|]. apply clean_eof. now apply clean_agent_loop. Qed.

(** ** What is read *)

Lemma quiet_split {A C} (m : P A) (f : A -> P C) s x s' : clean m -> (forall y, clean (f y)) -> pbind m f s = (Ok x, s') ->
  errs s' = errs s -> exists y s1, m s = (Ok y, s1) /\ errs s1 = errs s /\ f y s1 = (Ok x, s') /\ errs s' = errs s1.
Proof.
  intros Cm Cf E Es. apply bind_ok in E as (y & s1 & E1 & E2). exists y, s1.
  pose proof (counts_le _ _ _ _ (proj1 Cm) E1) as L1. pose proof (counts_le _ _ _ _ (proj1 (Cf y)) E2) as L2.
  repeat split; try assumption; lia.
Qed.
Lemma next_is_ok str s x s' : next_is str s = (Ok x, s') -> exists t, toks s = t :: toks s' /\ the str t.
Proof.
  unfold next_is. intros E. back_next E t s1 Nx. destruct (is_lex t str) eqn:Et; [|now apply raise_not in E].
  injection E as _ <-. exists t. split; [assumption|now apply is_lex_the].
Qed.
Lemma must_ok t str s x s' : must t str s = (Ok x, s') -> the str t /\ s' = s.
Proof.
  unfold must. intros E. destruct (is_lex t str) eqn:Et; [|now apply raise_not in E]. injection E as _ <-. split; [now apply is_lex_the|reflexivity].
Qed.
Lemma validate_ok g s g' s' : validate g s = (Ok g', s') -> errs s' = errs s -> validated g g' /\ toks s' = toks s.
Proof.
  intros E Es. destruct (proj2 (blind_validate g) _ _ _ E Es) as (I & _ & H). split; [now apply validated_runs|]. unfold toks. now rewrite I.
Qed.

Lemma followed_nothing g : followed g nothing = g.
Proof. destruct g as [r b a p]. unfold followed, nothing. cbn. now rewrite !app_nil_r. Qed.
Lemma nothing_followed g : followed nothing g = g.
Proof. now destruct g. Qed.
Lemma followed_assoc g h i : followed (followed g h) i = followed g (followed h i).
Proof. unfold followed. cbn. now rewrite !app_assoc. Qed.

(** What a loop over the clauses reads. *)
Definition loop_reads (file : pystr) (within : list pystr) (directive : bool) (g : aagent) (s : pst) (g' : aagent) (s' : pst) : Prop :=
  exists l h, program files file within l h /\ validated (followed g h) g' /\
    if directive then exists c, end_of c /\ toks s = l ++ c ++ toks s' else toks s = l /\ p_items s' = [].

Definition sub_reads (sub : pystr -> list pystr -> bool -> P aagent) : Prop := forall file within directive s g' s',
  Forall fit (toks s) -> sub file within directive s = (Ok g', s') -> errs s' = errs s ->
  loop_reads file (normpath file :: within) directive nothing s g' s'.

Lemma tokens_clean l : tokens_of (map ITok l) = l.
Proof. unfold tokens_of. induction l as [|t l IH]; cbn; [reflexivity|now rewrite IH]. Qed.
Lemma tokenize_fit n lines l : tokenize n lines = Ok (map ITok l) -> Forall fit l.
Proof.
  intros E. apply Forall_forall. intros t Hin. apply lexed_fit. exists n, lines, (map ITok l). split; [assumption|now apply in_map].
Qed.
Lemma tokenize_fits n lines items : tokenize n lines = Ok items -> Forall fit (tokens_of items).
Proof.
  intros E. apply Forall_forall. intros t Hin. apply lexed_fit. exists n, lines, items. split; [assumption|].
  unfold tokens_of in Hin. apply in_flat_map in Hin as ([u|a b c] & Hi & Hin); [|destruct Hin]. destruct Hin as [<-|[]]. assumption.
Qed.

Lemma include_reads sub file within s h' s' : (forall a b c, clean (sub a b c)) -> sub_reads sub ->
  include_file files sub file within s = (Ok h', s') -> errs s' = errs s ->
  exists c t d e name lines b h, toks s = c :: t :: d :: e :: toks s' /\ the "(" c /\ t_kind t = KString /\
    parse_string (t_lex t) = Ok name /\ the ")" d /\ the "}" e /\
    let path := join_path (dirname file) name in
    ~ In path within /\ files path = File lines /\ tokenize 1 lines = Ok (map ITok b) /\
    program files path (normpath path :: within) b h /\ validated h h'.
Proof.
  intros Cs Hs E Es. unfold include_file in E.
  apply quiet_split in E as (u & s1 & E1 & _ & E & E0); [|apply clean_next_is| |assumption]; cycle 1.
  { intros y. repeat first [apply clean_next_is|apply clean_res|apply clean_in_file; apply Cs|cl]. }
  apply next_is_ok in E1 as (c & T1 & Hc). clear Es. rename E0 into Es.
  apply quiet_split in E as (t & s2 & E2 & _ & E & E0); [|apply clean_next| |assumption]; cycle 1.
  { intros y. repeat first [apply clean_next_is|apply clean_res|apply clean_in_file; apply Cs|cl]. }
  apply next_ok in E2. clear Es. rename E0 into Es.
  destruct (tk_string t) eqn:Et; [|now apply raise_not in E].
  assert (Kt : t_kind t = KString) by (unfold tk_string in Et; destruct (t_kind t); congruence).
  apply bind_ok in E as (name & s3 & E3 & E). unfold p_res in E3. injection E3 as En <-.
  apply quiet_split in E as (u2 & s4 & E4 & _ & E & E0); [|apply clean_next_is| |assumption]; cycle 1.
  { intros y. repeat first [apply clean_next_is|apply clean_res|apply clean_in_file; apply Cs|cl]. }
  apply next_is_ok in E4 as (d & T4 & Hd). clear Es. rename E0 into Es.
  apply quiet_split in E as (u3 & s5 & E5 & _ & E & E0); [|apply clean_next_is| |assumption]; cycle 1.
  { intros y. cbv zeta. repeat first [apply clean_next_is|apply clean_res|apply clean_in_file; apply Cs|cl]. }
  apply next_is_ok in E5 as (e & T5 & He). clear Es. rename E0 into Es. cbv zeta in E. set (path := join_path (dirname file) name) in *.
  assert (Z : forall s0 x, (_ <- p_error ;; pret no_agent)%P s0 = (Ok x, s') -> errs s' = errs s0 -> False).
  { intros s0 x X Xs. apply bind_ok in X as (v & s6 & X1 & X2). apply error_errs in X1. injection X2 as _ <-. lia. }
  destruct (existsb (pystr_eqb path) within) eqn:Ex; [exfalso; eapply Z; eassumption|].
  destruct (files path) as [| |lines] eqn:Ef; [exfalso; eapply Z; eassumption|discriminate E|].
  apply bind_ok in E as (items & s6 & E6 & E). unfold p_res in E6. injection E6 as Ei <-.
  unfold in_file in E. destruct (sub path within false (mkpst items (p_log s5) false)) as [r s7] eqn:E7. injection E as -> <-.
  assert (Es7 : errs s7 = errs (mkpst items (p_log s5) false)) by exact Es.
  pose proof (proj2 (Cs path within false) _ _ _ E7 Es7) as ((b & I) & _).
  apply (fun X => Hs _ _ _ _ _ _ X E7) in Es7; [|unfold toks; cbn [p_items]; eapply tokenize_fits; eassumption].
  destruct Es7 as (l & h & Hp & Hv & T & End). rewrite End, app_nil_r in I. cbn [p_items] in I.
  assert (l = b) as -> by (rewrite <- T; unfold toks; cbn [p_items]; rewrite I; apply tokens_clean).
  exists c, t, d, e, name, lines, b, h. split.
  { rewrite T1, E2, T4, T5. reflexivity. }
  do 5 (split; [assumption|]). cbv zeta. fold path. split.
  { intros Hin. apply Bool.not_true_iff_false in Ex. apply Ex. apply existsb_exists. exists path. split; [assumption|apply pystr_eqb_refl]. }
  split; [assumption|]. split; [congruence|]. split; [assumption|]. now rewrite nothing_followed in Hv.
Qed.

Ltac cont := intros; cbv zeta; repeat first [apply clean_agent_loop; assumption|apply clean_include; assumption|apply clean_literal|apply clean_must|apply clean_next_is
    |match goal with H : forall _ _ _, clean _ |- _ => apply H end
    |apply clean_validate|apply clean_clause|apply clean_goal|apply clean_plan|cl].
Ltac qsplit E Es y s1 E1 := 
  let En := fresh "En" in apply quiet_split in E as (y & s1 & E1 & _ & E & En); [|solve [cont]|solve [cont]|exact Es]; clear Es; rename En into Es.

Lemma reads_after file within directive g c a s s2 g' s' :
  (forall l h, program files file within l h -> program files file within (a ++ l) (followed c h)) ->
  toks s = a ++ toks s2 -> loop_reads file within directive (followed g c) s2 g' s' -> loop_reads file within directive g s g' s'.
Proof.
  intros Hp T (l & h & Hl & Hv & He). exists (a ++ l), (followed c h). split; [now apply Hp|]. split; [now rewrite <- followed_assoc|].
  destruct directive.
  - destruct He as (e & He & T2). exists e. split; [assumption|]. now rewrite T, T2, <- app_assoc.
  - destruct He as [T2 I]. split; [now rewrite T, T2|assumption].
Qed.

Lemma agent_loop_reads sub n file within directive : (forall a b c, clean (sub a b c)) -> sub_reads sub ->
  forall k g plans s g' s', Forall fit (toks s) -> agent_loop files sub n k file within directive g plans s = (Ok g', s') ->
  errs s' = errs s -> loop_reads file within directive g s g' s'.
Proof.
  intros Cs Hs. induction k as [|k IH]; intros g plans s g' s' F E Es; [discriminate E|]. cbn [agent_loop] in E. cbv zeta in E.
  unfold next_or in E. destruct (next s) as [[tk|e] s1] eqn:En; pose proof (counts_le _ _ _ _ counts_next En) as L.
  2: { destruct e; try discriminate E. destruct directive; [now apply raise_not in E|].
       pose proof (counts_le _ _ _ _ (proj1 (clean_validate g)) E) as L1. apply next_quiet in En as [I ->]; [|lia].
       pose proof (proj2 (clean_validate g) _ _ _ E Es) as ((l & J) & _). rewrite I in J. symmetry in J. apply app_eq_nil in J as [_ J].
       apply validate_ok in E as [V T]; [|assumption]. exists [], nothing. split; [apply s_end|]. rewrite followed_nothing.
       split; [assumption|]. split; [unfold toks; now rewrite I|assumption]. }
  apply next_ok in En.
  assert (Es0 : errs s' = errs s1 /\ errs s1 = errs s).
  { pose proof (fun X => counts_le _ _ _ _ X E) as L1.
    assert (errs s1 <= errs s')%nat; [|lia]. apply L1.
    match goal with |- counts ?m => assert (clean m) as [X _]; [|exact X] end. cont. }
  destruct Es0 as [Es1 _]. clear Es L. rename Es1 into Es. rewrite En in F. inversion F as [|? ? Ft F1]; subst.
  destruct (is_lex tk "{") eqn:E1.
  { apply is_lex_the in E1. qsplit E Es tk1 s2 E2. apply next_ok in E2. rewrite E2 in F1. inversion F1 as [|? ? Ft1 F2]; subst.
    destruct (is_lex tk1 "include") eqn:E3.
    - apply is_lex_the in E3. apply quiet_split in E as (h' & s3 & E4 & Es4 & E & Es5); [|cont|cont|assumption].
      apply include_reads in E4 as (c & t & d & e & name & lines & b & h & T & Hc & Ht & Hn & Hd & He & Hw & Hf & Hb & Hp & Hv); try assumption.
      apply IH in E; [|rewrite T in F2; now do 4 (apply Forall_inv_tail in F2)|assumption].
      apply (reads_after _ _ _ _ h' [tk; tk1; c; t; d; e] s s3); [|rewrite En, E2, T; reflexivity|exact E].
      intros l0 h0 H0. eapply s_include; eauto. constructor; assumption.
    - destruct (is_lex tk1 "begin") eqn:E4.
      + apply is_lex_the in E4. qsplit E Es tk2 s3 E5. apply next_ok in E5. rewrite E5 in F2.
        apply quiet_split in E as ([tk3 d] & s4 & E6 & _ & E & Es4); [|cont|cont|assumption].
        apply parse_literal_sound in E6 as (a & T & Ha); [|assumption]. clear Es. rename Es4 into Es.
        qsplit E Es u s5 E7. apply must_ok in E7 as [Hb ->]. qsplit E Es u1 s5 E7.
        assert (T5 : toks s5 = toks s4) by (injection E7 as _ <-; reflexivity).
        apply quiet_split in E as (h' & s6 & E8 & Es8 & E & Es9); [|cont|cont|assumption].
        rewrite T in F2. apply fit_rest in F2 as [F3 F4]. rewrite <- T5 in F4.
        destruct (Hs _ _ _ _ _ _ F4 E8 Es8) as (l & h & Hp & Hv & c & Hc & T8).
        rewrite nothing_followed in Hv. rewrite T8 in F4. apply Forall_app in F4 as [_ F4]. apply Forall_app in F4 as [_ F4].
        apply IH in E; [|assumption|assumption].
        apply (reads_after _ _ _ _ h' ((tk :: tk1 :: a ++ [tk3]) ++ l ++ c) s s6); [| |exact E].
        * intros l0 h0 H0. replace (((tk :: tk1 :: a ++ [tk3]) ++ l ++ c) ++ l0) with ((tk :: tk1 :: a ++ [tk3]) ++ l ++ c ++ l0)
            by now rewrite <- !app_assoc.
          eapply s_block; eauto. econstructor; eassumption.
        * rewrite En, E2, E5, T, <- T5, T8. cbn [app]. now rewrite <- !app_assoc.
      + destruct (is_lex tk1 "end") eqn:E5; [|now apply raise_not in E].
        apply is_lex_the in E5. qsplit E Es u s3 E6. apply next_is_ok in E6 as (t & T & Ht).
        destruct directive.
        * apply validate_ok in E as [V T2]; [|assumption]. exists [], nothing. split; [apply s_end|]. rewrite followed_nothing.
          split; [assumption|]. exists [tk; tk1; t]. split; [now constructor|]. rewrite En, E2, T, T2. reflexivity.
        * exfalso. apply quiet_split in E as (u1 & s4 & E7 & Es7 & _); [|cont|cont|assumption]. apply error_errs in E7. lia. }
  destruct (tk_functor tk) eqn:E2.
  { assert (exists s2, toks s2 = toks s1 /\ errs s' = errs s2 /\
      (y <- parse_rule_or_belief n tk ;; let '(tk1, x) := y in must tk1 "." ;;
       agent_loop files sub n k file within directive (add_rule_belief g x) plans)%P s2 = (Ok g', s')) as (s2 & T2 & Es2 & E3).
    { qsplit E Es u s2 E3. exists s2. split; [|split; [assumption|exact E]]. destruct plans; injection E3 as _ <-; reflexivity. }
    clear E Es. rename E3 into E, Es2 into Es. rewrite <- T2 in *.
    apply quiet_split in E as ([tk1 x] & s3 & E3 & _ & E & Es3); [|cont|cont|assumption].
    apply clause_sound in E3 as (a & T & Ha); [|now constructor]. clear Es. rename Es3 into Es.
    qsplit E Es u s4 E4. apply must_ok in E4 as [Hd ->].
    rewrite T in F. apply fit_rest in F as [_ F4].
    apply IH in E; [|assumption|assumption].
    apply (reads_after _ _ _ _ (match x with inl r => mkaagent [r] [] [] [] | inr b => mkaagent [] [b] [] [] end) (a ++ [tk1]) s s3);
      [|rewrite En, T; now rewrite <- app_assoc|destruct x; exact E].
    intros l0 h0 H0. apply s_clause; [|assumption]. destruct x; now constructor. }
  destruct (is_lex tk "!") eqn:E3.
  { apply quiet_split in E as ([tk1 x] & s3 & E4 & _ & E & Es3); [|cont|cont|assumption].
    apply goal_sound in E4 as (a & T & Ha); [|assumption]. clear Es. rename Es3 into Es.
    qsplit E Es u s4 E4. apply must_ok in E4 as [Hd ->]. rewrite T in F. apply fit_rest in F as [_ F4].
    apply IH in E; [|assumption|assumption].
    apply (reads_after _ _ _ _ (mkaagent [] [] [x] []) (a ++ [tk1]) s s3); [|rewrite En, T; now rewrite <- app_assoc|exact E].
    intros l0 h0 H0. apply s_clause; [|assumption]. now constructor. }
  destruct (is_lex tk "@" || is_lex tk "+" || is_lex tk "-").
  { apply quiet_split in E as ([tk1 x] & s3 & E4 & _ & E & Es3); [|cont|cont|assumption].
    apply plan_sound in E4 as (a & T & Ha); [|assumption]. clear Es. rename Es3 into Es.
    qsplit E Es u s4 E4. apply must_ok in E4 as [Hd ->]. rewrite T in F. apply fit_rest in F as [_ F4].
    apply IH in E; [|assumption|assumption].
    apply (reads_after _ _ _ _ (mkaagent [] [] [] [x]) (a ++ [tk1]) s s3); [|rewrite En, T; now rewrite <- app_assoc|exact E].
    intros l0 h0 H0. apply s_clause; [|assumption]. now constructor. }
  exfalso. apply quiet_split in E as (u1 & s4 & E7 & Es7 & _); [|cont|cont|assumption]. apply error_errs in E7. lia.
Qed.

Lemma program_reads n : sub_reads (parse_program files n).
Proof.
  induction n as [|n IH]; intros file within directive s g' s' F E Es; [discriminate E|]. cbn [parse_program] in E.
  unfold at_eof in E. destruct (agent_loop _ _ _ _ _ _ _ _ _ _) as [[y|e] s1] eqn:Em.
  - injection E as <- <-. eapply agent_loop_reads in Em; [exact Em|apply clean_program|exact IH|assumption|assumption].
  - destruct e; try discriminate E. now apply raise_not in E.
Qed.

Theorem source_says n name lines g : parse_source files n name lines = Ok g -> says files name lines g.
Proof.
  unfold parse_source. destruct (tokenize 1 lines) as [items|e] eqn:Et; [|discriminate].
  destruct (parse_program files n name [] false (mkpst items (log_new (Some 3%nat)) true)) as [[h|e] s] eqn:Ep; [|discriminate].
  intros E. assert (Eh : h = g /\ errs s = 0%nat).
  { unfold log_throw in E. unfold errs. destruct (lg_errors (p_log s)); [|discriminate]. split; congruence. }
  destruct Eh as [-> Es]. assert (Es' : errs s = errs (mkpst items (log_new (Some 3%nat)) true)) by (rewrite Es; reflexivity).
  pose proof (proj2 (clean_program n name [] false) _ _ _ Ep Es') as ((l & I) & _).
  assert (F : Forall fit (toks (mkpst items (log_new (Some 3%nat)) true))) by (unfold toks; cbn [p_items]; eapply tokenize_fits; eassumption).
  destruct (program_reads n _ _ _ _ _ _ F Ep Es') as (l' & h & Hp & Hv & T & End).
  rewrite End, app_nil_r in I. cbn [p_items] in I. subst items.
  assert (l' = l) as -> by (rewrite <- T; unfold toks; cbn [p_items]; apply tokens_clean).
  exists l, h. rewrite nothing_followed in Hv. auto.
Qed.
End WithPy.
