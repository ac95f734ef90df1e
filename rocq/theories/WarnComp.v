(** Every program that WarnSpec.v counts reports of is read with that number of warnings. *)
From Coq Require Import Lia.
From Verif Require Import Base Num Term Str World Engine Ast Names Quote Lex LexSpec LexFacts Parse Fold Program RoundSpec
  GramSpec GramTok GramSound GramComp GramCor Counts Closed SrcSpec SrcQuiet SrcVal SrcFacts SrcComp ProgCor WarnSpec WarnFacts.

Lemma total_one {A} (R : A -> nat -> Prop) : (forall x i j, R x i -> R x j -> i = j) -> forall l i j, total R l i -> total R l j -> i = j.
Proof.
  intros H l i j T. revert j. induction T as [|x l i k Hx _ IH]; intros j T'; inversion T'; subst; [reflexivity|].
  f_equal; [eapply H; eassumption|apply IH; assumption].
Qed.
Lemma operators_one t : forall i j, operators t i -> operators t j -> i = j.
Proof.
  assert (GL : forall ts, Forall (fun t => forall i j, operators t i -> operators t j -> i = j) ts -> forall i j, total operators ts i -> total operators ts j -> i = j).
  { induction 1 as [|u ts Hu _ IH]; intros i j Ti Tj; inversion Ti; inversion Tj; subst; [reflexivity|]. f_equal; [eapply Hu; eassumption|apply IH; assumption]. }
  induction t as [b|x|s|v|f ts an IHt IHa|ts IHt|h t IHh IHt|op a IHa|op l0 r IHl IHr] using ast_ind'; intros i j Hi Hj; inversion Hi; inversion Hj; subst; try reflexivity.
  - f_equal; [eapply (GL ts IHt)|eapply (GL an IHa)]; eassumption.
  - eapply (GL ts IHt); eassumption.
  - f_equal; auto.
Qed.
Lemma belief_one b i j : belief_reports b i -> belief_reports b j -> i = j.
Proof. intros H H'. inversion H as [? v Hv|? N]; inversion H' as [? w Hw|? N']; subst; try reflexivity; exfalso; [exact (N' v Hv)|exact (N w Hw)]. Qed.
Lemma label_one o i j : label_reports o i -> label_reports o j -> i = j.
Proof. destruct o as [l|]; cbn; [apply operators_one|congruence]. Qed.
Lemma plan_one p i j : plan_reports p i -> plan_reports p j -> i = j.
Proof.
  intros H H'. inversion H as [? n Hr Hn|? n Hr Hn]; inversion H' as [? m Hr' Hm|? m Hr' Hm]; subst; try (exfalso; tauto); [f_equal|]; eapply label_one; eassumption.
Qed.
Theorem agent_one g i j : agent_reports g i -> agent_reports g j -> i = j.
Proof.
  intros (a & b & Ha & Hb & ->) (c & d & Hc & Hd & ->). f_equal.
  - eapply total_one; [|eassumption|eassumption]. intros; eapply belief_one; eassumption.
  - eapply total_one; [|eassumption|eassumption]. intros; eapply plan_one; eassumption.
Qed.
Lemma looks_one l i j : looks_like_action l i -> looks_like_action l j -> i = j.
Proof. unfold looks_like_action. intuition congruence. Qed.

Section WithPy.
Context {PY : Py}.
Variable files : pystr -> file.

Lemma validated_reports h h' j : validated h h' -> agent_reports h' j -> forall items lg own, exists lg',
  validate h (mkpst items lg own) = (Ok h', mkpst items lg' own) /\ lg_errors lg' = lg_errors lg /\ lg_warnings lg' = (lg_warnings lg + j)%nat.
Proof.
  intros Hv Hj items lg own. destruct (proj2 (validated_runs _ _) Hv items lg own) as (lg' & E & Ee). exists lg'. split; [exact E|]. split; [exact Ee|].
  apply validate_reports in E as (n & Hn & W). rewrite (agent_one _ _ _ Hj Hn). exact W.
Qed.

Definition counts (file : pystr) (within : list pystr) (after : bool) (l : list tok) (h : aagent) (i : nat) : Prop :=
  exists N c, forall m n, (N <= m)%nat -> (N <= n)%nat -> forall k dir g rest lg own, exists lg' after',
    agent_loop files (parse_program files m) n (c + k) file within dir g after (mkpst (map ITok l ++ rest) lg own) =
    agent_loop files (parse_program files m) n k file within dir (followed g h) after' (mkpst rest lg' own) /\
    lg_errors lg' = lg_errors lg /\ lg_warnings lg' = (lg_warnings lg + i)%nat.

Ltac inl := unfold fixed_lexemes; cbn [In]; tauto.

(** One clause *)
Lemma clause_counts a c after i after' : clause_reports after a c i after' -> Forall fit a -> exists N, forall m n, (N <= m)%nat -> (N <= n)%nat ->
  forall file within k dir g rest lg own, exists lg',
    agent_loop files (parse_program files m) n (S k) file within dir g after (mkpst (map ITok a ++ rest) lg own) =
    agent_loop files (parse_program files m) n k file within dir (followed g c) after' (mkpst rest lg' own) /\
    lg_errors lg' = lg_errors lg /\ lg_warnings lg' = (lg_warnings lg + i)%nat.
Proof.
  assert (Clause : forall a x d i, clause_of a x -> the "." d -> looks_like_action (match x with inl r => ar_head r | inr b => b end) i -> Forall fit (a ++ [d]) ->
    exists N, forall m n, (N <= m)%nat -> (N <= n)%nat ->
    forall file within k dir g rest lg own, exists lg',
      agent_loop files (parse_program files m) n (S k) file within dir g after (mkpst (map ITok (a ++ [d]) ++ rest) lg own) =
      agent_loop files (parse_program files m) n k file within dir (add_rule_belief g x) after (mkpst rest lg' own) /\
      lg_errors lg' = lg_errors lg /\ lg_warnings lg' = (lg_warnings lg + (late after + i))%nat).
  { intros b x d i0 Hb Hd Hl F. apply Forall_app in F as [Fb Fd]. inversion Fd as [|? ? Fd1 _]; subst.
    destruct (clause_read b x Hb Fb) as (N & R). destruct (clause_head b x Hb) as (t & r & -> & Ht). inversion Fb as [|? ? Ft _]; subst.
    pose proof (looks_one _ _ _ Hl (head_looks t r _ x Hb eq_refl)) as ->.
    exists N. intros m n Hm Hn file within k dir g rest lg own.
    set (lg1 := if after then log_warning lg else lg).
    destruct (R n d rest lg1 own Hn Hd Fd1) as (lg' & E & Ee). exists lg'.
    rewrite map_app, <- app_assoc. cbn [map app agent_loop]. cbv zeta. rewrite next_or_cons.
    rewrite (kind_not t KFunctor KBraceOpen "{") by (assumption || inl || discriminate).
    unfold tk_functor. rewrite Ht. rewrite (bind_eq _ _ _ tt (mkpst (map ITok r ++ ITok d :: rest) lg1 own)).
    2: { unfold lg1. now destruct after. }
    cbn [map app] in E. rewrite next_cons in E. rewrite (bind_eq _ _ _ _ _ E). cbv iota beta. rewrite must_the by assumption.
    apply clause_adds in E. unfold warns in E. cbn [p_log] in E.
    split; [reflexivity|]. split; [rewrite Ee; unfold lg1; now destruct after|]. rewrite E. unfold lg1, late. destruct after; cbn [log_warning lg_warnings]; lia. }
  intros [b r d j Hb Hd Hl|b x d j Hb Hd Hl|b x d Hb Hd|b p d Hb Hd] F.
  - exact (Clause b (inl r) d j Hb Hd Hl F).
  - exact (Clause b (inr x) d j Hb Hd Hl F).
  - apply Forall_app in F as [Fb Fd]. inversion Fd as [|? ? Fd1 _]; subst.
    destruct (goal_read b x Hb Fb) as (N & R). exists N. intros m n Hm Hn file within k dir g rest lg own. exists lg.
    assert (R' := R n d Hn Fd1 (the_stops "." LAtom d Hd eq_refl)). destruct Hb as [o b l Ho Hl].
    inversion Fb as [|? ? Fo _]; subst. rewrite map_app, <- app_assoc. cbn [map app agent_loop]. cbv zeta. rewrite next_or_cons.
    rewrite (the_other "!" "{" o Ho eq_refl). rewrite (the_not_functor "!" KExclam o) by (assumption || inl || discriminate).
    rewrite (proj2 (is_lex_the o "!") Ho). rewrite (first_reads (parse_initial_goal n) o b l d) by exact R'. cbv iota beta.
    rewrite must_the by assumption. split; [reflexivity|]. split; [reflexivity|lia].
  - apply Forall_app in F as [Fb Fd]. inversion Fd as [|? ? Fd1 _]; subst.
    destruct (plan_read b p Hb Fb) as (N & R). exists N. intros m n Hm Hn file within k dir g rest lg own. exists lg.
    assert (R' := R n d Hn Hd Fd1).
    assert (Hh : exists t r, b = t :: r /\ (the "@" t \/ the "+" t \/ the "-" t)).
    { destruct Hb as [a1 an b1 e c1 ctx d1 bd Ha He _ _]. destruct Ha as [|t a1 x Ht Ha].
      - destruct (event_head _ _ He) as (t & r & -> & Ht). exists t. cbn [app]. eauto.
      - exists t. cbn [app]. eauto. }
    destruct Hh as (t & r & -> & Ht). inversion Fb as [|? ? Ft _]; subst.
    rewrite map_app, <- app_assoc. cbn [map app agent_loop]. cbv zeta. rewrite next_or_cons.
    assert (X : is_lex t "{" = false /\ tk_functor t = false /\ is_lex t "!" = false /\ is_lex t "@" || is_lex t "+" || is_lex t "-" = true).
    { destruct Ht as [Ht|[Ht|Ht]].
      - split; [exact (the_other "@" "{" t Ht eq_refl)|]. split; [apply (the_not_functor "@" KAt); [inl|discriminate|assumption|assumption]|].
        split; [exact (the_other "@" "!" t Ht eq_refl)|]. now rewrite (proj2 (is_lex_the t "@") Ht).
      - split; [exact (the_other "+" "{" t Ht eq_refl)|]. split; [apply (the_not_functor "+" KPlus); [inl|discriminate|assumption|assumption]|].
        split; [exact (the_other "+" "!" t Ht eq_refl)|]. rewrite (proj2 (is_lex_the t "+") Ht). now rewrite Bool.orb_true_r.
      - split; [exact (the_other "-" "{" t Ht eq_refl)|]. split; [apply (the_not_functor "-" KMinus); [inl|discriminate|assumption|assumption]|].
        split; [exact (the_other "-" "!" t Ht eq_refl)|]. rewrite (proj2 (is_lex_the t "-") Ht). now rewrite Bool.orb_true_r. }
    destruct X as (-> & -> & -> & ->). rewrite (first_reads (parse_plan n) t r p d) by exact R'. cbv iota beta.
    rewrite must_the by assumption. split; [reflexivity|]. split; [reflexivity|lia].
Qed.

Lemma program_counts file within after l h i : program_reports files file within after l h i -> Forall fit l -> counts file within after l h i.
Proof.
  induction 1 as [file within after|file within after after' a c l g i j Hc _ IH|file within after a name path lines b h h' l g i j k Ha Hpath Hin Hfile Htok _ IHb Hv Hr _ IH
                 |file within after a b h h' c l g i j k Ha _ IHb Hv Hr Hc _ IH]; intros F.
  - exists 0%nat, 0%nat. intros m n _ _ q dir g rest lg own. exists lg, after. rewrite followed_nothing. split; [reflexivity|]. split; [reflexivity|lia].
  - apply Forall_app in F as [Fa Fl]. destruct (IH Fl) as (N & c0 & R). destruct (clause_counts a c _ _ _ Hc Fa) as (N1 & R1).
    exists (N + N1)%nat, (S c0). intros m n Hm Hn q dir g0 rest lg own.
    destruct (R1 m n ltac:(lia) ltac:(lia) file within (c0 + q)%nat dir g0 (map ITok l ++ rest) lg own) as (lg1 & E1 & Ee1 & W1).
    destruct (R m n ltac:(lia) ltac:(lia) q dir (followed g0 c) rest lg1 own) as (lg2 & pl2 & E2 & Ee2 & W2).
    exists lg2, pl2. rewrite map_app, <- app_assoc. cbn [Nat.add]. rewrite E1, E2, followed_assoc. split; [reflexivity|]. split; [congruence|lia].
  - apply Forall_app in F as [Fa Fl]. destruct (IH Fl) as (N & c0 & R). destruct (IHb (tokenize_fit _ _ _ Htok)) as (N1 & c1 & R1).
    exists (N + N1 + c1 + 2)%nat, (S c0). intros m n Hm Hn q dir g0 rest lg own.
    (* the other file *)
    assert (Sub : exists lg1, parse_program files m path within false (mkpst (map ITok b) lg false) = (Ok h', mkpst [] lg1 false) /\
      lg_errors lg1 = lg_errors lg /\ lg_warnings lg1 = (lg_warnings lg + (i + j))%nat).
    { destruct m as [|m]; [lia|]. cbn [parse_program].
      destruct (R1 m m ltac:(lia) ltac:(lia) (m - c1)%nat false no_agent [] lg false) as (lg1 & pl1 & E1 & Ee1 & W1).
      rewrite app_nil_r in E1. replace (c1 + (m - c1))%nat with m in E1 by lia.
      destruct (m - c1)%nat as [|j0] eqn:Ej; [lia|]. cbn [agent_loop] in E1. cbv zeta in E1.
      destruct (validated_reports _ _ _ Hv Hr [] lg1 false) as (lg2 & E2 & Ee2 & W2). exists lg2. split; [|split; [congruence|lia]].
      unfold at_eof. rewrite E1. unfold next_or. cbn [next p_items p_log p_own next_in].
      change no_agent with nothing. rewrite nothing_followed, E2. reflexivity. }
    destruct Sub as (lg1 & E1 & Ee1 & W1).
    destruct (R m n ltac:(lia) ltac:(lia) q dir (followed g0 h') rest lg1 own) as (lg2 & pl2 & E2 & Ee2 & W2).
    exists lg2, pl2. rewrite map_app, <- app_assoc. cbn [Nat.add agent_loop]. cbv zeta.
    destruct Ha as [t1 t2 t3 t4 t5 t6 name H1 H2 H3 H4 Hn' H5 H6]. cbn [map app]. rewrite next_or_cons.
    rewrite (proj2 (is_lex_the t1 "{") H1), next_cons, (proj2 (is_lex_the t2 "include") H2).
    rewrite (bind_eq _ _ _ h' (mkpst (map ITok l ++ rest) lg1 own)).
    + rewrite <- followed_assoc, <- E2. split; [reflexivity|]. split; [congruence|lia].
    + unfold include_file. rewrite next_is_cons by assumption. rewrite next_cons. unfold tk_string. rewrite H4.
      rewrite (bind_eq _ _ _ name (mkpst (ITok t5 :: ITok t6 :: map ITok l ++ rest) lg own)) by (unfold p_res; now rewrite Hn').
      rewrite !next_is_cons by assumption. cbv zeta. rewrite <- Hpath.
      assert (Ex : existsb (pystr_eqb path) within = false).
      { apply Bool.not_true_iff_false. intros X. apply Hin. apply existsb_exists in X as (q0 & Hq & Hqe). apply pystr_eqb_eq in Hqe. now subst q0. }
      rewrite Ex, Hfile. rewrite (bind_eq _ _ _ (map ITok b) (mkpst (map ITok l ++ rest) lg own)) by (unfold p_res; now rewrite Htok).
      unfold in_file. cbn [p_items p_log p_own]. rewrite E1. reflexivity.
  - apply Forall_app in F as [Fa F]. apply Forall_app in F as [Fb F]. apply Forall_app in F as [Fc Fl].
    destruct (IH Fl) as (N & c0 & R). destruct (IHb Fb) as (N1 & c1 & R1). destruct Ha as [t1 t2 d x t3 H1 H2 Hd H3].
    inversion Fa as [|? ? _ Fa1]; subst. inversion Fa1 as [|? ? _ Fa2]; subst. apply Forall_app in Fa2 as [Fd Ft3].
    inversion Ft3 as [|? ? Ft3' _]; subst. destruct (literal_read d x Hd Fd) as (N2 & R2).
    exists (N + N1 + N2 + c1 + 2)%nat, (S c0). intros m n Hm Hn q dir g0 rest lg own.
    destruct Hc as [e1 e2 e3 He1 He2 He3].
    assert (Sub : exists lg1, parse_program files m file within true
        (mkpst (map ITok b ++ ITok e1 :: ITok e2 :: ITok e3 :: map ITok l ++ rest) (log_warning lg) own) =
        (Ok h', mkpst (map ITok l ++ rest) lg1 own) /\ lg_errors lg1 = lg_errors lg /\ lg_warnings lg1 = (lg_warnings lg + (1 + i + j))%nat).
    { destruct m as [|m]; [lia|]. cbn [parse_program].
      destruct (R1 m m ltac:(lia) ltac:(lia) (m - c1)%nat true no_agent (ITok e1 :: ITok e2 :: ITok e3 :: map ITok l ++ rest) (log_warning lg) own)
        as (lg1 & pl1 & E1 & Ee1 & W1).
      replace (c1 + (m - c1))%nat with m in E1 by lia.
      destruct (m - c1)%nat as [|j0] eqn:Ej; [lia|]. cbn [agent_loop] in E1. cbv zeta in E1. rewrite next_or_cons in E1.
      rewrite (proj2 (is_lex_the e1 "{") He1), next_cons in E1.
      rewrite (the_other "end" "include" e2 He2 eq_refl), (the_other "end" "begin" e2 He2 eq_refl), (proj2 (is_lex_the e2 "end") He2) in E1.
      rewrite next_is_cons in E1 by assumption. change no_agent with nothing in *. rewrite nothing_followed in E1.
      destruct (validated_reports _ _ _ Hv Hr (map ITok l ++ rest) lg1 own) as (lg2 & E2 & Ee2 & W2). exists lg2. split; [|split; [rewrite Ee2, Ee1; reflexivity|rewrite W2, W1; cbn [log_warning lg_warnings]; lia]].
      unfold at_eof. rewrite E1, E2. reflexivity. }
    destruct Sub as (lg1 & E1 & Ee1 & W1).
    destruct (R m n ltac:(lia) ltac:(lia) q dir (followed g0 h') rest lg1 own) as (lg2 & pl2 & E2 & Ee2 & W2).
    exists lg2, pl2. cbn [Nat.add agent_loop]. cbv zeta. rewrite !map_app, <- !app_assoc. cbn [map app]. rewrite next_or_cons.
    rewrite (proj2 (is_lex_the t1 "{") H1), next_cons.
    rewrite (the_other "begin" "include" t2 H2 eq_refl), (proj2 (is_lex_the t2 "begin") H2).
    rewrite map_app, <- app_assoc. cbn [map app].
    rewrite (then_reads (parse_literal n) d x t3) by (apply R2; [lia|assumption|now apply (the_stops "}")]). cbv beta iota.
    rewrite must_the by assumption. rewrite (bind_eq p_warn _ _ tt (mkpst (map ITok b ++ ITok e1 :: ITok e2 :: ITok e3 :: map ITok l ++ rest) (log_warning lg) own)) by reflexivity.
    rewrite (bind_eq _ _ _ _ _ E1). rewrite <- followed_assoc, <- E2. split; [reflexivity|]. split; [congruence|lia].
Qed.


Theorem reports_source name lines l h g i j lg : tokenize 1 lines = Ok (map ITok l) -> program_reports files name [normpath name] false l h i ->
  validated h g -> agent_reports g j -> exists N, forall n, (N <= n)%nat -> exists s,
    parse_program files n name [] false (mkpst (map ITok l) lg true) = (Ok g, s) /\ lg_errors (p_log s) = lg_errors lg /\
    lg_warnings (p_log s) = (lg_warnings lg + i + j)%nat.
Proof.
  intros Ht Hp Hv Hj. destruct (program_counts _ _ _ _ _ _ Hp (tokenize_fit _ _ _ Ht)) as (N & c & R).
  exists (N + c + 2)%nat. intros n Hn. destruct n as [|n]; [lia|]. cbn [parse_program].
  destruct (R n n ltac:(lia) ltac:(lia) (n - c)%nat false no_agent [] lg true) as (lg1 & pl1 & E1 & Ee1 & W1).
  rewrite app_nil_r in E1. replace (c + (n - c))%nat with n in E1 by lia.
  destruct (n - c)%nat as [|j0] eqn:Ej; [lia|]. cbn [agent_loop] in E1. cbv zeta in E1.
  change no_agent with nothing in *. rewrite nothing_followed in E1.
  destruct (validated_reports _ _ _ Hv Hj [] lg1 true) as (lg2 & E2 & Ee2 & W2). exists (mkpst [] lg2 true).
  unfold at_eof. rewrite E1. unfold next_or. cbn [next p_items p_log p_own next_in]. rewrite E2. cbn [p_log].
  split; [reflexivity|]. split; [congruence|lia].
Qed.
Theorem reports_one name lines l h h' g g' i i' j j' : tokenize 1 lines = Ok (map ITok l) ->
  program_reports files name [normpath name] false l h i -> validated h g -> agent_reports g j ->
  program_reports files name [normpath name] false l h' i' -> validated h' g' -> agent_reports g' j' -> g = g' /\ (i + j = i' + j')%nat.
Proof.
  intros Ht Hp Hv Hj Hp' Hv' Hj'.
  destruct (reports_source _ _ _ _ _ _ _ (log_new None) Ht Hp Hv Hj) as (N & H).
  destruct (reports_source _ _ _ _ _ _ _ (log_new None) Ht Hp' Hv' Hj') as (N' & H').
  destruct (H (N + N')%nat ltac:(lia)) as (s & E & _ & W). destruct (H' (N + N')%nat ltac:(lia)) as (s' & E' & _ & W').
  rewrite E in E'. injection E' as -> ->. split; [reflexivity|lia].
Qed.
End WithPy.
