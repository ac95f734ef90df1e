(** The parser of programs reads everything SrcSpec.v describes. *)
From Verif Require Import Base Num Term Str World Ast Names Quote Lex LexSpec LexFacts Parse Fold Program RoundSpec
  GramSpec GramTok GramSound GramComp GramCor Counts Closed SrcSpec SrcQuiet SrcVal SrcFacts ProgCor.

Section WithPy.
Context {PY : Py}.
Variable files : pystr -> file.

Definition loops (file : pystr) (within : list pystr) (l : list tok) (h : aagent) : Prop :=
  exists N c, forall m n, (N <= m)%nat -> (N <= n)%nat -> forall k dir g plans rest lg own, exists lg' plans',
    agent_loop files (parse_program files m) n (c + k) file within dir g plans (mkpst (map ITok l ++ rest) lg own) =
    agent_loop files (parse_program files m) n k file within dir (followed g h) plans' (mkpst rest lg' own) /\
    lg_errors lg' = lg_errors lg.

Lemma add_followed g h : add_agent g h = followed g h.
Proof. reflexivity. Qed.

Lemma next_or_cons {A} (stop : P A) go t l lg own : next_or stop go (mkpst (ITok t :: l) lg own) = go t (mkpst l lg own).
Proof. reflexivity. Qed.
Lemma must_the {A} t s (K : unit -> P A) st : the s t -> pbind (must t s) K st = K tt st.
Proof. intros H. apply is_lex_the in H. unfold must. rewrite H. reflexivity. Qed.
Lemma next_is_cons {A} t s (K : unit -> P A) l lg own : the s t -> pbind (next_is s) K (mkpst (ITok t :: l) lg own) = K tt (mkpst l lg own).
Proof. intros H. apply is_lex_the in H. unfold next_is, pbind. cbn [next p_items p_log p_own next_in]. now rewrite H. Qed.

Lemma kind_not t k k' s : fit t -> t_kind t = k -> In (k', s) fixed_lexemes -> k <> k' -> is_lex t s = false.
Proof. intros F E Hin Hn. apply (not_the k' s); [assumption|assumption|congruence]. Qed.
Lemma the_not_functor s k t : In (k, s) fixed_lexemes -> k <> KFunctor -> fit t -> the s t -> tk_functor t = false.
Proof. intros Hin Hn F H. apply (the_kind k s t Hin F) in H. unfold tk_functor. rewrite H. destruct k; congruence. Qed.

Ltac inl := unfold fixed_lexemes; cbn [In]; tauto.

(** One clause *)
Lemma clause_loops a c : one_clause a c -> Forall fit a -> exists N, forall m n, (N <= m)%nat -> (N <= n)%nat ->
  forall file within k dir g plans rest lg own, exists lg' plans',
    agent_loop files (parse_program files m) n (S k) file within dir g plans (mkpst (map ITok a ++ rest) lg own) =
    agent_loop files (parse_program files m) n k file within dir (followed g c) plans' (mkpst rest lg' own) /\
    lg_errors lg' = lg_errors lg.
Proof.
  assert (Clause : forall a x d, clause_of a x -> the "." d -> Forall fit (a ++ [d]) -> exists N, forall m n, (N <= m)%nat -> (N <= n)%nat ->
    forall file within k dir g plans rest lg own, exists lg' plans',
      agent_loop files (parse_program files m) n (S k) file within dir g plans (mkpst (map ITok (a ++ [d]) ++ rest) lg own) =
      agent_loop files (parse_program files m) n k file within dir (add_rule_belief g x) plans' (mkpst rest lg' own) /\
      lg_errors lg' = lg_errors lg).
  { intros b x d Hb Hd F. apply Forall_app in F as [Fb Fd]. inversion Fd as [|? ? Fd1 _]; subst.
    destruct (clause_read b x Hb Fb) as (N & R). destruct (clause_head b x Hb) as (t & r & -> & Ht). inversion Fb as [|? ? Ft _]; subst.
    exists N. intros m n Hm Hn file within k dir g plans rest lg own.
    set (lg1 := if plans then log_warning lg else lg).
    destruct (R n d rest lg1 own Hn Hd Fd1) as (lg' & E & Ee). exists lg', plans.
    rewrite map_app, <- app_assoc. cbn [map app agent_loop]. cbv zeta. rewrite next_or_cons.
    rewrite (kind_not t KFunctor KBraceOpen "{") by (assumption || inl || discriminate).
    unfold tk_functor. rewrite Ht. rewrite (bind_eq _ _ _ tt (mkpst (map ITok r ++ ITok d :: rest) lg1 own)).
    2: { unfold lg1. now destruct plans. }
    cbn [map app] in E. rewrite next_cons in E. rewrite (bind_eq _ _ _ _ _ E). cbv iota beta. rewrite must_the by assumption.
    split; [reflexivity|]. rewrite Ee. unfold lg1. now destruct plans. }
  intros [b r d Hb Hd|b x d Hb Hd|b x d Hb Hd|b p d Hb Hd] F.
  - exact (Clause b (inl r) d Hb Hd F).
  - exact (Clause b (inr x) d Hb Hd F).
  - apply Forall_app in F as [Fb Fd]. inversion Fd as [|? ? Fd1 _]; subst.
    destruct (goal_read b x Hb Fb) as (N & R). exists N. intros m n Hm Hn file within k dir g plans rest lg own. exists lg, plans.
    assert (R' := R n d Hn Fd1 (the_stops "." LAtom d Hd eq_refl)). destruct Hb as [o b l Ho Hl].
    inversion Fb as [|? ? Fo _]; subst. rewrite map_app, <- app_assoc. cbn [map app agent_loop]. cbv zeta. rewrite next_or_cons.
    rewrite (the_other "!" "{" o Ho eq_refl). rewrite (the_not_functor "!" KExclam o) by (assumption || inl || discriminate).
    rewrite (proj2 (is_lex_the o "!") Ho). rewrite (first_reads (parse_initial_goal n) o b l d) by exact R'. cbv iota beta.
    rewrite must_the by assumption. split; reflexivity.
  - apply Forall_app in F as [Fb Fd]. inversion Fd as [|? ? Fd1 _]; subst.
    destruct (plan_read b p Hb Fb) as (N & R). exists N. intros m n Hm Hn file within k dir g plans rest lg own. exists lg, true.
    assert (R' := R n d Hn Hd Fd1).
    assert (Hh : exists t r, b = t :: r /\ (the "@" t \/ the "+" t \/ the "-" t)).
    { destruct Hb as [a1 an b1 e c1 ctx d1 bd Ha He _ _]. destruct Ha as [|t a1 x Ht Ha].
      - destruct (event_head _ _ He) as (t & r & -> & Ht). exists t. cbn [app]. eauto.
      - exists t. cbn [app]. eauto. }
    destruct Hh as (t & r & -> & Ht). inversion Fb as [|? ? Ft _]; subst.
    rewrite map_app, <- app_assoc. cbn [map app agent_loop]. cbv zeta. rewrite next_or_cons.
    assert (X : is_lex t "{" = false /\ tk_functor t = false /\ is_lex t "!" = false /\ is_lex t "@" || is_lex t "+" || is_lex t "-" = true).
    { destruct Ht as [Ht|[Ht|Ht]].
      - split; [exact (the_other "@" "{" t Ht eq_refl)|]. split; [apply (the_not_functor "@" KAt); [inl|discriminate|assumption|assumption]|].
        split; [exact (the_other "@" "!" t Ht eq_refl)|]. now rewrite (proj2 (is_lex_the t "@") Ht).
      - split; [exact (the_other "+" "{" t Ht eq_refl)|]. split; [apply (the_not_functor "+" KPlus); [inl|discriminate|assumption|assumption]|].
        split; [exact (the_other "+" "!" t Ht eq_refl)|]. rewrite (proj2 (is_lex_the t "+") Ht). now rewrite Bool.orb_true_r.
      - split; [exact (the_other "-" "{" t Ht eq_refl)|]. split; [apply (the_not_functor "-" KMinus); [inl|discriminate|assumption|assumption]|].
        split; [exact (the_other "-" "!" t Ht eq_refl)|]. rewrite (proj2 (is_lex_the t "-") Ht). now rewrite Bool.orb_true_r. }
    destruct X as (-> & -> & -> & ->). rewrite (first_reads (parse_plan n) t r p d) by exact R'. cbv iota beta.
    rewrite must_the by assumption. split; reflexivity.
Qed.

Lemma program_loops file within l h : program files file within l h -> Forall fit l -> loops file within l h.
Proof.
  induction 1 as [file within|file within a c l g Hc _ IH|file within a name path lines b h h' l g Ha Hpath Hin Hfile Htok _ IHb Hv _ IH
                 |file within a b h h' c l g Ha _ IHb Hv Hc _ IH]; intros F.
  - exists 0%nat, 0%nat. intros m n _ _ k dir g plans rest lg own. exists lg, plans. rewrite followed_nothing. split; reflexivity.
  - apply Forall_app in F as [Fa Fl]. destruct (IH Fl) as (N & c0 & R). destruct (clause_loops a c Hc Fa) as (N1 & R1).
    exists (N + N1)%nat, (S c0). intros m n Hm Hn k dir g0 plans rest lg own.
    destruct (R1 m n ltac:(lia) ltac:(lia) file within (c0 + k)%nat dir g0 plans (map ITok l ++ rest) lg own) as (lg1 & pl1 & E1 & Ee1).
    destruct (R m n ltac:(lia) ltac:(lia) k dir (followed g0 c) pl1 rest lg1 own) as (lg2 & pl2 & E2 & Ee2).
    exists lg2, pl2. rewrite map_app, <- app_assoc. cbn [Nat.add]. rewrite E1, E2, followed_assoc. split; [reflexivity|congruence].
  - apply Forall_app in F as [Fa Fl]. destruct (IH Fl) as (N & c0 & R). destruct (IHb (tokenize_fit _ _ _ Htok)) as (N1 & c1 & R1).
    exists (N + N1 + c1 + 2)%nat, (S c0). intros m n Hm Hn k dir g0 plans rest lg own.
    (* the other file *)
    assert (Sub : exists lg1, parse_program files m path within false (mkpst (map ITok b) lg false) = (Ok h', mkpst [] lg1 false) /\
      lg_errors lg1 = lg_errors lg).
    { destruct m as [|m]; [lia|]. cbn [parse_program].
      destruct (R1 m m ltac:(lia) ltac:(lia) (m - c1)%nat false no_agent false [] lg false) as (lg1 & pl1 & E1 & Ee1).
      rewrite app_nil_r in E1. replace (c1 + (m - c1))%nat with m in E1 by lia.
      destruct (m - c1)%nat as [|j] eqn:Ej; [lia|]. cbn [agent_loop] in E1. cbv zeta in E1.
      destruct (proj2 (validated_runs _ _) Hv [] lg1 false) as (lg2 & E2 & Ee2). exists lg2. split; [|congruence].
      unfold at_eof. rewrite E1. unfold next_or. cbn [next p_items p_log p_own next_in].
      change no_agent with nothing. rewrite nothing_followed, E2. reflexivity. }
    destruct Sub as (lg1 & E1 & Ee1).
    destruct (R m n ltac:(lia) ltac:(lia) k dir (followed g0 h') plans rest lg1 own) as (lg2 & pl2 & E2 & Ee2).
    exists lg2, pl2. rewrite map_app, <- app_assoc. cbn [Nat.add agent_loop]. cbv zeta.
    destruct Ha as [t1 t2 t3 t4 t5 t6 name H1 H2 H3 H4 Hn' H5 H6]. cbn [map app]. rewrite next_or_cons.
    rewrite (proj2 (is_lex_the t1 "{") H1), next_cons, (proj2 (is_lex_the t2 "include") H2).
    rewrite (bind_eq _ _ _ h' (mkpst (map ITok l ++ rest) lg1 own)).
    + rewrite <- followed_assoc, <- E2. split; [reflexivity|congruence].
    + unfold include_file. rewrite next_is_cons by assumption. rewrite next_cons. unfold tk_string. rewrite H4.
      rewrite (bind_eq _ _ _ name (mkpst (ITok t5 :: ITok t6 :: map ITok l ++ rest) lg own)) by (unfold p_res; now rewrite Hn').
      rewrite !next_is_cons by assumption. cbv zeta. rewrite <- Hpath.
      assert (Ex : existsb (pystr_eqb path) within = false).
      { apply Bool.not_true_iff_false. intros X. apply Hin. apply existsb_exists in X as (q & Hq & Hqe). apply pystr_eqb_eq in Hqe. now subst q. }
      rewrite Ex, Hfile. rewrite (bind_eq _ _ _ (map ITok b) (mkpst (map ITok l ++ rest) lg own)) by (unfold p_res; now rewrite Htok).
      unfold in_file. cbn [p_items p_log p_own]. rewrite E1. reflexivity.
  - apply Forall_app in F as [Fa F]. apply Forall_app in F as [Fb F]. apply Forall_app in F as [Fc Fl].
    destruct (IH Fl) as (N & c0 & R). destruct (IHb Fb) as (N1 & c1 & R1). destruct Ha as [t1 t2 d x t3 H1 H2 Hd H3].
    inversion Fa as [|? ? _ Fa1]; subst. inversion Fa1 as [|? ? _ Fa2]; subst. apply Forall_app in Fa2 as [Fd Ft3].
    inversion Ft3 as [|? ? Ft3' _]; subst. destruct (literal_read d x Hd Fd) as (N2 & R2).
    exists (N + N1 + N2 + c1 + 2)%nat, (S c0). intros m n Hm Hn k dir g0 plans rest lg own.
    destruct Hc as [e1 e2 e3 He1 He2 He3].
    assert (Sub : exists lg1, parse_program files m file within true
        (mkpst (map ITok b ++ ITok e1 :: ITok e2 :: ITok e3 :: map ITok l ++ rest) (log_warning lg) own) =
        (Ok h', mkpst (map ITok l ++ rest) lg1 own) /\ lg_errors lg1 = lg_errors lg).
    { destruct m as [|m]; [lia|]. cbn [parse_program].
      destruct (R1 m m ltac:(lia) ltac:(lia) (m - c1)%nat true no_agent false (ITok e1 :: ITok e2 :: ITok e3 :: map ITok l ++ rest) (log_warning lg) own)
        as (lg1 & pl1 & E1 & Ee1).
      replace (c1 + (m - c1))%nat with m in E1 by lia.
      destruct (m - c1)%nat as [|j] eqn:Ej; [lia|]. cbn [agent_loop] in E1. cbv zeta in E1. rewrite next_or_cons in E1.
      rewrite (proj2 (is_lex_the e1 "{") He1), next_cons in E1.
      rewrite (the_other "end" "include" e2 He2 eq_refl), (the_other "end" "begin" e2 He2 eq_refl), (proj2 (is_lex_the e2 "end") He2) in E1.
      rewrite next_is_cons in E1 by assumption. change no_agent with nothing in *. rewrite nothing_followed in E1.
      destruct (proj2 (validated_runs _ _) Hv (map ITok l ++ rest) lg1 own) as (lg2 & E2 & Ee2). exists lg2. split; [|rewrite Ee2, Ee1; reflexivity].
      unfold at_eof. rewrite E1, E2. reflexivity. }
    destruct Sub as (lg1 & E1 & Ee1).
    destruct (R m n ltac:(lia) ltac:(lia) k dir (followed g0 h') plans rest lg1 own) as (lg2 & pl2 & E2 & Ee2).
    exists lg2, pl2. cbn [Nat.add agent_loop]. cbv zeta. rewrite !map_app, <- !app_assoc. cbn [map app]. rewrite next_or_cons.
    rewrite (proj2 (is_lex_the t1 "{") H1), next_cons.
    rewrite (the_other "begin" "include" t2 H2 eq_refl), (proj2 (is_lex_the t2 "begin") H2).
    rewrite map_app, <- app_assoc. cbn [map app].
    rewrite (then_reads (parse_literal n) d x t3) by (apply R2; [lia|assumption|now apply (the_stops "}")]). cbv beta iota.
    rewrite must_the by assumption. rewrite (bind_eq p_warn _ _ tt (mkpst (map ITok b ++ ITok e1 :: ITok e2 :: ITok e3 :: map ITok l ++ rest) (log_warning lg) own)) by reflexivity.
    rewrite (bind_eq _ _ _ _ _ E1). rewrite <- followed_assoc, <- E2. split; [reflexivity|congruence].
Qed.

Theorem says_source name lines g : says files name lines g ->
  exists N, forall n, (N <= n)%nat -> parse_source files n name lines = Ok g.
Proof.
  intros (l & h & Ht & Hp & Hv). destruct (program_loops _ _ _ _ Hp (tokenize_fit _ _ _ Ht)) as (N & c & R).
  exists (N + c + 2)%nat. intros n Hn. unfold parse_source. rewrite Ht. destruct n as [|n]; [lia|]. cbn [parse_program].
  destruct (R n n ltac:(lia) ltac:(lia) (n - c)%nat false no_agent false [] (log_new (Some 3%nat)) true) as (lg1 & pl1 & E1 & Ee1).
  rewrite app_nil_r in E1. replace (c + (n - c))%nat with n in E1 by lia.
  destruct (n - c)%nat as [|j] eqn:Ej; [lia|]. cbn [agent_loop] in E1. cbv zeta in E1.
  change no_agent with nothing in *. rewrite nothing_followed in E1.
  destruct (proj2 (validated_runs _ _) Hv [] lg1 true) as (lg2 & E2 & Ee2).
  unfold at_eof. rewrite E1. unfold next_or. cbn [next p_items p_log p_own next_in]. rewrite E2. cbn [p_log].
  unfold log_throw. rewrite Ee2, Ee1. reflexivity.
Qed.

Theorem says_one name lines g g' : says files name lines g -> says files name lines g' -> g = g'.
Proof.
  intros H H'. apply says_source in H as (N & H). apply says_source in H' as (N' & H').
  specialize (H (N + N')%nat ltac:(lia)). specialize (H' (N + N')%nat ltac:(lia)). congruence.
Qed.

Lemma source_bound n n' name lines : parse_source files n name lines <> Err ERecursion -> (n <= n')%nat ->
  parse_source files n' name lines = parse_source files n name lines.
Proof.
  unfold parse_source. destruct (tokenize 1 lines) as [items|e]; [|reflexivity]. intros H Hn.
  rewrite (program_bound files n n'); [reflexivity| |assumption].
  destruct (parse_program files n name [] false _) as [[g|e] s]; cbn [fst]; congruence.
Qed.
End WithPy.
