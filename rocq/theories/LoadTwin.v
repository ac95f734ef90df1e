(** What build_agents does: proofs. *)
From Verif Require Import Base Num Term Unify Str World Engine Step Ast Names Quote Lex Parse Fold Program Build QuerySpec PlanSpec LoadSpec TwinSpec Reach LoadFacts LoadCor EnvFacts SrcSpec SrcFacts.

Lemma name_or_named source name : named source name (name_or name source).
Proof. destruct name as [[|c s]|]; constructor. discriminate. Qed.

Section WithPy.
Context {PY : Py} {FR : Front}.
Lemma get_snoc W x b : b <> List.length (w_agents W) -> get_agent (set_agents W (w_agents W ++ [x])) b = get_agent W b.
Proof.
  intros H. unfold get_agent. cbn [w_agents set_agents]. destruct (Nat.lt_ge_cases b (List.length (w_agents W))) as [L|L].
  - now rewrite app_nth1.
  - rewrite !nth_overflow; [reflexivity|lia|rewrite app_length; cbn; lia].
Qed.
Lemma get_new W x : get_agent (set_agents W (w_agents W ++ [x])) (List.length (w_agents W)) = x.
Proof. unfold get_agent. cbn [w_agents set_agents]. rewrite app_nth2, Nat.sub_diag; [reflexivity|lia]. Qed.
Lemma twin_made proto name W : let p := get_agent W proto in
  twin proto (List.length (w_agents W)) name W (set_agents W (w_agents W ++ [mkagent name (a_bel p) (a_rules p) (a_plans p) []])).
Proof.
  intro p. constructor; unfold beliefs, rules_of, plans_of.
  - split; [reflexivity|]. cbn. rewrite app_length. cbn. lia.
  - now rewrite get_new.
  - intro h. rewrite get_new. reflexivity.
  - intro h. rewrite get_new. reflexivity.
  - intro h. rewrite get_new. reflexivity.
  - now rewrite get_new.
  - intros b Hb. rewrite get_snoc by exact Hb. auto.
  - reflexivity.
  - reflexivity.
Qed.
Lemma copies_made n path g proto count : forall W l W', build_copies n count path proto g W = (Ok l, W') ->
  List.length l = count /\ copied n path g proto l W W'.
Proof.
  induction count as [|count IH]; intros W l W' E; cbn [build_copies] in E; [inversion E; subst; split; [reflexivity|constructor]|].
  destruct (make_name _ _) as [name|e] eqn:En; [|discriminate]. cbv zeta in E.
  destruct (wfor _ _ _ _) as [[[[]|e] l1] W1] eqn:E1; [|discriminate]. apply install_events in E1.
  destruct (build_copies n count path proto g _) as [[l2|e] W2] eqn:E2; [|discriminate]. injection E as <- <-. apply IH in E2 as (HL & HC).
  split; [cbn; congruence|]. econstructor; [exact En|apply twin_made|exact E1|exact HC].
Qed.
Theorem agents_made n acts source name count g W l W' : build_agents n acts source name count g W = (Ok l, W') ->
  List.length l = count /\
  match l with
  | [] => W' = W
  | proto :: copies => exists W1 path, build_agent_from_ast n acts source g W = (Ok proto, W1) /\ named source name path /\
      copied n path g proto copies W1 W'
  end.
Proof.
  unfold build_agents. destruct count as [|count]; intro E; [inversion E; subst; split; reflexivity|].
  destruct (build_agent_from_ast n acts source g W) as [[proto|e] W1] eqn:E1; [|discriminate]. cbv zeta in E.
  destruct (build_copies _ _ _ _ _ _) as [[l2|e] W2] eqn:E2; [|discriminate]. injection E as <- <-. apply copies_made in E2 as (HL & HC).
  split; [cbn; congruence|]. exists W1, (name_or name source). split; [reflexivity|]. split; [apply name_or_named|exact HC].
Qed.
Theorem agent_from_text files n acts source lines name W a W' : reach W -> build_agent files n acts source lines name W = (Ok a, W') ->
  exists g path own W2 W3, says files source lines g /\ named source name path /\
    make_name path (map fst (w_env W)) = Ok own /\ loaded acts g a own W W2 /\
    raised n a (map (pair GtBelief) (ag_beliefs g) ++ map (pair GtAchieve) (ag_goals g)) W2 W3 /\
    W' = set_env W3 (w_env W ++ [(own, a)]) /\ w_env W3 = w_env W.
Proof.
  intros HR E. unfold build_agent in E. destruct (parse_source files n source lines) as [g|e] eqn:Ep; [|discriminate].
  apply source_says in Ep. apply build_spec in E as (own & W2 & W3 & H); [|exact HR].
  exists g, (name_or name source), own, W2, W3. split; [exact Ep|]. split; [apply name_or_named|exact H].
Qed.
End WithPy.
