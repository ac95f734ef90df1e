From Verif Require Import Base Num Term Str World Ast Names Lex Parse Fold Engine Build Program Optimize OptSpec.

Definition refused (u : ast) : Prop := (exists h t, occurs (ALL h t) u) \/ occurs (AVar []) u.

Lemma rseq_cases a b : (a = Ok tt \/ a = Err EAttr) -> (b = Ok tt \/ b = Err EAttr) ->
  (rseq a b = Ok tt /\ a = Ok tt /\ b = Ok tt) \/ (rseq a b = Err EAttr /\ (a = Err EAttr \/ b = Err EAttr)).
Proof. intros [-> | ->] [-> | ->]; cbn; auto. Qed.

Lemma visit_each_cases {A} (f : A -> res unit) l :
  (forall x, In x l -> f x = Ok tt \/ f x = Err EAttr) ->
  (visit_each f l = Ok tt /\ forall x, In x l -> f x = Ok tt) \/
  (visit_each f l = Err EAttr /\ exists x, In x l /\ f x = Err EAttr).
Proof.
  induction l as [|x l IH]; intros H; [left; split; [reflexivity|easy]|].
  change (visit_each f (x :: l)) with (rseq (f x) (visit_each f l)).
  destruct (H x (or_introl eq_refl)) as [E|E]; rewrite E; cbn [rseq].
  - destruct IH as [[E' K]|[E' [y [K1 K2]]]]; [intros y Hy; apply H; now right|left|right].
    + split; [exact E'|]. intros y [<-|Hy]; [exact E|auto].
    + split; [exact E'|]. exists y. split; [now right|exact K2].
  - right. split; [reflexivity|]. exists x. split; [now left|exact E].
Qed.

Lemma visit_term_cases t : (visit_term t = Ok tt /\ ~ refused t) \/ (visit_term t = Err EAttr /\ refused t).
Proof.
  induction t as [b|x|s|v|f ts an IHt IHa|ts IHt|h t IHh IHt|op a IHa|op l r IHl IHr] using ast_ind'.
  1-3: left; split; [reflexivity|]; intros [[h [l H]]|H]; inversion H.
  - destruct v as [|c v]; [right|left].
    + split; [reflexivity|]. right. constructor.
    + split; [reflexivity|]. intros [[h [l H]]|H]; inversion H.
  - rewrite Forall_forall in IHt, IHa.
    assert (Ht : forall x, In x ts -> visit_term x = Ok tt \/ visit_term x = Err EAttr) by (intros x Hx; destruct (IHt x Hx) as [[E _]|[E _]]; auto).
    assert (Ha : forall x, In x an -> visit_term x = Ok tt \/ visit_term x = Err EAttr) by (intros x Hx; destruct (IHa x Hx) as [[E _]|[E _]]; auto).
    change (visit_term (ALit f ts an)) with (rseq (visit_each visit_term ts) (visit_each visit_term an)).
    destruct (visit_each_cases visit_term ts Ht) as [[E K]|[E [x [Kx K]]]]; rewrite E; cbn [rseq].
    + destruct (visit_each_cases visit_term an Ha) as [[E' K']|[E' [x [Kx K']]]]; rewrite E'.
      * left. split; [reflexivity|].
        assert (N : forall x, In x ts \/ In x an -> ~ refused x).
        { intros x [Hx|Hx]; [destruct (IHt x Hx) as [[_ N]|[Z _]]|destruct (IHa x Hx) as [[_ N]|[Z _]]]; auto.
          - rewrite (K x Hx) in Z. discriminate.
          - rewrite (K' x Hx) in Z. discriminate. }
        intros [[h [l H]]|H]; inversion H; subst.
        all: match goal with Hi : In ?u _, Ho : occurs _ ?u |- _ => apply (N u); [now auto|unfold refused; eauto] end.
      * right. split; [reflexivity|]. destruct (IHa x Kx) as [[Z _]|[_ N]]; [congruence|].
        destruct N as [[h [l H]]|H]; [left; exists h, l|right]; eapply oc_ann; eassumption.
    + right. split; [reflexivity|]. destruct (IHt x Kx) as [[Z _]|[_ N]]; [congruence|].
      destruct N as [[h [l H]]|H]; [left; exists h, l|right]; eapply oc_arg; eassumption.
  - rewrite Forall_forall in IHt.
    assert (Ht : forall x, In x ts -> visit_term x = Ok tt \/ visit_term x = Err EAttr) by (intros x Hx; destruct (IHt x Hx) as [[E _]|[E _]]; auto).
    change (visit_term (AList ts)) with (visit_each visit_term ts).
    destruct (visit_each_cases visit_term ts Ht) as [[E K]|[E [x [Kx K]]]]; rewrite E.
    + left. split; [reflexivity|].
      assert (N : forall x, In x ts -> ~ refused x).
      { intros x Hx. destruct (IHt x Hx) as [[_ N]|[Z _]]; auto. rewrite (K x Hx) in Z. discriminate. }
      intros [[h [l H]]|H]; inversion H; subst.
      all: match goal with Hi : In ?u _, Ho : occurs _ ?u |- _ => apply (N u); [now auto|unfold refused; eauto] end.
    + right. split; [reflexivity|]. destruct (IHt x Kx) as [[Z _]|[_ N]]; [congruence|].
      destruct N as [[h [l H]]|H]; [left; exists h, l|right]; eapply oc_item; eassumption.
  - right. split; [reflexivity|]. left. exists h, t. constructor.
  - change (visit_term (AUn op a)) with (visit_term a). destruct IHa as [[E N]|[E N]]; rewrite E; [left|right]; (split; [reflexivity|]).
    + intros [[h [l H]]|H]; inversion H; subst; apply N; unfold refused; eauto.
    + destruct N as [[h [l H]]|H]; [left; exists h, l|right]; now constructor.
  - change (visit_term (ABin op l r)) with (rseq (visit_term l) (visit_term r)).
    destruct IHl as [[E N]|[E N]]; rewrite E; cbn [rseq].
    + destruct IHr as [[E' N']|[E' N']]; rewrite E'; [left|right]; (split; [reflexivity|]).
      * intros [[h [t H]]|H]; inversion H; subst; first [apply N; unfold refused; eauto; fail|apply N'; unfold refused; eauto; fail].
      * destruct N' as [[h [t H]]|H]; [left; exists h, t|right]; now apply oc_right.
    + right. split; [reflexivity|]. destruct N as [[h [t H]]|H]; [left; exists h, t|right]; now apply oc_left.
Qed.

Lemma visit_term_two t : visit_term t = Ok tt \/ visit_term t = Err EAttr.
Proof. destruct (visit_term_cases t) as [[E _]|[E _]]; auto. Qed.

Lemma visit_agent_cases g :
  (visit_agent g = Ok tt /\ ag_plans g = [] /\ forall u, In u (clauses g) -> ~ refused u) \/
  (visit_agent g = Err EAttr /\ (ag_plans g <> [] \/ exists u, In u (clauses g) /\ refused u)).
Proof.
  unfold visit_agent, clauses.
  assert (R : forall r, In r (ag_rules g) -> visit_rule r = Ok tt \/ visit_rule r = Err EAttr).
  { intros r _. unfold visit_rule. destruct (visit_term_two (lit_ast (ar_head r))) as [-> | ->]; cbn [rseq]; auto using visit_term_two. }
  assert (B : forall b : alit, visit_term (lit_ast b) = Ok tt \/ visit_term (lit_ast b) = Err EAttr) by (intro; apply visit_term_two).
  destruct (visit_each_cases visit_rule (ag_rules g) R) as [[E K]|[E [r [Kr K]]]]; rewrite E; cbn [rseq].
  2:{ right. split; [reflexivity|]. right. unfold visit_rule in K.
      destruct (visit_term_cases (lit_ast (ar_head r))) as [[E1 N1]|[E1 N1]]; rewrite E1 in K; cbn [rseq] in K.
      - destruct (visit_term_cases (ar_cons r)) as [[E2 N2]|[E2 N2]]; [congruence|].
        exists (ar_cons r). split; [|exact N2]. apply in_or_app. left. apply in_flat_map. exists r. cbn. auto.
      - exists (lit_ast (ar_head r)). split; [|exact N1]. apply in_or_app. left. apply in_flat_map. exists r. cbn. auto. }
  destruct (visit_each_cases (fun b => visit_term (lit_ast b)) (ag_beliefs g) (fun b _ => B b)) as [[E' K']|[E' [b [Kb K']]]]; rewrite E'; cbn [rseq].
  2:{ right. split; [reflexivity|]. right. destruct (visit_term_cases (lit_ast b)) as [[E1 _]|[_ N1]]; [congruence|].
      exists (lit_ast b). split; [|exact N1]. apply in_or_app. right. apply in_or_app. left. now apply in_map. }
  destruct (visit_each_cases (fun b => visit_term (lit_ast b)) (ag_goals g) (fun b _ => B b)) as [[E2 K2]|[E2 [b [Kb K2]]]]; rewrite E2; cbn [rseq].
  2:{ right. split; [reflexivity|]. right. destruct (visit_term_cases (lit_ast b)) as [[E1 _]|[_ N1]]; [congruence|].
      exists (lit_ast b). split; [|exact N1]. apply in_or_app. right. apply in_or_app. right. now apply in_map. }
  destruct (ag_plans g) as [|p ps]; [left|right; split; [reflexivity|now left]].
  split; [reflexivity|]. split; [reflexivity|]. intros u Hu N.
  assert (Z : visit_term u = Ok tt).
  { apply in_app_or in Hu. destruct Hu as [Hu|Hu]; [|apply in_app_or in Hu; destruct Hu as [Hu|Hu]; apply in_map_iff in Hu; destruct Hu as [b [<- Hb]]; auto].
    apply in_flat_map in Hu. destruct Hu as [r [Hr Hu]]. specialize (K r Hr). unfold visit_rule in K.
    destruct (visit_term_two (lit_ast (ar_head r))) as [E1|E1]; rewrite E1 in K; cbn [rseq] in K; [|discriminate].
    destruct Hu as [<-|[<-|[]]]; assumption. }
  destruct (visit_term_cases u) as [[_ N']|[E1 _]]; [exact (N' N)|congruence].
Qed.

Lemma refused_agent g : (exists u, In u (clauses g) /\ refused u) <-> (linked g \/ missing g).
Proof.
  split.
  - intros [u [Hu [[h [t H]]|H]]]; [left; exists h, t, u|right; exists u]; auto.
  - intros [[h [t [u [Hu H]]]]|[u [Hu H]]]; exists u; (split; [exact Hu|]); [left; eauto|now right].
Qed.

Lemma side_effect_not_attr ts : side_effect ts <> Err EAttr.
Proof.
  unfold side_effect. destruct ts as [|[]]; try discriminate. destruct ts as [|[]]; try discriminate.
  repeat (match goal with |- context[if ?b then _ else _] => destruct b end); discriminate.
Qed.
Lemma mark_not_attr ts : mark_nosidef ts <> Err EAttr.
Proof. unfold mark_nosidef. destruct ts as [|[] [|]]; discriminate. Qed.

Lemma optimize_attr g : optimize g = Err EAttr <-> ag_plans g <> [] \/ linked g \/ missing g.
Proof.
  rewrite <- refused_agent. unfold optimize, init_agent, collect_actions.
  destruct (visit_agent_cases g) as [[E [Hp N]]|[E H]]; rewrite E.
  - split; [|intros [K|[u [Hu K]]]; [now rewrite Hp in K|destruct (N u Hu K)]].
    match goal with |- context[match ?L with [] => _ | _ => _ end] => destruct L as [|[f ts] l] end; [discriminate|].
    intro K. exfalso. destruct (pystr_eqb f _).
    + destruct (mark_nosidef ts) eqn:M; [discriminate|]. apply (mark_not_attr ts). rewrite M. congruence.
    + destruct (pystr_eqb f _); [|discriminate].
      destruct (side_effect ts) eqn:M; [discriminate|]. apply (side_effect_not_attr ts). rewrite M. congruence.
  - tauto.
Qed.

Lemma optimize_same g g' : optimize g = Ok g' -> g' = g.
Proof. unfold optimize. destruct (init_agent g); congruence. Qed.

(** Every action that is found occurs in the program. *)
Lemma term_actions_occur t f ts : In (f, ts) (term_actions t) -> exists an, occurs (ALit f ts an) t.
Proof.
  induction t as [b|x|s|v|f' ts' an IHt IHa|ts' IHt|h t IHh IHt|op a IHa|op l r IHl IHr] using ast_ind'; cbn; try easy.
  - rewrite Forall_forall in IHt, IHa. intro H. apply in_app_or in H. destruct H as [H|H].
    + destruct (has_dot f'); [|easy]. destruct H as [H|[]]. inversion H; subst. exists an. constructor.
    + apply in_app_or in H. destruct H as [H|H]; apply in_flat_map in H; destruct H as [u [Hu H]];
        [destruct (IHt u Hu H) as [a K]|destruct (IHa u Hu H) as [a K]]; exists a; [eapply oc_arg|eapply oc_ann]; eassumption.
  - rewrite Forall_forall in IHt. intro H. apply in_flat_map in H. destruct H as [u [Hu H]].
    destruct (IHt u Hu H) as [a K]. exists a. eapply oc_item; eassumption.
  - intro H. destruct (IHa H) as [an K]. exists an. now constructor.
  - intro H. apply in_app_or in H. destruct H as [H|H]; [destruct (IHl H) as [an K]|destruct (IHr H) as [an K]]; exists an; [now apply oc_left|now apply oc_right].
Qed.

Lemma optimize_ok g : ag_plans g = [] -> ~ linked g -> ~ missing g ->
  (forall f ts an, occurs_in (ALit f ts an) g -> ~ directive f) -> optimize g = Ok g.
Proof.
  intros Hp Hl Hm Hd. unfold optimize, init_agent, collect_actions.
  destruct (visit_agent_cases g) as [[E [_ N]]|[E H]]; rewrite E.
  2:{ rewrite refused_agent in H. exfalso. tauto. }
  match goal with |- context[match ?L with [] => _ | _ => _ end] => destruct L as [|[f ts] l] eqn:El end; [reflexivity|].
  assert (D : ~ directive f).
  { assert (I : In (f, ts) ((f, ts) :: l)) by now left. rewrite <- El in I.
    assert (X : exists u, In u (clauses g) /\ In (f, ts) (term_actions u)).
    { unfold clauses. apply in_app_or in I. destruct I as [I|I]; [|apply in_app_or in I; destruct I as [I|I]].
      - apply in_flat_map in I. destruct I as [r [Hr I]]. apply in_app_or in I.
        destruct I as [I|I]; [exists (lit_ast (ar_head r))|exists (ar_cons r)]; (split; [|exact I]);
          apply in_or_app; left; apply in_flat_map; exists r; cbn; auto.
      - apply in_flat_map in I. destruct I as [b [Hb I]]. exists (lit_ast b). split; [|exact I].
        apply in_or_app. right. apply in_or_app. left. now apply in_map.
      - apply in_flat_map in I. destruct I as [b [Hb I]]. exists (lit_ast b). split; [|exact I].
        apply in_or_app. right. apply in_or_app. right. now apply in_map. }
    destruct X as [u [Hu I']]. destruct (term_actions_occur u f ts I') as [an K]. apply (Hd f ts an). exists u. auto. }
  destruct (pystr_eqb_spec f (s2p ".inf_mark_nosidef")); [exfalso; apply D; now left|].
  destruct (pystr_eqb_spec f (s2p ".inf_side_effect")); [exfalso; apply D; now right|]. reflexivity.
Qed.

Section WithPy.
Context {PY : Py} {FR : Front}.
Variable files : pystr -> file.

Lemma optimized_parsed n acts name lines W g : parse_source files n name lines = Ok g ->
  build_agent_optimized files n acts name lines W =
  match optimize g with Ok _ => build_agent files n acts name lines None W | Err e => (Err e, W) end.
Proof.
  intro E. unfold build_agent. rewrite E. unfold parse_source in E. unfold build_agent_optimized.
  destruct (tokenize 1 lines) as [items|e]; [|discriminate].
  destruct (parse_program files n name [] false (mkpst items (log_new (Some 3%nat)) true)) as [[g1|e] s]; [|discriminate].
  destruct (log_throw (p_log s)) as [u|e]; [|discriminate].
  assert (g1 = g) by congruence. subst g1.
  destruct (optimize g) as [g'|e] eqn:O; [|reflexivity]. apply optimize_same in O. now subst g'.
Qed.

Lemma optimized_unparsed n acts name lines W e : parse_source files n name lines = Err e ->
  exists e', build_agent_optimized files n acts name lines W = (Err e', W).
Proof.
  intro E. unfold parse_source in E. unfold build_agent_optimized.
  destruct (tokenize 1 lines) as [items|e1]; [|eauto].
  destruct (parse_program files n name [] false (mkpst items (log_new (Some 3%nat)) true)) as [[g1|e1] s]; [|eauto].
  destruct (optimize g1); [|eauto]. destruct (log_throw (p_log s)); [discriminate|eauto].
Qed.

Lemma optimized_plans n acts name lines W g : parse_source files n name lines = Ok g -> ag_plans g <> [] ->
  build_agent_optimized files n acts name lines W = (Err EAttr, W).
Proof.
  intros E H. rewrite (optimized_parsed _ _ _ _ _ _ E). now rewrite (proj2 (optimize_attr g) (or_introl H)).
Qed.
Lemma optimized_same n acts name lines W g : parse_source files n name lines = Ok g ->
  ag_plans g = [] -> ~ linked g -> ~ missing g -> (forall f ts an, occurs_in (ALit f ts an) g -> ~ directive f) ->
  build_agent_optimized files n acts name lines W = build_agent files n acts name lines None W.
Proof. intros E H1 H2 H3 H4. rewrite (optimized_parsed _ _ _ _ _ _ E). now rewrite optimize_ok. Qed.
Lemma optimized_refines n acts name lines W a W' :
  build_agent_optimized files n acts name lines W = (Ok a, W') ->
  build_agent files n acts name lines None W = (Ok a, W') /\
  exists g, parse_source files n name lines = Ok g /\ ag_plans g = [].
Proof.
  intro E. destruct (parse_source files n name lines) as [g|e] eqn:P.
  - rewrite (optimized_parsed _ _ _ _ _ _ P) in E. destruct (optimize g) as [g'|e] eqn:O; [|discriminate].
    split; [exact E|]. exists g. split; [reflexivity|].
    destruct (ag_plans g) as [|p ps] eqn:Hp; [reflexivity|].
    assert (Z : optimize g = Err EAttr) by (apply optimize_attr; left; rewrite Hp; discriminate). congruence.
  - destruct (optimized_unparsed n acts name lines W e P) as [e' K]. congruence.
Qed.
End WithPy.

(** A program with one rule, whose body is a directive. *)
Lemma optimize_one f act ts : ~ In 46%N f -> In 46%N act -> (forall u, In u ts -> ~ refused u) ->
  optimize (mkaagent [mkarule (mkalit f [] []) (ALit act ts [])] [] [] []) =
  match (if pystr_eqb act (s2p ".inf_mark_nosidef") then mark_nosidef ts
         else if pystr_eqb act (s2p ".inf_side_effect") then side_effect ts else Ok tt) with
  | Ok _ => Ok (mkaagent [mkarule (mkalit f [] []) (ALit act ts [])] [] [] [])
  | Err e => Err e
  end.
Proof.
  intros Hf Ha Ht. unfold optimize, init_agent, collect_actions.
  set (g := mkaagent _ _ _ _).
  destruct (visit_agent_cases g) as [[E _]|[E H]]; rewrite E.
  2:{ exfalso. destruct H as [H|[u [Hu N]]]; [now apply H|]. cbn in Hu. destruct Hu as [<-|[<-|[]]].
      - unfold lit_ast in N. cbn in N. destruct N as [[h [t N]]|N]; inversion N; subst; easy.
      - destruct N as [[h [t N]]|N]; inversion N; subst; try easy.
        all: match goal with Hi : In ?u _, Ho : occurs _ ?u |- _ => apply (Ht u Hi); unfold refused; eauto end. }
  assert (D : has_dot f = false).
  { unfold has_dot. destruct (existsb (N.eqb 46) f) eqn:X; [|reflexivity]. exfalso. apply Hf.
    apply existsb_exists in X. destruct X as [c [Hc X]]. apply N.eqb_eq in X. now subst c. }
  assert (D' : has_dot act = true).
  { unfold has_dot. apply existsb_exists. exists 46%N. split; [exact Ha|reflexivity]. }
  assert (T : forall f ts, term_actions (ALit f ts []) = (if has_dot f then [(f, ts)] else []) ++ flat_map term_actions ts ++ []) by reflexivity.
  assert (L : flat_map (fun r => term_actions (lit_ast (ar_head r)) ++ term_actions (ar_cons r)) (ag_rules g)
    ++ flat_map (fun b => term_actions (lit_ast b)) (ag_beliefs g) ++ flat_map (fun x => term_actions (lit_ast x)) (ag_goals g)
    = (act, ts) :: ((flat_map term_actions ts ++ []) ++ []) ++ []).
  { change (((term_actions (ALit f [] []) ++ term_actions (ALit act ts [])) ++ []) ++ [] = (act, ts) :: ((flat_map term_actions ts ++ []) ++ []) ++ []).
    rewrite !T, D, D'. reflexivity. }
  rewrite L. reflexivity.
Qed.

Lemma one_of_in s l : one_of s l = true <-> In s (map s2p l).
Proof.
  unfold one_of. rewrite existsb_exists, in_map_iff. split.
  - intros [x [Hx E]]. apply pystr_eqb_eq in E. exists x. auto.
  - intros [x [E Hx]]. exists x. split; [exact Hx|]. now apply pystr_eqb_eq.
Qed.

Lemma mark_ok ts : mark_nosidef ts = Ok tt <-> exists s, ts = [AStr s].
Proof.
  unfold mark_nosidef. split.
  - destruct ts as [|[] [|]]; try discriminate. eauto.
  - intros [s ->]. reflexivity.
Qed.

Lemma side_effect_ok ts : side_effect ts = Ok tt <->
  exists af ef rest, ts = AStr af :: AStr ef :: rest /\ In af (map s2p affects) /\ In ef (map s2p effects).
Proof.
  split.
  - unfold side_effect. destruct ts as [|t1 ts]; [discriminate|]. destruct t1; try discriminate.
    destruct ts as [|t2 ts]; [discriminate|]. destruct t2; try discriminate.
    destruct (pystr_eqb s (s2p "AFFECT_PARAM")); [discriminate|].
    match goal with |- context[negb (one_of s ?l)] => destruct (one_of s l) eqn:E1 end; [cbn [negb]|discriminate].
    match goal with |- context[negb (one_of s0 ?l)] => destruct (one_of s0 l) eqn:E2 end; [cbn [negb]|discriminate].
    destruct (pystr_eqb_spec s (s2p "AFFECT_PARAM_INTERVAL")); [discriminate|]. intros _.
    exists s, s0, ts. split; [reflexivity|]. apply one_of_in in E1. apply one_of_in in E2.
    split; [|exact E2]. cbn [map] in E1. destruct E1 as [E1|E1]; [now symmetry in E1|exact E1].
  - intros [af [ef [rest [-> [Ha He]]]]].
    assert (A : forall x, In x (map s2p affects) -> side_effect (AStr x :: AStr ef :: rest) = Ok tt).
    { assert (B : forall x y, In x (map s2p affects) -> In y (map s2p effects) -> side_effect (AStr x :: AStr y :: rest) = Ok tt).
      { cbn [map affects effects]. intros x y. cbn [In].
        intros [<-|[<-|[<-|[]]]] [<-|[<-|[<-|[<-|[<-|[<-|[]]]]]]]; reflexivity. }
      intros x Hx. now apply B. }
    now apply A.
Qed.

Lemma in_refused f act ts u : In u ts -> refused u -> linked (one_action f act ts) \/ missing (one_action f act ts).
Proof.
  intros Hu [[h [t H]]|H]; [left; exists h, t|right]; exists (ALit act ts []); (split; [cbn; auto|eapply oc_arg; eassumption]).
Qed.
Lemma one_mark f ts : ~ In 46%N f -> ~ linked (one_action f (s2p ".inf_mark_nosidef") ts) -> ~ missing (one_action f (s2p ".inf_mark_nosidef") ts) ->
  (optimize (one_action f (s2p ".inf_mark_nosidef") ts) = Ok (one_action f (s2p ".inf_mark_nosidef") ts) <-> exists s, ts = [AStr s]) /\
  ((~ exists s, ts = [AStr s]) -> optimize (one_action f (s2p ".inf_mark_nosidef") ts) = Err EAggregated).
Proof.
  intros Hf Hl Hm. unfold one_action in *.
  rewrite optimize_one; [|exact Hf|left; reflexivity|].
  2:{ intros u Hu N. destruct (in_refused f (s2p ".inf_mark_nosidef") ts u Hu N); auto. }
  rewrite pystr_eqb_refl, <- mark_ok. destruct (mark_nosidef ts) as [[]|e] eqn:E.
  - split; [split; auto|]. intro K. now destruct K.
  - split; [split; discriminate|]. intros _. unfold mark_nosidef in E. destruct ts as [|[] [|]]; congruence.
Qed.
Lemma one_side_effect f ts : ~ In 46%N f -> ~ linked (one_action f (s2p ".inf_side_effect") ts) -> ~ missing (one_action f (s2p ".inf_side_effect") ts) ->
  (optimize (one_action f (s2p ".inf_side_effect") ts) = Ok (one_action f (s2p ".inf_side_effect") ts) <->
   exists af ef rest, ts = AStr af :: AStr ef :: rest /\ In af (map s2p affects) /\ In ef (map s2p effects)).
Proof.
  intros Hf Hl Hm. unfold one_action in *.
  rewrite optimize_one; [|exact Hf|left; reflexivity|].
  2:{ intros u Hu N. destruct (in_refused f (s2p ".inf_side_effect") ts u Hu N); auto. }
  change (pystr_eqb (s2p ".inf_side_effect") (s2p ".inf_mark_nosidef")) with false. cbv iota.
  rewrite pystr_eqb_refl, <- side_effect_ok. destruct (side_effect ts) as [[]|e]; split; (discriminate || auto).
Qed.
