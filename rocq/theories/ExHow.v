(** Telling and asking for plans, on concrete agents. *)
From Verif Require Import Base Num Term Unify Str World Engine Step Ast Names Build Lex Parse Front Reach QuerySpec PlanSpec LoadSpec HowSpec RoundSpec TellSpec.
From Verif Require Import OwnFacts TellFacts AskFacts SentFacts Quote QuoteSpec ParseInv RoundCor NumRead ExPy ExParse.

(** Variables print as they do in Python. *)
Definition PyHow : Py := {|
  horder := fun l => l; fpow := fun _ _ => Err EUnmodelled;
  py_call := fun _ _ _ => Err EUnmodelled; py_time := fun k => NInt (Z.of_N k);
  frepr := fun _ => []; vname := fun v => s2p "_X_abc_7f";
  u_alnum := fun _ => true; u_lower := fun c => [c] |}.
Lemma PyHow_lawful : PyLawful PyHow.
Proof. intro l. apply Permutation.Permutation_refl. Qed.
Lemma PyHow_hex : @hex_names PyHow.
Proof. intro v. exists 97%N, 98%N, 99%N, [55%N; 102%N]. repeat (split; [reflexivity|]). split; [discriminate|reflexivity]. Qed.

Definition FrontHow : Front := @FrontText PyHow 100.
Definition ptree (s : String.string) : aplan :=
  match read_plan 100 (s2p s) with Ok p => p | Err _ => mkaplan None (mkaevent TrAdd GtBelief (mkalit [] [] [])) None None end.

(** amy has the plans, ben has nothing. *)
Definition amy_ben (plans : list String.string) : world :=
  let W1 := snd (@build_agent_from_ast PyHow FrontHow 20 stdlib_actions (s2p "amy") (mkaagent [] [] [] (map ptree plans)) world0) in
  snd (@build_agent_from_ast PyHow FrontHow 20 stdlib_actions (s2p "ben") (mkaagent [] [] [] []) W1).
Lemma amy_ben_single plans : @single PyHow FrontHow (amy_ben plans).
Proof.
  unfold amy_ben. set (g := mkaagent [] [] [] (map ptree plans)).
  destruct (@build_agent_from_ast PyHow FrontHow 20 stdlib_actions (s2p "amy") g world0) as [r W1] eqn:E1. cbn [snd].
  destruct (@build_agent_from_ast PyHow FrontHow 20 stdlib_actions (s2p "ben") (mkaagent [] [] [] []) W1) as [r2 W2] eqn:E2. cbn [snd].
  eapply sg_build; [|exact E2]. eapply sg_build; [apply sg_env|exact E1].
Qed.

(** ben asks amy. *)
Definition ask (s : String.string) : term := how_message (s2p s) [source (s2p "ben")].
Definition asking (s : String.string) (W : world) : res bool * (bst * world) :=
  @call PyHow FrontHow 20 0 TrAdd GtAskHow (ask s) 0 false (bst0, W).

Definition go_plan : String.string := "@one +!go(X, Y) <- .print(X, Y); !next(Y).".
Definition two_plans : list String.string := ["+!go <- .print(1)."; "+!go <- .print(2)."; "+go(X) <- .print(3)."; "+!stop <- .print(4)."]%string.
Definition group_of (gt : gtype) (f : String.string) (k : nat) : pgroup := (TrAdd, gt, (s2p f, k)).

(** ** What arrives *)
Lemma go_asked : exists st' W' y,
  asking "go" (amy_ben [go_plan]) = (Ok false, (st', W')) /\
  asker [source (s2p "ben")] (s2p "ben") /\ assoc pystr_eqb (s2p "ben") (w_env (amy_ben [go_plan])) = Some 1%nat /\
  plans_of 1 (group_of GtAchieve "go" 2) (amy_ben [go_plan]) = [] /\
  plans_of 1 (group_of GtAchieve "go" 2) W' = [y] /\
  built_from (PY := PyHow) (ptree "@one +!go(X, Y) : true <- .print(X, Y); !next(Y).") y.
Proof.
  eexists _, _, _. split; [vm_compute; reflexivity|]. split.
  { exists [], [], [], [], [], []. split; [reflexivity|constructor]. }
  split; [vm_compute; reflexivity|]. split; [vm_compute; reflexivity|]. split; [vm_compute; reflexivity|].
  exists 2%N. eexists _, _. vm_compute. reflexivity.
Qed.

(** The last one of two plans for the same event, and another one. *)
Lemma last_asked : exists st' W',
  asking "go" (amy_ben two_plans) = (Ok false, (st', W')) /\
  List.length (filter (asked_for (s2p "go")) (plans_of 0 (group_of GtAchieve "go" 0) (amy_ben two_plans))) = 2%nat /\
  map (fun p => fst (plan_to_str (PY := PyHow) p)) (plans_of 1 (group_of GtAchieve "go" 0) W') = [Ok (s2p "+!go : true <- .print(2).")] /\
  map (fun p => fst (plan_to_str (PY := PyHow) p)) (plans_of 1 (group_of GtBelief "go" 1) W') = [Ok (s2p "+go(X) : true <- .print(3).")] /\
  plans_of 1 (group_of GtAchieve "stop" 0) W' = [].
Proof. eexists _, _. split; [vm_compute; reflexivity|]. repeat (split; [vm_compute; reflexivity|]). vm_compute. reflexivity. Qed.

(** ** What is sent is not always the plan *)
Lemma loaded_text s text : (exists x, (exists lg k', clause (build_plan (PY := PyHow) stdlib_actions (ptree s)) (log_new None) 0%N = (Ok x, lg, k')) /\ fst (plan_to_str (PY := PyHow) x) = Ok (s2p text)) ->
  exists x, loaded_from (PY := PyHow) (ptree s) x /\ sent_as (PY := PyHow) x (s2p text).
Proof. intros (x & (lg & k' & E) & H). exists x. split; [|exact H]. exists stdlib_actions, (log_new None), 0%N, lg, k'. exact E. Qed.
Lemma number_sent : exists x, loaded_from (PY := PyHow) (ptree "+!go(1, X) <- .print(X).") x /\ sent_as (PY := PyHow) x (s2p "+!go(1, 1) : true <- .print(X).").
Proof. apply loaded_text. eexists. split; [eexists _, _; vm_compute; reflexivity|vm_compute; reflexivity]. Qed.
Lemma wildcard_sent : exists x, loaded_from (PY := PyHow) (ptree "+!go(_, X) <- .print(X).") x /\ sent_as (PY := PyHow) x (s2p "+!go(_, _) : true <- .print(X).").
Proof. apply loaded_text. eexists. split; [eexists _, _; vm_compute; reflexivity|vm_compute; reflexivity]. Qed.
Lemma context_sent : exists x, loaded_from (PY := PyHow) (ptree "+!go(X) : p(X) <- .print(X).") x /\ sent_as (PY := PyHow) x (s2p "+!go(X) : p(_X_abc_7f) <- .print(X).").
Proof. apply loaded_text. eexists. split; [eexists _, _; vm_compute; reflexivity|vm_compute; reflexivity]. Qed.
Lemma body_sent : exists x, loaded_from (PY := PyHow) (ptree "+!go.") x /\ sent_as (PY := PyHow) x (s2p "+!go : true <- None.").
Proof. apply loaded_text. eexists. split; [eexists _, _; vm_compute; reflexivity|vm_compute; reflexivity]. Qed.

Lemma string_sent : exists x, loaded_from (PY := PyHow) (ptree "+!go : ""a b"" = c <- .print(X).") x /\ sent_as (PY := PyHow) x (s2p "+!go : (a b = c) <- .print(X).").
Proof. apply loaded_text. eexists. split; [eexists _, _; vm_compute; reflexivity|vm_compute; reflexivity]. Qed.
Lemma negation_asked : exists st' W', asking "go" (amy_ben ["+!go : not (a & b) <- .print(1)."]%string) = (Err EAttr, (st', W')).
Proof. eexists _, _. vm_compute. reflexivity. Qed.

(** Asking again. *)
Lemma asked_again : exists st' W' st2 W2,
  asking "go" (amy_ben [go_plan]) = (Ok false, (st', W')) /\ asking "go" W' = (Err EIndex, (st2, W2)).
Proof. eexists _, _, _, _. split; [vm_compute; reflexivity|vm_compute; reflexivity]. Qed.

(** ** Telling *)
Definition tell (s : String.string) : term := how_message (s2p s) [source (s2p "ben")].
Lemma told_go : exists st' W' x,
  call (PY := PyHow) (FR := FrontHow) 20 0 TrAdd GtTellHow (tell go_plan) 0 false (bst0, amy_ben two_plans) = (Ok true, (st', W')) /\
  plans_of 0 (group_of GtAchieve "go" 2) (amy_ben two_plans) = [] /\ plans_of 0 (group_of GtAchieve "go" 2) W' = [x] /\
  built_from (PY := PyHow) (ptree go_plan) x.
Proof.
  eexists _, _, _. split; [vm_compute; reflexivity|]. split; [vm_compute; reflexivity|]. split; [vm_compute; reflexivity|].
  exists 1%N. eexists _, _. vm_compute. reflexivity.
Qed.
Lemma told_nonsense : exists st' W',
  call (PY := PyHow) (FR := FrontHow) 20 0 TrAdd GtTellHow (tell "+!go(X <- .print(X).") 0 false (bst0, amy_ben two_plans) = (Err EAggregated, (st', W')).
Proof. eexists _, _. vm_compute. reflexivity. Qed.
Lemma calm_checked W : forallb (fun x => match i_wait x with None => true | _ => false end) (w_ints W) = true -> no_how_waits W.
Proof.
  intros X i wt ev H. exfalso. unfold get_int in H. destruct (Nat.lt_ge_cases i (List.length (w_ints W))) as [Hi|Hi].
  - rewrite forallb_forall in X. specialize (X _ (nth_In _ int0 Hi)). rewrite H in X. discriminate.
  - rewrite nth_overflow in H by exact Hi. discriminate.
Qed.
Lemma two_plans_calm : no_how_waits (amy_ben two_plans).
Proof. apply calm_checked. vm_compute. reflexivity. Qed.

Lemma two_asked : exists st' W', single (PY := PyHow) (FR := FrontHow) (amy_ben two_plans) /\
  asking "go" (amy_ben two_plans) = (Ok false, (st', W')) /\
  List.length (filter (asked_for (s2p "go")) (plans_of 0 (group_of GtAchieve "go" 0) (amy_ben two_plans))) = 2%nat /\
  map (fun p => fst (plan_to_str (PY := PyHow) p)) (plans_of 1 (group_of GtAchieve "go" 0) W') = [Ok (s2p "+!go : true <- .print(2).")].
Proof. destruct last_asked as (st' & W' & H1 & H2 & H3 & _). exists st', W'. split; [apply amy_ben_single|]. auto. Qed.

Lemma go_plain : PyLawful PyHow /\ @hex_names PyHow /\ plain_plan (ptree go_plan) /\
  always (ptree go_plan) = ptree "@one +!go(X, Y) : true <- .print(X, Y); !next(Y).".
Proof.
  split; [exact PyHow_lawful|]. split; [exact PyHow_hex|]. split; [|vm_compute; reflexivity].
  set (p := ptree go_plan). vm_compute in p. subst p. unfold plain_plan. cbn [ap_event ae_head l_terms l_annots l_functor ap_body ap_ctx].
  split; [repeat constructor; eexists; (split; [reflexivity|discriminate])|]. split; [reflexivity|]. split; [|split; [discriminate|discriminate]].
  intros u v X. apply (f_equal (@List.length _)) in X. rewrite !app_length in X. cbn in X. lia.
Qed.

(** A plan with a context. *)
Definition ctx_plan : String.string := "+!go(X) : (a(1, [""u"", b]) & 2 < 3) | f(c) = f(d) <- .print(X).".
Lemma ctx_plain : plain_plan (ptree ctx_plan) /\ readable_plan (PY := PyHow) (ptree ctx_plan) /\ buildable (PY := PyHow) (always (ptree ctx_plan)) /\
  exists x, loaded_from (PY := PyHow) (ptree ctx_plan) x /\
    sent_as (PY := PyHow) x (s2p "+!go(X) : ((a(1, [""u"", b]) & (2 < 3)) | (f(c) = f(d))) <- .print(X).") /\
  always (ptree ctx_plan) = ptree ctx_plan.
Proof.
  split; [|split; [|split; [|]]].
  - set (p := ptree ctx_plan). vm_compute in p. subst p. unfold plain_plan. cbn [ap_event ae_head l_terms l_annots l_functor ap_body ap_ctx].
    split; [repeat constructor; eexists; (split; [reflexivity|discriminate])|]. split; [reflexivity|]. split; [|split; [discriminate|]].
    + intros u v X. apply (f_equal (@List.length _)) in X. rewrite !app_length in X. cbn in X. lia.
    + intros c Hc. assert (Hi : forall (u v : ast), Some u = Some v -> u = v) by (intros u v [=]; assumption). apply Hi in Hc. subst c. right.
      cbn [plain_condition plain_term map fold_right literal_tree is_comp]. tauto.
  - assert (E : tree parse_plan (s2p ctx_plan) = Some (ptree ctx_plan)) by (vm_compute; reflexivity).
    apply tree_came in E; [|points].
    assert (F : formed_plan (ptree ctx_plan)) by exact (came_keeps _ formed_plan _ keeps_plan E).
    apply exact_plan_readable; [exact F|]. set (p := ptree ctx_plan). vm_compute in p. subst p.
    split; [|split; [|split]]; cbn [ap_annot ap_event ap_ctx ap_body ae_head].
    + discriminate.
    + cbn. tauto.
    + intros c Hc. assert (Hi : forall (u v : ast), Some u = Some v -> u = v) by (intros u v [=]; assumption). apply Hi in Hc. subst c. cbn [exact map fold_right]. repeat split; eapply whole_numeral; vm_compute; reflexivity.
    + intros b H. injection H as <-. repeat constructor.
  - intro k. eexists _, _, _. vm_compute. reflexivity.
  - eexists. split; [exists stdlib_actions, (log_new None), 0%N; eexists _, _; vm_compute; reflexivity|]. split; vm_compute; reflexivity.
Qed.

Lemma go_ready : buildable (PY := PyHow) (ptree go_plan) /\ readable_plan (PY := PyHow) (ptree go_plan).
Proof.
  split.
  - intro k. eexists _, _, _. vm_compute. reflexivity.
  - assert (E : tree parse_plan (s2p go_plan) = Some (ptree go_plan)) by (vm_compute; reflexivity).
    apply tree_came in E; [|points].
    assert (F : formed_plan (ptree go_plan)) by exact (came_keeps _ formed_plan _ keeps_plan E).
    apply exact_plan_readable; [exact F|]. set (p := ptree go_plan). vm_compute in p. subst p.
    split; [|split; [|split]]; cbn [ap_annot ap_event ap_ctx ap_body ae_head].
    + intros l H. injection H as <-. cbn. tauto.
    + cbn. tauto.
    + discriminate.
    + intros b H. injection H as <-. repeat constructor.
Qed.
