(** Plans told as text and plans asked for: C39, C50. *)
From Verif Require Import Base Num Term Unify Str World Engine Step Ast Names Build Front Reach QuerySpec PlanSpec BelSpec LoadSpec HowSpec RoundSpec TellSpec.
From Verif Require Import OwnFacts TellFacts AskFacts SentFacts HowCor ExPy ExParse ExHow.

(** C50.  Agent [a] is told a plan by a text: either the text is read as a tree,
    the plan built from it comes after the plans that [a] has for the same event, and nothing
    else changes; or an exception is raised and nothing changes. *)
Theorem C50_told : forall (PY : Py) m n a f s more annots ci d st W r st' W',
  single (FR := FrontText m) W -> (a < List.length (w_agents W))%nat ->
  call (FR := FrontText m) n a TrAdd GtTellHow (TLit f (TStr s :: more) annots) ci d (st, W) = (r, (st', W')) ->
  (exists p x, r = Ok true /\ read_plan m s = Ok p /\ built_from p x /\ gains a [x] W W') \/
  (exists e, r = Err e /\ gains a [] W W').
Proof. exact @tell_gives. Qed.
Print Assumptions C50_told.

(** C50.  If the text is that of a plan the builder accepts (and nobody waits for being
    told), the call does succeed. *)
Theorem C50_works : forall (PY : Py) m n a s from p ci d st W,
  single (FR := FrontText m) W -> (a < List.length (w_agents W))%nat -> no_how_waits W ->
  from = [] \/ (exists name, from = [source name]) -> (4 <= n)%nat ->
  read_plan m s = Ok p -> buildable p ->
  exists x W', call (FR := FrontText m) n a TrAdd GtTellHow (how_message s from) ci d (st, W) = (Ok true, (st, W')) /\
    built_from p x /\ gains a [x] W W'.
Proof. exact @tell_succeeds. Qed.
Print Assumptions C50_works.

(** C50.  The printed text of a plan is read as that plan. *)
Theorem C50_printed : forall (PY : Py) p, readable_plan p ->
  exists N, forall n, (N <= n)%nat -> read_plan n (aplan_str p ++ s2p ".") = Ok p.
Proof. exact @told_printed. Qed.
Print Assumptions C50_printed.

(** A text is read in one way, however deep the recursion may go. *)
Theorem C50_once : forall n n' s p p', read_plan n s = Ok p -> read_plan n' s = Ok p' -> p = p'.
Proof. exact read_once. Qed.
Print Assumptions C50_once.

(** amy has two plans for !go, and is told one for !go(X, Y), and then nonsense. *)
Example C50_case : single (PY := PyHow) (FR := FrontHow) (amy_ben two_plans) /\ no_how_waits (amy_ben two_plans) /\
  exists st' W' x,
  call (PY := PyHow) (FR := FrontHow) 20 0 TrAdd GtTellHow (tell go_plan) 0 false (bst0, amy_ben two_plans) = (Ok true, (st', W')) /\
  plans_of 0 (group_of GtAchieve "go" 2) (amy_ben two_plans) = [] /\ plans_of 0 (group_of GtAchieve "go" 2) W' = [x] /\
  built_from (PY := PyHow) (ptree go_plan) x.
Proof. exact (conj (amy_ben_single two_plans) (conj two_plans_calm told_go)). Qed.
Example C50_nonsense : exists st' W',
  call (PY := PyHow) (FR := FrontHow) 20 0 TrAdd GtTellHow (tell "+!go(X <- .print(X).") 0 false (bst0, amy_ben two_plans) = (Err EAggregated, (st', W')).
Proof. exact told_nonsense. Qed.
Example C50_text : read_plan 100 (s2p go_plan) = Ok (ptree go_plan) /\ buildable (PY := PyHow) (ptree go_plan) /\ readable_plan (PY := PyHow) (ptree go_plan).
Proof. exact (conj eq_refl go_ready). Qed.

(** C39.  Another agent asks [a] for plans, and this succeeds: the last source of
    the message names an agent of the system, and this agent gets, in order, a
    copy of each plan that [a] offers: of each group the last plan whose functor occurs in
    the text of the question.  Apart from the texts kept for printing nothing else changes. *)
Theorem C39_copies : forall (PY : Py) m n a f s more annots ci d st W r st' W',
  single (FR := FrontText m) W ->
  call (FR := FrontText m) n a TrAdd GtAskHow (TLit f (TStr s :: more) annots) ci d (st, W) = (Ok r, (st', W')) ->
  r = false /\ exists name rcv, asker annots name /\ assoc pystr_eqb name (w_env W) = Some rcv /\ offered s a W <> [] /\
    (rcv <> a -> exists xs, Forall2 (copy_of m) (offered s a W) xs /\ learns rcv xs W W').
Proof. exact @ask_gives. Qed.
Print Assumptions C39_copies.

(** C39.  Every plan that is asked for is offered, if there is at most one in each group. *)
Theorem C39_all : forall s a W,
  (forall l, In l (plan_groups a W) -> (List.length (filter (asked_for s) l) <= 1)%nat) ->
  offered s a W = filter (asked_for s) (List.concat (plan_groups a W)).
Proof. exact offered_all. Qed.
Print Assumptions C39_all.

(** C39.  The copy of a plan whose arguments are variables, with a body and
    without a context or with one made with & and | of literals and comparisons
    without variables and annotations, is built from the same tree (with the
    context "true", if there was none). *)
Theorem C39_plain : forall (PY : Py) m p x y, PyLawful PY -> hex_names -> readable_plan p -> plain_plan p ->
  loaded_from p x -> copy_of m x y -> built_from (always p) y.
Proof. exact @copy_plain. Qed.
Print Assumptions C39_plain.

(** ... and there is such a copy, whenever the tree can be built, and the
    context, if any, has a text (those with actions have none). *)
Theorem C39_sent : forall (PY : Py) p x, PyLawful PY -> hex_names -> readable_plan p -> plain_plan p -> buildable (always p) ->
  loaded_from p x -> ap_ctx p = None \/ (exists s, sent_as x s) -> exists N, forall m, (N <= m)%nat -> exists y, copy_of m x y.
Proof. exact @copy_exists. Qed.
Print Assumptions C39_sent.

Example C39_case : single (PY := PyHow) (FR := FrontHow) (amy_ben [go_plan]) /\ exists st' W' y,
  asking "go" (amy_ben [go_plan]) = (Ok false, (st', W')) /\
  asker [source (s2p "ben")] (s2p "ben") /\ assoc pystr_eqb (s2p "ben") (w_env (amy_ben [go_plan])) = Some 1%nat /\
  plans_of 1 (group_of GtAchieve "go" 2) (amy_ben [go_plan]) = [] /\
  plans_of 1 (group_of GtAchieve "go" 2) W' = [y] /\
  built_from (PY := PyHow) (ptree "@one +!go(X, Y) : true <- .print(X, Y); !next(Y).") y.
Proof. exact (conj (amy_ben_single [go_plan]) go_asked). Qed.
Example C39_plain_case : PyLawful PyHow /\ @hex_names PyHow /\ plain_plan (ptree go_plan) /\
  always (ptree go_plan) = ptree "@one +!go(X, Y) : true <- .print(X, Y); !next(Y).".
Proof. exact go_plain. Qed.

Example C39_context_case : plain_plan (ptree ctx_plan) /\ readable_plan (PY := PyHow) (ptree ctx_plan) /\ buildable (PY := PyHow) (always (ptree ctx_plan)) /\
  exists x, loaded_from (PY := PyHow) (ptree ctx_plan) x /\
    sent_as (PY := PyHow) x (s2p "+!go(X) : ((a(1, [""u"", b]) & (2 < 3)) | (f(c) = f(d))) <- .print(X).") /\
  always (ptree ctx_plan) = ptree ctx_plan.
Proof. exact ctx_plain. Qed.

(** C39.  Of two plans for the same goal, the first one is not transferred. *)
Theorem C39_all_refuted : exists st' W', single (PY := PyHow) (FR := FrontHow) (amy_ben two_plans) /\
  asking "go" (amy_ben two_plans) = (Ok false, (st', W')) /\
  List.length (filter (asked_for (s2p "go")) (plans_of 0 (group_of GtAchieve "go" 0) (amy_ben two_plans))) = 2%nat /\
  map (fun p => fst (plan_to_str (PY := PyHow) p)) (plans_of 1 (group_of GtAchieve "go" 0) W') = [Ok (s2p "+!go : true <- .print(2).")].
Proof. exact two_asked. Qed.
Print Assumptions C39_all_refuted.

(** C39.  Other plans are not sent as they are: constants and wildcards displace
    the names of variables; the variables of the context are not those of the head; a missing
    body becomes a variable. *)
Theorem C39_number_refuted : exists x, loaded_from (PY := PyHow) (ptree "+!go(1, X) <- .print(X).") x /\ sent_as (PY := PyHow) x (s2p "+!go(1, 1) : true <- .print(X).").
Proof. exact number_sent. Qed.
Print Assumptions C39_number_refuted.
Theorem C39_wildcard_refuted : exists x, loaded_from (PY := PyHow) (ptree "+!go(_, X) <- .print(X).") x /\ sent_as (PY := PyHow) x (s2p "+!go(_, _) : true <- .print(X).").
Proof. exact wildcard_sent. Qed.
Print Assumptions C39_wildcard_refuted.
Theorem C39_context_refuted : exists x, loaded_from (PY := PyHow) (ptree "+!go(X) : p(X) <- .print(X).") x /\ sent_as (PY := PyHow) x (s2p "+!go(X) : p(_X_abc_7f) <- .print(X).").
Proof. exact context_sent. Qed.
Print Assumptions C39_context_refuted.
Theorem C39_body_refuted : exists x, loaded_from (PY := PyHow) (ptree "+!go.") x /\ sent_as (PY := PyHow) x (s2p "+!go : true <- None.").
Proof. exact body_sent. Qed.
Print Assumptions C39_body_refuted.

(** C39.  Strings in the context lose their quotes; a plan with a negated
    conjunction cannot be asked for. *)
Theorem C39_string_refuted : exists x, loaded_from (PY := PyHow) (ptree "+!go : ""a b"" = c <- .print(X).") x /\ sent_as (PY := PyHow) x (s2p "+!go : (a b = c) <- .print(X).").
Proof. exact string_sent. Qed.
Print Assumptions C39_string_refuted.
Theorem C39_negation_refuted : exists st' W', asking "go" (amy_ben ["+!go : not (a & b) <- .print(1)."]%string) = (Err EAttr, (st', W')).
Proof. exact negation_asked. Qed.
Print Assumptions C39_negation_refuted.

(** C39.  A plan with arguments is given away only once. *)
Theorem C39_again_refuted : exists st' W' st2 W2,
  asking "go" (amy_ben [go_plan]) = (Ok false, (st', W')) /\ asking "go" W' = (Err EIndex, (st2, W2)).
Proof. exact asked_again. Qed.
Print Assumptions C39_again_refuted.
