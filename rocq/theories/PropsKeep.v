(** C61: beliefs about a predicate change only if the text of some program, or
    an event from outside, says so.  Specification: KeepSpec.v
    ([program_spares]: what a program that leaves beliefs of one functor and
    arity alone looks like; [history]: what happens in a system of such agents;
    [ongoing]: the same after all agents have been built). *)
From Verif Require Import Base Num Term Unify Str World Engine Step Ast Names Build Lex Parse Program Reach QuerySpec PlanSpec BelSpec
  KeepSpec KeepCor ExPy ExHow.

(** In a system of such programs, no matter how it is scheduled, what fails and
    which messages arrive when, from some point on the agents' beliefs of this
    kind stay exactly as they are. *)
Theorem C61_kept : forall (PY : Py) (FR : Front) g W W',
  history g true world0 W -> history g false W W' -> forall a, beliefs a g W' = beliefs a g W.
Proof. exact @beliefs_kept. Qed.
Print Assumptions C61_kept.

(** Steps of such agents, and messages other than about plans, change neither
    rules nor plans. *)
Theorem C61_plans : forall (PY : Py) (FR : Front) g W W',
  history g true world0 W -> ongoing g W W' ->
  forall a, beliefs a g W' = beliefs a g W /\ (forall h, plans_of a h W' = plans_of a h W) /\ (forall h, rules_of a h W' = rules_of a h W).
Proof. exact @minds_kept. Qed.
Print Assumptions C61_plans.

(** So for the loops that run agents, also if they end with an exception. *)
Theorem C61_run : forall (PY : Py) (FR : Front) g W W' k n,
  history g true world0 W ->
  (exists r, run k n W = (r, W')) \/ (exists a r, run_agent k n a W = (r, W')) \/ (exists a r, agent_run k n a W = (r, W')) ->
  forall a, beliefs a g W' = beliefs a g W /\ (forall h, plans_of a h W' = plans_of a h W) /\ (forall h, rules_of a h W' = rules_of a h W).
Proof. exact @run_kept. Qed.
Print Assumptions C61_run.

(** ** Example: two agents that talk about sales, and stock(3). *)
Local Open Scope string_scope.
Definition program_of (lines : list string) : aagent :=
  match @parse_source PyHow (fun _ => NoFile) 100 (s2p "shop.asl") (map s2p lines) with Ok p => p | Err _ => mkaagent [] [] [] [] end.
Definition amy_text : list string :=
  ["stock(3). !work."; "+!work : stock(N) <- +done(N); .send(ben, tell, sold(N)); if (N > 2) { -+busy(N) }; .abolish(done(_)); !!rest.";
   "+!rest <- .print(ok)."]%string.
Definition ben_text : list string := ["+sold(N)[source(A)] <- +seen(N); .send(A, untell, busy(3))."]%string.
Definition stock : group := (s2p "stock", 1%nat).
Definition shop0 : world :=
  let W1 := snd (@build_agent_from_ast PyHow FrontHow 30 stdlib_actions (s2p "amy") (program_of amy_text) world0) in
  snd (@build_agent_from_ast PyHow FrontHow 30 stdlib_actions (s2p "ben") (program_of ben_text) W1).
Definition shop1 : world := snd (@run PyHow FrontHow 40 60 shop0).

Lemma shop_spares : program_spares stock stdlib_actions (program_of amy_text) /\ program_spares stock stdlib_actions (program_of ben_text).
Proof.
  set (p := program_of amy_text). set (q := program_of ben_text). vm_compute in p, q. subst p q. unfold program_spares.
  cbn [ag_rules ag_plans ag_beliefs ag_goals]. repeat constructor; try discriminate; vm_compute; try discriminate;
  right; split; try discriminate; auto.
Qed.
Example C61_case : history (PY := PyHow) (FR := FrontHow) stock true world0 shop0 /\
  map (fun a => List.length (beliefs a stock shop0)) [0; 1]%nat = [1; 0]%nat /\
  fst (@run PyHow FrontHow 40 60 shop0) = Ok [] /\
  map (fun a => List.length (beliefs a (s2p "busy", 1%nat) shop1)) [0; 1]%nat = [1; 0]%nat /\
  map (fun a => List.length (beliefs a (s2p "seen", 1%nat) shop1)) [0; 1]%nat = [0; 1]%nat.
Proof.
  split; [|vm_compute; repeat split; reflexivity]. unfold shop0.
  destruct (@build_agent_from_ast PyHow FrontHow 30 stdlib_actions (s2p "amy") (program_of amy_text) world0) as [r1 W1] eqn:E1. cbn [snd].
  destruct (@build_agent_from_ast PyHow FrontHow 30 stdlib_actions (s2p "ben") (program_of ben_text) W1) as [r2 W2] eqn:E2. cbn [snd].
  eapply hi_snoc; [eapply hi_snoc; [apply hi_nil|]|]; (eapply hp_build; [|now left|eassumption]); apply shop_spares.
Qed.

(** A belief that a variable stands for may be of any kind, so such programs
    are not among those considered: here stock(3) is added although no line
    writes +stock. *)
Definition sly_text : list string := ["!work(stock(3)). +!work(X) <- +X."]%string.
Example C61_variable : let p := program_of sly_text in
  ~ program_spares stock stdlib_actions p /\
  let W := snd (@build_agent_from_ast PyHow FrontHow 30 stdlib_actions (s2p "amy") p world0) in
  beliefs 0 stock W = [] /\ List.length (beliefs 0 stock (snd (@run PyHow FrontHow 40 60 W))) = 1%nat.
Proof.
  cbv zeta. split; [|vm_compute; split; reflexivity].
  set (p := program_of sly_text). vm_compute in p. subst p. intros [_ H]. apply Forall_inv in H. destruct H as [_ H]. cbn in H. apply Forall_inv in H.
  exact H.
Qed.
