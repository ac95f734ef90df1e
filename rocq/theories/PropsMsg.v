(** Messages: C28, C29, C30, C38. *)
From Verif Require Import Base Num Term Unify TermSpec InstSpec Str World Engine Step Ast Names Build Reach QuerySpec BelSpec PlanSpec StepSpec MildSpec MsgSpec HowSpec.
From Verif Require Import BelFacts OwnFacts MsgCor HowFacts ExPy ExPlan ExLoad ExMsg QueryCor.

(** C28.  Agent [a] runs .send(t0, tell, t2, ...) and the action succeeds.  Then
    t0 denotes a list of agents [rs], and exactly these agents have added the
    message, annotated with its source, to their beliefs.  Nobody else is
    affected, and no rules and plans change. *)
Theorem C28_tell : forall (PY : Py) (FR : Front) (L : PyLawful PY) n a i f t0 t1 t2 more an st W g st' W',
  at_work W -> mild_world W ->
  resume n a i (GQ (QAct ASend (TLit f (t0 :: t1 :: t2 :: more) an))) (st, W) = (Ok (Some g), (st', W')) ->
  has_value (b_scope st) t1 (atom (s2p "tell")) ->
  exists rcv rs b, has_value (b_scope st) t0 rcv /\ addressed W rcv rs /\
    (rs <> [] -> sent_as (a_name (get_agent W a)) (b_scope st) t2 b) /\ spread b rs W W' /\
    (forall c, a_rules (get_agent W' c) = a_rules (get_agent W c)) /\ (forall c h, plans_of c h W' = plans_of c h W) /\
    (forall c, ~ In c rs -> alone c W W').
Proof. exact @send_tell. Qed.
Print Assumptions C28_tell.

(** If one of the receivers does not exist, an error is raised and nothing has
    changed, whatever is sent. *)
Theorem C28_unknown : forall (PY : Py) (FR : Front) n a i f t0 t1 t2 more an st W r st' W' rcv ts,
  resume n a i (GQ (QAct ASend (TLit f (t0 :: t1 :: t2 :: more) an))) (st, W) = (r, (st', W')) ->
  has_value (b_scope st) t0 rcv -> items_of rcv = (ts, None) -> (exists t, In t ts /\ forall c, ~ names_agent W t c) ->
  (exists e, r = Err e) /\ st' = st /\ W' = W.
Proof. exact @send_unknown. Qed.
Print Assumptions C28_unknown.

(** bob sends hello(X) to carol, to bob and to carol again, to carol only, and to
    carol and nobody. *)
Example C28_example : @at_work PyEx FrontEx two_world /\ mild_world two_world /\
  (exists g st' W',
    @resume PyEx FrontEx 20 0 0 (GQ (send_hello (plist [nm "carol"; TStr (s2p "bob"); nm "carol"]))) (st5, two_world) = (Ok (Some g), (st', W')) /\
    beliefs 0 (s2p "hello", 1%nat) W' = [heard] /\ beliefs 1 (s2p "hello", 1%nat) W' = [heard] /\
    beliefs 0 (s2p "hello", 1%nat) two_world = [] /\
    @has_value PyEx (b_scope st5) (nm "tell") (atom (s2p "tell"))) /\
  (exists g st' W',
    @resume PyEx FrontEx 20 0 0 (GQ (send_hello (nm "carol"))) (st5, two_world) = (Ok (Some g), (st', W')) /\
    beliefs 0 (s2p "hello", 1%nat) W' = [] /\ beliefs 1 (s2p "hello", 1%nat) W' = [heard]) /\
  @resume PyEx FrontEx 20 0 0 (GQ (send_hello (plist [nm "carol"; nm "dave"]))) (st5, two_world) = (Err EKey, (st5, two_world)) /\
  forall c, ~ names_agent two_world (nm "dave") c.
Proof. exact (conj two_world_work (conj two_world_mild (conj hello_sent (conj hello_carol hello_nobody)))). Qed.

(** A message is not delivered atomically: if a receiver cannot handle it, the
    error leaves the earlier receivers with the message. *)
Theorem C28_atomic_refuted : @at_work PyEx FrontEx two_world /\ exists st' W',
  @resume PyEx FrontEx 20 0 0 (GQ (QAct ASend (TLit (s2p ".send") [plist [nm "carol"; nm "bob"]; nm "achieve"; TLit (s2p "h") [TNum (NInt 1)] []] []))) (st5, two_world) = (Err EAsl, (st', W')) /\
  a_ints (get_agent two_world 1) = [] /\ List.length (a_ints (get_agent W' 1)) = 1%nat.
Proof. exact (conj two_world_work half_sent). Qed.
Print Assumptions C28_atomic_refuted.

(** C29.  The receivers of a broadcast are all agents of the environment but the
    sender. *)
Theorem C29_broadcast : forall (PY : Py) (FR : Front) (L : PyLawful PY) n a i f t0 t1 more an st W g st' W',
  at_work W -> mild_world W ->
  resume n a i (GQ (QAct ABroadcast (TLit f (t0 :: t1 :: more) an))) (st, W) = (Ok (Some g), (st', W')) ->
  has_value (b_scope st) t0 (atom (s2p "tell")) ->
  exists b, let rs := filter (fun r => negb (Nat.eqb r a)) (map snd (w_env W)) in
    (rs <> [] -> sent_as (a_name (get_agent W a)) (b_scope st) t1 b) /\ spread b rs W W' /\
    (forall c, a_rules (get_agent W' c) = a_rules (get_agent W c)) /\ (forall c h, plans_of c h W' = plans_of c h W) /\
    (forall c, ~ In c rs -> alone c W W').
Proof. exact @broadcast_tell. Qed.
Print Assumptions C29_broadcast.

Example C29_example : @at_work PyEx FrontEx two_world /\ mild_world two_world /\ exists g st' W',
  @resume PyEx FrontEx 20 0 0 (GQ (QAct ABroadcast (TLit (s2p ".broadcast") [nm "tell"; hello (TVar 3)] []))) (st5, two_world) = (Ok (Some g), (st', W')) /\
  filter (fun r => negb (Nat.eqb r 0)) (map snd (w_env two_world)) = [1%nat] /\
  beliefs 0 (s2p "hello", 1%nat) W' = [] /\ beliefs 1 (s2p "hello", 1%nat) W' = [heard].
Proof. exact (conj two_world_work (conj two_world_mild hello_all)). Qed.

(** C30.  unachieve drops the top of every intention stack whose event has the
    same functor and unifiable arguments, and nothing else: other stacks,
    beliefs, rules, plans and the other agents stay the same. *)
Theorem C30_drops : forall (PY : Py) (FR : Front) n a f args annots ci d st W r st' W', (a < List.length (w_agents W))%nat ->
  call n a TrRem GtAchieve (TLit f args annots) ci d (st, W) = (Ok r, (st', W')) ->
  r = true /\ Forall2 (pruned W f args) (a_ints (get_agent W a)) (a_ints (get_agent W' a)) /\
  calm a W W' /\ waits_aside W W'.
Proof. exact @unachieve_drops. Qed.
Print Assumptions C30_drops.

(** The intention for h(2), on top of the one for g(Z), is dropped by h(_), but
    not by h(3) or g(_). *)
Example C30_example :
  (exists st' W', @call PyEx FrontEx 20 0 TrRem GtAchieve hA 0 false (bst0, waiting_world) = (Ok true, (st', W')) /\
    a_ints (get_agent waiting_world 0) = [[6; 5]]%nat /\ a_ints (get_agent W' 0) = [[5]]%nat) /\
  @handles PyEx waiting_world (s2p "h") [TVar 90] 6 /\ @spares PyEx waiting_world (s2p "g") [TVar 90] 6 /\
  @spares PyEx waiting_world (s2p "h") [TNum (NInt 3)] 6.
Proof. exact (conj drops_top drops_5). Qed.

(** An intention for the goal that waits for a subgoal is not dropped. *)
Theorem C30_nested_refuted : @reach PyEx FrontEx waiting_world /\ exists st' W',
  @call PyEx FrontEx 20 0 TrRem GtAchieve gA 0 false (bst0, waiting_world) = (Ok true, (st', W')) /\
  @handles PyEx waiting_world (s2p "g") [TVar 90] 5 /\ a_ints (get_agent W' 0) = [[6; 5]]%nat.
Proof. exact (conj waiting_world_reach drops_not_nested). Qed.
Print Assumptions C30_nested_refuted.

(** If a subgoal is dropped, the intention that waits for it continues as if the
    subgoal had been achieved. *)
Theorem C30_continues_refuted : beliefs 0 (s2p "done", 1%nat) dropped_world = [] /\
  beliefs 0 (s2p "seen", 1%nat) (steps 6 20 0 dropped_world) = [] /\
  beliefs 0 (s2p "done", 1%nat) (steps 6 20 0 dropped_world) = [TLit (s2p "done") [TNum (NInt 2)] []].
Proof. exact drops_go_on. Qed.
Print Assumptions C30_continues_refuted.

(** Dropping an intention may leave an empty stack, and then goals that are not
    delayed (like those sent by other agents) raise an IndexError. *)
Theorem C30_accepts_refuted : @reach PyEx FrontEx empty_world /\
  a_ints (get_agent goal_world 0) <> [] /\
  fst (@outside_call PyEx FrontEx 20 0 TrAdd GtAchieve gA false goal_world) = Ok true /\
  fst (@outside_call PyEx FrontEx 20 0 TrRem GtAchieve gA false goal_world) = Ok true /\
  fst (@outside_call PyEx FrontEx 20 0 TrAdd GtAchieve gA false empty_world) = Err EIndex.
Proof. exact (conj empty_world_reach no_more_goals). Qed.
Print Assumptions C30_accepts_refuted.

(** C38.  untellHow "@l" removes the plans labelled l and keeps the others, in
    order; nothing else changes.  Other agents keep their plans unless they share
    them (copies made by build_agents). *)
Theorem C38_untell : forall (PY : Py) (FR : Front) n a f s more annots ci d st W r st' W',
  call n a TrRem GtTellHow (TLit f (TStr s :: more) annots) ci d (st, W) = (Ok r, (st', W')) ->
  r = true /\ (forall h, plans_of a h W' = filter (fun p => negb (labelled s p)) (plans_of a h W)) /\
  (forall b g, beliefs b g W' = beliefs b g W) /\ (forall b, a_rules (get_agent W' b) = a_rules (get_agent W b)) /\
  (forall b, a_ints (get_agent W' b) = a_ints (get_agent W b)) /\ waits_aside W W' /\
  (own W -> forall b h, b <> a -> plans_of b h W' = plans_of b h W).
Proof. exact @untell_removes. Qed.
Print Assumptions C38_untell.

Theorem C38_own : forall (PY : Py) (FR : Front) W, single W -> own W.
Proof. exact @single_own. Qed.
Print Assumptions C38_own.

Example C38_example : exists st' W' p1 p2 p3 p4,
  @call PyEx FrontEx 20 0 TrRem GtTellHow (TLit (s2p "plain_text") [TStr (s2p "@l1")] []) 0 false (bst0, labels_world) = (Ok true, (st', W')) /\
  plans_of 0 (TrAdd, GtAchieve, (s2p "g", 0%nat)) labels_world = [p1; p2; p3] /\ plans_of 0 (TrAdd, GtAchieve, (s2p "h", 0%nat)) labels_world = [p4] /\
  labelled (s2p "@l1") p1 = true /\ labelled (s2p "@l1") p4 = true /\
  plans_of 0 (TrAdd, GtAchieve, (s2p "g", 0%nat)) W' = [p2; p3] /\ plans_of 0 (TrAdd, GtAchieve, (s2p "h", 0%nat)) W' = [].
Proof. exact forgets. Qed.
