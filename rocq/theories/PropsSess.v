(** C66: a session at the prompt.  Specification: SessSpec.v, with ReplSpec.v (what is
    typed), ScopeSpec.v (variables by name), FlowSpec.v (bodies), SchedSpec.v (running). *)
From Verif Require Import Base Num Term Unify Str World Engine Step Ast Names Build QuerySpec Reach ReachFacts Lex Parse Program Front InstSpec FlowSpec ScopeSpec SchedSpec Repl ReplSpec ReplFacts ReplExec SessSpec SessFacts SessInv ExHow.
From Coq Require Import String Ascii.
Local Open Scope string_scope.

(** The statements that are typed are executed in their order, with one intention
    that is new at the beginning. *)
Theorem C66_session : forall (PY : Py) (FR : Front) acts k n a lines T bs rest W x',
  typed 0 lines T -> statements T bs rest -> unfinished rest ->
  executes (exec_statement acts k n a (List.length (w_ints W))) bs (mksession (set_ints W (w_ints W ++ [int0])) [] []) x' ->
  exists N, forall m, (N <= m)%nat -> session_run acts k n m a lines W = (Ok rest, x').
Proof. intros PY FR acts k n a lines T bs rest W x'. exact (repl_session (exec_statement acts k n a (List.length (w_ints W))) lines T bs rest _ x'). Qed.
Print Assumptions C66_session.

(** A statement: a name that has been typed before is the same variable, a new name
    is a new variable.  The body is run from its beginning in the scope that the
    statements before have left, until the agent has nothing to do, and then the
    variables are shown. *)
Theorem C66_statement : forall (PY : Py), PyLawful PY -> forall (FR : Front) acts k n a i b x x',
  exec_statement acts k n a i b x = (Ok tt, x') -> sound x ->
  (i < List.length (w_ints (s_world x)))%nat -> (a < List.length (w_agents (s_world x)))%nat ->
  exists k' l W1 ds lines, more_names x x' /\ fresh_names 0 k' (names_of x') /\ order acts 0 k' (names_of x') b l /\
    started a i l k' (s_world x) W1 /\ runs1 n a W1 ds (s_world x') /\
    shown (fun y => assoc pystr_eqb y (s_vars x')) (b_scope (i_bst (get_int (s_world x') i))) lines /\ s_out x' = (s_out x ++ lines)%list.
Proof. intros PY L FR. exact (@statement_runs PY L FR). Qed.
Print Assumptions C66_statement.

(** If it raises an exception, the names stay, nothing is shown, and either nothing
    was executed or the exception was raised while running. *)
Theorem C66_failure : forall (PY : Py), PyLawful PY -> forall (FR : Front) acts k n a i b x e x',
  exec_statement acts k n a i b x = (Err e, x') -> sound x ->
  (i < List.length (w_ints (s_world x)))%nat -> (a < List.length (w_agents (s_world x)))%nat ->
  exists k', more_names x x' /\ fresh_names 0 k' (names_of x') /\ s_out x' = s_out x /\
    (s_world x' = set_nv (s_world x) k' \/
     exists l W1, order acts 0 k' (names_of x') b l /\ started a i l k' (s_world x) W1 /\
       (run_agent k n a W1 = (Err e, s_world x') \/ e = EDiverge /\ exists ds, run_agent k n a W1 = (Ok ds, s_world x'))).
Proof. intros PY L FR. exact (@statement_fails PY L FR). Qed.
Print Assumptions C66_failure.

(** Names stay apart from statement to statement, if identities are not used again. *)
Theorem C66_names : forall (PY : Py) (FR : Front) acts k n a i b x r x', exec_statement acts k n a i b x = (r, x') -> sound x ->
  exists k', more_names x x' /\ NoDup (map fst (s_vars x')) /\ fresh_names 0 k' (names_of x') /\ (w_nv (s_world x) <= k')%N /\
    ((k' <= w_nv (s_world x'))%N -> sound x').
Proof. exact @statement_names. Qed.
Print Assumptions C66_names.
Theorem C66_first : forall W out, sound (mksession W [] out).
Proof.
  intros W out. constructor; [split; [discriminate|]|discriminate|constructor]. intros x y i E. discriminate.
Qed.
Print Assumptions C66_first.

(** In every state of a session the names are sound and the session's intention and
    agent exist: the hypotheses of C66_statement and C66_failure hold for every
    statement of every session, whatever the statements before did. *)
Theorem C66_states : forall (PY : Py) (FR : Front), fresh_texts -> forall acts k n a i x, session_state acts k n a i x ->
  sound x /\ (i < List.length (w_ints (s_world x)))%nat /\ (a < List.length (w_agents (s_world x)))%nat.
Proof. intros PY FR U acts k n a i x H. destruct (state_going U _ _ _ _ _ _ H) as (S & _ & Ha & Hi). auto. Qed.
Print Assumptions C66_states.
(** Whatever is typed, the session is in such a state. *)
Theorem C66_any : forall (PY : Py) (FR : Front) acts k n m a input W r x', reach W -> (a < List.length (w_agents W))%nat ->
  session_run acts k n m a input W = (r, x') -> session_state acts k n a (List.length (w_ints W)) x'.
Proof. exact @session_states. Qed.
Print Assumptions C66_any.
(** Texts that are parsed by the library give new variables. *)
Theorem C66_texts : forall (PY : Py) n, @fresh_texts (FrontText n).
Proof. exact @text_fresh. Qed.
Print Assumptions C66_texts.
(** Two names of a session never become the same variable. *)
Theorem C66_apart : forall (PY : Py) (FR : Front), fresh_texts -> forall acts k n a i x y z v, session_state acts k n a i x ->
  names_of x y = Some v -> names_of x z = Some v -> y = z.
Proof.
  intros PY FR U acts k n a i x y z v H Ey Ez. destruct (state_going U _ _ _ _ _ _ H) as ([[_ F] _ _] & _). eapply F; eassumption.
Qed.
Print Assumptions C66_apart.

(** What is shown. *)
Theorem C66_shown : forall (PY : Py) vars s lines, NoDup (map fst vars) -> dump_variables vars s = Ok lines -> shown (fun x => assoc pystr_eqb x vars) s lines.
Proof. exact @dump_shown. Qed.
Print Assumptions C66_shown.

(** Not every statement is executed.  After a statement that waits for an event, the
    statements that are typed are not (finding 31): nothing happens to the agent, and it
    stays so. *)
Theorem C66_waiting : forall (PY : Py), PyLawful PY -> forall (FR : Front) acts k n a i b x r x' w,
  exec_statement acts (S k) n a i b x = (r, x') -> sound x ->
  (i < List.length (w_ints (s_world x)))%nat -> (a < List.length (w_agents (s_world x)))%nat ->
  at_rest (s_world x) a -> i_wait (get_int (s_world x) i) = Some w -> wt_until w = None ->
  exists k', s_world x' = set_nv (s_world x) k' \/
    exists l W1, started a i l k' (s_world x) W1 /\ nothing_done W1 (s_world x') /\ at_rest (s_world x') a /\ i_wait (get_int (s_world x') i) = Some w.
Proof. intros PY L FR. exact (@waiting_idle PY L FR). Qed.
Print Assumptions C66_waiting.

(** A session: the program, the lines typed; what is kept, what is shown, what is printed. *)
Definition prompt (prog lines : list string) : option (nat * list string * list string) :=
  let text (l : pystr) := string_of_list_ascii (map ascii_of_N l) in
  match @build_agent PyHow (fun _ => NoFile) FrontHow 60 stdlib_actions (s2p "a") (map s2p prog) None world0 with
  | (Ok a, W) =>
      match @session_run PyHow FrontHow stdlib_actions 400 60 60 a (map s2p lines) W with
      | (Ok ts, x) => Some (List.length ts, map text (s_out x), map (fun p => text (snd p)) (rev (w_out (s_world x))))
      | _ => None
      end
  | _ => None
  end.
(** X keeps its value from one statement to the next. *)
Example C66_case : prompt ["p(7)."] ["?p(X)."; ".print(X); Z = a; ?p(Y)"; "; p(_). "; "!q(_"] = Some (4%nat, ["X = 7"; "X = 7"; "Y = 7"; "Z = a"; "1 unbound: _ = _"], ["7"]).
Proof. vm_compute. reflexivity. Qed.
(** A goal without plan is reported, and the session goes on... *)
Example C66_error_case : prompt ["+!g <- !h."] ["!h."; ".print(1)."] = Some (0%nat, [], ["1"]).
Proof. vm_compute. reflexivity. Qed.
(** ... but if it is a subgoal of a goal that was typed, the failing plan stays in front,
    and is tried again instead of every later statement (finding 32). *)
Theorem C66_stuck_refuted :
  ~ (forall prog lines, prompt prog [".print(1)."] = Some (0%nat, [], ["1"]) ->
       exists shown printed, prompt prog (lines ++ [".print(1)."]) = Some (0%nat, shown, printed ++ ["1"])%list).
Proof.
  intro H. destruct (H ["+!g <- !h."] ["!g."]) as (shown & printed & E); [vm_compute; reflexivity|].
  assert (X : prompt ["+!g <- !h."] ["!g."; ".print(1)."] = Some (0%nat, [], [])) by (vm_compute; reflexivity).
  cbn [app] in E. rewrite X in E. injection E as _ E. exact (app_cons_not_nil _ _ _ E).
Qed.
Print Assumptions C66_stuck_refuted.
(** A belief that is waited for at the prompt cannot be added at the prompt. *)
Theorem C66_wait_refuted : prompt ["p(1)."] [".wait(""+q"")."; "+q."; ".print(1)."] = Some (0%nat, [], []) /\ prompt ["p(1)."] ["+q."; ".print(1)."] = Some (0%nat, [], ["1"]).
Proof. split; vm_compute; reflexivity. Qed.
Print Assumptions C66_wait_refuted.
(** The hypotheses of C66_statement: ?p(X) with an empty session. *)
Example C66_statement_case : exists W x', let x := mksession W [] [] in
  @exec_statement PyHow FrontHow stdlib_actions 100 60 0 (List.length (w_ints W) - 1) [FForm FtTest (ALit (s2p "p") [AVar (s2p "X")] [])] x = (Ok tt, x') /\
  sound x /\ (List.length (w_ints W) - 1 < List.length (w_ints W))%nat /\ (0 < List.length (w_agents W))%nat /\ List.length (s_out x') = 1%nat.
Proof.
  exists (snd (new_int (snd (@build_agent PyHow (fun _ => NoFile) FrontHow 60 stdlib_actions (s2p "a") [s2p "p(7)."] None world0))))%string.
  eexists. cbv zeta. split; [vm_compute; reflexivity|]. split; [apply C66_first|]. split; [vm_compute; repeat constructor|].
  split; [vm_compute; repeat constructor|vm_compute; reflexivity].
Qed.
(** The hypotheses of C66_states and C66_apart: a session after two statements. *)
Example C66_states_case : exists i x, @session_state PyHow FrontHow stdlib_actions 100 60 0 i x /\ @fresh_texts FrontHow /\
  List.length (s_vars x) = 2%nat.
Proof.
  set (W := amy_ben two_plans). set (said (v : string) := [FForm FtTerm (ALit (s2p ".print") [AVar (s2p v)] [])]).
  set (x0 := mksession (set_ints W (w_ints W ++ [int0])) [] []).
  destruct (@exec_statement PyHow FrontHow stdlib_actions 100 60 0 (List.length (w_ints W)) (said "X") x0) as [r1 x1] eqn:E1.
  destruct (@exec_statement PyHow FrontHow stdlib_actions 100 60 0 (List.length (w_ints W)) (said "Y") x1) as [r2 x2] eqn:E2.
  exists (List.length (w_ints W)), x2. split; [|split].
  - eapply ss_next; [|exact E2]. eapply ss_next; [|exact E1]. apply ss_begin; [|vm_compute; repeat constructor|reflexivity].
    apply single_reach, amy_ben_single.
  - apply C66_texts.
  - assert (X : List.length (s_vars (snd (@exec_statement PyHow FrontHow stdlib_actions 100 60 0 (List.length (w_ints W)) (said "Y")
      (snd (@exec_statement PyHow FrontHow stdlib_actions 100 60 0 (List.length (w_ints W)) (said "X") x0))))) = 2%nat) by (vm_compute; reflexivity).
    rewrite E1 in X. cbn [snd] in X. rewrite E2 in X. exact X.
Qed.
