(** C26, C36, C37, C41: agent names, action lookup, functor names, error logs.
    Specification: NamesSpec.v, BuildSpec.v. *)
From Verif Require Import Base Num Term Unify Str World Ast Names Engine Build ExPy.
From Verif Require Import NamesSpec BuildSpec StemSpec NamesFacts BuildFacts StemFacts.

(** C26.  _make_name always returns a name that is not in use; it is the
    sanitised file name if that is free, and otherwise that name followed by the
    first number 1, 2, ... that makes it free. *)
Theorem C26_make_name : forall (PY : Py) path names,
  exists name base stem, make_name path names = Ok name /\ stem_of path stem /\
    match sanitize_functor stem with
    | Ok [] => base = s2p "agent"
    | Ok b => base = b
    | Err _ => False
    end /\
    ~ In name names /\
    (name = base \/
     In base names /\ exists j, (1 <= j)%N /\ name = base ++ dec_N j /\
       forall i, (1 <= i < j)%N -> In (base ++ dec_N i) names).
Proof. exact @make_name_stem. Qed.
Print Assumptions C26_make_name.
Theorem C26_stem : forall path s s', stem_of path s -> stem_of path s' -> s = s'.
Proof. exact stem_unique. Qed.
Print Assumptions C26_stem.

Example C26_third : @make_name PyEx (s2p "/srv/My agent.v2.asl") [s2p "my_agent_v2"; s2p "bob"; s2p "my_agent_v21"]
  = Ok (s2p "my_agent_v22").
Proof. vm_compute. reflexivity. Qed.

(** C36.  After a history of registrations on a new registry, lookup prefers the
    action registered for the exact arity, then the variadic one, then asks the
    parent. *)
Theorem C36_lookup : forall (A : Type) (p : option (actions A)) h t,
  adds (actions_new p) h = Ok t ->
  forall f n, actions_lookup t f n =
    match registered h f (Some n) with
    | Some a => Ok a
    | None =>
        match registered h f None with
        | Some a => Ok a
        | None => match p with Some q => actions_lookup q f n | None => Err EKey end
        end
    end.
Proof. exact @lookup_history. Qed.
Print Assumptions C36_lookup.

(** Registering a signature twice raises AssertionError; nothing else does. *)
Theorem C36_no_overwrite : forall (A : Type) (p : option (actions A)) h,
  ((exists t, adds (actions_new p) h = Ok t) <-> NoDup (map fst h)) /\
  (forall e, adds (actions_new p) h = Err e -> e = EAssert).
Proof. exact @adds_ok. Qed.
Print Assumptions C36_no_overwrite.

Example C36_shadow :
  exists t0 t1, adds (actions_new None) [(s2p ".p", None, 1); (s2p ".p", Some 1, 2); (s2p ".q", Some 0, 3)]%nat = Ok t0 /\
    adds (actions_new (Some t0)) [(s2p ".p", Some 2, 4)]%nat = Ok t1 /\
    map (actions_lookup t1 (s2p ".p")) [0; 1; 2]%nat = [Ok 1; Ok 2; Ok 4]%nat /\
    map (actions_lookup t1 (s2p ".q")) [0; 1]%nat = [Ok 3%nat; Err EKey] /\
    adds t0 [(s2p ".p", None, 5)]%nat = Err EAssert.
Proof. do 2 eexists. split; [reflexivity|]. split; [reflexivity|]. vm_compute. auto. Qed.

(** C37.  sanitize_functor terminates, never returns a keyword, and returns only
    alphanumeric characters and underscores; for ASCII input the first character
    is a digit or a lower case letter. *)
Theorem C37_terminates : forall (PY : Py) s, exists f, sanitize_functor s = Ok f.
Proof. exact @sanitize_total. Qed.
Print Assumptions C37_terminates.

Theorem C37_not_keyword : forall (PY : Py) s f, sanitize_functor s = Ok f -> ~ In f keywords.
Proof. exact @sanitize_not_keyword. Qed.
Print Assumptions C37_not_keyword.

Theorem C37_characters : forall (PY : Py) s f, sanitize_functor s = Ok f -> lower_stays_alnum ->
  Forall (fun c => alnum c = true \/ c = 95%N) f.
Proof. exact @sanitize_chars. Qed.
Print Assumptions C37_characters.

Theorem C37_first : forall (PY : Py) s c f, sanitize_functor s = Ok (c :: f) ->
  Forall (fun d => (d < 128)%N) s -> is_digit c = true \/ is_lower c = true.
Proof. exact @sanitize_first. Qed.
Print Assumptions C37_first.

(** A name that is a functor already is not changed. *)
Theorem C37_idempotent : forall (PY : Py) c s, is_lower c = true ->
  Forall (fun d => alnum d = true \/ d = 95%N) s -> ~ In (c :: s) keywords ->
  sanitize_functor (c :: s) = Ok (c :: s).
Proof. exact @sanitize_id. Qed.
Print Assumptions C37_idempotent.

Example C37_examples :
  map (@sanitize_functor PyEx) [s2p "__While"; s2p "a-b.c"; s2p "3com"; s2p "--"]
  = [Ok (s2p "while_"); Ok (s2p "a_b_c"); Ok (s2p "3com"); Ok []].
Proof. vm_compute. reflexivity. Qed.

(** C41.  In every sequence of log operations: if there was an error, either
    AggregatedError is raised, or throw() raises it; with a maximum of m errors
    the m-th error raises immediately. *)
Theorem C41_log : forall max ops,
  match log_run (log_new max) ops with
  | (Ok _, l) =>
      (log_throw l = Ok tt <-> errors_in ops = 0%nat) /\
      (errors_in ops <> 0%nat -> log_throw l = Err EAggregated) /\
      match max with Some m => errors_in ops = 0%nat \/ (errors_in ops < m)%nat | None => True end
  | (Err e, _) => e = EAggregated /\ (0 < errors_in ops)%nat /\
      exists m, max = Some m /\ (m <= errors_in ops)%nat
  end.
Proof. exact log_outcome. Qed.
Print Assumptions C41_log.

(** Warnings are counted, and raise nothing. *)
Theorem C41_warnings : forall ops l l', log_run l ops = (Ok tt, l') -> lg_warnings l' = (lg_warnings l + warnings_in ops)%nat.
Proof. exact warnings_counted. Qed.
Print Assumptions C41_warnings.

(** If a rule, context or plan body contains something that is not a query where
    a query is expected, no agent is returned. *)
Theorem C41_build : forall (PY : Py) (FR : Front) n acts path g W a W',
  build_agent_from_ast n acts path g W = (Ok a, W') -> good_agent g = true.
Proof. exact @build_ok_good. Qed.
Print Assumptions C41_build.

Example C41_session :
  fst (log_run (log_new (Some 3%nat)) [LError; LWarning; LError]) = Ok tt /\
  fst (log_run (log_new (Some 3%nat)) [LError; LWarning; LError; LError; LError]) = Err EAggregated.
Proof. split; reflexivity. Qed.
