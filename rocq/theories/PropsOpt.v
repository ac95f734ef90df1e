(** C59: agentspeak.optimizer.build_agent_optimized.  Specification: OptSpec.v. *)
From Verif Require Import Base Num Term Str World Engine Ast Names Lex Parse Fold Build Program Optimize OptSpec OptFacts ExPy QueryCor.

(** If it builds an agent, [build_agent] would have built the same agent in the
    same environment; the program has no plans. *)
Theorem C59_refines : forall (PY : Py) (FR : Front) files n acts name lines W a W',
  build_agent_optimized files n acts name lines W = (Ok a, W') ->
  build_agent files n acts name lines None W = (Ok a, W') /\
  exists g, parse_source files n name lines = Ok g /\ ag_plans g = [].
Proof. exact @optimized_refines. Qed.
Print Assumptions C59_refines.

(** A program with a plan cannot be built with it: AttributeError, and the
    environment is as before. *)
Theorem C59_plans : forall (PY : Py) (FR : Front) files n acts name lines W g,
  parse_source files n name lines = Ok g -> ag_plans g <> [] ->
  build_agent_optimized files n acts name lines W = (Err EAttr, W).
Proof. exact @optimized_plans. Qed.
Print Assumptions C59_plans.

(** The same holds for lists with a tail; nothing else has that effect. *)
Theorem C59_attribute_error : forall g, optimize g = Err EAttr <-> ag_plans g <> [] \/ linked g \/ missing g.
Proof. exact optimize_attr. Qed.
Print Assumptions C59_attribute_error.

(** Otherwise, unless it contains directives to the optimizer, it is built as
    [build_agent] does it. *)
Theorem C59_same : forall (PY : Py) (FR : Front) files n acts name lines W g,
  parse_source files n name lines = Ok g ->
  ag_plans g = [] -> ~ linked g -> ~ missing g -> (forall f ts an, occurs_in (ALit f ts an) g -> ~ directive f) ->
  build_agent_optimized files n acts name lines W = build_agent files n acts name lines None W.
Proof. exact @optimized_same. Qed.
Print Assumptions C59_same.

(** What cannot be parsed is rejected here too. *)
Theorem C59_unparsed : forall (PY : Py) (FR : Front) files n acts name lines W e,
  parse_source files n name lines = Err e ->
  exists e', build_agent_optimized files n acts name lines W = (Err e', W).
Proof. exact @optimized_unparsed. Qed.
Print Assumptions C59_unparsed.

(** The directives: what they must look like. *)
Theorem C59_mark_nosidef : forall f ts,
  ~ In 46%N f -> ~ linked (one_action f (s2p ".inf_mark_nosidef") ts) -> ~ missing (one_action f (s2p ".inf_mark_nosidef") ts) ->
  (optimize (one_action f (s2p ".inf_mark_nosidef") ts) = Ok (one_action f (s2p ".inf_mark_nosidef") ts) <-> exists s, ts = [AStr s]) /\
  ((~ exists s, ts = [AStr s]) -> optimize (one_action f (s2p ".inf_mark_nosidef") ts) = Err EAggregated).
Proof. exact one_mark. Qed.
Print Assumptions C59_mark_nosidef.
Theorem C59_side_effect : forall f ts,
  ~ In 46%N f -> ~ linked (one_action f (s2p ".inf_side_effect") ts) -> ~ missing (one_action f (s2p ".inf_side_effect") ts) ->
  (optimize (one_action f (s2p ".inf_side_effect") ts) = Ok (one_action f (s2p ".inf_side_effect") ts) <->
   exists af ef rest, ts = AStr af :: AStr ef :: rest /\ In af (map s2p affects) /\ In ef (map s2p effects)).
Proof. exact one_side_effect. Qed.
Print Assumptions C59_side_effect.

(** ** Examples *)
Definition nofile (p : pystr) : file := NoFile.
Definition prog_ok : list pystr := [s2p "p(1). q(X) :- p(X) & .print(X, [2])."].
Definition prog_plan : list pystr := [s2p "p(1). +!a <- .print(1)."].
Definition prog_tail : list pystr := [s2p "q(X) :- p([X|T])."].
Example C59_case :
  (exists g, @parse_source PyEx nofile 40 (s2p "a.asl") prog_ok = Ok g /\ ag_plans g = [] /\ optimize g = Ok g /\
    fst (@build_agent_optimized PyEx FrontEx nofile 40 stdlib_actions (s2p "a.asl") prog_ok world0) = Ok 0%nat) /\
  (exists g, @parse_source PyEx nofile 40 (s2p "a.asl") prog_plan = Ok g /\ ag_plans g <> [] /\
    fst (@build_agent PyEx nofile FrontEx 40 stdlib_actions (s2p "a.asl") prog_plan None world0) = Ok 0%nat) /\
  (exists g, @parse_source PyEx nofile 40 (s2p "a.asl") prog_tail = Ok g /\ linked g).
Proof.
  split; [|split].
  - eexists. split; [vm_compute; reflexivity|]. split; [reflexivity|]. split; vm_compute; reflexivity.
  - eexists. split; [vm_compute; reflexivity|]. split; [discriminate|]. vm_compute; reflexivity.
  - eexists. split; [vm_compute; reflexivity|]. eexists _, _. eexists. split; [cbn; right; left; reflexivity|].
    eapply oc_arg; [left; reflexivity|]. apply oc_here.
Qed.
(** The directive is looked at only if it is the first action of the program. *)
Example C59_case_directive :
  (exists g, @parse_source PyEx nofile 40 (s2p "a.asl") [s2p "q :- .inf_mark_nosidef(1)."] = Ok g /\ optimize g = Err EAggregated) /\
  (exists g, @parse_source PyEx nofile 40 (s2p "a.asl") [s2p "q :- .fail & .inf_mark_nosidef(1)."] = Ok g /\ optimize g = Ok g).
Proof. split; eexists; split; vm_compute; reflexivity. Qed.
