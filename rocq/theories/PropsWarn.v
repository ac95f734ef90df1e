(** C65: what is reported as suspicious while a program is read and built.
    Specification: WarnSpec.v. *)
From Verif Require Import Base Num Term Str World Engine Ast Names Quote Lex Parse Fold Program Build GramSpec SrcSpec WarnSpec WarnFacts WarnComp WarnBuild ExHow.
Local Open Scope string_scope.

(** If a program is read without errors, the number of warnings is that of the suspicious
    places, and nothing else is counted. *)
Theorem C65_program : forall (PY : Py) files n name lines items lg g s, tokenize 1 lines = Ok items ->
  parse_program files n name [] false (mkpst items lg true) = (Ok g, s) -> lg_errors (p_log s) = lg_errors lg ->
  exists l h i j, items = map ITok l /\ program_reports files name [normpath name] false l h i /\ validated h g /\ agent_reports g j /\
    lg_warnings (p_log s) = (lg_warnings lg + i + j)%nat.
Proof. exact @source_reports. Qed.
Print Assumptions C65_program.
(** The program that is reported about is the one that is read (C53). *)
Theorem C65_same : forall (PY : Py) files file within after l h i, program_reports files file within after l h i -> program files file within l h.
Proof. exact @reports_program. Qed.
Print Assumptions C65_same.
(** Conversely, a program with suspicious places is read with that number of warnings... *)
Theorem C65_all : forall (PY : Py) files name lines l h g i j lg, tokenize 1 lines = Ok (map ITok l) ->
  program_reports files name [normpath name] false l h i -> validated h g -> agent_reports g j ->
  exists N, forall n, (N <= n)%nat -> exists s,
    parse_program files n name [] false (mkpst (map ITok l) lg true) = (Ok g, s) /\ lg_errors (p_log s) = lg_errors lg /\
    lg_warnings (p_log s) = (lg_warnings lg + i + j)%nat.
Proof. exact @reports_source. Qed.
Print Assumptions C65_all.
(** ... so that the number is determined by the text. *)
Theorem C65_one : forall (PY : Py) files name lines l h h' g g' i i' j j', tokenize 1 lines = Ok (map ITok l) ->
  program_reports files name [normpath name] false l h i -> validated h g -> agent_reports g j ->
  program_reports files name [normpath name] false l h' i' -> validated h' g' -> agent_reports g' j' -> g = g' /\ (i + j = i' + j')%nat.
Proof. exact @reports_one. Qed.
Print Assumptions C65_one.
(** Validation alone, also if there are errors. *)
Theorem C65_validation : forall (PY : Py) g s g' s', validate g s = (Ok g', s') ->
  exists n, agent_reports g' n /\ lg_warnings (p_log s') = (lg_warnings (p_log s) + n)%nat.
Proof. exact @validate_reports. Qed.
Print Assumptions C65_validation.
(** Conditions: unknown actions. *)
Theorem C65_condition : forall (PY : Py) acts t s q s', build_query acts t s = (Ok q, s') ->
  exists n, unknown_actions acts t n /\ lg_warnings (v_log s') = (lg_warnings (v_log s) + n)%nat.
Proof. exact @query_reports. Qed.
Print Assumptions C65_condition.

(** Rules, plans, and initial beliefs and goals of an agent that is built: unknown
    actions in conditions and bodies, and nothing else. *)
Theorem C65_rules : forall (PY : Py) acts a rs l W l' W', wfor (install_rule acts a) rs l W = (Ok tt, l', W') ->
  exists n, total (rule_unknown acts) rs n /\ lg_warnings l' = (lg_warnings l + n)%nat.
Proof. exact @rules_report. Qed.
Print Assumptions C65_rules.
Theorem C65_plans : forall (PY : Py) acts a ps l W l' W', wfor (install_plan acts a) ps l W = (Ok tt, l', W') ->
  exists n, total (plan_unknown acts) ps n /\ lg_warnings l' = (lg_warnings l + n)%nat.
Proof. exact @plans_report. Qed.
Print Assumptions C65_plans.
Theorem C65_events : forall (PY : Py) (FR : Front) n a gt ts l W l' W', wfor (install_event n a gt) ts l W = (Ok tt, l', W') ->
  lg_warnings l' = lg_warnings l.
Proof. exact @events_report. Qed.
Print Assumptions C65_events.

(** Errors and warnings of a program. *)
Definition warned (files : pystr -> file) (lines : list String.string) : option (nat * nat) :=
  match tokenize 1 (map s2p lines) with
  | Ok items => match @parse_program PyHow files 100 (s2p "a.asl") [] false (mkpst items (log_new (Some 3%nat)) true) with
    | (Ok _, s) => Some (lg_errors (p_log s), lg_warnings (p_log s))
    | _ => None
    end
  | Err _ => None
  end.
(** A belief with a variable, an operator in a label, a plan for the removal of a
    goal, and a belief after plans that looks like an action. *)
Example C65_case : warned (fun _ => NoFile)
  ["p(X). q(1). r(X) :- q(X)."; "@l(X + 1) +!g <- .print(1)."; "-!g <- .print(2)."; "-b <- .print(3)."; ".print(3)."] = Some (0, 5)%nat.
Proof. vm_compute. reflexivity. Qed.
(** The belief of the block is reported about twice, and the block too. *)
Example C65_twice : warned (fun _ => NoFile) ["{ begin x }"; "p(X)."; "{ end }"; "q(1)."] = Some (0, 3)%nat.
Proof. vm_compute. reflexivity. Qed.
Example C65_condition_case : exists q s', build_query (PY := PyHow) stdlib_actions
   (ABin BAnd (ALit (s2p ".nope") [] []) (ABin BOr (ALit (s2p "p") [] []) (AUn UNot (ALit (s2p ".atan") [] [])))) (mkbs [] 0 (log_new None)) = (Ok q, s') /\
  lg_warnings (v_log s') = 2%nat.
Proof. eexists _, _. vm_compute. split; reflexivity. Qed.
(** +!g : .nope <- .no; +.no; if (.atan) { .no } else { .print(1) }: the belief is not looked up as an action. *)
Example C65_plans_case : exists l' W', wfor (install_plan (PY := PyHow) stdlib_actions 0)
   [mkaplan None (mkaevent TrAdd GtAchieve (mkalit (s2p "g") [] [])) (Some (ALit (s2p ".nope") [] []))
     (Some [FForm FtTerm (ALit (s2p ".no") [] []); FForm FtAdd (ALit (s2p ".no") [] []);
       FIf (ALit (s2p ".atan") [] []) [FForm FtTerm (ALit (s2p ".no") [] [])] (Some [FForm FtTerm (ALit (s2p ".print") [ANum (NInt 1)] [])])])]
   (log_new None) (set_agents world0 [empty_agent (s2p "a")]) = (Ok tt, l', W') /\ lg_warnings l' = 4%nat.
Proof. eexists _, _. vm_compute. split; reflexivity. Qed.
