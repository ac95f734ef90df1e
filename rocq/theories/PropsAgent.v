(** C67: the text of a whole program is read back. *)
From Coq Require Import Floats.SpecFloat.
From Verif Require Import Base Num Term Str World Ast Names Quote QuoteSpec Lex LexSpec Parse Fold Program RoundSpec
  GramSpec SrcSpec Engine AgentSpec AgentFold AgentFacts AgentFormed AgentSign AgentUnsign AgentBuild SignRead ExPy ExParse ExAgent ExSign.

(** C67: the text of an agent whose names are names and whose numbers are
    numerals consists of tokens, and these say the agent: its rules, beliefs,
    goals and plans, each with its full stop, none missing, none added, in their
    order. *)
Theorem C67_text : forall (PY : Py) g, readable_agent g -> exists l,
  tokenize 1 (string_source (aagent_str g)) = Ok (map ITok l) /\ forall files file within, program files file within l g.
Proof. exact @agent_reads. Qed.
Print Assumptions C67_text.

(** C67: so the text means what the agent means after validation, and nothing else,
    whatever the name of the file and whatever other files there are. *)
Theorem C67_says : forall (PY : Py) g g' files name, readable_agent g ->
  (says files name (string_source (aagent_str g)) g' <-> validated g g').
Proof. intros PY g g' files name H. split; [exact (agent_says_only g g' files name H)|exact (agent_says g g' files name H)]. Qed.
Print Assumptions C67_says.

(** C67: an agent that was read from a text is read again from its own text, if
    its numbers are numerals and its else branches are not empty. *)
Theorem C67_parsed : forall (PY : Py) files n name lines g,
  (forall path lines', files path = File lines' -> Forall (Forall code_point) lines') -> Forall (Forall code_point) lines ->
  parse_source files n name lines = Ok g -> exact_agent g ->
  forall files' name', exists N, forall m, (N <= m)%nat -> parse_source files' m name' (string_source (aagent_str g)) = Ok g.
Proof.
  exact (fun PY files n name lines g Hf Hl H He =>
    parsed_agent_back files n name lines g H (exact_agent_readable g (source_formed files n name lines g Hf Hl H) He)).
Qed.
Print Assumptions C67_parsed.

(** C67: so building an agent from the text of a program is the same as building
    it from the source: the same new agent in the same state, or the same error. *)
Theorem C67_built : forall (PY : Py) (FR : Front) files n source_name lines g,
  (forall path lines', files path = File lines' -> Forall (Forall code_point) lines') -> Forall (Forall code_point) lines ->
  parse_source files n source_name lines = Ok g -> exact_agent g ->
  forall files', exists N, forall m, (N <= m)%nat -> forall acts name W,
    build_agent files' m acts source_name (string_source (aagent_str g)) name W = build_agent files m acts source_name lines name W.
Proof. exact @built_back. Qed.
Print Assumptions C67_built.

(** C67: programs may also contain negative numbers, which are printed with a
    minus sign, read as negations and folded again: but not as the base of a power
    (a number is no formula anyway). *)
Theorem C67_signed : forall (PY : Py) files n name lines g,
  (forall path lines', files path = File lines' -> Forall (Forall code_point) lines') -> Forall (Forall code_point) lines ->
  parse_source files n name lines = Ok g -> signed_exact_agent g ->
  forall files' name', exists N, forall m, (N <= m)%nat -> parse_source files' m name' (string_source (aagent_str g)) = Ok g.
Proof. exact @signed_parsed_back. Qed.
Print Assumptions C67_signed.
Theorem C67_signed_built : forall (PY : Py) (FR : Front) files n source_name lines g,
  (forall path lines', files path = File lines' -> Forall (Forall code_point) lines') -> Forall (Forall code_point) lines ->
  parse_source files n source_name lines = Ok g -> signed_exact_agent g ->
  forall files', exists N, forall m, (N <= m)%nat -> forall acts name W,
    build_agent files' m acts source_name (string_source (aagent_str g)) name W = build_agent files m acts source_name lines name W.
Proof. exact @signed_built_back. Qed.
Print Assumptions C67_signed_built.
(** Every whole negative number is such a number. *)
Theorem C67_whole : forall (PY : Py) f z, valid_binary prec emax f = true -> flt_int f = Some z -> (z < 0)%Z -> negated (NFlt f).
Proof. exact whole_negated. Qed.
Print Assumptions C67_whole.

(** C67: so two such agents with the same text are the same. *)
Theorem C67_apart : forall (PY : Py) files n name lines files' n' name' lines' g g',
  parse_source files n name lines = Ok g -> parse_source files' n' name' lines' = Ok g' ->
  readable_agent g -> readable_agent g' -> aagent_str g = aagent_str g' -> g = g'.
Proof. exact @agent_apart. Qed.
Print Assumptions C67_apart.

Theorem C67_signed_apart : forall (PY : Py) files n name lines files' n' name' lines' g g',
  parse_source files n name lines = Ok g -> parse_source files' n' name' lines' = Ok g' ->
  signed_agent g -> signed_agent g' -> aagent_str g = aagent_str g' -> g = g'.
Proof. exact @signed_apart. Qed.
Print Assumptions C67_signed_apart.

(** C67: validation changes nothing in an agent that has been validated. *)
Theorem C67_again : forall (PY : Py) g g', validated g g' -> validated g' g'.
Proof. exact @validated_settles. Qed.
Print Assumptions C67_again.

(** Without the provisos it is false.  (-2) ** Y is folded to the power of a
    negative number, whose text -2 ** Y is read as -(2 ** Y). *)
Theorem C67_power_refuted : forall PY : Py, exists g g', read_program PY power_text = Ok g /\
  read_program PY (aagent_str g) = Ok g' /\ g <> g'.
Proof. exact power_changes. Qed.
Print Assumptions C67_power_refuted.
(** An empty else branch is lost. *)
Theorem C67_else_refuted : forall PY : Py, exists g g', read_program PY else_program = Ok g /\
  read_program PY (aagent_str g) = Ok g' /\ g <> g'.
Proof. exact else_changes. Qed.
Print Assumptions C67_else_refuted.

(** The agent of ExAgent.agent_text meets the hypotheses. *)
Example C67_case : exists g, agent_tree = Ok g /\ Forall (Forall code_point) agent_text /\ @exact_agent PyEx g /\
  (List.length (ag_rules g), List.length (ag_beliefs g), List.length (ag_goals g), List.length (ag_plans g)) = (2, 2, 2, 2)%nat.
Proof. exact agent_case. Qed.
(** Sections are separated by an empty line. *)
Example C67_lines : exists g, agent_tree = Ok g /\ List.length (string_source (@aagent_str PyEx g)) = 19%nat.
Proof. exact agent_lines. Qed.
(** The agent of ExSign.sign_text contains negative numbers. *)
Example C67_signed_case : exists g, sign_tree = Ok g /\ Forall (Forall code_point) sign_text /\ @signed_exact_agent PyEx g /\ ~ @exact_agent PyEx g.
Proof. exact sign_case. Qed.
