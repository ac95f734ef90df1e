{
 "claims": [
  {
   "property": "C01",
   "status": "proved",
   "theorems": [
    "C01_unify_mgu",
    "C01_unify_mgu_infinite",
    "C01_chain_ok_reachable"
   ],
   "note": "Finite and infinite trees. Wildcards and NaN excluded; arithmetic subterms must have a value in the starting scope."
  },
  {
   "property": "C02",
   "status": "proved",
   "theorems": [
    "C02_unify_terminates",
    "C02_cyclic_refuted"
   ],
   "note": "Termination for every solvable equation; the refuted theorem shows why solvability is needed."
  },
  {
   "property": "C03",
   "status": "proved",
   "theorems": [
    "C03_bindings_kept"
   ],
   "note": "All terms, all outcomes."
  },
  {
   "property": "C04",
   "status": "proved",
   "theorems": [
    "C04_rollback_exact"
   ],
   "note": "All histories of unify, unify_annotated, pushes and nested rollbacks."
  },
  {
   "property": "C05",
   "status": "proved",
   "theorems": [
    "C05_unify_symmetric",
    "C05_both_answer"
   ],
   "note": "If both orders answer, they agree; if one answers True with a finite solution, so does the other."
  },
  {
   "property": "C06",
   "status": "proved",
   "theorems": [
    "C06_freeze_copy",
    "C06_freeze_total"
   ],
   "note": "All terms, scopes, hash orders."
  },
  {
   "property": "C07",
   "status": "proved",
   "theorems": [
    "C07_grounded_instance",
    "C07_grounded_iff",
    "C07_is_ground_agrees"
   ],
   "note": "All terms and scopes."
  },
  {
   "property": "C08",
   "status": "proved",
   "theorems": [
    "C08_back_unification",
    "C08_back_unification_value",
    "C08_nan_refuted"
   ],
   "note": "For every goal whose expressions can be evaluated, every acyclic caller scope and every callee scope, unless the result contains NaN; refuted with NaN. The value part is for terms without wildcards."
  },
  {
   "property": "C09",
   "status": "proved",
   "theorems": [
    "C09_annotations_sound",
    "C09_annotations_flat",
    "C09_greedy_refuted"
   ],
   "note": "Soundness in general, exactness for variable-free annotations; matching with variables is greedy (refuted theorem)."
  },
  {
   "property": "C10",
   "status": "proved",
   "theorems": [
    "C10_resume_exact",
    "C10_no_solution_exact",
    "C10_variable_refuted",
    "C10_variable_unwinds"
   ],
   "note": "Refuted for a literal on the left and an unbound variable on the right; C10_variable_unwinds says what happens there."
  },
  {
   "property": "C11",
   "status": "proved",
   "theorems": [
    "C11_search_enumerates",
    "C11_fuel_irrelevant",
    "C11_action_refuted",
    "C11_no_condition"
   ],
   "note": "All queries over beliefs, rules, =, comparisons, &, |, not and the actions of the standard library that do not change the world; a literal on the left of = must not meet a bare variable on the right (C10), and an action that binds its result without a choicepoint may not stand on the left of | (refuted otherwise)."
  },
  {
   "property": "C12",
   "status": "proved",
   "theorems": [
    "C12_exhausted_restores",
    "C12_not_binds_nothing",
    "C12_action_refuted"
   ],
   "note": "Refuted for actions that bind their result without a choicepoint."
  },
  {
   "property": "C13",
   "status": "proved",
   "theorems": [
    "C13_sound",
    "C13_complete",
    "C13_complete_infinite"
   ],
   "note": "consequence is defined by derivability over finite and infinite trees, without scopes or search; includes that every solution stands for at least one (possibly infinite) assignment"
  },
  {
   "property": "C14",
   "status": "proved",
   "theorems": [
    "C14_belief_base"
   ],
   "note": "For every reachable state of a system."
  },
  {
   "property": "C15",
   "status": "proved",
   "theorems": [
    "C15_addition",
    "C15_added_found",
    "C15_bool_refuted",
    "C15_annotations_refuted"
   ],
   "note": "Holds if Python's equality and matching agree on the stored beliefs (no true/1 confusion, no collapsing annotations, no NaN); refuted otherwise with reachable states."
  },
  {
   "property": "C16",
   "status": "proved",
   "theorems": [
    "C16_removal",
    "C16_bindings",
    "C16_no_match",
    "C16_plan_continues",
    "C16_ends"
   ],
   "note": "The meaning of a match is spelled out for literals without annotations; with annotations see C09."
  },
  {
   "property": "C17",
   "status": "proved",
   "theorems": [
    "C17_abolish",
    "C17_annotated_kept_refuted",
    "C17_bare_removed_refuted"
   ],
   "note": "All and only the matching beliefs if no annotations are involved; refuted for annotated beliefs or patterns, because the code swaps the arguments of the match."
  },
  {
   "property": "C18",
   "status": "proved",
   "theorems": [
    "C18_first_applicable",
    "C18_none_applicable",
    "C18_event_runs_plan"
   ],
   "note": "for contexts and rule bodies whose actions leave the belief base alone (proper queries)"
  },
  {
   "property": "C19",
   "status": "proved",
   "theorems": [
    "C19_no_plan",
    "C19_test_goal",
    "C19_context_error"
   ],
   "note": "same restriction on contexts"
  },
  {
   "property": "C20",
   "status": "proved",
   "theorems": [
    "C20_on_top_of_caller",
    "C20_on_new_stack",
    "C20_beneath_waits",
    "C20_results",
    "C20_outside",
    "C18_event_runs_plan"
   ],
   "note": ""
  },
  {
   "property": "C21",
   "status": "proved",
   "theorems": [
    "C21_step",
    "C21_tidy"
   ],
   "note": ""
  },
  {
   "property": "C22",
   "status": "proved",
   "theorems": [
    "C22_wait",
    "C22_waiting",
    "C22_runs",
    "C18_event_runs_plan",
    "C19_no_plan"
   ],
   "note": "waking by events is the conjunct wakened/only_wakens of C18_event_runs_plan and C19_no_plan"
  },
  {
   "property": "C23",
   "status": "proved",
   "theorems": [
    "C23_compiled",
    "C23_instruction",
    "C23_end",
    "C23_balanced",
    "C23_stacks"
   ],
   "note": "compile = structured small-step semantics (FlowSpec.first); invariant over all reachable states"
  },
  {
   "property": "C24",
   "status": "proved",
   "theorems": [
    "C24_run",
    "C24_rest",
    "C24_idle",
    "C24_run_agent",
    "C24_agent_run",
    "C24_zero_refuted"
   ],
   "note": ""
  },
  {
   "property": "C25",
   "status": "proved",
   "theorems": [
    "C25_possible",
    "C24_rest",
    "C24_run",
    "C25_refuted"
   ],
   "note": "C25_refuted: run raises ValueError if the deadline passes between polling and sleeping."
  },
  {
   "property": "C26",
   "status": "proved",
   "theorems": [
    "C26_make_name",
    "C26_unique",
    "C26_registered",
    "C26_not_registered",
    "C26_others",
    "C26_copies",
    "C26_stem"
   ],
   "note": "names stay unique in every reachable state; build_agent registers exactly one new agent under a free name and keeps all others"
  },
  {
   "property": "C27",
   "status": "proved",
   "theorems": [
    "C27_add",
    "C27_remove",
    "C27_abolish",
    "C27_event",
    "C27_copies_refuted"
   ],
   "note": "proved for agents built with build_agent; refuted for agents built by build_agents, which share belief sets and plan lists"
  },
  {
   "property": "C28",
   "status": "proved",
   "theorems": [
    "C28_tell",
    "C28_unknown",
    "C28_atomic_refuted"
   ],
   "note": "For rules and plan contexts without .send, .broadcast and .abolish; sender is any agent at any reachable point where an instruction runs (without build_agents copies). C28_atomic_refuted: an error in one receiver leaves earlier receivers with the message."
  },
  {
   "property": "C29",
   "status": "proved",
   "theorems": [
    "C29_broadcast"
   ],
   "note": "Same conditions as C28."
  },
  {
   "property": "C30",
   "status": "proved",
   "theorems": [
    "C30_drops",
    "C30_nested_refuted",
    "C30_continues_refuted",
    "C30_accepts_refuted"
   ],
   "note": "The refuted theorems show three stronger readings that the code does not meet."
  },
  {
   "property": "C31",
   "status": "proved",
   "theorems": [
    "C31_round_trip",
    "C31_token",
    "C31_token_read",
    "C31_escapes",
    "C31_plain",
    "C31_plain_refuted",
    "C31_unquoted"
   ],
   "note": "The claim that every escape-free literal denotes its own characters holds for ASCII only; the refutation is proved. \\N{...} escapes are outside the model."
  },
  {
   "property": "C32",
   "status": "proved",
   "theorems": [
    "C32_total",
    "C32_cut",
    "C32_columns",
    "C32_order",
    "C32_keywords",
    "C32_classes",
    "C32_words"
   ],
   "note": "The grammar LexSpec.cut_lines is deterministic and equivalent to the lexer. Digits are the ASCII digits."
  },
  {
   "property": "C33",
   "status": "proved",
   "theorems": [
    "C33_parsed_term",
    "C33_parsed_event",
    "C33_parsed_plan",
    "C33_term",
    "C33_literal",
    "C33_event",
    "C33_plan",
    "C33_whole",
    "C33_once",
    "C33_else_refuted",
    "C33_inf_refuted"
   ],
   "note": "Round trip for all trees the parser can produce. The printed form of non-whole floats is an oracle (frepr), so that they are numerals is a hypothesis; whole numbers are proved. The two refutations show why the provisos are needed."
  },
  {
   "property": "C34",
   "status": "proved",
   "theorems": [
    "C34_fold",
    "C34_condition",
    "C34_annotations_refuted",
    "C34_or_refuted"
   ],
   "note": "Outcomes of the original other than RecursionError. Conditions: for proper queries, as in C11."
  },
  {
   "property": "C35",
   "status": "proved",
   "theorems": [
    "C35_member",
    "C35_range",
    "C35_substring",
    "C35_findall",
    "C35_findall_open",
    "C35_findall_refuted",
    "C35_count",
    "C12_exhausted_restores",
    "C35_sum",
    "C35_names"
   ],
   "note": "C35_findall also says that it completes, for patterns that are ground in every solution; C35_findall_open covers all patterns."
  },
  {
   "property": "C36",
   "status": "proved",
   "theorems": [
    "C36_lookup",
    "C36_no_overwrite"
   ],
   "note": "All registration histories and parent chains."
  },
  {
   "property": "C37",
   "status": "proved",
   "theorems": [
    "C37_terminates",
    "C37_not_keyword",
    "C37_characters",
    "C37_first",
    "C37_idempotent"
   ],
   "note": "All strings; the character theorem assumes that lower case of non-ASCII letters is alphanumeric."
  },
  {
   "property": "C38",
   "status": "proved",
   "theorems": [
    "C38_untell",
    "C38_own"
   ],
   "note": ""
  },
  {
   "property": "C39",
   "status": "proved",
   "theorems": [
    "C39_copies",
    "C39_all",
    "C39_plain",
    "C39_sent",
    "C39_all_refuted",
    "C39_number_refuted",
    "C39_wildcard_refuted",
    "C39_context_refuted",
    "C39_body_refuted",
    "C39_again_refuted",
    "C39_string_refuted",
    "C39_negation_refuted",
    "C39_kept"
   ],
   "note": "The unconditional statement is false; the refutations are theorems."
  },
  {
   "property": "C40",
   "status": "proved",
   "theorems": [
    "C40_ends",
    "C40_bound",
    "C40_reported",
    "C40_self",
    "C40_refuted"
   ],
   "note": "The unconditional claim is false (C40_refuted); the conditional claim is proved with an explicit bound on the recursion."
  },
  {
   "property": "C41",
   "status": "proved",
   "theorems": [
    "C41_log",
    "C41_build",
    "C41_parse",
    "C41_source",
    "C41_warnings"
   ],
   "note": "Log histories, building from a syntax tree, parsing a source with includes, folding and validation, and building from source."
  },
  {
   "property": "C42",
   "status": "proved",
   "theorems": [
    "C42_ne_not_eq",
    "C42_numbers",
    "C42_nan",
    "C42_strings",
    "C42_atoms",
    "C42_number_order",
    "C42_string_order",
    "C42_equal_values",
    "C42_ordered_values"
   ],
   "note": ""
  },
  {
   "property": "C43",
   "status": "proved",
   "theorems": [
    "C43_equality",
    "C43_equal",
    "C43_unify",
    "C43_both_answer"
   ],
   "note": "If both notations answer, they agree; if one answers True with a finite solution, so does the other."
  },
  {
   "property": "C44",
   "status": "proved",
   "theorems": [
    "C44_program",
    "C44_plans",
    "C44_text",
    "C44_copies"
   ],
   "note": "what raising the initial events does is the subject of C15 and C18-C20"
  },
  {
   "property": "C45",
   "status": "proved",
   "theorems": [
    "C45_max",
    "C45_min",
    "C45_empty",
    "C45_sort",
    "C45_nth",
    "C45_tail",
    "C45_length",
    "C45_not_a_list",
    "C45_floor",
    "C45_ceil",
    "C45_round",
    "C45_round_special",
    "C45_concat_lists",
    "C45_concat_texts",
    "C45_concat_linked_refuted",
    "C45_my_name",
    "C45_clock",
    "C45_unbind_all",
    "C45_fail",
    "C45_marks",
    "C45_raise"
   ],
   "note": "Actions are called by name through the library's table. Linked-list notation is not recognised by .concat: C45_concat_linked_refuted."
  },
  {
   "property": "C46",
   "status": "proved",
   "theorems": [
    "C46_tests",
    "C46_unbound",
    "C46_ground"
   ],
   "note": ""
  },
  {
   "property": "C47",
   "status": "proved",
   "theorems": [
    "C47_print"
   ],
   "note": ""
  },
  {
   "property": "C48",
   "status": "proved",
   "theorems": [
    "C48_time",
    "C48_event",
    "C48_event_or_time",
    "C48_refused",
    "C48_names",
    "C48_text",
    "C48_text_or_time"
   ],
   "note": "In C48_time, C48_event, C48_event_or_time and C48_refused the parser of event texts is a parameter (class Front); C48_text and C48_text_or_time are about the parser itself (FrontText)."
  },
  {
   "property": "C49",
   "status": "proved",
   "theorems": [
    "C49_exact",
    "C49_division",
    "C49_zero",
    "C49_unary",
    "C49_refused",
    "C49_logic"
   ],
   "note": "Operations on binary64 numbers are the standard library's SpecFloat functions."
  },
  {
   "property": "C50",
   "status": "proved",
   "theorems": [
    "C50_told",
    "C50_works",
    "C50_printed",
    "C50_once",
    "C50_only",
    "C50_all",
    "C50_errors",
    "C50_stop"
   ],
   "note": ""
  },
  {
   "property": "C51",
   "status": "proved",
   "theorems": [
    "C51_only",
    "C51_all",
    "C51_one"
   ],
   "note": "Soundness and completeness of the term parser for the token grammar of GramSpec.v, and unambiguity. Enough recursion depth is assumed in C51_all."
  },
  {
   "property": "C52",
   "status": "proved",
   "theorems": [
    "C52_only",
    "C52_literal",
    "C52_formula",
    "C52_plan",
    "C52_clause",
    "C52_goal",
    "C52_one"
   ],
   "note": "The same for literals, body formulas, plans, rules, beliefs and goals."
  },
  {
   "property": "C53",
   "status": "proved",
   "theorems": [
    "C53_only",
    "C53_all",
    "C53_one",
    "C53_validate",
    "C53_belief_refuted"
   ],
   "note": "C53_belief_refuted: an operator that is not folded, or a list with a tail, in a belief raises AttributeError instead of being reported."
  },
  {
   "property": "C54",
   "status": "proved",
   "theorems": [
    "C54_send",
    "C54_sent",
    "C54_other",
    "C54_broadcast",
    "C54_broadcasted",
    "C54_broadcast_other",
    "C54_annotated"
   ],
   "note": "Relative to Agent.call at the receivers, whose effects are the subject of C17-C30."
  },
  {
   "property": "C55",
   "status": "proved",
   "theorems": [
    "C55_function",
    "C55_function_raises",
    "C55_predicate",
    "C55_procedure",
    "C55_misfit",
    "C55_convert",
    "C55_function_found",
    "C55_predicate_found",
    "C55_procedure_found"
   ],
   "note": "For arguments that have a value; a number given as text and a class as declared type are not modelled."
  },
  {
   "property": "C56",
   "status": "proved",
   "theorems": [
    "C56_text",
    "C56_same",
    "C56_ints",
    "C56_whole",
    "C56_fractions",
    "C56_written",
    "C56_printed"
   ],
   "note": "larger integers are read as the nearest float (C56_limit); nan and the infinities are shown as names"
  },
  {
   "property": "C57",
   "status": "proved",
   "theorems": [
    "C57_sums",
    "C57_quotients",
    "C57_too_large",
    "C57_int_quotients",
    "C57_numeral",
    "C57_self",
    "C57_whole"
   ],
   "note": "rounded is specified over the rationals without reference to the computation; the power operator on floats (C's pow) is a parameter of the model and not covered; infinite and NaN operands are not covered; div beyond whole numbers is not exact in Python either (C57_limit)"
  },
  {
   "property": "C58",
   "status": "proved",
   "theorems": [
    "C58_query",
    "C58_beliefs",
    "C58_first",
    "C58_unify",
    "C58_match"
   ],
   "note": "Queries in the sense of QuerySpec.proper (no opaque Python functions; see C11). none_after: the scope binds no variable that has not been created yet."
  },
  {
   "property": "C59",
   "status": "proved",
   "theorems": [
    "C59_refines",
    "C59_plans",
    "C59_attribute_error",
    "C59_same",
    "C59_unparsed",
    "C59_mark_nosidef",
    "C59_side_effect"
   ],
   "note": "The analysis and rewriting of plans is unreachable code, and not modelled."
  },
  {
   "property": "C60",
   "status": "proved",
   "theorems": [
    "C60_session",
    "C60_goes_on",
    "C60_line",
    "C60_illegal"
   ],
   "note": "The execution of one statement is a parameter of the model (any function of the agent's state). Given enough stack; tokens do not span lines."
  },
  {
   "property": "C61",
   "status": "proved",
   "theorems": [
    "C61_kept",
    "C61_plans",
    "C61_run"
   ],
   "note": "specification in KeepSpec.v; C61_case runs two programs given as text, C61_variable shows why +X is excluded"
  },
  {
   "property": "C62",
   "status": "proved",
   "theorems": [
    "C62_place",
    "C62_relative",
    "C62_absolute",
    "C62_same",
    "C62_normal"
   ],
   "note": "posixpath's functions are modelled by their text; specification in PathSpec.v"
  },
  {
   "property": "C63",
   "status": "proved",
   "theorems": [
    "C63_rule",
    "C63_plan",
    "C63_literal",
    "C63_apart",
    "C63_same"
   ],
   "note": "ScopeSpec.v says what a term, condition or formula stands for under a naming of its variables; the theorems give one naming with new numbers per clause. What follows makes of the formulas is C23."
  },
  {
   "property": "C64",
   "status": "proved",
   "theorems": [
    "C64_only",
    "C64_all",
    "C64_one",
    "C64_stop"
   ],
   "note": "The grammar is GramSpec.v; folding of constant expressions is C34; that .wait waits for the event is C48. The parser's recursion bound appears as: from some bound on."
  },
  {
   "property": "C65",
   "status": "proved",
   "theorems": [
    "C65_program",
    "C65_same",
    "C65_validation",
    "C65_condition",
    "C65_rules",
    "C65_plans",
    "C65_events",
    "C65_all",
    "C65_one"
   ],
   "note": "Only the number of warnings is modelled, not their text and position. The warnings of the optimizer are not modelled."
  },
  {
   "property": "C66",
   "status": "proved",
   "theorems": [
    "C66_session",
    "C66_statement",
    "C66_failure",
    "C66_names",
    "C66_first",
    "C66_shown",
    "C66_waiting",
    "C66_stuck_refuted",
    "C66_wait_refuted",
    "C66_states",
    "C66_any",
    "C66_apart",
    "C66_texts"
   ],
   "note": "Specification SessSpec.v. C66_any: whatever is typed, the session is in a state of session_state; C66_states: in all of these the hypotheses of C66_statement and C66_failure hold (the counter of identities never decreases, SessInv.v, with C66_texts for the library's parser)."
  },
  {
   "property": "C67",
   "status": "proved",
   "theorems": [
    "C67_text",
    "C67_says",
    "C67_parsed",
    "C67_apart",
    "C67_again",
    "C67_power_refuted",
    "C67_else_refuted",
    "C67_built",
    "C67_signed",
    "C67_signed_built",
    "C67_whole",
    "C67_signed_apart"
   ],
   "note": "C67_text: the text has the tokens of the clauses. C67_says: it means what the agent means after validation, and nothing else. C67_parsed: parse, print, parse gives the same tree. C67_again: folding is idempotent. The refuted theorems show that the provisos are needed (finding 33). C67_built: the agent built from the printed program is the agent built from the source. C67_signed, C67_signed_built: the same with negative numbers (C67_whole: all whole negative numbers), except as the base of a power (C67_power_refuted)."
  }
 ]
}