# Formal model of python-agentspeak in Coq

All Coq sources live in `rocq/theories` (logical name `Verif`).  The model is a
shallow, executable Gallina transcription of the Python code, function by
function.  Every definition that models code carries a comment
`(* agentspeak/<file>:<lines> *)`.

## 1. Modelling conventions

* Python exceptions are values: `res A := Ok a | Err exc`.  State changes made
  before an exception are kept (functions return `res A * state`).
* Unbounded Python recursion is modelled by fuel (the recursion limit).  Running
  out of fuel is the visible outcome `Err RecursionError`, never a normal value.
  Theorems quantify over every fuel value.
* `str` is `list N` (code points).  `int` is `Z`; `float` is the standard
  library's axiom free IEEE-754 `spec_float` with precision 53, emax 1024.
* `scope` (a dict) is an association list, `stack` (a deque) a list with the top
  first.  Objects compared by identity (`Var`, choicepoints) are numbers drawn
  from counters.
* `frozenset`/`set` are duplicate free lists; the list order is the iteration
  order.  Because the real order depends on hashes, theorems quantify over all
  orders: over all lists, and over an arbitrary permutation oracle `HashOrder`
  wherever the code builds a new set.
* Generators are defunctionalised: a value describing where the generator is
  suspended, and a `resume` function.
* The wall clock, the float power function and random numbers are inputs
  (oracles) of the model; theorems quantify over them.

## 2. Plan: what is modelled for each property, and how it is proved

| Prop | Model | Proof plan |
|---|---|---|
| C01 | `unify`, `evaluate`, `deref` on `term` | denotation of terms in finite trees; induction on fuel: solution sets before/after |
| C02 | same | measure: size of the denotation under a solution |
| C03 | same, all terms | induction on fuel: final stack = new vars ++ old stack, scope = new bindings ++ old scope |
| C04 | `reroll`, `unify`, choicepoints | trail lemma from C03, induction over operation sequences |
| C05 | same as C01 | corollary of C01, C02 |
| C06 | `freeze` with memo and fresh variable counter | induction on fuel with an injective-renaming invariant |
| C07 | `is_ground`, `grounded` | induction on fuel |
| C08 | `freeze`, `unify`, the return branch of `Agent.step` | a solution of the back unification is constructed from the callee's bindings, then C02 |
| C09 | `unify_annotated` | induction over annotation lists; ground case by counting |
| C10 | `unify_annotated` generator | trail lemma; the `literal = Variable` case is refuted by a witness, and what it undoes is characterised (ResumeVar.v) |
| C11, C12 | query generators, `resume` | refinement to a list/resumption monad semantics |
| C13 | same | soundness/completeness w.r.t. an inductive derivability relation |
| C14-C17 | agent belief base, `add_belief`, `remove_belief`, `_abolish` | invariant by induction over operations; set specifications |
| C18-C20 | `Agent.call` | case analysis, induction over the plan list |
| C21, C22 | `Agent.step`, waiters | frame theorem by case analysis over instructions |
| C23 | `BuildInstructionsVisitor` on an instruction arena | compiler correctness: simulation with a structured semantics |
| C24, C25 | `Environment.run`, `run_agent`, clock oracle | invariants of the loop; race refuted by a clock witness |
| C26, C37 | `_make_name`, `sanitize_functor` | induction / pigeonhole |
| C27 | heap of belief sets (aliasing is modelled) | `build_agents` refuted; separation for separately built agents |
| C28, C29 | `_send`, `_broadcast` | induction over receiver list |
| C30 | `_unachieve` | filter specification; the crash afterwards is refuted by a witness |
| C31 | `asl_repr`, `parse_string`, string token regex | codec round trip by induction |
| C32 | `tokenize` | induction over lines |
| C33 | recursive descent parser, `__str__` | text → tokens by the lexer grammar, tokens → tree by induction over the tree; invariant of the parser: the trees it builds are readable |
| C34 | fold visitors (Fold.v), `evaluate`, `grounded`, `freeze`, `unify` | relation between terms and terms with evaluated constants, preserved by every operation, by induction on fuel (FoldSem.v); lifted to the list of solutions of a query and from there by C11 to the generators (FoldQuery.v, FoldCond.v) |
| C35 | stdlib actions | induction over lists; C35_findall_open: induction over the trace of solutions, with the memo of freeze as invariant |
| C36 | `Actions` | map laws, induction over parents |
| C38 | `_untell_how` | filter specification |
| C39, C50 | `_ask_how`, `plan_to_str`, `_tell_how` with lexer and parser (Front.v) | loop invariant over the groups; separation of plan lists; regex substitution by induction over the text; C33 for reading; refutations by computation |
| C51, C52 | `parse_term` down to `parse_atom`, `parse_literal`, bodies, plans, clauses (Parse.v) | grammar over tokens (GramSpec.v); soundness by inversion of the parser's steps; completeness by mutual induction over derivations, with a loop lemma for left recursion; unambiguity from completeness |
| C53 | `parse_agent`, `parse`, `validate`, the folding of clauses (Program.v, Fold.v) | an inductive description of programs over token lists (SrcSpec.v), with folding and validation as relations; soundness from runs that report no error (such runs pass no illegal character, and folding does not look at the state), by induction over the bound; completeness by induction over the description |
| C54 | `_send`, `_broadcast` (Engine.v: act_send, act_broadcast, deliver) | a table of forces and an inductive description of one event per receiver (ForceSpec.v); both directions by unfolding the action and induction over the receivers |
| C55 | `_zip_specs` and the wrappers of add_function, add_predicate, add_procedure (Engine.v) | conversion as a relation, with the values of floats as rationals (CallSpec.v); both directions of conversion by cases, the calls by induction over the declared types |
| C56 | asl_repr, tokenize, parse_term, BuildTermVisitor, grounded together | the tokens of the text by induction over the value, their tree in the grammar of C51, which the parser reads; the built term, its value; equality of annotation sets through the sets' iteration order; float_lit is exact on decimal expansions (ShowRepr.v, to show that the hypothesis on repr can be met); the characters of the text by an inductive relation (WriteSpec.v) |
| C57 | float and mixed arithmetic, int / int, float remainders and whole quotients, float(text of a numeral) | exact location of the rational result between neighbours through the shifts of the rounding function; nearest among all floats; exactness of fmod and of whole quotients; value of a numeral over Q |
| C58 | unify, matching with annotations, all queries and query actions | a set of variables closed under the scope and containing all new ones is an invariant of evaluation, freezing, unification and, over the list-of-solutions semantics of C11, of search |
| C59 | build_agent_optimized, the traversal that looks for actions, the directives | the traversal fails exactly on the constructs named; comparison with build_agent by cases on parsing |
| C60 | the loop of repl over lines and statements, with the execution of a statement as a parameter | the parser's results are steady under appended tokens (Steady.v); with soundness and completeness for the grammar (C52), by induction over statements and over lines |
| C61 | building, the engine, steps and schedulers, as for the others | an invariant of worlds (belief sets are typed by functor and arity; all rules, plans and intentions are of programs that spare the kind) kept by every operation of the engine, by induction on fuel; building by induction over programs |
| C62 | join, dirname and normpath of posixpath as functions on texts | names are split at slashes uniquely; the stack of normpath is the position reached, by induction over components; the normal spelling is read back |
| C63 | building of terms, queries and bodies with the dictionary of variables | an invariant of the dictionary (numbers new, different for different names) is kept by every builder; the result stands for the syntax tree under every later dictionary |
| C64 | .wait: tokenize, parse_event, the folding and building of events | soundness and completeness of parse_event against the grammar; an Ok run with the log that stops at the first error passed no illegal character; folding is blind to the log; the builder of literals is total (C63) |
| C65 | the warnings counted by the parser, the validation and the builder of conditions | the induction over the reading of programs of C40 is repeated with the counter of warnings; everything else leaves the counter as it is |
| C66 | the execution of a statement at the prompt: building with the names of the session, the one intention that is used again, run_agent, dump_variables | building only adds names (induction over syntax); every effect of the engine leaves the counter of variables or raises it (NvFacts.v, SessInv.v), so that the names are sound in every state of a session; with the meaning of bodies (C63, C23) and the specification of run_agent (C24); sorting of names by insertion |
| C67 | `AstAgent.__str__`, on top of the printers of clauses (C33), the lexer, the parser of programs and validation | the text written so far has the tokens of its clauses if an end or a line break follows (induction over the clauses); the tokens of a clause are a phrase of the grammar (C33 with C52); folding is idempotent and keeps trees well formed (inductions over terms); C53 gives the parser; negative numbers are read as negations, which folding turns into the numbers again (simulation of folding by folding, induction over terms) |
| C40 | `parse_agent` with includes, `TokenStream`, `os.path` functions, file system as a function (Fold.v, Program.v) | measure: files not yet in the chain, then items left; counterexample for `./main.asl` |
| C41 | `Log`, `parse`, `build_agent` | error counter is monotone and bounded in every parser and builder function (Counts.v) |
| C42, C43 | `==`, orderings, `LinkedList` | induction over terms; equality and order of all values as inductive relations (OrderSpec.v) |
| C44 | `build_agent_from_ast` | induction over the clauses of the program |
| C45-C48 | library actions called by name through the action tables, `.wait`, `.print` | specification of each result (ActSpec.v), case analysis; induction over lists for `.sort`, `.max`, `.min` |
| C49 | `BinaryExpr.evaluate`, `UnaryExpr.evaluate` | equation of `evaluate`, integer division laws |

## 3. Trusted base

* Coq 8.16.1's kernel (all proofs are `Qed`/`Defined` terms checked by `coqc`;
  `vm_compute` is used for concrete examples and counterexamples, so the
  kernel's virtual machine is part of it).  No plugins, no axioms of our own, no
  `Admitted`, no functors or module types, no switched-off checks.
* `Print Assumptions` stands under every property theorem (Props*.v).  It says
  "Closed under the global context" for every one of them: no axiom, not even
  of the standard library, is used.  (A list of everything loaded also shows the
  seven parameters of `Coq.ssr.ssrunder`, which come with `ssreflect`'s
  `Require` and which no theorem uses.)
* The correspondence between the Gallina definitions and the Python source.
  Every definition of the model cites the lines it models.  Nothing was run: the
  semantics of Python that the model relies on (evaluation order, generators,
  `except`/`finally`, `dict` and `set` behaviour, `re`, codecs, `posixpath`,
  IEEE arithmetic) is what the language reference says, as we read it.
* The specifications in *Spec.v, which the reader has to compare with the
  English in properties.jsonl.

### Inputs of the model (type classes, quantified over in the theorems)

* `Py`: the iteration order of Python sets (`horder`), `float ** float`
  (`fpow`), results of Python callables registered as actions (`py_call`), the
  clock (`py_time`), `repr` of non-whole floats (`frepr`), the printed name of
  an anonymous variable (`vname`), `str.isalnum` and `str.lower` on non-ASCII
  characters (`u_alnum`, `u_lower`).  `PyLawful` states what is assumed of them where
  a theorem needs it (for instance that `horder` gives a permutation).
* `Front`: what `.send(_, tellHow, text)` and `.wait(text)` get from the parser.
  In most theorems about the engine it is arbitrary; `FrontText n` (Front.v) is the
  lexer and parser of the model with recursion bound `n`, used for C39, C48 and C50.
* The file system of C40/C41 is a function from paths to lines.

## 4. What is modelled

| /repo | model |
|---|---|
| agentspeak/__init__.py: terms, evaluate, unify, unify_annotated, freeze, reroll, deref, is_ground, grounded, asl_str, asl_repr, parse_string, sanitize_functor, Log, Actions | Term.v Unify.v Str.v Quote.v Names.v Num.v |
| agentspeak/lexer.py | Lex.v (with the regular expressions) |
| agentspeak/parser.py: syntax trees, `__str__`, parse_*, visitors for folding and validation, `parse` | Ast.v Parse.v Fold.v Program.v |
| agentspeak/runtime.py: builders, queries, instructions, Agent, Intention, Environment, message handling | Build.v Engine.v World.v Step.v |
| agentspeak/runtime.py: text of tellHow, agentspeak/stdlib.py: text of .wait | Front.v |
| agentspeak/optimizer.py: build_agent_optimized up to the first traversal | Optimize.v |
| agentspeak/runtime.py: repl, dump_variables | Repl.v (lines and statements), ReplExec.v (one statement) |
| agentspeak/stdlib.py, agentspeak/ext_stdlib.py | Engine.v (`do_action` and the functions before it), Names.v (tables) |

Not modelled:

* agentspeak/optimizer.py beyond the first traversal: no program with a plan gets
  further (C59, finding 28).  Nothing in the package calls it; the attributes it
  leaves on actions have no effect on execution.
* `main` except the run of a file (RepoMain.v), the prompt itself, `util.py`, `__main__.py`,
  colours, tracebacks and message texts: an error is its class, a log is its
  counters and limit.
* `.random` and `random` choices: values of the oracle.
* Python's recursion limit and memory: functions recursive in Python have a fuel
  argument, and running out of it is the value `ERecursion`.  Theorems hold for
  every fuel, or say that some fuel suffices.
* Threads: the library has none.  Wall clock time enters only through `py_time`.
* Escapes `\N{...}` in strings, non-ASCII decimal digits in numerals.

How the model was compared with the code: RepoTests.v runs the repository's own
programs in the model, from their text to what they print: every program of
tox.ini, the others of tests/asl (those under crashes/ end in the error the
directory is named for), the unit tests of tests/*.py that concern modelled
functions, and the scripts of examples/ that need no Python of their own.  Each
does in the model what it is written to do, with one exception that is a finding:
examples/askhow/env_askhow.py never prints "This is plan2" (askHow keeps only the
last plan of an event, finding on askHow below).  These runs are tests, not proofs,
and no claim rests on them.

## 5. Findings

Places where the code does not do what a user would expect.  Those with a theorem
are machine checked; the others are observations made while modelling.

1. `Literal.unify_annotated` with a right side that is an unbound variable: the
   choicepoint is never pushed, so resuming undoes bindings made before
   (C10_variable_refuted).
2. Function-like actions bind their result without a choicepoint: the binding
   survives backtracking (C11_action_refuted, C12_action_refuted).
3. Belief sets use Python's `==`, so p(true) and p(1) are the same belief
   (C15_bool_refuted), and unifying annotations can collapse
   (C15_annotations_refuted).
4. Annotations are matched greedily: a match can be missed (C09_greedy_refuted).
5. `.abolish` calls the annotation match with swapped arguments
   (C17_annotated_kept_refuted, C17_bare_removed_refuted).
6. `unachieve`: the intention that is dropped may be the wrong one or be left in a
   state in which it goes on (C30_*_refuted).
7. Agents made by `build_agents` share belief sets and plan lists
   (C27_copies_refuted); the name argument is ignored for the first.
8. `run` can raise ValueError when the deadline passes between polling and
   sleeping (C25_refuted); a wait until time 0 is not waited for
   (C24_zero_refuted).
9. String literals with non-ASCII characters are mangled (C31_plain_refuted).
10. An include of `./main.asl` from `main.asl` recurses for ever (C40_refuted).
    An illegal character in an included file raises AttributeError.
11. `else {}` and infinite floats are lost by printing and reading again
    (C33_else_refuted, C33_inf_refuted).
12. Folding `true | true` changes the number of solutions (C34_or_refuted);
    folding inside annotations merges them (C34_annotations_refuted).
13. A goal whose result contains NaN fails when it returns (C08_nan_refuted).
14. `.send` to several receivers is not atomic (C28_atomic_refuted).
15. `.concat` does not recognise linked lists (C45_concat_linked_refuted).
16. Unification without occurs check builds cyclic bindings on which later
    unifications do not terminate (C02_cyclic_refuted).
17. A wildcard inside a bound value matches differently each time: X = f(_)
    unifies with f(1) and with f(2).
18. askHow sends only the last plan of each group (C39_all_refuted), tests the
    functor as a substring, changes the plan it prints so that a second question raises
    IndexError (C39_again_refuted), sends p(1, X) as p(1, 1) and p(_, X) as p(_, _)
    (C39_number_refuted, C39_wildcard_refuted), disconnects the variables of the
    context from those of the head (C39_context_refuted), sends a missing body as the
    variable None (C39_body_refuted), prints strings of the context without quotes
    (C39_string_refuted), raises AttributeError for a plan whose context negates a
    conjunction (C39_negation_refuted), and an unknown functor raises IndexError.
19. `"...%s" % term` with a list term raises TypeError instead of AslError.
20. Changing a belief set while a query iterates over it raises RuntimeError.
21. After a plan failure is caught, `intention.instr` is None and the failed plan is
    later popped as if it had succeeded.
22. Removing the empty intention deque on finish removes the first deque that is
    equal by value.
23. A list with several elements before the bar, `[a, b | T]`, is rejected by the parser
    (C51_case_chain); only `[a | T]` and `[a | b | T]` can be written.
24. A plan body must not end with a semicolon although a body in braces may
    (C52_case_body).
25. A belief with an operator that cannot be folded, p(X + 1), or with a list with a tail,
    p([a | b]), raises AttributeError instead of being reported (C53_belief_refuted).
26. The text of an integer above 2^53 is read back as a different number, because numerals
    are floats (C56_limit); infinite values and NaN are shown as the names inf and nan and
    read back as atoms.
27. x div y on floats is the floor of the exact quotient up to 2^48, and up to 2^53 for whole
    numbers; larger quotients are rounded (C57_limit): this is Python's // on floats.
28. The optimizer reads an attribute that plans do not have, so build_agent_optimized raises
    AttributeError for every program with a plan (C59_plans), and for every list with a
    tail (C59_attribute_error).  By reading: init_agent returns inside its loop, so that only
    the first action is examined (C59_case_directive); EFFECT_BIND and EFFECT_REQUIRE_BOUND
    are the same number; two literals p(1) and p(1, 2) count as equal.
29. .findall keeps one memo for all solutions, and freeze consults the memo before the scope.
    A variable that is unbound in one solution and bound in a later one is therefore replaced
    by a fresh variable in both: with q(at(X, Y)) :- X = 1 | Y = 2, .findall(P, q(P), L)
    gives [at(1, V), at(U, V)], not [at(1, V), at(U, 2)] (C35_findall_refuted).
30. The clauses of an included file or block are validated with that file and again with the
    agent that includes it, so one belief with a variable there is reported twice (C65_twice).
31. The prompt uses one intention for all statements, and does not clear its waiter: after
    `.wait("+q").` no later statement is executed, `+q.` included (C66_waiting, C66_wait_refuted).
32. An exception in a plan that was called from the prompt leaves the plan on the stack, at the
    instruction that failed.  It is tried again, and fails again, before every later statement,
    so that none of them is executed (C66_stuck_refuted).
33. The text of a program does not always mean the program: `(-2) ** Y` is folded to a power
    with the constant -2, which is printed as `-2 ** Y` and read as `-(2 ** Y)`
    (C67_power_refuted).  An empty else branch is not printed (C67_else_refuted).
