{"id": "C01", "title": "Unification computes most general unifiers", "statement": "For terms built from variables, numbers, strings, booleans, literals and lists: when agentspeak.unify(l, r, scope, stack) returns True, an assignment of values to variables agrees with the resulting scope if and only if it agreed with the old scope and makes l and r equal; when it returns False no assignment that agrees with the old scope makes l and r equal.", "quantifier": "all pairs of terms, all scopes, all recursion limits", "why_tests_cant": "The set of term pairs and scopes is infinite; a test checks one pair and cannot show that no more general answer exists.", "anchors": ["agentspeak/__init__.py: unify, Var.unify, Literal.unify, LinkedList.unify, deref, evaluate"]}
{"id": "C02", "title": "Unification of unifiable terms terminates successfully", "statement": "If some assignment that agrees with the scope makes the two terms equal, agentspeak.unify returns True as soon as the recursion limit is large enough; it neither fails, raises nor recurses forever.", "quantifier": "all pairs of terms and scopes that have a common instance", "why_tests_cant": "There is no occurs check, so termination is not evident and depends on every shape of term and of binding chain.", "anchors": ["agentspeak/__init__.py: unify, deref, Var.evaluate"]}
{"id": "C03", "title": "Unification never changes or hides an existing binding", "statement": "Whatever agentspeak.unify does (returns True, returns False, or raises), every variable bound before the call keeps its binding, and the variables it newly bound are exactly the entries it appended to stack, each once.", "quantifier": "all terms (including expressions and wildcards), scopes, outcomes", "why_tests_cant": "Must hold also on failing and raising paths, of which there are infinitely many.", "anchors": ["agentspeak/__init__.py: unify, Var.bind"]}
{"id": "C04", "title": "Rolling back to a choicepoint restores the scope exactly", "statement": "Push a choicepoint, run any sequence of unifications and of further choicepoints (successful, failing or raising), then call reroll for that choicepoint: scope and stack are exactly what they were before the choicepoint was pushed.", "quantifier": "all sequences of unifications and nested choicepoints", "why_tests_cant": "A history property: it ranges over all sequences of operations between push and rollback.", "anchors": ["agentspeak/__init__.py: reroll, unify", "agentspeak/runtime.py: push_choicepoint, pop_choicepoint, NotQuery.execute"]}
{"id": "C05", "title": "Unification does not depend on argument order", "statement": "agentspeak.unify(l, r) and agentspeak.unify(r, l) started from the same scope give the same answer and bindings with the same set of solutions.", "quantifier": "all pairs of expression-free, wildcard-free terms and all scopes", "why_tests_cant": "Symmetry is a statement about all pairs.", "anchors": ["agentspeak/__init__.py: unify"]}
{"id": "C06", "title": "Freezing detaches a term from the caller", "statement": "agentspeak.freeze(t, scope, {}) returns a copy of t with all bindings substituted and expressions evaluated in which no variable of the caller occurs: every unbound variable is replaced by a brand new one, the same one at every occurrence, different ones for different variables. The scope is not changed.", "quantifier": "all terms and scopes", "why_tests_cant": "Absence of shared variables must hold for every term shape and sharing pattern.", "anchors": ["agentspeak/__init__.py: freeze, Var.freeze, Literal.freeze, LinkedList.freeze"]}
{"id": "C07", "title": "is_ground and grounded agree", "statement": "agentspeak.grounded(t, scope) returns a term without variables; for expression-free terms it succeeds exactly when agentspeak.is_ground(t, scope) is True and raises AslError exactly when it is False; the value is the substitution instance of t.", "quantifier": "all terms and scopes", "why_tests_cant": "Infinite domain; add_belief and message sending rely on it for every term.", "anchors": ["agentspeak/__init__.py: is_ground, grounded"]}
{"id": "C08", "title": "Returning from a subgoal never fails", "statement": "When a plan started by !g (or a belief event or ?g) finishes, unifying the calling term with the finished goal in the caller's scope succeeds, whatever the callee has bound: 'back unification failed' is never raised, and afterwards the calling term in the caller's scope has the value the callee computed. This holds unless the result contains NaN (then it fails: NaN is not equal to itself) or the caller's scope is cyclic.", "quantifier": "all calling terms, caller scopes, and all bindings the callee may have made", "why_tests_cant": "Ranges over everything a callee can do to its variables.", "anchors": ["agentspeak/runtime.py: Agent.call, Agent.step", "agentspeak/__init__.py: freeze, unify"]}
{"id": "C09", "title": "Annotation matching", "statement": "If agentspeak.unify_annotated(l, r) succeeds then the literals unify and every annotation of l was unified with a different annotation of r. For variable-free annotations without nested annotations it succeeds exactly when the literals unify and every annotation of l occurs among the annotations of r.", "quantifier": "all literals, annotation sets and iteration orders of the annotation sets", "why_tests_cant": "Annotations live in hash sets: the iteration order changes from run to run.", "anchors": ["agentspeak/__init__.py: Literal.unify_annotated, unify_annotated"]}
{"id": "C10", "title": "Resuming a unification query undoes exactly its own bindings", "statement": "Asking a '=' query for its next solution removes exactly the bindings made by that query and by what ran after it, and there is no second solution; a '=' query without solution leaves no binding. The exception is a literal on the left and an unbound variable on the right: there every binding and choicepoint recorded on the intention's stack is undone.", "quantifier": "all pairs of terms, all scopes and all activity between the solution and the resumption", "why_tests_cant": "Depends on arbitrary histories between the first solution and the resumption.", "anchors": ["agentspeak/__init__.py: Literal.unify_annotated, unify_annotated, reroll", "agentspeak/runtime.py: UnifyQuery"]}
{"id": "C11", "title": "Backtracking search enumerates exactly the declarative solutions", "statement": "Running a query built from literals, rules, '=', comparison, '&', '|' and 'not' produces, in order, exactly the scopes of the list-of-solutions semantics: '&' runs the right side once per solution of the left, '|' concatenates, 'not' succeeds without bindings iff there is no solution, a literal enumerates matching beliefs then rules in program order.", "quantifier": "all queries, belief bases, rule sets, scopes", "why_tests_cant": "The implementation shares one mutable scope among suspended generators; correctness depends on every interleaving of binding and rollback.", "anchors": ["agentspeak/runtime.py: TermQuery, AndQuery, OrQuery, NotQuery, UnifyQuery", "agentspeak/__init__.py: reroll, unify_annotated"]}
{"id": "C12", "title": "An exhausted or negated query leaves no bindings behind", "statement": "When a query has no further solutions, the scope and stack are exactly those before the query was started; a 'not' query never binds a variable.", "quantifier": "all queries, belief bases, rule sets, scopes", "why_tests_cant": "Every failing search path has to clean up.", "anchors": ["agentspeak/runtime.py: NotQuery.execute, TermQuery.execute, AndQuery, OrQuery"]}
{"id": "C13", "title": "Query answers are logical consequences", "statement": "For queries built from unannotated literals and unifications with & and | (no negation, actions or arithmetic; rules likewise; beliefs arbitrary annotated ground literals): every solution is a logical consequence of the belief base and the rules (soundness), and when the enumeration finishes every instance of the query that follows from them is an instance of some enumerated solution (completeness).", "quantifier": "all belief bases, rule sets, queries", "why_tests_cant": "Infinite space of rule sets and derivations.", "anchors": ["agentspeak/runtime.py: TermQuery.execute, Rule"]}
{"id": "C14", "title": "Belief base invariant", "statement": "At every point of every run, each stored belief is variable-free, is stored under its own functor and arity, and no belief is stored twice.", "quantifier": "all programs, all runs, all steps", "why_tests_cant": "Invariant over unbounded histories of additions, removals and messages.", "anchors": ["agentspeak/runtime.py: Agent.add_belief, Agent.remove_belief, Agent.call", "agentspeak/stdlib.py: _abolish"]}
{"id": "C15", "title": "An added belief can be queried", "statement": "After +b has been executed, the instance of b is in the belief base (or a Python-equal belief was there already), nothing else has changed, and the query b succeeds without binding anything -- provided every stored belief that is Python-equal to b also matches it (true and 1 are equal but do not match) and no two annotations of b collapse into one.", "quantifier": "all belief bases and beliefs", "why_tests_cant": "Depends on equality and unification agreeing on all pairs of terms.", "anchors": ["agentspeak/runtime.py: Agent.add_belief, TermQuery.execute", "agentspeak/__init__.py: Literal.__eq__, unify"]}
{"id": "C16", "title": "Removing a belief removes one matching belief or nothing", "statement": "-b removes exactly one belief that matches b, keeps all others, and binds b's variables to it; if no belief matches, the belief base and all bindings are unchanged and the plan continues.", "quantifier": "all belief bases, patterns, scopes, iteration orders", "why_tests_cant": "Ranges over all belief bases and hash orders.", "anchors": ["agentspeak/runtime.py: Agent.remove_belief, Agent.call"]}
{"id": "C17", "title": ".abolish removes all and only the matching beliefs", "statement": ".abolish(p) binds nothing, keeps the order of the remaining beliefs, and removes exactly the beliefs b whose match with p succeeds in the direction the code tries it (p has all annotations of b); if annotations play no role these are all and only the beliefs matching p.", "quantifier": "all belief bases and patterns", "why_tests_cant": "Ranges over all belief bases.", "anchors": ["agentspeak/stdlib.py: _abolish"]}
{"id": "C18", "title": "The first applicable plan is selected", "statement": "For an event, the plan run is the first one in program order whose head matches the event and whose context holds; it runs with the bindings of the first context solution and no binding left over from plans that were tried before.", "quantifier": "all plan libraries, events, belief bases", "why_tests_cant": "Ranges over all plan libraries and all ways earlier candidates can fail.", "anchors": ["agentspeak/runtime.py: Agent.call"]}
{"id": "C19", "title": "A goal without applicable plan fails cleanly", "statement": "If no plan is applicable for an achievement goal, an AslError is raised and the agent's intention stacks, intentions and beliefs are unchanged, except that intentions that waited for this event no longer wait; for a belief event nothing else happens; for a test goal the belief base is queried.", "quantifier": "all agent states and goals", "why_tests_cant": "Ranges over all agent states.", "anchors": ["agentspeak/runtime.py: Agent.call"]}
{"id": "C20", "title": "Subgoals nest", "statement": "!g suspends the calling intention: the new intention is placed on top of the caller's stack and nothing of the caller is executed until it is finished; !!g and events from outside start a new stack at the end of the queue.", "quantifier": "all agent states", "why_tests_cant": "Ranges over all intention structures.", "anchors": ["agentspeak/runtime.py: Agent.call, Agent.step"]}
{"id": "C21", "title": "A step advances only one intention", "statement": "Agent.step executes one instruction of the top of the first intention stack that can run; the bindings, program counters and query stacks of all other intentions are unchanged, except that an intention that is finished passes its results to the one directly below it.", "quantifier": "all agent states, all instructions and actions", "why_tests_cant": "Frame property over all states and all actions.", "anchors": ["agentspeak/runtime.py: Agent.step"]}
{"id": "C22", "title": "Waiting intentions", "statement": "An intention suspended by .wait is not executed until an event that unifies with its pattern occurs at that agent, or its deadline lies strictly in the past; it is then runnable again.", "quantifier": "all agents, event patterns, clocks, schedules", "why_tests_cant": "Depends on clock readings and on all interleavings of events.", "anchors": ["agentspeak/runtime.py: Waiter, Agent.step, Agent.call", "agentspeak/stdlib.py: _wait"]}
{"id": "C23", "title": "Compiled plan bodies implement structured control flow", "statement": "Running the compiled instructions of a body executes its formulas in order; if runs exactly one branch, for runs its body once per solution of the generator, while re-tests its condition before each iteration; the query and choicepoint stacks are balanced, so no pop ever hits an empty stack.", "quantifier": "all bodies of any nesting depth, all outcomes of the executed formulas", "why_tests_cant": "All nestings of if, for, while and all run-time behaviours.", "anchors": ["agentspeak/runtime.py: BuildInstructionsVisitor, push_query, next_or_fail, pop_query, push_choicepoint, pop_choicepoint"]}
{"id": "C24", "title": "Environment.run stops only when nothing can happen", "statement": "Environment.run returns only if every intention of every agent has finished or is waiting for an event without timeout. Until then it lets every agent step in turn, and when none can, sleeps until the earliest deadline. run_agent does the same for one agent (except that it also stops at a deadline that is exactly 0).", "quantifier": "all environments, programs, clocks", "why_tests_cant": "Liveness/quiescence over all schedules.", "anchors": ["agentspeak/runtime.py: Environment.run, Environment.run_agent, Agent.step, Agent.shortest_deadline"]}
{"id": "C25", "title": "Sleeping until a deadline is possible if the clock has not passed it", "statement": "When no agent can step, Environment.run and run_agent sleep for the time from now to the earliest deadline, and the duration slept is never negative. As long as the clock does not pass the deadline between polling and sleeping, this cannot fail with ValueError. (If it does pass, time.sleep gets a negative argument and run fails.)", "quantifier": "all clock behaviours between polling and sleeping", "why_tests_cant": "A race between two clock readings, which tests hit with negligible probability.", "anchors": ["agentspeak/runtime.py: Environment.run, Environment.run_agent, Waiter.poll"]}
{"id": "C26", "title": "Agent names are unique", "statement": "build_agent registers the new agent under a name not used before, so no existing agent is replaced; the name is the sanitised file name, extended by a number only if taken.", "quantifier": "all environments and source names", "why_tests_cant": "Ranges over all sets of existing names.", "anchors": ["agentspeak/runtime.py: Environment._make_name", "agentspeak/__init__.py: sanitize_functor"]}
{"id": "C27", "title": "Agents do not share beliefs", "statement": "Adding or removing a belief at one agent does not change the belief base of another agent, provided the agents were built with build_agent. (Agents built by one call of build_agents share their beliefs and plans: this is refuted for them.)", "quantifier": "all histories of an environment: building agents with build_agent, stepping agents, raising events; all beliefs, scopes and outcomes", "why_tests_cant": "Aliasing shows only for particular construction histories.", "anchors": ["agentspeak/runtime.py: Environment.build_agents, Environment.build_agent_from_ast, Agent.add_belief"]}
{"id": "C28", "title": ".send reaches exactly the addressed agents", "statement": ".send(rs, tell, m) adds m annotated with source(sender) to the belief base of every agent in rs and changes no other belief base; if one of the receivers does not exist nobody receives the message.", "quantifier": "all environments, receiver lists, messages", "why_tests_cant": "Ranges over all receiver lists and environments.", "anchors": ["agentspeak/stdlib.py: _send"]}
{"id": "C29", "title": ".broadcast reaches everyone but the sender", "statement": ".broadcast(tell, m) adds m annotated with source(sender) to the belief base of every other agent and not to the sender's.", "quantifier": "all environments and messages", "why_tests_cant": "Ranges over all environments.", "anchors": ["agentspeak/stdlib.py: _broadcast"]}
{"id": "C30", "title": "unachieve drops the intentions whose top handles the goal, and nothing else", "statement": "After unachieve g, every intention stack of the agent whose top handles an event with g's functor and arguments that unify with g's has lost that top; all other intentions, beliefs, rules, plans and the other agents are untouched. (Stronger expectations are false: goals below the top of a stack survive, the intention that waits for a dropped subgoal continues as if it had been achieved, and an emptied stack makes later non-delayed goals fail.)", "quantifier": "all agent states and goals", "why_tests_cant": "Ranges over all intention structures.", "anchors": ["agentspeak/runtime.py: Agent._unachieve, Agent.call"]}
{"id": "C31", "title": "String literals survive printing and parsing", "statement": "For every string s of code points, parse_string(asl_repr(s)) == s, and wherever asl_repr(s) stands in a source the lexer takes exactly it as one string token. A literal with escapes denotes what the escapes stand for; an ASCII literal without escapes denotes its own characters (a literal with other characters denotes the bytes of its UTF-8 encoding: see C31_plain_refuted). Text not between quotes is refused.", "quantifier": "all Unicode strings", "why_tests_cant": "Infinite; escapes interact with quotes and backslashes at every position.", "anchors": ["agentspeak/__init__.py: asl_repr, parse_string", "agentspeak/lexer.py: TokenType.string, tokenize"]}
{"id": "C32", "title": "The lexer loses nothing and makes progress", "statement": "Lexing terminates for every source. Tokens are produced in source order, do not overlap, each lexeme is the text at its reported columns (tabs count as four), it is the longest lexeme of the first kind possible there, everything between tokens is white space, comment or a character reported as illegal, a character is illegal only if no token begins there, block comments end at the first */ and may span lines, and keywords are never functors.", "quantifier": "all source lines", "why_tests_cant": "All character sequences.", "anchors": ["agentspeak/lexer.py: tokenize"]}
{"id": "C33", "title": "Printing a parsed tree and parsing it back gives the same tree", "statement": "For every expression, literal, event or plan that the parser can produce from some source, parsing its str() followed by a full stop consumes the whole text, reports nothing and yields the same tree (tellHow/askHow ship plans as printed text), provided its numbers are printed as numerals that denote them (all whole numbers are) and it has no empty else branch. Without these provisos it fails: 1e999 comes back as the atom inf, and an empty else branch is dropped.", "quantifier": "all expression, event and plan syntax trees the parser can produce, from any source and token position", "why_tests_cant": "All nestings of operators and precedence levels.", "anchors": ["agentspeak/parser.py: parse_term and the functions it calls, Ast*.__str__", "agentspeak/runtime.py: plan_to_str, Agent._tell_how"]}
{"id": "C34", "title": "Constant folding preserves meaning", "statement": "If folding an expression logs no error and no annotation in it contains an operator, the folded expression evaluates to the same value, or raises the same error, as the original in every scope, and unifies with the same terms, giving the same bindings. A folded condition, also when the rules it uses are folded, has the same solutions in the same order and ends in the same way, provided no '|' in it has two sides that both fold to true. (With operators in annotations it may not: p[1 + 2, 3] has two annotations, folded only one. true | true has two solutions, folded one.)", "quantifier": "all expressions, all scopes", "why_tests_cant": "All expressions; includes division by zero, type errors and unbound variables.", "anchors": ["agentspeak/parser.py: NumericFoldVisitor, BooleanFoldVisitor, TermFoldVisitor", "agentspeak/__init__.py: BinaryExpr.evaluate, UnaryExpr.evaluate"]}
{"id": "C35", "title": "Enumerating actions produce exactly the expected solutions", "statement": ".member enumerates the list members in order, .range(n, X) the numbers 0..n-1, .substring all (also overlapping) positions, .count counts the solutions, .sum adds them up; all leave no bindings when exhausted. .findall collects one item per solution, in order: the instance of the pattern in it, with one consistent one-to-one renaming of the variables left unbound, provided no variable of the pattern left unbound by one solution is bound in a later one. (Otherwise the later item has the variable in place of its value.)", "quantifier": "all arguments, belief bases and scopes", "why_tests_cant": "All lists, strings and belief bases.", "anchors": ["agentspeak/stdlib.py: _member, _range_2, _substring, _findall, _count", "agentspeak/ext_stdlib.py: _sum", "agentspeak/__init__.py: freeze"]}
{"id": "C36", "title": "Action lookup", "statement": "lookup prefers an action of the exact arity, then a variadic one, in the innermost registry that has either, and otherwise consults the parent; registering the same signature twice is rejected and never overwrites.", "quantifier": "all registration histories and parent chains", "why_tests_cant": "All registration histories.", "anchors": ["agentspeak/__init__.py: Actions.add, Actions.lookup"]}
{"id": "C37", "title": "sanitize_functor yields usable names", "statement": "sanitize_functor terminates, never returns a keyword, contains only alphanumeric characters and underscores, and does not start with an upper case letter or underscore.", "quantifier": "all strings", "why_tests_cant": "All strings, including keywords with any suffix.", "anchors": ["agentspeak/__init__.py: sanitize_functor"]}
{"id": "C38", "title": "untellHow removes exactly the labelled plans", "statement": "untellHow \"@l\" removes every plan labelled l and keeps all other plans in order.", "quantifier": "all plan libraries and labels", "why_tests_cant": "All plan libraries.", "anchors": ["agentspeak/runtime.py: Agent._untell_how"]}
{"id": "C39", "title": "askHow transfers copies of the matching plans", "statement": "If another agent asks by askHow and the call succeeds, then the asker (the agent named by the last source annotation) gets, after the plans it has, a copy of the last plan of each group (trigger, goal type, functor, arity) whose functor occurs in the text of the question, and otherwise nothing changes except texts kept for printing. If each group has at most one such plan, every matching plan is transferred. The copy is what the text sent is read as; for a plan whose head arguments are named variables, with a body, and without a context or with one made with & and | of literals and comparisons without variables, that is the same plan. (For other plans the copy differs: a number or wildcard in the head displaces the names of the variables, context variables lose their connection to the head, strings in it can lose their quotes, a negated conjunction in it makes the question fail, a missing body becomes a variable named None, a plan with arguments can be sent only once, and of two plans for the same event only the last one is sent.)", "quantifier": "all reachable systems of separately built agents, all texts of questions, all plans", "why_tests_cant": "All plan libraries, all shapes of plans and all questions.", "anchors": ["agentspeak/runtime.py: Agent._ask_how, Agent._tell_how, plan_to_str"]}
{"id": "C40", "title": "Includes end, and recursive includes are reported", "statement": "For every finite set of files in which no include is written with '.', '..' or a doubled slash, parsing terminates, also if the files include each other: including a file that is being parsed, at any depth, is logged as an error, so that no agent is returned. (Through '.' the check is evaded: main.asl with {include(\"./main.asl\")} includes itself for ever.)", "quantifier": "all file systems and include graphs", "why_tests_cant": "All include graphs and path spellings.", "anchors": ["agentspeak/parser.py: parse_agent"]}
{"id": "C41", "title": "Errors are never lost", "statement": "If an error was logged while parsing or building an agent, no agent is returned: AggregatedError is raised, at the latest at the third error.", "quantifier": "all sequences of log events", "why_tests_cant": "All histories of errors and warnings.", "anchors": ["agentspeak/__init__.py: Log", "agentspeak/runtime.py: Environment.build_agent_from_ast, Environment._build_agent"]}
{"id": "C42", "title": "Comparison operators are consistent", "statement": "\\== is the negation of ==; on numbers without NaN, on strings and on atoms, <, <=, >, >= form a total order compatible with ==; == holds between an integer and a float exactly when their mathematical values are equal. Lists, in either notation, and the arguments of two literals with the same functor and arity are compared at the first place where they differ; if there is none, the shorter list is less. Values that do not compare raise TypeError. Two values are equal exactly when they are the same up to the notation of lists, the order of annotations, and the way a number is represented.", "quantifier": "all pairs and triples of values", "why_tests_cant": "All values.", "anchors": ["agentspeak/__init__.py: BinaryExpr.evaluate, Literal.__lt__ and the other comparisons, LinkedList.__eq__"]}
{"id": "C43", "title": "The two list notations are interchangeable", "statement": "[a|[b, c]] and [a, b, c] are equal, unify with the same terms and with the same results.", "quantifier": "all lists and terms", "why_tests_cant": "All lists and all terms they are unified with.", "anchors": ["agentspeak/__init__.py: LinkedList, unify"]}
{"id": "C44", "title": "A new agent has its program, in program order", "statement": "build_agent gives the new agent the rules and plans of the program that its text says, those for the same event in program order, raises the initial beliefs and then the initial goals as events in program order, and changes nothing for the other agents. The agent is named after the name argument, or after the source if there is none or it is empty. build_agents makes as many agents as asked for: the first like build_agent without a name argument, the others with its beliefs, rules and plans, their own names and their own initial goals.", "quantifier": "all programs, action tables and histories of the environment", "why_tests_cant": "The order in which plans are tried depends on the whole program, and sharing with other agents on the whole history.", "anchors": ["agentspeak/runtime.py: Environment.build_agent_from_ast, Agent.add_plan, Agent.add_rule"]}
{"id": "C45", "title": "Library functions compute what their names say", "statement": ".max and .min give a greatest and least element and refuse the empty list; .sort gives a stable ordered rearrangement; .nth counts from 0 and refuses positions outside; .length counts elements; .tail gives the list without its first element; .floor, .ceil and .round give the nearest integer below, above, and nearest with halves to even; .concat of tuple lists is the list of all elements in order and otherwise the concatenation of the texts; .my_name gives the agent's name; .date and .time give the year, month and day, and the hour, minute and second, of the clock, in this order. Each of these binds its last argument (.date and .time: all three) to the result and succeeds at most once. .unbind_all forgets all bindings of the intention, .fail has no solution, .dump and the marks for the optimizer succeed once and change nothing, and .raise raises an error.", "quantifier": "all lists, numbers and arguments, in every state of an agent", "why_tests_cant": "All lists of comparable values and all numbers, including ties and halves.", "anchors": ["agentspeak/stdlib.py: _max, _min, _sort, _nth, _length, _concat, _my_name", "agentspeak/ext_stdlib.py", "agentspeak/__init__.py: Actions.add_function"]}
{"id": "C46", "title": "Type tests tell the truth and change nothing", "statement": ".string, .number, .atom, .literal, .structure, .list and .ground succeed exactly on terms of that kind, look through bound variables, and bind nothing.", "quantifier": "all terms and variable bindings", "why_tests_cant": "All terms and all chains of bindings.", "anchors": ["agentspeak/stdlib.py: _string, _number, _atom, _literal, _structure, _list, _ground"]}
{"id": "C47", "title": ".print writes exactly one line", "statement": ".print(a1, ..., an) writes one line with the agent's name and the texts of the values of its arguments in order, separated by spaces, and changes nothing else.", "quantifier": "all arguments, bindings and agents", "why_tests_cant": "All numbers and kinds of arguments.", "anchors": ["agentspeak/stdlib.py: _print"]}
{"id": "C48", "title": ".wait suspends the intention until the time or event it names", "statement": ".wait(ms) suspends exactly the calling intention until ms milliseconds from now, .wait(event) until the event, .wait(event, ms) until either; the final dot of the event text may be left out; other arguments are refused and suspend nothing.", "quantifier": "all times, event texts, intentions and states", "why_tests_cant": "All clock values and all states of the other intentions.", "anchors": ["agentspeak/stdlib.py: _wait"]}
{"id": "C49", "title": "Integer arithmetic is exact", "statement": "On integers +, -, * and ** with a non-negative exponent are exact, div and mod give a quotient and a remainder with the sign of the divisor so that a = b * (a div b) + a mod b, division by zero is an error, and operands that are not numbers are refused; &, | and not on truth values are the logical ones.", "quantifier": "all integers and all expressions with such values", "why_tests_cant": "Unbounded integers and nesting.", "anchors": ["agentspeak/__init__.py: BinaryExpr.evaluate, UnaryExpr.evaluate, BinaryOp, UnaryOp"]}
{"id": "C50", "title": "A plan told as text is added as written", "statement": "tellHow either adds exactly the plan that the text denotes, after the agent's plans for the same event, and changes nobody's other plans, beliefs, rules or intentions (an intention may stop waiting), or raises an exception and changes nothing. If the text is read as a plan that can be built, and nobody waits for such an event, it succeeds. The printed text of a plan is read as that plan. The texts that are read are exactly those whose tokens begin with a plan of the grammar and a full stop.", "quantifier": "all reachable systems of separately built agents, all texts, all readable plans", "why_tests_cant": "All texts, all plan libraries and all histories before the message.", "anchors": ["agentspeak/runtime.py: Agent._tell_how, Agent.call, BuildInstructionsVisitor", "agentspeak/parser.py: parse_plan", "agentspeak/lexer.py: tokenize"]}
{"id": "C51", "title": "Terms have the documented grammar", "statement": "The parser accepts exactly the terms of the grammar: | is looser than &, & than not, not than comparisons, comparisons than + and -, these than * / div mod, these than signs, signs than **; | & + - * / div mod associate to the left, ** to the right; a < b <= c means a < b & b <= c; lists are [..] with an optional last comma or [head | tail | ..] with a single head. Every term of the grammar is read with the tree the grammar gives it, up to the first token that cannot continue it, nothing else is accepted, and no text has two trees.", "quantifier": "all sequences of tokens the lexer can produce", "why_tests_cant": "Unboundedly many operator combinations and nesting depths.", "anchors": ["agentspeak/parser.py: parse_term, parse_and_expr, parse_not_expr, parse_comparison, parse_arith_expr, parse_product, parse_factor, parse_power, parse_atom, parse_list, parse_linked_list_tail, parse_literal"]}
{"id": "C52", "title": "Bodies, plans, rules, beliefs and goals have the documented grammar", "statement": "The parser accepts exactly the grammar of clauses: literals with optional non-empty arguments and annotations; body formulas with prefixes !! ! ? -+ + - or a term; while, for, if and else with braces; semicolons between formulas, optional after a closing brace, allowed at the end in braces but not at the end of a plan; plans with optional label, context and body; rules, beliefs and initial goals. All of it is read with the tree the grammar gives, nothing else is accepted, and no text is two different plans, rules or beliefs.", "quantifier": "all sequences of tokens the lexer can produce", "why_tests_cant": "Unboundedly many nested bodies.", "anchors": ["agentspeak/parser.py: parse_body, parse_body_formula, parse_while, parse_for, parse_if_then_else, parse_plan_body, parse_event, parse_plan, parse_rule_or_belief, parse_initial_goal"]}
{"id": "C53", "title": "An accepted program has exactly the clauses of its text, in order, with includes and blocks in place", "statement": "If a source is accepted, its text is a sequence of rules, beliefs, goals and plans, each ended by a full stop, of include directives for files that exist and are not being read already, and of begin/end blocks; and the agent's rules, beliefs, goals and plans are those of the clauses, in the order of the text, with those of an included file or block at the place of the directive, after folding, with no operators in beliefs, rule heads and plan events. Conversely each such text is accepted, given enough stack, with that result, and it has only one result.", "quantifier": "all source texts, all sets of files and include paths, all nestings of directives", "why_tests_cant": "Unboundedly many clauses, files and nested directives; one lost, doubled or reordered clause changes the agent.", "anchors": ["agentspeak/parser.py: parse_agent, parse, validate, ConstFoldVisitor, FindVariablesVisitor, FindOpVisitor", "agentspeak/runtime.py: Environment._build_agent"]}
{"id": "C54", "title": "Each illocutionary force raises its own event at exactly the receivers, and no other force is accepted", "statement": "When .send(receivers, force, message) succeeds, each receiver, in order, got exactly one event for a fresh intention: tell adds the message as a belief, untell removes it, achieve adds it as a goal, unachieve drops the goal, tellHow, untellHow and askHow pass the text on; the message is a copy annotated with the sender as source, and nothing else happened. Conversely, if the receivers can handle the event, the action succeeds with that effect. Any other force raises AslError and nobody gets anything. .broadcast does the same for tell, untell and achieve and all agents but the sender.", "quantifier": "all agents, receivers, forces, messages and states of the environment", "why_tests_cant": "Combinations of forces, receivers, message terms and receiver states are unbounded; a wrong trigger for one rarely used force goes unnoticed.", "anchors": ["agentspeak/stdlib.py: _send, _broadcast", "agentspeak/runtime.py: Agent.call"]}
{"id": "C55", "title": "Registered Python functions are called once, with converted arguments, and their result is used as declared", "statement": "An action registered with add_function, add_predicate or add_procedure is called exactly once per use, with the values of its arguments in order, each converted as declared (int: booleans as 0 and 1, floats truncated towards zero; float: nearest float; asl_str: the text shown; tuple: the items of a list in either notation or the characters of a text; the agent and the environment take no argument). The result of a function is unified with the last argument; a predicate holds iff its result is true for Python; a procedure succeeds; exceptions pass through. If an argument cannot be converted, nothing is called and the exception of the conversion is raised.", "quantifier": "all functions, declared argument types, arguments and bindings", "why_tests_cant": "It must hold for every user-supplied function and every argument value; conversions have many corner cases (negative floats, infinities, nested lists).", "anchors": ["agentspeak/__init__.py: _zip_specs, Actions.add_function, Actions.add_predicate, Actions.add_procedure, asl_str"]}
{"id": "C56", "title": "The text that shows a value can be read back as that value", "statement": "For every value made of truth values, numbers, strings, literals with annotations and lists in either notation, the text asl_repr returns, followed by a full stop, is tokenized and parsed as a term without errors, and the term, built and evaluated, equals the value; hence two such values with the same text are equal. Numbers qualify if they are integers of at most 53 bits, integers or whole numbers that a float represents exactly, or other finite floats under Python's promise that repr gives digits that mean the float. Functors must be names of the language, strings must consist of Unicode characters. The text itself is fixed character by character: decimal numerals without leading zeros, backslash escapes, a comma and a space between items; .print omits the quotes of strings outside literals.", "quantifier": "all such values, of any depth and size", "why_tests_cant": "Infinitely many values; quoting, signs, numerals, nested lists and annotation sets interact in the lexer and the parser.", "anchors": ["agentspeak/__init__.py: asl_repr, Literal.asl_repr, LinkedList.asl_repr", "agentspeak/lexer.py: tokenize", "agentspeak/parser.py: parse_term", "agentspeak/runtime.py: BuildTermVisitor", "agentspeak/__init__.py: grounded, UnaryExpr"]}
{"id": "C57", "title": "Arithmetic with floats gives the float nearest to the exact result", "statement": "If at least one operand of +, -, * or / is a float, integers are first converted to the nearest float (OverflowError beyond the range of floats) and the result is the float nearest to the exact rational result, ties to even, infinite beyond the range; zero results have the sign of IEEE 754. The quotient of two integers is the float nearest to the exact quotient, even if the integers themselves are out of range. x mod y is the float nearest to x - y*floor(x/y) and has the sign of y; x div y is the floor of the exact quotient if that is below 2^48, or the operands are whole numbers up to 2^53. Dividing by zero raises ZeroDivisionError. A numeral in the source is the float nearest to the number written. Hence arithmetic on whole numbers up to 2^53, which numerals denote as floats, is exact.", "quantifier": "all expressions, bindings, finite floats and integers; all numerals", "why_tests_cant": "There are 2^128 pairs of floats and infinitely many integers and numerals; ties, subnormal numbers, overflow, signs of zero and of remainders are edge cases that samples miss.", "anchors": ["agentspeak/__init__.py: BinaryOp, BinaryExpr.evaluate", "agentspeak/parser.py: parse_atom (float of a numeric token)", "agentspeak/lexer.py: numeric tokens"]}
{"id": "C58", "title": "A query binds only the variables it involves", "statement": "At every solution of a query (a test goal, a plan context, the search inside .findall), through however many rules, negations and actions it was found, the bindings made before are unchanged, and every variable that has become bound either occurs in the query, or in the value of such a variable, or was created during the search. Variables of the plan that the query does not mention, directly or through their values, stay unbound. The same holds for one unification and for matching with annotations.", "quantifier": "all queries, belief bases, rules, scopes, and consumers asking for any number of solutions", "why_tests_cant": "Rules are renamed apart on each use, actions unify results, answers of .findall are frozen; a missed renaming shows only for particular rule sets, recursion depths and bindings.", "anchors": ["agentspeak/runtime.py: TermQuery, AndQuery, OrQuery, NotQuery, UnifyQuery, ActionQuery.execute", "agentspeak/__init__.py: unify, unify_annotated, freeze", "agentspeak/stdlib.py: actions", "agentspeak/optimizer.py: Evilness.default_rule_like, default_function_like (parameters only)"]}
{"id": "C59", "title": "The optimizer never changes what is built, and builds only programs without plans", "statement": "Whenever agentspeak.optimizer.build_agent_optimized returns an agent, env.build_agent on the same source would have returned the same agent in the same environment. A source with at least one plan, or with a list with a tail [H|T] in a rule, belief or goal, is never built by it: it raises AttributeError and leaves the environment as it was. A source with neither, and without the optimizer's own directives, is built exactly as by env.build_agent; a directive .inf_mark_nosidef or .inf_side_effect is accepted exactly if its arguments are as documented.", "quantifier": "all source texts, included files, action tables and environments", "why_tests_cant": "It compares two entry points for every program; that no program with a plan gets through is a statement about all plans.", "anchors": ["agentspeak/optimizer.py: build_agent_optimized, InferenceCallback.init_agent, CallbackVisitor.visit_plan, collect_actions, handle_inf_mark_nosidef, handle_inf_side_effect", "agentspeak/parser.py: AstPlan"]}
{"id": "C60", "title": "The interactive session executes exactly the statements that are typed, however they are split into lines", "statement": "In a session of agentspeak.runtime.repl, the statements typed so far (plan bodies, each ended by a full stop) are executed once each, in the order in which they are typed, whether several are on one line or one is spread over several lines; an unfinished statement is kept until it is completed, and nothing but complete statements is executed. When a statement cannot be parsed or raises one of the library's errors, what was executed before stays executed, the pending input and the rest of that line are dropped, and the session goes on as if it began there; other exceptions end it. Of a line with an illegal character nothing is executed.", "quantifier": "all sequences of input lines, all divisions of the same tokens into lines, all behaviours of the statements that are executed", "why_tests_cant": "The ways to divide input into lines and the histories of a session are unbounded; that the parser's answer on a prefix never contradicts its answer on the whole is a statement about every cut point.", "anchors": ["agentspeak/runtime.py: repl", "agentspeak/parser.py: parse_plan_body", "agentspeak/lexer.py: tokenize", "agentspeak/__init__.py: Log"]}
{"id": "C61", "title": "Beliefs about a predicate change only if some program, or an outside event, says so", "statement": "Fix a functor and arity. Suppose that in the text of every program that is loaded, the belief additions, removals and replacements (+, -, -+), the arguments of .abolish and the contents of .send/.broadcast with tell or untell are written-out literals of other functors or arities, and that messages have one of the fixed forces tell, untell, achieve, unachieve. Then, from the moment initial beliefs have been loaded, and as long as no Python code raises belief events of this kind and no program with initial beliefs of this kind is loaded, every agent's beliefs of this kind stay exactly the same, whatever the agents do, in whatever order they are stepped, and whatever raises exceptions. While agents only step and receive such events, their plans and rules do not change either; the same for the run loops. (A belief that a variable stands for, as in +X, may be of any kind, so the text does not say what it changes.)", "quantifier": "all functors and arities, all programs, all histories of building agents, stepping them in any order and outside events, including operations that raise, all agents (also those made by build_agents, which share belief sets)", "why_tests_cant": "It is a frame property: nothing, in any interleaving of agents, messages, waiting intentions and exceptions, has an effect that the text does not announce.", "anchors": ["agentspeak/runtime.py: Agent.call, Agent.add_belief, Agent.remove_belief, Agent.step, Environment.build_agent_from_ast, Environment.build_agents, BuildInstructionsVisitor", "agentspeak/stdlib.py: _send, _broadcast, _abolish"]}
{"id": "C62", "title": "Included files are found relative to the including file, and file names are compared by where they lead", "statement": "The name in an include directive, if relative, leads to where it leads from the directory of the file that contains the directive (\"..\" one level up, \".\" and empty components nowhere), and if absolute is used as it is. The normalised name of a file, which is what is remembered of the files being read, is the same for two names exactly if they lead to the same place (without looking at links): the same leading slashes (none, one or at least three, exactly two), levels up and directories down.", "quantifier": "all file names of including files and all names in include directives, as texts", "why_tests_cant": "File names are arbitrary texts with any number of components, doubled slashes and dots.", "anchors": ["agentspeak/parser.py: parse_agent (include)", "posixpath: join, dirname, normpath"]}
{"id": "C63", "title": "The scope of a variable is its clause", "statement": "In a rule or plan, occurrences of the same variable name in head, condition and body are one variable, different names are different variables, all anonymous variables of a clause are one wildcard, and no variable is shared with another clause. Terms, conditions and formulas are otherwise built exactly as written; a literal is an action call exactly if an action of that name and arity is registered. What -+ removes is a pattern with variables of its own, and with wildcards in place of expressions.", "quantifier": "all rules, plans, beliefs and goals; all tables of actions; all states of the variable counter and the log", "why_tests_cant": "Clauses have any number of variables and any nesting of terms, conditions and loops.", "anchors": ["agentspeak/runtime.py: BuildTermVisitor, BuildReplacePatternVisitor, BuildQueryVisitor, BuildInstructionsVisitor, Environment.build_agent_from_ast"]}
{"id": "C64", "title": "The text given to .wait names exactly the event it is read as", "statement": "A text is read as an event if and only if it begins with an event of the grammar and a full stop, without illegal characters before that, and no expression is left after the constant ones are computed. The event waited for has the trigger, the kind of goal and the literal that are written there, with the same new variable for the same name. No text is the text of two events.", "quantifier": "all texts, all states of the variable counter", "why_tests_cant": "All event texts; a misread text makes the intention wait for another event, or for ever.", "anchors": ["agentspeak/stdlib.py: _wait", "agentspeak/runtime.py: BuildEventVisitor", "agentspeak/parser.py: parse_event, ConstFoldVisitor"]}
{"id": "C65", "title": "Exactly the suspicious places of a program are counted as warnings", "statement": "If a program is read without errors, the number of warnings is the number of: beliefs with variables, operators in the labels of plans, plans for the removal of a goal, rules and beliefs that come after a plan of the same file or block, rules and beliefs whose name contains a dot, and blocks. The contents of an included file or block count for themselves and again as a part of the whole. Building the rules and plans of an agent adds one warning for each literal with a dot that names no action, in a condition or as a formula of a body; initial beliefs and goals add none. Warnings change nothing else.", "quantifier": "all programs of any number of files, nested to any depth; all conditions and action libraries", "why_tests_cant": "All combinations of clauses and files.", "anchors": ["agentspeak/parser.py: parse_agent, parse_rule_or_belief, validate, FindVariablesVisitor, FindOpVisitor", "agentspeak/runtime.py: BuildQueryVisitor.visit_literal", "agentspeak/__init__.py: Log.warning"]}
{"id": "C66", "title": "Variables typed at the prompt are those of the session", "statement": "In an interactive session the statements are executed in order by one intention of the agent. A name that was typed in an earlier statement is the same variable, with the value it has got; a new name is a new variable, different from all others of the session. After each statement that raises no exception the agent has run until it has nothing to do, and the session shows one line `name = value` for each variable that has a value, in the order of the names, and one line with the number and the names of the others. A statement that raises an exception shows nothing and leaves the names as they are. Exceptions to `in order`: after a statement that waits for an event, later statements are not executed (C66_waiting), and neither are they after a statement whose subgoal failed with an exception (C66_stuck_refuted).", "quantifier": "all sessions: all lines, statements, programs, action libraries and states of the agent", "why_tests_cant": "All sequences of statements and divisions into lines, all scopes.", "anchors": ["agentspeak/runtime.py: repl, dump_variables, BuildInstructionsVisitor, Environment.run_agent"]}
{"id": "C67", "title": "The text of a program is read back as the program", "statement": "str() of the tree of a whole program is a text from which the parser reads the same rules, beliefs, goals and plans, in the same order, none missing and none added, whatever the name of the file and whatever other files exist. So printing the result of parsing a source and parsing the print gives the same tree, and two parsed programs with the same text are the same. Provisos: constants are numbers whose text is a numeral (C33), with or without a minus sign, but negative numbers not as the base of a power; else branches are not empty; without them it is false (C67_power_refuted, C67_else_refuted). Validation (constant folding) changes nothing in a program that has been validated.", "quantifier": "all programs, that is all lists of rules, beliefs, goals and plans of all sizes, and all sources with all files they include", "why_tests_cant": "All programs, names, strings and nestings of terms and blocks; all combinations of empty and non-empty sections.", "anchors": ["agentspeak/parser.py: AstAgent.__str__, AstRule.__str__, AstGoal.__str__, AstPlan.__str__, parse_agent, validate, ConstFoldVisitor"]}
