(** The programs of /repo/tests/asl, in the order of /repo/tox.ini, then the
    others there, and the scripts of /repo/examples that need no other Python
    code, run in the model: see RepoMain.v.  Tests, not theorems. *)
From Verif Require Import Base RepoMain.
From Coq Require Import String.
Open Scope string_scope.

Ltac runs := vm_compute; repeat split; reflexivity.

(** tests/asl/abolish.asl *)
Example asl_abolish : prints []%N 4000 200 "tests/asl/abolish.asl"
   ["b(1, 2)[source(foo)].";
    "b(2, 2)[source(percept)].";
    "b(3, 4)[source(percept)].";
    "";
    "!test.";
    "";
    "+!test <-";
    "    .abolish(b(_, _)[source(foo)]);";
    "    .abolish(b(X, X));";
    "    ?b(A, B);";
    "    A == 3;";
    "    B == 4."]
   [].
Proof. runs. Qed.

(** tests/asl/annotations.asl *)
Example asl_annotations : prints []%N 4000 200 "tests/asl/annotations.asl"
   ["weather(sunny)[source(self)].";
    "";
    "!test1.";
    "!test2.";
    "!test3.";
    "";
    "+!test1 <-";
    "  foo[a(1), b(X)] = foo[a(1), d(4), b(2), c(3)];";
    "  X == 2;";
    "  .print(""OK, X ="", X).";
    "";
    "+!test2 : weather(sunny)[source(X)] <-";
    "  X == self;";
    "  .print(""OK, X ="", X).";
    "";
    "+!test3 <-";
    "  foo[outer[inner]] = foo[outer[X]];";
    "  .print(""OK, X ="", X)."]
   ["OK, X = 2"; "OK, X = self"; "OK, X = inner"].
Proof. runs. Qed.

(** tests/asl/arithmetic.asl *)
Example asl_arithmetic : prints []%N 4000 200 "tests/asl/arithmetic.asl"
   ["!test.";
    "";
    "+!test <-";
    "  1 / 2 == 0.5;";
    "  1 div 2 == 0;";
    "  5 mod 3 == 2;";
    "  2 ** 128 mod 16 == 0;";
    "  X = 3 & -X == -3."]
   [].
Proof. runs. Qed.

(** tests/asl/datetime.asl *)
Example asl_datetime : prints []%N 4000 200 "tests/asl/datetime.asl"
   ["!test_date.";
    "!test_time.";
    "";
    "+!test_date : .date(Y, M, D) <-";
    "  .concat(Y, ""-"", M, ""-"", D, Date);";
    "  .print(""Date:"", Date).";
    "";
    "+!test_time : .time(H, M, S) <-";
    "  .concat(H, "":"", M, "":"", S, Time);";
    "  .print(""Time:"", Time)."]
   ["Date: 2026-11-16"; "Time: 20:15:0"].
Proof. runs. Qed.

(** tests/asl/family.asl *)
Example asl_family : prints []%N 4000 200 "tests/asl/family.asl"
   ["// https://en.wikipedia.org/wiki/Prolog#Execution";
    "";
    "mother_child(trude, sally).";
    "";
    "father_child(tom, sally).";
    "father_child(tom, erica).";
    "father_child(mike, tom).";
    "";
    "sibling(X, Y)      :- parent_child(Z, X) & parent_child(Z, Y) & not X = Y.";
    "";
    "parent_child(X, Y) :- father_child(X, Y).";
    "parent_child(X, Y) :- mother_child(X, Y).";
    "";
    "!p1.";
    "!p2.";
    "!p3.";
    "";
    "";
    "+!p1 <-";
    "  .print(""1. Siblings:"");";
    "  sibling(A, B);";
    "  .print(A, B).";
    "";
    "+!p2 <-";
    "  .print(""2. Siblings:"");";
    "  for (sibling(A, B)) {";
    "    .print(A, B)";
    "  }.";
    "";
    "+!p3 <-";
    "  .print(""3. Siblings:"");";
    "  ?sibling(A, B);";
    "  .print(A, B)."]
   ["1. Siblings:"; "erica sally"; "2. Siblings:"; "erica sally"; "sally erica"; "3. Siblings:"; "erica sally"].
Proof. runs. Qed.

(** tests/asl/findall.asl *)
Example asl_findall : prints []%N 4000 200 "tests/asl/findall.asl"
   ["a(30).";
    "a(20).";
    "b(1, 2).";
    "b(3, 4).";
    "b(5, 6).";
    "";
    "!t1.";
    "!t2.";
    "";
    "!test_count.";
    "";
    "+!t1 <-";
    "  .findall(X, a(X), L);";
    "  .print(L).";
    "";
    "+!t2 <-";
    "  .findall(c(Y, X), b(X, Y), L);";
    "  .print(L).";
    "";
    "+!test_count <-";
    "  .count(a(_), N1) & N1 == 2;";
    "  .count(b(X, X), 0);";
    "  .count(b(X, Y), 3);";
    "  .print("".count ok"")."]
   ["[20, 30]"; "[c(6, 5), c(4, 3), c(2, 1)]"; ".count ok"].
Proof. runs. Qed.

(** tests/asl/if-at-plan-end.asl *)
Example asl_if_at_plan_end : prints []%N 4000 200 "tests/asl/if-at-plan-end.asl"
   ["!go.";
    "";
    "+!go <-";
    "  if (.fail) {";
    "    .print(""Will not be printed."");";
    "    .fail;";
    "  }."]
   [].
Proof. runs. Qed.

(** tests/asl/pop-query.asl *)
Example asl_pop_query : prints []%N 4000 200 "tests/asl/pop-query.asl"
   ["!test_for_with_if.";
    "!test_for_with_while.";
    "!test_for_with_for.";
    "";
    "+!test_for_with_if <-";
    "  for(.member(I, [1, 2, 3])) {";
    "    if(false) {";
    "    }";
    "    +reached_after_if(I);";
    "  }";
    "  ?reached_after_if(1);";
    "  ?reached_after_if(2);";
    "  ?reached_after_if(3).";
    "";
    "+!test_for_with_while <-";
    "  for(.member(I, [1, 2, 3])) {";
    "    while(false) {";
    "    }";
    "    +reached_after_while(I);";
    "  }";
    "  ?reached_after_while(1);";
    "  ?reached_after_while(2);";
    "  ?reached_after_while(3).";
    "";
    "+!test_for_with_for <-";
    "  for(.member(I, [1, 2, 3])) {";
    "    for (.member(_, [])) {";
    "    }";
    "    +reached_after_for(I);";
    "  }";
    "  ?reached_after_for(1);";
    "  ?reached_after_for(2);";
    "  ?reached_after_for(3)."]
   [].
Proof. runs. Qed.

(** tests/asl/inline-comments.asl *)
Example asl_inline_comments : prints []%N 4000 200 "tests/asl/inline-comments.asl"
   ["!test.";
    "";
    "+!test <-";
    "  /* Start */ +reached; /* End */ ?reached."]
   [].
Proof. runs. Qed.

(** tests/asl/list.asl *)
Example asl_list : prints []%N 4000 200 "tests/asl/list.asl"
   ["list_a([3, 1, 2]).";
    "list_b([4, 5]).";
    "list_c([]).";
    "";
    "!test_unification.";
    "!test_concat.";
    "!test_min.";
    "!test_max.";
    "!test_nth.";
    "!test_sort.";
    "!test_length.";
    "!test_member.";
    "";
    "+!test_unification : list_a([A, B, C]) & list_b([D, E]) <-";
    "  .print(A, B, C, D, E).";
    "";
    "+!test_concat : list_a(A) & list_b(B) <-";
    "  .concat(A, B, R);";
    "  .print(R).";
    "";
    "+!test_min : list_a(A) <-";
    "  .min(A, R);";
    "  .print(""min = "", R);";
    "  R == 1.";
    "";
    "+!test_max : list_a(A) <-";
    "  .max(A, R);";
    "  .print(""max = "", R);";
    "  R == 3.";
    "";
    "+!test_nth : list_a(A) <-";
    "  .nth(0, A, R0) & R0 == 3;";
    "  .nth(1, A, R1) & R1 == 1;";
    "  .nth(2, A, R2) & R2 == 2;";
    "  .print(R0, R1, R2).";
    "";
    "+!test_sort : list_a(A) <-";
    "  .sort(A, Sorted);";
    "  .nth(2, Sorted, R) & R = 3;";
    "  .print(Sorted).";
    "";
    "+!test_length : list_a(A) & list_b(B) <-";
    "  .length(A, LengthA) & LengthA == 3;";
    "  .length(B, LengthB) & LengthB == 2;";
    "  .length(""hello"", 5).";
    "";
    "+!test_member : list_b(B) <-";
    "  .member(X, B) & X \== 4;";
    "  .member(Y, B) & Y == 4;";
    "  for (.member(M, B)) {";
    "    .print(M)";
    "  }."]
   ["3 1 2 4 5"; "[3, 1, 2, 4, 5]"; "min =  1"; "max =  3"; "3 1 2"; "[1, 2, 3]"; "4"; "5"].
Proof. runs. Qed.

(** tests/asl/odd.asl *)
Example asl_odd : prints []%N 4000 1000 "tests/asl/odd.asl"
   ["odd(1) :- true.";
    "odd(X) :- X > 0 & odd(X - 2).";
    "";
    "!a.";
    "!b.";
    "!c.";
    "";
    "+!a <- odd(5).";
    "+!b <- odd(7).";
    "+!c <- ?odd(101)."]
   [].
Proof. runs. Qed.

(** tests/asl/remove-belief.asl *)
Example asl_remove_belief : prints []%N 4000 200 "tests/asl/remove-belief.asl"
   ["did_not_say(""hello world"").";
    "";
    "!go.";
    "";
    "+!go <-";
    "  -did_not_say(X);";
    "  .ground(X);";
    "  .print(X)."]
   ["hello world"].
Proof. runs. Qed.

(** tests/asl/subplan.asl *)
Example asl_subplan : prints []%N 4000 200 "tests/asl/subplan.asl"
   ["foo(2).";
    "";
    "!init.";
    "";
    "+!subplan(X) : foo(X) <-";
    "  .print(""subplan:"", X).";
    "";
    "+!init <-";
    "  .print(""init"");";
    "  !subplan(X);";
    "  .print(""subplan returned:"", X);";
    "  X == 2."]
   ["init"; "subplan: 2"; "subplan returned: 2"].
Proof. runs. Qed.

(** tests/asl/substring.asl *)
Example asl_substring : prints []%N 4000 200 "tests/asl/substring.asl"
   ["!test_found.";
    "!test_not_found.";
    "";
    "";
    "+!test_found : .substring(""foo"", ""foo bar baz foo"", Pos) & Pos > 2 <-";
    "  .print(""Pos:"", Pos).";
    "";
    "";
    "+!test_not_found : .substring(""foo"", ""hello"", _) <- .fail.";
    "+!test_not_found <- .print(""foo not contained in hello"")."]
   ["Pos: 12"; "foo not contained in hello"].
Proof. runs. Qed.

(** tests/asl/syntax.asl *)
Example asl_syntax : prints []%N 4000 200 "tests/asl/syntax.asl"
   ["/*";
    " * An agent file with all syntactical constructs for parser testing.";
    " */";
    "";
    "// Initial beliefs";
    "";
    "round(apple).";
    "round(world).";
    "weight(apple, 0.25).";
    "weight(world, 5.9721986e24).";
    "negative(-1).";
    "grounded(not not true).";
    "";
    "// Rules.";
    "";
    "even(Number) :- not odd(Number).";
    "";
    "// Initial plans.";
    "";
    "!hello(world).";
    "!ungrounded(X, Y).";
    "";
    "// Plans";
    "";
    "+!hello(W) <-";
    "  .print(""Hello"", W).";
    "";
    "+!ungrounded(X, 8) <-";
    "  .print(""ungrounded:"", X, 8).";
    "";
    "+!always_successful.";
    "";
    "+!with_context(X) : weight(X, Weight) <-";
    "  if (Weight > 4) {";
    "    .print(""if"");";
    "  } else {";
    "    .print(""else"")";
    "  }.";
    "";
    "+!with_context(X) : true <-";
    "  .print(""Previous plan not applicable -> weight not known"").";
    "";
    "+!enumerate <-";
    "  .print(""Round things:"");";
    "  for (round(Thing)) {";
    "    .print(Thing);";
    "  }.";
    "";
    "+!loop(Z) : true <-";
    "  while (.buy(Z)) {";
    "    ?inventory(Count);";
    "    NewCount = Count + 1;";
    "    -+inventory(NewCount);";
    "  }.";
    "";
    "@annotation(foo, bar(Baz))";
    "+!subplans <-";
    "  !immediately;";
    "  !!later.";
    "";
    "-!subplans <-";
    "  .print(""subplans failed"").";
    "";
    "+inventory(NewCount) <-";
    "  .print(""Inventory belief updated: "", NewCount).";
    "";
    "// Include something";
    "";
    "{include(""/dev/null"")}";
    "";
    "// Apply a transformation";
    "";
    "{begin myTransformation(13)}";
    "  +!plan <-";
    "    +foo;";
    "    +bar;";
    "    +baz(-(2 ** 10 - 2 * 3) mod 5 div 2).";
    "{end}";
    "";
    "// Optional semicolons left out";
    "";
    "-tricky <-";
    "  for (foo(F)) {";
    "    for (bar(B)) {";
    "    }";
    "    for (jar(J)) {";
    "    }";
    "  }";
    "  for (baz(Z)) {";
    "  }."]
   ["Hello world"; "ungrounded: _X_abc_20 8"].
Proof. runs. Qed.

(** tests/asl/wait.asl *)
Example asl_wait : prints [40]%N 4000 200 "tests/asl/wait.asl"
   ["!alpha.";
    "!beta.";
    "!gamma.";
    "";
    "+!alpha <-";
    "  .print(""Waiting on beta"");";
    "  .wait(""+done(beta)"", 500);";
    "  +done(alpha);";
    "  .print(""Alpha done"").";
    "";
    "+!beta <-";
    "  .print(""Waiting on alpha"");";
    "  .wait(""+done(alpha)"");";
    "  +done(beta);";
    "  .print(""Beta done"").";
    "";
    "+!gamma <-";
    "  .wait(""+done(X)"");";
    "  .print(""Someone is done"")."]
   ["Waiting on beta"; "Waiting on alpha"; "Alpha done"; "Beta done"; "Someone is done"].
Proof. runs. Qed.

(** tests/asl/while.asl *)
Example asl_while : prints []%N 4000 200 "tests/asl/while.asl"
   ["a(1).";
    "a(2).";
    "a(3).";
    "";
    "!consume.";
    "";
    "+!consume <-";
    "  while(a(X)) {";
    "    .print(X);";
    "    -a(X);";
    "  }."]
   ["3"; "2"; "1"].
Proof. runs. Qed.

(** tests/asl/ext_stdlib.asl *)
Example asl_ext_stdlib : prints []%N 4000 200 "tests/asl/ext_stdlib.asl"
   ["!test_floor.";
    "!test_ceil.";
    "!test_round.";
    "!test_tail.";
    "";
    "+!test_floor <-";
    "  .floor(-3.7, -4);";
    "  .floor(0, 0);";
    "  .floor(2.9, 2).";
    "";
    "+!test_ceil <-";
    "  .ceil(-3.7, -3);";
    "  .ceil(0, 0);";
    "  .ceil(2.9, 3).";
    "";
    "+!test_round <-";
    "  .round(-3.7, -4);";
    "  .round(0, 0);";
    "  .round(2.9, 3).";
    "";
    "+!test_tail <-";
    "  L = [1, 2, 3, 4];";
    "  .nth(0, L, 1);";
    "  .tail(L, [2, 3, 4])."]
   [].
Proof. runs. Qed.

(** tests/asl/count.asl *)
Example asl_count : prints []%N 4000 200 "tests/asl/count.asl"
   ["bel(1).";
    "bel(2).";
    "";
    "!test_bound(1).";
    "!test_unbound(X).";
    "";
    "+!test_bound(Arg) <-";
    "  .count(bel(Arg), Cnt);";
    "  Cnt == 1.";
    "";
    "+!test_unbound(Arg) <-";
    "  .count(bel(Arg), Cnt);";
    "  Cnt == 2."]
   [].
Proof. runs. Qed.

(** tests/asl/nested-loops.asl *)
Example asl_nested_loops : prints []%N 4000 200 "tests/asl/nested-loops.asl"
   ["iterations(0).";
    "";
    "!test.";
    "";
    "+!test <-";
    "  for (.member(I, [1, 2, 3])) {";
    "    for (.member(J, [1, 2, 3, 4, 5])) {";
    "      .print(I, J);";
    "";
    "      ?iterations(X);";
    "      -+iterations(X + 1);";
    "    }";
    "  };";
    "  iterations(15)."]
   ["1 1"; "1 2"; "1 3"; "1 4"; "1 5"; "2 1"; "2 2"; "2 3"; "2 4"; "2 5"; "3 1"; "3 2"; "3 3"; "3 4"; "3 5"].
Proof. runs. Qed.

(** tests/asl/linked-list.asl *)
Example asl_linked_list : prints []%N 4000 200 "tests/asl/linked-list.asl"
   ["!test_simple.";
    "!test_multi.";
    "!test_nth.";
    "";
    "+!test_simple <-";
    "  L = [1, 2, 3, 4];";
    "  L = [A|B];";
    "  A == 1;";
    "  B == [2, 3, 4].";
    "";
    "+!test_multi <-";
    "  L = [1, 2, 3, 4];";
    "  [A|B|C] = L;";
    "  A == 1;";
    "  B == 2;";
    "  C == [3, 4].";
    "";
    "+!test_nth <-";
    "  Tail = [three, four];";
    "  L = [one|two|Tail];";
    "  .nth(0, L, one);";
    "  .nth(1, L, two);";
    "  .nth(2, L, three);";
    "  .nth(3, L, four)."]
   [].
Proof. runs. Qed.

(** tests/asl/linked-list-plan-header.asl *)
Example asl_linked_list_plan_header : prints []%N 4000 200 "tests/asl/linked-list-plan-header.asl"
   ["!start([1, 2]).";
    "";
    "+!start([H|T]) : true <-";
    "    H == 1."]
   [].
Proof. runs. Qed.

(** tests/asl/ordering-literals.asl *)
Example asl_ordering_literals : prints []%N 4000 200 "tests/asl/ordering-literals.asl"
   ["offer(38, gold).";
    "offer(23, silver).";
    "offer(34, wood).";
    "";
    "!test.";
    "";
    "+!test <-";
    "  .findall(a(X, Y), offer(X, Y), L);";
    "  .min(L, a(Price, Item));";
    "  Price == 23;";
    "  Item == silver."]
   [].
Proof. runs. Qed.

(** tests/asl/crashes/believe_in_floats.asl *)
Example asl_crashes_believe_in_floats : reports []%N 4000 200 "tests/asl/crashes/believe_in_floats.asl"
   ["!p1.";
    "";
    "+!p1 <- A = 1; +A."].
Proof. runs. Qed.

(** tests/asl/crashes/iterating_beliefs.asl *)
Example asl_crashes_iterating_beliefs : reports []%N 4000 200 "tests/asl/crashes/iterating_beliefs.asl"
   ["q(1).";
    "!p.";
    "";
    "+!p <- for(q(X)) {-q(X)}."].
Proof. runs. Qed.

(** tests/asl/crashes/ordering_strings.asl *)
Example asl_crashes_ordering_strings : reports []%N 4000 200 "tests/asl/crashes/ordering_strings.asl"
   ["/* Crashes in python3 only */";
    "!p.";
    "+!p <- 1 < ""a""."].
Proof. runs. Qed.

(** tests/asl/crashes/unreferenced_rules.asl *)
Example asl_crashes_unreferenced_rules : prints []%N 4000 200 "tests/asl/crashes/unreferenced_rules.asl"
   ["q(X) :- true."]
   [].
Proof. runs. Qed.

(** tests/asl/crashes/wrong_argument_type.asl *)
Example asl_crashes_wrong_argument_type : reports []%N 4000 200 "tests/asl/crashes/wrong_argument_type.asl"
   ["!p.";
    "+!p <- .nth(_, _, _)."].
Proof. runs. Qed.

(** tests/asl/illegal-belief.asl *)
Example asl_illegal_belief : reports []%N 4000 200 "tests/asl/illegal-belief.asl"
   ["!p1(1,X).";
    "// !p2(1,2).";
    "";
    "+!p1(A, B) <-";
    "  C = 5;";
    "  +test(A, B, C).  # ok";
    "";
    "+!p2(A, B) <-";
    "  +test(A, B, C).  # C unbound";
    "";
    "+!p3(A, B) <-";
    "  X = Z + 1.";
    "";
    "";
    "";
    "// a(1,3)[1,2] = a(X,Y)[Z]"].
Proof. runs. Qed.

(** tests/asl/optimizer.asl *)
Example asl_optimizer : prints []%N 4000 200 "tests/asl/optimizer.asl"
   ["+!test1(X, Y1, Y2) <-";
    "    .inf_mark_nosidef("".p"");";
    "";
    "    /* unary ops */";
    "    .p(+A); /* warning */";
    "    +p(A); /* no warning, A considered ground */";
    "    A = p(1); .p(+A); /* warning */";
    "    .p(+ - + - 8); /* optimized to constant */";
    "    .p(X + X); /* nothing */";
    "    ";
    "    /* unification */";
    "    B = X+X; B = Y1; .p(Y1, B); /* changed into .p(B, B) */";
    "    C = Y2; .p(Y2, C); /* changed into .p(Y2, Y2) */";
    "    D = p(X+X, X, 3); .p(D); /* unify for X+X, inline D */";
    "    E = p(X+X, X, 3); /* optimized away */";
    "    Y2 = p(5); /* nothing */";
    "    Y2 = q(5); /* warning */";
    "    Y2 = p(5, 5); /* warning */";
    "    p(p(3), 3) = p(p(3), 3); /* optimized away */";
    "    p(p(7), 7) = p(p(X+X), 7); /* simplified */";
    "    Y2 = 3; /* warning */";
    "    3 = 4; /* warning */";
    "    3 = X+X; /* nothing */";
    "    X+X = X+X; /* nothing */";
    "    p(_, 3) = p(X+X, 3); /* optimized away */";
    "    ";
    "    /* binary ops */";
    "    .p(F + F); /* warning */";
    "    +p(F); /* no warning, F considered ground */";
    "    G = p(5); .p(1 + G); /* warning */";
    "    F = 3;";
    "    .p(5 + F); /* constant propagation */";
    "    ";
    "    /* other formula types */";
    "    +p(p(H), 3); /* warning */";
    "    +p(H); /* no warning, term considered ground */";
    "    -I; /* warning */";
    "    -p(J); J = 3; /* nothing, J considered unproven */";
    "    ";
    "    /* if-then-else 1 */";
    "    if (true)  {K = 1; .p(3)} else {K = 2}; .p(K); /* simplified */";
    "    if (false) {L = 1} else {L = 2}; .p(L); /* optimized to .p(2) */";
    "    if (J) {true} else {true}; /* warning */";
    "    if (X == 5) {M = 1} else {M = 2}; .p(M); /* not optimized */";
    "    if (X == 6) {N = 1} else {N = 1}; .p(N); /* optimized to .p(1) */";
    "    if (X == 7) {O = 1} else {}; /* optimized away */";
    "";
    "    /* term elimination */";
    "    p(P, _) = p(X+X, 3); /* optimized away */";
    "    p(Q, _) = p(X+X, 3); .p(Q); /* kept, but simplified */";
    "";
    "    /* side-effects 1 */";
    "    .inf_nosideef; /* optimized away */";
    "";
    "    true.";
    "";
    "+!test2 <-";
    "    /* side-effects 2 */";
    "    .inf_disable_local; /* plan is not optimized */";
    "    true.";
    "    ";
    "+!test3(X, Ha) :";
    "    /* context */";
    "    Ga = 17 /* optimized away */";
    "<-";
    "    .p(Ga); /* simplified */";
    "";
    "    /* side-effects 3 */";
    "    .inf_side_effect(""AFFECT_PARAM_ALL"", ""EFFECT_CHANGE""); /* warning */";
    "    .inf_side_effect(""AFFECT_PARAM_ALL"", ""EFFECT_UNBIND""); /* warning */";
    "";
    "    .inf_side_effect(""AFFECT_PARAM_ALL"", ""EFFECT_BIND"", A); /* optimized away */";
    "    A = 1; /* kept, A was considered unproven */";
    "    ";
    "    .inf_side_effect(""AFFECT_PARAM_ALL"", ""EFFECT_DOBIND"", B); /* optimized away */";
    "    B = 2; /* kept, B was considered bound */";
    "";
    "    C = 3; /* kept */";
    "    .inf_side_effect(""AFFECT_SCOPE"", ""EFFECT_CHANGE""); /* optimized away */";
    "    3 = C; /* kept */";
    "";
    "    /* lists */";
    "    D = [E, 2, 3]; .p(D); /* kept, no value optimisations for lists */";
    "";
    "    E = 2; /* kept, E was considered unproven */";
    "    [F, 2] = [3, 2]; .p(F); /* simplified */";
    "    p(5, 6) = [7, 8]; /* warning */";
    "    5 = [9, 1]; /* warning */";
    "    X+X = [2, 3]; /* warning */";
    "    [2, 3] = [2, 3, 4]; /* warning */";
    "";
    "    /* if-then-else 2 */";
    "    if (G = X+X) {.p(3)} else {.p(4)} /* optimized */";
    "    .p(G);";
    "    if (G = X+2) {} /* optimized away */";
    "    if (G = X+3) {} else {.p(5)} /* nothing */";
    "";
    "    /* while and for */";
    "    while (p(X)) {";
    "        H = 3 /* optimized away */";
    "    }";
    "    .p(H); /* warning, H unbound */";
    "    while (false) {H = 3} /* optimized away */";
    "";
    "    /* boolean operators */";
    "    I = true; /* optimized away */";
    "    .p(I & (false | I)); /* simplified */";
    "";
    "    /* belief queries */";
    "    J = X+X & K = X+X; /* expanded into statements */";
    "    .p(J, K);";
    "    if (p(3) & L = 4) {.p(L)} /* simplified L to 4 */";
    "    if (p(4) | M = 4) {.p(M)} /* nothing, M considered unproven */";
    "    if ((p(N) & N = 4) | N = 4) {.p(N)} /* simplified N to 4 */";
    "    if (p(O, P, _) = p(5, 6, 7)) {.p} /* simplified and expanded */";
    "    if (not p(Q)) {.p(Q)} /* warning */";
    "";
    "    Q = X+2 & p(Q) | true; /* kept, because of errors, else removed */";
    "    if (R = X+3 & p(2)) {.p} /* simplified */";
    "    if (S = X+3 & p(2)) {.p(S)} /* nothing */";
    "    (T = X+3 | X+X > X+3) | true; /* simplified */";
    "    true | (U = X+3 | X+X > X+3); /* simplified */";
    "    not p(V) | true; /* kept, because of errors, else removed */";
    "    ";
    "    /* variables in variables */";
    "    if (X+X > 1) {W = p(Aa); Ca = p(Da)} /* nothing */";
    "    W = p(1); /* kept, Aa is used later */";
    "    Ca; /* kept, Da is used later */";
    "    .p(Aa, Da);";
    "    p(Ea, Fa);";
    "    Fa | true; /* kept, Fa may bind Ea */";
    "    Ea;";
    "";
    "    /* annotations */";
    "    p[1] = p; /* warning */";
    "    p(X+1)[X+2, w(X+3)] = p(X+3)[X+4, w(X+5)]; /* split */";
    "    ";
    "    /* standard library */";
    "    Ia = 5;";
    "    .unbind_all;";
    "    .print(Ia); /* nothing, Ia considered unproven */";
    "";
    "    true."]
   [].
Proof. runs. Qed.

(** tests/asl/optimizer_actions.asl *)
Example asl_optimizer_actions : prints []%N 4000 200 "tests/asl/optimizer_actions.asl"
   ["!p.";
    "+!p <-";
    "    .inf_mark_nosidef("".w"");";
    "    .inf_nosideef;";
    "    .inf_disable_local;";
    "    .inf_side_effect(""AFFECT_PARAM_ALL"", ""EFFECT_BIND"", A);";
    "    .unbind_all;";
    "    .print(""Done."") ."]
   ["Done."].
Proof. runs. Qed.

(** examples/hello_world.asl *)
Example asl_hello_world : prints []%N 4000 200 "examples/hello_world.asl"
   ["!hello_world.";
    "";
    "+!hello_world <-";
    "  .print(""Hello world!"")."]
   ["Hello world!"].
Proof. runs. Qed.

(** examples/annotations/test.py *)
Example asl_annotations_test : script_prints []%N 4000 200
  [("examples/annotations/sender.asl", 2%nat,
    ["!start.";
    "";
    "+!start";
    "<-";
    "    .send(receiver,tell, hello(world))."]);
   ("examples/annotations/receiver.asl", 1%nat,
    ["";
    "!start.";
    "";
    "@p1[hello(world),time(sunny)]";
    "+!start";
    "<- ";
    "    .print(""hello world"").";
    "";
    "+!start";
    "<-";
    "    .print(""by world"").";
    "";
    "+hello(world)[source(sender1)]";
    "<-";
    "    .print(""I receive a message from sender1"");";
    "    -hello(world)[source(sender1)];";
    "    -hello(world);";
    "    !stop.";
    "";
    "+hello(world)[source(S)]";
    "<-";
    "    .print(""I receive a message from"", S).";
    "";
    "";
    "+!stop: hello(world)[source(S)]";
    "<-";
    "    .print(""almost one belief remains"").";
    "";
    "+!stop";
    "<-";
    "    .print(""all delete"")."])]
  [("receiver", "hello world"); ("receiver", "I receive a message from sender"); ("receiver", "I receive a message from sender1"); ("receiver", "all delete")].
Proof. runs. Qed.

(** examples/askhow/env_askhow.py *)
Example asl_askhow_env_askhow : script_prints []%N 4000 200
  [("examples/askhow/agent1.asl", 1%nat,
    ["me(100).";
    "";
    "!start.";
    "";
    "";
    "+!start";
    "    <-";
    "        .print(""Ask Plan"");";
    "        .send(agent2, askHow, ""+!hello"");";
    "        .print(""Plan added"");";
    "        !hello;";
    "        -me(100);";
    "        !hello";
    ".";
    "";
    ""]);
   ("examples/askhow/agent2.asl", 1%nat,
    ["";
    "";
    "+!hello : me(100) <-";
    "    .print(""This is plan2"").";
    "";
    "";
    "+!hello <-";
    "    .print(""This is plan"").";
    "";
    ""])]
  [("agent1", "Ask Plan"); ("agent1", "Plan added"); ("agent1", "This is plan"); ("agent1", "This is plan")].
Proof. runs. Qed.

(** examples/askhow/env_askhow2.py *)
Example asl_askhow_env_askhow2 : script_prints []%N 4000 200
  [("examples/askhow/agent3.asl", 1%nat,
    ["!start.";
    "";
    "+!start";
    "    <-";
    "        .print(""Ask Plan"");";
    "        .send(agent4, tellHow, ""@pred[me(3)] +!hello(N,C)[me(A)] <- .print(C, \"" says hello to \"", N)."");";
    "        .send(agent4, askHow, ""+!hello(Q,F)"");";
    "        .print(""Plan added ..."");";
    "        !hello(1,2)[me(10)]."]);
   ("examples/askhow/agent4.asl", 1%nat,
    [])]
  [("agent3", "Ask Plan"); ("agent3", "Plan added ..."); ("agent3", "2  says hello to  1")].
Proof. runs. Qed.

(** examples/askhow/env_askhow3.py *)
Example asl_askhow_env_askhow3 : script_prints [40; 81]%N 4000 200
  [("examples/askhow/receiver.asl", 1%nat,
    ["@plan_tag2[hello(1)]";
    "+!plan1(N) : not meet(john) & meet(george) <-";
    "  .print(""This plan is from"", N)."]);
   ("examples/askhow/sender.asl", 1%nat,
    ["!start.";
    "";
    "meet(george).";
    "";
    "+!start";
    "   <- ";
    "      .print(""Ask Plan"");";
    "      .send(receiver, askHow, ""+!plan1"");";
    "      .print(""Plan added..."");";
    "      .wait(1000);";
    "      !plan1(scarlett)";
    "   ."])]
  [("sender", "Ask Plan"); ("sender", "Plan added..."); ("sender", "This plan is from scarlett")].
Proof. runs. Qed.

(** examples/communication/env.py *)
Example asl_communication_env : script_prints [40; 80; 121]%N 4000 200
  [("examples/communication/receiver.asl", 3%nat,
    ["";
    "";
    "+!hello(Msg,M)[source(Sender)] <-";
    "  .print(""got a message from saying"", Msg, M, Sender)."]);
   ("examples/communication/sender.asl", 1%nat,
    ["!start.";
    "+!start <-";
    "  /*.print(""about to broadcast ..."");";
    "  .broadcast(achieve, hello(42,56));";
    "  .print(""broadcasted."");";
    "  .print(""sending individual message ..."");*/";
    "";
    "  .send(receiver,askHow, ""+!hello(M,N)"");";
    "  .wait(2000);";
    "  !hello(2,3)[source(self)];";
    "  .print(""sent."")."])]
  [("sender", "got a message from saying 2 3 self"); ("sender", "sent.")].
Proof. runs. Qed.

(** examples/tellHow/env_tellhow.py *)
Example asl_tellHow_env_tellhow : script_prints [40; 81]%N 4000 200
  [("examples/tellHow/agent2.asl", 1%nat,
    ["!start.";
    "";
    "+!start";
    "    <- ";
    "        .send(agent1,tellHow, ""+!hello <- .print(\""Hello World\"")."");";
    "";
    "        .print(""Added plan hello"");";
    "        .wait(1000);";
    "";
    "        .print(""Send achieve hello"");";
    "        .send(agent1,achieve,hello);";
    "        .print(""Send achieve bye"");";
    "        .send(agent1,achieve,bye)."]);
   ("examples/tellHow/agent1.asl", 1%nat,
    ["!start.";
    "";
    "+!start <-";
    "    .print(""Waiting for a plan"").";
    "";
    "+!bye <-";
    "    .print(""Bye"").";
    ""])]
  [("agent1", "Waiting for a plan"); ("agent2", "Added plan hello"); ("agent2", "Send achieve hello"); ("agent1", "Hello World"); ("agent2", "Send achieve bye"); ("agent1", "Bye")].
Proof. runs. Qed.

(** examples/tellHow/env_tellhow2.py *)
Example asl_tellHow_env_tellhow2 : script_prints []%N 4000 200
  [("examples/tellHow/receiver.asl", 1%nat,
    ["!start.";
    "";
    "+!start <- ";
    "  .print(""Waiting for start message..."")."]);
   ("examples/tellHow/sender.asl", 1%nat,
    ["!start.";
    "";
    "+!start";
    "   <- ";
    "      .print(""Telling plan to slave"");";
    "";
    "      .send(receiver, tellHow, ""+!hello(N) <- .print(\""I'm a plan called \"", N)."");";
    "      .send(receiver, achieve, hello(john));";
    "      .send(receiver, achieve, hello(jack))."])]
  [("receiver", "Waiting for start message..."); ("sender", "Telling plan to slave"); ("receiver", "I'm a plan called  john"); ("receiver", "I'm a plan called  jack")].
Proof. runs. Qed.

(** examples/unAchieve/env_unAchieve.py *)
Example asl_unAchieve_env_unAchieve : script_prints [42; 80; 120; 160; 200; 240; 280; 322; 360; 400; 440]%N 4000 200
  [("examples/unAchieve/receiver.asl", 1%nat,
    ["+!plan1(N) <-";
    "  .wait(800);";
    "  .print(""Plan1"", N);";
    "  !plan1(N)";
    ".";
    "";
    "+!plan2(N) <-";
    "  .wait(800);";
    "  .print(""Plan2"", N);";
    "  !plan2(N)";
    ".";
    "";
    "+!plan3(N, M) <-";
    "    .wait(800);";
    "    .print(""Plan3"", N, ""-"", M);";
    "    !plan3(N, M)";
    "."]);
   ("examples/unAchieve/sender.asl", 1%nat,
    ["!start.";
    "";
    "+!start <-";
    "  .print(""start plan1(1) achievement ..."");";
    "  .send(receiver, achieve, plan1(1));";
    "  .print(""start plan1(2) achievement ..."");";
    "  .send(receiver, achieve, plan1(2));";
    "  .print(""start plan2(3) achievement ..."");";
    "  .send(receiver, achieve, plan2(3));";
    "  .wait(2000);";
    "  .print(""start plan3(3,2) achievement ..."");";
    "  .send(receiver, achieve, plan3(3, 2));";
    "  .wait(3000);";
    "  .print(""cancel achievents ..."");";
    "  .send(receiver, unachieve, plan3(N, M));";
    "  .print(""plan3(N,M) cancelled."");";
    "  .wait(1000);";
    "  .send(receiver, unachieve, plan1(N));";
    "  .print(""plan1(N) cancelled."");";
    "  .wait(1000);";
    "  .send(receiver, unachieve, plan2(N));";
    "  .print(""plan2(N) cancelled."")."])]
  [("sender", "start plan1(1) achievement ..."); ("sender", "start plan1(2) achievement ..."); ("sender", "start plan2(3) achievement ..."); ("receiver", "Plan1 1"); ("receiver", "Plan1 2"); ("receiver", "Plan2 3"); ("receiver", "Plan1 1"); ("receiver", "Plan1 2"); ("receiver", "Plan1 1"); ("sender", "start plan3(3,2) achievement ..."); ("receiver", "Plan1 2"); ("receiver", "Plan1 1"); ("receiver", "Plan1 2"); ("receiver", "Plan2 3"); ("receiver", "Plan1 1"); ("receiver", "Plan1 2"); ("receiver", "Plan1 1"); ("receiver", "Plan1 2"); ("receiver", "Plan2 3"); ("sender", "cancel achievents ..."); ("receiver", "Plan1 1"); ("sender", "plan3(N,M) cancelled."); ("receiver", "Plan1 2"); ("receiver", "Plan1 1"); ("receiver", "Plan1 2"); ("receiver", "Plan2 3"); ("receiver", "Plan1 1"); ("sender", "plan1(N) cancelled."); ("receiver", "Plan2 3"); ("receiver", "Plan2 3"); ("sender", "plan2(N) cancelled.")].
Proof. runs. Qed.

(** examples/untellhow/env_untellhow.py *)
Example asl_untellhow_env_untellhow : script_prints [41; 81; 121; 161; 201]%N 4000 200
  [("examples/untellhow/agent1.asl", 1%nat,
    ["";
    "!start.";
    "";
    "";
    "+!start";
    "    <-";
    "        .wait(3000);";
    "        .print(""Delete plan"");";
    "        .send(agent2, untellHow, ""@plan_tag"");";
    "        .print(""Plan Deleted"")."]);
   ("examples/untellhow/agent2.asl", 1%nat,
    ["me(100).";
    "";
    "!plan1.";
    "";
    "";
    "@plan_tag[value(45)]";
    "+!plan1 : me(100) <-";
    "    .print(""This is plan1 with me(100)"");";
    "    .wait(800);";
    "    !plan1.";
    "";
    "+!plan1 <-";
    "    .print(""This is plan1 without me(100)"");";
    "    .print(""Ending example"").";
    ""])]
  [("agent2", "This is plan1 with me(100)"); ("agent2", "This is plan1 with me(100)"); ("agent2", "This is plan1 with me(100)"); ("agent2", "This is plan1 with me(100)"); ("agent1", "Delete plan"); ("agent2", "This is plan1 with me(100)"); ("agent1", "Plan Deleted"); ("agent2", "This is plan1 without me(100)"); ("agent2", "Ending example")].
Proof. runs. Qed.

(** examples/untellhow/env_untellhow2.py *)
Example asl_untellhow_env_untellhow2 : script_prints [40; 82; 120; 161; 200; 240; 280; 321]%N 4000 200
  [("examples/untellhow/receiver.asl", 1%nat,
    ["!start.";
    "";
    "+!start <- ";
    "  .print(""Starting..."");";
    "  !plan1.";
    "";
    "@custom_tag";
    "+!plan1 <-";
    "  .print(""I'm a plan"");";
    "  .wait(1000);";
    "  !plan1.";
    "";
    "+!plan1 <-";
    "  .print(""Ending example"")."]);
   ("examples/untellhow/sender.asl", 1%nat,
    ["";
    "!start.";
    "";
    "+!start";
    "   <- ";
    "      .wait(5000);";
    "      .print(""Make the receiver forget about the plan"");";
    "      .send(receiver, untellHow, ""@custom_tag"")."])]
  [("receiver", "Starting..."); ("receiver", "I'm a plan"); ("receiver", "I'm a plan"); ("receiver", "I'm a plan"); ("sender", "Make the receiver forget about the plan"); ("receiver", "I'm a plan"); ("receiver", "Ending example")].
Proof. runs. Qed.

(** examples/counting/counting.py *)
Example asl_counting_counting : script_prints []%N 4000 200
  [("examples/counting/counting.asl", 2%nat,
    ["init_count(0).";
    "max_count(5).";
    "";
    "!startcount.";
    "";
    "+!startcount : init_count(X) & max_count(Y) <-";
    "    +actual_count(X);";
    "    !count.";
    "";
    "+!count : actual_count(X) & max_count(Y) & X < Y <-";
    "    NewCount = X + 1;";
    "    // .print(NewCount);";
    "    -+actual_count(NewCount);";
    "    !count.";
    "";
    "+!count : actual_count(X) & max_count(Y) & X >= Y. /*";
    "    .my_name(Name);";
    "    .print(Name, "" terminated count""). */"])]
  [].
Proof. runs. Qed.

(** tests/test_parser.py *)
Definition refused (text : string) : Prop :=
  @Program.parse_source (PyRun []) only_null 100 (s2p "<test>") [s2p text] = Err EAggregated.
Example test_formula_type : refused "+!plan <- ?true.".
Proof. runs. Qed.
Example test_rule_head_not_unifiable : refused "rule(X + 1) :- true.".
Proof. runs. Qed.
Example test_unexpected_eof : refused "a".
Proof. runs. Qed.
Example test_unify_return_value : refused "+!p <- (X = 2) + 1 > 0.".
Proof. runs. Qed.

(** tests/test_terms.py *)
From Verif Require Import Num Term Unify Quote.
From Coq Require Import Floats.SpecFloat.
Definition i (z : Z) : term := TNum (NInt z).
Definition fl (m e : Z) : term := TNum (NFlt (binary_normalize prec emax m e false)).
Definition x : term := TVar 0.
Definition y : term := TVar 1.
Definition lit (f : string) (args annots : list term) : term := TLit (s2p f) args annots.
Example test_unifies : map (fun '(l, r) => @unifies (PyRun []) 20 l r)
  [(TBool true, i 1); (i 3, fl 3 0); (TBool true, TBool true); (i 5, TWild 0); (TTup [i 1; i 2], TTup [i 1; TWild 0]);
   (TTup [TStr (s2p "hello"); i 2], TTup [TStr (s2p "hello"); x]); (x, lit "beep" [] []); (lit "boop" [] [], x);
   (lit "foo" [x; x] [], lit "foo" [i 1; i 1] []); (lit "bar" [x; x] [], lit "bar" [i 1; i 2] [])] =
  map Ok [false; true; true; true; true; true; true; true; true; false].
Proof. runs. Qed.
Definition a : term := TStr (s2p "a").
Definition b : term := TStr (s2p "b").
Definition foo (annots : list term) : term := lit "foo" [] (@mk_set (PyRun []) annots).
Example test_unifies_annotated : map (fun '(l, r) => @unifies_annotated (PyRun []) 20 (foo l) (foo r))
  [([a], [a; b]); ([a], [x; y]); ([a], [x; x]); ([a; b], [x; y]); ([x; y], [a; b]); ([x; x], [a; b]); ([a; b], [x; x]); ([x; y], [a])] =
  map Ok [true; true; true; true; true; true; false; false].
Proof. runs. Qed.
Example test_parse_string : parse_string (s2p """hello""") = Ok (s2p "hello") /\
  parse_string ([34%N] ++ s2p "line 1" ++ [10%N] ++ s2p "line 2" ++ [34%N])%list = Ok (s2p "line 1" ++ [10%N] ++ s2p "line 2")%list.
Proof. runs. Qed.
Example test_is_number : map is_number [i 1; fl (-37) 0; i (2 ^ 128); TStr (s2p "a string"); TBool false; TBool true] = [true; true; true; false; false; false].
Proof. runs. Qed.
