(** C11, C12, C35: backtracking search.  Specification: QuerySpec.v (the
    list-of-solutions semantics [sols], what a consumer sees of it [take], what it
    sees of the generators [drive]), EnumSpec.v. *)
From Verif Require Import Base Num Term Unify TrailSpec Str World Engine QuerySpec QueryCor EnumSpec EnumFacts FindFacts InstSpec Names ExPy.
From Coq Require Import Sorted.

(** C11.  [c] is the list of requests of a consumer of the query, with what it
    does between them (further bindings, if the query is not started with [b]).
    What the generators deliver is exactly what the semantics says: the scopes
    [l], in order, and how the enumeration ends.  (With too little fuel there is
    no outcome on either side.) *)
Theorem C11_search_enumerates : forall (PY : Py) (FR : Front) b a i q c st W l o,
  proper b q = true -> proper_db b (db_of a W) -> (b = true -> Forall (fun p => fst p = []) c) ->
  o <> Raised ERecursion ->
  (exists n0, forall n, (n0 <= n)%nat -> fst (drive c n a i (GQ q) (st, W)) = (l, o)) <->
  (exists d0, forall d, (d0 <= d)%nat -> take c (sols d (db_of a W) q (b_scope st) (w_nv W)) = (l, o)).
Proof. exact @query_iff. Qed.
Print Assumptions C11_search_enumerates.

(** Whatever is delivered with some fuel is delivered with more. *)
Theorem C11_fuel_irrelevant : forall (PY : Py) (FR : Front) a i c n m g s, (n <= m)%nat ->
  snd (fst (drive c n a i g s)) <> Raised ERecursion -> drive c m a i g s = drive c n a i g s.
Proof. exact @drive_more. Qed.
Print Assumptions C11_fuel_irrelevant.

(** A condition whose value is neither true nor false nor a literal raises an
    AslError; for lists of length other than one, a TypeError (the text of the
    message cannot be built). *)
Theorem C11_no_condition : forall (PY : Py) (FR : Front) a i t v d st W os k c,
  proper_db false (db_of a W) -> evaluate d t (b_scope st) = Ok v -> is_literal v = false -> is_bool v = false ->
  exists n0, forall n, (n0 <= n)%nat -> fst (drive ((os, k) :: c) n a i (GQ (QTerm t)) (st, W)) =
    ([], Raised (if unformattable v then EType else EAsl)).
Proof. exact @term_raises. Qed.
Print Assumptions C11_no_condition.

(** Actions that bind their result keep the binding on backtracking:
    .my_name(X) | X = bob has two solutions, one is found. *)
Theorem C11_action_refuted : let q := QOr (my_name_act (TVar 9)) (QUnify (TVar 9) (lit0 "bob")) in
  let c := [([], 0%N); ([], 0%N); ([], 0%N)] in
  @take c (@sols PyEx 8 (@db_of 0 family) q [] 10) = ([[(9%N, lit0 "fred")]; [(9%N, lit0 "bob")]], Exhausted) /\
  (forall n, (8 <= n)%nat -> fst (@drive PyEx FrontEx c n 0 0 (GQ q) (mkbst [] [] 0, family)) =
     ([[(9%N, lit0 "fred")]], Exhausted)).
Proof. exact leaky_or. Qed.
Print Assumptions C11_action_refuted.

(** C12.  When the query has no more solutions, scope and stack are those before
    it was started, and nothing else has changed.  [b = true]: no action leaves
    bindings, and the consumer does not bind variables between requests;
    [restoring q]: whatever the consumer and other queries have bound. *)
Theorem C12_exhausted_restores : forall (PY : Py) (FR : Front) b a i q c n st W l st' W',
  proper b q = true -> proper_db b (db_of a W) -> (b = true -> Forall (fun p => fst p = []) c) ->
  b = true \/ restoring q = true ->
  drive c n a i (GQ q) (st, W) = (l, Exhausted, (st', W')) ->
  b_scope st' = b_scope st /\ b_stack st' = b_stack st /\ unchanged W W'.
Proof. exact @query_restores. Qed.
Print Assumptions C12_exhausted_restores.

(** [not q] binds nothing when it succeeds, and succeeds only if [q] has no
    solution. *)
Theorem C12_not_binds_nothing : forall (PY : Py) (FR : Front) b a i q n st W g' st' W',
  proper b q = true -> proper_db b (db_of a W) ->
  resume n a i (GQ (QNot q)) (st, W) = (Ok (Some g'), (st', W')) ->
  b_scope st' = b_scope st /\ b_stack st' = b_stack st /\ unchanged W W' /\
  exists d, sols d (db_of a W) q (b_scope st) (w_nv W) = TEnd (w_nv W').
Proof. exact @not_binds_nothing. Qed.
Print Assumptions C12_not_binds_nothing.

(** An exhausted action may leave a binding. *)
Theorem C12_action_refuted : forall n, (8 <= n)%nat -> exists l st' W',
  @drive PyEx FrontEx [([], 0%N); ([], 0%N)] n 0 0 (GQ (my_name_act (TVar 9))) (mkbst [] [] 0, family) = (l, Exhausted, (st', W')) /\
  b_scope st' = [(9%N, lit0 "fred")].
Proof. exact leaky_exhausted. Qed.
Print Assumptions C12_action_refuted.

(** C35.  .member(x, l) unifies [x] with each member in order ... *)
Theorem C35_member : forall (PY : Py) (FR : Front) d x l v items f annots a i st W c,
  evaluate d l (b_scope st) = Ok v -> list_of v items -> decided d x items (b_scope st) ->
  (List.length (hits d x items (b_scope st)) < List.length c)%nat ->
  exists n0, forall n, (n0 <= n)%nat ->
    fst (drive c n a i (GQ (QAct AMember (TLit f [x; l] annots))) (st, W)) = (hits d x items (b_scope st), Exhausted).
Proof. exact @member_enum. Qed.
Print Assumptions C35_member.

(** ... .range(m, x) with each of 0, ..., m - 1 ... *)
Theorem C35_range : forall (PY : Py) (FR : Front) d m x v z f annots a i st W c,
  let items := map (fun k => TNum (NInt (Z.of_nat k))) (seq 0 (Z.to_nat z)) in
  grounded d m (b_scope st) = Ok v -> to_int v = Ok z -> decided d x items (b_scope st) ->
  (List.length (hits d x items (b_scope st)) < List.length c)%nat ->
  exists n0, forall n, (n0 <= n)%nat ->
    fst (drive c n a i (GQ (QAct ARange (TLit f [m; x] annots))) (st, W)) = (hits d x items (b_scope st), Exhausted).
Proof. exact @range_enum. Qed.
Print Assumptions C35_range.

(** ... .substring(t0, t1, x) with each position where the text of [t0] occurs in
    the text of [t1], in increasing order, overlapping or not. *)
Theorem C35_substring : forall (PY : Py) (FR : Front) d t0 t1 x v0 v1 f annots a i st W c,
  grounded d t0 (b_scope st) = Ok v0 -> grounded d t1 (b_scope st) = Ok v1 ->
  exists ks, StronglySorted Z.lt ks /\
    (forall z, In z ks <-> exists k, occurs_at (asl_str v0) (asl_str v1) k /\ z = Z.of_nat k) /\
    let items := map (fun z => TNum (NInt z)) ks in
    decided d x items (b_scope st) -> (List.length (hits d x items (b_scope st)) < List.length c)%nat ->
    exists n0, forall n, (n0 <= n)%nat ->
      fst (drive c n a i (GQ (QAct ASubstring (TLit f [t0; t1; x] annots))) (st, W)) = (hits d x items (b_scope st), Exhausted).
Proof. exact @substring_enum. Qed.
Print Assumptions C35_substring.

(** .findall(pat, goal, x): [l] are the solutions of the goal, [ts] the instances
    of the pattern in them; [x] is unified with the list of these. *)
Theorem C35_findall : forall (PY : Py) (FR : Front) d a i st W c goal l,
  proper_db false (db_of a W) -> plain_pauses c ->
  take c (sols d (db_of a W) (QTerm goal) (b_scope st) (w_nv W)) = (l, Exhausted) ->
  forall f annots pat p ts x b st1 os,
  is_literal goal = true -> evaluate d pat (b_scope st) = Ok p ->
  Forall2 (fun s t => grounded d p s = Ok t) l ts ->
  unify d (TTup ts) x (mkbst (b_scope st) [] 0) = (Ok b, st1) -> (2 <= List.length os)%nat ->
  exists n0, forall n, (n0 <= n)%nat ->
    fst (drive os n a i (GQ (QAct AFindall (TLit f [pat; goal; x] annots))) (st, W)) =
      (if b : bool then [b_scope st1] else [], Exhausted).
Proof. exact @findall_collects. Qed.
Print Assumptions C35_findall.

(** The general case: whenever .findall completes, there are the solutions [l] of
    the goal and as many items [ts], the list of which is unified with [x].  The
    items are the instances of the pattern in these solutions, in order, with one
    renaming of the variables left unbound, which is one-to-one and gives new
    variables, if no variable that is unbound in one solution is bound in a later
    one. *)
Theorem C35_findall_open : forall (PY : Py), PyLawful PY -> forall (FR : Front) a i st W f pat goal x annots os ans,
  proper_db false (db_of a W) -> is_literal goal = true ->
  (exists n0, forall n, (n0 <= n)%nat -> fst (drive os n a i (GQ (QAct AFindall (TLit f [pat; goal; x] annots))) (st, W)) = (ans, Exhausted)) ->
  exists d p c l ts b st1,
    evaluate d pat (b_scope st) = Ok p /\
    Forall (fun p => fst p = []) c /\ take c (sols d (db_of a W) (QTerm goal) (b_scope st) (w_nv W)) = (l, Exhausted) /\
    List.length ts = List.length l /\
    (settled p l -> exists rho, Forall2 (fun s t => inst s rho p t) l ts /\
       (forall v w y, rho v = Some y -> rho w = Some y -> v = w) /\ (forall v y, rho v = Some y -> (w_nv W <= y)%N)) /\
    unify d (TTup ts) x (mkbst (b_scope st) [] 0) = (Ok b, st1) /\
    ans = (if b : bool then [b_scope st1] else []).
Proof. exact @findall_answer. Qed.
Print Assumptions C35_findall_open.

(** Without that condition it fails.  With the rule q(at(X, Y)) :- X = 1 | Y = 2,
    the goal q(P) has two solutions, in the second of which the second argument of
    P is 2, but .findall(P, q(P), L) gives [at(1, V), at(U, V)]. *)
Definition either : world :=
  mkworld [] [] []
    [mkagent (s2p "fred") []
       [((s2p "q", 1%nat), [mkrule (TLit (s2p "q") [pred2 "at" (TVar 0) (TVar 1)] []) (QOr (QUnify (TVar 0) (TNum (NInt 1))) (QUnify (TVar 1) (TNum (NInt 2))))])] [] []]
    [(s2p "fred", 0%nat)] 10 0 0 [].
Theorem C35_findall_refuted :
  let goal := TLit (s2p "q") [TVar 9] [] in
  proper_db false (db_of 0 either) /\
  take [([], 1%N); ([], 1%N); ([], 0%N)] (@sols PyEx 40 (db_of 0 either) (QTerm goal) [] 10) =
    ([[(10, TNum (NInt 1)); (9, pred2 "at" (TVar 10) (TVar 11))]; [(11, TNum (NInt 2)); (9, pred2 "at" (TVar 10) (TVar 11))]]%N, Exhausted) /\
  (forall n, (40 <= n)%nat -> fst (@drive PyEx FrontEx [([], 0%N); ([], 0%N)] n 0 0
      (GQ (QAct AFindall (TLit (s2p ".findall") [TVar 9; goal; TVar 7] []))) (mkbst [] [] 0, either)) =
    ([[(7%N, TTup [pred2 "at" (TNum (NInt 1)) (TVar 12); pred2 "at" (TVar 13) (TVar 12)])]], Exhausted)).
Proof.
  cbv zeta. split.
  { intro g. split.
    - cbn. unfold beliefs. cbn. constructor.
    - cbn. unfold rules_of. cbn. match goal with |- context[group_eqb ?x ?y] => destruct (group_eqb x y) end; repeat constructor. }
  split; [vm_compute; reflexivity|].
  intros n Hn. rewrite (drive_more 0 0 _ 40 n _ _ Hn); vm_compute; [reflexivity|discriminate].
Qed.
Print Assumptions C35_findall_refuted.

(** .count(goal, x): [x] is unified with the number of solutions. *)
Theorem C35_count : forall (PY : Py) (FR : Front) d a i st W c goal l,
  proper_db false (db_of a W) -> plain_pauses c ->
  take c (sols d (db_of a W) (QTerm goal) (b_scope st) (w_nv W)) = (l, Exhausted) ->
  forall f annots x b st1 os,
  unify d (TNum (NInt (Z.of_nat (List.length l)))) x (mkbst (b_scope st) [] 0) = (Ok b, st1) -> (2 <= List.length os)%nat ->
  exists n0, forall n, (n0 <= n)%nat ->
    fst (drive os n a i (GQ (QAct ACount (TLit f [goal; x] annots))) (st, W)) =
      (if b : bool then [b_scope st1] else [], Exhausted).
Proof. exact @count_counts. Qed.
Print Assumptions C35_count.

(** .sum(pat, goal, x): [zs] are the values of the pattern in the solutions. *)
Theorem C35_sum : forall (PY : Py) (FR : Front) d a i st W c goal l,
  proper_db false (db_of a W) -> plain_pauses c ->
  take c (sols d (db_of a W) (QTerm goal) (b_scope st) (w_nv W)) = (l, Exhausted) ->
  forall f annots pat p zs x b st1 os,
  is_literal goal = true -> evaluate d pat (b_scope st) = Ok p ->
  Forall2 (fun s z => grounded d p s = Ok (TNum (NInt z))) l zs ->
  unify d (TNum (NInt (fold_right Z.add 0%Z zs))) x (mkbst (b_scope st) [] 0) = (Ok b, st1) -> (2 <= List.length os)%nat ->
  exists n0, forall n, (n0 <= n)%nat ->
    fst (drive os n a i (GQ (QAct ASum (TLit f [pat; goal; x] annots))) (st, W)) =
      (if b : bool then [b_scope st1] else [], Exhausted).
Proof. exact @sum_sums. Qed.
Print Assumptions C35_sum.

(** These are the actions that programs refer to by these names. *)
Theorem C35_names :
  map (fun e => actions_lookup ext_actions (s2p (fst e)) (snd e))
    [(".member"%string, 2%nat); (".range"%string, 2%nat); (".substring"%string, 3%nat); (".findall"%string, 3%nat); (".count"%string, 2%nat); (".sum"%string, 3%nat)] =
  map Ok [AMember; ARange; ASubstring; AFindall; ACount; ASum].
Proof. vm_compute. reflexivity. Qed.
Print Assumptions C35_names.

(** ** Examples *)
Definition pauses (k : nat) : list pause := repeat ([], 0%N) k.

(** Who are the descendants of ann that are not bob?  One. *)
Definition q_anc : query := QAnd (QTerm (pred2 "anc" (lit0 "ann") (TVar 9))) (QNot (QUnify (TVar 9) (lit0 "bob"))).
Example C11_family : proper true q_anc = true /\ proper_db true (db_of 0 family) /\
  (let '(l, o, (st', _)) := @drive PyEx FrontEx (pauses 5) 60 0 0 (GQ q_anc) (mkbst [] [] 0, family) in
   (map (fun s => @grounded PyEx 5 (TVar 9) s) l, o, b_scope st') = ([Ok (lit0 "cyd")], Exhausted, [])) /\
  snd (take (pauses 5) (@sols PyEx 40 (db_of 0 family) q_anc [] 10)) = Exhausted.
Proof. split; [reflexivity|]. split; [apply family_proper|]. split; vm_compute; reflexivity. Qed.

(** A consumer that binds a variable in between. *)
Example C12_bind_between : restoring (QTerm (pred2 "anc" (lit0 "ann") (TVar 9))) = true /\
  (let '(l, o, (st', _)) := @drive PyEx FrontEx [([], 0%N); ([OUnify 5 (TVar 20) (lit0 "x")], 3%N); ([], 0%N)] 40 0 0
       (GQ (QTerm (pred2 "anc" (lit0 "ann") (TVar 9)))) (mkbst [] [] 0, family) in
   (map (fun s => @grounded PyEx 5 (TVar 9) s) l, o, b_scope st') = ([Ok (lit0 "bob"); Ok (lit0 "cyd")], Exhausted, [])).
Proof. split; [reflexivity|]. vm_compute. reflexivity. Qed.

Example C35_overlap : forall n, fst (@drive PyEx FrontEx (pauses 4) 12 0 0
    (GQ (QAct ASubstring (TLit n [TStr (s2p "aa"); TStr (s2p "aaab"); TVar 9] []))) (mkbst [] [] 0, family)) =
  ([[(9%N, TNum (NInt 0))]; [(9%N, TNum (NInt 1))]], Exhausted) /\
  decided (PY := PyEx) 5 (TVar 9) [TNum (NInt 0); TNum (NInt 1)] [].
Proof. intro n. split; [vm_compute; reflexivity|]. repeat (constructor; [do 2 eexists; reflexivity|]). constructor. Qed.

Example C35_findall_family :
  let goal := pred2 "anc" (TVar 8) (TVar 9) in
  let l := fst (take (pauses 5) (@sols PyEx 40 (db_of 0 family) (QTerm goal) [] 10)) in
  map (fun s => @grounded PyEx 40 (TVar 9) s) l = map Ok [lit0 "bob"; lit0 "cyd"; lit0 "cyd"] /\
  fst (@drive PyEx FrontEx (pauses 2) 40 0 0 (GQ (QAct AFindall (TLit (s2p ".findall") [TVar 9; goal; TVar 7] []))) (mkbst [] [] 0, family)) =
    ([[(7%N, TTup [lit0 "bob"; lit0 "cyd"; lit0 "cyd"])]], Exhausted).
Proof. cbv zeta. split; vm_compute; reflexivity. Qed.

(** Two rules, each of which leaves another variable unbound. *)
Definition halves : world :=
  mkworld [] [] []
    [mkagent (s2p "fred") []
       [((s2p "q", 2%nat), [mkrule (pred2 "q" (TVar 0) (TVar 1)) (QUnify (TVar 0) (TNum (NInt 1)));
                            mkrule (pred2 "q" (TVar 2) (TVar 3)) (QUnify (TVar 3) (TNum (NInt 2)))])] [] []]
    [(s2p "fred", 0%nat)] 10 0 0 [].
Example C35_findall_halves :
  let goal := pred2 "q" (TVar 8) (TVar 9) in let pat := pred2 "pair" (TVar 8) (TVar 9) in
  proper_db false (db_of 0 halves) /\
  take [([], 1%N); ([], 1%N); ([], 0%N)] (@sols PyEx 40 (db_of 0 halves) (QTerm goal) [] 10) =
    ([[(10, TNum (NInt 1)); (9, TVar 11); (8, TVar 10)]; [(14, TNum (NInt 2)); (9, TVar 14); (8, TVar 13)]]%N, Exhausted) /\
  settled pat [[(10, TNum (NInt 1)); (9, TVar 11); (8, TVar 10)]; [(14, TNum (NInt 2)); (9, TVar 14); (8, TVar 13)]]%N /\
  (forall n, (40 <= n)%nat -> fst (@drive PyEx FrontEx [([], 0%N); ([], 0%N)] n 0 0
      (GQ (QAct AFindall (TLit (s2p ".findall") [pat; goal; TVar 7] []))) (mkbst [] [] 0, halves)) =
    ([[(7%N, TTup [pred2 "pair" (TNum (NInt 1)) (TVar 12); pred2 "pair" (TVar 15) (TNum (NInt 2))])]], Exhausted)).
Proof.
  cbv zeta. split.
  { intro g. split.
    - cbn. unfold beliefs. cbn. constructor.
    - cbn. unfold rules_of. cbn. match goal with |- context[group_eqb ?x ?y] => destruct (group_eqb x y) end; repeat constructor. }
  split; [vm_compute; reflexivity|]. split.
  - repeat constructor. intros v Hv Hn.
    assert (v = 8 \/ v = 9 \/ v = 10 \/ v = 11)%N as [->|[->|[->| ->]]]; try discriminate Hn; [|reflexivity].
    clear Hn. induction Hv as [v Hv|v t w Hv IH Hl Hw]; [cbn in Hv; intuition|].
    destruct IH as [->|[->|[->| ->]]]; cbn in Hl; try discriminate Hl; inversion Hl; subst t; cbn in Hw; intuition.
  - intros n Hn. rewrite (drive_more 0 0 _ 40 n _ _ Hn); vm_compute; [reflexivity|discriminate].
Qed.

Example C11_no_condition_case : @evaluate PyEx 5 (TVar 3) [(3%N, TTup [TStr (s2p "a"); TStr (s2p "b")])] = Ok (TTup [TStr (s2p "a"); TStr (s2p "b")]) /\
  fst (@drive PyEx FrontEx [([], 0%N)] 9 0 0 (GQ (QTerm (TVar 3))) (mkbst [(3%N, TTup [TStr (s2p "a"); TStr (s2p "b")])] [] 0, family)) = ([], Raised EType).
Proof. split; vm_compute; reflexivity. Qed.
