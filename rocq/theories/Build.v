(** From syntax trees to terms, queries, instructions, plans and agents
    (agentspeak/runtime.py:40-166, 772-866, 966-1079). *)
From Verif Require Import Base Num Term Unify Str World Ast Names Engine.

(** The state of building: the [variables] dict of the clause, the identity of
    the next Var() or Wildcard(), the log. *)
Record bs : Type := mkbs { v_vars : list (pystr * term); v_nv : N; v_log : log }.
Definition B (A : Type) : Type := bs -> res A * bs.
Definition bret {A} (x : A) : B A := fun s => (Ok x, s).
Definition bfail {A} (e : exc) : B A := fun s => (Err e, s).
Definition bbind {A C} (m : B A) (k : A -> B C) : B C := fun s =>
  match m s with
  | (Ok x, s') => k x s'
  | (Err e, s') => (Err e, s')
  end.
Declare Scope b_scope.
Delimit Scope b_scope with B.
Notation "x <- m ;; k" := (bbind m (fun x => k))
  (at level 61, m at next level, right associativity) : b_scope.
Notation "m ;; k" := (bbind m (fun _ => k))
  (at level 61, right associativity) : b_scope.

Definition bmapl {A C} (f : A -> B C) : list A -> B (list C) :=
  fix go (l : list A) : B (list C) :=
    match l with
    | [] => bret []
    | x :: l' => bbind (f x) (fun y => bbind (go l') (fun ys => bret (y :: ys)))
    end.

(** [for x in l: c = f(x, c)] *)
Definition bfold {A C} (f : A -> C -> B C) : list A -> C -> B C :=
  fix go (l : list A) (c : C) : B C :=
    match l with
    | [] => bret c
    | x :: l' => bbind (f x c) (go l')
    end.

(** [self.log.error(...)] whose result is not raised; [raise self.log.error(...)] *)
Definition b_error : B unit := fun s =>
  let '(r, l) := log_error (v_log s) in (r, mkbs (v_vars s) (v_nv s) l).
Definition b_raise {A} : B A := fun s =>
  let '(_, l) := log_error (v_log s) in (Err EAggregated, mkbs (v_vars s) (v_nv s) l).
Definition b_warn : B unit := fun s => (Ok tt, mkbs (v_vars s) (v_nv s) (log_warning (v_log s))).

(** [agentspeak.Var()], [agentspeak.Wildcard()] *)
Definition b_fresh : B N := fun s => (Ok (v_nv s), mkbs (v_vars s) (N.succ (v_nv s)) (v_log s)).

Section WithPy.
Context {PY : Py}.

(** BuildTermVisitor.visit_variable (70-81): one wildcard per clause for "_",
    one variable per other name. *)
Definition build_var (name : pystr) : B term :=
  fun s =>
    match assoc pystr_eqb name (v_vars s) with
    | Some t => (Ok t, s)
    | None =>
        let t := if pystr_eqb name (s2p "_") then TWild (v_nv s) else TVar (v_nv s) in
        (Ok t, mkbs ((name, t) :: v_vars s) (N.succ (v_nv s)) (v_log s))
    end.

(** BuildTermVisitor (40-81) and BuildReplacePatternVisitor (84-92), which
    replaces operators by new wildcards ([pat] is [true]). *)
Fixpoint build_term (pat : bool) (t : ast) : B term :=
  match t with
  | ABool b => bret (TBool b)
  | ANum x => bret (TNum x)
  | AStr s => bret (TStr s)
  | AVar v => build_var v
  | ALit f ts an =>
      (args <- bmapl (build_term pat) ts ;;
       annots <- bmapl (build_term pat) an ;;
       bret (TLit f args (mk_set annots)))%B
  | AList ts => (xs <- bmapl (build_term pat) ts ;; bret (TTup xs))%B
  | ALL h t => (x <- build_term pat h ;; y <- build_term pat t ;; bret (TLL x y))%B
  | AUn op a =>
      if pat then (w <- b_fresh ;; bret (TWild w))%B
      else (x <- build_term pat a ;; bret (TUn op x))%B
  | ABin op l r =>
      if pat then (w <- b_fresh ;; bret (TWild w))%B
      else (x <- build_term pat l ;; y <- build_term pat r ;; bret (TBin op x y))%B
  end.

Definition build_lit (l : alit) : B (pystr * list term * list term) :=
  (args <- bmapl (build_term false) (l_terms l) ;;
   annots <- bmapl (build_term false) (l_annots l) ;;
   bret (l_functor l, args, mk_set annots))%B.

Definition has_dot (f : pystr) : bool := existsb (N.eqb 46) f.

(** BuildQueryVisitor (95-150) *)
Fixpoint build_query (acts : actions act) (t : ast) : B query :=
  match t with
  | ALit f ts an =>
      (x <- build_term false t ;;
       match actions_lookup acts f (List.length ts) with
       | Ok a => bret (QAct a x)
       | Err _ => (if has_dot f then b_warn else bret tt) ;; bret (QTerm x)
       end)%B
  | ABool true => bret QTrue
  | ABool false => bret QFalse
  | ANum _ | AStr _ => b_raise
  | ABin BAnd l r => (x <- build_query acts l ;; y <- build_query acts r ;; bret (QAnd x y))%B
  | ABin BOr l r => (x <- build_query acts l ;; y <- build_query acts r ;; bret (QOr x y))%B
  | ABin BUnify l r => (x <- build_term false l ;; y <- build_term false r ;; bret (QUnify x y))%B
  | ABin op l r =>
      ((if is_comp op then bret tt else b_error) ;;
       x <- build_term false t ;; bret (QTerm x))%B
  | AUn UNot a => (x <- build_query acts a ;; bret (QNot x))%B
  | AUn _ _ => bfail EAttr    (* UnaryOp has no attribute lexeme *)
  | AVar _ => (x <- build_term false t ;; bret (QTerm x))%B
  | AList _ | ALL _ _ => bfail EAttr   (* no visit_list, visit_linked_list *)
  end.

(** BuildEventVisitor (153-166) after constant folding: operators are errors. *)
Fixpoint has_op (t : ast) : bool :=
  match t with
  | AUn _ _ | ABin _ _ _ => true
  | ALit _ ts an => existsb has_op ts || existsb has_op an
  | AList ts => existsb has_op ts
  | ALL h t => has_op h || has_op t
  | _ => false
  end.
Definition build_event (e : aevent) : B event :=
  if has_op (lit_ast (ae_head e)) then b_raise
  else (h <- build_lit (ae_head e) ;;
        let '(f, args, annots) := h in
        bret (mkevent (ae_trig e) (ae_gt e) (TLit f args annots)))%B.

(** [ast.accept(BuildReplacePatternVisitor())]: with its own variables. *)
Definition build_pattern (t : ast) : B term := fun s =>
  let '(r, s') := build_term true t (mkbs [] (v_nv s) (v_log s)) in
  (r, mkbs (v_vars s) (v_nv s') (v_log s')).

(** * Instructions (runtime.py:966-1079) *)

(** The instructions created so far and the current tail. *)
Record cs : Type := mkcs { c_code : list instr; c_tail : nat }.

Definition set_succ (k : nat) (x : nat) (code : list instr) : list instr :=
  match nth_error code k with
  | Some i => upd code k (mkinstr (in_op i) (Some x) (in_fail i))
  | None => code
  end.
Definition set_fail (k : nat) (x : nat) (code : list instr) : list instr :=
  match nth_error code k with
  | Some i => upd code k (mkinstr (in_op i) (in_succ i) (Some x))
  | None => code
  end.

(** [Instruction(f)] *)
Definition new_instr (op : iop) (c : cs) : nat * cs :=
  (List.length (c_code c), mkcs (c_code c ++ [mkinstr op None None]) (c_tail c)).

(** BuildInstructionsVisitor.add_instr (973-976) *)
Definition add_instr (op : iop) (c : cs) : cs :=
  let '(k, c1) := new_instr op c in
  mkcs (set_succ (c_tail c) k (c_code c1)) k.

(** visit_formula (978-1014), visit_for (1016-1027), visit_if_then_else
    (1029-1054), visit_while (1056-1074), visit_body (1076-1079).  The result
    has the returned tail as [c_tail]. *)
Fixpoint compile (acts : actions act) (f : form) (c : cs) : B cs :=
  let compile_all := bfold (compile acts) in
  match f with
  | FForm ft t =>
      match ft with
      | FtAdd => (x <- build_term false t ;; bret (add_instr (ICall TrAdd GtBelief x false) c))%B
      | FtRemove => (x <- build_term false t ;; bret (add_instr (ICall TrRem GtBelief x false) c))%B
      | FtTest => (x <- build_term false t ;; bret (add_instr (ICall TrAdd GtTest x false) c))%B
      | FtReplace =>
          (p <- build_pattern t ;;
           let c1 := add_instr (ICall TrRem GtBelief p false) c in
           x <- build_term false t ;;
           bret (add_instr (ICall TrAdd GtBelief x false) c1))%B
      | FtAchieve => (x <- build_term false t ;; bret (add_instr (ICall TrAdd GtAchieve x false) c))%B
      | FtAchieveLater => (x <- build_term false t ;; bret (add_instr (ICall TrAdd GtAchieve x true) c))%B
      | FtTerm =>
          (q <- build_query acts t ;;
           bret (add_instr IPopQ (add_instr INext (add_instr (IPushQ q) c))))%B
      end
  | FFor g body =>
      (q <- build_query acts g ;;
       let c1 := add_instr INext (add_instr (IPushQ q) c) in
       let for_head := c_tail c1 in
       c2 <- compile_all body c1 ;;
       let c3 := mkcs (set_succ (c_tail c2) for_head (c_code c2)) (c_tail c2) in
       let '(k, c4) := new_instr IPopQ c3 in
       bret (mkcs (set_fail for_head k (c_code c4)) k))%B
  | FIf cond ib eb =>
      (q <- build_query acts cond ;;
       let c1 := add_instr INext (add_instr (IPushQ q) c) in
       let test := c_tail c1 in
       let '(tail, c2) := new_instr IPopQ c1 in
       c3 <- compile_all ib c2 ;;
       let c4 := mkcs (set_succ (c_tail c3) tail (c_code c3)) (c_tail c3) in
       match eb with
       | Some b =>
           let '(k, c5) := new_instr INoop c4 in
           c6 <- compile_all b (mkcs (set_fail test k (c_code c5)) k) ;;
           bret (mkcs (set_succ (c_tail c6) tail (c_code c6)) tail)
       | None => bret (mkcs (set_fail test tail (c_code c4)) tail)
       end)%B
  | FWhile cond body =>
      let '(tail, c0) := new_instr IPopCP c in
      (q <- build_query acts cond ;;
       let c1 := add_instr (IPushQ q) c0 in
       let head := c_tail c1 in
       let c2 := add_instr INext (add_instr IPushCP c1) in
       let c3 := mkcs (set_fail (c_tail c2) tail (c_code c2)) (c_tail c2) in
       c4 <- compile_all body (add_instr IPopQ c3) ;;
       let c5 := add_instr IPopCP c4 in
       bret (add_instr IPopQ (mkcs (set_succ (c_tail c5) head (c_code c5)) tail)))%B
  end.

Definition compile_all (acts : actions act) : list form -> cs -> B cs := bfold (compile acts).

(** * Rules, plans, agents *)

(** Rules of build_agent_from_ast (779-783). *)
Definition build_rule (acts : actions act) (r : arule) : B rule :=
  (h <- build_lit (ar_head r) ;;
   let '(f, args, annots) := h in
   q <- build_query acts (ar_cons r) ;;
   bret (mkrule (TLit f args annots) q))%B.

(** [plan.args]: texts of the head's arguments and of the arguments of its
    annotations (540, 805).  AttributeError for an annotation that is not a
    literal or list ([i.terms]). *)
Fixpoint annot_texts (l : list ast) : res (list pystr) :=
  match l with
  | [] => Ok []
  | ALit _ ts _ :: l' | AList ts :: l' => rmap (fun r => map ast_str ts ++ r) (annot_texts l')
  | _ :: _ => Err EAttr
  end.

(** Plans of build_agent_from_ast (786-807) and of _tell_how (525-546). *)
Definition build_plan (acts : actions act) (p : aplan) : B plan :=
  let e := ap_event p in
  (h <- build_lit (ae_head e) ;;
   let '(f, args, annots) := h in
   ctx <- match ap_ctx p with Some t => build_query acts t | None => bret QTrue end ;;
   let c0 := mkcs [mkinstr INoop None None] 0%nat in
   c <- match ap_body p with Some b => compile_all acts b c0 | None => bret c0 end ;;
   texts <- (fun s => (annot_texts (l_annots (ae_head e)), s)) ;;
   bret (mkplan (ae_trig e) (ae_gt e) f args annots ctx (c_code c)
           (option_map l_functor (ap_annot p))
           (match ap_annot p with Some l => lit_str l | None => [] end)
           (match ap_body p with Some b => body_str b | None => s2p "None" end)
           (map ast_str (l_terms (ae_head e)) ++ texts)))%B.

(** Run a builder for one clause: a new [variables] dict; variable identities
    and the log are threaded through. *)
Definition clause {A} (m : B A) (l : log) (k : N) : res A * log * N :=
  let '(r, s) := m (mkbs [] k l) in (r, v_log s, v_nv s).

Context {FR : Front}.

Definition empty_agent (name : pystr) : agent := mkagent name [] [] [] [].

(** [for x in items: f(x)] with the log; an exception stops. *)
Fixpoint wfor {A} (f : A -> log -> world -> res unit * log * world) (items : list A) (l : log) (W : world)
  : res unit * log * world :=
  match items with
  | [] => (Ok tt, l, W)
  | x :: items' =>
      match f x l W with
      | (Ok _, l1, W1) => wfor f items' l1 W1
      | y => y
      end
  end.

(** 779-783 *)
Definition install_rule (acts : actions act) (a : nat) (r : arule) (l : log) (W : world) : res unit * log * world :=
  match clause (build_rule acts r) l (w_nv W) with
  | (Err e, l1, k) => (Err e, l1, set_nv W k)
  | (Ok x, l1, k) =>
      let ag := get_agent W a in
      (Ok tt, l1, put_agent (set_nv W k) a (set_a_rules ag (rules_add (lit_group (r_head x)) x (a_rules ag))))
  end.

(** 786-807 *)
Definition install_plan (acts : actions act) (a : nat) (p : aplan) (l : log) (W : world) : res unit * log * world :=
  match clause (build_plan acts p) l (w_nv W) with
  | (Err e, l1, k) => (Err e, l1, set_nv W k)
  | (Ok x, l1, k) =>
      let '(r, (_, W1)) := add_plan a x (bst0, set_nv W k) in
      (r, l1, W1)
  end.

(** [agent.call(trigger, goal_type, term, Intention(), delayed=True)]
    (812-820, 861-864) *)
Definition install_event (n a : nat) (gt : gtype) (t : alit) (l : log) (W : world) : res unit * log * world :=
  match clause (build_lit t) l (w_nv W) with
  | (Err e, l1, k) => (Err e, l1, set_nv W k)
  | (Ok (f, args, annots), l1, k) =>
      let '(r, (_, W1)) := with_new (fun ci => call n a TrAdd gt (TLit f args annots) ci true) (bst0, set_nv W k) in
      (rmap (fun _ => tt) r, l1, W1)
  end.

(** Environment.build_agent_from_ast (772-827): [path] is [name or source.name].
    The agent is created with a name that is free at this point, and registered
    at the end. *)
Definition build_agent_from_ast (n : nat) (acts : actions act) (path : pystr) (g : aagent) (W : world)
  : res nat * world :=
  match make_name path (map fst (w_env W)) with
  | Err e => (Err e, W)
  | Ok name =>
      let a := List.length (w_agents W) in
      let W0 := set_agents W (w_agents W ++ [empty_agent name]) in
      match wfor (install_rule acts a) (ag_rules g) (log_new (Some 3%nat)) W0 with
      | (Err e, _, W1) => (Err e, W1)
      | (Ok _, l1, W1) =>
      match wfor (install_plan acts a) (ag_plans g) l1 W1 with
      | (Err e, _, W2) => (Err e, W2)
      | (Ok _, l2, W2) =>
      match wfor (install_event n a GtBelief) (ag_beliefs g) l2 W2 with
      | (Err e, _, W3) => (Err e, W3)
      | (Ok _, l3, W3) =>
      match wfor (install_event n a GtAchieve) (ag_goals g) l3 W3 with
      | (Err e, _, W4) => (Err e, W4)
      | (Ok _, l4, W4) =>
      match log_throw l4 with
      | Err e => (Err e, W4)
      | Ok _ => (Ok a, set_env W4 (w_env W4 ++ [(name, a)]))
      end end end end end
  end.

(** Environment.build_agents (842-866) after parsing.  The prototype is built
    with the source's name; the copies share its belief sets, rules and plan
    lists ([copy.copy] of a dict copies references). *)
Fixpoint build_copies (n : nat) (count : nat) (path : pystr) (proto : nat) (g : aagent) (W : world)
  : res (list nat) * world :=
  match count with
  | O => (Ok [], W)
  | S count' =>
      match make_name path (map fst (w_env W)) with
      | Err e => (Err e, W)
      | Ok name =>
          let a := List.length (w_agents W) in
          let p := get_agent W proto in
          let W0 := set_agents W (w_agents W ++ [mkagent name (a_bel p) (a_rules p) (a_plans p) []]) in
          match wfor (install_event n a GtAchieve) (ag_goals g) (log_new None) W0 with
          | (Err e, _, W1) => (Err e, W1)
          | (Ok _, _, W1) =>
              match build_copies n count' path proto g (set_env W1 (w_env W1 ++ [(name, a)])) with
              | (Err e, W2) => (Err e, W2)
              | (Ok as_, W2) => (Ok (a :: as_), W2)
              end
          end
      end
  end.

(** [name or source.name] *)
Definition name_or (name : option pystr) (source_name : pystr) : pystr :=
  match name with Some (c :: s) => c :: s | _ => source_name end.

Definition build_agents (n : nat) (acts : actions act) (source_name : pystr) (name : option pystr)
  (count : nat) (g : aagent) (W : world) : res (list nat) * world :=
  match count with
  | O => (Ok [], W)
  | S count' =>
      match build_agent_from_ast n acts source_name g W with
      | (Err e, W1) => (Err e, W1)
      | (Ok proto, W1) =>
          let path := name_or name source_name in
          match build_copies n count' path proto g W1 with
          | (Err e, W2) => (Err e, W2)
          | (Ok as_, W2) => (Ok (proto :: as_), W2)
          end
      end
  end.

(** [Environment()] *)
Definition world0 : world := mkworld [] [] [] [] [] 0 0 0 [].

End WithPy.
