(** The list-of-solutions semantics of queries.

    A [trace] is a lazily produced list of solutions.  Each solution carries the
    scope and the next unused variable identity at that point; the rest of the
    list depends on the next unused identity when the consumer asks for more
    (each use of a rule takes fresh variables).  The semantics is indexed by a
    depth; [TCut] marks what lies beyond it. *)
From Verif Require Import Base Num Term Unify TrailSpec Str World Engine.

Inductive trace : Type :=
| TEnd (nv : N)
| TErr (e : exc)
| TCut
| TSol (s : scope) (nv : N) (rest : N -> trace).

(** One solution. *)
Definition one (s : scope) (nv : N) : trace := TSol s nv TEnd.

(** Concatenation. *)
Fixpoint append (t : trace) (f : N -> trace) : trace :=
  match t with
  | TEnd nv => f nv
  | TErr e => TErr e
  | TCut => TCut
  | TSol s nv k => TSol s nv (fun nv' => append (k nv') f)
  end.

(** For each solution, all solutions of [f]. *)
Fixpoint bindt (t : trace) (f : scope -> N -> trace) : trace :=
  match t with
  | TEnd nv => TEnd nv
  | TErr e => TErr e
  | TCut => TCut
  | TSol s nv k => append (f s nv) (fun nv' => bindt (k nv') f)
  end.

(** Negation: succeed once, without bindings, if there is no solution. *)
Definition negt (t : trace) (s : scope) : trace :=
  match t with
  | TEnd nv => one s nv
  | TSol _ nv _ => TEnd nv
  | t => t
  end.

(** A value computed at limited depth. *)
Definition terr (e : exc) : trace := match e with ERecursion => TCut | _ => TErr e end.
Definition tres {A} (r : res A) (f : A -> trace) : trace :=
  match r with Ok x => f x | Err e => terr e end.

(** Process all solutions in order. *)
Fixpoint gather {S} (step : scope -> N -> S -> res (S * N)) (t : trace) (x : S) : res (S * N) :=
  match t with
  | TEnd nv => Ok (x, nv)
  | TErr e => Err e
  | TCut => Err ERecursion
  | TSol s nv k =>
      match step s nv x with
      | Ok (x', nv') => gather step (k nv') x'
      | Err e => Err e
      end
  end.

(** What queries refer to: the agent's name, its beliefs and its rules. *)
Record db : Type := mkdb { d_name : pystr; d_bel : group -> list term; d_rules : group -> list rule }.

Section WithPy.
Context {PY : Py}.

(** ** Basic steps *)

(** The solutions of matching [l] with each of the [cands]. *)
Fixpoint matches (d : nat) (l : term) (cands : list term) (s : scope) (nv : N) : trace :=
  match cands with
  | [] => TEnd nv
  | b :: cands' =>
      match uann d l b (mkbst s [] 0) with
      | (Err e, _) => terr e
      | (Ok None, _) => matches d l cands' s nv
      | (Ok (Some _), st) => TSol (b_scope st) nv (fun nv' => matches d l cands' s nv')
      end
  end.

(** The solutions of unifying [l] with each of the [cands]; then possibly an
    exception. *)
Fixpoint choices (d : nat) (l : term) (cands : list term) (fin : option exc) (s : scope) (nv : N) : trace :=
  match cands with
  | [] => match fin with Some e => TErr e | None => TEnd nv end
  | c :: cands' =>
      match unify d l c (mkbst s [] 0) with
      | (Err e, _) => terr e
      | (Ok false, _) => choices d l cands' fin s nv
      | (Ok true, st) => TSol (b_scope st) nv (fun nv' => choices d l cands' fin s nv')
      end
  end.

(** The solutions of [goal] by each of the rules. *)
Fixpoint clauses (d : nat) (solve : query -> scope -> N -> trace) (goal : term) (rs : list rule)
  (s : scope) (nv : N) : trace :=
  match rs with
  | [] => TEnd nv
  | r :: rs' =>
      let '(c, nv1) := copy_rule r nv in
      match unify d goal (r_head c) (mkbst s [] 0) with
      | (Err e, _) => terr e
      | (Ok false, _) => clauses d solve goal rs' s nv1
      | (Ok true, st) =>
          append (solve (r_query c) (b_scope st) nv1) (fun nv' => clauses d solve goal rs' s nv')
      end
  end.

(** ** Actions *)

(** One step of .findall: an instance of the pattern; variables that are still
    unbound are renamed consistently across all solutions. *)
Definition find_step (d : nat) (pat : term) (s : scope) (nv : N) (x : memo * list term)
  : res ((memo * list term) * N) :=
  match freeze d pat s (fst x, nv) with
  | (Ok t, (m, nv')) => Ok ((m, snd x ++ [t]), nv')
  | (Err e, _) => Err e
  end.

Definition sum_step (d : nat) (pat : term) (s : scope) (nv : N) (x : num) : res (num * N) :=
  rbind (grounded d pat s) (fun v =>
    match v with
    | TNum y => rmap (fun z => (z, nv)) (num_op fpow NAdd x y)
    | TBool b => rmap (fun z => (z, nv)) (num_op fpow NAdd x (bool_num b))
    | _ => Err EType
    end).

Definition act_sols (d : nat) (D : db) (solve : query -> scope -> N -> trace)
  (ac : act) (t : term) (args : list term) (s : scope) (nv : N) : trace :=
  match ac, args with
  | AFail, _ => TEnd nv
  | AMark, _ | ADump, _ => one s nv
  | APrint, _ =>
      let '(r, (_, nv')) := smapl (fun a => freeze d a s) args ([], nv) in
      tres r (fun _ => one s nv')
  | AGround, _ => tres (is_ground d t s) (fun b => if b : bool then one s nv else TEnd nv)
  | APred specs p, _ =>
      let '(r, (_, nv')) := zip_specs d specs args s ([], nv) in
      tres r (fun vs => tres (pr_apply p 0 vs) (fun b => if b : bool then one s nv' else TEnd nv'))
  | AMember, [x; l] =>
      tres (evaluate d l s) (fun v =>
        let '(items, fin) := iter_items v in choices d x items fin s nv)
  | ARange, [m; x] =>
      tres (grounded d m s) (fun v => tres (to_int v) (fun z =>
        choices d x (map (fun k => TNum (NInt (Z.of_nat k))) (seq 0 (Z.to_nat z))) None s nv))
  | ASubstring, [needle; hay; x] =>
      tres (grounded d needle s) (fun v0 => tres (grounded d hay s) (fun v1 =>
        choices d x (map (fun z => TNum (NInt z)) (occurrences (asl_str v0) (asl_str v1) 0)) None s nv))
  | AMyName, [x] => choices d x [TLit (d_name D) [] []] None s nv
  | AConcat, _ :: _ =>
      tres (rmapl (fun a => grounded d a s) (removelast args)) (fun vs =>
      tres (match all_tuples vs with
            | Some ts => Ok (TTup ts)
            | None => rmap (fun ss => TStr (List.concat ss)) (rmapl py_str vs)
            end) (fun result => choices d (last args (TBool false)) [result] None s nv))
  | AFun specs f, _ :: _ =>
      let '(r, (_, nv')) := zip_specs d specs args s ([], nv) in
      tres r (fun vs => tres (fn_apply f 0 vs) (fun result =>
        choices d (last args (TBool false)) [result] None s nv'))
  | AFindall, [pat; goal; x] =>
      tres (evaluate d pat s) (fun p =>
      tres (gather (find_step d p) (solve (QTerm goal) s nv) ([], [])) (fun y =>
        choices d (TTup (snd (fst y))) [x] None s (snd y)))
  | ACount, [goal; x] =>
      tres (gather (fun _ nv k => Ok ((k + 1)%Z, nv)) (solve (QTerm goal) s nv) 0%Z) (fun y =>
        choices d (TNum (NInt (fst y))) [x] None s (snd y))
  | ASum, [pat; goal; x] =>
      tres (evaluate d pat s) (fun p =>
      tres (gather (sum_step d p) (solve (QTerm goal) s nv) (NInt 0)) (fun y =>
        choices d (TNum (fst y)) [x] None s (snd y)))
  | _, _ => TErr EUnmodelled
  end.

(** ** Queries *)

Fixpoint sols (d : nat) (D : db) (q : query) (s : scope) (nv : N) {struct d} : trace :=
  match d with
  | O => TCut
  | S d' =>
      match q with
      | QTrue => one s nv
      | QFalse => TEnd nv
      | QAnd l r => bindt (sols d' D l s nv) (sols d' D r)
      | QOr l r => append (sols d' D l s nv) (sols d' D r s)
      | QNot q => negt (sols d' D q s nv) s
      | QUnify l r => matches d' l [r] s nv
      | QTerm t =>
          tres (evaluate d' t s) (fun v =>
            match v with
            | TBool true => one s nv
            | TBool false => TEnd nv
            | TLit f args _ =>
                let g := (f, List.length args) in
                append (matches d' v (d_bel D g) s nv)
                       (clauses d' (sols d' D) v (d_rules D g) s)
            | _ => TErr (fmt_exc v)
            end)
      | QAct ac t => tres (lit_args t) (fun args => act_sols d' D (sols d' D) ac t args s nv)
      end
  end.

(** ** Which queries *)

(** Unifying a literal with a variable that way round does not protect the
    bindings (see C10_variable_refuted). *)
Definition safe_eq (l r : term) : bool :=
  negb (is_literal l) || negb (match r with TVar _ | TWild _ => true | _ => false end).

(** Actions that roll back when asked for another solution ... *)
Definition tidy_act (ac : act) (args : list term) : bool :=
  match ac, args with
  | AFail, _ => true
  | AMember, [_; _] | ARange, [_; _] | ASubstring, [_; _; _] => true
  | _, _ => false
  end.
(** ... that only test something (or print it) ... *)
Definition test_act (ac : act) : bool :=
  match ac with
  | AMark | ADump | APrint | AGround => true
  | APred _ (POpaque _) => false
  | APred _ _ => true
  | _ => false
  end.
(** ... and that bind their result without protecting it. *)
Definition leaky_act (ac : act) (args : list term) : bool :=
  match ac, args with
  | AMyName, [_] => true
  | AConcat, _ :: _ => true
  | AFun _ (FOpaque _), _ => false
  | AFun _ _, _ :: _ => true
  | AFindall, [_; goal; _] | ASum, [_; goal; _] => is_literal goal
  | ACount, [_; _] => true
  | _, _ => false
  end.

Definition act_args (t : term) : list term := match t with TLit _ args _ => args | _ => [] end.

(** Queries that restore the scope when exhausted even if it was extended in the
    meantime. *)
Fixpoint restoring (q : query) : bool :=
  match q with
  | QTrue | QNot _ => false
  | QFalse | QUnify _ _ => true
  | QTerm t => is_literal t
  | QAct ac t => tidy_act ac (act_args t)
  | QAnd l _ => restoring l
  | QOr _ r => restoring r
  end.

(** The queries considered.  With [quiet] nothing may be left bound on
    backtracking.  Otherwise actions that do so are allowed, but not before [|]. *)
Fixpoint proper (quiet : bool) (q : query) : bool :=
  match q with
  | QTrue | QFalse | QTerm _ => true
  | QUnify l r => safe_eq l r
  | QAnd l r => proper quiet l && proper quiet r
  | QOr l r => proper quiet l && proper quiet r && (quiet || restoring l)
  | QNot q => proper quiet q
  | QAct ac t =>
      is_literal t &&
      (tidy_act ac (act_args t) || test_act ac || negb quiet && leaky_act ac (act_args t))
  end.

(** ** Running a query *)

Inductive status : Type := Exhausted | Raised (e : exc) | Paused.

(** What the consumer does after a solution and before asking for the next one:
    operations on scope and stack (further bindings, choicepoints), and the
    number of fresh variables created. *)
Definition pause : Type := (list bop * N)%type.

(** What the semantics gives to a consumer that asks [length c] times. *)
Fixpoint take (c : list pause) (t : trace) : list scope * status :=
  match c with
  | [] => ([], Paused)
  | (_, k) :: c' =>
      match t with
      | TEnd _ => ([], Exhausted)
      | TErr e => ([], Raised e)
      | TCut => ([], Raised ERecursion)
      | TSol s nv rest => let '(l, o) := take c' (rest (nv + k)%N) in (s :: l, o)
      end
  end.

(** What next() gives to that consumer: the scopes at the solutions, how it
    ended, and the final state. *)
Fixpoint drive {FR : Front} (c : list pause) (n a i : nat) (g : gen) (s : ST) : list scope * status * ST :=
  match c with
  | [] => ([], Paused, s)
  | (os, k) :: c' =>
      match resume n a i g s with
      | (Ok (Some g'), (st, W)) =>
          let '(l, o, s2) := drive c' n a i g' (run_bops os st, set_nv W (w_nv W + k)%N) in
          (b_scope st :: l, o, s2)
      | (Ok None, s') => ([], Exhausted, s')
      | (Err e, s') => ([], Raised e, s')
      end
  end.

(** The database of an agent. *)
Definition beliefs (a : nat) (g : group) (W : world) : list term :=
  match assoc group_eqb g (a_bel (get_agent W a)) with
  | Some r => s_elems (get_set W r)
  | None => []
  end.
Definition db_of (a : nat) (W : world) : db :=
  mkdb (a_name (get_agent W a)) (fun g => beliefs a g W) (fun g => rules_of a g W).

(** All beliefs are literals, all rule bodies are proper queries. *)
Definition proper_db (quiet : bool) (D : db) : Prop :=
  forall g, Forall (fun b => is_literal b = true) (d_bel D g) /\
            Forall (fun r => proper quiet (r_query r) = true) (d_rules D g).

(** Nothing observable of the system changed, except for the counters, the
    output, and sets created for groups without beliefs. *)
Record unchanged (W W' : world) : Prop := mkunchanged {
  un_sets : forall r, get_set W' r = get_set W r;
  un_bel : forall a g, beliefs a g W' = beliefs a g W;
  un_rules : forall a, a_rules (get_agent W' a) = a_rules (get_agent W a);
  un_name : forall a, a_name (get_agent W' a) = a_name (get_agent W a);
  un_aplans : forall a, a_plans (get_agent W' a) = a_plans (get_agent W a);
  un_aints : forall a, a_ints (get_agent W' a) = a_ints (get_agent W a);
  un_plists : w_plists W' = w_plists W;
  un_ints : w_ints W' = w_ints W;
  un_env : w_env W' = w_env W;
  un_reads : w_reads W' = w_reads W;
  un_count : List.length (w_agents W') = List.length (w_agents W)
}.

End WithPy.
