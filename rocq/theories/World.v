(** The state of a running system: queries and suspended generators, plans,
    intentions, agents and the environment (agentspeak/runtime.py:169-390,
    757-759, 957-963). *)
From Verif Require Import Base Num Term Unify.

(** * Events, goals *)

(** Trigger and GoalType (agentspeak/__init__.py:221-233). *)
Inductive trig : Type := TrAdd | TrRem.
Inductive gtype : Type := GtAchieve | GtTest | GtBelief | GtTellHow | GtAskHow.

Definition trig_eqb (a b : trig) : bool :=
  match a, b with TrAdd, TrAdd | TrRem, TrRem => true | _, _ => false end.
Definition gtype_eqb (a b : gtype) : bool :=
  match a, b with
  | GtAchieve, GtAchieve | GtTest, GtTest | GtBelief, GtBelief
  | GtTellHow, GtTellHow | GtAskHow, GtAskHow => true
  | _, _ => false
  end.

Definition trig_lex (t : trig) : pystr := match t with TrAdd => s2p "+" | TrRem => s2p "-" end.
Definition gtype_lex (g : gtype) : pystr :=
  match g with
  | GtAchieve => s2p "!" | GtTest => s2p "?" | GtBelief => []
  | GtTellHow => s2p "+^" | GtAskHow => s2p "+?"
  end.

(** * Actions *)

(** Argument conversions of Actions.add_function etc. (_zip_specs,
    agentspeak/__init__.py:953-984).  [SAgent] and [SEnv] pass the agent or
    the environment and consume no argument.  A Python class as spec
    (isinstance check, 979-980) is not modelled. *)
Inductive spec : Type := SAny | SInt | SFloat | SStr | STuple | SAgent | SEnv.

(** Python callables behind add_function (stdlib.py:208-223,
    ext_stdlib.py:41-50). *)
Inductive fn : Type :=
| FMin | FMax | FLength | FNth | FSort | FTail | FFloor | FCeil | FRound
| FOpaque (f : pyfun).

(** Python callables behind add_predicate (stdlib.py:259-264). *)
Inductive pr : Type :=
| PAtom | PLiteral | PList | PNumber | PString | PStructure
| POpaque (f : pyfun).

(** Action implementations: stdlib.py, ext_stdlib.py and user supplied ones
    registered with add_function, add_predicate, add_procedure.  [AMark]: the
    actions the optimizer uses as markers (optimizer.py:1826-1850).  [AUnmod]
    stands for .control_flow, .csv, .geometric and for generator functions
    registered with Actions.add by the user. *)
Inductive act : Type :=
| ABroadcast | ASend | APrint | AFail | AMyName | AConcat
| ASubstring | AMember | AGround | AFindall | ACount | AAbolish
| ADate | ATime | AWait | ARange | ADump | AUnbindAll | AMark
| ARaise | ASum
| AFun (specs : list spec) (f : fn)
| APred (specs : list spec) (p : pr)
| AProc (specs : list spec) (f : pyfun)
| AProcRaise (specs : list spec)
| AUnmod (k : N).

(** * Queries and their generators *)

(** TrueQuery, FalseQuery, ActionQuery, TermQuery, AndQuery, OrQuery, NotQuery,
    UnifyQuery (runtime.py:169-289). *)
Inductive query : Type :=
| QTrue | QFalse
| QAct (a : act) (t : term)
| QTerm (t : term)
| QAnd (l r : query)
| QOr (l r : query)
| QNot (q : query)
| QUnify (l r : term).

(** Rule (runtime.py:291-294) *)
Record rule : Type := mkrule { r_head : term; r_query : query }.

(** Suspended generators.  Each constructor is a point where a generator can be
    suspended (or a point inside its loops reached on the way to the next
    [yield]):
    - [GQ q]: q.execute(...) not started;
    - [GStop]: suspended at a [yield] with nothing left to do;
    - [GAnn cp]: unify_annotated suspended at its [yield];
    - [GBel cp t ref ver sz rest]: TermQuery.execute, loop over beliefs (199-201):
      [cp] is the suspended unify_annotated, [rest] what the set iterator has
      not delivered yet, [ver]/[sz] the version and size of the set when the
      iteration started;
    - [GRule cp t sub rest]: TermQuery.execute, loop over rules (206-215), [sub]
      the suspended rule query;
    - [GAnd gl gr r]: AndQuery.execute (227-230);
    - [GOr g r]: OrQuery.execute (241-246), [r] the right query if not started;
    - [GCand cp tgt cands fin]: the loops of .substring, .member, .range: a
      candidate is currently unified if [cp] is [Some]; [fin] is the exception
      raised after the last candidate, if any. *)
Inductive gen : Type :=
| GQ (q : query)
| GStop
| GAnn (cp : N)
| GBel (cp : option N) (t : term) (ref : nat) (ver : N) (sz : nat) (rest : list term)
| GRule (cp : N) (t : term) (sub : option gen) (rest : list rule)
| GAnd (gl : gen) (gr : option gen) (r : query)
| GOr (g : gen) (r : option query)
| GCand (on : bool) (cp : N) (tgt : term) (cands : list term) (fin : option exc).

(** * Instructions, plans *)

(** The functions an instruction runs (runtime.py:902-954). *)
Inductive iop : Type :=
| INoop
| ICall (tr : trig) (gt : gtype) (t : term) (delayed : bool)
| IPushQ (q : query)
| INext
| IPopQ
| IPushCP
| IPopCP.

(** Instruction (runtime.py:957-963): instructions of one plan live in an array,
    [success] and [failure] are indices. *)
Record instr : Type := mkinstr { in_op : iop; in_succ : option nat; in_fail : option nat }.

(** Plan (runtime.py:301-313).  The body is its instruction array (entry 0 is
    the first instruction).  [p_label] is the functor of the annotation,
    [p_ltext] the text of the annotation, [p_btext] the text of the body AST. *)
Record plan : Type := mkplan {
  p_trig : trig; p_gt : gtype; p_functor : pystr; p_hargs : list term; p_hannots : list term;
  p_ctx : query; p_code : list instr;
  p_label : option pystr; p_ltext : pystr; p_btext : pystr; p_args : list pystr
}.

Definition p_head (p : plan) : term := TLit (p_functor p) (p_hargs p) (p_hannots p).

(** Event (runtime.py:316-320), Waiter (323-329).  Times are numbers. *)
Record event : Type := mkevent { ev_trig : trig; ev_gt : gtype; ev_head : term }.
Record waiter : Type := mkwaiter { wt_event : option event; wt_until : option num }.

(** Intention (runtime.py:331-346).  [i_code], [i_pc] represent [instr]. *)
Record intention : Type := mkint {
  i_code : list instr; i_pc : option nat;
  i_head : option term; i_call : option term;
  i_bst : bst; i_qs : list gen; i_cps : list N; i_wait : option waiter
}.

Definition bst0 : bst := mkbst [] [] 0.
Definition int0 : intention := mkint [] None None None bst0 [] [] None.

(** * Agents, environment *)

Definition group := (pystr * nat)%type.
Definition group_eqb (a b : group) : bool :=
  pystr_eqb (fst a) (fst b) && Nat.eqb (snd a) (snd b).

Definition pgroup := (trig * gtype * group)%type.
Definition pgroup_eqb (a b : pgroup) : bool :=
  trig_eqb (fst (fst a)) (fst (fst b)) && gtype_eqb (snd (fst a)) (snd (fst b))
  && group_eqb (snd a) (snd b).

(** Agent (runtime.py:349-358).  [a_bel] and [a_plans] map groups to sets and
    lists in the heap: several agents may share them.  Rules never change
    after an agent is built, so they are stored directly.  [a_ints]:
    intention stacks, each with its top first. *)
Record agent : Type := mkagent {
  a_name : pystr;
  a_bel : list (group * nat);
  a_rules : list (group * list rule);
  a_plans : list (pgroup * nat);
  a_ints : list (list nat)
}.

(** A set of beliefs in the heap, with a version number that counts its
    modifications. *)
Record bset : Type := mkbset { s_ver : N; s_elems : list term }.

(** The whole system: heaps of belief sets, plan lists and intentions, agents,
    Environment.agents (name to agent, in insertion order), the identity of the
    next Var(), counters of clock readings and of opaque calls, and the lines
    printed so far (newest first, with the printing agent's name). *)
Record world : Type := mkworld {
  w_sets : list bset;
  w_plists : list (list plan);
  w_ints : list intention;
  w_agents : list agent;
  w_env : list (pystr * nat);
  w_nv : N; w_reads : N; w_tick : N;
  w_out : list (pystr * pystr)
}.

(** ** Updates *)

Fixpoint upd {A} (l : list A) (k : nat) (x : A) : list A :=
  match l, k with
  | [], _ => []
  | _ :: l', O => x :: l'
  | y :: l', S k' => y :: upd l' k' x
  end.

Definition set_sets W x := mkworld x (w_plists W) (w_ints W) (w_agents W) (w_env W) (w_nv W) (w_reads W) (w_tick W) (w_out W).
Definition set_plists W x := mkworld (w_sets W) x (w_ints W) (w_agents W) (w_env W) (w_nv W) (w_reads W) (w_tick W) (w_out W).
Definition set_ints W x := mkworld (w_sets W) (w_plists W) x (w_agents W) (w_env W) (w_nv W) (w_reads W) (w_tick W) (w_out W).
Definition set_agents W x := mkworld (w_sets W) (w_plists W) (w_ints W) x (w_env W) (w_nv W) (w_reads W) (w_tick W) (w_out W).
Definition set_env W x := mkworld (w_sets W) (w_plists W) (w_ints W) (w_agents W) x (w_nv W) (w_reads W) (w_tick W) (w_out W).
Definition set_nv W x := mkworld (w_sets W) (w_plists W) (w_ints W) (w_agents W) (w_env W) x (w_reads W) (w_tick W) (w_out W).
Definition set_reads W x := mkworld (w_sets W) (w_plists W) (w_ints W) (w_agents W) (w_env W) (w_nv W) x (w_tick W) (w_out W).
Definition set_tick W x := mkworld (w_sets W) (w_plists W) (w_ints W) (w_agents W) (w_env W) (w_nv W) (w_reads W) x (w_out W).
Definition set_out W x := mkworld (w_sets W) (w_plists W) (w_ints W) (w_agents W) (w_env W) (w_nv W) (w_reads W) (w_tick W) x.

Definition agent0 : agent := mkagent [] [] [] [] [].
Definition get_agent (W : world) (a : nat) : agent := nth a (w_agents W) agent0.
Definition put_agent (W : world) (a : nat) (x : agent) : world := set_agents W (upd (w_agents W) a x).
Definition get_int (W : world) (i : nat) : intention := nth i (w_ints W) int0.
Definition put_int (W : world) (i : nat) (x : intention) : world := set_ints W (upd (w_ints W) i x).
Definition get_set (W : world) (r : nat) : bset := nth r (w_sets W) (mkbset 0 []).
Definition get_plist (W : world) (r : nat) : list plan := nth r (w_plists W) [].

Definition set_a_bel x v := mkagent (a_name x) v (a_rules x) (a_plans x) (a_ints x).
Definition set_a_plans x v := mkagent (a_name x) (a_bel x) (a_rules x) v (a_ints x).
Definition set_a_rules x v := mkagent (a_name x) (a_bel x) v (a_plans x) (a_ints x).
Definition set_a_ints x v := mkagent (a_name x) (a_bel x) (a_rules x) (a_plans x) v.

Definition set_i_bst x v := mkint (i_code x) (i_pc x) (i_head x) (i_call x) v (i_qs x) (i_cps x) (i_wait x).
Definition set_i_pc x v := mkint (i_code x) v (i_head x) (i_call x) (i_bst x) (i_qs x) (i_cps x) (i_wait x).
Definition set_i_qs x v := mkint (i_code x) (i_pc x) (i_head x) (i_call x) (i_bst x) v (i_cps x) (i_wait x).
Definition set_i_cps x v := mkint (i_code x) (i_pc x) (i_head x) (i_call x) (i_bst x) (i_qs x) v (i_wait x).
Definition set_i_wait x v := mkint (i_code x) (i_pc x) (i_head x) (i_call x) (i_bst x) (i_qs x) (i_cps x) v.

(** dict lookup *)
Fixpoint assoc {K V} (eqb : K -> K -> bool) (k : K) (l : list (K * V)) : option V :=
  match l with
  | [] => None
  | (k', v) :: l' => if eqb k k' then Some v else assoc eqb k l'
  end.

(** [agent.beliefs[g]] on the defaultdict (354): creates an empty set. *)
Definition bel_ref (a : nat) (g : group) (W : world) : nat * world :=
  let ag := get_agent W a in
  match assoc group_eqb g (a_bel ag) with
  | Some r => (r, W)
  | None =>
      let r := List.length (w_sets W) in
      let W1 := set_sets W (w_sets W ++ [mkbset 0 []]) in
      (r, put_agent W1 a (set_a_bel ag (a_bel ag ++ [(g, r)])))
  end.

(** [agent.plans[g]] on the defaultdict (356). *)
Definition plan_ref (a : nat) (g : pgroup) (W : world) : nat * world :=
  let ag := get_agent W a in
  match assoc pgroup_eqb g (a_plans ag) with
  | Some r => (r, W)
  | None =>
      let r := List.length (w_plists W) in
      let W1 := set_plists W (w_plists W ++ [[]]) in
      (r, put_agent W1 a (set_a_plans ag (a_plans ag ++ [(g, r)])))
  end.

(** [agent.rules[g]] (355): iterating over it never has an observable effect. *)
Definition rules_of (a : nat) (g : group) (W : world) : list rule :=
  match assoc group_eqb g (a_rules (get_agent W a)) with Some l => l | None => [] end.

(** Agent.add_rule (383-384) *)
Fixpoint rules_add (g : group) (r : rule) (l : list (group * list rule)) : list (group * list rule) :=
  match l with
  | [] => [(g, [r])]
  | (g', rs) :: l' => if group_eqb g g' then (g', rs ++ [r]) :: l' else (g', rs) :: rules_add g r l'
  end.

(** [set.add(t)]: nothing changes if an equal element is present (the old one
    is kept); otherwise the iteration order of the larger set is arbitrary. *)
Definition set_add {PY : Py} (s : bset) (t : term) : bset :=
  if py_in t (s_elems s) then s
  else mkbset (N.succ (s_ver s)) (horder (t :: s_elems s)).

(** [set.remove(b)] for the element at a given position: the order of the
    others is kept (CPython marks the slot as deleted). *)
Definition set_remove_at (s : bset) (k : nat) : bset :=
  mkbset (N.succ (s_ver s)) (firstn k (s_elems s) ++ skipn (S k) (s_elems s)).

(** [Intention()] *)
Definition new_int (W : world) : nat * world :=
  (List.length (w_ints W), set_ints W (w_ints W ++ [int0])).
