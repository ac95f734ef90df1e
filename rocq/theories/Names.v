(** Logging, functor names, action tables, agent names
    (agentspeak/__init__.py:174-218, 293-315, 1001-1095;
    agentspeak/runtime.py:761-770). *)
From Verif Require Import Base Num Term Str World.

(** * Log (agentspeak/__init__.py:174-218) *)

Record log : Type := mklog { lg_max : option nat; lg_errors : nat; lg_warnings : nat }.

Definition log_new (max : option nat) : log := mklog max 0 0.

(** [log.error(...)] and [log.exception(...)] (181-203): [Err] if they raise
    AggregatedError themselves, [Ok tt] if they return it (the caller may raise
    it). *)
Definition log_error (l : log) : res unit * log :=
  let l' := mklog (lg_max l) (S (lg_errors l)) (lg_warnings l) in
  match lg_max l with
  | Some m => if Nat.leb m (lg_errors l') then (Err EAggregated, l') else (Ok tt, l')
  | None => (Ok tt, l')
  end.

(** [log.warning(...)] (205-210) *)
Definition log_warning (l : log) : log :=
  mklog (lg_max l) (lg_errors l) (S (lg_warnings l)).

(** [log.throw()] (216-218) *)
Definition log_throw (l : log) : res unit :=
  match lg_errors l with O => Ok tt | S _ => Err EAggregated end.

(** * sanitize_functor (309-315) *)

(** KEYWORDS (293-306) *)
Definition keywords : list pystr :=
  [s2p "true"; s2p "false"; s2p "not"; s2p "div"; s2p "mod"; s2p "if"; s2p "else";
   s2p "while"; s2p "for"; s2p "include"; s2p "begin"; s2p "end"].

Definition is_digit (c : N) : bool := ((48 <=? c) && (c <=? 57))%N.
Definition is_upper (c : N) : bool := ((65 <=? c) && (c <=? 90))%N.
Definition is_lower (c : N) : bool := ((97 <=? c) && (c <=? 122))%N.
Definition is_ascii_alnum (c : N) : bool := is_digit c || is_upper c || is_lower c.

Section WithPy.
Context {PY : Py}.

(** [ch.isalnum()], [ch.lower()] *)
Definition alnum (c : N) : bool := if (c <? 128)%N then is_ascii_alnum c else u_alnum c.
Definition lower (c : N) : pystr :=
  if (c <? 128)%N then [if is_upper c then (c + 32)%N else c] else u_lower c.

(** [s.lstrip("_")] *)
Fixpoint lstrip_us (s : pystr) : pystr :=
  match s with
  | c :: s' => if (c =? 95)%N then lstrip_us s' else s
  | [] => []
  end.

(** [while functor in KEYWORDS: functor += "_"]; [k] bounds the number of
    tests. *)
Fixpoint avoid_keyword (k : nat) (f : pystr) : res pystr :=
  match k with
  | O => Err ERecursion
  | S k' => if existsb (pystr_eqb f) keywords then avoid_keyword k' (f ++ [95%N]) else Ok f
  end.

Definition sanitize_functor (s : pystr) : res pystr :=
  match lstrip_us (map (fun c => if alnum c then c else 95%N) s) with
  | [] => avoid_keyword (S (List.length keywords)) []
  | c :: s' => avoid_keyword (S (List.length keywords)) (lower c ++ s')
  end.

(** * Agent names (runtime.py:761-770) *)

(** [os.path.basename(path)] (POSIX) *)
Fixpoint basename_acc (path acc : pystr) : pystr :=
  match path with
  | [] => rev acc
  | c :: path' => if (c =? 47)%N then basename_acc path' [] else basename_acc path' (c :: acc)
  end.
Definition basename (path : pystr) : pystr := basename_acc path [].

(** [os.path.splitext(name)[0]] for a name without slashes: cut at the last dot
    unless there are only dots before it.  [rev_stem] looks for the last dot in
    the reversed name. *)
Fixpoint rev_stem (s : pystr) : option pystr :=
  match s with
  | [] => None
  | c :: s' => if (c =? 46)%N then Some s' else rev_stem s'
  end.
Definition splitext (name : pystr) : pystr :=
  match rev_stem (rev name) with
  | Some s => if forallb (fun c => (c =? 46)%N) s then name else rev s
  | None => name
  end.

Definition base_name (path : pystr) : res pystr :=
  match sanitize_functor (splitext (basename path)) with
  | Ok [] => Ok (s2p "agent")
  | r => r
  end.

(** [while name in self.agents: name = base_name + str(i); i += 1].  [k] bounds
    the number of iterations; [names] are the keys of [self.agents]. *)
Fixpoint try_names (k : nat) (base : pystr) (i : N) (names : list pystr) : res pystr :=
  match k with
  | O => Err ERecursion
  | S k' =>
      let name := base ++ dec_N i in
      if existsb (pystr_eqb name) names then try_names k' base (N.succ i) names else Ok name
  end.
Definition make_name (path : pystr) (names : list pystr) : res pystr :=
  rbind (base_name path) (fun base =>
    if existsb (pystr_eqb base) names then try_names (S (List.length names)) base 1 names else Ok base).

End WithPy.

(** * Action tables (agentspeak/__init__.py:1001-1095) *)

(** Actions: parent, actions by functor and arity, variadic actions.  The
    contents are generic: what an entry does plays no role here. *)
Inductive actions (A : Type) : Type :=
  mkactions (parent : option (actions A)) (exact : list (group * A)) (variadic : list (pystr * A)).
Arguments mkactions {A} parent exact variadic.

Section Actions.
Context {A : Type}.

Definition actions_new (parent : option (actions A)) : actions A := mkactions parent [] [].

(** Actions.add (1007-1023); AssertionError if the entry exists. *)
Definition actions_add (t : actions A) (f : pystr) (arity : option nat) (a : A) : res (actions A) :=
  let '(mkactions parent exact variadic) := t in
  match arity with
  | None =>
      match assoc pystr_eqb f variadic with
      | Some _ => Err EAssert
      | None => Ok (mkactions parent exact (variadic ++ [(f, a)]))
      end
  | Some n =>
      match assoc group_eqb (f, n) exact with
      | Some _ => Err EAssert
      | None => Ok (mkactions parent (exact ++ [((f, n), a)]) variadic)
      end
  end.

(** Actions.lookup (1086-1095) *)
Fixpoint actions_lookup (t : actions A) (f : pystr) (n : nat) : res A :=
  let '(mkactions parent exact variadic) := t in
  match assoc group_eqb (f, n) exact with
  | Some a => Ok a
  | None =>
      match assoc pystr_eqb f variadic with
      | Some a => Ok a
      | None => match parent with Some p => actions_lookup p f n | None => Err EKey end
      end
  end.
End Actions.

(** _count_specs (987-998): agent and environment specs consume no argument. *)
Definition count_specs (specs : list spec) : nat :=
  List.length (filter (fun s => match s with SAgent | SEnv => false | _ => true end) specs).

(** Actions.add_function, add_predicate, add_procedure (1025-1084). *)
Definition add_function (t : actions act) (f : pystr) (specs : list spec) (impl : fn) : res (actions act) :=
  actions_add t f (Some (count_specs specs + 1)%nat) (AFun specs impl).
Definition add_predicate (t : actions act) (f : pystr) (specs : list spec) (impl : pr) : res (actions act) :=
  actions_add t f (Some (count_specs specs)) (APred specs impl).
Definition add_procedure (t : actions act) (f : pystr) (specs : list spec) (impl : pyfun) : res (actions act) :=
  actions_add t f (Some (count_specs specs)) (AProc specs impl).

(** The table of agentspeak.stdlib (stdlib.py:59-428). *)
Definition entry (f : string) (n : nat) (a : act) : group * act := ((s2p f, n), a).
Definition stdlib_actions : actions act :=
  mkactions None
    [entry ".broadcast" 2 ABroadcast; entry ".send" 3 ASend; entry ".fail" 0 AFail;
     entry ".my_name" 1 AMyName;
     entry ".random" 1 (AFun [] (FOpaque PFRandom));
     entry ".min" 2 (AFun [STuple] FMin); entry ".max" 2 (AFun [STuple] FMax);
     entry ".length" 2 (AFun [SAny] FLength);
     entry ".nth" 3 (AFun [SInt; STuple] FNth); entry ".sort" 2 (AFun [STuple] FSort);
     entry ".substring" 3 ASubstring; entry ".member" 2 AMember;
     entry ".atom" 1 (APred [SAny] PAtom); entry ".literal" 1 (APred [SAny] PLiteral);
     entry ".list" 1 (APred [SAny] PList); entry ".number" 1 (APred [SAny] PNumber);
     entry ".string" 1 (APred [SAny] PString); entry ".structure" 1 (APred [SAny] PStructure);
     entry ".ground" 1 AGround; entry ".findall" 3 AFindall; entry ".count" 2 ACount;
     entry ".abolish" 1 AAbolish; entry ".date" 3 ADate; entry ".time" 3 ATime;
     entry ".wait" 1 AWait; entry ".wait" 2 AWait; entry ".range" 2 ARange;
     entry ".dump" 0 ADump; entry ".unbind_all" 0 AUnbindAll; entry ".control_flow" 0 (AUnmod 0);
     entry ".inf_mark_nosidef" 1 AMark; entry ".inf_nosideef" 0 AMark;
     entry ".inf_disable_global" 0 AMark; entry ".inf_disable_local" 0 AMark]
    [(s2p ".print", APrint); (s2p ".concat", AConcat); (s2p ".inf_side_effect", AMark)].

(** The table of agentspeak.ext_stdlib (ext_stdlib.py:27-90). *)
Definition ext_actions : actions act :=
  mkactions (Some stdlib_actions)
    [entry ".raise" 0 ARaise; entry ".raise" 1 (AProcRaise [SAny]);
     entry ".tail" 2 (AFun [STuple] FTail);
     entry ".floor" 2 (AFun [SFloat] FFloor); entry ".ceil" 2 (AFun [SFloat] FCeil);
     entry ".round" 2 (AFun [SFloat] FRound);
     entry ".randint" 3 (AFun [SInt; SInt] (FOpaque PFRandint));
     entry ".sum" 3 ASum]
    [(s2p ".csv", AUnmod 1)].
