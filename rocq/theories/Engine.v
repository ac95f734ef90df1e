(** Query execution, actions and [Agent.call]
    (agentspeak/runtime.py:169-289, 383-683, 731-754; agentspeak/stdlib.py;
    agentspeak/ext_stdlib.py; agentspeak/__init__.py:953-1080). *)
From Verif Require Import Base Num Term Unify Str World.
From Coq Require Import Floats.SpecFloat.

(** * State and exceptions *)

(** The scope and stack of the intention on whose behalf the code runs, and the
    world. *)
Definition ST : Type := (bst * world)%type.
Definition M (A : Type) : Type := ST -> res A * ST.

Definition mret {A} (x : A) : M A := fun s => (Ok x, s).
Definition mfail {A} (e : exc) : M A := fun s => (Err e, s).
Definition mbind {A B} (m : M A) (k : A -> M B) : M B := fun s =>
  match m s with
  | (Ok x, s') => k x s'
  | (Err e, s') => (Err e, s')
  end.
Definition lift {A} (r : res A) : M A := fun s => (r, s).
Definition m_st : M bst := fun s => (Ok (fst s), s).
Definition m_world : M world := fun s => (Ok (snd s), s).
Definition put_st (st : bst) : M unit := fun s => (Ok tt, (st, snd s)).
Definition put_world (W : world) : M unit := fun s => (Ok tt, (fst s, W)).
Definition on_st {A} (f : bst -> res A * bst) : M A := fun s =>
  let '(r, st') := f (fst s) in (r, (st', snd s)).
Definition on_world {A} (f : world -> A * world) : M A := fun s =>
  let '(x, W') := f (snd s) in (Ok x, (fst s, W')).

Declare Scope m_scope.
Delimit Scope m_scope with M.
Notation "x <- m ;; k" := (mbind m (fun x => k))
  (at level 61, m at next level, right associativity) : m_scope.
Notation "m ;; k" := (mbind m (fun _ => k))
  (at level 61, right associativity) : m_scope.
Open Scope m_scope.

(** Run [k] on behalf of a new [Intention()]. *)
Definition with_new {A} (k : nat -> M A) : M A := fun s =>
  let '(ci, W1) := new_int (snd s) in
  let '(r, s2) := k ci (bst0, W1) in
  (r, (fst s, snd s2)).

(** A [for] statement over a list. *)
Fixpoint mfor {A} (l : list A) (f : A -> M unit) : M unit :=
  match l with
  | [] => mret tt
  | x :: l' => f x ;; mfor l' f
  end.

(** Tokenising, parsing and building of text at run time: _tell_how
    (runtime.py:507-547) and .wait (stdlib.py:373-384).  The second component
    is the identity of the next Var(). *)
Class Front : Type := {
  fr_plan : pystr -> N -> res (plan * N);
  fr_event : pystr -> N -> res (event * N)
}.

(** * Copying rules: [copy.deepcopy(rule)] (runtime.py:207) *)

Fixpoint tvars (t : term) : list N :=
  match t with
  | TVar v => [v]
  | TUn _ a => tvars a
  | TBin _ l r => tvars l ++ tvars r
  | TLit _ args annots => flat_map tvars args ++ flat_map tvars annots
  | TTup ts => flat_map tvars ts
  | TLL h t => tvars h ++ tvars t
  | _ => []
  end.

Fixpoint qvars (q : query) : list N :=
  match q with
  | QTrue | QFalse => []
  | QAct _ t | QTerm t => tvars t
  | QAnd l r | QOr l r => qvars l ++ qvars r
  | QNot q => qvars q
  | QUnify l r => tvars l ++ tvars r
  end.

(** The variables of a clause, numbered: the i-th distinct variable gets
    identity [k + i]. *)
Fixpoint number (vs : list N) (m : memo) (k : N) : memo * N :=
  match vs with
  | [] => (m, k)
  | v :: vs' =>
      match memo_get m v with
      | Some _ => number vs' m k
      | None => number vs' ((v, k) :: m) (N.succ k)
      end
  end.

Section WithPy.
Context {PY : Py}.

Fixpoint rename (m : memo) (t : term) : term :=
  match t with
  | TVar v => TVar (match memo_get m v with Some x => x | None => v end)
  | TUn op a => TUn op (rename m a)
  | TBin op l r => TBin op (rename m l) (rename m r)
  | TLit f args annots => TLit f (map (rename m) args) (mk_set (map (rename m) annots))
  | TTup ts => TTup (map (rename m) ts)
  | TLL h t => TLL (rename m h) (rename m t)
  | _ => t
  end.

Fixpoint qrename (m : memo) (q : query) : query :=
  match q with
  | QTrue => QTrue
  | QFalse => QFalse
  | QAct a t => QAct a (rename m t)
  | QTerm t => QTerm (rename m t)
  | QAnd l r => QAnd (qrename m l) (qrename m r)
  | QOr l r => QOr (qrename m l) (qrename m r)
  | QNot q => QNot (qrename m q)
  | QUnify l r => QUnify (rename m l) (rename m r)
  end.

(** A copy of the rule in which every variable is replaced by a new one.
    Wildcards keep their identity, which nothing observes. *)
Definition copy_rule (r : rule) (k : N) : rule * N :=
  let '(m, k') := number (tvars (r_head r) ++ qvars (r_query r)) [] k in
  (mkrule (rename m (r_head r)) (qrename m (r_query r)), k').

(** * Python built-ins on terms *)

(** Iteration over a term: the items delivered, then possibly an exception
    (TypeError for something that is not iterable; LinkedList.__iter__,
    agentspeak/__init__.py:827-830). *)
Fixpoint iter_items (t : term) : list term * option exc :=
  match t with
  | TTup ts => (ts, None)
  | TLL h tl => let '(xs, e) := iter_items tl in (h :: xs, e)
  | TStr s => (map (fun c => TStr [c]) s, None)
  | _ => ([], Some EType)
  end.

(** [tuple(t)] *)
Definition to_tuple (t : term) : res (list term) :=
  match iter_items t with
  | (xs, None) => Ok xs
  | (_, Some e) => Err e
  end.

(** [len(t)] (Literal.__len__, 690-691; LinkedList.__len__, 810-811) *)
Fixpoint py_len (t : term) : res Z :=
  match t with
  | TTup ts => Ok (Z.of_nat (List.length ts))
  | TStr s => Ok (Z.of_nat (List.length s))
  | TLit _ args _ => Ok (Z.of_nat (List.length args))
  | TLL _ tl => rmap Z.succ (py_len tl)
  | _ => Err EType
  end.

(** Rounding of a float to an int: towards zero, down, up, to even.
    ValueError for a NaN, OverflowError for an infinity. *)
Definition flt_to_Z (rnd : Z -> Z -> Z) (f : spec_float) : res Z :=
  match f with
  | S754_nan => Err EValue
  | S754_infinity _ => Err EOverflow
  | S754_zero _ => Ok 0%Z
  | S754_finite s m e =>
      let z := if s then Zneg m else Zpos m in
      match e with
      | Zneg p => Ok (rnd z (2 ^ Zpos p)%Z)
      | _ => Ok (z * 2 ^ e)%Z
      end
  end.
Definition rnd_floor (z d : Z) : Z := (z / d)%Z.
Definition rnd_ceil (z d : Z) : Z := (- ((- z) / d))%Z.
Definition rnd_trunc (z d : Z) : Z := Z.quot z d.
Definition rnd_even (z d : Z) : Z :=
  let q := (z / d)%Z in
  let r := (z mod d)%Z in
  if (2 * r <? d)%Z then q
  else if (d <? 2 * r)%Z then (q + 1)%Z
  else if Z.even q then q else (q + 1)%Z.

(** [int(t)], [float(t)]; the conversion of strings is not modelled. *)
Definition to_int (t : term) : res Z :=
  match t with
  | TBool b => Ok (if b then 1 else 0)%Z
  | TNum (NInt z) => Ok z
  | TNum (NFlt f) => flt_to_Z rnd_trunc f
  | TStr _ => Err EUnmodelled
  | _ => Err EType
  end.
Definition to_flt (t : term) : res spec_float :=
  match t with
  | TBool b => to_float (if b then 1 else 0)%Z
  | TNum x => as_float x
  | TStr _ => Err EUnmodelled
  | _ => Err EType
  end.

(** Python truth value. *)
Definition truthy (t : term) : bool :=
  match t with
  | TBool b => b
  | TNum x => negb (num_eqb x (NInt 0))
  | TStr [] | TTup [] => false
  | _ => true
  end.

(** [min(l)], [max(l)]: [better x y] tells whether a later item replaces the
    current one. *)
Fixpoint select (c : cop) (best : term) (l : list term) : res term :=
  match l with
  | [] => Ok best
  | x :: l' =>
      match py_ord c x best with
      | Err e => Err e
      | Ok true => select c x l'
      | Ok false => select c best l'
      end
  end.
Definition py_min (l : list term) : res term :=
  match l with [] => Err EValue | x :: l' => select CLt x l' end.
Definition py_max (l : list term) : res term :=
  match l with [] => Err EValue | x :: l' => select CGt x l' end.

(** [sorted(l)]: stable.  Simplification: if some pair of items cannot be
    compared the outcome depends on the comparisons the algorithm happens to
    make; the model then returns [Err EUnmodelled]. *)
Definition lt_ok (x y : term) : bool :=
  match py_ord CLt x y with Ok _ => true | Err _ => false end.
Definition lt_yes (x y : term) : bool :=
  match py_ord CLt x y with Ok true => true | _ => false end.
Fixpoint insert_sorted (x : term) (l : list term) : list term :=
  match l with
  | [] => [x]
  | y :: l' => if lt_yes y x then y :: insert_sorted x l' else x :: y :: l'
  end.
Definition py_sorted (l : list term) : res (list term) :=
  if Nat.leb (List.length l) 1 then Ok l
  else if forallb (fun x => forallb (lt_ok x) l) l then Ok (fold_right insert_sorted [] l)
  else Err EUnmodelled.

(** [haystack.find(needle, ...)] for all positions: where the needle occurs. *)
Fixpoint is_prefix (p s : pystr) : bool :=
  match p, s with
  | [], _ => true
  | x :: p', y :: s' => N.eqb x y && is_prefix p' s'
  | _ :: _, [] => false
  end.
Fixpoint occurrences (needle s : pystr) (k : Z) : list Z :=
  (if is_prefix needle s then [k] else []) ++
  match s with [] => [] | _ :: s' => occurrences needle s' (k + 1)%Z end.

(** [needle in haystack] *)
Definition is_substr (needle s : pystr) : bool :=
  match occurrences needle s 0 with [] => false | _ => true end.

(** * Argument conversion and callables (agentspeak/__init__.py:953-984) *)

Definition convert (sp : spec) (t : term) : res term :=
  match sp with
  | SInt => rmap (fun z => TNum (NInt z)) (to_int t)
  | SFloat => rmap (fun f => TNum (NFlt f)) (to_flt t)
  | SStr => Ok (TStr (asl_str t))
  | STuple => rmap TTup (to_tuple t)
  | _ => Ok t
  end.

(** _zip_specs: arguments are frozen with a shared memo and converted, left to
    right.  Too few arguments: the StopIteration of [next(args)] inside the
    generator becomes RuntimeError. *)
Fixpoint zip_specs (n : nat) (specs : list spec) (args : list term) (s : scope) (m : fst_)
  : res (list term) * fst_ :=
  match specs with
  | [] => (Ok [], m)
  | sp :: specs' =>
      match sp with
      | SAgent | SEnv => zip_specs n specs' args s m
      | _ =>
          match args with
          | [] => (Err ERuntime, m)
          | t :: args' =>
              match freeze n t s m with
              | (Err e, m1) => (Err e, m1)
              | (Ok f, m1) =>
                  match convert sp f with
                  | Err e => (Err e, m1)
                  | Ok v =>
                      match zip_specs n specs' args' s m1 with
                      | (Err e, m2) => (Err e, m2)
                      | (Ok vs, m2) => (Ok (v :: vs), m2)
                      end
                  end
              end
          end
      end
  end.

(** stdlib.py:208-223, ext_stdlib.py:41-50.  Arguments have been converted. *)
Definition fn_apply (f : fn) (tick : N) (args : list term) : res term :=
  match f, args with
  | FMin, [TTup l] => py_min l
  | FMax, [TTup l] => py_max l
  | FLength, [t] => rmap (fun z => TNum (NInt z)) (py_len t)
  | FNth, [TNum (NInt z); TTup l] =>
      if (z <? 0)%Z then Err EAssert
      else match nth_error l (Z.to_nat z) with Some x => Ok x | None => Err EIndex end
  | FSort, [TTup l] => rmap TTup (py_sorted l)
  | FTail, [TTup l] => Ok (TTup (List.tl l))
  | FFloor, [TNum (NFlt x)] => rmap (fun z => TNum (NInt z)) (flt_to_Z rnd_floor x)
  | FCeil, [TNum (NFlt x)] => rmap (fun z => TNum (NInt z)) (flt_to_Z rnd_ceil x)
  | FRound, [TNum (NFlt x)] => rmap (fun z => TNum (NInt z)) (flt_to_Z rnd_even x)
  | FOpaque p, _ => py_call p tick args
  | _, _ => Err EUnmodelled
  end.

(** stdlib.py:259-264 *)
Definition pr_apply (p : pr) (tick : N) (args : list term) : res bool :=
  match p, args with
  | PAtom, [t] => Ok (is_atom t)
  | PLiteral, [t] => Ok (is_literal t)
  | PList, [t] => Ok (is_list t)
  | PNumber, [t] => Ok (is_number t)
  | PString, [t] => Ok (is_string t)
  | PStructure, [t] => Ok (is_structure t)
  | POpaque f, _ => rmap truthy (py_call f tick args)
  | _, _ => Err EUnmodelled
  end.

(** * Lifting of the term operations *)

Definition m_evaluate (n : nat) (t : term) : M term := fun s =>
  (evaluate n t (b_scope (fst s)), s).
Definition m_grounded (n : nat) (t : term) : M term := fun s =>
  (grounded n t (b_scope (fst s)), s).
Definition m_is_ground (n : nat) (t : term) : M bool := fun s =>
  (is_ground n t (b_scope (fst s)), s).
Definition m_unify (n : nat) (l r : term) : M bool := on_st (unify n l r).
Definition m_uann (n : nat) (l r : term) : M (option N) := on_st (uann n l r).
Definition m_reroll (cp : N) : M unit := on_st (fun st => (Ok tt, reroll st cp)).
Definition m_new_cp : M N := on_st (fun st => let '(c, st') := new_cp st in (Ok c, st')).
Definition m_push_cp (cp : N) : M unit := on_st (fun st => (Ok tt, push_cp cp st)).

(** freeze with the given memo; fresh variables come from the world. *)
Definition m_freeze (n : nat) (t : term) (mm : memo) : M (term * memo) := fun s =>
  match freeze n t (b_scope (fst s)) (mm, w_nv (snd s)) with
  | (Err e, (_, k)) => (Err e, (fst s, set_nv (snd s) k))
  | (Ok f, (mm', k)) => (Ok (f, mm'), (fst s, set_nv (snd s) k))
  end.
Definition m_zip (n : nat) (specs : list spec) (args : list term) : M (list term) := fun s =>
  match zip_specs n specs args (b_scope (fst s)) ([], w_nv (snd s)) with
  | (r, (_, k)) => (r, (fst s, set_nv (snd s) k))
  end.

(** Number of an opaque call, a reading of the clock. *)
Definition m_tick : M N := on_world (fun W => (w_tick W, set_tick W (N.succ (w_tick W)))).
Definition m_time : M num := on_world (fun W => (py_time (w_reads W), set_reads W (N.succ (w_reads W)))).

Definition arg (args : list term) (k : nat) : M term :=
  match nth_error args k with Some x => mret x | None => mfail EIndex end.
Definition last_arg (args : list term) : M term :=
  match rev args with x :: _ => mret x | [] => mfail EIndex end.

(** [term.args]; AttributeError if the term is not a Literal. *)
Definition lit_args (t : term) : res (list term) :=
  match t with TLit _ args _ => Ok args | _ => Err EAttr end.

(** [AslError("... '%s'" % term)]: formatting fails for tuples that do not have
    exactly one element. *)
Definition fmt_exc (t : term) : exc :=
  match t with TTup [_] => EAsl | TTup _ => EType | _ => EAsl end.

(** * Belief base *)

Definition has_grounded (t : term) : bool :=
  match t with TBool _ | TNum _ | TStr _ | TTup _ => false | _ => true end.

(** Agent.add_belief (622-628).  [grounded] and [functor] are attributes of
    the term. *)
Definition add_belief (n a : nat) (t : term) : M unit :=
  if has_grounded t then
    (v <- m_grounded n t ;;
     match v with
     | TLit f args _ =>
         r <- on_world (bel_ref a (f, List.length args)) ;;
         on_world (fun W => (tt, set_sets W (upd (w_sets W) r (set_add (get_set W r) v))))
     | _ => mfail EAttr
     end)%M
  else mfail EAttr.

(** The loop of Agent.remove_belief (656-662): the position of the first belief
    that matches; the bindings are kept. *)
Fixpoint rem_loop (n : nat) (cp : N) (t : term) (bs : list term) (k : nat) (st : bst)
  : res (option nat) * bst :=
  match bs with
  | [] => (Ok None, st)
  | b :: bs' =>
      match unifies_annotated_in n t b (push_cp cp st) with
      | (Err e, st1) => (Err e, st1)
      | (Ok true, st1) => (Ok (Some k), st1)
      | (Ok false, st1) => rem_loop n cp t bs' (S k) (reroll st1 cp)
      end
  end.

(** Agent.remove_belief (645-664) *)
Definition remove_belief (n a : nat) (t : term) : M bool :=
  (v <- m_evaluate n t ;;
   match v with
   | TLit f args _ =>
       cp <- m_new_cp ;;
       r <- on_world (bel_ref a (f, List.length args)) ;;
       W <- m_world ;;
       found <- on_st (rem_loop n cp v (s_elems (get_set W r)) 0) ;;
       match found with
       | Some k =>
           on_world (fun W => (tt, set_sets W (upd (w_sets W) r (set_remove_at (get_set W r) k)))) ;;
           mret true
       | None => mret false
       end
   | _ => mfail (fmt_exc v)
   end)%M.

(** .abolish (stdlib.py:305-316): which beliefs stay; an exception stops the
    loop, the beliefs already removed stay removed. *)
Fixpoint abolish_loop (n : nat) (pat : term) (bs : list term) : res unit * list term :=
  match bs with
  | [] => (Ok tt, [])
  | b :: bs' =>
      match unifies_annotated n b pat with
      | Err e => (Err e, bs)
      | Ok true => abolish_loop n pat bs'
      | Ok false => let '(r, l) := abolish_loop n pat bs' in (r, b :: l)
      end
  end.

Definition abolish (n a : nat) (t : term) : M unit :=
  (fm <- m_freeze n t [] ;;
   match fst fm with
   | TLit f args _ =>
       r <- on_world (bel_ref a (f, List.length args)) ;;
       W <- m_world ;;
       let s := get_set W r in
       let '(res, l) := abolish_loop n (fst fm) (s_elems s) in
       (if Nat.eqb (List.length l) (List.length (s_elems s)) then mret tt
        else put_world (set_sets W (upd (w_sets W) r (mkbset (N.succ (s_ver s)) l)))) ;;
       lift res
   | _ => mfail EAttr
   end)%M.

(** * Plans and intentions *)

(** Agent.add_plan (386-387) *)
Definition add_plan (a : nat) (p : plan) : M unit :=
  (r <- on_world (plan_ref a (p_trig p, p_gt p, (p_functor p, List.length (p_hargs p)))) ;;
   on_world (fun W => (tt, set_plists W (upd (w_plists W) r (get_plist W r ++ [p])))))%M.

(** The wake-up loop of Agent.call (407-420). *)
Definition wakes (n : nat) (tr : trig) (gt : gtype) (frozen : term) (it : intention) : res bool :=
  match i_wait it with
  | Some {| wt_event := Some ev |} =>
      if trig_eqb (ev_trig ev) tr && gtype_eqb (ev_gt ev) gt
      then unifies_annotated n (ev_head ev) frozen
      else Ok false
  | _ => Ok false
  end.

Fixpoint wake (n : nat) (tr : trig) (gt : gtype) (frozen : term) (stacks : list (list nat)) : M unit :=
  match stacks with
  | [] => mret tt
  | [] :: stacks' => wake n tr gt frozen stacks'
  | (i :: _) :: stacks' =>
      (W <- m_world ;;
       b <- lift (wakes n tr gt frozen (get_int W i)) ;;
       (if b : bool then put_world (put_int W i (set_i_wait (get_int W i) None)) else mret tt) ;;
       wake n tr gt frozen stacks')%M
  end.

(** Agent._unachieve (485-505): the stacks after the loop. *)
Fixpoint unachieve_loop (n : nat) (W : world) (f : pystr) (args : list term) (stacks : list (list nat))
  : res unit * list (list nat) :=
  match stacks with
  | [] => (Ok tt, [])
  | [] :: stacks' => let '(r, l) := unachieve_loop n W f args stacks' in (r, [] :: l)
  | (i :: rest) :: stacks' =>
      match i_head (get_int W i) with
      | Some (TLit hf hargs _) =>
          if pystr_eqb hf f then
            match unifies n (TTup args) (TTup hargs) with
            | Err e => (Err e, stacks)
            | Ok b =>
                let '(r, l) := unachieve_loop n W f args stacks' in
                (r, (if b then rest else i :: rest) :: l)
            end
          else let '(r, l) := unachieve_loop n W f args stacks' in (r, (i :: rest) :: l)
      | _ => (Err EAttr, stacks)
      end
  end.

Definition unachieve (n a : nat) (t : term) : M unit :=
  match t with
  | TLit f args _ =>
      (W <- m_world ;;
       let '(r, l) := unachieve_loop n W f args (a_ints (get_agent W a)) in
       put_world (put_agent W a (set_a_ints (get_agent W a) l)) ;;
       lift r)%M
  | _ => mfail EAsl
  end.

(** Agent._untell_how (602-619) *)
Definition untell_keep (label : term) (p : plan) : bool :=
  match p_label p with
  | Some l => negb (match label with TStr s => pystr_eqb (64%N :: l) s | _ => false end)
  | None => true
  end.

Definition untell_how (a : nat) (t : term) : M unit :=
  (args <- lift (lit_args t) ;;
   label <- arg args 0 ;;
   W <- m_world ;;
   mfor (a_plans (get_agent W a)) (fun gr =>
     on_world (fun W => (tt, set_plists W (upd (w_plists W) (snd gr)
       (filter (untell_keep label) (get_plist W (snd gr))))))))%M.

(** ** plan_to_str (runtime.py:731-754) *)

Definition is_hex (c : N) : bool :=
  ((48 <=? c) && (c <=? 57) || (97 <=? c) && (c <=? 102) || (65 <=? c) && (c <=? 70))%N.

Fixpoint span_hex (s : pystr) : pystr * pystr :=
  match s with
  | c :: s' => if is_hex c then let '(a, b) := span_hex s' in (c :: a, b) else ([], s)
  | [] => ([], [])
  end.

(** What follows a match of _X_[0-9a-fA-F]{3}_[0-9a-fA-F]+ at the start. *)
Definition match_var (s : pystr) : option pystr :=
  match s with
  | 95%N :: 88%N :: 95%N :: a :: b :: c :: 95%N :: s' =>
      if is_hex a && is_hex b && is_hex c then
        match span_hex s' with ([], _) => None | (_, rest) => Some rest end
      else None
  | _ => None
  end.

(** re.sub with a callback that pops from [plan.args]; IndexError when there
    is nothing left to pop.  [n] bounds the number of characters. *)
Fixpoint sub_vars (n : nat) (s : pystr) (names : list pystr) : res pystr * list pystr :=
  match n with
  | O => (Err ERecursion, names)
  | S n' =>
      match s with
      | [] => (Ok [], names)
      | c :: s' =>
          match match_var s with
          | Some rest =>
              match names with
              | [] => (Err EIndex, [])
              | x :: names' =>
                  match sub_vars n' rest names' with
                  | (Ok r, ns) => (Ok (x ++ r), ns)
                  | (Err e, ns) => (Err e, ns)
                  end
              end
          | None =>
              match sub_vars n' s' names with
              | (Ok r, ns) => (Ok (c :: r), ns)
              | (Err e, ns) => (Err e, ns)
              end
          end
      end
  end.

(** The [__str__] methods of queries (217-218, 232-233, 248-249, 267-268,
    279-280).  Classes without one print an object address. *)
Fixpoint qstr (q : query) : res pystr :=
  match q with
  | QTerm t => py_str t
  | QAnd l r =>
      rbind (qstr l) (fun x => rbind (qstr r) (fun y => Ok (s2p "(" ++ x ++ s2p " & " ++ y ++ s2p ")")))
  | QOr l r =>
      rbind (qstr l) (fun x => rbind (qstr r) (fun y => Ok (s2p "(" ++ x ++ s2p " | " ++ y ++ s2p ")")))
  | QNot q =>
      match q with
      | QTerm t | QAct _ t => rbind (py_str t) (fun x => Ok (s2p "not " ++ x))
      | _ => Err EAttr
      end
  | QUnify l r =>
      rbind (py_str l) (fun x => rbind (py_str r) (fun y => Ok (s2p "(" ++ x ++ s2p " = " ++ y ++ s2p ")")))
  | QTrue | QFalse | QAct _ _ => Err EUnmodelled
  end.

(** The text of the plan and what is left of [plan.args]. *)
Definition plan_to_str (p : plan) : res pystr * list pystr :=
  let ctx := match p_ctx p with QTrue => Ok (s2p "true") | q => qstr q end in
  let htext := asl_repr (p_head p) in
  let '(h, names) :=
    match p_hargs p with
    | [] => (Ok htext, p_args p)
    | _ => sub_vars (S (List.length htext)) htext (p_args p)
    end in
  (rbind h (fun h => rbind ctx (fun ctx =>
     Ok ((match p_label p with Some _ => s2p "@" ++ p_ltext p ++ s2p " " | None => [] end)
         ++ trig_lex (p_trig p) ++ gtype_lex (p_gt p) ++ h ++ s2p " : " ++ ctx
         ++ s2p " <- " ++ p_btext p ++ s2p "."))), names).

Definition set_p_args (p : plan) (x : list pystr) : plan :=
  mkplan (p_trig p) (p_gt p) (p_functor p) (p_hargs p) (p_hannots p) (p_ctx p) (p_code p)
         (p_label p) (p_ltext p) (p_btext p) x.

(** * The mutually recursive part: queries run rules and actions, actions call
    other agents, calls run the contexts of plans, which are queries *)

(** What a solution of the inner query contributes: .findall (stdlib.py:280-283),
    .count (294-297), .sum (ext_stdlib.py:57-60). *)
Inductive collector : Type :=
| CFind (pat : term) (mm : memo) (acc : list term)
| CCount (k : Z)
| CSum (pat : term) (total : num).

Record eng : Type := mkeng {
  e_resume : nat -> nat -> gen -> M (option gen);
  e_call : nat -> trig -> gtype -> term -> nat -> bool -> M bool;
  e_plans : nat -> nat -> term * term * nat * bool * nat -> nat -> M bool;
  e_collect : nat -> nat -> gen -> collector -> M collector
}.

Context {FR : Front}.

Section Body.
Variable E : eng.
Variable n : nat.

(** One iteration of the collecting loops. *)
Definition collect_one (c : collector) : M collector :=
  match c with
  | CFind pat mm acc => (fm <- m_freeze n pat mm ;; mret (CFind pat (snd fm) (fst fm :: acc)))%M
  | CCount k => mret (CCount (k + 1))
  | CSum pat total =>
      (v <- m_grounded n pat ;;
       match v with
       | TNum x => t' <- lift (num_op fpow NAdd total x) ;; mret (CSum pat t')
       | TBool b => t' <- lift (num_op fpow NAdd total (bool_num b)) ;; mret (CSum pat t')
       | _ => mfail EType
       end)%M
  end.

(** [for _ in generator: ...] *)
Definition collect_body (a i : nat) (g : gen) (c : collector) : M collector :=
  (o <- e_resume E a i g ;;
   match o with
   | None => mret c
   | Some g' => c' <- collect_one c ;; e_collect E a i g' c'
   end)%M.

(** [if unify(l, r, ...): yield] *)
Definition unify_yield (l r : term) : M (option gen) :=
  (b <- m_unify n l r ;; mret (if b : bool then Some GStop else None))%M.

(** ** .send and .broadcast *)

(** The illocutionary forces (stdlib.py:68-79, 111-134). *)
Definition ilf_broadcast (f : pystr) : option (trig * gtype) :=
  if pystr_eqb f (s2p "tell") then Some (TrAdd, GtBelief)
  else if pystr_eqb f (s2p "untell") then Some (TrRem, GtBelief)
  else if pystr_eqb f (s2p "achieve") then Some (TrAdd, GtAchieve)
  else None.
Definition ilf_send (f : pystr) : option (trig * gtype) :=
  if pystr_eqb f (s2p "tell") then Some (TrAdd, GtBelief)
  else if pystr_eqb f (s2p "untell") then Some (TrRem, GtBelief)
  else if pystr_eqb f (s2p "achieve") then Some (TrAdd, GtAchieve)
  else if pystr_eqb f (s2p "unachieve") then Some (TrRem, GtAchieve)
  else if pystr_eqb f (s2p "tellHow") then Some (TrAdd, GtTellHow)
  else if pystr_eqb f (s2p "untellHow") then Some (TrRem, GtTellHow)
  else if pystr_eqb f (s2p "askHow") then Some (TrAdd, GtAskHow)
  else None.

(** [source(name)] *)
Definition source (name : pystr) : term := TLit (s2p "source") [TLit name [] []] [].

(** [receiver.call(trigger, goal_type, message, Intention())] for all receivers
    (stdlib.py:87-90, 147-148). *)
Definition deliver (rs : list nat) (tr : trig) (gt : gtype) (msg : term) : M unit :=
  mfor rs (fun r => (with_new (fun ci => e_call E r tr gt msg ci false) ;; mret tt)%M).

(** _broadcast (stdlib.py:62-92) *)
Definition act_broadcast (a : nat) (args : list term) : M (option gen) :=
  (t0 <- arg args 0 ;;
   ilf <- m_grounded n t0 ;;
   match ilf with
   | TLit f [] [] =>
       match ilf_broadcast f with
       | None => mfail EAsl
       | Some (tr, gt) =>
           t1 <- arg args 1 ;;
           fm <- m_freeze n t1 [] ;;
           W <- m_world ;;
           msg <- lift (with_annotation (fst fm) (source (a_name (get_agent W a)))) ;;
           deliver (filter (fun r => negb (Nat.eqb r a)) (map snd (w_env W))) tr gt msg ;;
           mret (Some GStop)
       end
   | _ => mret None
   end)%M.

(** A receiver: atom or string (stdlib.py:101-105); KeyError if there is no such
    agent. *)
Definition find_receiver (env : list (pystr * nat)) (t : term) : res nat :=
  match t with
  | TLit f [] [] | TStr f =>
      match assoc pystr_eqb f env with Some r => Ok r | None => Err EKey end
  | _ => Err EKey
  end.

(** _send (stdlib.py:95-150) *)
Definition act_send (a : nat) (args : list term) : M (option gen) :=
  (t0 <- arg args 0 ;;
   rcv <- m_grounded n t0 ;;
   W0 <- m_world ;;
   let '(items, fin) := if is_list rcv then iter_items rcv else ([rcv], None) in
   rs <- lift (rmapl (find_receiver (w_env W0)) items) ;;
   match fin with
   | Some e => mfail e
   | None =>
       t1 <- arg args 1 ;;
       ilf <- m_grounded n t1 ;;
       match ilf with
       | TLit f [] [] =>
           match ilf_send f with
           | None => mfail EAsl
           | Some (tr, gt) =>
               t2 <- arg args 2 ;;
               msg0 <- match gt with
                       | GtTellHow | GtAskHow => mret (TLit (s2p "plain_text") [t2] [])
                       | _ => fm <- m_freeze n t2 [] ;; mret (fst fm)
                       end ;;
               W <- m_world ;;
               msg <- lift (with_annotation msg0 (source (a_name (get_agent W a)))) ;;
               deliver rs tr gt msg ;;
               mret (Some GStop)
           end
       | _ => mret None
       end
   end)%M.

(** ** Other actions *)

(** [agentspeak.grounded(arg, intention.scope) for arg in args] *)
Fixpoint m_groundeds (args : list term) : M (list term) :=
  match args with
  | [] => mret []
  | t :: args' => (v <- m_grounded n t ;; vs <- m_groundeds args' ;; mret (v :: vs))%M
  end.

Fixpoint m_freezes (args : list term) (mm : memo) : M (list term) :=
  match args with
  | [] => mret []
  | t :: args' => (fm <- m_freeze n t mm ;; vs <- m_freezes args' (snd fm) ;; mret (fst fm :: vs))%M
  end.

(** _print (stdlib.py:161-178).  Colours are not modelled. *)
Definition act_print (a : nat) (args : list term) : M (option gen) :=
  (vs <- m_freezes args [] ;;
   on_world (fun W => (tt, set_out W ((a_name (get_agent W a), joins (s2p " ") (map asl_str vs)) :: w_out W))) ;;
   mret (Some GStop))%M.

(** _concat (stdlib.py:194-205) *)
Fixpoint all_tuples (l : list term) : option (list term) :=
  match l with
  | [] => Some []
  | TTup ts :: l' => match all_tuples l' with Some r => Some (ts ++ r) | None => None end
  | _ :: _ => None
  end.
Definition act_concat (args : list term) : M (option gen) :=
  (vs <- m_groundeds (removelast args) ;;
   result <- match all_tuples vs with
             | Some ts => mret (TTup ts)
             | None => ss <- lift (rmapl py_str vs) ;; mret (TStr (List.concat ss))
             end ;;
   l <- last_arg args ;;
   unify_yield l result)%M.

(** The wrapper of add_function (agentspeak/__init__.py:1030-1034) *)
Definition act_fun (specs : list spec) (f : fn) (args : list term) : M (option gen) :=
  (vs <- m_zip n specs args ;;
   k <- m_tick ;;
   result <- lift (fn_apply f k vs) ;;
   l <- last_arg args ;;
   unify_yield l result)%M.

(** The wrapper of add_predicate (1051-1053) *)
Definition act_pred (specs : list spec) (p : pr) (args : list term) : M (option gen) :=
  (vs <- m_zip n specs args ;;
   k <- m_tick ;;
   b <- lift (pr_apply p k vs) ;;
   mret (if b : bool then Some GStop else None))%M.

(** The wrapper of add_procedure (1071-1073) *)
Definition act_proc (specs : list spec) (f : pyfun) (args : list term) : M (option gen) :=
  (vs <- m_zip n specs args ;;
   k <- m_tick ;;
   lift (py_call f k vs) ;;
   mret (Some GStop))%M.

(** _substring (stdlib.py:226-242), _member (245-256), _range_2 (399-410) up to
    their loops. *)
Definition act_substring (a i : nat) (args : list term) : M (option gen) :=
  (t0 <- arg args 0 ;; v0 <- m_grounded n t0 ;;
   t1 <- arg args 1 ;; v1 <- m_grounded n t1 ;;
   cp <- m_new_cp ;;
   t2 <- arg args 2 ;;
   e_resume E a i (GCand false cp t2
     (map (fun z => TNum (NInt z)) (occurrences (asl_str v0) (asl_str v1) 0)) None))%M.
Definition act_member (a i : nat) (args : list term) : M (option gen) :=
  (cp <- m_new_cp ;;
   t1 <- arg args 1 ;; v1 <- m_evaluate n t1 ;;
   t0 <- arg args 0 ;;
   let '(items, fin) := iter_items v1 in
   e_resume E a i (GCand false cp t0 items fin))%M.
Fixpoint zrange (k : Z) (c : nat) : list Z :=
  match c with O => [] | S c' => k :: zrange (k + 1) c' end.
Definition act_range (a i : nat) (args : list term) : M (option gen) :=
  (cp <- m_new_cp ;;
   t0 <- arg args 0 ;; v0 <- m_grounded n t0 ;;
   z <- lift (to_int v0) ;;
   t1 <- arg args 1 ;;
   e_resume E a i (GCand false cp t1 (map (fun z => TNum (NInt z)) (zrange 0 (Z.to_nat z))) None))%M.

(** _findall (stdlib.py:274-286), _count (289-302), _sum (ext_stdlib.py:52-63) *)
Definition act_findall (a i : nat) (args : list term) : M (option gen) :=
  (t0 <- arg args 0 ;; pat <- m_evaluate n t0 ;;
   t1 <- arg args 1 ;;
   c <- e_collect E a i (GQ (QTerm t1)) (CFind pat [] []) ;;
   t2 <- arg args 2 ;;
   match c with
   | CFind _ _ acc => unify_yield (TTup (rev acc)) t2
   | _ => mfail EUnmodelled
   end)%M.
Definition act_count (a i : nat) (args : list term) : M (option gen) :=
  (t0 <- arg args 0 ;;
   cp <- m_new_cp ;;
   m_push_cp cp ;;
   c <- e_collect E a i (GQ (QTerm t0)) (CCount 0) ;;
   m_reroll cp ;;
   t1 <- arg args 1 ;;
   match c with
   | CCount k => unify_yield (TNum (NInt k)) t1
   | _ => mfail EUnmodelled
   end)%M.
Definition act_sum (a i : nat) (args : list term) : M (option gen) :=
  (t0 <- arg args 0 ;; pat <- m_evaluate n t0 ;;
   t1 <- arg args 1 ;;
   c <- e_collect E a i (GQ (QTerm t1)) (CSum pat (NInt 0)) ;;
   t2 <- arg args 2 ;;
   match c with
   | CSum _ total => unify_yield (TNum total) t2
   | _ => mfail EUnmodelled
   end)%M.

(** _date, _time (stdlib.py:319-346): [datetime.now()] gives three numbers. *)
Definition act_clock (f : pyfun) (args : list term) : M (option gen) :=
  (k <- m_tick ;;
   d <- lift (py_call f k []) ;;
   match d with
   | TTup [x; y; z] =>
       t0 <- arg args 0 ;; b0 <- m_unify n t0 x ;;
       if b0 : bool then
         t1 <- arg args 1 ;; b1 <- m_unify n t1 y ;;
         if b1 : bool then t2 <- arg args 2 ;; unify_yield t2 z else mret None
       else mret None
   | _ => mfail EUnmodelled
   end)%M.

(** _wait (stdlib.py:349-393) *)
Definition ends_with_dot (s : pystr) : bool :=
  match rev s with c :: _ => N.eqb c 46 | [] => false end.
Definition act_wait (i : nat) (args : list term) : M (option gen) :=
  (vs <- m_groundeds args ;;
   em <- match vs with
         | [e; m] => mret (Some e, Some m)
         | [x] => mret (if is_number x then (None, Some x) else (Some x, None))
         | _ => mfail EUnmodelled
         end ;;
   let '(e, m) := (em : option term * option term) in
   millis <- match m with
             | None => mret None
             | Some (TNum x) => mret (Some x)
             | Some _ => mfail EAsl
             end ;;
   ev <- match e with
         | None => mret None
         | Some (TStr s) =>
             W <- m_world ;;
             let s' := if ends_with_dot s then s else s ++ [46%N] in
             r <- lift (fr_event s' (w_nv W)) ;;
             put_world (set_nv W (snd r)) ;;
             mret (Some (fst r))
         | Some _ => mfail EAsl
         end ;;
   until <- match millis with
            | None => mret None
            | Some x =>
                now <- m_time ;;
                d <- lift (num_op fpow NTruediv x (NInt 1000)) ;;
                u <- lift (num_op fpow NAdd now d) ;;
                mret (Some u)
            end ;;
   on_world (fun W => (tt, put_int W i (set_i_wait (get_int W i) (Some (mkwaiter ev until))))) ;;
   mret (Some GStop))%M.

(** ActionQuery.execute (runtime.py:186-188): run the action up to its first
    [yield]. *)
Definition start_act (a i : nat) (ac : act) (t : term) : M (option gen) :=
  (args <- lift (lit_args t) ;;
   match ac with
   | ABroadcast => act_broadcast a args
   | ASend => act_send a args
   | APrint => act_print a args
   | AFail => mret None
   | AMyName =>
       W <- m_world ;; t0 <- arg args 0 ;;
       unify_yield t0 (TLit (a_name (get_agent W a)) [] [])
   | AConcat => act_concat args
   | ASubstring => act_substring a i args
   | AMember => act_member a i args
   | AGround => b <- m_is_ground n t ;; mret (if b : bool then Some GStop else None)
   | AFindall => act_findall a i args
   | ACount => act_count a i args
   | AAbolish => t0 <- arg args 0 ;; abolish n a t0 ;; mret (Some GStop)
   | ADate => act_clock PFDate args
   | ATime => act_clock PFTime args
   | AWait => act_wait i args
   | ARange => act_range a i args
   | ADump | AMark => mret (Some GStop)
   | AUnbindAll => on_st (fun st => (Ok tt, mkbst [] (b_stack st) (b_ncp st))) ;; mret (Some GStop)
   | ARaise => mfail ERuntime
   | ASum => act_sum a i args
   | AFun specs f => act_fun specs f args
   | APred specs p => act_pred specs p args
   | AProc specs f => act_proc specs f args
   | AProcRaise specs => m_zip n specs args ;; mfail ERuntime
   | AUnmod _ => mfail EUnmodelled
   end)%M.

(** ** Generators *)

(** Set iterator: RuntimeError if the size changed since the iteration started.
    If the set was modified but has the old size, what Python does depends on
    the hash table: [Err EUnmodelled]. *)
Definition iter_check (W : world) (ref : nat) (ver : N) (sz : nat) : res unit :=
  let s := get_set W ref in
  if N.eqb (s_ver s) ver then Ok tt
  else if Nat.eqb (List.length (s_elems s)) sz then Err EUnmodelled else Err ERuntime.

(** The group of an evaluated literal. *)
Definition lit_group (t : term) : group :=
  match t with TLit f args _ => (f, List.length args) | _ => ([], 0%nat) end.

(** [next(generator)]: [Some g] means it yielded and is now suspended as [g],
    [None] means StopIteration. *)
Definition resume_body (a i : nat) (g : gen) : M (option gen) :=
  match g with
  | GStop => mret None
  | GQ q =>
      match q with
      | QTrue => mret (Some GStop)
      | QFalse => mret None
      | QAct ac t => start_act a i ac t
      | QTerm t =>
          (* TermQuery.execute (195-215) *)
          (v <- m_evaluate n t ;;
           match v with
           | TBool true => mret (Some GStop)
           | TBool false => mret None
           | TLit f args _ =>
               r <- on_world (bel_ref a (f, List.length args)) ;;
               W <- m_world ;;
               let s := get_set W r in
               e_resume E a i (GBel None v r (s_ver s) (List.length (s_elems s)) (s_elems s))
           | _ => mfail (fmt_exc v)
           end)%M
      | QAnd l r => e_resume E a i (GAnd (GQ l) None r)
      | QOr l r => e_resume E a i (GOr (GQ l) (Some r))
      | QNot q =>
          (* NotQuery.execute (255-264) *)
          (cp <- m_new_cp ;;
           m_push_cp cp ;;
           o <- e_resume E a i (GQ q) ;;
           m_reroll cp ;;
           mret (match o with None => Some GStop | Some _ => None end))%M
      | QUnify l r =>
          (* UnifyQuery.execute (276-277) *)
          (o <- m_uann n l r ;;
           mret (match o with Some cp => Some (GAnn cp) | None => None end))%M
      end
  | GAnn cp => (m_reroll cp ;; mret None)%M
  | GBel (Some cp) t ref ver sz rest =>
      (m_reroll cp ;; e_resume E a i (GBel None t ref ver sz rest))%M
  | GBel None t ref ver sz rest =>
      (W <- m_world ;;
       lift (iter_check W ref ver sz) ;;
       match rest with
       | b :: rest' =>
           o <- m_uann n t b ;;
           match o with
           | Some cp => mret (Some (GBel (Some cp) t ref ver sz rest'))
           | None => e_resume E a i (GBel None t ref ver sz rest')
           end
       | [] =>
           cp <- m_new_cp ;;
           e_resume E a i (GRule cp t None (rules_of a (lit_group t) W))
       end)%M
  | GRule cp t (Some sub) rest =>
      (o <- e_resume E a i sub ;;
       match o with
       | Some sub' => mret (Some (GRule cp t (Some sub') rest))
       | None => m_reroll cp ;; e_resume E a i (GRule cp t None rest)
       end)%M
  | GRule cp t None rest =>
      match rest with
      | [] => mret None
      | r :: rest' =>
          (c <- on_world (fun W => let '(c, k) := copy_rule r (w_nv W) in (c, set_nv W k)) ;;
           m_push_cp cp ;;
           b <- m_unify n t (r_head c) ;;
           if b : bool then e_resume E a i (GRule cp t (Some (GQ (r_query c))) rest')
           else m_reroll cp ;; e_resume E a i (GRule cp t None rest'))%M
      end
  | GAnd gl None r =>
      (o <- e_resume E a i gl ;;
       match o with
       | Some gl' => e_resume E a i (GAnd gl' (Some (GQ r)) r)
       | None => mret None
       end)%M
  | GAnd gl (Some gr) r =>
      (o <- e_resume E a i gr ;;
       match o with
       | Some gr' => mret (Some (GAnd gl (Some gr') r))
       | None => e_resume E a i (GAnd gl None r)
       end)%M
  | GOr g r =>
      (o <- e_resume E a i g ;;
       match o with
       | Some g' => mret (Some (GOr g' r))
       | None =>
           match r with
           | Some q => e_resume E a i (GOr (GQ q) None)
           | None => mret None
           end
       end)%M
  | GCand true cp tgt cands fin => (m_reroll cp ;; e_resume E a i (GCand false cp tgt cands fin))%M
  | GCand false cp tgt cands fin =>
      match cands with
      | [] => match fin with Some e => mfail e | None => mret None end
      | c :: cands' =>
          (m_push_cp cp ;;
           b <- m_unify n tgt c ;;
           if b : bool then mret (Some (GCand true cp tgt cands' fin))
           else e_resume E a i (GCand true cp tgt cands' fin))%M
      end
  end.

(** ** Agent.call *)

(** Where the new intention goes if the call is not delayed (471-475): the
    first stack whose top is the calling intention.  [intention_stack[-1]]
    raises IndexError on an empty stack. *)
Fixpoint push_on (ci new : nat) (stacks : list (list nat)) : res (option (list (list nat))) :=
  match stacks with
  | [] => Ok None
  | [] :: _ => Err EIndex
  | (i :: rest) :: stacks' =>
      if Nat.eqb i ci then Ok (Some ((new :: i :: rest) :: stacks'))
      else match push_on ci new stacks' with
           | Ok (Some l) => Ok (Some ((i :: rest) :: l))
           | x => x
           end
  end.

(** Start the new intention with the plan found (466-480). *)
Definition launch (a : nat) (p : plan) (frozen t : term) (ci : nat) (delayed : bool) (ni : nat) : M bool :=
  (st <- m_st ;;
   on_world (fun W => (tt, put_int W ni
     (mkint (p_code p) (Some 0%nat) (Some frozen) (Some t) st [] [] (i_wait (get_int W ni))))) ;;
   W <- m_world ;;
   let ag := get_agent W a in
   l <- (if delayed then mret None else lift (push_on ci ni (a_ints ag))) ;;
   put_world (put_agent W a (set_a_ints ag
     (match l with Some l => l | None => a_ints ag ++ [[ni]] end))) ;;
   mret true)%M.

(** The loop over plans (460-480), at index [j] of the (live) plan list [ref];
    it runs with the scope and stack of the new intention [ni].  [true] if an
    applicable plan was found. *)
Definition plans_body (a ref : nat) (x : term * term * nat * bool * nat) (j : nat) : M bool :=
  let '(frozen, t, ci, delayed, ni) := x in
  (W <- m_world ;;
   match nth_error (get_plist W ref) j with
   | None => mret false
   | Some p =>
       o <- m_uann n (p_head p) frozen ;;
       match o with
       | None => e_plans E a ref x (S j)
       | Some cp =>
           s <- e_resume E a ni (GQ (p_ctx p)) ;;
           match s with
           | Some _ => launch a p frozen t ci delayed ni
           | None => m_reroll cp ;; e_plans E a ref x (S j)
           end
       end
   end)%M.

(** Agent._tell_how (507-547) *)
Definition tell_how (a : nat) (t : term) : M unit :=
  (args <- lift (lit_args t) ;;
   x <- arg args 0 ;;
   match x with
   | TStr s =>
       W <- m_world ;;
       r <- lift (fr_plan s (w_nv W)) ;;
       put_world (set_nv W (snd r)) ;;
       add_plan a (fst r)
   | _ => mfail EType
   end)%M.

(** Agent._ask_how (552-600) *)

(** 561-563: the last source annotation in iteration order. *)
Fixpoint find_source (annots : list term) (found : option pystr) : res (option pystr) :=
  match annots with
  | [] => Ok found
  | TLit f args _ :: annots' =>
      if pystr_eqb f (s2p "source") then
        match args with
        | TLit s _ _ :: _ => find_source annots' (Some s)
        | [] => Err EIndex
        | _ => Err EAttr
        end
      else find_source annots' found
  | _ => Err EAttr
  end.

(** 568-573: [functor in term.args[0]] (a substring test), the plan groups. *)
Definition wanted (x : term) (p : plan) : res bool :=
  match x with
  | TStr s => Ok (is_substr (p_functor p) s)
  | TTup _ | TLL _ _ => Err EUnmodelled
  | _ => Err EType
  end.

Fixpoint wanted_in (x : term) (l : list plan) (k : nat) : res (list nat) :=
  match l with
  | [] => Ok []
  | p :: l' =>
      match wanted x p with
      | Err e => Err e
      | Ok b =>
          match wanted_in x l' (S k) with
          | Err e => Err e
          | Ok ks => Ok (if b then k :: ks else ks)
          end
      end
  end.

(** Positions of the wanted plans, per plan list. *)
Fixpoint wanted_groups (x : term) (W : world) (l : list (pgroup * nat)) : res (list (nat * list nat)) :=
  match l with
  | [] => Ok []
  | (_, r) :: l' =>
      match wanted_in x (get_plist W r) 0 with
      | Err e => Err e
      | Ok ks =>
          match wanted_groups x W l' with
          | Err e => Err e
          | Ok gs => Ok (match ks with [] => gs | _ => (r, ks) :: gs end)
          end
      end
  end.

(** 588-590: plan_to_str of every plan of the group; the last text wins. *)
Fixpoint group_text (r : nat) (ks : list nat) (last : term) : M term :=
  match ks with
  | [] => mret last
  | k :: ks' =>
      (W <- m_world ;;
       match nth_error (get_plist W r) k with
       | None => mfail EUnmodelled
       | Some p =>
           let '(text, names) := plan_to_str p in
           put_world (set_plists W (upd (w_plists W) r (upd (get_plist W r) k (set_p_args p names)))) ;;
           s <- lift text ;;
           group_text r ks' (TLit (s2p "plain_text") [TStr s] [])
       end)%M
  end.

Definition ask_how (a : nat) (t : term) : M bool :=
  match t with
  | TLit _ args annots =>
      (src <- lift (find_source annots None) ;;
       match src with
       | None => mfail EAsl
       | Some sender =>
           x <- arg args 0 ;;
           W <- m_world ;;
           gs <- lift (wanted_groups x W (a_plans (get_agent W a))) ;;
           match gs with
           | [] => match nth_error args 2 with None => mfail EIndex | Some _ => mfail EType end
           | _ =>
               rcv <- lift (find_receiver (w_env W) (TStr sender)) ;;
               with_new (fun ci =>
                 mfor gs (fun g =>
                   msg <- group_text (fst g) (snd g) (TBool false) ;;
                   e_call E rcv TrAdd GtTellHow msg ci false ;;
                   mret tt)) ;;
               mret false
           end
       end)%M
  | _ => mfail EAttr
  end.

(** Agent.test_belief (630-643) *)
Definition test_belief (a i : nat) (t : term) : M bool :=
  (v <- m_evaluate n t ;;
   match v with
   | TLit _ _ _ =>
       o <- e_resume E a i (GQ (QTerm v)) ;;
       mret (match o with Some _ => true | None => false end)
   | _ => mfail (fmt_exc v)
   end)%M.

(** Agent.call after the belief base has been modified (401-483). *)
Definition call_event (a : nat) (tr : trig) (gt : gtype) (t : term) (ci : nat) (delayed : bool) : M bool :=
  (fm <- m_freeze n t [] ;;
   match fst fm with
   | TLit f args _ =>
       let frozen := fst fm in
       W <- m_world ;;
       wake n tr gt frozen (a_ints (get_agent W a)) ;;
       match gt, tr with
       | GtAchieve, TrRem => unachieve n a t ;; mret true
       | GtTellHow, TrAdd => tell_how a t ;; mret true
       | GtAskHow, TrAdd => ask_how a t
       | GtTellHow, TrRem => untell_how a t ;; mret true
       | _, _ =>
           ref <- on_world (plan_ref a (tr, gt, (f, List.length args))) ;;
           found <- with_new (fun ni =>
             e_plans E a ref (frozen, t, ci, delayed, ni) 0%nat) ;;
           if found : bool then mret true
           else match gt with
                | GtAchieve => mfail EAsl
                | GtTest => test_belief a ci t
                | _ => mret true
                end
       end
   | _ => mfail EAsl
   end)%M.

(** Agent.call (389-483): [ci] is the calling intention, whose scope and stack
    are the current ones. *)
Definition call_body (a : nat) (tr : trig) (gt : gtype) (t : term) (ci : nat) (delayed : bool) : M bool :=
  match gt with
  | GtBelief =>
      match tr with
      | TrAdd => (add_belief n a t ;; call_event a tr gt t ci delayed)%M
      | TrRem =>
          (found <- remove_belief n a t ;;
           if found : bool then call_event a tr gt t ci delayed else mret true)%M
      end
  | _ => call_event a tr gt t ci delayed
  end.

End Body.

(** Out of fuel. *)
Definition eng0 : eng :=
  mkeng (fun _ _ _ => mfail ERecursion) (fun _ _ _ _ _ _ => mfail ERecursion)
        (fun _ _ _ _ => mfail ERecursion) (fun _ _ _ _ => mfail ERecursion).

Fixpoint engine (n : nat) : eng :=
  match n with
  | O => eng0
  | S n' =>
      let E := engine n' in
      mkeng (resume_body E n') (call_body E n') (plans_body E n') (collect_body E n')
  end.

Definition resume (n : nat) := e_resume (engine n).
Definition call (n : nat) := e_call (engine n).
Definition plans (n : nat) := e_plans (engine n).
Definition collect (n : nat) := e_collect (engine n).

End WithPy.
