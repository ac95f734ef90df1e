(** What the read-eval-print loop does with one statement (agentspeak/runtime.py:
    1082-1093, 1097-1102, 1127-1137), and the session with it. *)
From Verif Require Import Base Num Term Unify Str World Ast Names Engine Step Build Lex Parse Repl.

(** The world, the dict [variables] (1101), what [dump_variables] has printed. *)
Record session : Type := mksession { s_world : world; s_vars : list (pystr * term); s_out : list pystr }.

Section WithPy.
Context {PY : Py} {FR : Front}.

(** [sorted(variables.items())] (1085): names are different, so that variables
    are not compared. *)
Fixpoint insert_name (x : pystr * term) (l : list (pystr * term)) : list (pystr * term) :=
  match l with
  | [] => [x]
  | y :: l' => match pystr_cmp (fst x) (fst y) with Lt => x :: y :: l' | _ => y :: insert_name x l' end
  end.
Definition sorted_items (l : list (pystr * term)) : list (pystr * term) := fold_right insert_name [] l.

(** [variable in scope] (1086); a wildcard is never bound. *)
Definition in_scope (t : term) (s : scope) : bool := match t with TVar v => bound s v | _ => false end.

(** The loop of dump_variables (1085-1089): what is printed, and [not_in_scope]. *)
Fixpoint dump_loop (l : list (pystr * term)) (s : scope) : res (list pystr * list pystr) :=
  match l with
  | [] => Ok ([], [])
  | (name, t) :: l' =>
      if in_scope t s then
        match deref t s with
        | Err e => Err e
        | Ok u => rmap (fun '(ls, us) => ((name ++ s2p " = " ++ asl_str u) :: ls, us)) (dump_loop l' s)
        end
      else rmap (fun '(ls, us) => (ls, (name ++ s2p " = " ++ asl_repr t) :: us)) (dump_loop l' s)
  end.

(** dump_variables (1082-1093) *)
Definition dump_variables (vars : list (pystr * term)) (s : scope) : res (list pystr) :=
  rmap (fun '(ls, us) => ls ++ match us with
    | [] => []
    | _ => [dec_N (N.of_nat (List.length us)) ++ s2p " unbound: " ++ joins (s2p ", ") us]
    end) (dump_loop (sorted_items vars) s).

(** [intention.instr = Instruction(noop)] with the instructions that are built
    after it (1130-1131): scope, stacks and waiter stay as they are. *)
Definition set_code (x : intention) (code : list instr) : intention :=
  mkint code (Some 0%nat) (i_head x) (i_call x) (i_bst x) (i_qs x) (i_cps x) (i_wait x).

(** One statement (1130-1135), for agent [a] and the intention [i] of the session.
    [n] bounds recursion and [k] steps.  Simplified: the log continues that of the
    line, which has no errors here, so that only the number of warnings differs;
    and the instructions that are built before an error are not kept, since the
    next statement replaces them before anything is run. *)
Definition exec_statement (acts : actions act) (k n a i : nat) (body : list form) (x : session) : res unit * session :=
  let W := s_world x in
  let '(r, s) := compile_all acts body (mkcs [mkinstr INoop None None] 0%nat) (mkbs (s_vars x) (w_nv W) log3) in
  let W1 := set_nv W (v_nv s) in
  let x1 := mksession W1 (v_vars s) (s_out x) in
  match r with
  | Err e => (Err e, x1)
  | Ok c =>
      match log_throw (v_log s) with
      | Err e => (Err e, x1)
      | Ok _ =>
          let W2 := put_int W1 i (set_code (get_int W1 i) (c_code c)) in
          let ag := get_agent W2 a in
          let W3 := put_agent W2 a (set_a_ints ag (a_ints ag ++ [[i]])) in
          match run_agent k n a W3 with
          | (Err e, W4) => (Err e, mksession W4 (v_vars s) (s_out x))
          | (Ok _, W4) =>
              match dump_variables (v_vars s) (b_scope (i_bst (get_int W4 i))) with
              | Err e => (Err e, mksession W4 (v_vars s) (s_out x))
              | Ok ls => (Ok tt, mksession W4 (v_vars s) (s_out x ++ ls))
              end
          end
      end
  end.

(** A session with agent [a] (1097-1143): a new intention, no variables.  [m]
    bounds recursion of the parser. *)
Definition session_run (acts : actions act) (k n m a : nat) (input : list pystr) (W : world) : res (list tok) * session :=
  let '(i, W1) := new_int W in
  repl session (exec_statement acts k n a i) m 0 input [] (mksession W1 [] []).
End WithPy.
