(** A session at the prompt: names that have been typed, what a statement does, and
    what is shown after it. *)
From Verif Require Import Base Num Term Unify Str World Engine Ast Names Build QuerySpec Reach InstSpec FlowSpec ScopeSpec SchedSpec CmpSpec ReplExec.

(** The variables of the session by name. *)
Definition names_of (x : session) : naming := fun y =>
  match assoc pystr_eqb y (s_vars x) with Some (TVar i) | Some (TWild i) => Some i | _ => None end.

(** Every name is a variable (or, [_], a wildcard) of its own. *)
Record sound (x : session) : Prop := mksound {
  so_names : fresh_names 0 (w_nv (s_world x)) (names_of x);
  so_kinds : forall y t, assoc pystr_eqb y (s_vars x) = Some t -> exists i, t = TWild i /\ y = s2p "_" \/ t = TVar i /\ y <> s2p "_";
  so_once : NoDup (map fst (s_vars x))
}.

(** [x'] has the names of [x], and perhaps new ones for new variables. *)
Definition more_names (x x' : session) : Prop :=
  (forall y t, assoc pystr_eqb y (s_vars x) = Some t -> assoc pystr_eqb y (s_vars x') = Some t) /\
  (forall y j, names_of x' y = Some j -> names_of x y = Some j \/ (w_nv (s_world x) <= j)%N).

(** The intention [i] of the session is put behind the others, at the beginning of
    the body [l]; its scope and everything else is as before, but for the number [k]
    of variables. *)
Record started (a i : nat) (l : list stm) (k : N) (W W' : world) : Prop := mkstarted {
  sd_code : follows (i_code (get_int W' i)) (Some 0%nat) (begin l);
  sd_pc : i_pc (get_int W' i) = Some 0%nat;
  sd_bst : i_bst (get_int W' i) = i_bst (get_int W i);
  sd_rest : i_qs (get_int W' i) = i_qs (get_int W i) /\ i_cps (get_int W' i) = i_cps (get_int W i) /\
    i_wait (get_int W' i) = i_wait (get_int W i) /\ i_head (get_int W' i) = i_head (get_int W i) /\ i_call (get_int W' i) = i_call (get_int W i);
  sd_ints : forall j, j <> i -> get_int W' j = get_int W j;
  sd_stacks : a_ints (get_agent W' a) = a_ints (get_agent W a) ++ [[i]];
  sd_agent : a_name (get_agent W' a) = a_name (get_agent W a) /\ a_bel (get_agent W' a) = a_bel (get_agent W a) /\
    a_rules (get_agent W' a) = a_rules (get_agent W a) /\ a_plans (get_agent W' a) = a_plans (get_agent W a);
  sd_agents : forall b, b <> a -> get_agent W' b = get_agent W b;
  sd_others : w_sets W' = w_sets W /\ w_plists W' = w_plists W /\ w_env W' = w_env W /\ w_reads W' = w_reads W /\
    w_tick W' = w_tick W /\ w_out W' = w_out W;
  sd_nv : w_nv W' = k
}.

(** The value of a variable: bindings are followed to the end. *)
Inductive leads (s : scope) : term -> term -> Prop :=
| ld_var v : lookup s v = None -> leads s (TVar v) (TVar v)
| ld_other t : (forall v, t <> TVar v) -> leads s t t
| ld_next v t u : lookup s v = Some t -> leads s t u -> leads s (TVar v) u.

(** Names in increasing order. *)
Inductive ascending : list pystr -> Prop :=
| ac_nil : ascending []
| ac_one x : ascending [x]
| ac_cons x y l : lex_lt x y -> ascending (y :: l) -> ascending (x :: y :: l).

Section Shown.
Context {PY : Py}.
(** The lines shown: one for each variable with a value, by name, and one with the
    number and the names of the others. *)
Definition shown (vars : pystr -> option term) (s : scope) (lines : list pystr) : Prop :=
  exists with_value without : list (pystr * term),
    ascending (map fst with_value) /\ ascending (map fst without) /\
    (forall x u, In (x, u) with_value <-> exists v t, vars x = Some (TVar v) /\ lookup s v = Some t /\ leads s t u) /\
    (forall x t, In (x, t) without <-> vars x = Some t /\ ~ exists v t', t = TVar v /\ lookup s v = Some t') /\
    lines = map (fun '(x, u) => x ++ s2p " = " ++ asl_str u) with_value ++
      match without with
      | [] => []
      | _ => [dec_N (N.of_nat (List.length without)) ++ s2p " unbound: " ++ joins (s2p ", ") (map (fun '(x, t) => x ++ s2p " = " ++ asl_repr t) without)]
      end.
End Shown.

Section States.
Context {PY : Py} {FR : Front}.
(** Plans and events that are read from texts have new variables. *)
Definition fresh_texts : Prop :=
  (forall s k p k', fr_plan s k = Ok (p, k') -> (k <= k')%N) /\ (forall s k e k', fr_event s k = Ok (e, k') -> (k <= k')%N).

(** The states of a session with agent [a]: it begins in any state of a system, with a
    new intention [i] and no names; then statements are executed, each until it is done
    or raises an exception. *)
Inductive session_state (acts : actions act) (k n a i : nat) : session -> Prop :=
| ss_begin W : reach W -> (a < List.length (w_agents W))%nat -> i = List.length (w_ints W) ->
    session_state acts k n a i (mksession (set_ints W (w_ints W ++ [int0])) [] [])
| ss_next x b r x' : session_state acts k n a i x -> exec_statement acts k n a i b x = (r, x') -> session_state acts k n a i x'.
End States.
