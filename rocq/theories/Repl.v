(** The read-eval-print loop (agentspeak/runtime.py:1095-1143), up to the
    execution of one statement, which is a parameter. *)
From Verif Require Import Base Num Term Str World Ast Names Lex Parse.

Definition log3 : log := log_new (Some 3%nat).

(** [tokens.extend(tokenize(StringSource("<stdin>", line), log, lineno))] (1118):
    illegal characters are logged, and the third is raised. *)
Fixpoint line_tokens (items : list item) (lg : log) : res (list tok) * log :=
  match items with
  | [] => (Ok [], lg)
  | ITok t :: l => match line_tokens l lg with (Ok ts, lg') => (Ok (t :: ts), lg') | x => x end
  | IBad _ _ _ :: l => match log_error lg with (Ok _, lg') => line_tokens l lg' | (Err e, lg') => (Err e, lg') end
  end.

Section Repl.
(** The state of the agent and of the loop's intention and variables. *)
Variable S0 : Type.
(** Building the instructions of a body, running the agent, showing the
    variables (1132-1137). *)
Variable exec : list form -> S0 -> res unit * S0.

(** [tok = next(token_stream); parse_plan_body(tok, token_stream, log)] (1123-1124) *)
Definition statement (n : nat) : P (list form) :=
  (tk <- next ;; '(_, body) <- parse_plan_body n tk ;; pret body)%P.

Definition kept (l : list item) : list tok := flat_map (fun i => match i with ITok t => [t] | IBad _ _ _ => [] end) l.

(** [while tokens:] (1120-1137); each round takes a token, so that [k] bounds
    the rounds if it is the number of tokens.  Of the log only the errors
    matter; there are none after [log.throw()]. *)
Fixpoint repl_loop (k n : nat) (tokens : list tok) (lg : log) (x : S0) : res (list tok) * S0 :=
  match tokens, k with
  | [], _ => (Ok [], x)
  | _, O => (Err ERecursion, x)
  | _, S k' =>
      match statement n (mkpst (map ITok tokens) lg true) with
      | (Err EStopIter, s) => match log_throw (p_log s) with Ok _ => (Ok tokens, x) | Err e => (Err e, x) end
      | (Err e, _) => (Err e, x)
      | (Ok body, s) =>
          match log_throw (p_log s) with
          | Err e => (Err e, x)
          | Ok _ =>
              match exec body x with
              | (Err e, x') => (Err e, x')
              | (Ok _, x') => repl_loop k' n (kept (p_items s)) log3 x'
              end
          end
      end
  end.

(** What the two [except] clauses do (1138-1143). *)
Definition caught (e : exc) : bool := match e with EAggregated | EAsl => true | _ => false end.

(** One line (1104-1143): the tokens that are kept for the next. *)
Definition repl_line (n lineno : nat) (line : pystr) (tokens : list tok) (x : S0) : res (list tok) * S0 :=
  match tokenize lineno (string_source line) with
  | Err e => (Err e, x)
  | Ok items =>
      let '(r, x') :=
        match line_tokens items log3 with
        | (Err e, _) => (Err e, x)
        | (Ok new, lg) => repl_loop (List.length (tokens ++ new)) n (tokens ++ new) lg x
        end in
      match r with
      | Err e => if caught e then (Ok [], x') else (Err e, x')
      | Ok ts => (Ok ts, x')
      end
  end.

(** The whole session; the line number starts at 1 and is increased before each
    line is read (1116). *)
Fixpoint repl (n lineno : nat) (input : list pystr) (tokens : list tok) (x : S0) : res (list tok) * S0 :=
  match input with
  | [] => (Ok tokens, x)
  | line :: input' =>
      match repl_line n (S lineno) line tokens x with
      | (Err e, x') => (Err e, x')
      | (Ok ts, x') => repl n (S lineno) input' ts x'
      end
  end.
End Repl.
