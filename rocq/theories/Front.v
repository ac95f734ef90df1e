(** Plans and events given as text at run time: Agent._tell_how
    (agentspeak/runtime.py:507-547) and .wait (agentspeak/stdlib.py:371-384). *)
From Verif Require Import Base Num Term Str World Ast Names Lex Parse Fold Engine Build.

(** [_tell_how] and [.wait] run inside generators ([.send], [.wait]), which
    turn a StopIteration of the token stream into a RuntimeError.  (If an
    application calls [agent.call] itself, the StopIteration of _tell_how is
    not turned; this difference is not modelled.) *)
Definition no_stop {A} (r : res A) : res A :=
  match r with Err EStopIter => Err ERuntime | _ => r end.

Definition is_token (i : item) : bool := match i with ITok _ => true | IBad _ _ _ => false end.

Section WithPy.
Context {PY : Py}.

(** 519-522 *)
Definition told_plan (n : nat) (tk : tok) : P aplan :=
  ('(tk', p) <- parse_plan n tk ;;
   if is_lex tk' "." then pret p else p_raise)%P.

(** 513-523: all tokens are made first; illegal characters are logged (the log
    has no maximum) and skipped.  [tokens[0]] of an empty list raises
    IndexError.  [ast_plan] is unbound if the first token is wrong. *)
Definition read_plan (n : nat) (s : pystr) : res aplan :=
  match tokenize 1 (string_source s) with
  | Err e => Err e
  | Ok items =>
      match filter is_token items with
      | ITok tk :: rest =>
          if is_lex tk "@" || is_lex tk "+" || is_lex tk "-" then
            no_stop (fst (told_plan n tk (mkpst rest (log_new None) true)))
          else Err EName
      | _ => Err EIndex
      end
  end.

(** 525-545.  The errors of building are only logged.  No constant folding and
    no validation takes place. *)
Definition text_plan (n : nat) (s : pystr) (k : N) : res (plan * N) :=
  match read_plan n s with
  | Err e => Err e
  | Ok p =>
      match clause (build_plan stdlib_actions p) (log_new None) k with
      | (Ok x, _, k') => Ok (x, k')
      | (Err e, _, _) => Err e
      end
  end.

(** stdlib.py:376-383, and the folding of visit_event (runtime.py:158-160).  The log stops at
    the first error. *)
Definition awaited (n : nat) : P aevent :=
  (tk <- next ;;
   '(tk', e) <- parse_event n tk ;;
   if is_lex tk' "." then fold_event e else p_raise)%P.

Definition text_event (n : nat) (s : pystr) (k : N) : res (event * N) :=
  match tokenize 1 (string_source s) with
  | Err e => Err e
  | Ok items =>
      match awaited n (mkpst items (log_new (Some 1%nat)) true) with
      | (Err e, _) => no_stop (Err e)
      | (Ok e, s') =>
          match clause (build_event e) (p_log s') k with
          | (Ok x, _, k') => Ok (x, k')
          | (Err e, _, _) => Err e
          end
      end
  end.

(** [n] bounds the recursion of the parser. *)
Definition FrontText (n : nat) : Front := {| fr_plan := text_plan n; fr_event := text_event n |}.
End WithPy.
