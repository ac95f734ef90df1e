(** What action tables, logs and names are supposed to do. *)
From Verif Require Import Base Num Term Str World Names.

(** A registration: functor, arity ([None]: variadic), action.  A history is the
    list of registrations in chronological order. *)
Notation reg A := (pystr * option nat * A)%type.

Definition sig_dec (a b : pystr * option nat) : {a = b} + {a <> b}.
Proof.
  decide equality; [|apply pystr_eq_dec].
  decide equality. apply Nat.eq_dec.
Defined.

(** The action registered for a signature in a history. *)
Fixpoint registered {A} (h : list (reg A)) (f : pystr) (arity : option nat) : option A :=
  match h with
  | [] => None
  | (s, a) :: h' => if sig_dec (f, arity) s then Some a else registered h' f arity
  end.

(** Perform a history on a registry. *)
Fixpoint adds {A} (t : actions A) (h : list (reg A)) : res (actions A) :=
  match h with
  | [] => Ok t
  | (f, arity, a) :: h' => rbind (actions_add t f arity a) (fun t' => adds t' h')
  end.

(** Lower case of a non-ASCII alphanumeric character consists of alphanumeric
    characters.  (False in Python for a few, e.g. U+0130.) *)
Definition lower_stays_alnum {PY : Py} : Prop :=
  forall c, (128 <= c)%N -> u_alnum c = true -> Forall (fun d => alnum d = true) (u_lower c).

(** What can be done with a log. *)
Inductive logop : Type := LError | LWarning.

(** A session: operations in order until one of them raises. *)
Fixpoint log_run (l : log) (ops : list logop) : res unit * log :=
  match ops with
  | [] => (Ok tt, l)
  | LWarning :: ops' => log_run (log_warning l) ops'
  | LError :: ops' =>
      match log_error l with
      | (Ok _, l') => log_run l' ops'
      | (Err e, l') => (Err e, l')
      end
  end.

Definition errors_in (ops : list logop) : nat :=
  List.length (filter (fun o => match o with LError => true | LWarning => false end) ops).
