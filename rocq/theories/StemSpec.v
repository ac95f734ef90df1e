(** The name of an agent comes from its file name without directories and
    extension. *)
From Coq Require Import List.
From Verif Require Import Base Num Term Str World Names NamesSpec.

(** The last component of a path: what follows the last slash. *)
Definition last_part (path base : pystr) : Prop :=
  ~ In 47%N base /\ exists dir, path = dir ++ base /\ (dir = [] \/ exists d, dir = d ++ [47%N]).

(** [base] ends with a dot and an extension, and something other than dots
    precedes it: the part before. *)
Definition has_extension (base stem : pystr) : Prop :=
  exists ext, base = stem ++ 46%N :: ext /\ ~ In 46%N ext /\ exists c, In c stem /\ c <> 46%N.

Definition stem_of (path stem : pystr) : Prop :=
  exists base, last_part path base /\
    (has_extension base stem \/ (stem = base /\ forall s, ~ has_extension base s)).

Definition warnings_in (ops : list logop) : nat :=
  List.length (filter (fun o => match o with LWarning => true | LError => false end) ops).

(** The action [a] has been registered for [n] arguments, and nothing else has
    changed. *)
Definition registers (t : actions act) (f : pystr) (n : nat) (a : act) (t' : actions act) : Prop :=
  actions_lookup t' f n = Ok a /\ forall g m, (g, m) <> (f, n) -> actions_lookup t' g m = actions_lookup t g m.
