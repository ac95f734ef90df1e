(** Dropping goals, and removing plans by label. *)
From Verif Require Import Base Num Term Unify Str World Engine QuerySpec PlanSpec.

Section WithPy.
Context {PY : Py}.

(** The event that intention [i] handles has the functor [f] and arguments that
    unify with [args] (when nothing is bound); or not. *)
Definition handles (W : world) (f : pystr) (args : list term) (i : nat) : Prop :=
  exists hargs annots n, i_head (get_int W i) = Some (TLit f hargs annots) /\ unifies n (TTup args) (TTup hargs) = Ok true.
Definition spares (W : world) (f : pystr) (args : list term) (i : nat) : Prop :=
  exists hf hargs annots, i_head (get_int W i) = Some (TLit hf hargs annots) /\
    (hf <> f \/ exists n, unifies n (TTup args) (TTup hargs) = Ok false).

(** A stack loses its top if that handles the goal. *)
Definition pruned (W : world) (f : pystr) (args : list term) (old new : list nat) : Prop :=
  match old with
  | [] => new = []
  | i :: rest => (handles W f args i /\ new = rest) \/ (spares W f args i /\ new = old)
  end.

(** Intentions are the same, except that some may no longer wait. *)
Definition waits_aside (W W' : world) : Prop :=
  List.length (w_ints W') = List.length (w_ints W) /\
  forall i, get_int W' i = get_int W i \/ get_int W' i = set_i_wait (get_int W i) None.

(** [s] is "@" followed by the label of the plan. *)
Definition labelled (s : pystr) (p : plan) : bool :=
  match p_label p with Some l => pystr_eqb s (64%N :: l) | None => false end.
End WithPy.
