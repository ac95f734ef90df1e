(** What the enumerating actions should produce. *)
From Verif Require Import Base Num Term Unify TrailSpec Str World Engine QuerySpec FrameSpec.

Section WithPy.
Context {PY : Py}.

(** Each of the [items] either unifies with [x] or does not (no exception, no
    endless recursion). *)
Definition decided (d : nat) (x : term) (items : list term) (s : scope) : Prop :=
  Forall (fun it => exists b st, unify d x it (mkbst s [] 0) = (Ok b, st)) items.

(** The scopes that result from unifying [x] with one of the [items], in order. *)
Definition hits (d : nat) (x : term) (items : list term) (s : scope) : list scope :=
  flat_map (fun it => match unify d x it (mkbst s [] 0) with
                      | (Ok true, st) => [b_scope st]
                      | _ => [] end) items.

(** The items of a list, in either notation. *)
Inductive list_of : term -> list term -> Prop :=
| lo_tup ts : list_of (TTup ts) ts
| lo_ll h tl ts : list_of tl ts -> list_of (TLL h tl) (h :: ts).

(** [needle] occurs in [hay] at position [k]. *)
Definition occurs_at (needle hay : pystr) (k : nat) : Prop :=
  exists pre post, hay = pre ++ needle ++ post /\ List.length pre = k.

(** No variable of the pattern [p] (or of the values of its variables) that one of
    the solutions [l] leaves unbound is bound in a later one. *)
Definition settled (p : term) (l : list scope) : Prop :=
  ForallOrdPairs (fun s s' => forall v, involved s (tvars p) v -> lookup s v = None -> lookup s' v = None) l.

(** Python's text % t fails for tuples t, except those of length one. *)
Definition unformattable (t : term) : bool := match t with TTup l => negb (Nat.eqb (List.length l) 1) | _ => false end.
Definition is_bool (t : term) : bool := match t with TBool _ => true | _ => false end.

(** A consumer that only asks for the next solution. *)
Definition plain_pauses (c : list pause) : Prop := Forall (fun p => p = ([], 0%N)) c.

End WithPy.
