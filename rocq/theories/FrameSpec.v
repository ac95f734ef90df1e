(** Which variables a query may bind. *)
From Verif Require Import Base Num Term Unify Str World Engine QuerySpec.

(** The variables [vs], those in their values, and so on. *)
Inductive involved (s : scope) (vs : list N) : N -> Prop :=
| in_here v : In v vs -> involved s vs v
| in_value v t w : involved s vs v -> lookup s v = Some t -> In w (tvars t) -> involved s vs w.

(** From [s] to [s']: bindings stay as they are, and only the variables [vs] and
    those in their values, and variables created from [nv] on, become bound. *)
Definition binds_only (s : scope) (vs : list N) (nv : N) (s' : scope) : Prop :=
  (forall v t, lookup s v = Some t -> lookup s' v = Some t) /\
  (forall v t, lookup s v = None -> lookup s' v = Some t -> involved s vs v \/ (nv <= v)%N).

(** No variable is bound that has not been created yet. *)
Definition none_after (nv : N) (s : scope) : Prop := forall v t, lookup s v = Some t -> (v < nv)%N.

(** Beliefs contain no variables. *)
Definition closed_beliefs (D : db) : Prop := forall g b, In b (d_bel D g) -> tvars b = [].
