(** Vocabulary for beliefs and their removal. *)
From Verif Require Import Base Num Term Unify TermSpec WildSpec InstSpec AnnotSpec Str World Engine.

(** A belief without NaN whose annotations have no annotations themselves. *)
Definition plain_belief (b : term) : Prop :=
  match b with TLit _ args annots => Forall closed args /\ Forall flat annots | _ => False end.

(** The two beliefs have the same functor and arguments (true and 1 are
    different), and [c] carries all annotations of [b]. *)
Definition covers (c b : term) : Prop :=
  flat_value c = flat_value b /\
  forall x, In x (lit_annots b) -> exists y, In y (lit_annots c) /\ flat_value x = flat_value y.

(** Matching the literal [v] with the belief [b] in the scope [s] (as a query
    would): it succeeds with the scope [s'], or it fails.  C09 says what
    matching means. *)
Definition finds {PY : Py} (s : scope) (v b : term) (s' : scope) : Prop :=
  exists n cp st', uann n v b (mkbst s [] 0) = (Ok (Some cp), st') /\ b_scope st' = s'.
Definition misses {PY : Py} (s : scope) (v b : term) : Prop :=
  exists n st', uann n v b (mkbst s [] 0) = (Ok None, st').

(** Under some assignment that agrees with the scope, the pattern matches the
    value of the belief. *)
Definition could_match (ex : term -> term) (s : scope) (p b : term) : Prop :=
  exists th, agrees ex th s /\ vmatch ex th p (flat_value b).
