(** What C34 says: two terms that cannot be told apart. *)
From Verif Require Import Base Num Term Unify Str World Ast Names Engine Build Lex Parse Fold QuerySpec.

(** No annotation contains an operator. *)
Fixpoint plain_annots (t : ast) : bool :=
  match t with
  | ALit _ ts an => forallb plain_annots ts && negb (existsb has_op an)
  | AList ts => forallb plain_annots ts
  | ALL h t => plain_annots h && plain_annots t
  | AUn _ a => plain_annots a
  | ABin _ l r => plain_annots l && plain_annots r
  | _ => true
  end.

Section WithPy.
Context {PY : Py}.

(** [r'] is the outcome [r], or [r] is a RecursionError. *)
Definition same {A} (r r' : res A) : Prop := r <> Err ERecursion -> r' = r.

(** The values that grounding, testing for variables and copying give, and the
    errors they raise, are the same in every scope. *)
Definition same_values (x x' : term) : Prop := forall n s,
  same (grounded n x s) (grounded n x' s) /\ same (is_ground n x s) (is_ground n x' s) /\
  forall m, fst (freeze n x s m) <> Err ERecursion -> freeze n x' s m = freeze n x s m.

(** [evaluate] gives the same number, string, truth value, variable, or error;
    a list or literal is only evaluated when its parts are used. *)
Definition same_evaluation (x x' : term) : Prop := forall n s,
  match evaluate n x s with
  | Err e => e <> ERecursion -> evaluate n x' s = Err e
  | Ok v => exists v', evaluate n x' s = Ok v' /\ same_values v v' /\
      match v with TLit _ _ _ | TTup _ | TLL _ _ => True | _ => v' = v end
  end.

(** Scopes give each variable the same value. *)
Definition same_scope (s s' : scope) : Prop := forall v, bound s' v = bound s v /\
  forall n, same (grounded n (TVar v) s) (grounded n (TVar v) s').
Definition same_outcome {A} (r r' : res A * bst) : Prop := fst r <> Err ERecursion ->
  fst r' = fst r /\ same_scope (b_scope (snd r)) (b_scope (snd r')) /\ b_stack (snd r') = b_stack (snd r).

(** Unification on either side, with and without annotations, has the same
    outcome. *)
Definition same_unification (x x' : term) : Prop := forall n y st,
  same_outcome (unify n x y st) (unify n x' y st) /\ same_outcome (unify n y x st) (unify n y x' st) /\
  same_outcome (uann n x y st) (uann n x' y st) /\ same_outcome (uann n y x st) (uann n y x' st).
End WithPy.

(** No [|] in the condition has two sides that both fold to [true]. *)
Definition folds_true {PY : Py} (t : ast) : Prop := exists p p', fold MLog t p = (Ok (ABool true), p').
Fixpoint no_double {PY : Py} (t : ast) : Prop :=
  match t with
  | ABin BAnd l r => no_double l /\ no_double r
  | ABin BOr l r => no_double l /\ no_double r /\ ~ (folds_true l /\ folds_true r)
  | AUn UNot a => no_double a
  | _ => True
  end.

(** The rule [r'] is built from the folded text of [r]. *)
Definition folded_rule {PY : Py} (acts : actions act) (r r' : rule) : Prop := exists a p a' p' b b1 b2,
  fold_rule a p = (Ok a', p') /\ lg_errors (p_log p') = lg_errors (p_log p) /\
  plain_annots (lit_ast (ar_head a)) = true /\ plain_annots (ar_cons a) = true /\ no_double (ar_cons a) /\
  build_rule acts a b = (Ok r, b1) /\ build_rule acts a' b = (Ok r', b2).

(** Agents that differ only in that rules of the one are folded. *)
Definition folded_rules {PY : Py} (acts : actions act) (D D' : db) : Prop :=
  d_name D' = d_name D /\ (forall g, d_bel D' g = d_bel D g) /\
  forall g, Forall2 (fun r r' => r' = r \/ folded_rule acts r r') (d_rules D g) (d_rules D' g).
