(** If one way of writing an equation is answered and has a solution, so are the
    others. *)
From Verif Require Import Base Num Term Unify TermSpec CmpSpec TrailFacts FuelFacts ChainFacts UnifySem UnifyTerm UnifyCor CmpFacts.

Section WithPy.
Context {PY : Py}.

Lemma unify_same_answers ex n l l' r r' st st1 :
  plain (b_scope st) ex l -> plain (b_scope st) ex r ->
  plain (b_scope st) ex l' -> plain (b_scope st) ex r' ->
  plain_scope (b_scope st) ex (b_scope st) -> chain_ok (b_scope st) ->
  (forall th, value ex th l = value ex th r <-> value ex th l' = value ex th r') ->
  unify n l r st = (Ok true, st1) -> (exists th, agrees ex th (b_scope st1)) ->
  exists m0 st2, (forall m, (m0 <= m)%nat -> unify m l' r' st = (Ok true, st2)) /\
    forall th, agrees ex th (b_scope st1) <-> agrees ex th (b_scope st2).
Proof.
  intros P1 P2 P3 P4 PS C V U [th A].
  pose proof (unify_mgu ex n l r st true st1 P1 P2 PS C U) as M1.
  destruct (proj1 (M1 th) A) as [A0 E]. apply V in E.
  destruct (unify_terminates ex th l' r' st P3 P4 PS C A0 E) as (m0 & st2 & U2).
  exists m0, st2. split; [exact U2|]. intros th'. rewrite (M1 th').
  rewrite (unify_mgu ex m0 l' r' st true st2 P3 P4 PS C (U2 m0 (le_n _)) th'). now rewrite V.
Qed.

Lemma unify_swap_answers ex n l r st st1 :
  plain (b_scope st) ex l -> plain (b_scope st) ex r ->
  plain_scope (b_scope st) ex (b_scope st) -> chain_ok (b_scope st) ->
  unify n l r st = (Ok true, st1) -> (exists th, agrees ex th (b_scope st1)) ->
  exists m0 st2, (forall m, (m0 <= m)%nat -> unify m r l st = (Ok true, st2)) /\
    forall th, agrees ex th (b_scope st1) <-> agrees ex th (b_scope st2).
Proof. intros P1 P2 PS C. apply unify_same_answers; auto. intros th. split; congruence. Qed.

Lemma unify_norm_answers ex n l r st st1 :
  plain (b_scope st) ex l -> plain (b_scope st) ex r ->
  plain_scope (b_scope st) ex (b_scope st) -> chain_ok (b_scope st) ->
  unify n l r st = (Ok true, st1) -> (exists th, agrees ex th (b_scope st1)) ->
  exists m0 st2, (forall m, (m0 <= m)%nat -> unify m (norm l) (norm r) st = (Ok true, st2)) /\
    forall th, agrees ex th (b_scope st1) <-> agrees ex th (b_scope st2).
Proof.
  intros P1 P2 PS C. apply unify_same_answers; auto using plain_norm.
  intros th. assert (N : forall t, value ex th t = value ex th (norm t)) by (intros t; symmetry; apply den_norm).
  now rewrite (N l), (N r).
Qed.

(** The other way round. *)
Lemma norm_unify_answers ex n l r st st1 :
  plain (b_scope st) ex l -> plain (b_scope st) ex r ->
  plain_scope (b_scope st) ex (b_scope st) -> chain_ok (b_scope st) ->
  unify n (norm l) (norm r) st = (Ok true, st1) -> (exists th, agrees ex th (b_scope st1)) ->
  exists m0 st2, (forall m, (m0 <= m)%nat -> unify m l r st = (Ok true, st2)) /\
    forall th, agrees ex th (b_scope st1) <-> agrees ex th (b_scope st2).
Proof.
  intros P1 P2 PS C. apply unify_same_answers; auto using plain_norm.
  intros th. assert (N : forall t, value ex th t = value ex th (norm t)) by (intros t; symmetry; apply den_norm).
  now rewrite (N l), (N r).
Qed.
Lemma norm_both_answer ex n l r l' r' st st1 :
  (l' = norm l /\ r' = norm r) \/ (l = norm l' /\ r = norm r') ->
  plain (b_scope st) ex l -> plain (b_scope st) ex r -> plain (b_scope st) ex l' -> plain (b_scope st) ex r' ->
  plain_scope (b_scope st) ex (b_scope st) -> chain_ok (b_scope st) ->
  unify n l r st = (Ok true, st1) -> (exists th, agrees ex th (b_scope st1)) ->
  exists m0 st2, (forall m, (m0 <= m)%nat -> unify m l' r' st = (Ok true, st2)) /\
    forall th, agrees ex th (b_scope st1) <-> agrees ex th (b_scope st2).
Proof.
  intros [[-> ->]|[-> ->]] P1 P2 P3 P4 PS C U A;
    [eapply unify_norm_answers; [exact P1|exact P2|exact PS|exact C|exact U|exact A]|
     eapply norm_unify_answers; [exact P3|exact P4|exact PS|exact C|exact U|exact A]].
Qed.
End WithPy.
