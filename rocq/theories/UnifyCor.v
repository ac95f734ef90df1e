(** Corollaries stated as in the property list. *)
From Verif Require Import Base Num Term Unify TermSpec TrailFacts FuelFacts ChainFacts UnifySem UnifyTerm.

Section WithPy.
Context {PY : Py}.

Lemma good_self s ex : plain_scope s ex s -> chain_ok s -> good ex s s.
Proof. intros H1 H2. split; [assumption|split; [assumption|apply extends_refl]]. Qed.

Lemma unify_mgu ex n l r st b st' :
  plain (b_scope st) ex l -> plain (b_scope st) ex r ->
  plain_scope (b_scope st) ex (b_scope st) -> chain_ok (b_scope st) ->
  unify n l r st = (Ok b, st') ->
  if b then
    forall th, agrees ex th (b_scope st') <-> agrees ex th (b_scope st) /\ value ex th l = value ex th r
  else
    forall th, agrees ex th (b_scope st) -> value ex th l <> value ex th r.
Proof.
  intros H1 H2 H3 H4 H.
  pose proof (unify_sound_fin (b_scope st) ex n l r st b st' H H1 H2 (good_self _ _ H3 H4)) as HS.
  destruct b; [exact (proj2 HS)|exact HS].
Qed.

Lemma unify_mgu_inf ex n l r st b st' :
  plain (b_scope st) ex l -> plain (b_scope st) ex r ->
  plain_scope (b_scope st) ex (b_scope st) -> chain_ok (b_scope st) ->
  unify n l r st = (Ok b, st') ->
  if b then
    forall th, iagrees ex th (b_scope st') <-> iagrees ex th (b_scope st) /\ ieq (ivalue ex th l) (ivalue ex th r)
  else
    forall th, iagrees ex th (b_scope st) -> ~ ieq (ivalue ex th l) (ivalue ex th r).
Proof.
  intros H1 H2 H3 H4 H.
  pose proof (unify_sound_inf ex (b_scope st) n l r st b st' H H1 H2 (good_self _ _ H3 H4)) as HS.
  destruct b; [exact (proj2 HS)|exact HS].
Qed.

Lemma unify_terminates ex th l r st :
  plain (b_scope st) ex l -> plain (b_scope st) ex r ->
  plain_scope (b_scope st) ex (b_scope st) -> chain_ok (b_scope st) ->
  agrees ex th (b_scope st) -> value ex th l = value ex th r ->
  exists n0 st', forall n, (n0 <= n)%nat -> unify n l r st = (Ok true, st').
Proof.
  intros H1 H2 H3 H4 H5 H6.
  destruct (unify_finishes (b_scope st) ex th l r st) as (n & st' & E).
  - refine (conj _ (conj _ (conj _ (conj _ _)))); try assumption. now apply good_self.
  - exists n, st'. intros m Hm. eapply unify_more; eassumption.
Qed.

Lemma unify_symmetric ex n m l r st b1 st1 b2 st2 :
  plain (b_scope st) ex l -> plain (b_scope st) ex r ->
  plain_scope (b_scope st) ex (b_scope st) -> chain_ok (b_scope st) ->
  unify n l r st = (Ok b1, st1) -> unify m r l st = (Ok b2, st2) ->
  b1 = b2 /\
  (b1 = true -> forall th, agrees ex th (b_scope st1) <-> agrees ex th (b_scope st2)).
Proof.
  intros H1 H2 H3 H4 U1 U2.
  pose proof (unify_mgu_inf ex n l r st b1 st1 H1 H2 H3 H4 U1) as S1.
  pose proof (unify_mgu_inf ex m r l st b2 st2 H2 H1 H3 H4 U2) as S2.
  pose proof (unify_chain n _ _ _ _ _ U1 H4) as C1.
  pose proof (unify_chain m _ _ _ _ _ U2 H4) as C2.
  assert (Hb : b1 = b2).
  { destruct b1, b2; try reflexivity; exfalso.
    - pose proof (solution_agrees ex _ C1) as HA. apply S1 in HA as [A B].
      apply (S2 _ A). intro p. symmetry. apply B.
    - pose proof (solution_agrees ex _ C2) as HA. apply S2 in HA as [A B].
      apply (S1 _ A). intro p. symmetry. apply B. }
  split; [assumption|]. intros -> th. subst b2.
  pose proof (unify_mgu ex n l r st true st1 H1 H2 H3 H4 U1 th) as M1.
  pose proof (unify_mgu ex m r l st true st2 H2 H1 H3 H4 U2 th) as M2.
  rewrite M1, M2. intuition congruence.
Qed.

Lemma unify_keeps_bindings n l r st x st' : unify n l r st = (x, st') ->
  (forall v t, lookup (b_scope st) v = Some t -> lookup (b_scope st') v = Some t) /\
  exists news : list (N * term),
    b_scope st' = news ++ b_scope st /\
    b_stack st' = map (fun p => EVar (fst p)) news ++ b_stack st /\
    NoDup (map fst news) /\
    Forall (fun p => lookup (b_scope st) (fst p) = None) news.
Proof.
  intro H. apply unify_vtrail in H. split.
  - intros v t. now apply vtrail_lookup.
  - destruct (vtrail_spec _ _ H) as (news & A & B & C & D & E). exists news. auto.
Qed.

(** Two different cyclic terms: the recursion never ends. *)
Definition cyc_scope : scope := [(0, TLit [102] [TVar 0] []); (1, TLit [102] [TVar 1] [])]%N.

Lemma unify_cyclic n : forall st, b_scope st = cyc_scope ->
  fst (unify n (TVar 0) (TVar 1) st) = Err ERecursion.
Proof.
  induction n as [n IH] using lt_wf_ind. intros st Hst.
  destruct n as [|[|[|n]]]; [reflexivity| | |].
  - rewrite unify_S, Hst. reflexivity.
  - rewrite unify_S, Hst. cbn [bound lookup cyc_scope N.eqb deref deref_loop List.length].
    rewrite unify_S, Hst. reflexivity.
  - rewrite unify_S, Hst. cbn [bound lookup cyc_scope N.eqb deref deref_loop List.length].
    rewrite unify_S, Hst, evaluate_S. cbn [bound lookup cyc_scope N.eqb Pos.eqb deref deref_loop List.length].
    destruct n as [|n]; [reflexivity|].
    rewrite evaluate_S. cbn [pystr_eqb N.eqb Pos.eqb andb Nat.eqb List.length all_unify].
    pose proof (IH (S (S n)) ltac:(lia) st Hst) as E.
    destruct (unify (S (S n)) (TVar 0) (TVar 1) st) as [x st']. cbn in E. subst x. reflexivity.
Qed.
End WithPy.

Lemma chain_ok_reachable {PY : Py} :
  chain_ok [] /\
  forall n l r st x st', unify n l r st = (x, st') -> chain_ok (b_scope st) -> chain_ok (b_scope st').
Proof. split; [apply chain_ok_nil|]. intros n l r st x st' H Hc. exact (unify_chain n _ _ _ _ _ H Hc). Qed.

Lemma cyclic_refuted {PY : Py} :
  exists l r st, chain_ok (b_scope st) /\ forall n, fst (unify n l r st) = Err ERecursion.
Proof.
  exists (TVar 0), (TVar 1), (mkbst cyc_scope [] 0%N). split.
  - intros v H. unfold deref in H. cbn in H. destruct (N.eqb v 0); [discriminate|].
    destruct (N.eqb v 1); discriminate.
  - intro n. now apply unify_cyclic.
Qed.
