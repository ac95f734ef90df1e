(** C58: which variables become bound.  Specification: FrameSpec.v ([involved]:
    the variables that occur in the query or in the values of such; [binds_only]). *)
From Verif Require Import Base Num Term Unify TrailSpec TermSpec Str World Engine QuerySpec QueryCor Step Ast Names Build Reach FrameSpec FrameFacts FrameCor ExPy.

(** At every solution of a query, whatever rules and actions it uses: bindings
    made before are as they were, and only variables that the query involves, or
    that were created in the meantime, have been bound. *)
Theorem C58_query : forall (PY : Py) (FR : Front), PyLawful PY -> forall b a i q c n st W l o s2,
  proper b q = true -> proper_db b (db_of a W) -> closed_beliefs (db_of a W) -> none_after (w_nv W) (b_scope st) ->
  (b = true -> Forall (fun p => fst p = []) c) ->
  drive c n a i (GQ q) (st, W) = (l, o, s2) -> o <> Raised ERecursion ->
  Forall (binds_only (b_scope st) (qvars q) (w_nv W)) l.
Proof. exact @query_binds_only. Qed.
Print Assumptions C58_query.

(** Beliefs of agents never contain variables. *)
Theorem C58_beliefs : forall (PY : Py) (FR : Front), PyLawful PY -> forall W a, reach W -> closed_beliefs (db_of a W).
Proof. exact @reach_closed. Qed.
Print Assumptions C58_beliefs.

(** What a test goal or a plan context binds (its first solution). *)
Theorem C58_first : forall (PY : Py) (FR : Front), PyLawful PY -> forall b a i q n st W g st' W',
  reach W -> proper b q = true -> proper_db b (db_of a W) -> none_after (w_nv W) (b_scope st) ->
  resume n a i (GQ q) (st, W) = (Ok (Some g), (st', W')) ->
  binds_only (b_scope st) (qvars q) (w_nv W) (b_scope st').
Proof. exact @first_binds_only. Qed.
Print Assumptions C58_first.

(** Unification, successful or not, binds only variables of the two terms and of
    their values; so does matching with annotations. *)
Theorem C58_unify : forall (PY : Py) n l r st x st', unify n l r st = (x, st') ->
  (forall v t, lookup (b_scope st) v = Some t -> lookup (b_scope st') v = Some t) /\
  (forall v t, lookup (b_scope st) v = None -> lookup (b_scope st') v = Some t -> involved (b_scope st) (tvars l ++ tvars r) v).
Proof. exact @unify_binds_only. Qed.
Print Assumptions C58_unify.
Theorem C58_match : forall (PY : Py) n l r st o st', uann n l r st = (Ok o, st') ->
  (forall v t, lookup (b_scope st) v = Some t -> lookup (b_scope st') v = Some t) /\
  (forall v t, lookup (b_scope st) v = None -> lookup (b_scope st') v = Some t -> involved (b_scope st) (tvars l ++ tvars r) v).
Proof. exact @match_binds_only. Qed.
Print Assumptions C58_match.

(** ** Example: ?anc(ann, X) & P = pair(X, Y), where P is pair(A, B) and Z does
    not occur.  A becomes bound although the query does not mention it, Z does
    not. *)
Definition vX := 9%N. Definition vP := 8%N. Definition vA := 7%N. Definition vB := 6%N. Definition vY := 5%N. Definition vZ := 4%N.
Definition q58 : query := QAnd (QTerm (pred2 "anc" (lit0 "ann") (TVar vX))) (QUnify (TVar vP) (pred2 "pair" (TVar vX) (TVar vY))).
Definition st58 : bst := mkbst [(vP, pred2 "pair" (TVar vA) (TVar vB))] [] 0.
Example C58_case : proper true q58 = true /\ proper_db true (db_of 0 family) /\ closed_beliefs (db_of 0 family) /\
  none_after (w_nv family) (b_scope st58) /\
  (let '(l, o, _) := @drive PyEx FrontEx [([], 0%N); ([], 0%N); ([], 0%N)] 60 0 0 (GQ q58) (st58, family) in
   (map (fun s => (@grounded PyEx 9 (TVar vA) s, lookup s vB, lookup s vZ)) l, o) =
   ([(Ok (lit0 "bob"), Some (TVar vY), None); (Ok (lit0 "cyd"), Some (TVar vY), None)], Exhausted)) /\
  involved (b_scope st58) (qvars q58) vA /\ ~ involved (b_scope st58) (qvars q58) vZ.
Proof.
  split; [reflexivity|]. split; [apply family_proper|]. split.
  { intros g b. cbn. unfold beliefs. cbn. match goal with |- context[group_eqb ?x ?y] => destruct (group_eqb x y) end; cbn; [|easy].
    intros [<-|[<-|[]]]; reflexivity. }
  split.
  { intros v t. cbn. destruct (N.eqb_spec v vP); [|easy]. intros _. subst v. reflexivity. }
  split; [vm_compute; reflexivity|]. split.
  - eapply in_value; [apply in_here with (v := vP); vm_compute; auto|reflexivity|vm_compute; auto].
  - assert (H : forall v, involved (b_scope st58) (qvars q58) v -> (v = vX \/ v = vP \/ v = vA \/ v = vB \/ v = vY)).
    { intros v H. induction H as [v H|v t w _ _ Ev Hw].
      - cbn in H. intuition congruence.
      - cbn in Ev. destruct (N.eqb v vP); [|easy]. inversion Ev; subst t. cbn in Hw. intuition congruence. }
    intro K. apply H in K. unfold vX, vP, vA, vB, vY, vZ in K. intuition discriminate.
Qed.
