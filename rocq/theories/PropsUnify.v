(** C01-C05: unification.  Specification: TermSpec.v, TrailSpec.v. *)
From Verif Require Import Base Num Term Unify TermSpec TrailSpec ChainFacts ExPy.
From Verif Require Import TrailHist UnifyCor UnifyTotal.

(** C01.  Unification answers True exactly by recording the solutions of the
    equation: the assignments agreeing with the new scope are those agreeing
    with the old one that make both terms equal; it answers False only if there
    are none.  For finite trees ... *)
Theorem C01_unify_mgu : forall (PY : Py) ex n l r st b st',
  plain (b_scope st) ex l -> plain (b_scope st) ex r ->
  plain_scope (b_scope st) ex (b_scope st) -> chain_ok (b_scope st) ->
  unify n l r st = (Ok b, st') ->
  if b then
    forall th, agrees ex th (b_scope st') <-> agrees ex th (b_scope st) /\ value ex th l = value ex th r
  else
    forall th, agrees ex th (b_scope st) -> value ex th l <> value ex th r.
Proof. exact @unify_mgu. Qed.
Print Assumptions C01_unify_mgu.

(** ... and for infinite trees, which also cover cyclic bindings. *)
Theorem C01_unify_mgu_infinite : forall (PY : Py) ex n l r st b st',
  plain (b_scope st) ex l -> plain (b_scope st) ex r ->
  plain_scope (b_scope st) ex (b_scope st) -> chain_ok (b_scope st) ->
  unify n l r st = (Ok b, st') ->
  if b then
    forall th, iagrees ex th (b_scope st') <-> iagrees ex th (b_scope st) /\ ieq (ivalue ex th l) (ivalue ex th r)
  else
    forall th, iagrees ex th (b_scope st) -> ~ ieq (ivalue ex th l) (ivalue ex th r).
Proof. exact @unify_mgu_inf. Qed.
Print Assumptions C01_unify_mgu_infinite.

(** The hypothesis [chain_ok] (no variable is bound in a circle) is met by the
    empty scope and kept by every unification. *)
Theorem C01_chain_ok_reachable : forall (PY : Py),
  chain_ok [] /\
  forall n l r st x st', unify n l r st = (x, st') -> chain_ok (b_scope st) -> chain_ok (b_scope st').
Proof. exact @chain_ok_reachable. Qed.
Print Assumptions C01_chain_ok_reachable.

(** C02.  Solvable equations are solved: some recursion depth suffices. *)
Theorem C02_unify_terminates : forall (PY : Py) ex th l r st,
  plain (b_scope st) ex l -> plain (b_scope st) ex r ->
  plain_scope (b_scope st) ex (b_scope st) -> chain_ok (b_scope st) ->
  agrees ex th (b_scope st) -> value ex th l = value ex th r ->
  exists n0 st', forall n, (n0 <= n)%nat -> unify n l r st = (Ok true, st').
Proof. exact @unify_terminates. Qed.
Print Assumptions C02_unify_terminates.

(** Without a finite solution it need not end: with X = f(X) and Y = f(Y) bound,
    X = Y exceeds every recursion limit. *)
Theorem C02_cyclic_refuted : forall (PY : Py),
  exists l r st, chain_ok (b_scope st) /\ forall n, fst (unify n l r st) = Err ERecursion.
Proof. exact @cyclic_refuted. Qed.
Print Assumptions C02_cyclic_refuted.

(** C03.  Whatever the outcome, existing bindings are kept and exactly the new
    ones, one per variable that was unbound, are recorded on the stack. *)
Theorem C03_bindings_kept : forall (PY : Py) n l r st x st', unify n l r st = (x, st') ->
  (forall v t, lookup (b_scope st) v = Some t -> lookup (b_scope st') v = Some t) /\
  exists news : list (N * term),
    b_scope st' = news ++ b_scope st /\
    b_stack st' = map (fun p => EVar (fst p)) news ++ b_stack st /\
    NoDup (map fst news) /\
    Forall (fun p => lookup (b_scope st) (fst p) = None) news.
Proof. exact @unify_keeps_bindings. Qed.
Print Assumptions C03_bindings_kept.

(** C04.  Rolling back to a choicepoint restores scope and stack exactly, after
    every history of unifications (plain and annotated, successful, failing or
    raising), pushed choicepoints and nested rollbacks. *)
Theorem C04_rollback_exact : forall (PY : Py) os st,
  let '(cp, st0) := new_cp st in
  let st' := reroll (run_bops os (push_cp cp st0)) cp in
  b_scope st' = b_scope st /\ b_stack st' = b_stack st.
Proof. exact @rollback_exact. Qed.
Print Assumptions C04_rollback_exact.

(** C05.  Swapping the arguments changes neither answer nor solutions. *)
Theorem C05_unify_symmetric : forall (PY : Py) ex n m l r st b1 st1 b2 st2,
  plain (b_scope st) ex l -> plain (b_scope st) ex r ->
  plain_scope (b_scope st) ex (b_scope st) -> chain_ok (b_scope st) ->
  unify n l r st = (Ok b1, st1) -> unify m r l st = (Ok b2, st2) ->
  b1 = b2 /\
  (b1 = true -> forall th, agrees ex th (b_scope st1) <-> agrees ex th (b_scope st2)).
Proof. exact @unify_symmetric. Qed.
Print Assumptions C05_unify_symmetric.

(** If the one order answers True and there is a (finite) solution, the other
    order answers too. *)
Theorem C05_both_answer : forall (PY : Py) ex n l r st st1,
  plain (b_scope st) ex l -> plain (b_scope st) ex r ->
  plain_scope (b_scope st) ex (b_scope st) -> chain_ok (b_scope st) ->
  unify n l r st = (Ok true, st1) -> (exists th, agrees ex th (b_scope st1)) ->
  exists m0 st2, (forall m, (m0 <= m)%nat -> unify m r l st = (Ok true, st2)) /\
    forall th, agrees ex th (b_scope st1) <-> agrees ex th (b_scope st2).
Proof. exact @unify_swap_answers. Qed.
Print Assumptions C05_both_answer.

(** * The hypotheses are met *)

(** X0 is bound to g(X1); unify f(X0, [X2 | X3], 1 + 2) with f(g(a), ["s", 7], X4). *)
Definition ex_st : bst := mkbst [(0%N, TLit (s2p "g") [TVar 1] [])] [EVar 0] 0.
Definition ex_sum : term := TBin (BNum NAdd) (TNum (NInt 1)) (TNum (NInt 2)).
Definition ex_l : term := TLit (s2p "f") [TVar 0; TLL (TVar 2) (TVar 3); ex_sum] [].
Definition ex_r : term :=
  TLit (s2p "f") [TLit (s2p "g") [TLit (s2p "a") [] []] []; TTup [TStr (s2p "s"); TNum (NInt 7)]; TVar 4] [].
Definition ex_ex (t : term) : term := TNum (NInt 3).

Example ex_plain_l : @plain PyEx (b_scope ex_st) ex_ex ex_l.
Proof. repeat constructor. exists 3%nat. reflexivity. Qed.
Example ex_plain_r : @plain PyEx (b_scope ex_st) ex_ex ex_r.
Proof. repeat constructor. Qed.
Example ex_plain_scope : @plain_scope PyEx (b_scope ex_st) ex_ex (b_scope ex_st).
Proof.
  intros v t H. cbn in H. destruct (N.eqb v 0) eqn:E; [|rewrite ?E in H; discriminate].
  rewrite ?E in H. injection H as <-. repeat constructor.
Qed.
Example ex_chain : chain_ok (b_scope ex_st).
Proof. intros v H. unfold deref in H. cbn in H. destruct (N.eqb v 0); discriminate. Qed.
Example ex_unify : exists st', @unify PyEx 10 ex_l ex_r ex_st = (Ok true, st') /\
  lookup (b_scope st') 1 = Some (TLit (s2p "a") [] []) /\ lookup (b_scope st') 4 = Some (TNum (NInt 3)).
Proof. eexists. split; [reflexivity|split; reflexivity]. Qed.
Example ex_unify_swapped : exists st', @unify PyEx 10 ex_r ex_l ex_st = (Ok true, st').
Proof. eexists. reflexivity. Qed.
Example ex_unify_false : exists st', @unify PyEx 10 ex_l (TLit (s2p "f") [TNum (NInt 1)] []) ex_st = (Ok false, st').
Proof. eexists. reflexivity. Qed.

Definition ex_th (v : N) : val :=
  if N.eqb v 0 then VLit (s2p "g") [VLit (s2p "a") []]
  else if N.eqb v 1 then VLit (s2p "a") []
  else if N.eqb v 2 then VConst (KStr (s2p "s"))
  else if N.eqb v 3 then VCons (VConst (KNum (num_canon (NInt 7)))) (VConst KNil)
  else VConst (KNum (num_canon (NInt 3))).
Example ex_solution : agrees ex_ex ex_th (b_scope ex_st) /\ value ex_ex ex_th ex_l = value ex_ex ex_th ex_r.
Proof.
  split; [|reflexivity]. intros v t H. cbn in H.
  destruct (N.eqb v 0) eqn:E; [|discriminate]. injection H as <-.
  apply N.eqb_eq in E. subst v. reflexivity.
Qed.

(** A history that binds, fails after binding, raises and nests. *)
Example ex_history :
  let os := [OUnify 10 ex_l ex_r; OTry [OUnify 10 (TVar 9) (TNum (NInt 1)); OPush;
             OUnifyAnn 10 (TLit (s2p "p") [TVar 10; TNum (NInt 2)] []) (TLit (s2p "p") [TNum (NInt 5); TNum (NInt 3)] [])];
             OUnify 3 (TLit (s2p "q") [TVar 11; TVar 12] []) (TLit (s2p "q") [TNum (NInt 5); ex_sum] [])] in
  let st1 := @run_bops PyEx os (push_cp 0 (snd (new_cp ex_st))) in
  List.length (b_scope st1) = 6%nat /\ List.length (b_stack st1) = 7%nat.
Proof. vm_compute. split; reflexivity. Qed.
