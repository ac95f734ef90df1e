(** C34: constant folding.  FoldSpec.v says when terms cannot be told apart. *)
From Verif Require Import Base Num Term Unify TrailSpec Str World Ast Names Engine Build Lex Parse Fold FoldSpec FoldCor QuerySpec QueryCor FoldCond ExPy.

(** C34.  If folding [t], in whatever context it occurs, reports no error, then
    the terms built from [t] and from the folded expression, after the same
    variables were created, evaluate to the same value, or raise the same error,
    in every scope; so do copying and testing for variables; and unification
    with any term succeeds for both or for none, with the same bindings. *)
Theorem C34_fold : forall (PY : Py) m t p t' p', fold m t p = (Ok t', p') ->
  lg_errors (p_log p') = lg_errors (p_log p) -> plain_annots t = true ->
  forall b, exists x x' b1, build_term false t b = (Ok x, b1) /\ build_term false t' b = (Ok x', b1) /\
    same_evaluation x x' /\ same_values x x' /\ same_unification x x'.
Proof. exact @fold_same. Qed.
Print Assumptions C34_fold.

Definition num (z : Z) : ast := ANum (NInt z).
Definition p0 : pst := mkpst [] (log_new (Some 3%nat)) true.
Definition b0 : bs := mkbs [] 0 (log_new (Some 3%nat)).

(** f(1 + 2 * X, [not (1 < 2), "a" == "b"]): the second argument is folded. *)
Example C34_case : let t := ALit (s2p "f") [ABin (BNum NAdd) (num 1) (ABin (BNum NMul) (num 2) (AVar (s2p "X")));
    AList [AUn UNot (ABin (BCmp CLt) (num 1) (num 2)); ABin BEq (AStr (s2p "a")) (AStr (s2p "b"))]] [] in
  plain_annots t = true /\
  @fold PyEx MTerm t p0 = (Ok (ALit (s2p "f") [ABin (BNum NAdd) (num 1) (ABin (BNum NMul) (num 2) (AVar (s2p "X")));
    AList [ABool false; ABool false]] []), p0).
Proof. split; vm_compute; reflexivity. Qed.

(** Conditions, and the rules they use: if folding reports no error and no [|] has
    two sides that both fold to true, the folded condition has the same number of
    solutions, in the same order, giving each variable the same value, and ends
    in the same way. *)
Theorem C34_condition : forall (PY : Py) acts t p t' p', fold MLog t p = (Ok t', p') ->
  lg_errors (p_log p') = lg_errors (p_log p) -> plain_annots t = true -> no_double t ->
  forall b q b1, build_query acts t b = (Ok q, b1) ->
  exists q', build_query acts t' b = (Ok q', b1) /\
  forall FR (quiet : bool) a i st W W' c l o, proper quiet q = true -> proper quiet q' = true ->
    proper_db quiet (db_of a W) -> proper_db quiet (db_of a W') -> (quiet = true -> Forall (fun p => fst p = []) c) ->
    folded_rules acts (db_of a W) (db_of a W') -> w_nv W' = w_nv W -> o <> Raised ERecursion ->
    (exists n0, forall n, (n0 <= n)%nat -> fst (@drive PY FR c n a i (GQ q) (st, W)) = (l, o)) ->
    exists l', (exists n0, forall n, (n0 <= n)%nat -> fst (@drive PY FR c n a i (GQ q') (st, W')) = (l', o)) /\ Forall2 same_scope l l'.
Proof. exact @fold_condition. Qed.
Print Assumptions C34_condition.

(** anc(X, Y) & (1 + 1 < 3 & not X = 2 * 1) becomes anc(X, Y) & (true & not X = 2);
    it has three solutions. *)
Example C34_case_condition : let acts := mkactions None [] [] in
  let t := ABin BAnd (ALit (s2p "anc") [AVar (s2p "X"); AVar (s2p "Y")] [])
    (ABin BAnd (ABin (BCmp CLt) (ABin (BNum NAdd) (num 1) (num 1)) (num 3))
               (AUn UNot (ABin BUnify (AVar (s2p "X")) (ABin (BNum NMul) (num 2) (num 1))))) in
  let t' := ABin BAnd (ALit (s2p "anc") [AVar (s2p "X"); AVar (s2p "Y")] [])
    (ABin BAnd (ABool true) (AUn UNot (ABin BUnify (AVar (s2p "X")) (num 2)))) in
  plain_annots t = true /\ @no_double PyEx t /\ @fold PyEx MLog t p0 = (Ok t', p0) /\
  exists q q' b1, @build_query PyEx acts t b0 = (Ok q, b1) /\ @build_query PyEx acts t' b0 = (Ok q', b1) /\
    proper true q = true /\ proper true q' = true /\ proper_db true (db_of 0 family) /\
    folded_rules (PY := PyEx) acts (db_of 0 family) (db_of 0 family) /\
    let c := [([], 0%N); ([], 0%N); ([], 0%N); ([], 0%N)] in
    forall n, (30 <= n)%nat -> let '(l, o, _) := @drive PyEx FrontEx c n 0 0 (GQ q) (mkbst [] [] 0, family) in
      List.length l = 3%nat /\ o = Exhausted.
Proof.
  cbv zeta. split; [reflexivity|]. split; [cbn; tauto|]. split; [vm_compute; reflexivity|].
  do 3 eexists. split; [vm_compute; reflexivity|]. split; [vm_compute; reflexivity|]. split; [reflexivity|]. split; [reflexivity|].
  split; [apply family_proper|]. split.
  - split; [reflexivity|]. split; [reflexivity|]. intros g. induction (d_rules (db_of 0 family) g); constructor; auto.
  - intros n Hn. erewrite drive_more; [|exact Hn|]; [vm_compute; split; reflexivity|]. vm_compute. discriminate.
Qed.

(** Operators in annotations: p[1 + 2, 3] has two annotations, folded it has one;
    the query p[1 + 2, 3] then finds the belief p[3]. *)
Theorem C34_annotations_refuted : let t := ALit (s2p "p") [] [ABin (BNum NAdd) (num 1) (num 2); num 3] in
  exists t' x x' b1, @fold PyEx MTerm t p0 = (Ok t', p0) /\
    @build_term PyEx false t b0 = (Ok x, b1) /\ @build_term PyEx false t' b0 = (Ok x', b1) /\
    @unifies_annotated PyEx 9 x (TLit (s2p "p") [] [TNum (NInt 3)]) = Ok false /\
    @unifies_annotated PyEx 9 x' (TLit (s2p "p") [] [TNum (NInt 3)]) = Ok true.
Proof.
  cbv zeta. exists (ALit (s2p "p") [] [num 3; num 3]),
    (TLit (s2p "p") [] [TBin (BNum NAdd) (TNum (NInt 1)) (TNum (NInt 2)); TNum (NInt 3)]), (TLit (s2p "p") [] [TNum (NInt 3)]), b0.
  split; [vm_compute; reflexivity|]. split; [vm_compute; reflexivity|]. split; [vm_compute; reflexivity|].
  split; vm_compute; reflexivity.
Qed.
Print Assumptions C34_annotations_refuted.

(** Conditions: (true | true) has two solutions, folded it has one, so the body
    of a [for] runs once instead of twice. *)
Theorem C34_or_refuted : let t := ABin BOr (ABool true) (ABool true) in let c := [([], 0%N); ([], 0%N); ([], 0%N)] in
  exists t' q q' b1, @fold PyEx MLog t p0 = (Ok t', p0) /\
    @build_query PyEx (mkactions None [] []) t b0 = (Ok q, b1) /\ @build_query PyEx (mkactions None [] []) t' b0 = (Ok q', b1) /\
    fst (@drive PyEx FrontEx c 9 0 0 (GQ q) (mkbst [] [] 0, family)) = ([[]; []], Exhausted) /\
    fst (@drive PyEx FrontEx c 9 0 0 (GQ q') (mkbst [] [] 0, family)) = ([[]], Exhausted).
Proof.
  cbv zeta. exists (ABool true), (QOr QTrue QTrue), QTrue, b0.
  split; [vm_compute; reflexivity|]. split; [vm_compute; reflexivity|]. split; [vm_compute; reflexivity|].
  split; vm_compute; reflexivity.
Qed.
Print Assumptions C34_or_refuted.
