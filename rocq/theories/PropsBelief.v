(** C14-C17: the belief base.  Specification: Reach.v (the states of a system
    that can be reached), BelSpec.v (matching a belief), QuerySpec.v ([beliefs]:
    what an agent believes). *)
From Verif Require Import Base Num Term Unify ChainFacts TermSpec WildSpec InstSpec AnnotSpec Str World Engine QuerySpec QueryCor Step Ast Names Build Reach BelFacts BelSpec BelAdd BelRem BelCor ExPy PyEq.
From Coq Require Import Permutation.

(** C14.  Whatever has happened: every belief of every agent is variable-free and
    stored under its functor and arity, and no two are equal; nor are two
    annotations of a belief. *)
Theorem C14_belief_base : forall (PY : Py) (FR : Front), PyLawful PY -> forall W a g, reach W ->
  Forall (fun b => fits g b /\ ground b /\ distinct (lit_annots b)) (beliefs a g W) /\ distinct (beliefs a g W).
Proof. exact @beliefs_wf. Qed.
Print Assumptions C14_belief_base.

(** C15.  Adding a belief stores its instance (unless an equal one is stored) and
    changes nothing else. *)
Theorem C15_addition : forall (PY : Py) (FR : Front), PyLawful PY -> forall n a t st W st' W',
  reach W -> (a < List.length (w_agents W))%nat -> add_belief n a t (st, W) = (Ok tt, (st', W')) ->
  st' = st /\ exists b, grounded n t (b_scope st) = Ok b /\ is_literal b = true /\
    (if py_in b (beliefs a (lit_group b) W) then beliefs a (lit_group b) W' = beliefs a (lit_group b) W
     else Permutation (beliefs a (lit_group b) W') (b :: beliefs a (lit_group b) W)) /\
    (forall a' g', g' <> lit_group b -> beliefs a' g' W' = beliefs a' g' W).
Proof. exact @addition_stores. Qed.
Print Assumptions C15_addition.

(** If Python's equality and matching agree on the beliefs at hand, the query
    succeeds after the addition, without binding anything. *)
Theorem C15_added_found : forall (PY : Py) (FR : Front), PyLawful PY -> forall n a t st W st' W' b i,
  reach W -> (a < List.length (w_agents W))%nat -> chain_ok (b_scope st) ->
  add_belief n a t (st, W) = (Ok tt, (st', W')) ->
  grounded n t (b_scope st) = Ok b -> plain_belief b ->
  (forall v, evals (b_scope st) t v -> List.length (lit_annots v) = List.length (lit_annots b)) ->
  (forall c, In c (beliefs a (lit_group b) W) -> plain_belief c /\ (py_eqb c b = true -> covers c b)) ->
  exists n0 g st2, (forall m, (n0 <= m)%nat -> resume m a i (GQ (QTerm t)) (st', W') = (Ok (Some g), (st2, W'))) /\
    b_scope st2 = b_scope st.
Proof. exact @added_found. Qed.
Print Assumptions C15_added_found.

(** In general it does not: with q(true) in the belief base, q(1) is not added
    (true equals 1 in Python) and not found. *)
Theorem C15_bool_refuted : exists W', @reach PyEx FrontEx W' /\
  (forall n, (20 <= n)%nat -> @outside_call PyEx FrontEx n 0 TrAdd GtBelief q1 false bel_world = (Ok true, W')) /\
  forall m, (20 <= m)%nat -> exists s', @resume PyEx FrontEx m 0 0 (GQ (QTerm q1)) (bst0, W') = (Ok None, s').
Proof. exact added_not_found. Qed.
Print Assumptions C15_bool_refuted.

(** Nor if two of the annotations have the same value. *)
Theorem C15_annotations_refuted : exists st' W',
  (forall n, (20 <= n)%nat -> @call PyEx FrontEx n 0 TrAdd GtBelief r7 0 false (same_xy, bel_world) = (Ok true, (st', W'))) /\
  b_scope st' = b_scope same_xy /\ beliefs 0 (s2p "r", 1%nat) W' = [TLit (s2p "r") [TNum (NInt 7)] [lit0 "a"]] /\
  forall m, (20 <= m)%nat -> exists s', @resume PyEx FrontEx m 0 0 (GQ (QTerm r7)) (st', W') = (Ok None, s').
Proof. exact collapsed_not_found. Qed.
Print Assumptions C15_annotations_refuted.

(** C16.  The result says whether a belief has been removed: the first one that
    matches, whose match gives the new bindings; or none matches and nothing
    changes. *)
Theorem C16_removal : forall (PY : Py) (FR : Front), PyLawful PY -> forall n a t st W r st' W',
  reach W -> (a < List.length (w_agents W))%nat -> remove_belief n a t (st, W) = (Ok r, (st', W')) ->
  exists f args annots, let v := TLit f args annots in let g := (f, List.length args) in
    evaluate n t (b_scope st) = Ok v /\
    (forall a' g', g' <> g -> beliefs a' g' W' = beliefs a' g' W) /\
    if r : bool then
      exists l1 b l2, beliefs a g W = l1 ++ b :: l2 /\ beliefs a g W' = l1 ++ l2 /\
        Forall (misses (b_scope st) v) l1 /\ finds (b_scope st) v b (b_scope st')
    else
      Forall (misses (b_scope st) v) (beliefs a g W) /\ (forall a', beliefs a' g W' = beliefs a' g W) /\
      b_scope st' = b_scope st /\ b_stack st' = b_stack st.
Proof. exact @remove_belief_spec. Qed.
Print Assumptions C16_removal.

(** What matching means for a literal without annotations ([ex]: the values of
    its expressions): the new scope stands for exactly those assignments under
    which literal and belief have the same value; or there is none. *)
Theorem C16_bindings : forall (PY : Py) ex s f args b s',
  wplain s ex (TLit f args []) -> closed b -> plain_scope s ex s -> chain_ok s -> is_literal b = true ->
  finds s (TLit f args []) b s' ->
  forall th, agrees ex th s' <-> agrees ex th s /\ vmatch ex th (TLit f args []) (flat_value b).
Proof. exact @finds_could. Qed.
Print Assumptions C16_bindings.

Theorem C16_no_match : forall (PY : Py) ex s f args b,
  wplain s ex (TLit f args []) -> closed b -> plain_scope s ex s -> chain_ok s -> is_literal b = true ->
  misses s (TLit f args []) b -> ~ could_match ex s (TLit f args []) b.
Proof. exact @misses_could. Qed.
Print Assumptions C16_no_match.

(** If no belief matches, the goal [-b] of a plan does nothing and succeeds. *)
Theorem C16_plan_continues : forall (PY : Py) (FR : Front), PyLawful PY -> forall a t st W v f args annots ci d,
  reach W -> (a < List.length (w_agents W))%nat ->
  v = TLit f args annots -> evals (b_scope st) t v -> Forall (misses (b_scope st) v) (beliefs a (lit_group v) W) ->
  exists n0, forall n, (n0 <= n)%nat -> exists st' W', call n a TrRem GtBelief t ci d (st, W) = (Ok true, (st', W')) /\
    b_scope st' = b_scope st /\ b_stack st' = b_stack st /\ forall a' g', beliefs a' g' W' = beliefs a' g' W.
Proof. exact @removal_none. Qed.
Print Assumptions C16_plan_continues.

(** The removal comes to an end without an exception. *)
Theorem C16_ends : forall (PY : Py) (FR : Front), PyLawful PY -> forall ex a t st W v f args annots,
  reach W -> (a < List.length (w_agents W))%nat ->
  v = TLit f args annots -> evals (b_scope st) t v -> dplain (b_scope st) ex v ->
  plain_scope (b_scope st) ex (b_scope st) -> chain_ok (b_scope st) ->
  (forall x u, lookup (b_scope st) x = Some u -> dplain (b_scope st) ex u) ->
  Forall nonan (beliefs a (lit_group v) W) ->
  exists n0, forall n, (n0 <= n)%nat -> exists r st' W', remove_belief n a t (st, W) = (Ok r, (st', W')).
Proof. exact @removal_ends. Qed.
Print Assumptions C16_ends.

(** C17.  .abolish(t): [p] is t with fresh variables.  Beliefs are kept in order or
    removed; nothing is bound.  As the code matches the belief with the
    pattern (and not the pattern with the belief), [finds [] b p] says that the
    pattern has all annotations of the belief.  Without annotations, all and
    only the beliefs matching the pattern are removed. *)
Theorem C17_abolish : forall (PY : Py) (FR : Front), PyLawful PY -> forall n a i f t st W r st' W',
  reach W -> (a < List.length (w_agents W))%nat ->
  resume n a i (GQ (QAct AAbolish (TLit f [t] []))) (st, W) = (Ok r, (st', W')) ->
  r = Some GStop /\ st' = st /\ exists n' p m k, freeze n' t (b_scope st) ([], w_nv W) = (Ok p, (m, k)) /\ is_literal p = true /\
    (forall a' g', g' <> lit_group p -> beliefs a' g' W' = beliefs a' g' W) /\
    (exists keep : term -> bool, beliefs a (lit_group p) W' = filter keep (beliefs a (lit_group p) W) /\ forall b, In b (beliefs a (lit_group p) W) ->
        (keep b = true -> misses [] b p) /\ (keep b = false -> exists s', finds [] b p s')) /\
    (wplain [] (fun t => t) p ->
     (forall b, In b (beliefs a (lit_group p) W) -> closed b /\ lit_annots b = []) ->
     forall b, In b (beliefs a (lit_group p) W') <-> In b (beliefs a (lit_group p) W) /\ ~ could_match (fun t => t) [] p b).
Proof. exact @abolish_all. Qed.
Print Assumptions C17_abolish.

(** .abolish(p(X)) keeps p(2)[src(a)]. *)
Theorem C17_annotated_kept_refuted : exists st' W',
  (forall n, (20 <= n)%nat -> @resume PyEx FrontEx n 0 0 (GQ (QAct AAbolish (TLit (s2p ".abolish") [pX] []))) (bst0, bel_world) = (Ok (Some GStop), (st', W'))) /\
  In (pz 2 [src_a]) (beliefs 0 (s2p "p", 1%nat) W') /\ ~ In (pz 1 []) (beliefs 0 (s2p "p", 1%nat) W') /\
  (exists s', @finds PyEx [] pX (pz 2 [src_a]) s') /\ could_match (fun t => t) [] pX (pz 2 [src_a]).
Proof. exact abolish_keeps_annotated. Qed.
Print Assumptions C17_annotated_kept_refuted.

(** .abolish(p(X)[src(a)]) removes p(1). *)
Theorem C17_bare_removed_refuted : exists st' W',
  (forall n, (20 <= n)%nat -> @resume PyEx FrontEx n 0 0 (GQ (QAct AAbolish (TLit (s2p ".abolish") [pXs] []))) (bst0, bel_world) = (Ok (Some GStop), (st', W'))) /\
  ~ In (pz 1 []) (beliefs 0 (s2p "p", 1%nat) W') /\ @misses PyEx [] pXs (pz 1 []).
Proof. exact abolish_removes_bare. Qed.
Print Assumptions C17_bare_removed_refuted.

(** ** Examples *)

(** [bel_world] is reachable; agent 0 believes p(1), p(2)[src(a)], q(true). *)
Example C14_world : @reach PyEx FrontEx bel_world /\
  beliefs 0 (s2p "p", 1%nat) bel_world = [pz 2 [src_a]; pz 1 []] /\
  beliefs 0 (s2p "q", 1%nat) bel_world = [TLit (s2p "q") [TBool true] []] /\ List.length (w_agents bel_world) = 1%nat.
Proof. exact (conj bel_world_reach bel_world_beliefs). Qed.

(** +p(X)[b] with X = 3 meets the hypotheses of C15_added_found. *)
Example C15_case : let t := TLit (s2p "p") [TVar 100] [lit0 "b"] in let st := mkbst [(100%N, TNum (NInt 3))] [] 0 in
  exists s' b, @add_belief PyEx 20 0 t (st, bel_world) = (Ok tt, s') /\ @grounded PyEx 20 t (b_scope st) = Ok b /\
   plain_belief b /\ lit_group b = (s2p "p", 1%nat) /\
   (forall v, @evals PyEx (b_scope st) t v -> List.length (lit_annots v) = List.length (lit_annots b)) /\
   forall c, In c [pz 2 [src_a]; pz 1 []] -> plain_belief c /\ (py_eqb c b = true -> covers c b).
Proof.
  cbv zeta. eexists. eexists. split; [vm_compute; reflexivity|]. split; [vm_compute; reflexivity|].
  split; [repeat constructor|]. split; [reflexivity|]. split.
  - intros v [[|n] E]; [discriminate E|]. cbn in E. inversion E. reflexivity.
  - intros c [<-|[<-|[]]]; (split; [repeat constructor|vm_compute; discriminate]).
Qed.

(** -p(X) removes p(2)[src(a)], the first in the iteration order, and binds X. *)
Example C16_case : exists st' W', @remove_belief PyEx 20 0 pX (bst0, bel_world) = (Ok true, (st', W')) /\
  b_scope st' = [(100%N, TNum (NInt 2))] /\ beliefs 0 (s2p "p", 1%nat) W' = [pz 1 []].
Proof. do 2 eexists. vm_compute. repeat split. Qed.

(** -p(7) finds nothing. *)
Example C16_none : Forall (@misses PyEx [] (pz 7 [])) (beliefs 0 (s2p "p", 1%nat) bel_world).
Proof.
  rewrite (proj1 bel_world_beliefs). repeat constructor; exists 10%nat; eexists; vm_compute; reflexivity.
Qed.
