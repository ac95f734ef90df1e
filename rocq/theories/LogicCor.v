(** Logical soundness and completeness of running a query. *)
From Verif Require Import Base Num Term Unify TrailSpec FuelFacts ChainFacts TermSpec UnifySem UnifyTerm Str World Engine QuerySpec
  QueryCor LogicSpec LogicFacts ExPy.
From Coq Require Import RelationClasses.

Section WithPy.
Context {PY : Py} {FR : Front}.
Hypothesis LAW : PyLawful PY.

Section Run.
Variables (b : bool) (a i : nat) (q : query) (c : list pause) (n : nat) (st : bst) (W : world).
Variables (l : list scope) (o : status) (s2 : ST).
Hypothesis Hp : proper b q = true.
Hypothesis HD : proper_db b (db_of a W).
Hypothesis Hc : b = true -> Forall (fun p => fst p = []) c.
Hypothesis Hq : horn q.
Hypothesis HDB : horn_db (db_of a W).
Hypothesis Hs : pure_scope (b_scope st).
Hypothesis Hrun : drive c n a i (GQ q) (st, W) = (l, o, s2).

Lemma run_take : o <> Raised ERecursion -> exists d, take c (sols d (db_of a W) q (b_scope st) (w_nv W)) = (l, o).
Proof.
  intro Ho. destruct (proj1 (query_iff b a i q c st W l o Hp HD Hc Ho)) as [d0 H].
  - exists n. intros m Hm. rewrite (drive_more a i c n m); [now rewrite Hrun|assumption|]. rewrite Hrun. exact Ho.
  - exists d0. now apply H.
Qed.

Lemma answers_sound s' : o <> Raised ERecursion -> In s' l ->
  (exists th, iagrees noex th s') /\
  (forall th, iagrees noex th s' -> iagrees noex th (b_scope st) /\ iconsequence (db_of a W) q th) /\
  (forall th, agrees noex th s' -> agrees noex th (b_scope st) /\ consequence (db_of a W) q th).
Proof.
  intros Ho Hin. destruct (run_take Ho) as [d Ht]. pose proof (take_yields _ _ _ _ _ Ht Hin) as Hy.
  destruct (sols_sound LAW itree ieq ieq_equiv iconst ilit icons itree_free _ HDB d _ _ _ _ Hq Hs Hy) as [A B].
  destruct (sols_sound LAW val eq eq_equivalence VConst VLit VCons val_free _ HDB d _ _ _ _ Hq Hs Hy) as [_ F].
  split; [|split; assumption]. exists (solution noex s'). apply solution_agrees, A.
Qed.

Hypothesis HG : ground_db (db_of a W).
Hypothesis Hv : created (w_nv W) (b_scope st) q.
Hypothesis Hfin : o = Exhausted.

Lemma created_sb : sb (w_nv W) (b_scope st).
Proof. destruct Hv as [H _]. intros v t E. destruct (H _ _ E). split; [assumption|]. split; [eapply Hs; eassumption|assumption]. Qed.

Lemma answers_complete th : agrees noex th (b_scope st) -> consequence (db_of a W) q th ->
  exists s' th', In s' l /\ agrees noex th' s' /\ forall v, (v < w_nv W)%N -> th' v = th v.
Proof.
  intros Hth Hd. destruct run_take as [d Ht]; [congruence|]. rewrite Hfin in Ht.
  destruct (take_runs _ _ _ Ht) as (L & nv & R & ->).
  destruct (sols_complete LAW val eq eq_equivalence VConst VLit VCons val_free _ HDB HG d _ _ _ _ _ Hq Hs created_sb (proj2 Hv) R) as [_ A].
  destruct (A _ Hth Hd) as (s' & k & th' & B1 & B2 & B3). exists s', th'. split; [|auto].
  apply in_map_iff. exists (s', k). auto.
Qed.

Lemma answers_complete_inf th : iagrees noex th (b_scope st) -> iconsequence (db_of a W) q th ->
  exists s' th', In s' l /\ iagrees noex th' s' /\ forall v, (v < w_nv W)%N -> th' v = th v.
Proof.
  intros Hth Hd. destruct run_take as [d Ht]; [congruence|]. rewrite Hfin in Ht.
  destruct (take_runs _ _ _ Ht) as (L & nv & R & ->).
  destruct (sols_complete LAW itree ieq ieq_equiv iconst ilit icons itree_free _ HDB HG d _ _ _ _ _ Hq Hs created_sb (proj2 Hv) R) as [_ A].
  destruct (A _ Hth Hd) as (s' & k & th' & B1 & B2 & B3). exists s', th'. split; [|auto].
  apply in_map_iff. exists (s', k). auto.
Qed.
End Run.
End WithPy.

(** ** Examples *)
Lemma family_horn : horn_db (db_of 0 family).
Proof.
  intro g. split; cbn [db_of d_bel d_rules].
  - unfold beliefs. cbn. match goal with |- context[group_eqb ?x ?y] => destruct (group_eqb x y) end; repeat constructor.
  - unfold rules_of. cbn. match goal with |- context[group_eqb ?x ?y] => destruct (group_eqb x y) end; repeat constructor.
Qed.
Lemma family_ground : ground_db (db_of 0 family).
Proof.
  intros g b. cbn [db_of d_bel]. unfold beliefs. cbn.
  match goal with |- context[group_eqb ?x ?y] => destruct (group_eqb x y) end; cbn; intros H;
    repeat destruct H as [<-|H]; try reflexivity; contradiction.
Qed.

Definition tree0 (f : string) : val := VLit (s2p f) [].
(** anc(ann, cyd) follows from the beliefs and the rules. *)
Lemma family_consequence th : th 9%N = tree0 "cyd" ->
  consequence (db_of 0 family) (QTerm (pred2 "anc" (lit0 "ann") (TVar 9))) th.
Proof.
  intro H.
  eapply dv_rule with (th' := fun v => match v with 2 => tree0 "ann" | 3 => tree0 "cyd" | _ => tree0 "bob" end%N).
  - right. left. reflexivity.
  - cbn. now rewrite H.
  - apply dv_and.
    + eapply dv_fact with (th' := th); [left; reflexivity|reflexivity].
    + eapply dv_rule with (th' := fun v => match v with 0 => tree0 "bob" | _ => tree0 "cyd" end%N); [left; reflexivity|reflexivity|].
      eapply dv_fact with (th' := th); [right; left; reflexivity|reflexivity].
Qed.
