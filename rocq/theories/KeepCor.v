(** Beliefs that no program changes stay. *)
From Verif Require Import Base Num Term Unify Str World Engine Step Ast Names Build QuerySpec Reach BelSpec PlanSpec KeepSpec KeepFacts KeepBuild.

Section WithPy.
Context {PY : Py} {FR : Front}.

Lemma beliefs_kept g W W' : history g true world0 W -> history g false W W' -> forall a, beliefs a g W' = beliefs a g W.
Proof. intros H0 H. exact (proj2 (kept_history g false W W' (history_inv g true W H0) H) eq_refl). Qed.
Lemma good_minds g W W' : good g W W' -> forall a, beliefs a g W' = beliefs a g W /\
  (forall h, plans_of a h W' = plans_of a h W) /\ (forall h, rules_of a h W' = rules_of a h W).
Proof. intros [_ [H1 H2 H3]] a. auto. Qed.
Lemma minds_kept g W W' : history g true world0 W -> ongoing g W W' -> forall a, beliefs a g W' = beliefs a g W /\
  (forall h, plans_of a h W' = plans_of a h W) /\ (forall h, rules_of a h W' = rules_of a h W).
Proof. intros H0 H. exact (good_minds g W W' (good_ongoing g W W' (history_inv g true W H0) H)). Qed.
Lemma run_kept g W W' k n : history g true world0 W ->
  (exists r, run k n W = (r, W')) \/ (exists a r, run_agent k n a W = (r, W')) \/ (exists a r, agent_run k n a W = (r, W')) ->
  forall a, beliefs a g W' = beliefs a g W /\ (forall h, plans_of a h W' = plans_of a h W) /\ (forall h, rules_of a h W' = rules_of a h W).
Proof.
  intros H0 H. apply history_inv in H0. apply good_minds. destruct H as [(r & E)|[(a & r & E)|(a & r & E)]].
  - exact (good_run g k n W r W' H0 E).
  - exact (good_run_agent g k n a W r W' H0 E).
  - exact (good_agent_run g k n a W r W' H0 E).
Qed.
End WithPy.
