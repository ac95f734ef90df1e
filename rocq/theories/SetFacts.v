(** Facts about [dedup], [mk_set] and membership. *)
From Verif Require Import Base Num Term Unify TermSpec InstSpec PyEq.
From Coq Require Import Permutation.

Lemma FOP_perm {A} (R : A -> A -> Prop) : (forall x y, R x y -> R y x) ->
  forall l l', Permutation l l' -> ForallOrdPairs R l -> ForallOrdPairs R l'.
Proof.
  intros HR l l' HP. induction HP; intro H.
  - constructor.
  - inversion H; subst. constructor; [|auto]. eapply Permutation_Forall; eassumption.
  - inversion H as [|? ? Hy Hyl]; subst. inversion Hyl as [|? ? Hx Hl]; subst.
    inversion Hy; subst. constructor; [constructor; auto|]. constructor; assumption.
  - auto.
Qed.

Lemma FOP_filter {A} (R : A -> A -> Prop) p l : ForallOrdPairs R l -> ForallOrdPairs R (filter p l).
Proof.
  induction 1 as [|x l Hx Hl IH]; cbn; [constructor|]. destruct (p x); [|assumption].
  constructor; [|assumption]. rewrite Forall_forall in *. intros y Hy. apply filter_In in Hy. apply Hx, Hy.
Qed.

Lemma dedup_incl l : incl (dedup l) l.
Proof.
  induction l as [|x l IH]; cbn; [easy|]. intros y [->|Hy]; [now left|].
  apply filter_In in Hy as [Hy _]. right. auto.
Qed.

Lemma dedup_distinct l : ForallOrdPairs (fun x y => py_eqb x y = false) (dedup l).
Proof.
  induction l as [|x l IH]; cbn; constructor.
  - rewrite Forall_forall. intros y Hy. apply filter_In in Hy as [_ Hy]. now destruct (py_eqb x y).
  - now apply FOP_filter.
Qed.

Lemma dedup_covers l x : In x l -> exists y, In y (dedup l) /\ (y = x \/ py_eqb y x = true).
Proof.
  induction l as [|a l IH]; [easy|]. intros [->|Hx].
  - exists x. split; [now left|now left].
  - destruct (IH Hx) as (y & Hy & E). destruct (py_eqb a y) eqn:Ea.
    + exists a. split; [now left|]. right. destruct E as [->|E]; [assumption|eapply py_eqb_trans; eassumption].
    + exists y. split; [|assumption]. cbn. right. apply filter_In. split; [assumption|]. now rewrite Ea.
Qed.

Lemma dedup_set l : set_of l (dedup l).
Proof. split; [apply dedup_incl|split; [intros x; apply dedup_covers|apply dedup_distinct]]. Qed.

Lemma set_of_perm l l1 l2 : Permutation l1 l2 -> set_of l l1 -> set_of l l2.
Proof.
  intros HP (A & B & C). split; [|split].
  - intros x Hx. apply A. eapply Permutation_in; [apply Permutation_sym|]; eassumption.
  - intros x Hx. destruct (B x Hx) as (y & Hy & E). exists y. split; [|assumption]. eapply Permutation_in; eassumption.
  - eapply FOP_perm; [|eassumption|assumption]. intros x y. now rewrite py_eqb_sym.
Qed.

Lemma mk_set_of {PY : Py} l : PyLawful PY -> set_of l (mk_set l).
Proof. intro L. unfold mk_set. eapply set_of_perm; [apply Permutation_sym, L|apply dedup_set]. Qed.

Lemma mk_set_incl {PY : Py} l : PyLawful PY -> incl (mk_set l) l.
Proof. intro L. apply (mk_set_of l L). Qed.

Lemma mk_set_Forall {PY : Py} (P : term -> Prop) l : PyLawful PY -> Forall P l -> Forall P (mk_set l).
Proof. intros L H. rewrite Forall_forall in *. intros x Hx. apply H. now apply mk_set_incl. Qed.

Lemma py_in_true x l : py_in x l = true <-> exists y, In y l /\ py_eqb y x = true.
Proof. unfold py_in. apply existsb_exists. Qed.
