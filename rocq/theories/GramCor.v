(** The statements about the parser and the grammar. *)
From Verif Require Import Base Num Term Str World Ast Names Quote Lex LexSpec LexFacts Parse RoundSpec GramSpec GramTok GramSound GramComp.

Lemma sound_only {A} (p : nat -> tok -> P (tok * A)) (Q : list tok -> A -> Prop) :
  (forall n, sound (p n) (fun l x _ => Q l x)) -> reads_only p Q.
Proof.
  intros H n first s f x s' F E. apply (H n) in E; [exact E|]. eapply Forall_impl; [|exact F]. apply lexed_fit.
Qed.

Lemma fits (l : list tok) : Forall lexed l -> Forall fit l.
Proof. apply Forall_impl, lexed_fit. Qed.

Lemma reads_accepts {A} (p : nat -> tok -> P (tok * A)) a x f : (exists t r, a = t :: r) ->
  (exists N, forall n, (N <= n)%nat -> reads (p n) a x f) -> accepts p a x f.
Proof.
  intros (t & r & ->) (N & H). exists t, r, N. split; [reflexivity|]. intros n rest lg own Hn. exists lg. split; [|reflexivity].
  exact (H n Hn rest lg own).
Qed.

Theorem term_accepts a x f : expr LOr a x -> Forall lexed a -> lexed f -> stops LOr f -> accepts parse_term a x f.
Proof.
  intros H F Ff Hf. apply reads_accepts; [apply expr_starts in H as (t & r & -> & _); eauto|].
  destruct (expr_read a x H (fits _ F)) as (N & X). exists N. intros n Hn. apply X; auto. now apply lexed_fit.
Qed.
Theorem literal_accepts a x f : literal a x -> Forall lexed a -> lexed f -> stops LAtom f -> accepts parse_literal a x f.
Proof.
  intros H F Ff Hf. apply reads_accepts; [apply literal_head in H as (t & r & -> & _); eauto|].
  destruct (literal_read a x H (fits _ F)) as (N & X). exists N. intros n Hn. apply X; auto. now apply lexed_fit.
Qed.
Theorem formula_accepts a x f : formula a x -> Forall lexed a -> lexed f -> stops LOr f -> ~ the "else" f ->
  accepts parse_formula a x f.
Proof.
  intros H F Ff Hf He. apply reads_accepts; [apply formula_starts in H as (t & r & -> & _); eauto|].
  destruct (formula_read a x H (fits _ F)) as (N & X). exists N. intros n Hn. apply X; auto. now apply lexed_fit.
Qed.
Theorem plan_accepts a x f : plan_of a x -> Forall lexed a -> lexed f -> the "." f -> accepts parse_plan a x f.
Proof.
  intros H F Ff Hf. apply reads_accepts.
  - destruct H as [a an b e c ctx d bd Ha Hb Hc Hd]. apply event_head in Hb as (t & r & -> & _). destruct a; cbn [app]; eauto.
  - destruct (plan_read a x H (fits _ F)) as (N & X). exists N. intros n Hn. apply X; auto. now apply lexed_fit.
Qed.
Theorem goal_accepts a x f : goal_of a x -> Forall lexed a -> lexed f -> the "." f -> accepts parse_initial_goal a x f.
Proof.
  intros H F Ff Hf. apply reads_accepts; [destruct H; eauto|].
  destruct (goal_read a x H (fits _ F)) as (N & X). exists N. intros n Hn. apply X; auto; [now apply lexed_fit|now apply (the_stops ".")].
Qed.
Lemma clause_head a x : clause_of a x -> exists t r, a = t :: r /\ t_kind t = KFunctor.
Proof.
  intros [b l H|b l o d c H _ _]; apply literal_head in H as (t & r & -> & Ht); [now exists t, r|now exists t, (r ++ o :: d)].
Qed.
Theorem clause_accepts a x f : clause_of a x -> Forall lexed a -> lexed f -> the "." f -> accepts parse_rule_or_belief a x f.
Proof.
  intros H F Ff Hf. destruct (clause_head a x H) as (t & r & -> & _).
  destruct (clause_read _ x H (fits _ F)) as (N & X). exists t, r, N. split; [reflexivity|]. intros n rest lg own Hn.
  exact (X n f rest lg own Hn Hf (lexed_fit _ Ff)).
Qed.

(** ** Only one tree *)

Definition dot : tok := mktok KFullstop (s2p ".") 1 0 1.
Lemma dot_fit : fit dot.
Proof. vm_compute. reflexivity. Qed.
Lemma reads_same {A} (p : tok -> P (tok * A)) l x y f : reads p l x f -> reads p l y f -> x = y.
Proof. intros H1 H2. specialize (H1 [] (log_new None) true). specialize (H2 [] (log_new None) true). rewrite H1 in H2. congruence. Qed.

Theorem term_unique a x y : expr LOr a x -> expr LOr a y -> Forall lexed a -> x = y.
Proof.
  intros H1 H2 F. apply fits in F. destruct (expr_read _ _ H1 F) as (N1 & X1). destruct (expr_read _ _ H2 F) as (N2 & X2).
  eapply (reads_same (parse_term (N1 + N2)) a x y dot); [apply X1|apply X2]; try lia; try exact dot_fit; now apply (the_stops ".").
Qed.
Theorem plan_unique a x y : plan_of a x -> plan_of a y -> Forall lexed a -> x = y.
Proof.
  intros H1 H2 F. apply fits in F. destruct (plan_read _ _ H1 F) as (N1 & X1). destruct (plan_read _ _ H2 F) as (N2 & X2).
  eapply (reads_same (parse_plan (N1 + N2)) a x y dot); [apply X1|apply X2]; try lia; try exact dot_fit; reflexivity.
Qed.
Theorem clause_unique a x y : clause_of a x -> clause_of a y -> Forall lexed a -> x = y.
Proof.
  intros H1 H2 F. apply fits in F. destruct (clause_read _ _ H1 F) as (N1 & X1). destruct (clause_read _ _ H2 F) as (N2 & X2).
  destruct (X1 (N1 + N2)%nat dot [] (log_new None) true ltac:(lia) eq_refl dot_fit) as (l1 & E1 & _).
  destruct (X2 (N1 + N2)%nat dot [] (log_new None) true ltac:(lia) eq_refl dot_fit) as (l2 & E2 & _). congruence.
Qed.

Theorem reads_all :
  reads_only parse_term (expr LOr) /\ reads_only parse_literal literal /\ reads_only parse_formula formula /\
  reads_only parse_plan plan_of /\ reads_only parse_rule_or_belief clause_of /\ reads_only parse_initial_goal goal_of.
Proof.
  split; [|split; [|split; [|split; [|split]]]]; apply sound_only; intros n.
  - apply parse_term_sound.
  - apply parse_literal_sound.
  - apply formula_sound.
  - apply plan_sound.
  - apply clause_sound.
  - apply goal_sound.
Qed.
