(** Resuming [literal = Variable]: the choicepoint was never pushed, so the whole
    stack is unwound. *)
From Verif Require Import Base Num Term Unify TrailFacts FuelFacts.

Lemma lookup_remove s v w : lookup (remove_key s v) w = if N.eqb w v then None else lookup s w.
Proof.
  induction s as [|[x t] s IH]; cbn; [now destruct (N.eqb w v)|].
  destruct (N.eqb_spec v x); cbn.
  - rewrite IH. subst x. destruct (N.eqb_spec w v); reflexivity.
  - rewrite IH. destruct (N.eqb_spec w x); [|reflexivity]. subst x. destruct (N.eqb_spec w v); [congruence|reflexivity].
Qed.

Lemma sentry_dec (a b : sentry) : {a = b} + {a <> b}.
Proof. decide equality; apply N.eq_dec. Qed.

Lemma unwind sk : forall sc cp, ~ In (ECP cp) sk ->
  snd (reroll_loop sc sk cp) = [] /\
  (forall v, In (EVar v) sk -> lookup (fst (reroll_loop sc sk cp)) v = None) /\
  (forall v, ~ In (EVar v) sk -> lookup (fst (reroll_loop sc sk cp)) v = lookup sc v).
Proof.
  induction sk as [|[x|c] sk IH]; intros sc cp Hn; cbn [reroll_loop].
  - repeat split; auto. intros ? [].
  - destruct (IH (remove_key sc x) cp) as (A & B & C); [intro H; apply Hn; now right|]. split; [exact A|]. split.
    + intros v [E|Hv]; [|now apply B]. inversion E; subst v.
      destruct (in_dec sentry_dec (EVar x) sk) as [H|H]; [now apply B|].
      rewrite C by exact H. rewrite lookup_remove. now rewrite N.eqb_refl.
    + intros v Hv. rewrite C by (intro H; apply Hv; now right). rewrite lookup_remove.
      destruct (N.eqb_spec v x); [|reflexivity]. subst. destruct Hv. now left.
  - destruct (N.eqb_spec c cp); [subst; destruct Hn; now left|].
    destruct (IH sc cp) as (A & B & C); [intro H; apply Hn; now right|]. split; [exact A|]. split.
    + intros v [E|Hv]; [discriminate E|now apply B].
    + intros v Hv. apply C. intro H. apply Hv. now right.
Qed.

Section WithPy.
Context {PY : Py}.

Theorem variable_unwinds n f args an v st cp st1 :
  uann n (TLit f args an) (TVar v) st = (Ok (Some cp), st1) -> lookup (b_scope st) v = None ->
  (forall c, In (ECP c) (b_stack st) -> (c < b_ncp st)%N) ->
  lookup (b_scope st1) v = Some (TLit f args an) /\
  b_stack (uann_resume cp st1) = [] /\ lookup (b_scope (uann_resume cp st1)) v = None /\
  (forall w, In (EVar w) (b_stack st) -> lookup (b_scope (uann_resume cp st1)) w = None) /\
  (forall w, w <> v -> ~ In (EVar w) (b_stack st) -> lookup (b_scope (uann_resume cp st1)) w = lookup (b_scope st) w).
Proof.
  intros E Hv Hc. destruct n as [|n]; [discriminate E|]. rewrite uann_S in E.
  destruct n as [|n]; [discriminate E|]. rewrite evaluate_S in E. unfold bound at 1 in E. rewrite Hv in E. cbn [new_cp] in E.
  rewrite unify_S in E. cbn [b_scope] in E. unfold bound at 1 in E. rewrite Hv in E.
  destruct n as [|n]; [discriminate E|]. rewrite evaluate_S in E.
  unfold bind, bound in E. cbn [b_scope b_stack b_ncp] in E. rewrite Hv in E. inversion E; subst. clear E.
  unfold uann_resume, reroll. cbn [b_scope b_stack b_ncp].
  destruct (unwind (EVar v :: b_stack st) ((v, TLit f args an) :: b_scope st) (b_ncp st)) as (A & B & C).
  { intros [H|H]; [discriminate H|]. apply Hc in H. lia. }
  destruct (reroll_loop _ _ _) as [sc sk]. cbn [fst snd b_scope b_stack] in *.
  split; [cbn; now rewrite N.eqb_refl|]. split; [exact A|]. split; [apply B; now left|]. split.
  - intros w Hw. apply B. now right.
  - intros w Hw Hn. rewrite C by (intros [H|H]; [inversion H; congruence|contradiction]).
    cbn. destruct (N.eqb_spec w v); [contradiction|reflexivity].
Qed.
End WithPy.
