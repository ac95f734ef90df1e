(** Properties of the terms in a scope that unification preserves. *)
From Verif Require Import Base Num Term Unify TrailFacts FuelFacts ChainFacts TermSpec.

Section Pres.
Context {PY : Py}.
Variable P : term -> Prop.
Variable G : scope -> Prop.

Definition scopeP (s : scope) : Prop := forall v t, lookup s v = Some t -> P t.

Record hereditary : Prop := {
  h_args : forall f args annots, P (TLit f args annots) -> Forall P args;
  h_tup : forall ts, P (TTup ts) -> Forall P ts;
  h_tl : forall x xs, P (TTup (x :: xs)) -> P (TTup xs);
  h_ll : forall h t, P (TLL h t) -> P h /\ P t;
  h_eval : forall n s t v, G s -> scopeP s -> P t -> evaluate n t s = Ok v -> P v;
  h_pres : forall st st', vtrail st st' -> chain_ok (b_scope st') -> G (b_scope st) -> G (b_scope st')
}.
Hypothesis H : hereditary.

Definition inv (s : scope) : Prop := chain_ok s /\ G s /\ scopeP s.

Lemma deref_loop_P n : forall t s u, scopeP s -> P t -> deref_loop n t s = Ok u -> P u.
Proof.
  induction n as [|n IH]; intros t s u Hs Ht E; destruct t; cbn in E; try (inversion E; subst; assumption);
    destruct (lookup s v) eqn:El; try easy; try (inversion E; subst; assumption).
  eapply IH; [exact Hs| |exact E]. eapply Hs. exact El.
Qed.

Lemma deref_P t s u : scopeP s -> P t -> deref t s = Ok u -> P u.
Proof. apply deref_loop_P. Qed.

Definition presf (u : term -> term -> bst -> res bool * bst) : Prop :=
  forall l r st x st', u l r st = (x, st') -> P l -> P r -> inv (b_scope st) -> scopeP (b_scope st').

Lemma inv_step n l r st x st' : unify n l r st = (x, st') -> inv (b_scope st) -> scopeP (b_scope st') -> inv (b_scope st').
Proof.
  intros E (C & g & S) S'. assert (C' : chain_ok (b_scope st')) by exact (unify_chain n _ _ _ _ _ E C).
  split; [assumption|]. split; [|assumption]. eapply (h_pres H); [|exact C'|exact g].
  eapply unify_vtrail. exact E.
Qed.

Lemma all_unify_pres n : presf (unify n) -> forall ls rs st x st', all_unify (unify n) ls rs st = (x, st') ->
  Forall P ls -> Forall P rs -> inv (b_scope st) -> scopeP (b_scope st').
Proof.
  intros Hu ls. induction ls as [|l ls IH]; intros rs st x st' E Hl Hr Hi; cbn in E.
  - inversion E; subst. apply Hi.
  - destruct rs as [|r rs]; [inversion E; subst; apply Hi|]. inversion Hl; inversion Hr; subst.
    destruct (unify n l r st) as [y st1] eqn:E1. assert (S1 : scopeP (b_scope st1)) by (eapply Hu; eassumption).
    destruct y as [[]|]; try (inversion E; subst; assumption).
    eapply IH; try eassumption. eapply inv_step; eassumption.
Qed.

Lemma bind_pres v t st x st' : bind v t st = (x, st') -> P t -> scopeP (b_scope st) -> scopeP (b_scope st').
Proof.
  intros E Ht Hs. unfold bind in E.
  assert (HB : (if bound (b_scope st) v then (Err ERuntime, st)
         else (Ok tt, mkbst ((v, t) :: b_scope st) (EVar v :: b_stack st) (b_ncp st))) = (x, st') -> scopeP (b_scope st')).
  { intro E'. destruct (bound (b_scope st) v); inversion E'; subst; [assumption|].
    intros w u Hw. cbn in Hw. destruct (N.eqb w v); [inversion Hw; subst; assumption|]. eapply Hs; eassumption. }
  destruct t; try (apply HB; exact E). destruct (N.eqb v v0); [inversion E; subst; assumption|apply HB; exact E].
Qed.

Lemma unify_pres n : presf (unify n).
Proof.
  induction n as [|n IH]; intros l r st x st' E Hl Hr Hi; [inversion E; subst; apply Hi|].
  assert (Hid : forall y : res bool, (y, st) = (x, st') -> scopeP (b_scope st')) by (intros y Ey; inversion Ey; subst; apply Hi).
  rewrite unify_S in E.
  assert (Hpair : forall h t h' t', match unify n h h' st with (Ok true, st1) => unify n t t' st1 | y => y end = (x, st') ->
     P h -> P t -> P h' -> P t' -> scopeP (b_scope st')).
  { intros h t h' t' Ep P1 P2 P3 P4. destruct (unify n h h' st) as [y st1] eqn:E1.
    assert (S1 : scopeP (b_scope st1)) by (eapply IH; eassumption).
    destruct y as [[]|]; try (inversion Ep; subst; assumption).
    eapply IH; [exact Ep|assumption|assumption|]. eapply inv_step; eassumption. }
  assert (Hsc : (if has_unify r then unify n r l st
          else
            match l, r with
            | TBool b, TBool b' => (Ok (Bool.eqb b b'), st)
            | TBool _, _ | _, TBool _ => (Ok false, st)
            | TTup ls, TTup rs =>
                if Nat.eqb (List.length ls) (List.length rs)
                then all_unify (unify n) ls rs st
                else (Ok false, st)
            | _, _ => (Ok (py_eqb l r), st)
            end) = (x, st') -> scopeP (b_scope st')).
  { intro E'. destruct (has_unify r); [eapply IH; eassumption|].
    destruct l; try (destruct r; eapply Hid; exact E').
    destruct r; try (eapply Hid; exact E'). destruct (Nat.eqb _ _); [|eapply Hid; exact E'].
    eapply all_unify_pres; [exact IH|exact E'|now apply (h_tup H)|now apply (h_tup H)|assumption]. }
  destruct l.
  - apply Hsc. exact E.
  - apply Hsc. exact E.
  - apply Hsc. exact E.
  - destruct (bound (b_scope st) v) eqn:Eb.
    + destruct (deref (TVar v) (b_scope st)) as [l'|] eqn:Ed; [|eapply Hid; exact E].
      eapply IH; [exact E| |assumption|assumption]. eapply deref_P; [apply Hi|exact Hl|exact Ed].
    + assert (Hev : match evaluate n r (b_scope st) with
                | Err e => (Err e, st)
                | Ok r' =>
                    match bind v r' st with
                    | (Ok _, st') => (Ok true, st')
                    | (Err e, st') => (Err e, st')
                    end
                end = (x, st') -> scopeP (b_scope st')).
      { intro E'. destruct (evaluate n r (b_scope st)) as [r'|] eqn:Er; [|eapply Hid; exact E'].
        destruct (bind v r' st) as [y st1] eqn:Ebd.
        assert (st1 = st') by (destruct y; inversion E'; reflexivity). subst st1.
        eapply bind_pres; [exact Ebd| |apply Hi].
        eapply (h_eval H); [| |exact Hr|exact Er]; apply Hi. }
      destruct r; try (apply Hev; exact E). eapply Hid; exact E.
  - eapply Hid; exact E.
  - destruct (evaluate n (TUn op l) (b_scope st)) as [l'|] eqn:El; [|eapply Hid; exact E].
    eapply IH; [exact E| |assumption|assumption]. eapply (h_eval H); [| |exact Hl|exact El]; apply Hi.
  - destruct (evaluate n (TBin op l1 l2) (b_scope st)) as [l'|] eqn:El; [|eapply Hid; exact E].
    eapply IH; [exact E| |assumption|assumption]. eapply (h_eval H); [| |exact Hl|exact El]; apply Hi.
  - destruct (evaluate n r (b_scope st)) as [r'|] eqn:Er; [|eapply Hid; exact E].
    assert (Hr' : P r') by (eapply (h_eval H); [| |exact Hr|exact Er]; apply Hi).
    destruct r'; try (eapply Hid; exact E); try (eapply IH; [exact E|assumption|assumption|assumption]).
    destruct (_ && _); [|eapply Hid; exact E].
    eapply all_unify_pres; [exact IH|exact E|now apply (h_args H) in Hl|now apply (h_args H) in Hr'|assumption].
  - apply Hsc. exact E.
  - destruct (evaluate n r (b_scope st)) as [r'|] eqn:Er; [|eapply Hid; exact E].
    assert (Hr' : P r') by (eapply (h_eval H); [| |exact Hr|exact Er]; apply Hi).
    destruct (h_ll H _ _ Hl) as [P1 P2].
    destruct r'; try (eapply Hid; exact E); try (eapply IH; [exact E|assumption|assumption|assumption]).
    + destruct ts as [|y ys]; [eapply Hid; exact E|].
      eapply Hpair; [exact E|assumption|assumption| |].
      * apply (h_tup H) in Hr'. now inversion Hr'.
      * now apply (h_tl H) in Hr'.
    + destruct (h_ll H _ _ Hr'). eapply Hpair; [exact E| | | |]; assumption.
Qed.

Lemma unify_inv n l r st x st' : unify n l r st = (x, st') -> P l -> P r -> inv (b_scope st) -> inv (b_scope st').
Proof. intros E Hl Hr Hi. eapply inv_step; [exact E|exact Hi|]. eapply unify_pres; eassumption. Qed.

End Pres.
