(** Matching a pattern against variable-free terms only binds variables to
    variable-free terms. *)
From Verif Require Import Base Num Term Unify TrailFacts FuelFacts ChainFacts TermSpec WildSpec UnifyWild PatMatch.

Section WithPy.
Context {PY : Py}.

Definition cscope (s : scope) : Prop := forall v t, lookup s v = Some t -> closed t.

Definition cpres (u : term -> term -> bst -> res bool * bst) : Prop := forall p c st x st',
  closed c -> cscope (b_scope st) -> u p c st = (x, st') \/ u c p st = (x, st') -> cscope (b_scope st').

Lemma cscope_bind v c st x st' : bind v c st = (x, st') -> closed c -> cscope (b_scope st) -> cscope (b_scope st').
Proof.
  unfold bind. intros H Hc Hs. assert (HH : cscope ((v, c) :: b_scope st)).
  { intros w t. cbn. destruct (N.eqb w v); [intro E; inversion E; now subst|apply Hs]. }
  destruct c as [| | |w| | | | | |]; try (inversion Hc; fail); destruct (bound (b_scope st) v); inversion H; subst; assumption.
Qed.

Lemma all_unify_cpres u : cpres u -> forall ps cs st x st', Forall closed cs -> cscope (b_scope st) ->
  all_unify u ps cs st = (x, st') \/ all_unify u cs ps st = (x, st') -> cscope (b_scope st').
Proof.
  intros Hu ps. induction ps as [|p ps IH]; intros [|c cs] st x st' Hc Hs H; cbn in H.
  1,2,3: destruct H as [H|H]; inversion H; now subst.
  inversion Hc; subst. destruct H as [H|H].
  - destruct (u p c st) as [y st1] eqn:E. assert (cscope (b_scope st1)) by (eapply Hu; [|exact Hs|left; exact E]; assumption).
    destruct y as [[]|]; [eapply IH; [|eassumption|left; exact H]; assumption| |]; inversion H; now subst.
  - destruct (u c p st) as [y st1] eqn:E. assert (cscope (b_scope st1)) by (eapply Hu; [|exact Hs|right; exact E]; assumption).
    destruct y as [[]|]; [eapply IH; [|eassumption|right; exact H]; assumption| |]; inversion H; now subst.
Qed.

Lemma pair_cpres u : cpres u -> forall h t h' t' st x st', closed h' -> closed t' -> cscope (b_scope st) ->
  (match u h h' st with (Ok true, st1) => u t t' st1 | y => y end = (x, st') \/
   match u h' h st with (Ok true, st1) => u t' t st1 | y => y end = (x, st')) -> cscope (b_scope st').
Proof.
  intros Hu h t h' t' st x st' C1 C2 Hs [H|H].
  - destruct (u h h' st) as [y st1] eqn:E. assert (cscope (b_scope st1)) by (eapply Hu; [|exact Hs|left; exact E]; assumption).
    destruct y as [[]|]; [eapply Hu; [|eassumption|left; exact H]; assumption| |]; inversion H; now subst.
  - destruct (u h' h st) as [y st1] eqn:E. assert (cscope (b_scope st1)) by (eapply Hu; [|exact Hs|right; exact E]; assumption).
    destruct y as [[]|]; [eapply Hu; [|eassumption|right; exact H]; assumption| |]; inversion H; now subst.
Qed.

Ltac done H := inversion H; subst; assumption.

Theorem unify_cpres n : cpres (unify n).
Proof.
  induction n as [|n IH]; intros p c st x st' Hc Hs H; [destruct H as [H|H]; done H|].
  assert (Hev : forall r', evaluate n c (b_scope st) = Ok r' -> r' = c).
  { intros r' E. destruct n; [easy|]. rewrite closed_evaluate in E by assumption. congruence. }
  assert (IHl : forall q, unify n q c st = (x, st') -> cscope (b_scope st')) by (intros q E; eapply IH; [exact Hc|exact Hs|left; exact E]).
  assert (IHr : forall q, unify n c q st = (x, st') -> cscope (b_scope st')) by (intros q E; eapply IH; [exact Hc|exact Hs|right; exact E]).
  destruct H as [H|H]; rewrite unify_S in H.
  - destruct p as [bl|xl|sl|v|wl|opl al|opl al bl|f args annots|ls|h t].
    4:{ destruct (bound (b_scope st) v).
      - destruct (deref (TVar v) (b_scope st)); [eauto|done H].
      - assert (HH : match evaluate n c (b_scope st) with
                | Err e => (Err e, st)
                | Ok r' => match bind v r' st with (Ok _, st') => (Ok true, st') | (Err e, st') => (Err e, st') end
                end = (x, st')) by (destruct c; try exact H; inversion Hc).
        destruct (evaluate n c (b_scope st)) as [r'|]; [|done HH]. rewrite (Hev r' eq_refl) in HH.
        destruct (bind v c st) as [y st1] eqn:E. pose proof (cscope_bind _ _ _ _ _ E Hc Hs). destruct y; done HH. }
    4: done H.
    4,5: clear Hev; match goal with HH : context [evaluate ?m ?t ?s] |- _ => destruct (evaluate m t s) end; [eauto|done H].
    4:{ destruct (evaluate n c (b_scope st)) as [r'|]; [|done H]. rewrite (Hev r' eq_refl) in H. clear Hev.
      destruct c; try (inversion Hc; fail); try done H. destruct (_ && _); [|done H].
      inversion Hc; subst. eapply all_unify_cpres; [exact IH| |exact Hs|left; exact H]; assumption. }
    5:{ destruct (evaluate n c (b_scope st)) as [r'|]; [|done H]. rewrite (Hev r' eq_refl) in H. clear Hev.
      destruct c as [| | | | | | | |ts|]; try (inversion Hc; fail); try done H.
      - destruct ts as [|y ys]; [done H|]. inversion Hc as [| | | |? HF|]; subst. inversion HF; subst.
        eapply pair_cpres; [exact IH| | |exact Hs|left; exact H]; [assumption|now constructor].
      - inversion Hc; subst. eapply pair_cpres; [exact IH| | |exact Hs|left; exact H]; assumption. }
    all: destruct (has_unify c); [eauto|]; destruct c; try (inversion Hc; fail); try done H.
    destruct (Nat.eqb _ _); [|done H]. inversion Hc; subst. eapply all_unify_cpres; [exact IH| |exact Hs|left; exact H]; assumption.
  - destruct c as [bl|xl|sl|v|wl|opl al|opl al bl|f args annots|ls|h t]; try (inversion Hc; fail).
    4:{ destruct (evaluate n p (b_scope st)) as [r'|]; [|done H].
      destruct r'; try done H; eauto. destruct (_ && _); [|done H].
      inversion Hc; subst. eapply all_unify_cpres; [exact IH| |exact Hs|right; exact H]; assumption. }
    5:{ destruct (evaluate n p (b_scope st)) as [r'|]; [|done H]. inversion Hc; subst.
      destruct r' as [| | | | | | | |ts|]; try done H; eauto.
      - destruct ts as [|y ys]; [done H|]. eapply pair_cpres; [exact IH| | |exact Hs|right; exact H]; assumption.
      - eapply pair_cpres; [exact IH| | |exact Hs|right; exact H]; assumption. }
    all: destruct (has_unify p); [eauto|]; destruct p; try done H.
    destruct (Nat.eqb _ _); [|done H]. inversion Hc; subst. eapply all_unify_cpres; [exact IH| |exact Hs|right; exact H]; assumption.
Qed.

End WithPy.
