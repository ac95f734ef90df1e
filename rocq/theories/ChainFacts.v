(** Variable chains, and stability of evaluation when the scope grows. *)
From Verif Require Import Base Num Term Unify TrailFacts FuelFacts.

Lemma bound_false s v : bound s v = false -> lookup s v = None.
Proof. unfold bound. now destruct (lookup s v). Qed.

(** Result of evaluating or dereferencing a term: never a bound variable. *)
Definition resolved (s : scope) (t : term) : Prop :=
  match t with TVar v => bound s v = false | _ => True end.

(** * Cyclic variable chains *)

(** [deref] terminates on every variable. *)
Definition chain_ok (s : scope) : Prop := forall v, deref (TVar v) s <> Err EDiverge.

Lemma deref_loop_err n t s e : deref_loop n t s = Err e -> e = EDiverge.
Proof.
  revert t; induction n as [|n IH]; intros t H; destruct t; cbn in H; try easy;
    destruct (lookup s v); try easy; [congruence|eauto].
Qed.

Lemma deref_ok s t : chain_ok s -> exists t', deref t s = Ok t'.
Proof.
  intro H. destruct t; try (eexists; unfold deref; destruct (List.length s); reflexivity).
  specialize (H v). destruct (deref (TVar v) s) eqn:E; [eauto|].
  apply deref_loop_err in E. congruence.
Qed.

Definition is_var (t : term) (v : N) : bool := match t with TVar w => N.eqb w v | _ => false end.

Lemma deref_loop_bind s v t0 : lookup s v = None -> is_var t0 v = false -> resolved s t0 ->
  forall n t t1, deref_loop n t s = Ok t1 ->
  deref_loop (S n) t ((v, t0) :: s) = Ok (if is_var t1 v then t0 else t1).
Proof.
  intros Hv Hn Hr n. 
  assert (H0 : forall m, deref_loop m t0 ((v, t0) :: s) = Ok t0).
  { intro m. destruct m, t0; cbn [deref_loop]; try reflexivity;
      cbn [lookup]; cbn in Hn, Hr; rewrite Hn; unfold bound in Hr; destruct (lookup s v0); easy. }
  induction n as [|n IH]; intros t t1 H.
  - destruct t; cbn in H; try (inversion H; subst; reflexivity).
    destruct (lookup s v0) eqn:E; [easy|]. inversion H; subst. cbn [deref_loop lookup is_var].
    destruct (N.eqb v0 v); [exact (H0 0%nat)|now rewrite E].
  - destruct t; cbn in H; try (inversion H; subst; reflexivity).
    destruct (lookup s v0) eqn:E.
    + apply IH in H. 
      change (match lookup ((v, t0) :: s) v0 with
              | None => Ok (TVar v0)
              | Some t' => deref_loop (S n) t' ((v, t0) :: s) end = Ok (if is_var t1 v then t0 else t1)).
      cbn [lookup]. destruct (N.eqb_spec v0 v); [congruence|]. rewrite E. exact H.
    + inversion H; subst. 
      change (match lookup ((v, t0) :: s) v0 with
              | None => Ok (TVar v0)
              | Some t' => deref_loop (S n) t' ((v, t0) :: s) end = Ok (if is_var (TVar v0) v then t0 else (TVar v0))).
      cbn [lookup is_var]. destruct (N.eqb v0 v); [apply H0|now rewrite E].
Qed.

Lemma chain_ok_bind s v t0 : lookup s v = None -> is_var t0 v = false -> resolved s t0 ->
  chain_ok s -> chain_ok ((v, t0) :: s).
Proof.
  intros Hv Hn Hr H w. destruct (deref_ok s (TVar w) H) as [t' Ht'].
  unfold deref in *. cbn [List.length]. 
  rewrite (deref_loop_bind s v t0 Hv Hn Hr _ _ _ Ht'). easy.
Qed.

Lemma chain_ok_nil : chain_ok [].
Proof. intros v. cbn. easy. Qed.

Section WithPy.
Context {PY : Py}.

Lemma evaluate_resolved n t s t' : evaluate n t s = Ok t' -> resolved s t'.
Proof.
  intro H. destruct t'; cbn; auto. eapply evaluate_var_unbound; eassumption.
Qed.

Lemma bind_chain v t st x st' : bound (b_scope st) v = false -> resolved (b_scope st) t ->
  chain_ok (b_scope st) -> bind v t st = (x, st') -> chain_ok (b_scope st').
Proof.
  intros Hv Hr Hc H. unfold bind in H. rewrite Hv in H.
  assert (HB : is_var t v = false -> chain_ok ((v, t) :: b_scope st)).
  { intro. apply chain_ok_bind; auto. now apply bound_false. }
  destruct t; try (inversion H; subst; apply HB; reflexivity).
  destruct (N.eqb_spec v v0); inversion H; subst; [assumption|].
  apply HB. cbn. apply N.eqb_neq. congruence.
Qed.

Definition keeps_chain (u : term -> term -> bst -> res bool * bst) : Prop :=
  forall l r st x st', u l r st = (x, st') -> chain_ok (b_scope st) -> chain_ok (b_scope st').

Lemma all_unify_chain u : keeps_chain u ->
  forall ls rs st x st', all_unify u ls rs st = (x, st') -> chain_ok (b_scope st) -> chain_ok (b_scope st').
Proof.
  intros Hu ls; induction ls as [|l ls IH]; intros rs st x st' H Hc; cbn in H.
  - inversion H; subst; assumption.
  - destruct rs; [inversion H; subst; assumption|].
    destruct (u l t st) as [y st1] eqn:E. pose proof (Hu _ _ _ _ _ E Hc).
    destruct y as [[]|]; try (inversion H; subst; assumption). eauto.
Qed.

Lemma pair_chain u h x t y st z st' : keeps_chain u ->
  match u h x st with (Ok true, st1) => u t y st1 | w => w end = (z, st') ->
  chain_ok (b_scope st) -> chain_ok (b_scope st').
Proof.
  intros Hu H Hc. destruct (u h x st) as [w st1] eqn:E. pose proof (Hu _ _ _ _ _ E Hc).
  destruct w as [[]|]; try (inversion H; subst; assumption). eapply Hu; eassumption.
Qed.

(** Unification never creates a cyclic variable chain. *)
Lemma unify_chain n : keeps_chain (unify n).
Proof.
  induction n as [|n IH]; intros l r st x st' H Hc.
  { inversion H; subst; assumption. }
  rewrite unify_S in H.
  assert (Hid : forall y : res bool, (y, st) = (x, st') -> chain_ok (b_scope st'))
    by (intros y HH; inversion HH; subst; assumption).
  destruct l.
  all: try (destruct (has_unify r); [eapply IH; eassumption|]; destruct r; try (eapply Hid; eassumption);
            (destruct (Nat.eqb _ _); [eapply all_unify_chain; eassumption|eapply Hid; eassumption])).
  - destruct (bound _ _) eqn:Ev.
    + destruct (deref _ _); [eapply IH; eassumption|eapply Hid; eassumption].
    + destruct r; try (eapply Hid; eassumption);
      match type of H with context[evaluate n ?t ?s] => destruct (evaluate n t s) eqn:E end;
        try (eapply Hid; eassumption);
      match type of H with context[bind ?a ?b ?c] => destruct (bind a b c) as [[] ?] eqn:Eb end;
        inversion H; subst; (eapply bind_chain; [exact Ev|eapply evaluate_resolved; exact E|assumption|exact Eb]).
  - eapply Hid; eassumption.
  - destruct (evaluate n _ _); [eapply IH; eassumption|eapply Hid; eassumption].
  - destruct (evaluate n _ _); [eapply IH; eassumption|eapply Hid; eassumption].
  - destruct (evaluate n _ _) as [r'|]; [|eapply Hid; eassumption].
    destruct r'; try (eapply Hid; eassumption); try (eapply IH; eassumption).
    destruct (_ && _); [eapply all_unify_chain; eassumption|eapply Hid; eassumption].
  - destruct (evaluate n _ _) as [r'|]; [|eapply Hid; eassumption].
    destruct r'; try (eapply Hid; eassumption); try (eapply IH; eassumption).
    + destruct ts; [eapply Hid; eassumption|eapply pair_chain; eassumption].
    + eapply pair_chain; eassumption.
Qed.

End WithPy.

Lemma deref_loop_more n : forall t s t', deref_loop n t s = Ok t' -> deref_loop (S n) t s = Ok t'.
Proof.
  induction n as [|n IH]; intros t s t' H; destruct t; cbn in H; try exact H;
    destruct (lookup s v) eqn:E; try easy.
  - cbn. now rewrite E.
  - apply IH in H. change (match lookup s v with None => Ok (TVar v) | Some u => deref_loop (S n) u s end = Ok t').
    now rewrite E.
  - cbn. now rewrite E.
Qed.

Lemma deref_loop_more_le n m t s t' : (n <= m)%nat -> deref_loop n t s = Ok t' -> deref_loop m t s = Ok t'.
Proof. intro H. induction H; intro E; [assumption|]. apply deref_loop_more. auto. Qed.

Lemma deref_loop_det n m t s a b : deref_loop n t s = Ok a -> deref_loop m t s = Ok b -> a = b.
Proof.
  intros H1 H2. apply (deref_loop_more_le n (Nat.max n m)) in H1; [|lia].
  apply (deref_loop_more_le m (Nat.max n m)) in H2; [|lia]. congruence.
Qed.

(** * Growing scopes *)
Definition extends (s0 s : scope) : Prop := forall v t, lookup s0 v = Some t -> lookup s v = Some t.

Lemma extends_refl s : extends s s. Proof. now intros v t. Qed.
Lemma extends_trans a b c : extends a b -> extends b c -> extends a c.
Proof. intros H1 H2 v t H. auto. Qed.
Lemma extends_bind s0 s v t : extends s0 s -> lookup s v = None -> extends s0 ((v, t) :: s).
Proof.
  intros H Hv w u Hw. cbn. apply H in Hw. destruct (N.eqb_spec w v); [congruence|assumption].
Qed.

Lemma extends_bound s0 s v : extends s0 s -> bound s0 v = true -> bound s v = true.
Proof.
  unfold bound. intros H Hb. destruct (lookup s0 v) eqn:E; [|easy]. apply H in E. now rewrite E.
Qed.

Lemma deref_loop_ext s0 s : extends s0 s -> forall n t t', (forall v, t' <> TVar v) ->
  deref_loop n t s0 = Ok t' -> deref_loop n t s = Ok t'.
Proof.
  intros He n. induction n as [|n IH]; intros t t' Hn H; destruct t; cbn in *; try assumption;
    destruct (lookup s0 v) eqn:E; try easy.
  - inversion H; subst. now destruct (Hn v).
  - apply He in E. rewrite E. eauto.
  - inversion H; subst. now destruct (Hn v).
Qed.

Lemma deref_ext s0 s t t' : extends s0 s -> chain_ok s -> (forall v, t' <> TVar v) ->
  deref t s0 = Ok t' -> deref t s = Ok t'.
Proof.
  intros He Hc Hn H. apply (deref_loop_ext _ _ He) in H; [|assumption].
  destruct (deref_ok s t Hc) as [u Hu]. rewrite Hu. f_equal.
  unfold deref in *. eapply deref_loop_det; eassumption.
Qed.

Lemma rmapl_ok {A B} (f g : A -> res B) l l' :
  (forall x y, f x = Ok y -> g x = Ok y) -> rmapl f l = Ok l' -> rmapl g l = Ok l'.
Proof.
  intro H. revert l'. induction l as [|x l IH]; intros l' Hl; cbn in *; [assumption|].
  destruct (f x) as [y|] eqn:E; [|easy]. rewrite (H _ _ E).
  destruct (rmapl f l) as [ys|]; [|easy]. now rewrite (IH _ eq_refl).
Qed.

Section WithPy.
Context {PY : Py}.

Lemma eval_binop_nonvar op a b v : eval_binop op a b <> Ok (TVar v).
Proof.
  destruct op; cbn; try easy.
  - destruct a, b; try easy. destruct (num_op fpow op x x0); easy.
  - destruct (py_ord c a b); easy.
  - destruct (py_eq a b); easy.
  - destruct (py_eq a b); easy.
  - destruct a, b; easy.
  - destruct a, b; easy.
Qed.

(** Evaluation and grounding give the same result in a larger scope. *)
Lemma eval_ext s0 s : extends s0 s -> chain_ok s -> forall n,
  (forall t v, (forall w, v <> TVar w) -> evaluate n t s0 = Ok v -> evaluate n t s = Ok v) /\
  (forall t v, grounded n t s0 = Ok v -> grounded n t s = Ok v).
Proof.
  intros He Hc n. induction n as [|n [IHe IHg]]; [now split|]. split.
  - intros t v Hv H. rewrite evaluate_S in H |- *. destruct t; try assumption.
    + destruct (bound s0 v0) eqn:Eb; [|inversion H; subst; now destruct (Hv v0)].
      rewrite (extends_bound _ _ _ He Eb).
      destruct (deref (TVar v0) s0) as [t'|] eqn:Ed; [|easy].
      assert (Hn : forall w, t' <> TVar w).
      { intros w ->. assert (Hw : bound s0 w = false) by (eapply deref_loop_unbound; exact Ed).
        destruct n; [easy|]. rewrite evaluate_S, Hw in H. inversion H; subst. now destruct (Hv w). }
      rewrite (deref_ext _ _ _ _ He Hc Hn Ed). auto.
    + destruct (evaluate n t s0) as [a|] eqn:Ea; [|easy].
      rewrite (IHe t a); [assumption| |assumption]. intros w ->. destruct op; easy.
    + destruct (evaluate n t1 s0) as [lv|] eqn:E1; [|easy].
      destruct (evaluate n t2 s0) as [rv|] eqn:E2; [|easy].
      destruct (is_comp op) eqn:Ec.
      * destruct (grounded n lv s0) as [lg|] eqn:G1; [|easy].
        destruct (grounded n rv s0) as [rg|] eqn:G2; [|easy].
        assert (Hg : forall t v x, evaluate n t s0 = Ok v -> grounded n v s0 = Ok x -> forall w, v <> TVar w).
        { intros t u x Hu Hx w ->. apply evaluate_var_unbound in Hu. destruct n; [easy|].
          rewrite grounded_S, Hu in Hx. easy. }
        rewrite (IHe _ _ (Hg _ _ _ E1 G1) E1), (IHe _ _ (Hg _ _ _ E2 G2) E2).
        rewrite (IHg _ _ G1), (IHg _ _ G2). assumption.
      * assert (Hl : forall w, lv <> TVar w) by (intros w ->; destruct op; try easy; destruct rv; easy).
        assert (Hr : forall w, rv <> TVar w) by (intros w ->; destruct op; try easy; destruct lv; easy).
        rewrite (IHe _ _ Hl E1), (IHe _ _ Hr E2). assumption.
  - intros t v H. rewrite grounded_S in H |- *. destruct t; try assumption.
    + destruct (bound s0 v0) eqn:Eb; [|easy]. rewrite (extends_bound _ _ _ He Eb).
      destruct (deref (TVar v0) s0) as [t'|] eqn:Ed; [|easy].
      assert (Hn : forall w, t' <> TVar w).
      { intros w ->. assert (Hw : bound s0 w = false) by (eapply deref_loop_unbound; exact Ed).
        destruct n; [easy|]. rewrite grounded_S, Hw in H. easy. }
      rewrite (deref_ext _ _ _ _ He Hc Hn Ed). auto.
    + destruct (evaluate n (TUn op t) s0) as [a|] eqn:Ea; [|easy].
      rewrite (IHe _ a); [auto| |assumption]. intros w ->. apply evaluate_var_unbound in Ea.
      destruct n; [easy|]. rewrite grounded_S, Ea in H. easy.
    + destruct (evaluate n (TBin op t1 t2) s0) as [a|] eqn:Ea; [|easy].
      rewrite (IHe _ a); [auto| |assumption]. intros w ->. apply evaluate_var_unbound in Ea.
      destruct n; [easy|]. rewrite grounded_S, Ea in H. easy.
    + destruct (rmapl (fun a => grounded n a s0) args) as [args'|] eqn:E1; [|easy].
      rewrite (rmapl_ok _ (fun a => grounded n a s) _ _ (fun x y => IHg x y) E1).
      destruct (rmapl (fun a => grounded n a s0) annots) as [annots'|] eqn:E2; [|easy].
      rewrite (rmapl_ok _ (fun a => grounded n a s) _ _ (fun x y => IHg x y) E2). assumption.
    + destruct (rmapl (fun a => grounded n a s0) ts) as [ts'|] eqn:E1; [|easy].
      rewrite (rmapl_ok _ (fun a => grounded n a s) _ _ (fun x y => IHg x y) E1). assumption.
    + destruct (grounded n t1 s0) as [h'|] eqn:E1; [|easy]. rewrite (IHg _ _ E1).
      destruct (grounded n t2 s0) as [t'|] eqn:E2; [|easy]. rewrite (IHg _ _ E2). assumption.
Qed.

Definition is_scalar_const (t : term) : Prop := match t with TBool _ | TNum _ => True | _ => False end.

(** The value of an expression is a number or a bool. *)
Lemma evaluate_expr_const n t s v : match t with TUn _ _ | TBin _ _ _ => True | _ => False end ->
  evaluate n t s = Ok v -> is_scalar_const v.
Proof.
  intros Ht H. destruct n; [easy|]. rewrite evaluate_S in H. destruct t; try easy.
  - destruct (evaluate n t s) as [a|]; [|easy]. destruct op, a; inversion H; exact I.
  - destruct (evaluate n t1 s) as [a|]; [|easy]. destruct (evaluate n t2 s) as [b|]; [|easy].
    assert (Hop : forall x y, eval_binop op x y = Ok v -> is_scalar_const v).
    { intros x y Hx. destruct op; cbn in Hx; try easy.
      - destruct x, y; try easy. destruct (num_op fpow op x x0); inversion Hx; exact I.
      - destruct (py_ord c x y); inversion Hx; exact I.
      - destruct (py_eq x y); inversion Hx; exact I.
      - destruct (py_eq x y); inversion Hx; exact I.
      - destruct x, y; inversion Hx; exact I.
      - destruct x, y; inversion Hx; exact I. }
    destruct (is_comp op); [|eauto].
    destruct (grounded n a s); [|easy]. destruct (grounded n b s); [|easy]. eauto.
Qed.

(** The value of an expression is the same in every larger scope. *)
Lemma evaluate_expr_stable s0 s n m t v w : extends s0 s -> chain_ok s ->
  match t with TUn _ _ | TBin _ _ _ => True | _ => False end ->
  evaluate n t s0 = Ok v -> evaluate m t s = Ok w -> v = w.
Proof.
  intros He Hc Ht H1 H2.
  assert (Hv := evaluate_expr_const _ _ _ _ Ht H1).
  apply (proj1 (eval_ext s0 s He Hc n)) in H1; [|intros x ->; easy].
  apply (evaluate_more n (Nat.max n m)) in H1; [|lia].
  apply (evaluate_more m (Nat.max n m)) in H2; [|lia]. congruence.
Qed.

End WithPy.
