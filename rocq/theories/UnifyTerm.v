(** Termination of unification on unifiable terms, the finite tree and infinite
    tree instances of the soundness theorem. *)
From Verif Require Import Base Num Term Unify TrailFacts FuelFacts ChainFacts TermSpec UnifySem.
From Coq Require Import RelationClasses.

Lemma Forall2_eq {A} (xs ys : list A) : Forall2 eq xs ys <-> xs = ys.
Proof.
  split; [induction 1; congruence|]. intros ->. induction ys; constructor; auto.
Qed.

Lemma val_free : free_algebra val eq VConst VLit VCons.
Proof.
  constructor; try congruence.
  - intros f g xs ys H. inversion H; subst. split; [reflexivity|now apply Forall2_eq].
  - intros f xs ys H. apply Forall2_eq in H. congruence.
  - intros a b c d H. inversion H; auto.
Qed.

Section WithPy2.
Context {PY : Py}.
Variable s0 : scope.
Variable ex : term -> term.
Notation plain := (plain s0 ex).
Notation plain_scope := (plain_scope s0 ex).
Notation good := (good ex s0).
Notation value := (value ex).
Notation agrees := (agrees ex).

Lemma unify_sound_fin n : usound_f val eq VConst VLit VCons ex s0 (unify n).
Proof. apply unify_sound; [apply eq_equivalence|apply val_free]. Qed.

(** Evaluation of a plain term succeeds. *)
Lemma evaluate_plain_ok t s : plain t -> good s ->
  exists n0 t', forall n, (n0 <= n)%nat -> evaluate n t s = Ok t'.
Proof.
  intros Hp (Hs & Hc & He).
  assert (H1 : forall t', match t' with TVar v => bound s v = false | TUn _ _ | TBin _ _ _ => False | _ => True end ->
     forall n, (1 <= n)%nat -> evaluate n t' s = Ok t').
  { intros t' Ht n Hn. destruct n; [lia|]. rewrite evaluate_S. destruct t'; try easy. now rewrite Ht. }
  assert (HE : forall t, match t with TUn _ _ | TBin _ _ _ => True | _ => False end -> plain t ->
     exists n0 t', forall n, (n0 <= n)%nat -> evaluate n t s = Ok t').
  { intros e Ht Hpe.
    assert (Hev : evals s0 e (ex e)) by (inversion Hpe; subst; try contradiction Ht; assumption).
    destruct Hev as [k Hk]. exists k, (ex e). intros n Hn.
    eapply evaluate_more; [exact Hn|].
    apply (proj1 (eval_ext s0 s He Hc k)); [|exact Hk].
    intros w Hw. apply evaluate_expr_const in Hk; [|exact Ht]. rewrite Hw in Hk. exact Hk. }
  destruct t; try (eexists 1%nat, _; intros n Hn; apply H1; [easy|lia]); try (now inversion Hp).
  - destruct (bound s v) eqn:E; [|exists 1%nat, (TVar v); intros n Hn; apply H1; [exact E|lia]].
    destruct (deref_ok s (TVar v) Hc) as [t' Ht'].
    assert (Hp' : plain t') by (unshelve eapply (proj1 (deref_sound val eq eq_equivalence VConst VLit VCons ex s0 _ _ _ Ht')); assumption).
    assert (Hex : exists n0 t'', forall n, (n0 <= n)%nat -> evaluate n t' s = Ok t'').
    { destruct t'; try (now apply HE); try (now inversion Hp');
        (eexists 1%nat, _; intros n Hn; apply H1; [try exact I|lia]).
      eapply deref_loop_unbound. exact Ht'. }
    destruct Hex as (n0 & t'' & Hev). exists (S n0), t''. intros n Hn.
    destruct n as [|n]; [lia|]. rewrite evaluate_S, E, Ht'. apply Hev; lia.
  - now apply HE.
  - now apply HE.
Qed.

Lemma all_unify_more n m ls rs st b st' : (n <= m)%nat ->
  all_unify (unify n) ls rs st = (Ok b, st') -> all_unify (unify m) ls rs st = (Ok b, st').
Proof.
  intros Hnm H.
  destruct (smono_le (fun n => all_unify (unify n) ls rs st)
     (fun n => all_unify_sle _ _ (fun l r s => unify_mono n l r s) ls rs st) n m Hnm) as [E|E].
  - rewrite H in E. discriminate.
  - congruence.
Qed.

(** The hypotheses carried along. *)
Definition ready (th : N -> val) (l r : term) (st : bst) : Prop :=
  plain l /\ plain r /\ good (b_scope st) /\
  agrees th (b_scope st) /\ value th l = value th r.

Ltac rdy := refine (conj _ (conj _ (conj _ (conj _ _)))).

Definition finishes (l r : term) (st : bst) : Prop :=
  exists n st', unify n l r st = (Ok true, st').

(** What holds after a successful unification of [ready] terms. *)
Lemma ready_after th l r st n st' : ready th l r st -> unify n l r st = (Ok true, st') ->
  good (b_scope st') /\ agrees th (b_scope st').
Proof.
  intros (H1 & H2 & H3 & H5 & H6) H.
  destruct (unify_sound_fin n _ _ _ _ _ H H1 H2 H3) as [S1 S2].
  split; [assumption|]. apply S2. split; assumption.
Qed.

Lemma list_finishes th (k : nat) :
  (forall l r st, (vsize (value th l) < k)%nat -> ready th l r st -> finishes l r st) ->
  forall ls rs st, List.length ls = List.length rs ->
    Forall (fun l => (vsize (value th l) < k)%nat) ls ->
    Forall plain ls -> Forall plain rs -> good (b_scope st) ->
    agrees th (b_scope st) -> map (value th) ls = map (value th) rs ->
    exists n st', all_unify (unify n) ls rs st = (Ok true, st').
Proof.
  intros IH ls. induction ls as [|l ls IHl]; intros rs st Hlen Hk Hl Hr Hs Ha He.
  - exists 0%nat, st. reflexivity.
  - destruct rs as [|r rs]; [easy|]. cbn in He. injection He as He1 He2.
    inversion Hk; inversion Hl; inversion Hr; subst.
    assert (HR : ready th l r st) by (rdy; assumption).
    destruct (IH l r st) as (n1 & st1 & E1); [assumption|assumption|].
    destruct (ready_after _ _ _ _ _ _ HR E1) as (A1 & A3).
    destruct (IHl rs st1) as (n2 & st2 & E2); try assumption. { cbn in Hlen; lia. }
    exists (Nat.max n1 n2), st2. cbn.
    rewrite (unify_more n1 (Nat.max n1 n2) _ _ _ _ _ (Nat.le_max_l _ _) E1).
    eapply all_unify_more; [|exact E2]. lia.
Qed.

Lemma pair_finishes th (k : nat) h x t y st :
  (forall l r st, (vsize (value th l) < k)%nat -> ready th l r st -> finishes l r st) ->
  (vsize (value th h) < k)%nat -> (vsize (value th t) < k)%nat ->
  plain h -> plain t -> plain x -> plain y -> good (b_scope st) ->
  agrees th (b_scope st) -> value th h = value th x -> value th t = value th y ->
  exists n st', match unify n h x st with (Ok true, st1) => unify n t y st1 | w => w end = (Ok true, st').
Proof.
  intros IH K1 K2 P1 P2 P3 P4 Hs Ha E1 E2.
  assert (HR : ready th h x st) by (rdy; assumption).
  destruct (IH h x st) as (n1 & st1 & U1); [assumption|assumption|].
  destruct (ready_after _ _ _ _ _ _ HR U1) as (A1 & A3).
  destruct (IH t y st1) as (n2 & st2 & U2); [assumption|rdy; assumption|].
  exists (Nat.max n1 n2), st2.
  rewrite (unify_more n1 (Nat.max n1 n2) _ _ _ _ _ (Nat.le_max_l _ _) U1).
  eapply unify_more; [|exact U2]. lia.
Qed.

Lemma bind_finishes v t st : bound (b_scope st) v = false ->
  exists st', bind v t st = (Ok tt, st').
Proof.
  intro H. unfold bind. rewrite H. destruct t; eauto. destruct (N.eqb v v0); eauto.
Qed.

Lemma vsize_args f args x : In x args -> (vsize x < vsize (VLit f args))%nat.
Proof.
  cbn [vsize]. induction args as [|a args IH]; [easy|]. intros [->|H]; cbn; [lia|].
  apply IH in H. cbn in H. lia.
Qed.

(** Unification with an unbound variable on the left. *)
Lemma var_finishes th v r st : bound (b_scope st) v = false -> ready th (TVar v) r st -> finishes (TVar v) r st.
Proof.
  intros Hv (H1 & H2 & H3 & H5 & H6).
  destruct (evaluate_plain_ok r (b_scope st) H2 H3) as (n0 & r' & Hr').
  destruct (bind_finishes v r' st Hv) as [st' Hb].
  exists (S n0), st'. rewrite unify_S, Hv. rewrite Hr' by lia. rewrite Hb. destruct r; try reflexivity.
  inversion H2.
Qed.

Lemma ready_sym th l r st : ready th l r st -> ready th r l st.
Proof. intros (H1 & H2 & H3 & H5 & H6). rdy; auto. Qed.

Lemma evaluate_ready th l r st r' n : ready th l r st -> evaluate n r (b_scope st) = Ok r' ->
  ready th l r' st /\ resolved (b_scope st) r' /\ noexpr r'.
Proof.
  intros (H1 & H2 & H3 & H5 & H6) E.
  destruct (evaluate_plain val eq eq_equivalence VConst VLit VCons ex s0 _ _ _ _ E H2 H3) as (A & B & B' & C).
  split; [|split; assumption]. rdy; try assumption. unfold value in *. rewrite H6. apply C. exact H5.
Qed.

Section Step.
Variable th : N -> val.
Variable k : nat.
Hypothesis IH : forall l r st, (vsize (value th l) < k)%nat -> ready th l r st -> finishes l r st.

Lemma lit_finishes f args annots r st : (vsize (value th (TLit f args annots)) <= k)%nat ->
  ready th (TLit f args annots) r st -> finishes (TLit f args annots) r st.
Proof.
  intros Hk HR. pose proof HR as (H1 & H2 & H3 & H5 & H6).
  destruct (evaluate_plain_ok r (b_scope st) H2 H3) as (n0 & r' & Hr').
  destruct (evaluate_ready _ _ _ _ _ _ HR (Hr' n0 (le_n _))) as (HR' & Hres & Hnx).
  pose proof HR' as (H1' & H2' & _ & _ & H6').
  destruct r' as [br|xr|sr|vr|wr| | |f' args' annots'|rs|h' t']; try (inversion H2'; fail); try contradiction Hnx; try (inversion H6'; fail).
  - destruct (var_finishes th vr (TLit f args annots) st Hres (ready_sym _ _ _ _ HR')) as (n & st' & E).
    exists (S (n0 + n)), st'. rewrite unify_S. rewrite Hr' by lia. eapply unify_more; [|exact E]. lia.
  - unfold value in H6'; cbn in H6'. inversion H6' as [[Hf Hargs]]. 
    assert (Hlen : List.length args = List.length args')
      by (apply (f_equal (@List.length _)) in Hargs; now rewrite !map_length in Hargs).
    inversion H1'; inversion H2'; subst.
    destruct (list_finishes th k IH args args' st) as (n & st' & E); try assumption.
    + rewrite Forall_forall. intros x Hx. eapply Nat.lt_le_trans; [|exact Hk].
      unfold value. cbn [den]. apply vsize_args. now apply in_map.
    + exists (S (n0 + n)), st'. rewrite unify_S. rewrite Hr' by lia.
      rewrite pystr_eqb_refl, Hlen, Nat.eqb_refl. cbn [andb]. eapply all_unify_more; [|exact E]. lia.
  - unfold value in H6'. cbn in H6'. destruct rs; discriminate.
Qed.

Lemma ll_finishes h t r st : (vsize (value th (TLL h t)) <= k)%nat ->
  ready th (TLL h t) r st -> finishes (TLL h t) r st.
Proof.
  intros Hk HR. pose proof HR as (H1 & H2 & H3 & H5 & H6).
  destruct (evaluate_plain_ok r (b_scope st) H2 H3) as (n0 & r' & Hr').
  destruct (evaluate_ready _ _ _ _ _ _ HR (Hr' n0 (le_n _))) as (HR' & Hres & Hnx).
  pose proof HR' as (H1' & H2' & _ & _ & H6').
  unfold value in Hk; cbn in Hk.
  destruct r' as [br|xr|sr|vr|wr| | |f' args' annots'|rs|h' t']; try (inversion H2'; fail); try contradiction Hnx; try (inversion H6'; fail).
  - destruct (var_finishes th vr (TLL h t) st Hres (ready_sym _ _ _ _ HR')) as (n & st' & E).
    exists (S (n0 + n)), st'. rewrite unify_S. rewrite Hr' by lia. eapply unify_more; [|exact E]. lia.
  - destruct rs as [|x xs]; [inversion H6'|]. unfold value in H6'. rewrite den_tup_cons in H6'. cbn [den] in H6'.
    inversion H6' as [[Hx Hxs]].
    inversion H1'; inversion H2' as [| | | | | | |? PF|]; subst. inversion PF; subst.
    destruct (pair_finishes th k h x t (TTup xs) st IH) as (n & st' & E); try assumption.
    1-2: unfold value; lia.
    { now constructor. }
    exists (S (n0 + n)), st'. rewrite unify_S. rewrite Hr' by lia.
    destruct (unify n h x st) as [w st1] eqn:E1. destruct w as [[]|]; try discriminate.
    rewrite (unify_more n (n0 + n) _ _ _ _ _ ltac:(lia) E1).
    eapply unify_more; [|exact E]. lia.
  - unfold value in H6'. cbn [den] in H6'. inversion H6' as [[Hx Hxs]].
    inversion H1'; inversion H2'; subst.
    destruct (pair_finishes th k h h' t t' st IH) as (n & st' & E); try assumption.
    1-2: unfold value; lia.
    exists (S (n0 + n)), st'. rewrite unify_S. rewrite Hr' by lia.
    destruct (unify n h h' st) as [w st1] eqn:E1. destruct w as [[]|]; try discriminate.
    rewrite (unify_more n (n0 + n) _ _ _ _ _ ltac:(lia) E1).
    eapply unify_more; [|exact E]. lia.
Qed.

Definition scalar (t : term) : Prop :=
  match t with TBool _ | TNum _ | TStr _ | TTup _ => True | _ => False end.

Lemma tup_sizes ts : Forall (fun t => (vsize (value th t) < vsize (value th (TTup ts)))%nat) ts.
Proof.
  induction ts as [|t ts IHt]; constructor.
  - unfold value. rewrite den_tup_cons. cbn [vsize]. lia.
  - eapply Forall_impl; [|exact IHt]. intros a Ha. cbn beta in *.
    unfold value in *. rewrite den_tup_cons. cbn [vsize]. lia.
Qed.

Lemma tup_map ts : forall rs, value th (TTup ts) = value th (TTup rs) ->
  List.length ts = List.length rs /\ map (value th) ts = map (value th) rs.
Proof.
  unfold value. induction ts as [|t ts IHt]; intros [|r rs] H; try (now split); try discriminate.
  rewrite !den_tup_cons in H. inversion H as [[H1 H2]]. apply IHt in H2 as [A B]. cbn. split; [lia|congruence].
Qed.

(** Both sides without a unify method. *)
Lemma scalar_finishes l r st : (vsize (value th l) <= k)%nat -> scalar l -> scalar r ->
  ready th l r st -> finishes l r st.
Proof.
  intros Hk Kl Kr (H1 & H2 & H3 & H5 & H6).
  destruct l as [bl|xl|sl|v| | | |f args annots|ls|h t]; try contradiction Kl;
  destruct r as [br|xr|sr|vr|wr| | |f' args' annots'|rs|h' t']; try contradiction Kr;
    try (unfold value in H6; cbn in H6; try destruct rs; try destruct ls; discriminate).
  - inversion H6; subst. exists 1%nat, st. cbn. now rewrite Bool.eqb_reflx.
  - inversion H6 as [Hx]. exists 1%nat, st. cbn.
    assert (E : num_eqb xl xr = true) by (apply num_eqb_canon; inversion H1; auto). now rewrite E.
  - inversion H6; subst. exists 1%nat, st. cbn. now rewrite pystr_eqb_refl.
  - destruct (tup_map ls rs H6) as [Hlen Hm]. inversion H1; inversion H2; subst.
    destruct (list_finishes th k IH ls rs st) as (n & st' & E); try assumption.
    + eapply Forall_impl; [|apply tup_sizes]. intros a Ha. cbn beta in Ha. lia.
    + exists (S n), st'. rewrite unify_S. cbn [has_unify]. rewrite Hlen, Nat.eqb_refl. exact E.
Qed.

Lemma expr_finishes l r st : match l with TUn _ _ | TBin _ _ _ => True | _ => False end ->
  (forall l', is_scalar_const l' -> ready th l' r st -> finishes l' r st) ->
  ready th l r st -> finishes l r st.
Proof.
  intros Hl HF HR. pose proof HR as (H1 & H2 & H3 & H5 & H6).
  destruct (evaluate_plain_ok l (b_scope st) H1 H3) as (n0 & l' & Hl').
  destruct (evaluate_ready _ _ _ _ _ _ (ready_sym _ _ _ _ HR) (Hl' n0 (le_n _))) as (HR' & Hres & Hnx).
  destruct (HF l') as (n & st' & E).
  - eapply evaluate_expr_const; [exact Hl|exact (Hl' n0 (le_n _))].
  - now apply ready_sym.
  - exists (S (n0 + n)), st'. rewrite unify_S.
    destruct l; try contradiction Hl; rewrite Hl' by lia; (eapply unify_more; [|exact E]; lia).
Qed.

Lemma scalar_const_scalar t : is_scalar_const t -> scalar t.
Proof. destruct t; easy. Qed.

(** Left side arbitrary but resolved, right side without unify method. *)
Lemma scalar_r_finishes l r st : (vsize (value th l) <= k)%nat -> scalar r -> resolved (b_scope st) l ->
  ready th l r st -> finishes l r st.
Proof.
  intros Hk Kr Hres HR. pose proof HR as (H1 & H2 & H3 & H5 & H6).
  destruct l; try (apply scalar_finishes; try assumption; exact I).
  - apply var_finishes with (th := th); assumption.
  - inversion H1.
  - apply expr_finishes; [exact I| |assumption]. intros l' Hs HR'.
    apply scalar_finishes; try assumption; [|now apply scalar_const_scalar].
    destruct HR' as (_ & _ & _ & _ & A). now rewrite A, <- H6.
  - apply expr_finishes; [exact I| |assumption]. intros l' Hs HR'.
    apply scalar_finishes; try assumption; [|now apply scalar_const_scalar].
    destruct HR' as (_ & _ & _ & _ & A). now rewrite A, <- H6.
  - now apply lit_finishes.
  - now apply ll_finishes.
Qed.

Lemma deref_ready l r st r' : ready th l r st -> deref r (b_scope st) = Ok r' ->
  ready th l r' st /\ resolved (b_scope st) r'.
Proof.
  intros (H1 & H2 & H3 & H5 & H6) E.
  destruct (deref_sound val eq eq_equivalence VConst VLit VCons ex s0 _ _ _ E) as [A B].
  split.
  - rdy; auto. { apply A; [apply H3|assumption]. } unfold TermSpec.value in *. rewrite H6. now apply B.
  - destruct r'; cbn; auto. eapply deref_loop_unbound. exact E.
Qed.

Lemma scalar_l_finishes l r st : (vsize (value th l) <= k)%nat -> scalar l ->
  ready th l r st -> finishes l r st.
Proof.
  intros Hk Kl HR. pose proof HR as (H1 & H2 & H3 & H5 & H6).
  destruct (has_unify r) eqn:Hu.
  2:{ apply scalar_finishes; try assumption. destruct r; easy. }
  assert (HF : finishes r l st).
  { destruct (match r with TVar v => bound (b_scope st) v | _ => false end) eqn:Eb.
    - destruct r; try discriminate Eb.
      destruct (deref_ok (b_scope st) (TVar v) (proj1 (proj2 H3))) as [r' Hd].
      destruct (deref_ready _ _ _ _ HR Hd) as [HR' Hres'].
      destruct (scalar_r_finishes r' l st) as (n & st' & E); try assumption.
      + destruct HR' as (_ & _ & _ & _ & A). now rewrite <- A.
      + now apply ready_sym.
      + exists (S n), st'. now rewrite unify_S, Eb, Hd.
    - apply scalar_r_finishes; try assumption; [now rewrite <- H6| |now apply ready_sym].
      destruct r; try exact I. exact Eb. }
  destruct HF as (n & st' & E). exists (S n), st'. rewrite unify_S.
  destruct l; try contradiction Kl; rewrite Hu; exact E.
Qed.

Lemma resolved_l_finishes l r st : (vsize (value th l) <= k)%nat -> resolved (b_scope st) l ->
  ready th l r st -> finishes l r st.
Proof.
  intros Hk Hres HR. pose proof HR as (H1 & H2 & H3 & H5 & H6).
  destruct l; try (apply scalar_l_finishes; auto; exact I); try (inversion H1; fail).
  - apply var_finishes with (th := th); [exact Hres|assumption].
  - apply expr_finishes; [exact I| |assumption]. intros l' Hs HR'.
    apply scalar_l_finishes; try assumption; [|now apply scalar_const_scalar].
    destruct HR' as (_ & _ & _ & _ & A). now rewrite A, <- H6.
  - apply expr_finishes; [exact I| |assumption]. intros l' Hs HR'.
    apply scalar_l_finishes; try assumption; [|now apply scalar_const_scalar].
    destruct HR' as (_ & _ & _ & _ & A). now rewrite A, <- H6.
  - now apply lit_finishes.
  - now apply ll_finishes.
Qed.

Lemma step_finishes l r st : (vsize (value th l) <= k)%nat -> ready th l r st -> finishes l r st.
Proof.
  intros Hk HR. pose proof HR as (H1 & H2 & H3 & H5 & H6).
  destruct l; try (apply resolved_l_finishes; auto; exact I).
  destruct (bound (b_scope st) v) eqn:Ev; [|apply resolved_l_finishes; auto].
  destruct (deref_ok (b_scope st) (TVar v) (proj1 (proj2 H3))) as [l' Hd].
  destruct (deref_ready r (TVar v) st l' (ready_sym _ _ _ _ HR) Hd) as [HR' Hres'].
  apply ready_sym in HR'.
  assert (HF : finishes l' r st).
  { apply resolved_l_finishes; try assumption. destruct HR' as (_ & _ & _ & _ & A6). rewrite A6, <- H6. exact Hk. }
  destruct HF as (n & st' & E). exists (S n), st'. rewrite unify_S, Ev, Hd. exact E.
Qed.
End Step.

Theorem unify_finishes th l r st : ready th l r st -> finishes l r st.
Proof.
  remember (vsize (value th l)) as k eqn:Hk. assert (Hk' : (vsize (value th l) <= k)%nat) by lia. clear Hk.
  revert l r st Hk'. induction k as [k IH] using lt_wf_ind. intros l r st Hk HR.
  apply (step_finishes th k); try assumption.
  intros l' r' st' Hlt HR'. eapply (IH (vsize (value th l'))); [lia|apply le_n|assumption].
Qed.

End WithPy2.

(** * Infinite trees *)
Lemma ieq_equiv : Equivalence ieq.
Proof. split; unfold ieq; [congruence|intros x y H p; now rewrite H|intros x y z H1 H2 p; now rewrite H1]. Qed.

Lemma itree_free : free_algebra itree ieq iconst ilit icons.
Proof.
  constructor.
  - intros a b H. specialize (H []). cbn in H. congruence.
  - intros f g xs ys H. pose proof (H []) as H0. cbn in H0. inversion H0 as [[Hf Hlen]]. split; [reflexivity|].
    assert (HA : forall i p, match nth_error xs i with Some a => a p | None => LNone end
                           = match nth_error ys i with Some a => a p | None => LNone end)
      by (intros i p; apply (H (i :: p))).
    clear H H0 Hf. revert ys Hlen HA. induction xs as [|x xs IH]; intros [|y ys] Hlen HA; try easy; constructor.
    + intro p. apply (HA 0%nat p).
    + apply IH; [cbn in Hlen; lia|]. intros i p. apply (HA (S i) p).
  - intros f xs ys H [|i p]; cbn; [now rewrite (Forall2_len _ _ _ H)|].
    revert i. induction H as [|x y xs ys H1 H2 IH]; intros [|i]; cbn; auto.
  - intros a b c d H. split; intro p; [apply (H (0 :: p)%nat)|apply (H (1 :: p)%nat)].
  - intros a b c d H1 H2 [|[|[|i]] p]; cbn; auto.
  - intros a f xs H. specialize (H []). discriminate.
  - intros a b c H. specialize (H []). discriminate.
  - intros f xs b c H. specialize (H []). discriminate.
Qed.

Section WithPy3.
Context {PY : Py}.
Variable ex : term -> term.

Lemma unify_sound_inf s0 n : usound_f itree ieq iconst ilit icons ex s0 (unify n).
Proof. apply unify_sound; [apply ieq_equiv|apply itree_free]. Qed.

(** Every scope without cyclic chains has an infinite tree solution. *)
Definition dtop (s : scope) (t : term) : term := match deref t s with Ok t' => t' | Err _ => t end.

Fixpoint unfold_tree (s : scope) (p : list nat) (t : term) {struct p} : label :=
  let t' := dtop s t in
  match p with
  | [] =>
      match t' with
      | TBool b => LConst (KBool b)
      | TNum x => LConst (KNum (num_canon x))
      | TStr x => LConst (KStr x)
      | TLit f args _ => LLit f (List.length args)
      | TTup [] => LConst KNil
      | TTup (_ :: _) | TLL _ _ => LCons
      | TUn _ _ | TBin _ _ _ => den_const itree iconst (ex t') []
      | _ => LConst KNil
      end
  | i :: p' =>
      match t' with
      | TLit f args _ => match nth_error args i with Some a => unfold_tree s p' a | None => LNone end
      | TTup (x :: xs) =>
          match i with
          | O => unfold_tree s p' x
          | S O => unfold_tree s p' (TTup xs)
          | _ => LNone
          end
      | TLL h t =>
          match i with
          | O => unfold_tree s p' h
          | S O => unfold_tree s p' t
          | _ => LNone
          end
      | TUn _ _ | TBin _ _ _ => den_const itree iconst (ex t') p
      | _ => LNone
      end
  end.

Definition solution (s : scope) : N -> itree := fun v p => unfold_tree s p (TVar v).

Lemma dtop_nonvar s t : (forall v, t <> TVar v) -> dtop s t = t.
Proof.
  intro H. unfold dtop, deref. destruct (List.length s), t; try reflexivity; exfalso; eapply H; reflexivity.
Qed.

Lemma unfold_den s p : forall t, unfold_tree s p t = ivalue ex (solution s) t p.
Proof.
  induction p as [|i p IH]; intro t.
  - destruct t; try reflexivity; cbn [unfold_tree]; rewrite ?dtop_nonvar by easy; try reflexivity.
    + unfold ivalue. cbn [den]. unfold ilit. now rewrite map_length.
    + destruct ts; reflexivity.
  - destruct t; try reflexivity; cbn [unfold_tree]; rewrite ?dtop_nonvar by easy; try reflexivity.
    + unfold ivalue. cbn [den]. unfold ilit. rewrite nth_error_map.
      destruct (nth_error args i); cbn; [apply IH|reflexivity].
    + destruct ts as [|x xs]; [reflexivity|].
      unfold ivalue. rewrite den_tup_cons. destruct i as [|[|i]]; cbn; try apply IH. reflexivity.
    + destruct i as [|[|i]]; cbn; try apply IH. reflexivity.
Qed.

Lemma deref_loop_step n t v s t' : lookup s v = Some t -> deref_loop n (TVar v) s = Ok t' ->
  deref_loop n t s = Ok t'.
Proof.
  intros Hl. destruct n; cbn; rewrite Hl; [easy|]. intro H. now apply deref_loop_more.
Qed.

Lemma solution_agrees s : chain_ok s -> iagrees ex (solution s) s.
Proof.
  intros Hc v t Hl p. change (solution s v p = ivalue ex (solution s) t p). rewrite <- unfold_den. unfold solution.
  assert (E : dtop s (TVar v) = dtop s t).
  { unfold dtop. destruct (deref_ok s (TVar v) Hc) as [t' Ht']. rewrite Ht'.
    unfold deref in *. now rewrite (deref_loop_step _ _ _ _ _ Hl Ht'). }
  destruct p; cbn [unfold_tree]; now rewrite E.
Qed.

End WithPy3.
