(** Grounding succeeds exactly when there is a ground instance. *)
From Verif Require Import Base Num Term Unify TrailFacts FuelFacts ChainFacts TermSpec InstSpec PyEq SetFacts UnifySem FreezeFacts BackUnify.

Lemma list_view_ground r h t : list_view r = Some (h, t) -> ground h -> ground t -> ground r.
Proof.
  destruct r; cbn; try discriminate.
  - destruct ts as [|x xs]; try discriminate. intro E. inversion E; subst. intros A B. inversion B; subst. now repeat constructor.
  - intro E. inversion E; subst. now constructor.
Qed.

Lemma py_eqb_ground y : ground y -> forall x, py_eqb y x = true -> ground x.
Proof.
  induction y using term_ind'; intros Hg z E; inversion Hg; subst.
  - destruct z; try discriminate E; constructor.
  - destruct z; try discriminate E; constructor.
  - destruct z; try discriminate E; constructor.
  - destruct z; try discriminate E. rewrite py_eqb_lit in E.
    apply andb_prop in E as [E E4]. apply andb_prop in E as [E E3]. apply andb_prop in E as [E1 E2].
    constructor.
    + match goal with HX : Forall ground args |- _ => rename HX into H4 end.
      clear - H E2 H4. revert args0 E2. induction H as [|a l Ha Hl IH]; intros [|b l'] E; cbn in E; try discriminate E; constructor.
      * apply andb_prop in E as [E _]. inversion H4; subst. auto.
      * apply andb_prop in E as [_ E]. inversion H4; subst. auto.
    + rewrite forallb_forall in E4. apply Forall_forall. intros b Hb. apply E4 in Hb. apply existsb_exists in Hb as (a & Ha & Hab).
      rewrite Forall_forall in *. eauto.
  - clear Hg. revert z E. induction ts as [|a ts IH]; intros z E.
    + rewrite py_eqb_nil in E. destruct z as [| | | | | | | |[]|]; try discriminate E. constructor. constructor.
    + rewrite py_eqb_tup_cons in E. destruct (list_view z) as [[h t]|] eqn:Ev; [|discriminate E].
      apply andb_prop in E as [E1 E2]. inversion H as [|? ? Ha Hl]; subst. inversion H1; subst.
      eapply list_view_ground; [exact Ev|auto|auto].
  - cbn in E. destruct (list_view z) as [[h t]|] eqn:Ev; [|discriminate E].
    apply andb_prop in E as [E1 E2]. eapply list_view_ground; [exact Ev|auto|auto].
Qed.

Section WithPy.
Context {PY : Py}.

Lemma rmapl_ok s l : (forall x, In x l -> exists n0, forall n, (n0 <= n)%nat -> isOk (grounded n x s)) ->
  exists n0, forall n, (n0 <= n)%nat -> isOk (rmapl (fun a => grounded n a s) l).
Proof.
  induction l as [|x l IH]; intro H.
  - exists 0%nat. intros. exact I.
  - destruct (H x) as [n1 H1]; [now left|]. destruct IH as [n2 H2]; [intros y Hy; apply H; now right|].
    exists (Nat.max n1 n2). intros n Hn. cbn.
    specialize (H1 n ltac:(lia)). destruct (grounded n x s); [|contradiction H1].
    specialize (H2 n ltac:(lia)). destruct (rmapl _ l); [exact I|contradiction H2].
Qed.

Theorem grounded_total s t t' : chain_ok s -> inst s (fun _ => None) t t' -> ground t' ->
  exists n0, forall n, (n0 <= n)%nat -> exists r, grounded n t s = Ok r.
Proof.
  intros Hc H Hg.
  assert (HQ : exists n0, forall n, (n0 <= n)%nat -> isOk (grounded n t s) /\
     forall u, deref t s = Ok u -> isOk (grounded n u s)).
  2:{ destruct HQ as [n0 HQ]. exists n0. intros n Hn. destruct (HQ n Hn) as [HQ' _].
      destruct (grounded n t s); [eauto|contradiction HQ']. }
  assert (HS : forall n0 t, match t with TVar v => bound s v = false | _ => True end ->
    (forall n, (n0 <= n)%nat -> isOk (grounded n t s)) ->
    exists n0, forall n, (n0 <= n)%nat -> isOk (grounded n t s) /\
      forall u, deref t s = Ok u -> isOk (grounded n u s)).
  { intros n0 x Hx HF. exists n0. intros n Hn. split; [auto|]. intros u Hu.
    apply deref_var_cases in Hu as [Hu|Hu]; [|subst; auto]. destruct x; try contradiction Hu. congruence. }
  assert (HL : forall l l', Forall2 (fun t t' => ground t' -> exists n0, forall n, (n0 <= n)%nat -> isOk (grounded n t s) /\
     forall u, deref t s = Ok u -> isOk (grounded n u s)) l l' -> Forall ground l' ->
     exists n0, forall n, (n0 <= n)%nat -> isOk (rmapl (fun a => grounded n a s) l)).
  { intros l l' HF HG. apply rmapl_ok. intros x Hx. destruct (Forall2_in_l _ _ _ _ HF Hx) as (y & Hy & HE).
    rewrite Forall_forall in HG. destruct (HE (HG y Hy)) as [n0 Hn].
    exists n0. intros n Hnn. exact (proj1 (Hn n Hnn)). }
  revert Hg. induction H using @inst_ind'; intro Hg;
    try (apply (HS 1%nat); [exact I|]; intros [|n] Hn; [lia|exact I]); try (inversion Hg; fail).
  - destruct (IHinst Hg) as [n0 IH]. exists (S n0). intros [|n] Hn; [lia|].
    destruct (deref_ok s (TVar v) Hc) as [u Hu].
    assert (HU : forall n, (n0 <= n)%nat -> isOk (grounded n u s)).
    { intros n1 Hn1. apply (IH n1 Hn1). rewrite <- Hu. symmetry. now apply deref_step. }
    split.
    + rewrite grounded_S. unfold bound. rewrite H, Hu. apply HU. lia.
    + intros u' Hu'. assert (u' = u) by congruence. subst u'. apply HU. lia.
  - destruct H as [k Hk]. apply (HS (S (S k))); [exact I|]. intros [|[|n]] Hn; try lia.
    rewrite grounded_S, (evaluate_more k (S n) _ _ _ ltac:(lia) Hk).
    apply evaluate_expr_const in Hk; [|exact I]. destruct v; try contradiction Hk; exact I.
  - destruct H as [k Hk]. apply (HS (S (S k))); [exact I|]. intros [|[|n]] Hn; try lia.
    rewrite grounded_S, (evaluate_more k (S n) _ _ _ ltac:(lia) Hk).
    apply evaluate_expr_const in Hk; [|exact I]. destruct v; try contradiction Hk; exact I.
  - inversion Hg as [| | |? ? ? HA HN| |]; subst.
    assert (HI : Forall ground items).
    { apply Forall_forall. intros x Hx. apply (proj1 (proj2 H3)) in Hx as (y & Hy & E).
      rewrite Forall_forall in HN. destruct E as [->|E]; [auto|]. eapply py_eqb_ground; [|exact E]. auto. }
    destruct (HL _ _ H0 HA) as [n1 H1']. destruct (HL _ _ H2 HI) as [n2 H2'].
    apply (HS (S (Nat.max n1 n2))); [exact I|]. intros [|n] Hn; [lia|]. rewrite grounded_S.
    specialize (H1' n ltac:(lia)). destruct (rmapl _ args); [|contradiction H1'].
    specialize (H2' n ltac:(lia)). destruct (rmapl _ annots); [exact I|contradiction H2'].
  - inversion Hg as [| | | |? HA|]; subst. destruct (HL _ _ H0 HA) as [n1 H1'].
    apply (HS (S n1)); [exact I|]. intros [|n] Hn; [lia|]. rewrite grounded_S.
    specialize (H1' n ltac:(lia)). destruct (rmapl _ ts); [exact I|contradiction H1'].
  - inversion Hg; subst. destruct IHinst1 as [n1 H1']; [assumption|]. destruct IHinst2 as [n2 H2']; [assumption|].
    apply (HS (S (Nat.max n1 n2))); [exact I|]. intros [|n] Hn; [lia|]. rewrite grounded_S.
    specialize (H1' n ltac:(lia)) as [H1' _]. destruct (grounded n h s); [|contradiction H1'].
    specialize (H2' n ltac:(lia)) as [H2' _]. destruct (grounded n t s); [exact I|contradiction H2'].
Qed.

Theorem grounded_iff (L : PyLawful PY) s t : chain_ok s ->
  (exists n r, grounded n t s = Ok r) <-> exists t', inst s (fun _ => None) t t' /\ ground t'.
Proof.
  intro Hc. split.
  - intros (n & r & H). apply (grounded_inst L) in H. eauto.
  - intros (t' & H & Hg). destruct (grounded_total s t t' Hc H Hg) as [n0 Hn].
    destruct (Hn n0 (le_n _)) as [r E]. eauto.
Qed.

Theorem is_ground_agree n t s : exprless t -> exprless_scope s ->
  match is_ground n t s with
  | Ok true => exists t', grounded n t s = Ok t'
  | Ok false => grounded n t s = Err EAsl
  | Err e => grounded n t s = Err e
  end.
Proof.
  intros Ht Hs. pose proof (is_ground_grounded n t s Ht Hs) as C.
  destruct (is_ground n t s) as [[]|e], (grounded n t s) as [y|e']; cbn in C; try contradiction C; eauto.
  - destruct e'; try contradiction C. reflexivity.
  - now destruct C as [-> _].
Qed.

Theorem freeze_finishes (L : PyLawful PY) s t t' rho : chain_ok s -> inst s rho t t' ->
  exists n0, forall n k, (n0 <= n)%nat -> exists r m, freeze n t s ([], k) = (Ok r, m).
Proof.
  intros Hc H. destruct (freeze_total s rho t t' Hc H) as [n0 Hn]. exists n0. intros n k Hnn. apply Hn. assumption.
Qed.

End WithPy.
