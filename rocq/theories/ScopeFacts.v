(** Proofs for C63: the scope of a variable is its clause. *)
From Coq Require Import Lia.
From Verif Require Import Base Num Term Unify Str World Engine Ast Names Build InstSpec SetFacts LoadSpec FlowSpec FlowFacts ScopeSpec.

Section WithPy.
Context {PY : Py} (L : PyLawful PY).

Definition env_of (s : bs) : naming := fun x =>
  match assoc pystr_eqb x (v_vars s) with Some (TVar i) | Some (TWild i) => Some i | _ => None end.
Definition shape (x : pystr) (i : N) : term := if pystr_eqb x (s2p "_") then TWild i else TVar i.
Definition inv (k : N) (s : bs) : Prop :=
  (k <= v_nv s)%N /\ (forall x t, assoc pystr_eqb x (v_vars s) = Some t -> exists i, t = shape x i /\ (k <= i < v_nv s)%N) /\
  (forall x y i, env_of s x = Some i -> env_of s y = Some i -> x = y).
Definition ext (s s' : bs) : Prop :=
  (v_nv s <= v_nv s')%N /\ (forall x t, assoc pystr_eqb x (v_vars s) = Some t -> assoc pystr_eqb x (v_vars s') = Some t) /\
  (forall x i, env_of s' x = Some i -> env_of s x = Some i \/ (v_nv s <= i < v_nv s')%N).
Definition gives {A} (k : N) (m : B A) (P : bs -> A -> Prop) : Prop :=
  forall s x s', inv k s -> m s = (Ok x, s') -> inv k s' /\ ext s s' /\ forall s2, inv k s2 -> ext s' s2 -> P s2 x.

Lemma env_shape k s x t : inv k s -> assoc pystr_eqb x (v_vars s) = Some t -> exists i, t = shape x i /\ env_of s x = Some i /\ (k <= i < v_nv s)%N.
Proof.
  intros (_ & H & _) E. destruct (H _ _ E) as (i & -> & Hi). exists i. split; [reflexivity|]. split; [|exact Hi].
  unfold env_of. rewrite E. unfold shape. now destruct (pystr_eqb x (s2p "_")).
Qed.
Lemma env_some s x i : env_of s x = Some i -> exists t, assoc pystr_eqb x (v_vars s) = Some t.
Proof. unfold env_of. destruct (assoc pystr_eqb x (v_vars s)) as [t|]; [eauto|discriminate]. Qed.
Lemma env_range k s x i : inv k s -> env_of s x = Some i -> (k <= i < v_nv s)%N.
Proof. intros H E. destruct (env_some _ _ _ E) as (t & Et). destruct (env_shape _ _ _ _ H Et) as (j & _ & Ej & Hj). congruence. Qed.
Lemma inv_fresh k s : inv k s -> fresh_names k (v_nv s) (env_of s).
Proof. intros H. split; [intros x i E; eapply env_range; eassumption|apply H]. Qed.
Lemma ext_refl s : ext s s.
Proof. split; [lia|]. split; auto. Qed.
Lemma ext_trans s1 s2 s3 : ext s1 s2 -> ext s2 s3 -> ext s1 s3.
Proof.
  intros (H1 & H2 & H3) (G1 & G2 & G3). split; [lia|]. split; [auto|]. intros x i E. destruct (G3 _ _ E) as [E1|Hi]; [|right; lia].
  destruct (H3 _ _ E1); [now left|right; lia].
Qed.
Lemma inv0 k lg : inv k (mkbs [] k lg).
Proof. split; [cbn; lia|]. split; [discriminate|]. intros x y i E. discriminate. Qed.

Lemma gives_ret {A} k (x : A) (P : bs -> A -> Prop) : (forall s, P s x) -> gives k (bret x) P.
Proof. intros H s y s' Hi E. injection E as <- <-. split; [exact Hi|]. split; [apply ext_refl|]. auto. Qed.
Lemma gives_fail {A} k e (P : bs -> A -> Prop) : gives k (bfail e) P.
Proof. intros s y s' Hi E. discriminate. Qed.
Lemma gives_bind {A C} k (m : B A) (f : A -> B C) (P : bs -> A -> Prop) (R : bs -> C -> Prop) : gives k m P -> (forall x, gives k (f x) (fun s y => P s x -> R s y)) -> gives k (bbind m f) R.
Proof.
  intros Hm Hf s y s' Hi E. unfold bbind in E. destruct (m s) as [[x|e] s1] eqn:Em; [|discriminate].
  destruct (Hm _ _ _ Hi Em) as (I1 & X1 & H1). destruct (Hf x _ _ _ I1 E) as (I2 & X2 & H2).
  split; [exact I2|]. split; [eapply ext_trans; eassumption|]. intros s2 J Y. apply H2; [exact J|exact Y|]. apply H1; [exact J|]. eapply ext_trans; eassumption.
Qed.
Lemma gives_weak {A} k (m : B A) (P Q : bs -> A -> Prop) : gives k m P -> (forall s x, P s x -> Q s x) -> gives k m Q.
Proof. intros H HQ s x s' Hi E. destruct (H _ _ _ Hi E) as (I & X & HP). split; [exact I|]. split; [exact X|]. auto. Qed.
Lemma gives_mapl {A C} k (f : A -> B C) (P : bs -> A -> C -> Prop) l : Forall (fun x => gives k (f x) (fun s => P s x)) l ->
  gives k (bmapl f l) (fun s ys => Forall2 (P s) l ys).
Proof.
  induction 1 as [|x l Hx _ IH]; cbn [bmapl].
  - apply gives_ret. constructor.
  - eapply gives_bind; [exact Hx|]. intro y. eapply gives_bind; [exact IH|]. intro ys. apply gives_ret. intros s H1 H2. now constructor.
Qed.
(** The log does not matter. *)
Lemma gives_log {A} k (m : B A) (P : bs -> A -> Prop) :
  (forall s x s', m s = (Ok x, s') -> v_vars s' = v_vars s /\ v_nv s' = v_nv s) -> (forall s x, P s x) -> gives k m P.
Proof.
  intros H HP s x s' Hi E. destruct (H _ _ _ E) as (E1 & E2). destruct s as [vs n lg], s' as [vs' n' lg']. cbn in E1, E2. subst.
  split; [exact Hi|]. split; [|intros; apply HP]. split; [cbn; lia|]. split; auto.
Qed.
Lemma gives_error k : gives k b_error (fun _ _ => True).
Proof. apply gives_log; [|auto]. intros s x s'. unfold b_error. destruct (log_error (v_log s)) as [r l]. intro E. injection E as _ <-. auto. Qed.
Lemma gives_warn k : gives k b_warn (fun _ _ => True).
Proof. apply gives_log; [|auto]. intros s x s'. unfold b_warn. intro E. injection E as _ <-. auto. Qed.
Lemma gives_raise {A} k (P : bs -> A -> Prop) : gives k b_raise P.
Proof. intros s x s' _. unfold b_raise. destruct (log_error (v_log s)). discriminate. Qed.

Lemma str_eqb_eq x y : pystr_eqb x y = true -> x = y.
Proof. revert y. induction x as [|a x IH]; intros [|b y]; cbn; try discriminate; [auto|]. rewrite Bool.andb_true_iff, N.eqb_eq. intros (-> & H). f_equal. auto. Qed.
Lemma str_eqb_refl x : pystr_eqb x x = true.
Proof. induction x; cbn; [reflexivity|]. now rewrite N.eqb_refl. Qed.

Lemma gives_var k pat v : gives k (build_var v) (fun s u => stands (pat s) (env_of s) (AVar v) u).
Proof.
  assert (G : forall s t, inv k s -> assoc pystr_eqb v (v_vars s) = Some t -> forall p, stands p (env_of s) (AVar v) t).
  { intros s t Hi E p. destruct (env_shape _ _ _ _ Hi E) as (i & -> & Ei & _). unfold shape. destruct (pystr_eqb v (s2p "_")) eqn:Ev.
    - apply str_eqb_eq in Ev. subst v. now constructor.
    - constructor; [|exact Ei]. intros ->. rewrite str_eqb_refl in Ev. discriminate. }
  intros s u s' Hi E. unfold build_var in E. destruct (assoc pystr_eqb v (v_vars s)) as [t|] eqn:Ea.
  - injection E as <- <-. split; [exact Hi|]. split; [apply ext_refl|]. intros s2 J (_ & Y & _). apply G; auto.
  - assert (E' : u = shape v (v_nv s) /\ s' = mkbs ((v, shape v (v_nv s)) :: v_vars s) (N.succ (v_nv s)) (v_log s)).
    { injection E as <- <-. split; reflexivity. }
    destruct E' as (-> & ->). clear E.
    set (s1 := mkbs ((v, shape v (v_nv s)) :: v_vars s) (N.succ (v_nv s)) (v_log s)).
    assert (An : assoc pystr_eqb v (v_vars s1) = Some (shape v (v_nv s))). { cbn. now rewrite str_eqb_refl. }
    assert (Ao : forall x, x <> v -> assoc pystr_eqb x (v_vars s1) = assoc pystr_eqb x (v_vars s)).
    { intros x Hx. cbn. destruct (pystr_eqb x v) eqn:Ex; [apply str_eqb_eq in Ex; contradiction|reflexivity]. }
    assert (En : env_of s1 v = Some (v_nv s)). { unfold env_of. rewrite An. unfold shape. now destruct (pystr_eqb v (s2p "_")). }
    assert (Eo : forall x, x <> v -> env_of s1 x = env_of s x). { intros x Hx. unfold env_of. now rewrite Ao. }
    assert (D : forall x, x = v \/ x <> v). { intro x. destruct (pystr_eqb x v) eqn:Ex; [left; now apply str_eqb_eq|right; intros ->; rewrite str_eqb_refl in Ex; discriminate]. }
    assert (I1 : inv k s1).
    { destruct Hi as (K & HS & HJ). split; [cbn; lia|]. split.
      - intros x t Et. destruct (D x) as [->|Hx].
        + rewrite An in Et. injection Et as <-. exists (v_nv s). split; [reflexivity|cbn; lia].
        + rewrite Ao in Et by exact Hx. destruct (HS _ _ Et) as (i & Ht & Hr). exists i. split; [exact Ht|cbn; lia].
      - assert (R : forall x i, env_of s x = Some i -> (i < v_nv s)%N).
        { intros x i Ex. eapply (env_range k s x i); [split; [exact K|split; assumption]|exact Ex]. }
        intros x y i Ex Ey. destruct (D x) as [->|Hx], (D y) as [->|Hy]; auto.
        + rewrite En in Ex. rewrite Eo in Ey by exact Hy. apply R in Ey. injection Ex as <-. lia.
        + rewrite En in Ey. rewrite Eo in Ex by exact Hx. apply R in Ex. injection Ey as <-. lia.
        + rewrite Eo in Ex, Ey by assumption. eauto. }
    split; [exact I1|]. split.
    + split; [cbn; lia|]. split.
      * intros x t Et. destruct (D x) as [->|Hx]; [congruence|]. now rewrite Ao.
      * intros x i Ex. destruct (D x) as [->|Hx]; [rewrite En in Ex; injection Ex as <-; right; cbn; lia|]. rewrite Eo in Ex by exact Hx. now left.
    + intros s2 J (_ & Y & _). apply G; auto.
Qed.
Definition pat_of (pat : bool) (k : N) (s : bs) : option (N * N) := if pat then Some (k, v_nv s) else None.
Lemma gives_wild k : gives k (w <- b_fresh ;; bret (TWild w))%B (fun s u => exists i, u = TWild i /\ (k <= i < v_nv s)%N).
Proof.
  intros s u s' Hi E. unfold bbind, b_fresh, bret in E. cbn in E. injection E as <- <-.
  destruct Hi as (K & HS & HJ). split; [|split].
  - split; [cbn; lia|]. split; [|exact HJ]. intros x t Et. destruct (HS _ _ Et) as (i & Ht & Hr). exists i. split; [exact Ht|cbn; lia].
  - split; [cbn; lia|]. split; auto.
  - intros s2 _ (Y & _). exists (v_nv s). split; [reflexivity|]. cbn in Y. lia.
Qed.

Lemma gives_term k pat t : gives k (build_term pat t) (fun s u => stands (pat_of pat k s) (env_of s) t u).
Proof.
  induction t as [b|x|s|v|f ts an IHt IHa|ts IHt|h t IHh IHt|op a IHa|op l r IHl IHr] using ast_ind'; cbn [build_term].
  - apply gives_ret. constructor.
  - apply gives_ret. constructor.
  - apply gives_ret. constructor.
  - apply gives_var.
  - eapply gives_bind; [apply gives_mapl, IHt|]. intro us. eapply gives_bind; [apply gives_mapl, IHa|]. intro vs.
    apply gives_ret. intros s H1 H2. econstructor; [exact H2|exact H1|now apply mk_set_of].
  - eapply gives_bind; [apply gives_mapl, IHt|]. intro us. apply gives_ret. intros s H. now constructor.
  - eapply gives_bind; [exact IHh|]. intro u. eapply gives_bind; [exact IHt|]. intro v. apply gives_ret. intros s H1 H2. now constructor.
  - destruct pat.
    + eapply gives_weak; [apply gives_wild|]. cbv beta. intros s u (i & -> & Hi). eapply st_un_any; [reflexivity|exact Hi].
    + eapply gives_bind; [exact IHa|]. intro u. apply gives_ret. intros s H. now constructor.
  - destruct pat.
    + eapply gives_weak; [apply gives_wild|]. cbv beta. intros s u (i & -> & Hi). eapply st_bin_any; [reflexivity|exact Hi].
    + eapply gives_bind; [exact IHl|]. intro u. eapply gives_bind; [exact IHr|]. intro v. apply gives_ret. intros s H1 H2. now constructor.
Qed.
Lemma gives_plain k t : gives k (build_term false t) (fun s u => stands None (env_of s) t u).
Proof. apply (gives_term k false). Qed.
Lemma gives_lit k l : gives k (build_lit l) (fun s h => let '(f, us, ws) := h in stands None (env_of s) (lit_ast l) (TLit f us ws)).
Proof.
  unfold build_lit. eapply gives_bind; [apply gives_mapl; apply Forall_forall; intros; apply gives_plain|]. intro us.
  eapply gives_bind; [apply gives_mapl; apply Forall_forall; intros; apply gives_plain|]. intro vs.
  apply gives_ret. intros s H1 H2. unfold lit_ast. econstructor; [exact H2|exact H1|now apply mk_set_of].
Qed.

Lemma gives_query acts k t : gives k (build_query acts t) (fun s q => asks acts (env_of s) t q).
Proof.
  assert (OP : forall op l r, op <> BAnd -> op <> BOr -> op <> BUnify ->
    gives k ((if is_comp op then bret tt else b_error) ;; x <- build_term false (ABin op l r) ;; bret (QTerm x))%B (fun s q => asks acts (env_of s) (ABin op l r) q)).
  { intros op l r H1 H2 H3. eapply gives_bind with (P := fun _ _ => True).
    - destruct (is_comp op); [apply gives_ret; auto|apply gives_error].
    - intros _. eapply gives_bind; [apply gives_plain|]. intro u. apply gives_ret. intros s H _. now constructor. }
  induction t as [b|x|s|v|f ts an IHt IHa|ts IHt|h t IHh IHt|op a IHa|op l r IHl IHr] using ast_ind'; cbn [build_query].
  - destruct b; apply gives_ret; constructor.
  - apply gives_raise.
  - apply gives_raise.
  - eapply gives_bind; [apply gives_plain|]. intro u. apply gives_ret. intros s H. now constructor.
  - eapply gives_bind; [apply gives_plain|]. intro u. destruct (actions_lookup acts f (List.length ts)) as [a|e] eqn:Ea.
    + apply gives_ret. intros s H. now constructor.
    + eapply gives_bind with (P := fun _ _ => True).
      * destruct (has_dot f); [apply gives_warn|apply gives_ret; auto].
      * intros _. apply gives_ret. intros s _ H. constructor; [exact H|]. intros a Ha. congruence.
  - apply gives_fail.
  - apply gives_fail.
  - destruct op; try apply gives_fail. eapply gives_bind; [exact IHa|]. intro q. apply gives_ret. intros s H. now constructor.
  - destruct op as [n| | |c| | | |]; try (apply OP; discriminate).
    + eapply gives_bind; [apply gives_plain|]. intro u. eapply gives_bind; [apply gives_plain|]. intro v. apply gives_ret. intros s H1 H2. now constructor.
    + eapply gives_bind; [exact IHl|]. intro u. eapply gives_bind; [exact IHr|]. intro v. apply gives_ret. intros s H1 H2. now constructor.
    + eapply gives_bind; [exact IHl|]. intro u. eapply gives_bind; [exact IHr|]. intro v. apply gives_ret. intros s H1 H2. now constructor.
Qed.

Lemma each_weak {A C} (P Q : A -> C -> Prop) l us : Forall (fun t => forall u, P t u -> Q t u) l -> Forall2 P l us -> Forall2 Q l us.
Proof. intros H HF. induction HF; inversion H; subst; constructor; auto. Qed.
Lemma stands_wide env k1 k2 k k' t : forall u, (k <= k1)%N -> (k2 <= k')%N -> stands (Some (k1, k2)) env t u -> stands (Some (k, k')) env t u.
Proof.
  intros u H1 H2. revert u. induction t as [b|x|s|v|f ts an IHt IHa|ts IHt|h t IHh IHt|op a IHa|op l r IHl IHr] using ast_ind'; intros u H; inversion H; subst;
    try (constructor; auto; fail); try discriminate.
  - econstructor; [eapply each_weak; [exact IHt|eassumption]|eapply each_weak; [exact IHa|eassumption]|assumption].
  - constructor. eapply each_weak; [exact IHt|eassumption].
  - match goal with X : Some _ = Some _ |- _ => injection X as <- <- end. eapply st_un_any; [reflexivity|lia].
  - match goal with X : Some _ = Some _ |- _ => injection X as <- <- end. eapply st_bin_any; [reflexivity|lia].
Qed.

Lemma gives_pattern k t : gives k (build_pattern t) (fun s p => exists own, fresh_names k (v_nv s) own /\
  (forall x y i, own x = Some i -> env_of s y <> Some i) /\ stands (Some (k, v_nv s)) own t p).
Proof.
  intros s p s' Hi E. unfold build_pattern in E. destruct (build_term true t (mkbs [] (v_nv s) (v_log s))) as [r s1] eqn:Et.
  injection E as -> <-. destruct (gives_term (v_nv s) true t _ _ _ (inv0 _ _) Et) as (I1 & X1 & H1).
  specialize (H1 s1 I1 (ext_refl _)). unfold pat_of in H1. destruct X1 as (N1 & _). cbn [v_nv] in N1.
  assert (Hk : (k <= v_nv s)%N) by apply Hi.
  split; [|split].
  - destruct Hi as (K & HS & HJ). split; [cbn; lia|]. split; [|exact HJ]. intros x u Eu. destruct (HS _ _ Eu) as (i & Hu & Hr). exists i. split; [exact Hu|cbn; lia].
  - split; [cbn; lia|]. split; auto.
  - intros s2 J (Y1 & _ & Y3). cbn [v_nv] in Y1. exists (env_of s1). destruct (inv_fresh _ _ I1) as (F1 & F2). split; [|split].
    + split; [intros x i Ex; apply F1 in Ex; lia|exact F2].
    + intros x y i Ex Ey. apply F1 in Ex. destruct (Y3 _ _ Ey) as [Ey'|Ey']; [|cbn in Ey'; lia].
      change (env_of (mkbs (v_vars s) (v_nv s1) (v_log s1)) y) with (env_of s y) in Ey'. apply (env_range _ _ _ _ Hi) in Ey'. lia.
    + eapply stands_wide; [..|exact H1]; lia.
Qed.

Lemma order_app acts k k' env l1 : forall s1 l2 s2, order acts k k' env l1 s1 -> order acts k k' env l2 s2 -> order acts k k' env (l1 ++ l2) (s1 ++ s2).
Proof. intros s1 l2 s2 H1 H2. induction H1; cbn; [exact H2|now constructor|eapply od_replace; eassumption]. Qed.
Lemma order1 acts k k' env f s : orders acts k k' env f s -> order acts k k' env [f] [s].
Proof. intro H. constructor; [exact H|constructor]. Qed.

Lemma gives_concat acts k l : Forall (fun f => gives k (meaning acts f) (fun s ss => order acts k (v_nv s) (env_of s) [f] ss)) l ->
  gives k (bconcat (meaning acts) l) (fun s ss => order acts k (v_nv s) (env_of s) l ss).
Proof.
  induction 1 as [|f l Hf _ IH]; cbn [bconcat].
  - apply gives_ret. constructor.
  - eapply gives_bind; [exact Hf|]. intro y. eapply gives_bind; [exact IH|]. intro z. apply gives_ret. intros s H1 H2.
    change (f :: l) with ([f] ++ l). now apply order_app.
Qed.
Lemma gives_form acts k f : gives k (meaning acts f) (fun s ss => order acts k (v_nv s) (env_of s) [f] ss).
Proof.
  induction f as [ft t|c b IH|c ib eb IHi IHe|c b IH] using form_ind'; cbn [meaning].
  - destruct ft; try (eapply gives_bind; [apply gives_plain|]; intro u; apply gives_ret; intros s H; apply order1; now constructor).
    + eapply gives_bind; [apply gives_query|]. intro q. apply gives_ret. intros s H. apply order1. now constructor.
    + eapply gives_bind; [apply gives_pattern|]. intro p. eapply gives_bind; [apply gives_plain|]. intro u. apply gives_ret.
      intros s H (own & F & D & P). eapply od_replace; try eassumption. constructor.
  - eapply gives_bind; [apply gives_query|]. intro q. eapply gives_bind; [apply gives_concat, IH|]. intro l. apply gives_ret.
    intros s H1 H2. apply order1. now constructor.
  - eapply gives_bind; [apply gives_query|]. intro q. eapply gives_bind; [apply gives_concat, IHi|]. intro l. destruct eb as [eb|].
    + eapply gives_bind with (P := fun s n => exists l', n = Some l' /\ order acts k (v_nv s) (env_of s) eb l').
      * eapply gives_bind; [apply gives_concat, IHe|]. intro l'. apply gives_ret. intros s H. eauto.
      * intro n. apply gives_ret. intros s (l' & -> & H1) H2 H3. apply order1. now constructor.
    + eapply gives_bind with (P := fun s n => n = None); [apply gives_ret; auto|]. intro n. apply gives_ret. intros s -> H1 H2.
      apply order1. now constructor.
  - eapply gives_bind; [apply gives_query|]. intro q. eapply gives_bind; [apply gives_concat, IH|]. intro l. apply gives_ret.
    intros s H1 H2. apply order1. now constructor.
Qed.
Lemma gives_body acts k l : gives k (meanings acts l) (fun s ss => order acts k (v_nv s) (env_of s) l ss).
Proof. apply gives_concat, Forall_forall. intros. apply gives_form. Qed.

Lemma clause_gives {A} (m : B A) (P : bs -> A -> Prop) lg k x lg' k' : gives k m P -> clause m lg k = (Ok x, lg', k') ->
  (k <= k')%N /\ exists s, v_nv s = k' /\ fresh_names k k' (env_of s) /\ P s x.
Proof.
  intros H E. unfold clause in E. destruct (m (mkbs [] k lg)) as [r s] eqn:Em. injection E as -> <- <-.
  destruct (H _ _ _ (inv0 _ _) Em) as (I & X & HP). split; [apply I|]. exists s. split; [reflexivity|]. split; [now apply inv_fresh|]. apply HP; [exact I|apply ext_refl].
Qed.

Theorem rule_stands acts r lg k x lg' k' : clause (build_rule acts r) lg k = (Ok x, lg', k') ->
  (k <= k')%N /\ exists env, fresh_names k k' env /\ stands None env (lit_ast (ar_head r)) (r_head x) /\ asks acts env (ar_cons r) (r_query x).
Proof.
  intro E. eapply clause_gives in E as (K & s & <- & F & HP).
  2:{ unfold build_rule. eapply gives_bind; [apply gives_lit|]. intros [[f args] annots].
      eapply gives_bind; [apply gives_query|]. intro q. apply gives_ret.
      instantiate (1 := fun s x => stands None (env_of s) (lit_ast (ar_head r)) (r_head x) /\ asks acts (env_of s) (ar_cons r) (r_query x)).
      intros s H1 H2. now split. }
  split; [exact K|]. exists (env_of s). now split.
Qed.

Lemma plan_parts acts p lg k x lg' k' : clause (build_plan acts p) lg k = (Ok x, lg', k') ->
  p_trig x = ae_trig (ap_event p) /\ p_gt x = ae_gt (ap_event p) /\
  exists l, clause (clause_parts acts p) lg k = (Ok (p_functor x, p_hargs x, p_hannots x, p_ctx x, l), lg', k') /\ follows (p_code x) (Some 0%nat) (begin l).
Proof.
  unfold clause. intros E. destruct (build_plan acts p (mkbs [] k lg)) as [r s] eqn:E1. injection E as -> <- <-.
  enough (p_trig x = ae_trig (ap_event p) /\ p_gt x = ae_gt (ap_event p) /\ exists l, clause_parts acts p (mkbs [] k lg) = (Ok (p_functor x, p_hargs x, p_hannots x, p_ctx x, l), s) /\ follows (p_code x) (Some 0%nat) (begin l)) as (T & G & l & H1 & H2).
  { split; [exact T|]. split; [exact G|]. exists l. split; [|exact H2]. now rewrite H1. }
  unfold build_plan in E1. unfold clause_parts. unfold bbind at 1 in E1. unfold bbind at 1.
  destruct (build_lit (ae_head (ap_event p)) _) as [[[[f args] annots]|e] s1]; [|discriminate].
  unfold bbind at 1 in E1. unfold bbind at 1.
  destruct (match ap_ctx p with Some t => build_query acts t | None => bret QTrue end s1) as [[ctx|e] s2]; [|discriminate].
  unfold bbind at 1 in E1. unfold bbind at 1. destruct (ap_body p) as [b|].
  - destruct (compile_all acts b _ s2) as [[c|e] s3] eqn:Ec; [|discriminate]. apply compiled_follows in Ec. destruct Ec as (l & -> & Hf).
    unfold bbind at 1 in E1. destruct (annot_texts _) as [texts|e]; [|discriminate]. cbn [bret] in E1. injection E1 as <- <-.
    split; [reflexivity|]. split; [reflexivity|]. exists l. split; [reflexivity|exact Hf].
  - cbn [bret] in *. unfold bbind in E1. destruct (annot_texts _) as [texts|e]; [|discriminate]. cbn [bret] in E1. injection E1 as <- <-.
    split; [reflexivity|]. split; [reflexivity|].
    exists []. split; [reflexivity|]. exists (conts [mkinstr INoop None None]). split; [|apply conts_does].
    apply (ct_seq _ (Some 0%nat) [SNop] None []); [|constructor]. econstructor; [reflexivity|constructor].
Qed.

Definition ctx_asks acts env (c : option ast) (q : query) : Prop := match c with Some t => asks acts env t q | None => q = QTrue end.
Definition body_orders acts k k' env (b : option (list form)) (l : list stm) : Prop := match b with Some fs => order acts k k' env fs l | None => l = [] end.
Theorem plan_stands acts p lg k x lg' k' : clause (build_plan acts p) lg k = (Ok x, lg', k') ->
  (k <= k')%N /\ p_trig x = ae_trig (ap_event p) /\ p_gt x = ae_gt (ap_event p) /\
  exists env l, fresh_names k k' env /\ stands None env (lit_ast (ae_head (ap_event p))) (p_head x) /\
    match ap_ctx p with Some t => asks acts env t (p_ctx x) | None => p_ctx x = QTrue end /\
    match ap_body p with Some fs => order acts k k' env fs l | None => l = [] end /\
    follows (p_code x) (Some 0%nat) (begin l).
Proof.
  intro E. destruct (plan_parts _ _ _ _ _ _ _ E) as (T & G & l & E1 & HF).
  eapply clause_gives in E1 as (K & s & <- & F & HP).
  2:{ unfold clause_parts. eapply gives_bind; [apply gives_lit|]. intros [[f args] annots].
      eapply gives_bind with (P := fun s q => ctx_asks acts (env_of s) (ap_ctx p) q).
      { destruct (ap_ctx p); [apply gives_query|apply gives_ret; reflexivity]. }
      intro q. eapply gives_bind with (P := fun s l => body_orders acts k (v_nv s) (env_of s) (ap_body p) l).
      { destruct (ap_body p); [apply gives_body|apply gives_ret; reflexivity]. }
      intro l'. apply gives_ret.
      instantiate (1 := fun s x => let '(f, us, ws, c, l) := x in stands None (env_of s) (lit_ast (ae_head (ap_event p))) (TLit f us ws) /\
        ctx_asks acts (env_of s) (ap_ctx p) c /\ body_orders acts k (v_nv s) (env_of s) (ap_body p) l).
      intros s H1 H2 H3. split; [exact H3|]. split; [exact H2|exact H1]. }
  cbv beta iota in HP. destruct HP as (H1 & H2 & H3).
  split; [exact K|]. split; [exact T|]. split; [exact G|]. exists (env_of s), l. auto.
Qed.

Theorem head_stands l lg k f us ws lg' k' : clause (build_lit l) lg k = (Ok (f, us, ws), lg', k') ->
  (k <= k')%N /\ exists env, fresh_names k k' env /\ stands None env (lit_ast l) (TLit f us ws).
Proof. intro E. eapply clause_gives in E as (K & s & <- & F & HP); [|apply gives_lit]. split; [exact K|]. exists (env_of s). now split. Qed.
End WithPy.

Lemma fresh_apart k1 k2 k3 k4 env env' x y i : fresh_names k1 k2 env -> fresh_names k3 k4 env' -> (k2 <= k3)%N -> env x = Some i -> env' y <> Some i.
Proof. intros (H1 & _) (H2 & _) K E E'. apply H1 in E. apply H2 in E'. lia. Qed.

Lemma each_same {PY : Py} env ts : Forall (fun t => forall u, stands None env t u -> no_annots t -> forall u', stands None env t u' -> u' = u) ts ->
  forall us, Forall2 (stands None env) ts us -> fold_right and True (map no_annots ts) -> forall us', Forall2 (stands None env) ts us' -> us' = us.
Proof.
  induction 1 as [|t ts Ht _ IH]; intros us H N us' H'; inversion H; inversion H'; subst; [reflexivity|]. cbn in N. destruct N as (N1 & N2). f_equal; eauto.
Qed.
Lemma set_nil ws : set_of [] ws -> ws = [].
Proof. intros (H & _). destruct ws as [|w ws]; [reflexivity|]. destruct (H w (or_introl eq_refl)). Qed.
Theorem stands_same {PY : Py} env t : forall u, stands None env t u -> no_annots t -> forall u', stands None env t u' -> u' = u.
Proof.
  induction t as [b|x|s|v|f ts an IHt IHa|ts IHt|h t IHh IHt|op a IHa|op l r IHl IHr] using ast_ind'; intros u H N u' H'; cbn [no_annots] in N;
    inversion H; subst; inversion H'; subst; try discriminate; try congruence; try (exfalso; match goal with X : _ <> s2p "_" |- _ => apply X; reflexivity end).
  - destruct N as (-> & N).
    repeat match goal with X : Forall2 _ [] _ |- _ => inversion X; clear X; subst end.
    repeat match goal with X : set_of [] _ |- _ => apply set_nil in X; subst end. f_equal. eapply each_same; [exact IHt|eassumption..].
  - f_equal. eapply each_same; eassumption.
  - destruct N. f_equal; eauto.
  - f_equal; eauto.
  - destruct N. f_equal; eauto.
Qed.
