(** Building agents: errors in the program are reported (C41). *)
From Verif Require Import Base Num Term Unify Str World Ast Names Engine Build BuildSpec.

Section WithPy.
Context {PY : Py} {FR : Front}.

(** Building counts at least one error if [bad]. *)
Definition counts {A} (m : B A) (bad : bool) : Prop := forall s x s',
  m s = (Ok x, s') -> (lg_errors (v_log s) + (if bad then 1 else 0) <= lg_errors (v_log s'))%nat.

Lemma counts_weaken {A} (m : B A) b : counts m b -> counts m false.
Proof. intros H s x s' E. apply H in E. destruct b; lia. Qed.

Lemma counts_ret {A} (x : A) : counts (bret x) false.
Proof. intros s y s' E. injection E as <- <-. lia. Qed.
Lemma counts_fail {A} e b : counts (@bfail A e) b.
Proof. intros s y s' E. discriminate. Qed.
Lemma counts_raise {A} b : counts (@b_raise A) b.
Proof. intros s y s' E. unfold b_raise in E. destruct (log_error _). discriminate. Qed.
Lemma counts_warn : counts b_warn false.
Proof. intros s y s' E. injection E as <- <-. cbn. lia. Qed.
Lemma counts_error : counts b_error true.
Proof.
  intros s y s' E. unfold b_error, log_error in E.
  destruct (lg_max (v_log s)); [destruct (Nat.leb _ _)|]; try discriminate;
    injection E as <- <-; cbn; lia.
Qed.
Lemma counts_bind {A C} (m : B A) (k : A -> B C) b1 b2 :
  counts m b1 -> (forall x, counts (k x) b2) -> counts (bbind m k) (b1 || b2).
Proof.
  intros Hm Hk s x s' E. unfold bbind in E. destruct (m s) as [[y|e] s1] eqn:E1; [|discriminate].
  apply Hm in E1. apply Hk in E. destruct b1, b2; cbn in *; lia.
Qed.
Lemma counts_bind0 {A C} (m : B A) (k : A -> B C) :
  counts m false -> (forall x, counts (k x) false) -> counts (bbind m k) false.
Proof. apply (counts_bind m k false false). Qed.

Lemma counts_mapl {A C} (f : A -> B C) l : Forall (fun x => counts (f x) false) l -> counts (bmapl f l) false.
Proof.
  induction 1 as [|x l H _ IH]; cbn; [apply counts_ret|].
  apply counts_bind0; [exact H|]. intro y. apply counts_bind0; [exact IH|]. intro. apply counts_ret.
Qed.

Lemma counts_var v : counts (build_var v) false.
Proof.
  intros s x s' E. unfold build_var in E. destruct (assoc _ _ _); injection E as <- <-; cbn; lia.
Qed.
Lemma counts_fresh : counts b_fresh false.
Proof. intros s x s' E. injection E as <- <-. cbn. lia. Qed.

Lemma counts_term p t : counts (build_term p t) false.
Proof.
  induction t using ast_ind'; cbn [build_term]; try apply counts_ret.
  - apply counts_var.
  - apply counts_bind0; [now apply counts_mapl|]. intro.
    apply counts_bind0; [now apply counts_mapl|]. intro. apply counts_ret.
  - apply counts_bind0; [now apply counts_mapl|]. intro. apply counts_ret.
  - apply counts_bind0; [assumption|]. intro. apply counts_bind0; [assumption|]. intro. apply counts_ret.
  - destruct p; (apply counts_bind0; [apply counts_fresh || assumption|]; intro); apply counts_ret.
  - destruct p; (apply counts_bind0; [apply counts_fresh || assumption|]; intro); [apply counts_ret|].
    apply counts_bind0; [assumption|]. intro. apply counts_ret.
Qed.

Lemma counts_lit l : counts (build_lit l) false.
Proof.
  unfold build_lit. apply counts_bind0; [apply counts_mapl, Forall_forall; intros; apply counts_term|]. intro.
  apply counts_bind0; [apply counts_mapl, Forall_forall; intros; apply counts_term|]. intro. apply counts_ret.
Qed.

Lemma counts_eq {A} (m : B A) b b' : counts m b -> b = b' -> counts m b'.
Proof. now intros H <-. Qed.

Lemma counts_query acts t : counts (build_query acts t) (negb (good_query t)).
Proof.
  induction t using ast_ind'; cbn [build_query good_query negb]; try apply counts_raise; try apply counts_fail.
  - destruct b; apply counts_ret.
  - apply counts_bind0; [apply counts_var|]. intro. apply counts_ret.
  - apply counts_bind0; [apply (counts_term false (ALit _ _ _))|]. intro.
    destruct (actions_lookup _ _ _); [apply counts_ret|].
    apply counts_bind0; [|intro; apply counts_ret].
    destruct (has_dot _); [apply counts_warn|apply counts_ret].
  - destruct op; try apply counts_fail.
    eapply counts_eq; [apply counts_bind; [exact IHt|intro; apply counts_ret]|]. apply orb_false_r.
  - assert (counts ((if is_comp op then bret tt else b_error);; (x <- build_term false (ABin op t1 t2);; bret (QTerm x)))%B
              (negb (is_comp op))) as D.
    { apply (counts_eq _ (negb (is_comp op) || false)); [|apply orb_false_r].
      apply counts_bind.
      - destruct (is_comp op); [apply counts_ret|apply counts_error].
      - intro. apply counts_bind0; [apply counts_term|]. intro. apply counts_ret. }
    assert (forall c, counts (x <- build_query acts t1;; y <- build_query acts t2;; bret (c x y : query))%B
              (negb (good_query t1 && good_query t2))) as D2.
    { intro c. apply (counts_eq _ (negb (good_query t1) || (negb (good_query t2) || false))).
      - apply counts_bind; [assumption|]. intro. apply counts_bind; [assumption|]. intro. apply counts_ret.
      - rewrite orb_false_r. symmetry. apply negb_andb. }
    destruct op; try exact D; try apply D2.
    apply counts_bind0; [apply counts_term|]. intro. apply counts_bind0; [apply counts_term|]. intro. apply counts_ret.
Qed.

Lemma counts_pattern t : counts (build_pattern t) false.
Proof.
  intros s x s' E. unfold build_pattern in E.
  destruct (build_term true t (mkbs [] (v_nv s) (v_log s))) as [r s1] eqn:E1.
  injection E as -> <-. apply counts_term in E1. cbn in *. exact E1.
Qed.

Lemma forallb_negb_step (a b : bool) : negb (a && b) = negb a || negb b.
Proof. now destruct a, b. Qed.

Lemma counts_fold {A C} (f : A -> C -> B C) (good : A -> bool) l :
  Forall (fun x => forall c, counts (f x c) (negb (good x))) l ->
  forall c, counts (bfold f l c) (negb (forallb good l)).
Proof.
  induction 1 as [|x l H _ IH]; intro c; cbn; [apply counts_ret|].
  eapply counts_eq; [apply counts_bind; [apply H|exact IH]|]. symmetry. apply negb_andb.
Qed.

Lemma counts_compile acts f : forall c, counts (compile acts f c) (negb (good_form f)).
Proof.
  induction f using form_ind'; intro c0; cbn [compile good_form].
  - destruct ft; try (apply counts_bind0; [apply counts_term|]; intro; apply counts_ret).
    + eapply counts_eq; [apply counts_bind; [apply counts_query|]|].
      * intro. apply counts_ret.
      * apply orb_false_r.
    + cbn [negb]. apply counts_bind0; [apply counts_pattern|]. intro.
      apply counts_bind0; [apply counts_term|]. intro. apply counts_ret.
  - eapply counts_eq; [apply counts_bind; [apply counts_query|intro q]|].
    + eapply counts_bind; [apply counts_fold; exact H|]. intro c2.
      destruct (new_instr _ _) as [k c4]. apply counts_ret.
    + now rewrite orb_false_r, negb_andb.
  - eapply counts_eq; [apply counts_bind; [apply counts_query|intro q]|].
    + destruct (new_instr _ _) as [tl c2].
      eapply counts_bind; [apply counts_fold; exact H|]. intro c3.
      instantiate (1 := negb match eb with Some b => forallb good_form b | None => true end).
      destruct eb as [b|].
      * destruct (new_instr _ _) as [k c5]. eapply counts_eq; [apply counts_bind; [apply counts_fold; exact H0|]|].
        -- intro. apply counts_ret.
        -- apply orb_false_r.
      * apply counts_ret.
    + now rewrite !negb_andb, orb_assoc.
  - destruct (new_instr _ _) as [tl cw].
    eapply counts_eq; [apply counts_bind; [apply counts_query|intro q]|].
    + eapply counts_bind; [apply counts_fold; exact H|]. intro c2. apply counts_ret.
    + now rewrite orb_false_r, negb_andb.
Qed.

Lemma counts_rule acts r : counts (build_rule acts r) (negb (good_query (ar_cons r))).
Proof.
  unfold build_rule. apply (counts_eq _ (false || (negb (good_query (ar_cons r)) || false))); [|now rewrite orb_false_r].
  apply counts_bind; [apply counts_lit|]. intros [[f args] annots].
  apply counts_bind; [apply counts_query|]. intro. apply counts_ret.
Qed.

Lemma counts_plan acts p : counts (build_plan acts p) (negb (good_plan p)).
Proof.
  unfold build_plan, good_plan.
  set (gc := match ap_ctx p with Some t => good_query t | None => true end).
  set (gb := match ap_body p with Some b => forallb good_form b | None => true end).
  apply (counts_eq _ (false || (negb gc || (negb gb || (false || false))))).
  2: { cbn. now rewrite orb_false_r, negb_andb. }
  apply counts_bind; [apply counts_lit|]. intros [[f args] annots].
  apply counts_bind.
  { unfold gc. destruct (ap_ctx p); [apply counts_query|apply counts_ret]. }
  intro ctx. apply counts_bind.
  { unfold gb. destruct (ap_body p); [|apply counts_ret].
    apply counts_fold. apply Forall_forall. intros x _ c. apply counts_compile. }
  intro c. apply counts_bind.
  { intros s x s' E. injection E as _ <-. lia. }
  intro. apply counts_ret.
Qed.

Lemma clause_counts {A} (m : B A) b l k x l' k' : counts m b -> clause m l k = (Ok x, l', k') ->
  (lg_errors l + (if b then 1 else 0) <= lg_errors l')%nat.
Proof.
  intros H E. unfold clause in E. destruct (m (mkbs [] k l)) as [r s] eqn:E1.
  injection E as -> <- <-. apply H in E1. exact E1.
Qed.

Lemma wfor_counts {A} (f : A -> log -> world -> res unit * log * world) (good : A -> bool) :
  (forall x l W l' W', f x l W = (Ok tt, l', W') ->
     (lg_errors l + (if good x then 0 else 1) <= lg_errors l')%nat) ->
  forall items l W u l' W', wfor f items l W = (Ok u, l', W') ->
     (lg_errors l + (if forallb good items then 0 else 1) <= lg_errors l')%nat.
Proof.
  intros Hf. induction items as [|x items IH]; cbn [wfor forallb]; intros l W u l' W' E.
  - injection E as <- <- <-. lia.
  - destruct (f x l W) as [[[[]|e] l1] W1] eqn:E1; [|discriminate].
    apply Hf in E1. apply IH in E. destruct (good x), (forallb good items); cbn; lia.
Qed.

Lemma build_ok_good n acts path g W a W' :
  build_agent_from_ast n acts path g W = (Ok a, W') -> good_agent g = true.
Proof.
  unfold build_agent_from_ast. destruct (make_name _ _) as [name|]; [|discriminate].
  destruct (wfor (install_rule _ _) _ _ _) as [[[u1|] l1] W1] eqn:E1; [|discriminate].
  destruct (wfor (install_plan _ _) _ _ _) as [[[u2|] l2] W2] eqn:E2; [|discriminate].
  destruct (wfor (install_event _ _ GtBelief) _ _ _) as [[[u3|] l3] W3] eqn:E3; [|discriminate].
  destruct (wfor (install_event _ _ GtAchieve) _ _ _) as [[[u4|] l4] W4] eqn:E4; [|discriminate].
  intro H. assert (lg_errors l4 = 0%nat) as Z.
  { unfold log_throw in H. destruct (lg_errors l4); [reflexivity|discriminate]. }
  apply (wfor_counts _ (fun r => good_query (ar_cons r))) in E1.
  2: { intros r l V l' V' E. unfold install_rule in E.
       destruct (clause _ _ _) as [[[x|] l0] k] eqn:C; [|discriminate]. injection E as <- <-.
       apply (clause_counts _ _ _ _ _ _ _ (counts_rule acts r)) in C. destruct (good_query (ar_cons r)); cbn in *; lia. }
  apply (wfor_counts _ good_plan) in E2.
  2: { intros p l V l' V' E. unfold install_plan in E.
       destruct (clause _ _ _) as [[[x|] l0] k] eqn:C; [|discriminate].
       destruct (add_plan _ _ _) as [r [s1 V1]]. injection E as _ <- <-.
       apply (clause_counts _ _ _ _ _ _ _ (counts_plan acts p)) in C. destruct (good_plan p); cbn in *; lia. }
  assert (forall gt x l V l' V', install_event n (List.length (w_agents W)) gt x l V = (Ok tt, l', V') ->
     (lg_errors l + (if (fun _ => true) x then 0 else 1) <= lg_errors l')%nat) as HE.
  { intros gt x l V l' V' E. unfold install_event in E.
    destruct (clause _ _ _) as [[[[[f args] annots]|] l0] k] eqn:C; [|discriminate].
    destruct (with_new _ _) as [r [s1 V1]]. injection E as _ <- <-.
    apply (clause_counts _ _ _ _ _ _ _ (counts_lit x)) in C. cbn in *; lia. }
  apply (wfor_counts _ (fun _ => true) (HE GtBelief)) in E3.
  apply (wfor_counts _ (fun _ => true) (HE GtAchieve)) in E4.
  unfold good_agent.
  destruct (forallb _ (ag_rules g)), (forallb _ (ag_plans g)); cbn in *; try reflexivity; lia.
Qed.

End WithPy.
