From Coq Require Import Lia.
From Verif Require Import Base Num Term Str World Engine Ast Names Unify Build WarnSpec.

Definition bwarns (s : bs) : nat := lg_warnings (v_log s).
Definition bstill {A} (m : B A) : Prop := forall s r s', m s = (r, s') -> bwarns s' = bwarns s.
Lemma bstill_ret {A} (x : A) : bstill (bret x).
Proof. intros s r s' E. injection E as _ <-. reflexivity. Qed.
Lemma bstill_bind {A C} (m : B A) (f : A -> B C) : bstill m -> (forall x, bstill (f x)) -> bstill (bbind m f).
Proof.
  intros Hm Hf s r s' E. unfold bbind in E. destruct (m s) as [[x|e] s1] eqn:E1; apply Hm in E1.
  - apply Hf in E. lia.
  - injection E as _ <-. exact E1.
Qed.
Lemma bstill_mapl {A C} (f : A -> B C) l : Forall (fun x => bstill (f x)) l -> bstill (bmapl f l).
Proof. induction 1 as [|x l H _ IH]; cbn; [apply bstill_ret|]. apply bstill_bind; [exact H|]. intro y. apply bstill_bind; [exact IH|]. intro. apply bstill_ret. Qed.
Lemma bstill_error : bstill b_error.
Proof.
  intros s r s' E. unfold b_error, log_error in E. destruct (lg_max (v_log s)) as [m|]; [destruct (Nat.leb _ _)|]; injection E as _ <-; reflexivity.
Qed.

Lemma binop_eq_and_or op : op = BAnd \/ op = BOr \/ (op <> BAnd /\ op <> BOr).
Proof. destruct op; auto; right; right; split; discriminate. Qed.

Section WithPy.
Context {PY : Py}.
Lemma bstill_var v : bstill (build_var v).
Proof. intros s x s' E. unfold build_var in E. destruct (assoc _ _ _); injection E as <- <-; reflexivity. Qed.
Lemma bstill_fresh : bstill b_fresh.
Proof. intros s x s' E. injection E as <- <-. reflexivity. Qed.
Lemma bstill_term p t : bstill (build_term p t).
Proof.
  induction t using ast_ind'; cbn [build_term]; try apply bstill_ret.
  - apply bstill_var.
  - apply bstill_bind; [now apply bstill_mapl|]. intro.
    apply bstill_bind; [now apply bstill_mapl|]. intro. apply bstill_ret.
  - apply bstill_bind; [now apply bstill_mapl|]. intro. apply bstill_ret.
  - apply bstill_bind; [assumption|]. intro. apply bstill_bind; [assumption|]. intro. apply bstill_ret.
  - destruct p; (apply bstill_bind; [apply bstill_fresh || assumption|]; intro); apply bstill_ret.
  - destruct p; (apply bstill_bind; [apply bstill_fresh || assumption|]; intro); [apply bstill_ret|].
    apply bstill_bind; [assumption|]. intro. apply bstill_ret.
Qed.
Lemma bbind_ok {A C} (m : B A) (f : A -> B C) s x s' : bbind m f s = (Ok x, s') -> exists y s1, m s = (Ok y, s1) /\ f y s1 = (Ok x, s').
Proof. unfold bbind. destruct (m s) as [[y|e] s1]; [|discriminate]. eauto. Qed.
Theorem query_reports acts t : forall s q s', build_query acts t s = (Ok q, s') -> exists n, unknown_actions acts t n /\ lg_warnings (v_log s') = (lg_warnings (v_log s) + n)%nat.
Proof.
  induction t as [b|x|z|v|f ts an _ _|ts _|h t _ _|op a IHa|op l r IHl IHr] using ast_ind'; intros s q s' E; cbn [build_query] in E.
  - exists 0%nat. split; [constructor|]. destruct b; injection E as _ <-; lia.
  - unfold b_raise in E. destruct (log_error _). discriminate.
  - unfold b_raise in E. destruct (log_error _). discriminate.
  - apply bbind_ok in E as (u & s1 & E1 & E2). apply bstill_var in E1. injection E2 as _ <-. exists 0%nat. split; [constructor|unfold bwarns in E1; lia].
  - apply bbind_ok in E as (u & s1 & E1 & E2). apply (bstill_term false (ALit f ts an)) in E1. unfold bwarns in E1.
    destruct (actions_lookup acts f (List.length ts)) as [a|e] eqn:Ea.
    + injection E2 as _ <-. exists 0%nat. split; [now apply (ua_known _ _ _ _ a)|lia].
    + apply bbind_ok in E2 as (w & s2 & E2 & E3). injection E3 as _ <-. destruct (has_dot f) eqn:Ed.
      * injection E2 as _ <-. exists 1%nat. split; [|cbn; lia]. apply ua_unknown; [|intros a Ha; congruence].
        apply existsb_exists in Ed as (c & Hc & Ec). apply N.eqb_eq in Ec. now subst.
      * injection E2 as _ <-. exists 0%nat. split; [|lia]. apply ua_belief. intro Hin. enough (has_dot f = true) by congruence.
        apply existsb_exists. exists 46%N. split; [exact Hin|reflexivity].
  - discriminate.
  - discriminate.
  - destruct op; try discriminate. apply bbind_ok in E as (u & s1 & E1 & E2). apply IHa in E1 as (n & Hn & W). injection E2 as _ <-. exists n. split; [now constructor|exact W].
  - assert (Z : forall (c : query -> query -> query), (x <- build_query acts l ;; y <- build_query acts r ;; bret (c x y))%B s = (Ok q, s') ->
      exists i j, unknown_actions acts l i /\ unknown_actions acts r j /\ lg_warnings (v_log s') = (lg_warnings (v_log s) + (i + j))%nat).
    { intros c X. apply bbind_ok in X as (u & s1 & E1 & X). apply bbind_ok in X as (w & s2 & E2 & X). injection X as _ <-.
      apply IHl in E1 as (i & Hi & W1). apply IHr in E2 as (j & Hj & W2). exists i, j. split; [exact Hi|]. split; [exact Hj|lia]. }
    destruct (binop_eq_and_or op) as [->|[->|[N1 N2]]].
    + destruct (Z QAnd E) as (i & j & Hi & Hj & W). exists (i + j)%nat. split; [now constructor|exact W].
    + destruct (Z QOr E) as (i & j & Hi & Hj & W). exists (i + j)%nat. split; [now constructor|exact W].
    + exists 0%nat. split; [now constructor|].
      assert (Y : bstill (match op with BUnify => (x <- build_term false l ;; y <- build_term false r ;; bret (QUnify x y))%B
        | _ => ((if is_comp op then bret tt else b_error) ;; x <- build_term false (ABin op l r) ;; bret (QTerm x))%B end)).
      { assert (Y1 : bstill (x <- build_term false l ;; y <- build_term false r ;; bret (QUnify x y))%B).
        { apply bstill_bind; [apply bstill_term|]. intro. apply bstill_bind; [apply bstill_term|]. intro. apply bstill_ret. }
        assert (Y2 : bstill ((if is_comp op then bret tt else b_error) ;; x <- build_term false (ABin op l r) ;; bret (QTerm x))%B).
        { apply bstill_bind; [destruct (is_comp op); [apply bstill_ret|apply bstill_error]|]. intro. apply bstill_bind; [apply bstill_term|]. intro. apply bstill_ret. }
        destruct op; assumption. }
      specialize (Y s (Ok q) s'). unfold bwarns in Y. rewrite Y; [lia|]. destruct op; try exact E; congruence.
Qed.

(** The warnings of a successful run. *)
Definition reports {A} (m : B A) (R : nat -> Prop) : Prop := forall s x s', m s = (Ok x, s') -> exists n, R n /\ bwarns s' = (bwarns s + n)%nat.
Lemma reports_still {A} (m : B A) (R : nat -> Prop) : bstill m -> R 0%nat -> reports m R.
Proof. intros H H0 s x s' E. exists 0%nat. split; [exact H0|]. apply H in E. lia. Qed.
Lemma reports_bind {A C} (m : B A) (f : A -> B C) (P Q R : nat -> Prop) : reports m P -> (forall x, reports (f x) Q) ->
  (forall i j, P i -> Q j -> R (i + j)%nat) -> reports (bbind m f) R.
Proof.
  intros Hm Hf HR s x s' E. apply bbind_ok in E as (y & s1 & E1 & E2). apply Hm in E1 as (i & Hi & W1). apply Hf in E2 as (j & Hj & W2).
  exists (i + j)%nat. split; [auto|lia].
Qed.
Lemma reports_then {A C} (m : B A) (f : A -> B C) (R : nat -> Prop) : reports m R -> (forall x, bstill (f x)) -> reports (bbind m f) R.
Proof.
  intros Hm Hf. apply reports_bind with (P := R) (Q := fun j => j = 0%nat); [exact Hm| |].
  - intro x. apply reports_still; [apply Hf|reflexivity].
  - intros i j Hi ->. now rewrite Nat.add_0_r.
Qed.
Lemma reports_after {A C} (m : B A) (f : A -> B C) (R : nat -> Prop) : bstill m -> (forall x, reports (f x) R) -> reports (bbind m f) R.
Proof.
  intros Hm Hf. apply reports_bind with (P := fun i => i = 0%nat) (Q := R); [now apply reports_still|exact Hf|].
  intros i j -> Hj. exact Hj.
Qed.
Lemma reports_query acts t : reports (build_query acts t) (unknown_actions acts t).
Proof. intros s x s' E. exact (query_reports acts t s x s' E). Qed.
Lemma bstill_pattern t : bstill (build_pattern t).
Proof.
  intros s r s' E. unfold build_pattern in E. destruct (build_term true t (mkbs [] (v_nv s) (v_log s))) as [r1 s1] eqn:E1.
  apply bstill_term in E1. injection E as _ <-. exact E1.
Qed.
Lemma bstill_lit l : bstill (build_lit l).
Proof.
  unfold build_lit. apply bstill_bind; [apply bstill_mapl, Forall_forall; intros; apply bstill_term|]. intro.
  apply bstill_bind; [apply bstill_mapl, Forall_forall; intros; apply bstill_term|]. intro. apply bstill_ret.
Qed.
Lemma reports_fold {A C} (f : A -> C -> B C) (R : A -> nat -> Prop) l : Forall (fun x => forall c, reports (f x c) (R x)) l ->
  forall c, reports (bfold f l c) (total R l).
Proof.
  induction 1 as [|x l H _ IH]; intro c; cbn [bfold].
  - apply reports_still; [apply bstill_ret|constructor].
  - apply reports_bind with (P := R x) (Q := total R l); [apply H|exact IH|]. intros i j Hi Hj. now constructor.
Qed.
Lemma reports_form acts f : forall c, reports (compile acts f c) (form_unknown acts f).
Proof.
  induction f as [ft t|c b IH|c ib eb IHi IHe|c b IH] using form_ind'; intro c0; cbn [compile]; cbv zeta.
  - destruct ft; try (apply reports_still; [|constructor; discriminate]; apply bstill_bind; [apply bstill_term|]; intro; apply bstill_ret).
    + apply reports_then; [|intro; apply bstill_ret]. intros s x s' E. apply reports_query in E as (n & Hn & W). exists n. split; [now constructor|exact W].
    + apply reports_still; [|constructor; discriminate]. apply bstill_bind; [apply bstill_pattern|]. intro.
      apply bstill_bind; [apply bstill_term|]. intro. apply bstill_ret.
  - apply reports_bind with (P := unknown_actions acts c) (Q := total (form_unknown acts) b); [apply reports_query| |intros; now constructor].
    intro q. apply reports_then; [now apply reports_fold|]. intro. apply bstill_ret.
  - cbn [new_instr]. destruct eb as [b'|].
    + apply reports_bind with (P := unknown_actions acts c)
        (Q := fun n => exists j k, total (form_unknown acts) ib j /\ total (form_unknown acts) b' k /\ n = (j + k)%nat); [apply reports_query| |].
      * intro q. apply reports_bind with (P := total (form_unknown acts) ib) (Q := total (form_unknown acts) b'); [now apply reports_fold| |].
        -- intro c3. apply reports_then; [now apply reports_fold|]. intro. apply bstill_ret.
        -- intros i j Hi Hj. eauto.
      * intros i n Hi (j & k & Hj & Hk & ->). rewrite Nat.add_assoc. now constructor.
    + apply reports_bind with (P := unknown_actions acts c) (Q := total (form_unknown acts) ib); [apply reports_query| |intros; now constructor].
      intro q. apply reports_then; [now apply reports_fold|]. intro. apply bstill_ret.
  - cbn [new_instr]. apply reports_bind with (P := unknown_actions acts c) (Q := total (form_unknown acts) b); [apply reports_query| |intros; now constructor].
    intro q. apply reports_then; [now apply reports_fold|]. intro. apply bstill_ret.
Qed.
Lemma reports_rule acts r : reports (build_rule acts r) (rule_unknown acts r).
Proof.
  unfold build_rule. apply reports_after; [apply bstill_lit|]. intros [[f args] annots].
  apply reports_then; [apply reports_query|]. intro. apply bstill_ret.
Qed.
Lemma reports_plan acts p : reports (build_plan acts p) (plan_unknown acts p).
Proof.
  unfold build_plan. cbv zeta. apply reports_after; [apply bstill_lit|]. intros [[f args] annots].
  apply reports_bind with (P := optional (unknown_actions acts) (ap_ctx p)) (Q := optional (total (form_unknown acts)) (ap_body p)).
  - destruct (ap_ctx p) as [t|]; [apply reports_query|]. apply reports_still; [apply bstill_ret|reflexivity].
  - intro ctx. apply reports_then.
    + destruct (ap_body p) as [b|].
      * apply reports_fold. apply Forall_forall. intros x _. apply reports_form.
      * apply reports_still; [apply bstill_ret|reflexivity].
    + intro c. apply bstill_bind; [|intro; apply bstill_ret]. intros s r s' E. injection E as _ <-. reflexivity.
  - intros i j Hi Hj. exists i, j. auto.
Qed.

Context {FR : Front}.
Lemma clause_reports_ok {A} (m : B A) (R : nat -> Prop) l k x l' k' : reports m R -> clause m l k = (Ok x, l', k') ->
  exists n, R n /\ lg_warnings l' = (lg_warnings l + n)%nat.
Proof.
  intros Hm E. unfold clause in E. destruct (m (mkbs [] k l)) as [r s] eqn:E1. injection E as -> <- <-. exact (Hm _ _ _ E1).
Qed.
Lemma wfor_reports {A} (f : A -> log -> world -> res unit * log * world) (R : A -> nat -> Prop) :
  (forall x l W l' W', f x l W = (Ok tt, l', W') -> exists n, R x n /\ lg_warnings l' = (lg_warnings l + n)%nat) ->
  forall items l W l' W', wfor f items l W = (Ok tt, l', W') -> exists n, total R items n /\ lg_warnings l' = (lg_warnings l + n)%nat.
Proof.
  intros Hf. induction items as [|x items IH]; intros l W l' W' E; cbn [wfor] in E.
  - injection E as <- <-. exists 0%nat. split; [constructor|lia].
  - destruct (f x l W) as [[[[]|e] l1] W1] eqn:E1; [|discriminate]. apply Hf in E1 as (i & Hi & X). apply IH in E as (j & Hj & Y).
    exists (i + j)%nat. split; [now constructor|lia].
Qed.
Theorem rules_report acts a rs l W l' W' : wfor (install_rule acts a) rs l W = (Ok tt, l', W') ->
  exists n, total (rule_unknown acts) rs n /\ lg_warnings l' = (lg_warnings l + n)%nat.
Proof.
  apply wfor_reports. clear. intros x l W l' W' E. unfold install_rule in E.
  destruct (clause (build_rule acts x) l (w_nv W)) as [[[r|e] l1] k] eqn:E1; [|discriminate]. injection E as <- _.
  exact (clause_reports_ok _ _ _ _ _ _ _ (reports_rule acts x) E1).
Qed.
Theorem plans_report acts a ps l W l' W' : wfor (install_plan acts a) ps l W = (Ok tt, l', W') ->
  exists n, total (plan_unknown acts) ps n /\ lg_warnings l' = (lg_warnings l + n)%nat.
Proof.
  apply wfor_reports. clear. intros x l W l' W' E. unfold install_plan in E.
  destruct (clause (build_plan acts x) l (w_nv W)) as [[[r|e] l1] k] eqn:E1; [|discriminate].
  destruct (add_plan a r (bst0, set_nv W k)) as [r1 [st W1]]. injection E as _ <- _.
  exact (clause_reports_ok _ _ _ _ _ _ _ (reports_plan acts x) E1).
Qed.
Theorem events_report n a gt ts l W l' W' : wfor (install_event n a gt) ts l W = (Ok tt, l', W') -> lg_warnings l' = lg_warnings l.
Proof.
  intro E. apply (wfor_reports _ (fun _ k => k = 0%nat)) in E as (k & Hk & ->).
  - assert (Z : k = 0%nat) by (induction Hk; subst; auto). lia.
  - clear. intros x l W l' W' E. unfold install_event in E.
    destruct (clause (build_lit x) l (w_nv W)) as [[[[[f args] annots]|e] l1] k] eqn:E1; [|discriminate].
    destruct (with_new _ _) as [r1 [st W1]]. injection E as _ <- _.
    refine (clause_reports_ok _ (fun k => k = 0%nat) _ _ _ _ _ _ E1). apply reports_still; [apply bstill_lit|reflexivity].
Qed.
End WithPy.
