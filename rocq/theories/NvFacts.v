(** Identities of variables are given out in increasing order: nothing lowers the
    counter of variables. *)
From Coq Require Import Lia.
From Verif Require Import Base Num Term Unify FuelFacts Str World Engine Ast Names Build.

Definition ngrows {A} (m : B A) : Prop := forall s r s', m s = (r, s') -> (v_nv s <= v_nv s')%N.
Lemma ngrows_ret {A} (x : A) : ngrows (bret x).
Proof. intros s r s' E. injection E as _ <-. lia. Qed.
Lemma ngrows_fail {A} e : ngrows (@bfail A e).
Proof. intros s r s' E. injection E as _ <-. lia. Qed.
Lemma ngrows_bind {A C} (m : B A) (f : A -> B C) : ngrows m -> (forall x, ngrows (f x)) -> ngrows (bbind m f).
Proof.
  intros Hm Hf s r s' E. unfold bbind in E. destruct (m s) as [[x|e] s1] eqn:E1; apply Hm in E1.
  - apply Hf in E. lia.
  - injection E as _ <-. exact E1.
Qed.
Lemma ngrows_mapl {A C} (f : A -> B C) l : Forall (fun x => ngrows (f x)) l -> ngrows (bmapl f l).
Proof. induction 1 as [|x l H _ IH]; cbn; [apply ngrows_ret|]. apply ngrows_bind; [exact H|]. intro y. apply ngrows_bind; [exact IH|]. intro. apply ngrows_ret. Qed.
Lemma ngrows_fold {A C} (f : A -> C -> B C) l : Forall (fun x => forall c, ngrows (f x c)) l -> forall c, ngrows (bfold f l c).
Proof. induction 1 as [|x l H _ IH]; intro c; cbn [bfold]; [apply ngrows_ret|]. apply ngrows_bind; [apply H|exact IH]. Qed.
Lemma ngrows_error : ngrows b_error.
Proof. intros s r s' E. unfold b_error in E. destruct (log_error (v_log s)) as [r1 l]. injection E as _ <-. cbn; lia. Qed.
Lemma ngrows_raise {A} : ngrows (@b_raise A).
Proof. intros s r s' E. unfold b_raise in E. destruct (log_error (v_log s)) as [r1 l]. injection E as _ <-. cbn; lia. Qed.
Lemma ngrows_warn : ngrows b_warn.
Proof. intros s r s' E. injection E as _ <-. cbn; lia. Qed.
Lemma ngrows_fresh : ngrows b_fresh.
Proof. intros s r s' E. injection E as _ <-. cbn; lia. Qed.

Section WithPy.
Context {PY : Py}.
Lemma ngrows_var v : ngrows (build_var v).
Proof. intros s r s' E. unfold build_var in E. destruct (assoc _ _ _); injection E as _ <-; cbn; lia. Qed.
Lemma ngrows_term p t : ngrows (build_term p t).
Proof.
  induction t using ast_ind'; cbn [build_term]; try apply ngrows_ret.
  - apply ngrows_var.
  - apply ngrows_bind; [now apply ngrows_mapl|]. intro.
    apply ngrows_bind; [now apply ngrows_mapl|]. intro. apply ngrows_ret.
  - apply ngrows_bind; [now apply ngrows_mapl|]. intro. apply ngrows_ret.
  - apply ngrows_bind; [assumption|]. intro. apply ngrows_bind; [assumption|]. intro. apply ngrows_ret.
  - destruct p; (apply ngrows_bind; [apply ngrows_fresh || assumption|]; intro); apply ngrows_ret.
  - destruct p; (apply ngrows_bind; [apply ngrows_fresh || assumption|]; intro); [apply ngrows_ret|].
    apply ngrows_bind; [assumption|]. intro. apply ngrows_ret.
Qed.
Lemma ngrows_query acts t : ngrows (build_query acts t).
Proof.
  induction t as [b|x|z|v|f ts an _ _|ts _|h t _ _|op a IHa|op l r IHl IHr] using ast_ind'; cbn [build_query].
  - destruct b; apply ngrows_ret.
  - apply ngrows_raise.
  - apply ngrows_raise.
  - apply ngrows_bind; [apply ngrows_var|]. intro. apply ngrows_ret.
  - apply ngrows_bind; [apply (ngrows_term false (ALit f ts an))|]. intro x. destruct (actions_lookup acts f (List.length ts)); [apply ngrows_ret|].
    apply ngrows_bind; [destruct (has_dot f); [apply ngrows_warn|apply ngrows_ret]|]. intro. apply ngrows_ret.
  - apply ngrows_fail.
  - apply ngrows_fail.
  - destruct op; try apply ngrows_fail. apply ngrows_bind; [assumption|]. intro. apply ngrows_ret.
  - assert (Z : ngrows ((if is_comp op then bret tt else b_error) ;; x <- build_term false (ABin op l r) ;; bret (QTerm x))%B).
    { apply ngrows_bind; [destruct (is_comp op); [apply ngrows_ret|apply ngrows_error]|]. intro. apply ngrows_bind; [apply ngrows_term|]. intro. apply ngrows_ret. }
    destruct op; try exact Z; (apply ngrows_bind; [assumption || apply ngrows_term|]; intro; apply ngrows_bind; [assumption || apply ngrows_term|]; intro; apply ngrows_ret).
Qed.
Lemma ngrows_pattern t : ngrows (build_pattern t).
Proof.
  intros s r s' E. unfold build_pattern in E. destruct (build_term true t (mkbs [] (v_nv s) (v_log s))) as [r1 s1] eqn:E1.
  apply ngrows_term in E1. injection E as _ <-. exact E1.
Qed.
Lemma ngrows_form acts f : forall c, ngrows (compile acts f c).
Proof.
  induction f as [ft t|c b IH|c ib eb IHi IHe|c b IH] using form_ind'; intro c0; cbn [compile]; cbv zeta.
  - destruct ft; try (apply ngrows_bind; [apply ngrows_term|]; intro; apply ngrows_ret).
    + apply ngrows_bind; [apply ngrows_query|]. intro. apply ngrows_ret.
    + apply ngrows_bind; [apply ngrows_pattern|]. intro. apply ngrows_bind; [apply ngrows_term|]. intro. apply ngrows_ret.
  - apply ngrows_bind; [apply ngrows_query|]. intro. apply ngrows_bind; [now apply ngrows_fold|]. intro. apply ngrows_ret.
  - cbn [new_instr]. apply ngrows_bind; [apply ngrows_query|]. intro. apply ngrows_bind; [now apply ngrows_fold|]. intro.
    destruct eb as [b'|]; [|apply ngrows_ret]. apply ngrows_bind; [now apply ngrows_fold|]. intro. apply ngrows_ret.
  - cbn [new_instr]. apply ngrows_bind; [apply ngrows_query|]. intro. apply ngrows_bind; [now apply ngrows_fold|]. intro. apply ngrows_ret.
Qed.
Lemma ngrows_body acts l c : ngrows (compile_all acts l c).
Proof. apply ngrows_fold, Forall_forall. intros. apply ngrows_form. Qed.
Lemma ngrows_lit l : ngrows (build_lit l).
Proof.
  unfold build_lit. apply ngrows_bind; [apply ngrows_mapl, Forall_forall; intros; apply ngrows_term|]. intro.
  apply ngrows_bind; [apply ngrows_mapl, Forall_forall; intros; apply ngrows_term|]. intro. apply ngrows_ret.
Qed.
Lemma ngrows_event e : ngrows (build_event e).
Proof. unfold build_event. destruct (has_op _); [apply ngrows_raise|]. apply ngrows_bind; [apply ngrows_lit|]. intros [[? ?] ?]. apply ngrows_ret. Qed.
Lemma ngrows_rule acts r : ngrows (build_rule acts r).
Proof.
  unfold build_rule. apply ngrows_bind; [apply ngrows_lit|]. intros [[? ?] ?].
  apply ngrows_bind; [apply ngrows_query|]. intro. apply ngrows_ret.
Qed.
Lemma ngrows_plan acts p : ngrows (build_plan acts p).
Proof.
  unfold build_plan. cbv zeta. apply ngrows_bind; [apply ngrows_lit|]. intros [[? ?] ?].
  apply ngrows_bind; [destruct (ap_ctx p); [apply ngrows_query|apply ngrows_ret]|]. intro.
  apply ngrows_bind; [destruct (ap_body p); [apply ngrows_body|apply ngrows_ret]|]. intro.
  apply ngrows_bind; [intros s r s' E; injection E as _ <-; lia|]. intro. apply ngrows_ret.
Qed.
Lemma ngrows_clause {A} (m : B A) l k r l' k' : ngrows m -> clause m l k = (r, l', k') -> (k <= k')%N.
Proof. intros H E. unfold clause in E. destruct (m _) as [r1 s] eqn:E1. apply H in E1. injection E as _ _ <-. exact E1. Qed.

(** * Copies *)
Lemma nv_smapl (R : fst_ -> fst_ -> Prop) (f : term -> fst_ -> res term * fst_) ts : (forall m, R m m) -> (forall a b c, R a b -> R b c -> R a c) ->
  (forall t m r m', f t m = (r, m') -> R m m') -> forall m r m', smapl f ts m = (r, m') -> R m m'.
Proof.
  intros Hr Ht Hf. induction ts as [|t ts IH]; intros m r m' E; cbn in E; [inversion E; subst; apply Hr|].
  destruct (f t m) as [r1 m1] eqn:E1. apply Hf in E1. destruct r1; [|inversion E; subst; assumption].
  destruct (smapl f ts m1) as [r2 m2] eqn:E2. apply IH in E2. destruct r2; inversion E; subst; eapply Ht; eassumption.
Qed.
Lemma nv_freeze_rel (R : fst_ -> fst_ -> Prop) : (forall m, R m m) -> (forall a b c, R a b -> R b c -> R a c) ->
  (forall v m, R m ((v, snd m) :: fst m, N.succ (snd m))) -> forall n s t m r m', freeze n t s m = (r, m') -> R m m'.
Proof.
  intros Hr Ht Hn. induction n as [|n IH]; intros s t m r m' E; [inversion E; subst; apply Hr|]. rewrite freeze_S in E.
  destruct t; try (inversion E; subst; apply Hr).
  - destruct (memo_get (fst m) v); [inversion E; subst; apply Hr|]. destruct (bound s v).
    + destruct (deref (TVar v) s); [eapply IH; exact E|inversion E; subst; apply Hr].
    + inversion E; subst. apply Hn.
  - destruct (evaluate n (TUn op t) s); [eapply IH; exact E|inversion E; subst; apply Hr].
  - destruct (evaluate n (TBin op t1 t2) s); [eapply IH; exact E|inversion E; subst; apply Hr].
  - destruct (smapl _ args m) as [r1 m1] eqn:E1. apply (nv_smapl R) in E1; [|assumption|assumption|intros; eapply IH; eassumption].
    destruct r1; [|inversion E; subst; assumption]. destruct (smapl _ annots m1) as [r2 m2] eqn:E2. apply (nv_smapl R) in E2; [|assumption|assumption|intros; eapply IH; eassumption].
    destruct r2; inversion E; subst; eapply Ht; eassumption.
  - destruct (smapl _ ts m) as [r1 m1] eqn:E1. apply (nv_smapl R) in E1; [|assumption|assumption|intros; eapply IH; eassumption]. destruct r1; inversion E; subst; assumption.
  - destruct (freeze n t1 s m) as [r1 m1] eqn:E1. apply IH in E1. destruct r1; [|inversion E; subst; assumption].
    destruct (freeze n t2 s m1) as [r2 m2] eqn:E2. apply IH in E2. destruct r2; inversion E; subst; eapply Ht; eassumption.
Qed.
Lemma nv_freeze n s t m r m' : freeze n t s m = (r, m') -> (snd m <= snd m')%N.
Proof. apply (nv_freeze_rel (fun a b => (snd a <= snd b)%N)); [intro; lia|intros; lia|intros; cbn; lia]. Qed.
Lemma nv_zip n specs : forall args s m r m', zip_specs n specs args s m = (r, m') -> (snd m <= snd m')%N.
Proof.
  induction specs as [|sp specs IH]; intros args s m r m' E; cbn in E; [inversion E; subst; lia|].
  assert (Hx : match args with [] => (Err ERuntime, m) | t :: args' => match freeze n t s m with (Err e, m1) => (Err e, m1) | (Ok f, m1) =>
      match convert sp f with Err e => (Err e, m1) | Ok v => match zip_specs n specs args' s m1 with (Err e, m2) => (Err e, m2) | (Ok vs, m2) => (Ok (v :: vs), m2) end end end end = (r, m') -> (snd m <= snd m')%N).
  { clear E. intro E. destruct args as [|t args]; [inversion E; subst; lia|]. destruct (freeze n t s m) as [r1 m1] eqn:E1. apply nv_freeze in E1.
    destruct r1 as [f|]; [|inversion E; subst; lia]. destruct (convert sp f); [|inversion E; subst; lia].
    destruct (zip_specs n specs args s m1) as [r2 m2] eqn:E2. apply IH in E2. destruct r2; inversion E; subst; lia. }
  destruct sp; solve [eapply IH; exact E|apply Hx; exact E].
Qed.
Lemma nv_number vs : forall m k m' k', number vs m k = (m', k') -> (k <= k')%N.
Proof.
  induction vs as [|v vs IH]; intros m k m' k' E; cbn in E; [injection E as _ <-; lia|].
  destruct (memo_get m v); apply IH in E; lia.
Qed.
Lemma nv_copy r k c k' : copy_rule r k = (c, k') -> (k <= k')%N.
Proof. unfold copy_rule. destruct (number _ [] k) as [m k1] eqn:E. apply nv_number in E. intro X. injection X as _ <-. exact E. Qed.
End WithPy.
