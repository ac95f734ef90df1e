(** What validation does. *)
From Verif Require Import Base Num Term Str World Ast Names Quote Lex LexSpec LexFacts Parse Fold Program RoundSpec
  GramSpec GramTok GramSound GramComp GramCor Counts Closed SrcSpec SrcQuiet.

Lemma Ok_inj {A} (x y : A) : Ok x = Ok y -> x = y.
Proof. congruence. Qed.

Definition runs {A} (m : P A) (x : A) : Prop := forall items lg own, exists lg',
  m (mkpst items lg own) = (Ok x, mkpst items lg' own) /\ lg_errors lg' = lg_errors lg.

Lemma runs_once {A} (m : P A) x : runs m x -> exists s', m (mkpst [] (log_new None) true) = (Ok x, s') /\ errs s' = 0%nat.
Proof. intros H. destruct (H [] (log_new None) true) as (lg & E & Ee). exists (mkpst [] lg true). split; [assumption|exact Ee]. Qed.

Lemma runs_bind {A C} (m : P A) (f : A -> P C) y : blind m -> (forall x, blind (f x)) ->
  runs (pbind m f) y <-> exists x, runs m x /\ runs (f x) y.
Proof.
  intros Hm Hf. split.
  - intros H. apply runs_once in H as (s' & E & Es). apply bind_ok in E as (x & s1 & E1 & E2). exists x.
    pose proof (counts_le _ _ _ _ (proj1 Hm) E1) as L1. pose proof (counts_le _ _ _ _ (proj1 (Hf x)) E2) as L2.
    assert (Z : errs (mkpst [] (log_new None) true) = 0%nat) by reflexivity.
    destruct (proj2 Hm _ _ _ E1 ltac:(lia)) as (_ & _ & X1). destruct (proj2 (Hf x) _ _ _ E2 ltac:(lia)) as (_ & _ & X2).
    split; [exact X1|exact X2].
  - intros (x & Hx & Hy) items lg own. destruct (Hx items lg own) as (lg1 & E1 & Ee1). destruct (Hy items lg1 own) as (lg2 & E2 & Ee2).
    exists lg2. rewrite (bind_eq _ _ _ _ _ E1). split; [assumption|congruence].
Qed.
Lemma runs_ret {A} (x y : A) : runs (pret x) y <-> y = x.
Proof.
  split; [intros H; apply runs_once in H as (s' & E & _); injection E as E _; congruence|].
  intros -> items lg own. now exists lg.
Qed.
Lemma runs_fail {A} e (y : A) : runs (pfail e) y <-> False.
Proof. split; [intros H; apply runs_once in H as (s' & E & _); discriminate|tauto]. Qed.
Lemma runs_error y : runs p_error y <-> False.
Proof. split; [|tauto]. intros H. apply runs_once in H as (s' & E & Es). apply error_errs in E. unfold errs in *. cbn in E. lia. Qed.
Lemma runs_warn y : runs p_warn y <-> True.
Proof. split; [tauto|]. intros _ items lg own. destruct y. exists (log_warning lg). split; reflexivity. Qed.

Lemma blind_mapl {A C} (f : A -> P C) l : (forall x, blind (f x)) -> blind (pmapl f l).
Proof. intros H. apply (closed_mapl (@blind)); by_blind || auto. Qed.
Lemma runs_mapl {A C} (f : A -> P C) l ys : (forall x, blind (f x)) -> runs (pmapl f l) ys <-> Forall2 (fun x y => runs (f x) y) l ys.
Proof.
  intros H. revert ys. induction l as [|x l IH]; intros ys; cbn [pmapl].
  - rewrite runs_ret. split; [intros ->; constructor|now inversion 1].
  - assert (forall y, blind (pbind (pmapl f l) (fun ys0 => pret (y :: ys0)))).
    { intros y. apply blind_bind; [now apply blind_mapl|intros; apply blind_ret]. }
    rewrite runs_bind by auto. split.
    + intros (y & Hy & Hr). rewrite runs_bind in Hr by (intros; (now apply blind_mapl) || apply blind_ret).
      destruct Hr as (ys' & Hys & Hr). apply runs_ret in Hr as ->. constructor; [assumption|now apply IH].
    + intros F. inversion F as [|? y ? ys' Hy Hys]; subst. exists y. split; [assumption|].
      rewrite runs_bind by (intros; (now apply blind_mapl) || apply blind_ret). exists ys'. split; [now apply IH|now apply runs_ret].
Qed.
Lemma runs_errors k y : runs (p_errors k) y <-> k = 0%nat.
Proof.
  destruct k as [|k]; cbn [p_errors]; [rewrite runs_ret; destruct y; tauto|].
  rewrite runs_bind; [|apply blind_error|intros; apply (closed_errors (@blind)); by_blind].
  split; [intros (x & Hx & _); now apply runs_error in Hx|discriminate].
Qed.
Lemma runs_warns k y : runs (p_warns k) y <-> True.
Proof.
  induction k as [|k IH]; cbn [p_warns]; [rewrite runs_ret; destruct y; tauto|].
  rewrite runs_bind; [|apply blind_warn|intros; apply (closed_warns (@blind)); by_blind].
  split; [tauto|]. intros _. exists tt. split; [now apply runs_warn|now apply IH].
Qed.
Lemma blind_each {A} (f : A -> P unit) l : (forall x, blind (f x)) -> blind (p_each f l).
Proof. intros H. apply (closed_each (@blind)); by_blind || auto. Qed.
Lemma runs_each {A} (f : A -> P unit) l y : (forall x, blind (f x)) -> runs (p_each f l) y <-> Forall (fun x => runs (f x) tt) l.
Proof.
  intros H. induction l as [|x l IH]; cbn [p_each].
  - rewrite runs_ret. destruct y. split; [constructor|reflexivity].
  - rewrite runs_bind by (intros; (now apply blind_each) || auto). split.
    + intros ([] & Hx & Hl). constructor; [assumption|now apply IH].
    + intros F. inversion F; subst. exists tt. split; [assumption|now apply IH].
Qed.

(** ** Terms *)

Lemma sum_zero {A} (f : A -> nat) l : list_sum (map f l) = 0%nat <-> Forall (fun x => f x = 0%nat) l.
Proof.
  induction l as [|x l IH]; [split; [constructor|reflexivity]|]. change (list_sum (map f (x :: l))) with (f x + list_sum (map f l))%nat. split.
  - intros H. constructor; [lia|apply IH; lia].
  - intros H. inversion H as [|? ? H2 H3]; subst. apply IH in H3. lia.
Qed.
Lemma Forall_iff {A} (P Q : A -> Prop) l : Forall (fun x => P x <-> Q x) l -> (Forall P l <-> Forall Q l).
Proof. intros H. induction H as [|x l Hx _ IH]; split; constructor; try (inversion H; subst; tauto). Qed.

Lemma plain_ops t : count_ops t = 0%nat <-> plain t.
Proof.
  induction t as [b|x|s|v|f ts an Hts Han|ts Hts|h t IHh IHt|op b IH|op a b IHl IHr] using ast_ind'; cbn [count_ops];
    try (split; [constructor|reflexivity]).
  - apply Forall_iff in Hts, Han. split.
    + intros H. constructor; [apply Hts|apply Han]; apply sum_zero; lia.
    + intros H. inversion H as [| | | |? ? ? H3 H4| |]; subst. apply Hts, sum_zero in H3. apply Han, sum_zero in H4. lia.
  - apply Forall_iff in Hts. split.
    + intros H. constructor. now apply Hts, sum_zero.
    + intros H. inversion H; subst. now apply sum_zero, Hts.
  - split; [intros H; constructor; [apply IHh|apply IHt]; lia|]. intros H. inversion H as [| | | | | |? ? H2 H3]; subst. apply IHh in H2. apply IHt in H3. lia.
  - split; [discriminate|inversion 1].
  - split; [discriminate|inversion 1].
Qed.
Lemma plain_lit_ops l : count_ops (lit_ast l) = 0%nat <-> plain_lit l.
Proof.
  rewrite plain_ops. unfold lit_ast, plain_lit. split; [intros H; inversion H; auto|]. intros [H1 H2]. now constructor.
Qed.

Definition all_vars : list ast -> res (list bool) := fix all (l : list ast) : res (list bool) :=
  match l with
  | [] => Ok []
  | x :: l' => rbind (find_vars x) (fun a => rmap (app a) (all l'))
  end.
Definition fine (r : res (list bool)) : Prop := exists vs, r = Ok vs /\ forallb (fun v => v) vs = true.
Lemma all_fine l : Forall (fun t => fine (find_vars t)) l -> fine (all_vars l).
Proof.
  induction 1 as [|t l (vs & E & B) _ (ws & E2 & B2)]; cbn [all_vars]; [now exists []|].
  exists (vs ++ ws). rewrite E, E2. cbn. split; [reflexivity|]. now rewrite forallb_app, B, B2.
Qed.
Lemma fine_all l : fine (all_vars l) -> Forall (fun t => fine (find_vars t)) l.
Proof.
  induction l as [|t l IH]; intros (vs & E & B); [constructor|]. cbn [all_vars] in E.
  destruct (find_vars t) as [ws|e] eqn:Et; [|discriminate]. cbn in E. destruct (all_vars l) as [us|e] eqn:El; [|discriminate].
  cbn in E. apply Ok_inj in E as <-. rewrite forallb_app in B. apply Bool.andb_true_iff in B as [B1 B2].
  constructor; [now exists ws|]. apply IH. now exists us.
Qed.
Lemma fine_lit f ts an : fine (find_vars (ALit f ts an)) <-> fine (all_vars ts) /\ fine (all_vars an).
Proof.
  change (find_vars (ALit f ts an)) with (rbind (all_vars ts) (fun a => rmap (app a) (all_vars an))).
  split.
  - intros (vs & E & B). destruct (all_vars ts) as [a|e]; [|discriminate]. cbn in E. destruct (all_vars an) as [b|e]; [|discriminate].
    cbn in E. apply Ok_inj in E as <-. rewrite forallb_app in B. apply Bool.andb_true_iff in B as [B1 B2]. split; [now exists a|now exists b].
  - intros ((a & -> & B1) & (b & -> & B2)). exists (a ++ b). cbn. split; [reflexivity|]. now rewrite forallb_app, B1, B2.
Qed.

Lemma solid_fine t : solid t <-> plain t /\ fine (find_vars t).
Proof.
  induction t as [b|x|s|v|f ts an Hts Han|ts Hts|h t IHh IHt|op b IH|op a b IHl IHr] using ast_ind'.
  1-3: (split; [intros _; split; [constructor|now exists []]|constructor]).
  - destruct v as [|c v]; [split; [inversion 1|intros [_ (vs & E & _)]; discriminate]|].
    split; [intros _; split; [constructor|now exists [true]]|constructor].
  - apply Forall_iff in Hts, Han. rewrite fine_lit. split.
    + intros H. inversion H as [| | | |? ? ? H1 H2|]; subst. apply Hts in H1. apply Han in H2.
      split; [constructor|split; apply all_fine]; (eapply Forall_impl; [|eassumption]); cbv beta; tauto.
    + intros [H [H1 H2]]. inversion H as [| | | |? ? ? H3 H4| |]; subst. apply fine_all in H1, H2.
      constructor; [apply Hts|apply Han]; apply Forall_and; assumption.
  - apply Forall_iff in Hts. change (find_vars (AList ts)) with (all_vars ts). split.
    + intros H. inversion H as [| | | | |? H1]; subst. apply Hts in H1.
      split; [constructor|apply all_fine]; (eapply Forall_impl; [|eassumption]); cbv beta; tauto.
    + intros [H H1]. inversion H as [| | | | |? H3|]; subst. apply fine_all in H1. constructor. apply Hts. now apply Forall_and.
  - split; [inversion 1|]. intros [_ (vs & E & _)]. discriminate.
  - split; [inversion 1|]. intros [H _]. inversion H.
  - split; [inversion 1|]. intros [H _]. inversion H.
Qed.

Section WithPy.
Context {PY : Py}.

Lemma blind_fold m t : blind (fold m t).
Proof. apply (closed_fold (@blind)); by_blind. Qed.
Lemma blind_lit l : blind (fold_lit l).
Proof. apply (closed_fold_lit (@blind)); by_blind. Qed.
Lemma blind_form f : blind (fold_form f).
Proof. apply (closed_fold_form (@blind)); by_blind. Qed.
Lemma blind_plan p : blind (fold_plan p).
Proof. apply (closed_fold_plan (@blind)); by_blind. Qed.
Lemma blind_opt {A C} (f : A -> P C) o : (forall x, blind (f x)) -> blind (p_opt f o).
Proof. intros H. apply (closed_opt (@blind)); by_blind || auto. Qed.

Ltac bl := repeat first [apply blind_ret|apply blind_fail|apply blind_error|apply blind_warn|apply blind_fold|apply blind_lit|apply blind_form|apply blind_plan
  |apply blind_mapl; intros|apply blind_opt; intros|apply blind_each; intros|apply blind_bind; [|intros]|assumption
  |match goal with |- blind (match ?b with _ => _ end) => destruct b end].
Ltac rb := rewrite runs_bind; [|solve [bl]|intros; solve [bl]].

Lemma runs_bind' {A C} (m : P A) (f : A -> P C) y : blind m -> (forall x, blind (f x)) ->
  runs (pbind m f) y -> exists x, runs m x /\ runs (f x) y.
Proof. intros. now apply runs_bind. Qed.

Lemma runs_opt {A C} (f : A -> P C) o o' : (forall x, blind (f x)) ->
  runs (p_opt f o) o' <-> match o, o' with Some x, Some y => runs (f x) y | None, None => True | _, _ => False end.
Proof.
  intros H. destruct o as [x|]; cbn [p_opt].
  - rewrite runs_bind by (intros; auto using blind_ret). split.
    + intros (y & Hy & E). apply runs_ret in E as ->. assumption.
    + destruct o' as [y|]; [|tauto]. intros Hy. exists y. split; [assumption|now apply runs_ret].
  - rewrite runs_ret. destruct o'; split; try tauto; try discriminate.
Qed.

Lemma folded_lit_runs l l' : runs (fold_lit l) l' <-> folded_lit l l'.
Proof.
  unfold fold_lit, folded_lit. rb. split.
  - intros (ts & H1 & H). apply runs_bind' in H as (an & H2 & H); [|bl|intros; bl]. apply runs_ret in H as ->.
    apply runs_mapl in H1; [|intros; bl]. apply runs_mapl in H2; [|intros; bl]. cbn. auto.
  - destruct l' as [f' ts' an']. cbn. intros (-> & H1 & H2). exists ts'. split; [now apply runs_mapl; [intros; bl|]|].
    rb. exists an'. split; [now apply runs_mapl; [intros; bl|]|now apply runs_ret].
Qed.

Lemma Forall2_in {A} (P Q : A -> A -> Prop) l l' : (forall x y, In x l -> P x y -> Q x y) -> Forall2 P l l' -> Forall2 Q l l'.
Proof. intros H F. induction F as [|x y l l' Hxy _ IH]; constructor; [apply H; [now left|assumption]|apply IH; intros; apply H; [now right|assumption]]. Qed.

Lemma folded_form_runs f : forall f', runs (fold_form f) f' <-> folded_form f f'.
Proof.
  assert (Body : forall b, Forall (fun f => forall f', runs (fold_form f) f' <-> folded_form f f') b ->
    forall b', runs (pmapl fold_form b) b' <-> Forall2 folded_form b b').
  { intros b H b'. rewrite Forall_forall in H. rewrite runs_mapl by (intros; bl). split; apply Forall2_in; intros x y Hx; now apply H. }
  induction f as [ft t|c b IH|c ib eb IHi IHe|c b IH] using form_ind'; intros f'; cbn [fold_form].
  - assert (Other : ft <> FtTerm -> runs (match t with
      | ALit _ _ _ | AVar _ => (t' <- fold MTerm t ;; pret (FForm ft t'))%P
      | _ => (p_error ;; pret (FForm ft t))%P end) f' <-> folded_form (FForm ft t) f').
    { intros Hft.
      assert (X : runs (p_error ;; pret (FForm ft t))%P f' <-> False).
      { rb. split; [|tauto]. intros (y & Hy & _). now apply runs_error in Hy. }
      assert (Y : runs (t' <- fold MTerm t ;; pret (FForm ft t'))%P f' <-> exists t', folded MTerm t t' /\ f' = FForm ft t').
      { rb. split; intros (t' & H1 & H2); exists t'; (split; [exact H1|now apply runs_ret]). }
      destruct t; (rewrite X || rewrite Y); split;
        try tauto; try (intros Z; inversion Z; subst; congruence).
      - intros (t' & H1 & ->). now constructor.
      - intros Z. inversion Z; subst; eauto; congruence.
      - intros (t' & H1 & ->). now constructor.
      - intros Z. inversion Z; subst; eauto; congruence. }
    destruct ft; try (apply Other; discriminate). rb. split.
    + intros (t' & H1 & H2). apply runs_ret in H2 as ->. now constructor.
    + intros H. inversion H; subst; try congruence. exists t'. split; [assumption|now apply runs_ret].
  - pose proof (Body b IH) as Hb. rb. split.
    + intros (c' & H1 & H). apply runs_bind' in H as (b' & H2 & H); [|bl|intros; bl]. apply runs_ret in H as ->. constructor; [assumption|now apply Hb].
    + intros H. inversion H; subst. exists c'. split; [assumption|]. rb. exists b'. split; [now apply Hb|now apply runs_ret].
  - pose proof (Body ib IHi) as Hi. rb. destruct eb as [eb|]; cbn [opt_all] in IHe.
    + pose proof (Body eb IHe) as He. split.
      * intros (c' & H1 & H). apply runs_bind' in H as (b' & H2 & H); [|bl|intros; bl].
        apply runs_bind' in H as (e' & H3 & H); [|bl|intros; bl]. apply runs_ret in H as ->.
        apply runs_bind' in H3 as (e2 & H3 & H4); [|bl|intros; bl]. apply runs_ret in H4 as ->.
        constructor; [assumption|now apply Hi|now apply He].
      * intros H. inversion H; subst. exists c'. split; [assumption|]. rb. exists b'. split; [now apply Hi|]. rb.
        exists (Some e'). split; [|now apply runs_ret]. rb. exists e'. split; [now apply He|now apply runs_ret].
    + split.
      * intros (c' & H1 & H). apply runs_bind' in H as (b' & H2 & H); [|bl|intros; bl].
        apply runs_bind' in H as (e' & H3 & H); [|bl|intros; bl]. apply runs_ret in H as ->. apply runs_ret in H3 as ->.
        constructor; [assumption|now apply Hi].
      * intros H. inversion H; subst. exists c'. split; [assumption|]. rb. exists b'. split; [now apply Hi|]. rb.
        exists None. split; [now apply runs_ret|now apply runs_ret].
  - pose proof (Body b IH) as Hb. rb. split.
    + intros (c' & H1 & H). apply runs_bind' in H as (b' & H2 & H); [|bl|intros; bl]. apply runs_ret in H as ->. constructor; [assumption|now apply Hb].
    + intros H. inversion H; subst. exists c'. split; [assumption|]. rb. exists b'. split; [now apply Hb|now apply runs_ret].
Qed.

Lemma part_runs {A} (f : A -> P A) (R : A -> A -> Prop) o o' : (forall x, blind (f x)) -> (forall x y, runs (f x) y <-> R x y) ->
  runs (p_opt f o) o' <-> part R o o'.
Proof.
  intros H HR. rewrite runs_opt by assumption. split.
  - destruct o, o'; try tauto; constructor. now apply HR.
  - intros [|x x' Hx]; [trivial|now apply HR].
Qed.
Lemma forms_runs b b' : runs (pmapl fold_form b) b' <-> Forall2 folded_form b b'.
Proof.
  rewrite runs_mapl by (intros; bl). split; apply Forall2_in; intros x y _ H; now apply folded_form_runs.
Qed.

Lemma folded_plan_runs p p' : runs (fold_plan p) p' <-> folded_plan p p'.
Proof.
  unfold fold_plan, folded_plan, fold_event. rb. split.
  - intros (an & H1 & H). apply runs_bind' in H as (e & H2 & H); [|bl|intros; bl].
    apply runs_bind' in H as (c & H3 & H); [|bl|intros; bl]. apply runs_bind' in H as (b & H4 & H); [|bl|intros; bl].
    apply runs_ret in H as ->. cbn [ap_annot ap_event ap_ctx ap_body].
    apply runs_bind' in H2 as (h & H2 & H); [|bl|intros; bl]. apply runs_ret in H as ->. cbn [ae_trig ae_gt ae_head].
    split; [now apply (part_runs fold_lit folded_lit); [intros; bl|apply folded_lit_runs|]|].
    split; [split; [reflexivity|]; split; [reflexivity|]; now apply folded_lit_runs|].
    split; [now apply (part_runs (fold MLog) (folded MLog)); [intros; bl|reflexivity|]|].
    now apply (part_runs (pmapl fold_form) (Forall2 folded_form)); [intros; bl|apply forms_runs|].
  - destruct p' as [an [tr gt h] c b]. cbn [ap_annot ap_event ap_ctx ap_body ae_trig ae_gt ae_head].
    intros (H1 & (-> & -> & H2) & H3 & H4). exists an.
    split; [now apply (part_runs fold_lit folded_lit); [intros; bl|apply folded_lit_runs|]|].
    rb. exists (mkaevent (ae_trig (ap_event p)) (ae_gt (ap_event p)) h). split.
    { rb. exists h. split; [now apply folded_lit_runs|now apply runs_ret]. }
    rb. exists c. split; [now apply (part_runs (fold MLog) (folded MLog)); [intros; bl|reflexivity|]|].
    rb. exists b. split; [now apply (part_runs (pmapl fold_form) (Forall2 folded_form)); [intros; bl|apply forms_runs|]|now apply runs_ret].
Qed.
Lemma blind_rule r : blind (fold_rule r).
Proof. unfold fold_rule. bl. Qed.
Lemma folded_rule_runs r r' : runs (fold_rule r) r' <-> folded_rule r r'.
Proof.
  unfold fold_rule, folded_rule. rb. split.
  - intros (h & H1 & H). apply runs_bind' in H as (c & H2 & H); [|bl|intros; bl]. apply runs_ret in H as ->. cbn.
    split; [now apply folded_lit_runs|assumption].
  - destruct r' as [h c]. cbn. intros [H1 H2]. exists h. split; [now apply folded_lit_runs|]. rb. exists c. split; [assumption|now apply runs_ret].
Qed.

Lemma list_runs {A} (f : A -> P A) (R : A -> A -> Prop) l l' : (forall x, blind (f x)) -> (forall x y, runs (f x) y <-> R x y) ->
  runs (pmapl f l) l' <-> Forall2 R l l'.
Proof. intros H HR. rewrite runs_mapl by assumption. split; apply Forall2_in; intros x y _ Hx; now apply HR. Qed.

Lemma blind_belief b : blind (check_belief b).
Proof. unfold check_belief. apply blind_bind; [bl|intros; apply (closed_errors (@blind)); by_blind]. Qed.
Lemma blind_head r : blind (check_rule r).
Proof. apply (closed_errors (@blind)); by_blind. Qed.
Lemma blind_check_plan p : blind (check_plan p).
Proof.
  unfold check_plan. apply blind_bind; [apply (closed_errors (@blind)); by_blind|intros].
  apply blind_bind; [|intros; bl]. destruct (ap_annot p); [apply (closed_warns (@blind)); by_blind|bl].
Qed.
Lemma belief_runs b : runs (check_belief b) tt <-> solid_lit b.
Proof.
  unfold check_belief. rewrite runs_bind; [|bl|intros; apply (closed_errors (@blind)); by_blind].
  assert (S : solid_lit b <-> solid (lit_ast b)).
  { unfold solid_lit, lit_ast. split; [intros [H1 H2]; now constructor|intros H; inversion H; auto]. }
  rewrite S, solid_fine, <- plain_ops.
  assert (X : forall y, runs (match find_vars (lit_ast b) with
    | Err e => pfail e
    | Ok [] => pret tt
    | Ok ((_ :: _) as vs) => if forallb (fun v => v) vs then p_warn else pfail EAttr
    end) y <-> fine (find_vars (lit_ast b))).
  { intros []. unfold fine. destruct (find_vars (lit_ast b)) as [[|v vs]|e].
    - rewrite runs_ret. split; [intros _; now exists []|reflexivity].
    - destruct (forallb (fun v0 => v0) (v :: vs)) eqn:E.
      + rewrite runs_warn. split; [intros _; now exists (v :: vs)|tauto].
      + rewrite runs_fail. split; [tauto|]. intros (ws & Ew & B). apply Ok_inj in Ew as <-. congruence.
    - rewrite runs_fail. split; [tauto|]. intros (ws & Ew & _). discriminate. }
  split.
  - intros (y & H1 & H2). apply X in H1. apply runs_errors in H2. auto.
  - intros [H1 H2]. exists tt. split; [now apply X|now apply runs_errors].
Qed.
Lemma check_plan_runs p : runs (check_plan p) tt <-> plain_lit (ae_head (ap_event p)).
Proof.
  unfold check_plan. assert (B : forall k, blind (p_errors k)) by (intros k; apply (closed_errors (@blind)); by_blind).
  assert (B' : forall k, blind (p_warns k)) by (intros k; apply (closed_warns (@blind)); by_blind).
  rewrite runs_bind; [|apply B|intros; apply blind_bind; [destruct (ap_annot p); [apply B'|bl]|intros; bl]].
  rewrite <- plain_lit_ops. split.
  - intros (y & H & _). now apply runs_errors in H.
  - intros H. exists tt. split; [now apply runs_errors|].
    rewrite runs_bind; [|destruct (ap_annot p); [apply B'|bl]|intros; bl]. exists tt. split.
    + destruct (ap_annot p); [now apply runs_warns|now apply runs_ret].
    + destruct (ae_gt (ap_event p)), (ae_trig (ap_event p)); first [now apply runs_ret|now apply runs_warn].
Qed.

Lemma each_runs {A} (f : A -> P unit) (Q : A -> Prop) l y : (forall x, blind (f x)) -> (forall x, runs (f x) tt <-> Q x) ->
  runs (p_each f l) y <-> Forall Q l.
Proof. intros H HQ. rewrite runs_each by assumption. apply Forall_iff, Forall_forall. intros x _. apply HQ. Qed.

Lemma validated_runs g g' : runs (validate g) g' <-> validated g g'.
Proof.
  unfold validate, fold_agent.
  assert (C1 : forall l y, runs (p_each check_belief l) y <-> Forall solid_lit l).
  { intros. apply each_runs; [apply blind_belief|apply belief_runs]. }
  assert (C2 : forall l y, runs (p_each check_rule l) y <-> Forall (fun r => plain_lit (ar_head r)) l).
  { intros. apply each_runs; [apply blind_head|]. intros r. unfold check_rule. now rewrite runs_errors, plain_lit_ops. }
  assert (C3 : forall l y, runs (p_each check_plan l) y <-> Forall (fun p => plain_lit (ae_head (ap_event p))) l).
  { intros. apply each_runs; [apply blind_check_plan|apply check_plan_runs]. }
  assert (D1 : forall l, blind (p_each check_belief l)) by (intros; apply blind_each, blind_belief).
  assert (D2 : forall l, blind (p_each check_rule l)) by (intros; apply blind_each, blind_head).
  assert (D3 : forall l, blind (p_each check_plan l)) by (intros; apply blind_each, blind_check_plan).
  assert (F1 : forall l, blind (pmapl fold_rule l)) by (intros; apply blind_mapl, blind_rule).
  assert (L1 : forall l l', runs (pmapl fold_rule l) l' <-> Forall2 folded_rule l l') by (intros; apply list_runs; [apply blind_rule|apply folded_rule_runs]).
  assert (L2 : forall l l', runs (pmapl fold_lit l) l' <-> Forall2 folded_lit l l') by (intros; apply list_runs; [apply blind_lit|apply folded_lit_runs]).
  assert (L3 : forall l l', runs (pmapl fold_plan l) l' <-> Forall2 folded_plan l l') by (intros; apply list_runs; [apply blind_plan|apply folded_plan_runs]).
  Ltac bl2 := repeat first [apply blind_bind; [|intros]|solve [auto]|solve [bl]].
  Ltac rb2 := rewrite runs_bind; [|solve [bl2]|intros; solve [bl2]].
  Ltac inv H x H1 := apply runs_bind' in H as (x & H1 & H); [|solve [bl2]|intros; solve [bl2]].
  unfold validated. split.
  - intros H. inv H h H0. inv H u1 H1. inv H u2 H2. inv H u3 H3. apply runs_ret in H as ->.
    inv H0 rs H4. inv H0 bs H5. inv H0 gs H6. inv H0 ps H7. apply runs_ret in H0 as ->. cbn [ag_rules ag_beliefs ag_goals ag_plans] in *.
    rewrite C1 in H1. rewrite C2 in H2. rewrite C3 in H3. rewrite L1 in H4. rewrite L2 in H5, H6. rewrite L3 in H7. tauto.
  - destruct g' as [rs bs gs ps]. cbn [ag_rules ag_beliefs ag_goals ag_plans]. intros ((H1 & H2 & H3 & H4) & H5 & H6 & H7).
    rb2. exists (mkaagent rs bs gs ps). split.
    + rb2. exists rs. split; [now apply L1|]. rb2. exists bs. split; [now apply L2|]. rb2. exists gs. split; [now apply L2|].
      rb2. exists ps. split; [now apply L3|now apply runs_ret].
    + cbn [ag_rules ag_beliefs ag_goals ag_plans]. rb2. exists tt. split; [now apply C1|]. rb2. exists tt. split; [now apply C2|].
      rb2. exists tt. split; [now apply C3|now apply runs_ret].
Qed.
End WithPy.
