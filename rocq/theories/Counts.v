(** The error log during parsing and validation. *)
From Verif Require Import Base Num Term Str World Ast Names Quote Lex Parse Fold Program.

Definition errs (s : pst) : nat := lg_errors (p_log s).

(** [counts m]: errors are only added, the limit stays, the limit is not passed,
    and at the limit AggregatedError is raised. *)
Definition counted {A} (s : pst) (r : res A) (s' : pst) : Prop :=
  (errs s <= errs s')%nat /\ lg_max (p_log s') = lg_max (p_log s) /\
  (forall mx, lg_max (p_log s) = Some mx -> (errs s < mx)%nat ->
     (errs s' <= mx)%nat /\ (errs s' = mx -> r = Err EAggregated)).
Definition counts {A} (m : P A) : Prop := forall s, counted s (fst (m s)) (snd (m s)).

Lemma counted_same {A} s (r : res A) s' : p_log s' = p_log s -> counted s r s'.
Proof. intros E. unfold counted, errs. rewrite E. repeat split; try lia; try congruence; intros; lia. Qed.

Lemma counted_trans {A C} s (x : A) s1 (r : res C) s2 : counted s (Ok x) s1 -> counted s1 r s2 -> counted s r s2.
Proof.
  intros (L1 & M1 & H1) (L2 & M2 & H2). split; [lia|]. split; [congruence|].
  intros mx E Hl. destruct (H1 mx E Hl) as [H3 H4]. rewrite <- M1 in E.
  assert (errs s1 <> mx) by (intros E2; specialize (H4 E2); discriminate). apply (H2 mx E). lia.
Qed.

Lemma counted_err {A C} s e s1 : @counted A s (Err e) s1 -> @counted C s (Err e) s1.
Proof.
  intros (L1 & M1 & H1). split; [lia|]. split; [congruence|].
  intros mx E Hl. destruct (H1 mx E Hl) as [H3 H4]. split; [assumption|]. intros E2. specialize (H4 E2). congruence.
Qed.

Lemma counts_ret {A} (x : A) : counts (pret x).
Proof. intros s. now apply counted_same. Qed.
Lemma counts_fail {A} e : counts (@pfail A e).
Proof. intros s. now apply counted_same. Qed.
Lemma counts_bind {A C} (m : P A) (f : A -> P C) : counts m -> (forall x, counts (f x)) -> counts (pbind m f).
Proof.
  intros Hm Hf s. unfold pbind. specialize (Hm s). destruct (m s) as [[x|e] s1]; cbn [fst snd] in *.
  - eapply counted_trans; [exact Hm|apply Hf].
  - eapply counted_err. exact Hm.
Qed.
Lemma counts_pair {A C} (m : P (tok * A)) (f : tok -> A -> P C) : counts m -> (forall t x, counts (f t x)) ->
  counts (pbind m (fun y => let '(t, x) := y in f t x)).
Proof. intros Hm Hf. apply counts_bind; [assumption|]. intros [t x]. apply Hf. Qed.

Lemma log_error_counts l : lg_errors (snd (log_error l)) = S (lg_errors l) /\ lg_max (snd (log_error l)) = lg_max l /\
  (forall mx, lg_max l = Some mx -> (lg_errors l < mx)%nat -> S (lg_errors l) = mx -> fst (log_error l) = Err EAggregated) /\
  (fst (log_error l) = Ok tt \/ fst (log_error l) = Err EAggregated).
Proof.
  destruct l as [m e w]. unfold log_error. cbn [lg_max lg_errors lg_warnings]. destruct m as [m|].
  - destruct (Nat.leb_spec m (S e)); cbn [fst snd lg_max lg_errors]; (split; [reflexivity|]; split; [reflexivity|]; split; [|tauto]);
      intros mx E; injection E as <-; [reflexivity|lia].
  - cbn [fst snd lg_max lg_errors]. split; [reflexivity|]; split; [reflexivity|]; split; [|tauto]. discriminate.
Qed.

Lemma counts_error : counts p_error.
Proof.
  intros s. unfold p_error. destruct (log_error_counts (p_log s)) as (E1 & E2 & E3 & E4).
  destruct (log_error (p_log s)) as [r l]. cbn [fst snd set_log p_log] in *. unfold counted, errs. cbn. rewrite E1, E2.
  repeat split; try lia. intros E5. now apply (E3 mx).
Qed.
Lemma counts_raise {A} : counts (@p_raise A).
Proof.
  intros s. unfold p_raise. destruct (log_error_counts (p_log s)) as (E1 & E2 & E3 & E4).
  destruct (log_error (p_log s)) as [r l]. cbn [fst snd set_log p_log] in *. unfold counted, errs. cbn. rewrite E1, E2.
  repeat split; lia.
Qed.
Lemma counts_warn : counts p_warn.
Proof. intros s. unfold counted, errs. cbn. repeat split; try lia; try congruence; intros; lia. Qed.

Lemma counts_next : counts next.
Proof.
  intros [items lg own]. unfold next. cbn [p_items p_log p_own].
  revert lg. induction items as [|i items IH]; intros lg; cbn [next_in]; [now apply counted_same|].
  destruct i as [t|a b c]; [now apply counted_same|]. destruct own; [|now apply counted_same].
  pose proof (counts_error (mkpst items lg true)) as H. unfold p_error in H. cbn [p_log] in H.
  destruct (log_error lg) as [[[]|e] lg']; cbn [fst snd] in H.
  - eapply counted_trans; [|apply IH]. exact H.
  - eapply counted_err. exact H.
Qed.

Definition cpl {A} (f : tok -> P A) : Prop := forall tk, counts (f tk).

Ltac cstep := first
  [ apply counts_ret | apply counts_error | apply counts_raise | apply counts_warn | apply counts_next
  | apply counts_fail | assumption
  | apply counts_pair; [|intros ? ?] | apply counts_bind; [|intros ?]
  | match goal with |- counts (if ?b then _ else _) => destruct b end
  | match goal with |- counts (match ?b with _ => _ end) => destruct b end ].

Lemma counts_binloop sel o : cpl o -> forall k tk e, counts (binloop k sel o tk e).
Proof. intros Ho. induction k as [|k IH]; intros tk e; cbn [binloop]; repeat cstep; [apply Ho|apply IH]. Qed.

Section Levels.
Variable atom : tok -> P (tok * ast).
Hypothesis Ha : cpl atom.
Lemma counts_factor k : cpl (factor_lv atom k).
Proof. induction k as [|k IH]; intros tk; cbn [factor_lv]; repeat cstep; [apply IH|apply Ha|now apply counts_binloop]. Qed.
Lemma counts_product k : cpl (product_lv atom k).
Proof. intros tk. unfold product_lv. cstep; [apply counts_factor|]. apply counts_binloop, counts_factor. Qed.
Lemma counts_arith k : cpl (arith_lv atom k).
Proof. intros tk. unfold arith_lv. cstep; [apply counts_product|]. apply counts_binloop, counts_product. Qed.
Lemma counts_comp_loop o : cpl o -> forall k tk c r, counts (comp_loop k o tk c r).
Proof. intros Ho. induction k as [|k IH]; intros tk c r; cbn [comp_loop]; repeat cstep; [apply Ho|apply IH]. Qed.
Lemma counts_comparison k : cpl (comparison_lv atom k).
Proof. intros tk. unfold comparison_lv. cstep; [apply counts_arith|]. apply counts_comp_loop, counts_arith. Qed.
Lemma counts_not_loop l k : cpl (not_loop atom l k).
Proof. induction l as [|l IH]; intros tk; cbn [not_loop]; repeat first [apply IH|apply counts_comparison|cstep]. Qed.
Lemma counts_and k : cpl (and_lv atom k).
Proof. intros tk. unfold and_lv. cstep; [apply counts_not_loop|]. apply counts_binloop. intros ?. apply counts_not_loop. Qed.
Lemma counts_term k : cpl (term_lv atom k).
Proof. intros tk. unfold term_lv. cstep; [apply counts_and|]. apply counts_binloop, counts_and. Qed.
End Levels.

Lemma counts_terms_loop close t : cpl t -> forall k acc, counts (terms_loop k close t acc).
Proof. intros Ht. induction k as [|k IH]; intros acc; cbn [terms_loop]; cbv zeta; repeat cstep; [apply Ht|apply IH]. Qed.
Lemma counts_literal t k : cpl t -> cpl (literal_lv t k).
Proof. intros Ht tk. unfold literal_lv. repeat cstep; now apply counts_terms_loop. Qed.
Lemma counts_tail_loop a : cpl a -> forall k, counts (tail_loop k a).
Proof. intros Ha. induction k as [|k IH]; cbn [tail_loop]; repeat cstep; apply Ha. Qed.
Lemma counts_list_loop a : cpl a -> forall k tk acc, counts (list_loop k a tk acc).
Proof. intros Ha. induction k as [|k IH]; intros tk acc; cbn [list_loop]; repeat cstep; first [apply Ha|now apply counts_tail_loop|apply IH]. Qed.

Lemma counts_atom n : cpl (parse_atom n).
Proof.
  induction n as [|n IH]; intros tk; cbn [parse_atom]; [cstep|]. cbv zeta.
  assert (T : cpl (term_lv (parse_atom n) n)) by now apply counts_term.
  assert (A : cpl (and_lv (parse_atom n) n)) by now apply counts_and.
  repeat first [apply T|apply counts_literal; assumption|apply counts_list_loop; assumption
               |cstep].
Qed.
Lemma counts_parse_term n : cpl (parse_term n).
Proof. apply counts_term, counts_atom. Qed.
Lemma counts_parse_literal n : cpl (parse_literal n).
Proof. apply counts_literal, counts_parse_term. Qed.
Lemma counts_expect tk s : counts (expect tk s).
Proof. unfold expect. repeat cstep. Qed.
Lemma counts_condition n : cpl (condition n).
Proof. intros tk. unfold condition. repeat first [apply counts_expect|apply counts_parse_term|cstep]. Qed.
Lemma counts_body_loop f : cpl f -> forall k tk acc, counts (body_loop k f tk acc).
Proof. intros Hf. induction k as [|k IH]; intros tk acc; cbn [body_loop]; cbv zeta; repeat first [apply Hf|apply IH|cstep]. Qed.
Lemma counts_formula n : cpl (parse_formula n).
Proof.
  induction n as [|n IH]; intros tk; cbn [parse_formula]; cbv zeta; [cstep|].
  assert (B : cpl (block_lv (fun tk => body_loop n (parse_formula n) tk []))).
  { intros t. unfold block_lv. repeat first [apply counts_expect|apply counts_body_loop; assumption|cstep]. }
  repeat first [apply counts_condition|apply B|apply counts_parse_term|cstep].
Qed.
Lemma counts_plan_body n : forall k tk acc, counts (plan_body_loop k n tk acc).
Proof. induction k as [|k IH]; intros tk acc; cbn [plan_body_loop]; cbv zeta; repeat first [apply counts_formula|apply IH|cstep]. Qed.
Lemma counts_event n : cpl (parse_event n).
Proof. intros tk. unfold parse_event. repeat first [apply counts_parse_literal|cstep]. Qed.
Lemma counts_plan n : cpl (parse_plan n).
Proof.
  intros tk. unfold parse_plan, parse_plan_body.
  repeat first [apply counts_parse_literal|apply counts_event|apply counts_parse_term|apply counts_plan_body|cstep].
Qed.
Lemma counts_rule_or_belief n : cpl (parse_rule_or_belief n).
Proof. intros tk. unfold parse_rule_or_belief. repeat first [apply counts_parse_literal|apply counts_parse_term|cstep]. Qed.
Lemma counts_initial_goal n : cpl (parse_initial_goal n).
Proof. intros tk. unfold parse_initial_goal. repeat first [apply counts_parse_literal|cstep]. Qed.

Section WithPy.
Context {PY : Py}.

Lemma counts_mapl {A C} (f : A -> P C) l : (forall x, In x l -> counts (f x)) -> counts (pmapl f l).
Proof.
  intros H. induction l as [|x l IH]; cbn [pmapl]; [cstep|]. apply counts_bind; [apply H; now left|]. intros y.
  apply counts_bind; [apply IH; intros z Hz; apply H; now right|]. intros; cstep.
Qed.

Lemma counts_fold t : forall m, counts (fold m t).
Proof.
  induction t as [b|x|s|v|f ts an Hts Han|ts Hts|h t IHh IHt|op b IH|op a b IHl IHr] using ast_ind'; intros m; cbn [fold].
  - destruct m; repeat cstep.
  - destruct m; repeat cstep.
  - destruct m; repeat cstep.
  - repeat cstep.
  - rewrite Forall_forall in Hts, Han. destruct m; repeat first [apply counts_mapl; auto|cstep].
  - rewrite Forall_forall in Hts. destruct m; repeat first [apply counts_mapl; auto|cstep].
  - destruct m; repeat first [apply IHh|apply IHt|cstep].
  - destruct m, op; cbn [unop_mode]; repeat first [apply IH|cstep].
  - assert (Hc : forall op l r, counts (fold_comp op l r)).
    { intros op' l r. unfold fold_comp. repeat cstep. }
    destruct m, op; cbn [binop_mode]; repeat first [apply IHl|apply IHr|apply Hc|cstep].
Qed.

Lemma counts_fold_lit l : counts (fold_lit l).
Proof. unfold fold_lit. repeat first [apply counts_mapl; intros; apply counts_fold|cstep]. Qed.
Lemma counts_fold_form f : counts (fold_form f).
Proof.
  induction f as [ft t|c b IH|c ib eb IHi IHe|c b IH] using form_ind'; cbn [fold_form]; rewrite ?Forall_forall in *.
  - destruct ft, t; repeat first [apply counts_fold|cstep].
  - repeat first [apply counts_fold|apply counts_mapl; auto|cstep].
  - destruct eb as [eb|]; cbn [opt_all] in IHe; rewrite ?Forall_forall in *; repeat first [apply counts_fold|apply counts_mapl; auto|cstep].
  - repeat first [apply counts_fold|apply counts_mapl; auto|cstep].
Qed.
Lemma counts_opt {A C} (f : A -> P C) o : (forall x, counts (f x)) -> counts (p_opt f o).
Proof. intros H. destruct o; cbn [p_opt]; repeat first [apply H|cstep]. Qed.
Lemma counts_fold_plan p : counts (fold_plan p).
Proof.
  unfold fold_plan, fold_event. repeat first [apply counts_fold_lit|apply counts_opt; intros; apply counts_fold_lit
    |apply counts_opt; intros; apply counts_fold|apply counts_opt; intros; apply counts_mapl; intros; apply counts_fold_form|cstep].
Qed.
Lemma counts_errors k : counts (p_errors k).
Proof. induction k; cbn [p_errors]; repeat cstep. Qed.
Lemma counts_warns k : counts (p_warns k).
Proof. induction k; cbn [p_warns]; repeat cstep. Qed.
Lemma counts_each {A} (f : A -> P unit) l : (forall x, counts (f x)) -> counts (p_each f l).
Proof. intros H. induction l; cbn [p_each]; repeat first [apply H|cstep]. Qed.

Lemma counts_validate g : counts (validate g).
Proof.
  unfold validate, fold_agent, fold_rule, check_belief, check_rule, check_plan.
  repeat first [apply counts_fold_plan|apply counts_fold|apply counts_fold_lit|apply counts_mapl; intros|apply counts_each; intros
    |apply counts_errors|apply counts_warns|cstep].
Qed.

(** ** Programs *)

Lemma counts_next_or {A} (stop : P A) go : counts stop -> (forall tk, counts (go tk)) -> counts (next_or stop go).
Proof.
  intros Hs Hg s. unfold next_or. pose proof (counts_next s) as H. destruct (next s) as [[tk|e] s1]; cbn [fst snd] in H.
  - eapply counted_trans; [exact H|apply Hg].
  - assert (H2 : @counted A s (Err e) s1) by (eapply counted_err; exact H). destruct e; try exact H2.
    specialize (Hs s1). destruct H as (L1 & M1 & H1), Hs as (L3 & M3 & H3). split; [lia|]. split; [congruence|].
    intros mx E Hl. destruct (H1 mx E Hl) as [H4 H5]. rewrite <- M1 in E.
    assert (errs s1 <> mx) by (intros E2; specialize (H5 E2); discriminate). apply (H3 mx E). lia.
Qed.
Lemma counts_eof {A} (m : P A) : counts m -> counts (at_eof m).
Proof.
  intros Hm s. unfold at_eof. specialize (Hm s). destruct (m s) as [[x|e] s1]; [exact Hm|]. cbn [fst snd] in Hm. destruct e; try exact Hm.
  pose proof (@counts_raise A s1) as Hs. destruct Hm as (L1 & M1 & H1), Hs as (L3 & M3 & H3). split; [lia|]. split; [congruence|].
  intros mx E Hl. destruct (H1 mx E Hl) as [H4 H5]. rewrite <- M1 in E.
  assert (errs s1 <> mx) by (intros E2; specialize (H5 E2); discriminate). apply (H3 mx E). lia.
Qed.
Lemma counts_in_file {A} items (m : P A) : counts m -> counts (in_file items m).
Proof.
  intros Hm s. unfold in_file. specialize (Hm (mkpst items (p_log s) false)). destruct (m _) as [r s1]. cbn [fst snd] in *. exact Hm.
Qed.
Lemma counts_res {A} (r : res A) : counts (p_res r).
Proof. intros s. now apply counted_same. Qed.
Lemma counts_next_is s : counts (next_is s).
Proof. unfold next_is. repeat cstep. Qed.
Lemma counts_must tk s : counts (must tk s).
Proof. unfold must. repeat cstep. Qed.

Variable files : pystr -> file.

Lemma counts_include sub filename included : (forall a b c, counts (sub a b c)) -> counts (include_file files sub filename included).
Proof.
  intros H. unfold include_file. repeat first [apply counts_next_is|apply counts_res|apply counts_in_file; apply H|cstep].
Qed.

Lemma counts_agent_loop sub n filename included directive : (forall a b c, counts (sub a b c)) ->
  forall k g plans, counts (agent_loop files sub n k filename included directive g plans).
Proof.
  intros H. induction k as [|k IH]; intros g plans; cbn [agent_loop]; [cstep|]. cbv zeta. apply counts_next_or; [|intros tk];
  repeat first [apply IH|apply counts_include; assumption|apply counts_parse_literal|apply counts_must|apply counts_next_is|apply H
    |apply counts_validate|apply counts_rule_or_belief|apply counts_initial_goal|apply counts_plan|cstep].
Qed.

Lemma counts_program n : forall filename included directive, counts (parse_program files n filename included directive).
Proof.
  induction n as [|n IH]; intros; cbn [parse_program]; [cstep|]. apply counts_eof. now apply counts_agent_loop.
Qed.
End WithPy.
