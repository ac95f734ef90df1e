(** A property of the parser's steps that all its functions inherit. *)
From Verif Require Import Base Num Term Str World Ast Names Quote Lex Parse Fold Program.

Section Closed.
Variable Q : forall A : Type, P A -> Prop.
Arguments Q {A} _.
Hypothesis Qret : forall A (x : A), Q (pret x).
Hypothesis Qfail : forall A e, Q (@pfail A e).
Hypothesis Qbind : forall A C (m : P A) (f : A -> P C), Q m -> (forall x, Q (f x)) -> Q (pbind m f).
Hypothesis Qerror : Q p_error.
Hypothesis Qraise : forall A, Q (@p_raise A).
Hypothesis Qwarn : Q p_warn.
Hypothesis Qnext : Q next.

Lemma Qpair {A C} (m : P (tok * A)) (f : tok -> A -> P C) : Q m -> (forall t x, Q (f t x)) ->
  Q (pbind m (fun y => let '(t, x) := y in f t x)).
Proof. intros Hm Hf. apply Qbind; [assumption|]. intros [t x]. apply Hf. Qed.

Definition qpl {A} (f : tok -> P A) : Prop := forall tk, Q (f tk).

Ltac qstep := first
  [ apply Qret | apply Qerror | apply Qraise | apply Qwarn | apply Qnext
  | apply Qfail | assumption
  | apply Qpair; [|intros ? ?] | apply Qbind; [|intros ?]
  | match goal with |- Q (if ?b then _ else _) => destruct b end
  | match goal with |- Q (match ?b with _ => _ end) => destruct b end ].

Lemma closed_binloop sel o : qpl o -> forall k tk e, Q (binloop k sel o tk e).
Proof. intros Ho. induction k as [|k IH]; intros tk e; cbn [binloop]; repeat qstep; [apply Ho|apply IH]. Qed.

Section Levels.
Variable atom : tok -> P (tok * ast).
Hypothesis Ha : qpl atom.
Lemma closed_factor k : qpl (factor_lv atom k).
Proof. induction k as [|k IH]; intros tk; cbn [factor_lv]; repeat qstep; [apply IH|apply Ha|now apply closed_binloop]. Qed.
Lemma closed_product k : qpl (product_lv atom k).
Proof. intros tk. unfold product_lv. qstep; [apply closed_factor|]. apply closed_binloop, closed_factor. Qed.
Lemma closed_arith k : qpl (arith_lv atom k).
Proof. intros tk. unfold arith_lv. qstep; [apply closed_product|]. apply closed_binloop, closed_product. Qed.
Lemma closed_comp_loop o : qpl o -> forall k tk c r, Q (comp_loop k o tk c r).
Proof. intros Ho. induction k as [|k IH]; intros tk c r; cbn [comp_loop]; repeat qstep; [apply Ho|apply IH]. Qed.
Lemma closed_comparison k : qpl (comparison_lv atom k).
Proof. intros tk. unfold comparison_lv. qstep; [apply closed_arith|]. apply closed_comp_loop, closed_arith. Qed.
Lemma closed_not_loop l k : qpl (not_loop atom l k).
Proof. induction l as [|l IH]; intros tk; cbn [not_loop]; repeat first [apply IH|apply closed_comparison|qstep]. Qed.
Lemma closed_and k : qpl (and_lv atom k).
Proof. intros tk. unfold and_lv. qstep; [apply closed_not_loop|]. apply closed_binloop. intros ?. apply closed_not_loop. Qed.
Lemma closed_term k : qpl (term_lv atom k).
Proof. intros tk. unfold term_lv. qstep; [apply closed_and|]. apply closed_binloop, closed_and. Qed.
End Levels.

Lemma closed_terms_loop close t : qpl t -> forall k acc, Q (terms_loop k close t acc).
Proof. intros Ht. induction k as [|k IH]; intros acc; cbn [terms_loop]; cbv zeta; repeat qstep; [apply Ht|apply IH]. Qed.
Lemma closed_literal t k : qpl t -> qpl (literal_lv t k).
Proof. intros Ht tk. unfold literal_lv. repeat qstep; now apply closed_terms_loop. Qed.
Lemma closed_tail_loop a : qpl a -> forall k, Q (tail_loop k a).
Proof. intros Ha. induction k as [|k IH]; cbn [tail_loop]; repeat qstep; apply Ha. Qed.
Lemma closed_list_loop a : qpl a -> forall k tk acc, Q (list_loop k a tk acc).
Proof. intros Ha. induction k as [|k IH]; intros tk acc; cbn [list_loop]; repeat qstep; first [apply Ha|now apply closed_tail_loop|apply IH]. Qed.

Lemma closed_atom n : qpl (parse_atom n).
Proof.
  induction n as [|n IH]; intros tk; cbn [parse_atom]; [qstep|]. cbv zeta.
  assert (T : qpl (term_lv (parse_atom n) n)) by now apply closed_term.
  assert (A : qpl (and_lv (parse_atom n) n)) by now apply closed_and.
  repeat first [apply T|apply closed_literal; assumption|apply closed_list_loop; assumption
               |qstep].
Qed.
Lemma closed_parse_term n : qpl (parse_term n).
Proof. apply closed_term, closed_atom. Qed.
Lemma closed_parse_literal n : qpl (parse_literal n).
Proof. apply closed_literal, closed_parse_term. Qed.
Lemma closed_expect tk s : Q (expect tk s).
Proof. unfold expect. repeat qstep. Qed.
Lemma closed_condition n : qpl (condition n).
Proof. intros tk. unfold condition. repeat first [apply closed_expect|apply closed_parse_term|qstep]. Qed.
Lemma closed_body_loop f : qpl f -> forall k tk acc, Q (body_loop k f tk acc).
Proof. intros Hf. induction k as [|k IH]; intros tk acc; cbn [body_loop]; cbv zeta; repeat first [apply Hf|apply IH|qstep]. Qed.
Lemma closed_formula n : qpl (parse_formula n).
Proof.
  induction n as [|n IH]; intros tk; cbn [parse_formula]; cbv zeta; [qstep|].
  assert (B : qpl (block_lv (fun tk => body_loop n (parse_formula n) tk []))).
  { intros t. unfold block_lv. repeat first [apply closed_expect|apply closed_body_loop; assumption|qstep]. }
  repeat first [apply closed_condition|apply B|apply closed_parse_term|qstep].
Qed.
Lemma closed_plan_body n : forall k tk acc, Q (plan_body_loop k n tk acc).
Proof. induction k as [|k IH]; intros tk acc; cbn [plan_body_loop]; cbv zeta; repeat first [apply closed_formula|apply IH|qstep]. Qed.
Lemma closed_event n : qpl (parse_event n).
Proof. intros tk. unfold parse_event. repeat first [apply closed_parse_literal|qstep]. Qed.
Lemma closed_plan n : qpl (parse_plan n).
Proof.
  intros tk. unfold parse_plan, parse_plan_body.
  repeat first [apply closed_parse_literal|apply closed_event|apply closed_parse_term|apply closed_plan_body|qstep].
Qed.
Lemma closed_rule_or_belief n : qpl (parse_rule_or_belief n).
Proof. intros tk. unfold parse_rule_or_belief. repeat first [apply closed_parse_literal|apply closed_parse_term|qstep]. Qed.
Lemma closed_initial_goal n : qpl (parse_initial_goal n).
Proof. intros tk. unfold parse_initial_goal. repeat first [apply closed_parse_literal|qstep]. Qed.

Section WithPy.
Context {PY : Py}.

Lemma closed_mapl {A C} (f : A -> P C) l : (forall x, In x l -> Q (f x)) -> Q (pmapl f l).
Proof.
  intros H. induction l as [|x l IH]; cbn [pmapl]; [qstep|]. apply Qbind; [apply H; now left|]. intros y.
  apply Qbind; [apply IH; intros z Hz; apply H; now right|]. intros; qstep.
Qed.

Lemma closed_fold t : forall m, Q (fold m t).
Proof.
  induction t as [b|x|s|v|f ts an Hts Han|ts Hts|h t IHh IHt|op b IH|op a b IHl IHr] using ast_ind'; intros m; cbn [fold].
  - destruct m; repeat qstep.
  - destruct m; repeat qstep.
  - destruct m; repeat qstep.
  - repeat qstep.
  - rewrite Forall_forall in Hts, Han. destruct m; repeat first [apply closed_mapl; auto|qstep].
  - rewrite Forall_forall in Hts. destruct m; repeat first [apply closed_mapl; auto|qstep].
  - destruct m; repeat first [apply IHh|apply IHt|qstep].
  - destruct m, op; cbn [unop_mode]; repeat first [apply IH|qstep].
  - assert (Hc : forall op l r, Q (fold_comp op l r)).
    { intros op' l r. unfold fold_comp. repeat qstep. }
    destruct m, op; cbn [binop_mode]; repeat first [apply IHl|apply IHr|apply Hc|qstep].
Qed.

Lemma closed_fold_lit l : Q (fold_lit l).
Proof. unfold fold_lit. repeat first [apply closed_mapl; intros; apply closed_fold|qstep]. Qed.
Lemma closed_fold_form f : Q (fold_form f).
Proof.
  induction f as [ft t|c b IH|c ib eb IHi IHe|c b IH] using form_ind'; cbn [fold_form]; rewrite ?Forall_forall in *.
  - destruct ft, t; repeat first [apply closed_fold|qstep].
  - repeat first [apply closed_fold|apply closed_mapl; auto|qstep].
  - destruct eb as [eb|]; cbn [opt_all] in IHe; rewrite ?Forall_forall in *; repeat first [apply closed_fold|apply closed_mapl; auto|qstep].
  - repeat first [apply closed_fold|apply closed_mapl; auto|qstep].
Qed.
Lemma closed_opt {A C} (f : A -> P C) o : (forall x, Q (f x)) -> Q (p_opt f o).
Proof. intros H. destruct o; cbn [p_opt]; repeat first [apply H|qstep]. Qed.
Lemma closed_fold_plan p : Q (fold_plan p).
Proof.
  unfold fold_plan, fold_event. repeat first [apply closed_fold_lit|apply closed_opt; intros; apply closed_fold_lit
    |apply closed_opt; intros; apply closed_fold|apply closed_opt; intros; apply closed_mapl; intros; apply closed_fold_form|qstep].
Qed.
Lemma closed_errors k : Q (p_errors k).
Proof. induction k; cbn [p_errors]; repeat qstep. Qed.
Lemma closed_warns k : Q (p_warns k).
Proof. induction k; cbn [p_warns]; repeat qstep. Qed.
Lemma closed_each {A} (f : A -> P unit) l : (forall x, Q (f x)) -> Q (p_each f l).
Proof. intros H. induction l; cbn [p_each]; repeat first [apply H|qstep]. Qed.

Lemma closed_validate g : Q (validate g).
Proof.
  unfold validate, fold_agent, fold_rule, check_belief, check_rule, check_plan.
  repeat first [apply closed_fold_plan|apply closed_fold|apply closed_fold_lit|apply closed_mapl; intros|apply closed_each; intros
    |apply closed_errors|apply closed_warns|qstep].
Qed.

End WithPy.
End Closed.
