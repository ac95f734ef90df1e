(** The parser only takes tokens from the front of the stream. *)
From Verif Require Import Base Num Term Str World Ast Names Quote Lex Parse Fold Program.

Definition eats {A} (m : P A) : Prop := forall s, exists pre, p_items s = pre ++ p_items (snd (m s)).

Lemma eats_ret {A} (x : A) : eats (pret x).
Proof. intros s. now exists []. Qed.
Lemma eats_fail {A} e : eats (@pfail A e).
Proof. intros s. now exists []. Qed.
Lemma eats_bind {A C} (m : P A) (f : A -> P C) : eats m -> (forall x, eats (f x)) -> eats (pbind m f).
Proof.
  intros Hm Hf s. unfold pbind. destruct (Hm s) as [a E]. destruct (m s) as [[x|e] s1]; cbn [snd] in *; [|now exists a].
  destruct (Hf x s1) as [b E2]. exists (a ++ b). rewrite <- app_assoc, <- E2. exact E.
Qed.
Lemma eats_pair {A C} (m : P (tok * A)) (f : tok -> A -> P C) : eats m -> (forall t x, eats (f t x)) ->
  eats (pbind m (fun y => let '(t, x) := y in f t x)).
Proof. intros Hm Hf. apply eats_bind; [assumption|]. intros [t x]. apply Hf. Qed.
Lemma eats_error : eats p_error.
Proof. intros s. unfold p_error. destruct (log_error (p_log s)). now exists []. Qed.
Lemma eats_raise {A} : eats (@p_raise A).
Proof. intros s. unfold p_raise. destruct (log_error (p_log s)). now exists []. Qed.
Lemma eats_warn : eats p_warn.
Proof. intros s. now exists []. Qed.
Lemma eats_next : eats next.
Proof.
  intros [items lg own]. unfold next. cbn [p_items p_log p_own].
  revert lg. induction items as [|i items IH]; intros lg; cbn [next_in]; [now exists []|].
  destruct i as [t|a b c]; [now exists [ITok t]|]. destruct own; [|now exists [IBad a b c]].
  destruct (log_error lg) as [[[]|e] lg']; [|now exists [IBad a b c]].
  destruct (IH lg') as [pre E]. exists (IBad a b c :: pre). cbn. now rewrite <- E.
Qed.

Definition epl {A} (f : tok -> P A) : Prop := forall tk, eats (f tk).

Ltac estep := first
  [ apply eats_ret | apply eats_error | apply eats_raise | apply eats_warn | apply eats_next
  | apply eats_fail | assumption
  | apply eats_pair; [|intros ? ?] | apply eats_bind; [|intros ?]
  | match goal with |- eats (if ?b then _ else _) => destruct b end
  | match goal with |- eats (match ?b with _ => _ end) => destruct b end ].

Lemma eats_binloop sel o : epl o -> forall k tk e, eats (binloop k sel o tk e).
Proof. intros Ho. induction k as [|k IH]; intros tk e; cbn [binloop]; repeat estep; [apply Ho|apply IH]. Qed.

Section Levels.
Variable atom : tok -> P (tok * ast).
Hypothesis Ha : epl atom.
Lemma eats_factor k : epl (factor_lv atom k).
Proof. induction k as [|k IH]; intros tk; cbn [factor_lv]; repeat estep; [apply IH|apply Ha|now apply eats_binloop]. Qed.
Lemma eats_product k : epl (product_lv atom k).
Proof. intros tk. unfold product_lv. estep; [apply eats_factor|]. apply eats_binloop, eats_factor. Qed.
Lemma eats_arith k : epl (arith_lv atom k).
Proof. intros tk. unfold arith_lv. estep; [apply eats_product|]. apply eats_binloop, eats_product. Qed.
Lemma eats_comp_loop o : epl o -> forall k tk c r, eats (comp_loop k o tk c r).
Proof. intros Ho. induction k as [|k IH]; intros tk c r; cbn [comp_loop]; repeat estep; [apply Ho|apply IH]. Qed.
Lemma eats_comparison k : epl (comparison_lv atom k).
Proof. intros tk. unfold comparison_lv. estep; [apply eats_arith|]. apply eats_comp_loop, eats_arith. Qed.
Lemma eats_not_loop l k : epl (not_loop atom l k).
Proof. induction l as [|l IH]; intros tk; cbn [not_loop]; repeat first [apply IH|apply eats_comparison|estep]. Qed.
Lemma eats_and k : epl (and_lv atom k).
Proof. intros tk. unfold and_lv. estep; [apply eats_not_loop|]. apply eats_binloop. intros ?. apply eats_not_loop. Qed.
Lemma eats_term k : epl (term_lv atom k).
Proof. intros tk. unfold term_lv. estep; [apply eats_and|]. apply eats_binloop, eats_and. Qed.
End Levels.

Lemma eats_terms_loop close t : epl t -> forall k acc, eats (terms_loop k close t acc).
Proof. intros Ht. induction k as [|k IH]; intros acc; cbn [terms_loop]; cbv zeta; repeat estep; [apply Ht|apply IH]. Qed.
Lemma eats_literal t k : epl t -> epl (literal_lv t k).
Proof. intros Ht tk. unfold literal_lv. repeat estep; now apply eats_terms_loop. Qed.
Lemma eats_tail_loop a : epl a -> forall k, eats (tail_loop k a).
Proof. intros Ha. induction k as [|k IH]; cbn [tail_loop]; repeat estep; apply Ha. Qed.
Lemma eats_list_loop a : epl a -> forall k tk acc, eats (list_loop k a tk acc).
Proof. intros Ha. induction k as [|k IH]; intros tk acc; cbn [list_loop]; repeat estep; first [apply Ha|now apply eats_tail_loop|apply IH]. Qed.

Lemma eats_atom n : epl (parse_atom n).
Proof.
  induction n as [|n IH]; intros tk; cbn [parse_atom]; [estep|]. cbv zeta.
  assert (T : epl (term_lv (parse_atom n) n)) by now apply eats_term.
  assert (A : epl (and_lv (parse_atom n) n)) by now apply eats_and.
  repeat first [apply T|apply eats_literal; assumption|apply eats_list_loop; assumption
               |estep].
Qed.
Lemma eats_parse_term n : epl (parse_term n).
Proof. apply eats_term, eats_atom. Qed.
Lemma eats_parse_literal n : epl (parse_literal n).
Proof. apply eats_literal, eats_parse_term. Qed.
Lemma eats_expect tk s : eats (expect tk s).
Proof. unfold expect. repeat estep. Qed.
Lemma eats_condition n : epl (condition n).
Proof. intros tk. unfold condition. repeat first [apply eats_expect|apply eats_parse_term|estep]. Qed.
Lemma eats_body_loop f : epl f -> forall k tk acc, eats (body_loop k f tk acc).
Proof. intros Hf. induction k as [|k IH]; intros tk acc; cbn [body_loop]; cbv zeta; repeat first [apply Hf|apply IH|estep]. Qed.
Lemma eats_formula n : epl (parse_formula n).
Proof.
  induction n as [|n IH]; intros tk; cbn [parse_formula]; cbv zeta; [estep|].
  assert (B : epl (block_lv (fun tk => body_loop n (parse_formula n) tk []))).
  { intros t. unfold block_lv. repeat first [apply eats_expect|apply eats_body_loop; assumption|estep]. }
  repeat first [apply eats_condition|apply B|apply eats_parse_term|estep].
Qed.
Lemma eats_plan_body n : forall k tk acc, eats (plan_body_loop k n tk acc).
Proof. induction k as [|k IH]; intros tk acc; cbn [plan_body_loop]; cbv zeta; repeat first [apply eats_formula|apply IH|estep]. Qed.
Lemma eats_event n : epl (parse_event n).
Proof. intros tk. unfold parse_event. repeat first [apply eats_parse_literal|estep]. Qed.
Lemma eats_plan n : epl (parse_plan n).
Proof.
  intros tk. unfold parse_plan, parse_plan_body.
  repeat first [apply eats_parse_literal|apply eats_event|apply eats_parse_term|apply eats_plan_body|estep].
Qed.
Lemma eats_rule_or_belief n : epl (parse_rule_or_belief n).
Proof. intros tk. unfold parse_rule_or_belief. repeat first [apply eats_parse_literal|apply eats_parse_term|estep]. Qed.
Lemma eats_initial_goal n : epl (parse_initial_goal n).
Proof. intros tk. unfold parse_initial_goal. repeat first [apply eats_parse_literal|estep]. Qed.

Section WithPy.
Context {PY : Py}.

Lemma eats_mapl {A C} (f : A -> P C) l : (forall x, In x l -> eats (f x)) -> eats (pmapl f l).
Proof.
  intros H. induction l as [|x l IH]; cbn [pmapl]; [estep|]. apply eats_bind; [apply H; now left|]. intros y.
  apply eats_bind; [apply IH; intros z Hz; apply H; now right|]. intros; estep.
Qed.

Lemma eats_fold t : forall m, eats (fold m t).
Proof.
  induction t as [b|x|s|v|f ts an Hts Han|ts Hts|h t IHh IHt|op b IH|op a b IHl IHr] using ast_ind'; intros m; cbn [fold].
  - destruct m; repeat estep.
  - destruct m; repeat estep.
  - destruct m; repeat estep.
  - repeat estep.
  - rewrite Forall_forall in Hts, Han. destruct m; repeat first [apply eats_mapl; auto|estep].
  - rewrite Forall_forall in Hts. destruct m; repeat first [apply eats_mapl; auto|estep].
  - destruct m; repeat first [apply IHh|apply IHt|estep].
  - destruct m, op; cbn [unop_mode]; repeat first [apply IH|estep].
  - assert (Hc : forall op l r, eats (fold_comp op l r)).
    { intros op' l r. unfold fold_comp. repeat estep. }
    destruct m, op; cbn [binop_mode]; repeat first [apply IHl|apply IHr|apply Hc|estep].
Qed.

Lemma eats_fold_lit l : eats (fold_lit l).
Proof. unfold fold_lit. repeat first [apply eats_mapl; intros; apply eats_fold|estep]. Qed.
Lemma eats_fold_form f : eats (fold_form f).
Proof.
  induction f as [ft t|c b IH|c ib eb IHi IHe|c b IH] using form_ind'; cbn [fold_form]; rewrite ?Forall_forall in *.
  - destruct ft, t; repeat first [apply eats_fold|estep].
  - repeat first [apply eats_fold|apply eats_mapl; auto|estep].
  - destruct eb as [eb|]; cbn [opt_all] in IHe; rewrite ?Forall_forall in *; repeat first [apply eats_fold|apply eats_mapl; auto|estep].
  - repeat first [apply eats_fold|apply eats_mapl; auto|estep].
Qed.
Lemma eats_opt {A C} (f : A -> P C) o : (forall x, eats (f x)) -> eats (p_opt f o).
Proof. intros H. destruct o; cbn [p_opt]; repeat first [apply H|estep]. Qed.
Lemma eats_fold_plan p : eats (fold_plan p).
Proof.
  unfold fold_plan, fold_event. repeat first [apply eats_fold_lit|apply eats_opt; intros; apply eats_fold_lit
    |apply eats_opt; intros; apply eats_fold|apply eats_opt; intros; apply eats_mapl; intros; apply eats_fold_form|estep].
Qed.
Lemma eats_errors k : eats (p_errors k).
Proof. induction k; cbn [p_errors]; repeat estep. Qed.
Lemma eats_warns k : eats (p_warns k).
Proof. induction k; cbn [p_warns]; repeat estep. Qed.
Lemma eats_each {A} (f : A -> P unit) l : (forall x, eats (f x)) -> eats (p_each f l).
Proof. intros H. induction l; cbn [p_each]; repeat first [apply H|estep]. Qed.

Lemma eats_validate g : eats (validate g).
Proof.
  unfold validate, fold_agent, fold_rule, check_belief, check_rule, check_plan.
  repeat first [apply eats_fold_plan|apply eats_fold|apply eats_fold_lit|apply eats_mapl; intros|apply eats_each; intros
    |apply eats_errors|apply eats_warns|estep].
Qed.

(** ** Programs *)

Lemma eats_next_or {A} (stop : P A) go : eats stop -> (forall tk, eats (go tk)) -> eats (next_or stop go).
Proof.
  intros Hs Hg s. unfold next_or. destruct (eats_next s) as [a E]. destruct (next s) as [[tk|e] s1]; cbn [snd] in E.
  - destruct (Hg tk s1) as [b E2]. exists (a ++ b). rewrite <- app_assoc, <- E2. exact E.
  - destruct e; try (now exists a). destruct (Hs s1) as [b E2]. exists (a ++ b). rewrite <- app_assoc, <- E2. exact E.
Qed.
Lemma eats_eof {A} (m : P A) : eats m -> eats (at_eof m).
Proof.
  intros Hm s. unfold at_eof. destruct (Hm s) as [a E]. destruct (m s) as [[x|e] s1]; cbn [snd] in E; [now exists a|].
  destruct e; try (now exists a). destruct (@eats_raise A s1) as [b E2]. exists (a ++ b). rewrite <- app_assoc, <- E2. exact E.
Qed.
Lemma eats_in_file {A} items (m : P A) : eats (in_file items m).
Proof. intros s. unfold in_file. destruct (m _) as [r s1]. now exists []. Qed.
Lemma eats_res {A} (r : res A) : eats (p_res r).
Proof. intros s. now exists []. Qed.
Lemma eats_next_is s : eats (next_is s).
Proof. unfold next_is. repeat estep. Qed.
Lemma eats_must tk s : eats (must tk s).
Proof. unfold must. repeat estep. Qed.

Variable files : pystr -> file.

Lemma eats_include sub filename included : (forall a b c, eats (sub a b c)) -> eats (include_file files sub filename included).
Proof.
  intros H. unfold include_file. repeat first [apply eats_next_is|apply eats_res|apply eats_in_file|estep].
Qed.

Lemma eats_agent_loop sub n filename included directive : (forall a b c, eats (sub a b c)) ->
  forall k g plans, eats (agent_loop files sub n k filename included directive g plans).
Proof.
  intros H. induction k as [|k IH]; intros g plans; cbn [agent_loop]; [estep|]. cbv zeta. apply eats_next_or; [|intros tk];
  repeat first [apply IH|apply eats_include; assumption|apply eats_parse_literal|apply eats_must|apply eats_next_is|apply H
    |apply eats_validate|apply eats_rule_or_belief|apply eats_initial_goal|apply eats_plan|estep].
Qed.

Lemma eats_program n : forall filename included directive, eats (parse_program files n filename included directive).
Proof.
  induction n as [|n IH]; intros; cbn [parse_program]; [estep|]. apply eats_eof. now apply eats_agent_loop.
Qed.
End WithPy.
