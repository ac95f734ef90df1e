(** Parsing programs terminates. *)
From Verif Require Import Base Num Term Unify Str World Ast Names Quote Lex Parse ParseTotal Fold Program ProgSpec Eats.
From Verif Require Import LexCor.
From Coq Require Import Floats.SpecFloat.

Local Notation len := List.length.

Section WithPy.
Context {PY : Py}.
Hypothesis Hpow : sane_pow PY.

(** ** Folding and validation *)

Lemma fine0_bind {A C} k (m : P A) (f : A -> P C) : fine 0 k m -> (forall x, fine 0 k (f x)) -> fine 0 k (pbind m f).
Proof. intros Hm Hf. apply (fine_bind 0 0); [assumption|]. intros x. rewrite Nat.sub_0_r. apply Hf. Qed.
Lemma fine_error k : fine 0 k p_error.
Proof.
  intros s _. unfold p_error. destruct (log_error (p_log s)) as [[x|e] l] eqn:E; [cbn; lia|]. eapply log_error_rec; exact E.
Qed.
Lemma fine_warn k : fine 0 k p_warn.
Proof. intros s _. cbn. lia. Qed.

Ltac fstep := first
  [ apply fine_ret | apply fine_error | apply fine_raise | apply fine_warn | (apply fine_fail; discriminate) | assumption
  | apply fine0_bind; [|intros ?]
  | match goal with |- fine _ _ (if ?b then _ else _) => destruct b end
  | match goal with |- fine _ _ (match ?b with _ => _ end) => destruct b end ].

Lemma fine_mapl {A C} k (f : A -> P C) l : (forall x, In x l -> fine 0 k (f x)) -> fine 0 k (pmapl f l).
Proof.
  intros H. induction l as [|x l IH]; cbn [pmapl]; [apply fine_ret|]. apply fine0_bind; [apply H; now left|]. intros y.
  apply fine0_bind; [apply IH; intros z Hz; apply H; now right|]. intros; apply fine_ret.
Qed.

Lemma num_op_rec o x y : num_op fpow o x y <> Err ERecursion.
Proof.
  assert (Ht : forall z, to_float z <> Err ERecursion).
  { intros z. unfold to_float. destruct (binary_normalize _ _ _ _ _); discriminate. }
  assert (Hf : forall o a b, flt_op fpow o a b <> Err ERecursion).
  { intros [] a b; cbn [flt_op]; try discriminate; try apply Hpow.
    - destruct (flt_is_zero b); discriminate.
    - unfold flt_floordiv. repeat match goal with |- context [if ?b then _ else _] => destruct b end; try discriminate.
    - unfold flt_mod. repeat match goal with |- context [if ?b then _ else _] => destruct b end; try discriminate. }
  assert (Ha : forall n, as_float n <> Err ERecursion).
  { intros [z|f]; cbn [as_float]; [apply Ht|discriminate]. }
  unfold num_op. destruct x as [x|x], y as [y|y].
  - destruct o; cbn [int_op]; try discriminate.
    + destruct (0 <=? y)%Z; [discriminate|]. destruct (x =? 0)%Z; [discriminate|]. specialize (Ht x) as Hx. specialize (Ht y).
      destruct (to_float x); cbn [rbind]; [|congruence]. destruct (to_float y); cbn [rbind]; [apply Hpow|congruence].
    + unfold int_truediv. repeat match goal with
        | |- context [if ?b then _ else _] => destruct b
        | |- context [let '(_, _) := ?b in _] => destruct b
        | |- context [match ?b with _ => _ end] => destruct b
        end; try discriminate.
    + destruct (y =? 0)%Z; discriminate.
    + destruct (y =? 0)%Z; discriminate.
  - specialize (Ha (NInt x)). destruct (as_float (NInt x)); cbn [rbind as_float]; [apply Hf|congruence].
  - specialize (Ha (NInt y)). destruct (as_float (NInt y)); cbn [rbind as_float]; [apply Hf|congruence].
  - cbn [rbind as_float]. apply Hf.
Qed.

Lemma fine_fold k t : forall m, fine 0 k (fold m t).
Proof.
  induction t as [b|x|s|v|f ts an Hts Han|ts Hts|h t IHh IHt|op b IH|op a b IHl IHr] using ast_ind'; intros m; cbn [fold].
  - destruct m; repeat fstep.
  - destruct m; repeat fstep.
  - destruct m; repeat fstep.
  - repeat fstep.
  - rewrite Forall_forall in Hts, Han. destruct m; repeat first [apply fine_mapl; auto|fstep].
  - rewrite Forall_forall in Hts. destruct m; repeat first [apply fine_mapl; auto|fstep].
  - destruct m; repeat first [apply IHh|apply IHt|fstep].
  - destruct m, op; cbn [unop_mode]; repeat first [apply IH|fstep].
  - assert (Hc : forall op l r, fine 0 k (fold_comp op l r)).
    { intros op' l r. unfold fold_comp. destruct (const l) as [x|] eqn:El, (const r) as [y|] eqn:Er; try apply fine_ret.
      assert (Hr : eval_binop op' x y <> Err ERecursion).
      { destruct l; try discriminate; injection El as <-; (destruct r; try discriminate; injection Er as <-);
          (destruct op'; [|discriminate..]); cbn [eval_binop]; try discriminate.
        match goal with |- context [num_op fpow ?o ?a ?b] => pose proof (num_op_rec o a b); destruct (num_op fpow o a b) end; cbn [rmap]; congruence. }
      destruct (eval_binop op' x y) as [v|e]; [|assert (e <> ERecursion) by congruence; destruct x, y; first [apply fine_ret|now apply fine_fail]].
      destruct x, y; try apply fine_ret; destruct v; apply fine_ret. }
    assert (Hn : forall (t : ast) o x y, fine 0 k (match num_op fpow o x y with Ok z => pret (ANum z) | Err EZeroDiv => (p_error ;; pret t)%P | Err e => pfail e end)).
    { intros t o x y. pose proof (num_op_rec o x y) as H. destruct (num_op fpow o x y) as [z|e]; [apply fine_ret|].
      destruct e; repeat fstep. congruence. }
    destruct m, op; cbn [binop_mode]; repeat first [apply IHl|apply IHr|apply Hc|apply Hn|fstep].
Qed.

Lemma fine_fold_lit k l : fine 0 k (fold_lit l).
Proof. unfold fold_lit. repeat first [apply fine_mapl; intros; apply fine_fold|fstep]. Qed.
Lemma fine_fold_form k f : fine 0 k (fold_form f).
Proof.
  induction f as [ft t|c b IH|c ib eb IHi IHe|c b IH] using form_ind'; cbn [fold_form]; rewrite ?Forall_forall in *.
  - destruct ft, t; repeat first [apply fine_fold|fstep].
  - repeat first [apply fine_fold|apply fine_mapl; auto|fstep].
  - destruct eb as [eb|]; cbn [opt_all] in IHe; rewrite ?Forall_forall in *; repeat first [apply fine_fold|apply fine_mapl; auto|fstep].
  - repeat first [apply fine_fold|apply fine_mapl; auto|fstep].
Qed.
Lemma fine_opt {A C} k (f : A -> P C) o : (forall x, fine 0 k (f x)) -> fine 0 k (p_opt f o).
Proof. intros H. destruct o; cbn [p_opt]; repeat first [apply H|fstep]. Qed.
Lemma fine_fold_plan k p : fine 0 k (fold_plan p).
Proof.
  unfold fold_plan, fold_event. repeat first [apply fine_fold_lit|apply fine_opt; intros; apply fine_fold_lit
    |apply fine_opt; intros; apply fine_fold|apply fine_opt; intros; apply fine_mapl; intros; apply fine_fold_form|fstep].
Qed.
Lemma fine_errors k n : fine 0 k (p_errors n).
Proof. induction n; cbn [p_errors]; repeat fstep. Qed.
Lemma fine_warns k n : fine 0 k (p_warns n).
Proof. induction n; cbn [p_warns]; repeat fstep. Qed.
Lemma fine_each {A} k (f : A -> P unit) l : (forall x, fine 0 k (f x)) -> fine 0 k (p_each f l).
Proof. intros H. induction l; cbn [p_each]; repeat first [apply H|fstep]. Qed.

Lemma find_vars_rec t : forall e, find_vars t = Err e -> e = EAttr.
Proof.
  assert (Hall : forall l, Forall (fun t => forall e, find_vars t = Err e -> e = EAttr) l -> forall e,
    (fix all (l : list ast) : res (list bool) := match l with [] => Ok [] | x :: l' => rbind (find_vars x) (fun a => rmap (app a) (all l')) end) l
      = Err e -> e = EAttr).
  { induction l as [|x l IH]; intros H e E; [discriminate|]. inversion H as [|? ? H1 H2]; subst.
    destruct (find_vars x) as [a|e1]; cbn [rbind] in E; [|injection E as <-; now apply H1].
    match type of E with rmap _ ?r = _ => destruct r as [b|e2] eqn:E2 end; cbn [rmap] in E; [discriminate|]. injection E as <-. now apply IH. }
  induction t as [b|x|s|v|f ts an Hts Han|ts Hts|h t IHh IHt|op b IH|op a b IHl IHr] using ast_ind'; intros e E; cbn [find_vars] in E; cbv zeta in E;
    try discriminate.
  - destruct v; [now injection E as <-|discriminate].
  - match type of E with rbind ?r _ = _ => destruct r as [a|e1] eqn:E1 end; cbn [rbind] in E; [|injection E as <-; now apply (Hall ts)].
    match type of E with rmap _ ?r = _ => destruct r as [b|e2] eqn:E2 end; cbn [rmap] in E; [discriminate|]. injection E as <-. now apply (Hall an).
  - now apply (Hall ts).
  - now injection E as <-.
  - destruct (find_vars b) as [a|e1]; cbn [rmap] in E; [discriminate|]. injection E as <-. now apply IH.
  - destruct (find_vars a) as [x|e1]; cbn [rbind] in E; [|injection E as <-; now apply IHl].
    destruct (find_vars b) as [y|e2]; cbn [rmap] in E; [discriminate|]. injection E as <-. now apply IHr.
Qed.

Lemma fine_check_belief k b : fine 0 k (check_belief b).
Proof.
  unfold check_belief. apply fine0_bind; [|intros; apply fine_errors]. destruct (find_vars (lit_ast b)) as [l|e] eqn:E.
  - repeat fstep.
  - apply find_vars_rec in E as ->. fstep.
Qed.

Lemma fine_validate k g : fine 0 k (validate g).
Proof.
  unfold validate, fold_agent, fold_rule, check_rule, check_plan.
  repeat first [apply fine_check_belief|apply fine_fold_plan|apply fine_fold|apply fine_fold_lit|apply fine_mapl; intros|apply fine_each; intros
    |apply fine_errors|apply fine_warns|fstep].
Qed.

(** ** Programs *)

(** The same with a condition on the tokens. *)
Definition goes {A} (T : item -> Prop) (d k : nat) (m : P A) : Prop :=
  forall s, Forall T (p_items s) -> (len (p_items s) <= k)%nat ->
    match m s with
    | (Ok _, s') => (len (p_items s') + d <= len (p_items s))%nat
    | (Err e, _) => e <> ERecursion
    end.

Lemma goes_fine {A} T d k (m : P A) : fine d k m -> goes T d k m.
Proof. intros H s _ Hs. now apply H. Qed.
Lemma goes_weaken {A} T d k d' k' (m : P A) : goes T d k m -> (d' <= d)%nat -> (k' <= k)%nat -> goes T d' k' m.
Proof. intros H Hd Hk s Ht Hs. specialize (H s Ht ltac:(lia)). destruct (m s) as [[x|] s']; [lia|exact H]. Qed.
Lemma eaten {A} T (m : P A) s : eats m -> Forall T (p_items s) -> Forall T (p_items (snd (m s))).
Proof. intros H Ht. destruct (H s) as [pre E]. rewrite E in Ht. now apply Forall_app in Ht as [_ Ht]. Qed.
Lemma goes_bind {A C} T d e k (m : P A) (f : A -> P C) : goes T d k m -> eats m ->
  (forall x, (d <= k)%nat -> goes T (e - d) (k - d) (f x)) -> goes T e k (pbind m f).
Proof.
  intros Hm He Hf s Ht Hs. unfold pbind. specialize (Hm s Ht Hs). pose proof (eaten T m s He Ht) as Ht2.
  destruct (m s) as [[x|] s1]; [|exact Hm]. cbn [snd] in Ht2.
  specialize (Hf x ltac:(lia) s1 Ht2 ltac:(lia)). destruct (f x s1) as [[y|] s2]; [lia|exact Hf].
Qed.
Lemma goes_pair {A C} T d e k (m : P (tok * A)) (f : tok -> A -> P C) : goes T d k m -> eats m ->
  (forall t x, (d <= k)%nat -> goes T (e - d) (k - d) (f t x)) -> goes T e k (pbind m (fun y => let '(t, x) := y in f t x)).
Proof. intros Hm He Hf. apply (goes_bind T d); [assumption|assumption|]. intros [t x]. apply Hf. Qed.
Lemma next_in_In l : forall lg own t s', next_in l lg own = (Ok t, s') -> In (ITok t) l.
Proof.
  induction l as [|i l IH]; intros lg own t s' E; [discriminate|]. destruct i as [x|a b c]; cbn [next_in] in E.
  - injection E as -> _. now left.
  - destruct own; [|discriminate]. destruct (log_error lg) as [[u|] lg']; [|discriminate]. right. eapply IH; exact E.
Qed.
Lemma goes_next_bind {C} (T : item -> Prop) e k (f : tok -> P C) : (forall t, T (ITok t) -> (1 <= k)%nat -> goes T (e - 1) (k - 1) (f t)) -> goes T e k (pbind next f).
Proof.
  intros Hf s Ht Hs. pose proof (fine_next k s Hs) as Hn. unfold pbind. pose proof (eaten T next s eats_next Ht) as Ht2.
  destruct (next s) as [[t|] s1] eqn:E; [|exact Hn]. cbn [snd] in Ht2.
  assert (Tt : T (ITok t)). { rewrite Forall_forall in Ht. apply Ht. unfold next in E. eapply next_in_In; exact E. }
  specialize (Hf t Tt ltac:(lia) s1 Ht2 ltac:(lia)). destruct (f t s1) as [[y|] s2]; [lia|exact Hf].
Qed.
Lemma goes_next_is T k s : goes T 1 k (next_is s).
Proof.
  apply goes_next_bind. intros t _ Hk. apply goes_fine. destruct (is_lex t s); [apply fine_ret|apply fine_raise].
Qed.
Lemma fine_must k tk s : fine 0 k (must tk s).
Proof. unfold must. destruct (is_lex tk s); [apply fine_ret|apply fine_raise]. Qed.

Variable files : pystr -> file.
Variable paths : list pystr.
Variable size : nat.
Hypothesis Hfin : finitely_many files paths size.

(** String literals of the file [f] lead to paths in normal form. *)
Definition tidy (f : pystr) (i : item) : Prop :=
  match i with
  | ITok t => tk_string t = true -> forall name, parse_string (t_lex t) = Ok name ->
      normpath (join_path (dirname f) name) = join_path (dirname f) name
  | IBad _ _ _ => True
  end.
Hypothesis Htidy : forall p l items, files p = File l -> tokenize 1 l = Ok items -> Forall (tidy p) items.

Definition unseen (included : list pystr) : nat := len (filter (fun p => negb (existsb (pystr_eqb p) included)) paths).

Lemma filter_le {A} (p q : A -> bool) l : (forall x, p x = true -> q x = true) -> (len (filter p l) <= len (filter q l))%nat.
Proof.
  intros H. induction l as [|x l IH]; [reflexivity|]. cbn [filter]. destruct (p x) eqn:E; [rewrite (H x E); cbn; lia|].
  destruct (q x); cbn; lia.
Qed.
Lemma filter_lt {A} (p q : A -> bool) l x : (forall x, p x = true -> q x = true) -> In x l -> p x = false -> q x = true ->
  (len (filter p l) < len (filter q l))%nat.
Proof.
  intros H Hx Ep Eq. induction l as [|y l IH]; [contradiction|]. cbn [filter].
  destruct Hx as [->|Hx].
  - rewrite Ep, Eq. cbn. pose proof (filter_le p q l H). lia.
  - specialize (IH Hx). destruct (p y) eqn:E; [rewrite (H y E); cbn; lia|]. destruct (q y); cbn; lia.
Qed.
Lemma unseen_le p inc : (unseen (p :: inc) <= unseen inc)%nat.
Proof. apply filter_le. intros x. cbn [existsb]. rewrite negb_orb. intros E. now apply andb_prop in E as [_ E]. Qed.
Lemma unseen_lt p inc : In p paths -> existsb (pystr_eqb p) inc = false -> (unseen (p :: inc) < unseen inc)%nat.
Proof.
  intros Hp E. apply (filter_lt _ _ _ p); [|assumption| |now rewrite E].
  - intros x. cbn [existsb]. rewrite negb_orb. intros E2. now apply andb_prop in E2 as [_ E2].
  - cbn [existsb]. now rewrite pystr_eqb_refl.
Qed.

Section Loop.
Variables (sub : pystr -> list pystr -> bool -> P aagent) (n d : nat) (f : pystr) (inc : list pystr) (dir : bool).
Hypothesis Hd : (unseen inc <= d)%nat.
Hypothesis He : forall a b c, eats (sub a b c).
Hypothesis Hbegin : forall j, (d * (size + 5) + j + 5 <= n)%nat -> goes (tidy f) 0 j (sub f inc true).
Hypothesis Hinc : forall p, In p paths -> normpath p = p -> existsb (pystr_eqb p) inc = false -> goes (tidy p) 0 size (sub p inc false).

Lemma goes_include k : goes (tidy f) 0 k (include_file files sub f inc).
Proof.
  unfold include_file. apply (goes_bind _ 1); [apply goes_next_is|apply eats_next_is|]. intros _ H1.
  apply goes_next_bind. intros t Tt H2. destruct (tk_string t) eqn:Et; [|apply goes_fine, fine_raise].
  pose proof (parse_string_rec (t_lex t)) as Hp. cbn [tidy] in Tt. specialize (Tt Et).
  destruct (parse_string (t_lex t)) as [name|e]; [|intros s _ _; cbn; congruence].
  specialize (Tt name eq_refl). intros s Ht Hs. cbn [pbind p_res]. revert s Ht Hs. apply (goes_weaken _ 0 (k - 1 - 1)); [|lia|lia].
  apply (goes_bind _ 1); [apply goes_next_is|apply eats_next_is|]. intros _ H3.
  apply (goes_bind _ 1); [apply goes_next_is|apply eats_next_is|]. intros _ H4. cbv zeta.
  set (path := join_path (dirname f) name) in *.
  destruct (existsb (pystr_eqb path) inc) eqn:Ei; [apply goes_fine, fine0_bind; [apply fine_error|intros; apply fine_ret]|].
  destruct (files path) as [| |lines] eqn:Ef; [apply goes_fine, fine0_bind; [apply fine_error|intros; apply fine_ret]|apply goes_fine, fine_fail; discriminate|].
  destruct (tokenize 1 lines) as [items|e] eqn:El; [|destruct (tokenize_total 1 lines); congruence].
  intros s Ht Hs. cbn [pbind p_res]. unfold in_file.
  destruct (Hfin path Tt lines Ef) as [Hin Hsize].
  pose proof (Hinc path Hin Tt Ei (mkpst items (p_log s) false) (Htidy path lines items Ef El) (Hsize items El)) as H.
  destruct (sub path inc false (mkpst items (p_log s) false)) as [[x|e] s1]; [cbn; lia|exact H].
Qed.

Lemma goes_loop j : (d * (size + 5) + j + 4 <= n)%nat ->
  forall k i g plans, (i < k)%nat -> (i <= j)%nat -> goes (tidy f) 0 i (agent_loop files sub n k f inc dir g plans).
Proof.
  intros Hn. induction k as [|k IH]; intros i g plans Hk Hi; [lia|]. cbn [agent_loop]. cbv zeta.
  intros s Ht Hs. unfold next_or. pose proof (fine_next i s Hs) as Hnx. pose proof (eaten _ next s eats_next Ht) as Ht2.
  destruct (next s) as [[tk|e] s1] eqn:Enx; cbn [snd] in Ht2.
  2:{ destruct (eats_next s) as [pre Epre]. rewrite Enx in Epre. cbn [snd] in Epre.
      assert (len (p_items s1) <= len (p_items s))%nat by (rewrite Epre, app_length; lia). destruct e; try discriminate; try congruence.
      destruct dir; [pose proof (@fine_raise aagent 0 i s1 ltac:(lia)) as H2; destruct (@p_raise aagent s1) as [[x|] s2]; [lia|exact H2]|]. pose proof (fine_validate i g s1 ltac:(lia)) as H2.
      destruct (validate g s1) as [[x|] s2]; [lia|exact H2]. }
  assert (G : forall m : P aagent, goes (tidy f) 0 (i - 1) m -> match m s1 with (Ok _, s') => (len (p_items s') + 0 <= len (p_items s))%nat | (Err e, _) => e <> ERecursion end).
  { intros m H. specialize (H s1 Ht2 ltac:(lia)). destruct (m s1) as [[x|] s2]; [lia|exact H]. }
  apply G. clear G. assert (1 <= i)%nat by lia. clear s Ht Hs Hnx s1 Ht2 Enx.
  destruct (is_lex tk "{").
  { apply goes_next_bind. intros t1 _ H1. destruct (is_lex t1 "include").
    { apply (goes_bind _ 0); [apply goes_include|apply eats_include; exact He|]. intros h _.
      apply (goes_weaken _ 0 (i - 1 - 1 - 0)); [apply IH; lia|lia|lia]. }
    destruct (is_lex t1 "begin").
    { apply goes_next_bind. intros t2 _ H2. apply (goes_pair _ 1); [apply goes_fine, fine_parse_literal; lia|apply eats_parse_literal|]. intros t3 d0 H3.
      apply (goes_bind _ 0); [apply goes_fine, fine_must|apply eats_must|]. intros _ _.
      apply (goes_bind _ 0); [apply goes_fine, fine_warn|apply eats_warn|]. intros _ _.
      apply (goes_bind _ 0); [apply Hbegin; lia|apply He|]. intros h _.
      apply (goes_weaken _ 0 (i - 1 - 1 - 1 - 1 - 0 - 0 - 0)); [apply IH; lia|lia|lia]. }
    destruct (is_lex t1 "end"); [|apply goes_fine, fine_raise].
    apply (goes_bind _ 1); [apply goes_next_is|apply eats_next_is|]. intros _ H2.
    destruct dir; [apply goes_fine, fine_validate|].
    apply (goes_bind _ 0); [apply goes_fine, fine_error|apply eats_error|]. intros _ _.
    apply (goes_weaken _ 0 (i - 1 - 1 - 1 - 0)); [apply IH; lia|lia|lia]. }
  destruct (tk_functor tk).
  { apply (goes_bind _ 0); [destruct plans; apply goes_fine; [apply fine_warn|apply fine_ret]|destruct plans; [apply eats_warn|apply eats_ret]|]. intros _ _.
    apply (goes_pair _ 1); [apply goes_fine, fine_rule_or_belief; lia|apply eats_rule_or_belief|]. intros t1 x H1.
    apply (goes_bind _ 0); [apply goes_fine, fine_must|apply eats_must|]. intros _ _.
    apply (goes_weaken _ 0 (i - 1 - 0 - 1 - 0)); [apply IH; lia|lia|lia]. }
  destruct (is_lex tk "!").
  { apply (goes_pair _ 1); [apply goes_fine, fine_initial_goal; lia|apply eats_initial_goal|]. intros t1 x H1.
    apply (goes_bind _ 0); [apply goes_fine, fine_must|apply eats_must|]. intros _ _.
    apply (goes_weaken _ 0 (i - 1 - 1 - 0)); [apply IH; lia|lia|lia]. }
  destruct (is_lex tk "@" || is_lex tk "+" || is_lex tk "-").
  { apply (goes_pair _ 1); [apply goes_fine, fine_plan; lia|apply eats_plan|]. intros t1 x H1.
    apply (goes_bind _ 0); [apply goes_fine, fine_must|apply eats_must|]. intros _ _.
    apply (goes_weaken _ 0 (i - 1 - 1 - 0)); [apply IH; lia|lia|lia]. }
  apply (goes_bind _ 0); [apply goes_fine, fine_error|apply eats_error|]. intros _ _.
  apply (goes_weaken _ 0 (i - 1 - 0)); [apply IH; lia|lia|lia].
Qed.
End Loop.

Lemma goes_program n : forall d f inc dir j, (unseen (normpath f :: inc) <= d)%nat -> (d * (size + 5) + j + 5 <= n)%nat ->
  goes (tidy f) 0 j (parse_program files n f inc dir).
Proof.
  induction n as [|n IH]; intros d f inc dir j Hd Hn; [lia|]. cbn [parse_program].
  assert (L : goes (tidy f) 0 j (agent_loop files (parse_program files n) n n f (normpath f :: inc) dir no_agent false)).
  { apply (goes_loop _ n d) with (j := j); try lia.
    - intros. apply eats_program.
    - intros i Hi. apply (IH d); [|lia]. pose proof (unseen_le (normpath f) (normpath f :: inc)). lia.
    - intros p Hp Ep Ei. pose proof (unseen_lt p _ Hp Ei) as Hu. apply (IH (d - 1)%nat); [rewrite Ep; lia|]. nia. }
  intros s Ht Hs. specialize (L s Ht Hs). unfold at_eof.
  destruct (agent_loop files (parse_program files n) n n f (normpath f :: inc) dir no_agent false s) as [[x|e] s1]; [exact L|].
  destruct e; try exact L. pose proof (@fine_raise aagent 0 (len (p_items s1)) s1 (le_n _)) as H.
  destruct (@p_raise aagent s1) as [[x|e] s2] eqn:E; [|exact H]. unfold p_raise in E. destruct (log_error (p_log s1)). discriminate.
Qed.
End WithPy.
