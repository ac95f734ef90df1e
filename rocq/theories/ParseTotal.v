(** The parser terminates: a bound on the recursion that exceeds the number of
    tokens by three is never reached, and a larger bound changes nothing. *)
From Verif Require Import Base Num Term Str World Ast Names Quote Lex Parse.

Local Notation len := List.length.

(** ** The bound is not reached *)

(** [fine d k m]: with at most [k] items left, [m] does not reach the bound, and
    uses up at least [d] items if it succeeds. *)
Definition fine {A} (d k : nat) (m : P A) : Prop :=
  forall s, (len (p_items s) <= k)%nat ->
    match m s with
    | (Ok _, s') => (len (p_items s') + d <= len (p_items s))%nat
    | (Err e, _) => e <> ERecursion
    end.

Lemma fine_ret {A} k (x : A) : fine 0 k (pret x).
Proof. intros s _. cbn. lia. Qed.
Lemma fine_fail {A} d k e : e <> ERecursion -> fine d k (@pfail A e).
Proof. intros H s _. exact H. Qed.
Lemma fine_raise {A} d k : fine d k (@p_raise A).
Proof. intros s _. unfold p_raise. destruct (log_error (p_log s)). discriminate. Qed.
Lemma fine_weaken {A} d k d' k' (m : P A) : fine d k m -> (d' <= d)%nat -> (k' <= k)%nat -> fine d' k' m.
Proof. intros H Hd Hk s Hs. specialize (H s ltac:(lia)). destruct (m s) as [[x|] s']; [lia|exact H]. Qed.
Lemma fine_bind {A C} d d' k (m : P A) (f : A -> P C) : fine d k m -> (forall x, fine d' (k - d) (f x)) -> fine (d + d') k (pbind m f).
Proof.
  intros Hm Hf s Hs. unfold pbind. specialize (Hm s Hs). destruct (m s) as [[x|] s1]; [|exact Hm].
  specialize (Hf x s1 ltac:(lia)). destruct (f x s1) as [[y|] s2]; [lia|exact Hf].
Qed.
Lemma log_error_rec lg lg' e : log_error lg = (Err e, lg') -> e <> ERecursion.
Proof.
  unfold log_error. destruct lg as [[mx|] er wa]; cbn; [destruct (_ <=? _)%nat || destruct (_ <? _)%nat || idtac|];
    intros E; try discriminate; injection E as <- _; discriminate.
Qed.
Lemma next_in_fine l : forall lg own,
  match next_in l lg own with
  | (Ok _, s') => (len (p_items s') < len l)%nat
  | (Err e, _) => e <> ERecursion
  end.
Proof.
  induction l as [|i l IH]; intros lg own; [discriminate|]. destruct i as [t|c a b]; [cbn; lia|]. cbn [next_in].
  destruct own; [|discriminate]. destruct (log_error lg) as [[u|] lg'] eqn:E.
  - specialize (IH lg' true). destruct (next_in l lg' true) as [[x|] s']; [cbn; lia|exact IH].
  - eapply log_error_rec; eassumption.
Qed.
Lemma fine_next k : fine 1 k next.
Proof.
  intros s _. unfold next. pose proof (next_in_fine (p_items s) (p_log s) (p_own s)) as H.
  destruct (next_in (p_items s) (p_log s) (p_own s)) as [[x|] s']; [lia|exact H].
Qed.
Lemma fine_next_bind {C} d k (f : tok -> P C) : (forall t, (1 <= k)%nat -> fine (d - 1) (k - 1) (f t)) -> fine d k (pbind next f).
Proof.
  intros H s Hs. pose proof (fine_next k s Hs) as Hn. unfold pbind. destruct (next s) as [[t|] s1]; [|exact Hn].
  specialize (H t ltac:(lia) s1 ltac:(lia)). destruct (f t s1) as [[y|] s2]; [lia|exact H].
Qed.
Lemma fine_pair {A C} d' d k (m : P (tok * A)) (f : tok -> A -> P C) : fine d' k m ->
  (forall t x, (d' <= k)%nat -> fine (d - d') (k - d') (f t x)) -> fine d k (pbind m (fun y => let '(t, x) := y in f t x)).
Proof.
  intros Hm Hf s Hs. unfold pbind. specialize (Hm s Hs). destruct (m s) as [[[t x]|] s1]; [|exact Hm].
  specialize (Hf t x ltac:(lia) s1 ltac:(lia)). destruct (f t x s1) as [[y|] s2]; [lia|exact Hf].
Qed.

(** An expression parser that is good for up to [j] items. *)
Definition fp {A} (j : nat) (f : tok -> P (tok * A)) : Prop := forall i tk, (i <= j)%nat -> fine 1 i (f tk).

Lemma fp_weaken {A} j j' (f : tok -> P (tok * A)) : fp j f -> (j' <= j)%nat -> fp j' f.
Proof. intros H Hj i tk Hi. apply H. lia. Qed.

Lemma fine_binloop j sel operand : fp (j - 1) operand -> forall k tk e, (j < k)%nat -> fine 0 j (binloop k sel operand tk e).
Proof.
  intros Ho k. revert j Ho. induction k as [|k IH]; intros j Ho tk e Hj; [lia|]. cbn [binloop]. destruct (sel tk); [|apply fine_ret].
  apply fine_next_bind. intros t1 H1. apply (fine_pair 1); [apply Ho; lia|]. intros t2 x H2.
  apply (fine_weaken 0 (j - 1 - 1)); [|lia|lia]. apply IH; [|lia]. eapply fp_weaken; [exact Ho|lia].
Qed.

Section Levels.
Variable atom : tok -> P (tok * ast).

Lemma fine_factor k : forall j, fp j atom -> (j + 2 <= k)%nat -> fp j (factor_lv atom k).
Proof.
  induction k as [|k IH]; intros j Ha Hj; [lia|]. intros i tk Hi. cbn [factor_lv]. destruct (tk_unary tk).
  - apply fine_next_bind. intros t1 H1. apply (fine_pair 1); [apply (IH (j - 1)%nat); [eapply fp_weaken; [exact Ha|lia]|lia|lia]|].
    intros t2 x H2. apply (fine_weaken 0 (i - 1 - 1)); [apply fine_ret|lia|lia].
  - apply (fine_pair 1); [apply Ha; lia|]. intros t1 x H1. apply (fine_weaken 0 (i - 1)); [|lia|lia].
    apply fine_binloop; [|lia]. apply IH; [eapply fp_weaken; [exact Ha|lia]|lia].
Qed.
Lemma fine_product k j : fp j atom -> (j + 2 <= k)%nat -> fp j (product_lv atom k).
Proof.
  intros Ha Hj i tk Hi. unfold product_lv. apply (fine_pair 1); [apply (fine_factor k j); assumption|]. intros t1 x H1.
  apply (fine_weaken 0 (i - 1)); [|lia|lia]. apply fine_binloop; [|lia]. apply fine_factor; [eapply fp_weaken; [exact Ha|lia]|lia].
Qed.
Lemma fine_arith k j : fp j atom -> (j + 2 <= k)%nat -> fp j (arith_lv atom k).
Proof.
  intros Ha Hj i tk Hi. unfold arith_lv. apply (fine_pair 1); [apply (fine_product k j); assumption|]. intros t1 x H1.
  apply (fine_weaken 0 (i - 1)); [|lia|lia]. apply fine_binloop; [|lia]. apply fine_product; [eapply fp_weaken; [exact Ha|lia]|lia].
Qed.
Lemma fine_comp_loop operand : forall k j, fp (j - 1) operand -> (j < k)%nat -> forall tk c r, fine 0 j (comp_loop k operand tk c r).
Proof.
  induction k as [|k IH]; intros j Ho Hj tk c r; [lia|]. cbn [comp_loop]. destruct (tk_comp tk); [|apply fine_ret].
  apply fine_next_bind. intros t1 H1. apply (fine_pair 1); [apply Ho; lia|]. intros t2 x H2. cbv zeta.
  apply (fine_weaken 0 (j - 1 - 1)); [|lia|lia]. apply IH; [eapply fp_weaken; [exact Ho|lia]|lia].
Qed.
Lemma fine_comparison k j : fp j atom -> (j + 2 <= k)%nat -> fp j (comparison_lv atom k).
Proof.
  intros Ha Hj i tk Hi. unfold comparison_lv. apply (fine_pair 1); [apply (fine_arith k j); assumption|]. intros t1 x H1.
  apply (fine_weaken 0 (i - 1)); [|lia|lia]. apply fine_comp_loop; [|lia]. apply fine_arith; [eapply fp_weaken; [exact Ha|lia]|lia].
Qed.
Lemma fine_not_loop l : forall k j, fp j atom -> (j + 2 <= k)%nat -> (j < l)%nat -> fp j (not_loop atom l k).
Proof.
  induction l as [|l IH]; intros k j Ha Hj Hl; [lia|]. intros i tk Hi. cbn [not_loop]. destruct (is_lex tk "not").
  - apply fine_next_bind. intros t1 H1. apply (fine_pair 1); [apply (IH k (j - 1)%nat); [eapply fp_weaken; [exact Ha|lia]|lia|lia|lia]|].
    intros t2 x H2. apply (fine_weaken 0 (i - 1 - 1)); [apply fine_ret|lia|lia].
  - apply (fine_comparison k j); assumption.
Qed.
Lemma fine_not k j : fp j atom -> (j + 2 <= k)%nat -> fp j (not_lv atom k).
Proof. intros. apply fine_not_loop; [assumption|assumption|lia]. Qed.
Lemma fine_and k j : fp j atom -> (j + 2 <= k)%nat -> fp j (and_lv atom k).
Proof.
  intros Ha Hj i tk Hi. unfold and_lv. apply (fine_pair 1); [apply (fine_not k j); assumption|]. intros t1 x H1.
  apply (fine_weaken 0 (i - 1)); [|lia|lia]. apply fine_binloop; [|lia]. apply fine_not; [eapply fp_weaken; [exact Ha|lia]|lia].
Qed.
Lemma fine_term k j : fp j atom -> (j + 2 <= k)%nat -> fp j (term_lv atom k).
Proof.
  intros Ha Hj i tk Hi. unfold term_lv. apply (fine_pair 1); [apply (fine_and k j); assumption|]. intros t1 x H1.
  apply (fine_weaken 0 (i - 1)); [|lia|lia]. apply fine_binloop; [|lia]. apply fine_and; [eapply fp_weaken; [exact Ha|lia]|lia].
Qed.
End Levels.

Lemma fine_terms_loop close term : forall k j acc, ((1 <= j)%nat -> fp (j - 1) term) -> (j < k)%nat -> fine 1 j (terms_loop k close term acc).
Proof.
  induction k as [|k IH]; intros j acc Ht Hj; [lia|]. cbn [terms_loop].
  apply fine_next_bind. intros t1 H1. apply (fine_pair 1); [apply Ht; lia|]. intros t2 x H2. cbv zeta.
  destruct (is_lex t2 close).
  { apply fine_next_bind. intros t3 H3. apply (fine_weaken 0 (j - 1 - 1 - 1)); [apply fine_ret|lia|lia]. }
  destruct (is_lex t2 ","); [|apply fine_raise]. apply (fine_weaken 1 (j - 1 - 1)); [|lia|lia]. apply IH; [|lia]. intros _. eapply fp_weaken; [apply Ht; lia|lia].
Qed.

Lemma fine_literal term k j tk : ((2 <= j)%nat -> fp (j - 2) term) -> (j <= k)%nat -> fine 1 j (literal_lv term k tk).
Proof.
  intros Ht Hj. unfold literal_lv. destruct (negb (tk_functor tk)); [apply fine_raise|].
  apply fine_next_bind. intros t1 H1. apply (fine_pair 0).
  { destruct (is_lex t1 "("); [|apply fine_ret]. apply (fine_weaken 1 (j - 1)); [|lia|lia].
    apply fine_terms_loop; [|lia]. intros H2. eapply fp_weaken; [apply Ht; lia|lia]. }
  intros t2 ts _. apply (fine_pair 0).
  { destruct (is_lex t2 "["); [|apply fine_ret]. apply (fine_weaken 1 (j - 1 - 0)); [|lia|lia].
    apply fine_terms_loop; [|lia]. intros H2. eapply fp_weaken; [apply Ht; lia|lia]. }
  intros t3 an _. apply (fine_weaken 0 (j - 1 - 0 - 0)); [apply fine_ret|lia|lia].
Qed.

Lemma fine_tail_loop and_ : forall k j, fp (j - 1) and_ -> (j < k)%nat -> fine 1 j (tail_loop k and_).
Proof.
  induction k as [|k IH]; intros j Ha Hj; [lia|]. cbn [tail_loop].
  apply fine_next_bind. intros t1 H1. apply (fine_pair 1); [apply Ha; lia|]. intros t2 x H2.
  destruct (is_lex t2 "|").
  { apply (fine_pair 1); [apply IH; [eapply fp_weaken; [exact Ha|lia]|lia]|]. intros t3 y H3.
    apply (fine_weaken 0 (j - 1 - 1 - 1)); [apply fine_ret|lia|lia]. }
  destruct (is_lex t2 "]"); [|apply fine_raise]. apply fine_next_bind. intros t3 H3.
  apply (fine_weaken 0 (j - 1 - 1 - 1)); [apply fine_ret|lia|lia].
Qed.

Lemma fine_close k j and_ tk acc : is_lex tk "]" = true -> fine 1 j (list_loop k and_ tk acc).
Proof.
  intros H. destruct k; cbn [list_loop]; rewrite H; apply fine_next_bind; intros t1 H1; (apply (fine_weaken 0 (j - 1)); [apply fine_ret|lia|lia]).
Qed.

Lemma fine_list_loop and_ : forall k j tk acc, fp j and_ -> (j < k)%nat -> fine 1 j (list_loop k and_ tk acc).
Proof.
  induction k as [|k IH]; intros j tk acc Ha Hj; [lia|]. destruct (is_lex tk "]") eqn:Ec; [now apply fine_close|].
  cbn [list_loop]. rewrite Ec.
  apply (fine_pair 1); [apply Ha; lia|]. intros t1 x H1. destruct (is_lex t1 "|").
  { destruct acc; [|apply fine_raise]. apply (fine_pair 1); [apply fine_tail_loop; [eapply fp_weaken; [exact Ha|lia]|lia]|].
    intros t3 y H3. apply (fine_weaken 0 (j - 1 - 1)); [apply fine_ret|lia|lia]. }
  destruct (is_lex t1 ",").
  { apply fine_next_bind. intros t2 H2. apply (fine_weaken 1 (j - 1 - 1)); [|lia|lia]. apply IH; [eapply fp_weaken; [exact Ha|lia]|lia]. }
  destruct (is_lex t1 "]") eqn:E1; [|apply fine_raise]. apply (fine_weaken 1 (j - 1)); [now apply fine_close|lia|lia].
Qed.

Lemma unescape_rec n : forall s, (len s <= n)%nat -> unescape n s <> Err ERecursion.
Proof.
  assert (He : forall c s, escape c s <> Err ERecursion).
  { intros c s. unfold escape.
    repeat match goal with |- (if ?b then _ else _) <> _ => destruct b end; try discriminate;
      repeat match goal with
      | |- (let '(_, _) := ?x in _) <> _ => destruct x
      | |- match ?x with _ => _ end <> _ => destruct x
      end; discriminate. }
  assert (Ho : forall k acc s, (len (snd (oct_digits k acc s)) <= len s)%nat).
  { induction k as [|k IH]; intros acc s; [cbn; lia|]. destruct s as [|c s]; [cbn; lia|]. cbn [oct_digits].
    destruct (is_octal c); [|cbn; lia]. specialize (IH (8 * acc + (c - 48))%N s). cbn [List.length]. lia. }
  assert (Hh : forall k acc s x s', hex_digits k acc s = Some (x, s') -> (len s' <= len s)%nat).
  { induction k as [|k IH]; intros acc s x s' E; cbn [hex_digits] in E; [injection E as _ <-; lia|].
    destruct s as [|c s]; [discriminate|]. destruct (hex_val c); [|discriminate]. apply IH in E. cbn. lia. }
  assert (Hl : forall c s x s', escape c s = Ok (x, s') -> (len s' <= len s)%nat).
  { intros c s x s' E. unfold escape in E.
    repeat match type of E with (if ?b then _ else _) = _ => destruct b end; try discriminate;
      try (injection E as _ <-; lia).
    - specialize (Ho 2%nat (c - 48)%N s). destruct (oct_digits 2 (c - 48) s). injection E as _ <-. exact Ho.
    - destruct (hex_digits 2 0 s) as [[y t]|] eqn:Eh; [|discriminate]. destruct (y <? 1114112)%N; [|discriminate]. injection E as _ <-. eapply Hh; exact Eh.
    - destruct (hex_digits 4 0 s) as [[y t]|] eqn:Eh; [|discriminate]. destruct (y <? 1114112)%N; [|discriminate]. injection E as _ <-. eapply Hh; exact Eh.
    - destruct (hex_digits 8 0 s) as [[y t]|] eqn:Eh; [|discriminate]. destruct (y <? 1114112)%N; [|discriminate]. injection E as _ <-. eapply Hh; exact Eh. }
  induction n as [|n IH]; intros s Hs; (destruct s as [|c s]; [discriminate|]); cbn in Hs; [lia|]. cbn [unescape].
  destruct (c =? 92)%N.
  - destruct s as [|d s]; [discriminate|]. specialize (He d s). specialize (Hl d s). destruct (escape d s) as [[x t]|]; cbn [rbind]; [|congruence].
    specialize (Hl x t eq_refl). cbn in Hs. specialize (IH t ltac:(lia)). destruct (unescape n t); cbn [rmap]; [discriminate|congruence].
  - specialize (IH s ltac:(lia)). destruct (unescape n s); cbn [rmap]; [discriminate|congruence].
Qed.

Lemma parse_string_rec s : parse_string s <> Err ERecursion.
Proof.
  unfold parse_string. destruct (quoted s); [|discriminate]. destruct (utf8 (removelast (tl s))) as [b|e] eqn:E; cbn [rbind].
  - now apply unescape_rec.
  - intros X. injection X as ->. revert E. generalize (removelast (tl s)). intros u. induction u as [|c u IH]; [discriminate|].
    cbn [utf8]. unfold utf8_char. repeat match goal with |- context [if ?b then _ else _] => destruct b end; cbn [rbind]; try discriminate;
      (destruct (utf8 u); cbn [rmap]; [discriminate|]; intros X; injection X as ->; now apply IH).
Qed.

Lemma fine_atom n : forall j, (j + 2 <= n)%nat -> fp j (parse_atom n).
Proof.
  induction n as [|n IH]; intros j Hj i tk Hi; [lia|]. cbn [parse_atom]. cbv zeta.
  assert (R1 : forall (x : ast), fine 1 i (tk1 <- next ;; pret (tk1, x))%P).
  { intros x. apply fine_next_bind. intros t1 H1. apply (fine_weaken 0 (i - 1)); [apply fine_ret|lia|lia]. }
  destruct (tk_variable tk); [apply R1|].
  destruct (tk_functor tk).
  { apply (fine_pair 1).
    - apply fine_literal; [|lia]. intros H2. apply fine_term; [apply IH; lia|lia].
    - intros t1 l H1. apply (fine_weaken 0 (i - 1)); [apply fine_ret|lia|lia]. }
  destruct (is_lex tk "[").
  { apply fine_next_bind. intros t1 H1. apply (fine_weaken 1 (i - 1)); [|lia|lia]. apply fine_list_loop; [|lia].
    apply fine_and; [apply IH; lia|lia]. }
  destruct (is_lex tk "(").
  { apply fine_next_bind. intros t1 H1. apply (fine_pair 1); [apply (fine_term _ n (i - 1)); [apply IH; lia|lia|lia]|].
    intros t2 x H2. destruct (is_lex t2 ")"); [|apply fine_raise]. apply fine_next_bind. intros t3 H3.
    apply (fine_weaken 0 (i - 1 - 1 - 1)); [apply fine_ret|lia|lia]. }
  destruct (tk_numeric tk); [apply R1|]. destruct (tk_boolean tk); [apply R1|].
  destruct (tk_string tk); [|apply fine_raise]. pose proof (parse_string_rec (t_lex tk)) as Hp.
  destruct (parse_string (t_lex tk)); [apply R1|]. apply fine_fail. congruence.
Qed.

Lemma fine_parse_term n j : (j + 2 <= n)%nat -> fp j (parse_term n).
Proof. intros H. apply fine_term; [now apply fine_atom|assumption]. Qed.
Lemma fine_parse_literal n j tk : (j + 2 <= n)%nat -> fine 1 j (parse_literal n tk).
Proof. intros H. apply fine_literal; [intros _; apply fine_parse_term; lia|lia]. Qed.

Lemma fine_expect d k {C} tk s (f : tok -> P C) : (forall t, (1 <= k)%nat -> fine (d - 1) (k - 1) (f t)) -> fine d k (pbind (expect tk s) f).
Proof.
  intros H. unfold expect. destruct (is_lex tk s); [now apply fine_next_bind|].
  intros st Hs. unfold pbind, p_raise. destruct (log_error (p_log st)). discriminate.
Qed.

Lemma fine_condition n j tk : (j + 2 <= n)%nat -> fine 1 j (condition n tk).
Proof.
  intros H. unfold condition. apply fine_expect. intros t1 H1. apply (fine_pair 1); [apply (fine_parse_term n j); lia|].
  intros t2 c H2. apply fine_expect. intros t3 H3. apply (fine_weaken 0 (j - 1 - 1 - 1)); [apply fine_ret|lia|lia].
Qed.

Lemma fine_body_loop formula : forall k j tk acc, fp j formula -> (j < k)%nat -> fine 0 j (body_loop k formula tk acc).
Proof.
  induction k as [|k IH]; intros j tk acc Hf Hj; [lia|]. cbn [body_loop]. destruct (is_lex tk "}"); [apply fine_ret|].
  apply (fine_pair 1); [apply Hf; lia|]. intros t1 f H1. cbv zeta.
  destruct (is_lex t1 ";").
  { apply fine_next_bind. intros t2 H2. destruct (is_lex t2 "}"); [apply (fine_weaken 0 (j - 1 - 1)); [apply fine_ret|lia|lia]|].
    apply (fine_weaken 0 (j - 1 - 1)); [|lia|lia]. apply IH; [eapply fp_weaken; [exact Hf|lia]|lia]. }
  destruct (is_lex t1 "}"); [apply (fine_weaken 0 (j - 1)); [apply fine_ret|lia|lia]|].
  destruct (is_formula f); [apply fine_raise|]. apply (fine_weaken 0 (j - 1)); [|lia|lia]. apply IH; [eapply fp_weaken; [exact Hf|lia]|lia].
Qed.

Lemma fine_block j body tk : (forall t, fine 0 (j - 1) (body t)) -> fine 1 j (block_lv body tk).
Proof.
  intros H. unfold block_lv. apply fine_expect. intros t1 H1. apply (fine_pair 0); [apply H|]. intros t2 b _.
  apply fine_expect. intros t3 H3. apply (fine_weaken 0 (j - 1 - 0 - 1)); [apply fine_ret|lia|lia].
Qed.

Lemma fine_formula n : forall j, (j + 3 <= n)%nat -> fp j (parse_formula n).
Proof.
  induction n as [|n IH]; intros j Hj i tk Hi; [lia|]. cbn [parse_formula]. cbv zeta.
  assert (B : forall t i', (i' + 1 <= i)%nat -> fine 1 i' (block_lv (fun tk => body_loop n (parse_formula n) tk []) t)).
  { intros t i' Hi'. apply fine_block. intros t'. apply fine_body_loop; [apply IH; lia|lia]. }
  destruct (is_lex tk "while").
  { apply fine_next_bind. intros t1 H1. apply (fine_pair 1); [apply fine_condition; lia|]. intros t2 c H2.
    apply (fine_pair 1); [apply B; lia|]. intros t3 b H3. apply (fine_weaken 0 (i - 1 - 1 - 1)); [apply fine_ret|lia|lia]. }
  destruct (is_lex tk "if").
  { apply fine_next_bind. intros t1 H1. apply (fine_pair 1); [apply fine_condition; lia|]. intros t2 c H2.
    apply (fine_pair 1); [apply B; lia|]. intros t3 b H3. destruct (is_lex t3 "else").
    - apply fine_next_bind. intros t4 H4. apply (fine_pair 1); [apply B; lia|]. intros t5 b2 H5.
      apply (fine_weaken 0 (i - 1 - 1 - 1 - 1 - 1)); [apply fine_ret|lia|lia].
    - apply (fine_weaken 0 (i - 1 - 1 - 1)); [apply fine_ret|lia|lia]. }
  destruct (is_lex tk "for").
  { apply fine_next_bind. intros t1 H1. apply (fine_pair 1); [apply fine_condition; lia|]. intros t2 c H2.
    apply (fine_pair 1); [apply B; lia|]. intros t3 b H3. apply (fine_weaken 0 (i - 1 - 1 - 1)); [apply fine_ret|lia|lia]. }
  destruct (tk_formula tk).
  - apply fine_next_bind. intros t1 H1. apply (fine_pair 1); [apply (fine_parse_term n (i - 1)); lia|]. intros t2 c H2.
    apply (fine_weaken 0 (i - 1 - 1)); [apply fine_ret|lia|lia].
  - apply (fine_pair 1); [apply (fine_parse_term n i); lia|]. intros t2 c H2.
    apply (fine_weaken 0 (i - 1)); [apply fine_ret|lia|lia].
Qed.

Lemma fine_plan_body n : forall k j tk acc, (j + 3 <= n)%nat -> (j < k)%nat -> fine 1 j (plan_body_loop k n tk acc).
Proof.
  induction k as [|k IH]; intros j tk acc Hn Hj; [lia|]. cbn [plan_body_loop].
  apply (fine_pair 1); [apply (fine_formula n j); lia|]. intros t1 f H1. cbv zeta.
  destruct (is_lex t1 ";"); [apply fine_next_bind; intros t2 H2; apply (fine_weaken 1 (j - 1 - 1)); [apply IH; lia|lia|lia]|].
  destruct (is_lex t1 "."); [apply (fine_weaken 0 (j - 1)); [apply fine_ret|lia|lia]|].
  destruct (is_formula f); [apply fine_raise|]. apply (fine_weaken 1 (j - 1)); [apply IH; lia|lia|lia].
Qed.

Lemma fine_event n j tk : (j + 2 <= n)%nat -> fine 1 j (parse_event n tk).
Proof.
  intros H. unfold parse_event. destruct (tk_trigger tk); [|apply fine_raise]. apply fine_next_bind. intros t1 H1.
  apply (fine_pair 0).
  { destruct (tk_goal t1); [|apply fine_ret]. apply fine_next_bind. intros t2 H2. apply (fine_weaken 0 (j - 1 - 1)); [apply fine_ret|lia|lia]. }
  intros t2 g _. apply (fine_pair 1); [apply fine_parse_literal; lia|]. intros t3 h H3.
  apply (fine_weaken 0 (j - 1 - 0 - 1)); [apply fine_ret|lia|lia].
Qed.

Lemma fine_plan n j tk : (j + 3 <= n)%nat -> fine 1 j (parse_plan n tk).
Proof.
  intros H. unfold parse_plan. apply (fine_pair 0).
  { destruct (is_lex tk "@"); [|apply fine_ret]. apply fine_next_bind. intros t1 H1.
    apply (fine_pair 1); [apply fine_parse_literal; lia|]. intros t2 l H2. apply (fine_weaken 0 (j - 1 - 1)); [apply fine_ret|lia|lia]. }
  intros t1 an _. apply (fine_pair 1); [apply fine_event; lia|]. intros t2 e H2. apply (fine_pair 0).
  { destruct (is_lex t2 ":"); [|apply fine_ret]. apply fine_next_bind. intros t3 H3.
    apply (fine_pair 1); [apply (fine_parse_term n (j - 0 - 1 - 1)); lia|]. intros t4 l H4.
    apply (fine_weaken 0 (j - 0 - 1 - 1 - 1)); [apply fine_ret|lia|lia]. }
  intros t3 c _. apply (fine_pair 0).
  { destruct (is_lex t3 "<-"); [|apply fine_ret]. apply fine_next_bind. intros t4 H4.
    apply (fine_pair 1); [apply fine_plan_body; lia|]. intros t5 l H5.
    apply (fine_weaken 0 (j - 0 - 1 - 0 - 1 - 1)); [apply fine_ret|lia|lia]. }
  intros t4 b _. apply (fine_weaken 0 (j - 0 - 1 - 0 - 0)); [apply fine_ret|lia|lia].
Qed.

Lemma fine_rule_or_belief n j tk : (j + 2 <= n)%nat -> fine 1 j (parse_rule_or_belief n tk).
Proof.
  intros H. unfold parse_rule_or_belief.
  apply (fine_bind 0 1).
  { destruct (has_char 46 (t_lex tk)); [|apply fine_ret]. intros s Hs. cbn. lia. }
  intros _. apply (fine_pair 1); [apply fine_parse_literal; lia|]. intros t1 b H1. destruct (is_lex t1 ":-").
  - apply fine_next_bind. intros t2 H2. apply (fine_pair 1); [apply (fine_parse_term n (j - 0 - 1 - 1)); lia|]. intros t3 c H3.
    apply (fine_weaken 0 (j - 0 - 1 - 1 - 1)); [apply fine_ret|lia|lia].
  - apply (fine_weaken 0 (j - 0 - 1)); [apply fine_ret|lia|lia].
Qed.

Lemma fine_initial_goal n j tk : (j + 2 <= n)%nat -> fine 1 j (parse_initial_goal n tk).
Proof.
  intros H. unfold parse_initial_goal. destruct (is_lex tk "!"); [|apply fine_raise]. apply fine_next_bind. intros t1 H1.
  apply (fine_weaken 1 (j - 1)); [apply fine_parse_literal; lia|lia|lia].
Qed.

(** ** A larger bound changes nothing *)

Definition mle {A} (m m' : P A) : Prop :=
  forall s, fst (m s) = Err ERecursion \/ m' s = m s.

Lemma mle_refl {A} (m : P A) : mle m m.
Proof. intros s. now right. Qed.
Lemma mle_fail {A} (m : P A) : mle (pfail ERecursion) m.
Proof. intros s. now left. Qed.
Lemma mle_bind {A C} (m m' : P A) (f f' : A -> P C) : mle m m' -> (forall x, mle (f x) (f' x)) -> mle (pbind m f) (pbind m' f').
Proof.
  intros Hm Hf s. unfold pbind. destruct (Hm s) as [E|E].
  - destruct (m s) as [[x|e] s1]; [discriminate|]. cbn in E. injection E as ->. now left.
  - rewrite E. destruct (m s) as [[x|e] s1]; [apply Hf|now right].
Qed.
Lemma mle_pair {A C} (m m' : P (tok * A)) (f f' : tok -> A -> P C) : mle m m' -> (forall t x, mle (f t x) (f' t x)) ->
  mle (pbind m (fun y => let '(t, x) := y in f t x)) (pbind m' (fun y => let '(t, x) := y in f' t x)).
Proof. intros Hm Hf. apply mle_bind; [assumption|]. intros [t x]. apply Hf. Qed.

Definition pl {A} (f f' : tok -> P A) : Prop := forall tk, mle (f tk) (f' tk).

Ltac mstep := first
  [ apply mle_refl | apply mle_fail | assumption
  | apply mle_pair; [|intros ? ?] | apply mle_bind; [|intros ?]
  | match goal with |- mle (if ?b then _ else _) (if ?b then _ else _) => destruct b end
  | match goal with |- mle (match ?b with _ => _ end) (match ?b with _ => _ end) => destruct b end ].

Lemma mle_binloop sel o o' : pl o o' -> forall k k' tk e, (k <= k')%nat -> mle (binloop k sel o tk e) (binloop k' sel o' tk e).
Proof.
  intros Ho. induction k as [|k IH]; intros k' tk e Hk; (destruct k' as [|k']; [try lia|]); cbn [binloop];
    (destruct (sel tk); [|apply mle_refl]); try apply mle_fail.
  mstep; [apply mle_refl|]. mstep; [apply Ho|]. apply IH. lia.
Qed.

Section Levels.
Variables atom atom' : tok -> P (tok * ast).
Hypothesis Ha : pl atom atom'.

Lemma mle_factor k : forall k', (k <= k')%nat -> pl (factor_lv atom k) (factor_lv atom' k').
Proof.
  induction k as [|k IH]; intros k' Hk tk; (destruct k' as [|k']; [try lia|]); cbn [factor_lv]; try apply mle_fail.
  destruct (tk_unary tk); [mstep; [apply mle_refl|]; mstep; [apply IH; lia|apply mle_refl]|].
  mstep; [apply Ha|]. apply mle_binloop; [apply IH; lia|lia].
Qed.
Lemma mle_product k k' : (k <= k')%nat -> pl (product_lv atom k) (product_lv atom' k').
Proof. intros Hk tk. unfold product_lv. mstep; [now apply mle_factor|]. apply mle_binloop; [now apply mle_factor|assumption]. Qed.
Lemma mle_arith k k' : (k <= k')%nat -> pl (arith_lv atom k) (arith_lv atom' k').
Proof. intros Hk tk. unfold arith_lv. mstep; [now apply mle_product|]. apply mle_binloop; [now apply mle_product|assumption]. Qed.
Lemma mle_comp_loop o o' : pl o o' -> forall k k' tk c r, (k <= k')%nat -> mle (comp_loop k o tk c r) (comp_loop k' o' tk c r).
Proof.
  intros Ho. induction k as [|k IH]; intros k' tk c r Hk; (destruct k' as [|k']; [try lia|]); cbn [comp_loop];
    (destruct (tk_comp tk); [|apply mle_refl]); try apply mle_fail.
  mstep; [apply mle_refl|]. mstep; [apply Ho|]. cbv zeta. apply IH. lia.
Qed.
Lemma mle_comparison k k' : (k <= k')%nat -> pl (comparison_lv atom k) (comparison_lv atom' k').
Proof. intros Hk tk. unfold comparison_lv. mstep; [now apply mle_arith|]. apply mle_comp_loop; [now apply mle_arith|assumption]. Qed.
Lemma mle_not_loop l : forall l' k k', (l <= l')%nat -> (k <= k')%nat -> pl (not_loop atom l k) (not_loop atom' l' k').
Proof.
  induction l as [|l IH]; intros l' k k' Hl Hk tk; (destruct l' as [|l']; [try lia|]); cbn [not_loop];
    (destruct (is_lex tk "not"); [|now apply mle_comparison]); try apply mle_fail.
  mstep; [apply mle_refl|]. mstep; [apply IH; lia|apply mle_refl].
Qed.
Lemma mle_and k k' : (k <= k')%nat -> pl (and_lv atom k) (and_lv atom' k').
Proof.
  intros Hk tk. unfold and_lv. mstep; [now apply mle_not_loop|]. apply mle_binloop; [|assumption]. intros ?. now apply mle_not_loop.
Qed.
Lemma mle_term k k' : (k <= k')%nat -> pl (term_lv atom k) (term_lv atom' k').
Proof. intros Hk tk. unfold term_lv. mstep; [now apply mle_and|]. apply mle_binloop; [now apply mle_and|assumption]. Qed.
End Levels.

Lemma mle_terms_loop close t t' : pl t t' -> forall k k' acc, (k <= k')%nat -> mle (terms_loop k close t acc) (terms_loop k' close t' acc).
Proof.
  intros Ht. induction k as [|k IH]; intros k' acc Hk; (destruct k' as [|k']; [try lia|]); cbn [terms_loop]; try apply mle_fail.
  mstep; [apply mle_refl|]. mstep; [apply Ht|]. cbv zeta. mstep; [apply mle_refl|]. mstep; [apply IH; lia|apply mle_refl].
Qed.

Lemma mle_literal t t' k k' : pl t t' -> (k <= k')%nat -> pl (literal_lv t k) (literal_lv t' k').
Proof.
  intros Ht Hk tk. unfold literal_lv. destruct (negb (tk_functor tk)); [apply mle_refl|]. apply mle_bind; [apply mle_refl|]. intros t1.
  apply mle_pair; [destruct (is_lex t1 "("); [now apply mle_terms_loop|apply mle_refl]|]. intros t2 ts.
  apply mle_pair; [destruct (is_lex t2 "["); [now apply mle_terms_loop|apply mle_refl]|]. intros; apply mle_refl.
Qed.

Lemma mle_tail_loop a a' : pl a a' -> forall k k', (k <= k')%nat -> mle (tail_loop k a) (tail_loop k' a').
Proof.
  intros Ha. induction k as [|k IH]; intros k' Hk; (destruct k' as [|k']; [try lia|]); cbn [tail_loop]; try apply mle_fail.
  mstep; [apply mle_refl|]. apply mle_pair; [apply Ha|]. intros t1 y. destruct (is_lex t1 "|"); [|apply mle_refl].
  apply mle_pair; [apply IH; lia|]. intros; apply mle_refl.
Qed.

Lemma mle_list_loop a a' : pl a a' -> forall k k' tk acc, (k <= k')%nat -> mle (list_loop k a tk acc) (list_loop k' a' tk acc).
Proof.
  intros Ha. induction k as [|k IH]; intros k' tk acc Hk; (destruct k' as [|k']; [try lia|]); cbn [list_loop];
    (destruct (is_lex tk "]"); [apply mle_refl|]); try apply mle_fail; try apply mle_refl.
  apply mle_pair; [apply Ha|]. intros t1 y. destruct (is_lex t1 "|").
  { destruct acc; [|apply mle_refl]. apply mle_pair; [apply mle_tail_loop; [assumption|lia]|]. intros; apply mle_refl. }
  mstep; [mstep; [apply mle_refl|apply IH; lia]|]. mstep; [apply IH; lia|apply mle_refl].
Qed.

Lemma mle_atom n : forall n', (n <= n')%nat -> pl (parse_atom n) (parse_atom n').
Proof.
  induction n as [|n IH]; intros n' Hn tk; (destruct n' as [|n']; [try lia|]); cbn [parse_atom]; try apply mle_fail. cbv zeta.
  assert (T : pl (term_lv (parse_atom n) n) (term_lv (parse_atom n') n')) by (apply mle_term; [apply IH; lia|lia]).
  assert (A : pl (and_lv (parse_atom n) n) (and_lv (parse_atom n') n')) by (apply mle_and; [apply IH; lia|lia]).
  mstep; [apply mle_refl|]. mstep; [mstep; [apply mle_literal; [assumption|lia]|apply mle_refl]|].
  mstep; [mstep; [apply mle_refl|apply mle_list_loop; [assumption|lia]]|].
  mstep; [mstep; [apply mle_refl|mstep; [apply T|apply mle_refl]]|apply mle_refl].
Qed.

Lemma mle_parse_term n n' : (n <= n')%nat -> pl (parse_term n) (parse_term n').
Proof. intros H. apply mle_term; [now apply mle_atom|assumption]. Qed.
Lemma mle_parse_literal n n' : (n <= n')%nat -> pl (parse_literal n) (parse_literal n').
Proof. intros H. apply mle_literal; [now apply mle_parse_term|assumption]. Qed.
Lemma mle_condition n n' : (n <= n')%nat -> pl (condition n) (condition n').
Proof. intros H tk. unfold condition. mstep; [apply mle_refl|]. mstep; [now apply mle_parse_term|apply mle_refl]. Qed.

Lemma mle_body_loop f f' : pl f f' -> forall k k' tk acc, (k <= k')%nat -> mle (body_loop k f tk acc) (body_loop k' f' tk acc).
Proof.
  intros Hf. induction k as [|k IH]; intros k' tk acc Hk; (destruct k' as [|k']; [try lia|]); cbn [body_loop];
    (destruct (is_lex tk "}"); [apply mle_refl|]); try apply mle_fail; try apply mle_refl.
  mstep; [apply Hf|]. cbv zeta. mstep; [mstep; [apply mle_refl|mstep; [apply mle_refl|apply IH; lia]]|].
  mstep; [apply mle_refl|]. mstep; [apply mle_refl|apply IH; lia].
Qed.

Lemma mle_formula n : forall n', (n <= n')%nat -> pl (parse_formula n) (parse_formula n').
Proof.
  induction n as [|n IH]; intros n' Hn tk; (destruct n' as [|n']; [try lia|]); cbn [parse_formula]; try apply mle_fail. cbv zeta.
  assert (B : pl (block_lv (fun tk => body_loop n (parse_formula n) tk [])) (block_lv (fun tk => body_loop n' (parse_formula n') tk []))).
  { intros t. unfold block_lv. mstep; [apply mle_refl|]. mstep; [apply mle_body_loop; [apply IH; lia|lia]|apply mle_refl]. }
  assert (C : pl (condition n) (condition n')) by (apply mle_condition; lia).
  assert (T : pl (parse_term n) (parse_term n')) by (apply mle_parse_term; lia).
  mstep; [mstep; [apply mle_refl|mstep; [apply C|mstep; [apply B|apply mle_refl]]]|].
  mstep; [mstep; [apply mle_refl|mstep; [apply C|mstep; [apply B|mstep; [mstep; [apply mle_refl|mstep; [apply B|apply mle_refl]]|apply mle_refl]]]]|].
  mstep; [mstep; [apply mle_refl|mstep; [apply C|mstep; [apply B|apply mle_refl]]]|].
  mstep; [mstep; [apply mle_refl|mstep; [apply T|apply mle_refl]]|mstep; [apply T|apply mle_refl]].
Qed.

Lemma mle_plan_body n n' : (n <= n')%nat -> forall k k' tk acc, (k <= k')%nat -> mle (plan_body_loop k n tk acc) (plan_body_loop k' n' tk acc).
Proof.
  intros Hn. induction k as [|k IH]; intros k' tk acc Hk; (destruct k' as [|k']; [try lia|]); cbn [plan_body_loop]; try apply mle_fail.
  mstep; [now apply mle_formula|]. cbv zeta. mstep; [mstep; [apply mle_refl|apply IH; lia]|]. mstep; [apply mle_refl|].
  mstep; [apply mle_refl|apply IH; lia].
Qed.

Lemma mle_event n n' : (n <= n')%nat -> pl (parse_event n) (parse_event n').
Proof.
  intros Hn tk. unfold parse_event. destruct (tk_trigger tk); [|apply mle_refl]. mstep; [apply mle_refl|]. mstep; [apply mle_refl|].
  mstep; [now apply mle_parse_literal|apply mle_refl].
Qed.

Lemma mle_plan n n' : (n <= n')%nat -> pl (parse_plan n) (parse_plan n').
Proof.
  intros Hn tk. unfold parse_plan.
  mstep; [mstep; [mstep; [apply mle_refl|mstep; [now apply mle_parse_literal|apply mle_refl]]|apply mle_refl]|].
  mstep; [now apply mle_event|].
  mstep; [mstep; [mstep; [apply mle_refl|mstep; [now apply mle_parse_term|apply mle_refl]]|apply mle_refl]|].
  mstep; [mstep; [mstep; [apply mle_refl|mstep; [now apply mle_plan_body|apply mle_refl]]|apply mle_refl]|apply mle_refl].
Qed.

Lemma mle_rule_or_belief n n' : (n <= n')%nat -> pl (parse_rule_or_belief n) (parse_rule_or_belief n').
Proof.
  intros Hn tk. unfold parse_rule_or_belief. mstep; [apply mle_refl|]. mstep; [now apply mle_parse_literal|].
  mstep; [mstep; [apply mle_refl|mstep; [now apply mle_parse_term|apply mle_refl]]|apply mle_refl].
Qed.

Lemma mle_initial_goal n n' : (n <= n')%nat -> pl (parse_initial_goal n) (parse_initial_goal n').
Proof. intros Hn tk. unfold parse_initial_goal. mstep; [mstep; [apply mle_refl|now apply mle_parse_literal]|apply mle_refl]. Qed.

(** Together: any two bounds that are large enough give the same. *)
Lemma same_bound {A} (m : nat -> P A) j : (forall n n', (n <= n')%nat -> mle (m n) (m n')) -> (forall n, (j + 3 <= n)%nat -> fine 1 j (m n)) ->
  forall n n' s, (len (p_items s) <= j)%nat -> (j + 3 <= n)%nat -> (j + 3 <= n')%nat -> m n s = m n' s.
Proof.
  intros Hm Hf. assert (H : forall n n' s, (n <= n')%nat -> (len (p_items s) <= j)%nat -> (j + 3 <= n)%nat -> m n' s = m n s).
  { intros n n' s Hn Hs Hj. destruct (Hm n n' Hn s) as [E|E]; [|assumption]. specialize (Hf n Hj s Hs).
    destruct (m n s) as [[x|e] s']; cbn in E; [discriminate|congruence]. }
  intros n n' s Hs Hn Hn'. destruct (Nat.le_ge_cases n n'); [symmetry|]; now apply H.
Qed.
