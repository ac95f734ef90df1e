(** The parser does not look ahead further than one token: what it does with the
    front of a token list does not depend on the rest. *)
From Verif Require Import Base Num Term Str World Ast Names Quote Lex Parse.

Definition st_of (ts : list tok) (lg : log) : pst := mkpst (map ITok ts) lg true.

(** [steady m]: a result without exception, or another exception than
    StopIteration, is not changed by more tokens; nothing is logged unless an
    exception is raised. *)
Definition steady {A} (m : P A) : Prop := forall ts lg,
  match m (st_of ts lg) with
  | (Ok x, s) => exists ts', s = st_of ts' lg /\ forall us, m (st_of (ts ++ us) lg) = (Ok x, st_of (ts' ++ us) lg)
  | (Err EStopIter, s) => p_log s = lg
  | (Err e, _) => forall us, exists s, m (st_of (ts ++ us) lg) = (Err e, s)
  end.

Lemma steady_ret {A} (x : A) : steady (pret x).
Proof. intros ts lg. cbn. exists ts. split; [reflexivity|]. reflexivity. Qed.
Lemma steady_fail {A} e : e <> EStopIter -> steady (@pfail A e).
Proof. intros He ts lg. cbn. destruct e; try (intros us; eexists; reflexivity). now destruct He. Qed.
Lemma steady_raise {A} : steady (@p_raise A).
Proof. intros ts lg. unfold p_raise, st_of. cbn [p_log]. destruct (log_error lg). intros us. eexists; reflexivity. Qed.
Lemma steady_next : steady next.
Proof.
  intros ts lg. unfold next, st_of. cbn [p_items p_log p_own]. destruct ts as [|t ts]; cbn [map next_in]; [reflexivity|].
  exists ts. split; [reflexivity|]. intros us. reflexivity.
Qed.
Lemma steady_bind {A C} (m : P A) (f : A -> P C) : steady m -> (forall x, steady (f x)) -> steady (pbind m f).
Proof.
  intros Hm Hf ts lg. specialize (Hm ts lg). unfold pbind. destruct (m (st_of ts lg)) as [[x|e] s1].
  - destruct Hm as (ts1 & -> & Hm). specialize (Hf x ts1 lg). destruct (f x (st_of ts1 lg)) as [[y|e] s2].
    + destruct Hf as (ts2 & -> & Hf). exists ts2. split; [reflexivity|]. intros us. rewrite Hm. apply Hf.
    + destruct e; try exact Hf; intros us; rewrite Hm; apply Hf.
  - destruct e; try exact Hm; intros us; destruct (Hm us) as [s2 E]; rewrite E; eexists; reflexivity.
Qed.
Lemma steady_pair {A C} (m : P (tok * A)) (f : tok -> A -> P C) : steady m -> (forall t x, steady (f t x)) ->
  steady (pbind m (fun y => let '(t, x) := y in f t x)).
Proof. intros Hm Hf. apply steady_bind; [assumption|]. intros [t x]. apply Hf. Qed.

Lemma unescape_stop n : forall s, unescape n s <> Err EStopIter.
Proof.
  assert (He : forall c s, escape c s <> Err EStopIter).
  { intros c s. unfold escape.
    repeat match goal with |- (if ?b then _ else _) <> _ => destruct b end; try discriminate;
      repeat match goal with
      | |- (let '(_, _) := ?x in _) <> _ => destruct x
      | |- match ?x with _ => _ end <> _ => destruct x
      end; discriminate. }
  induction n as [|n IH]; intros s; (destruct s as [|c s]; [discriminate|]); [discriminate|]. cbn [unescape].
  destruct (c =? 92)%N.
  - destruct s as [|d s]; [discriminate|]. specialize (He d s). destruct (escape d s) as [[x t]|]; cbn [rbind]; [|congruence].
    specialize (IH t). destruct (unescape n t); cbn [rmap]; [discriminate|congruence].
  - specialize (IH s). destruct (unescape n s); cbn [rmap]; [discriminate|congruence].
Qed.
Lemma parse_string_stop s : parse_string s <> Err EStopIter.
Proof.
  unfold parse_string. destruct (quoted s); [|discriminate]. destruct (utf8 (removelast (tl s))) as [b|e] eqn:E; cbn [rbind].
  - apply unescape_stop.
  - intros X. injection X as ->. revert E. generalize (removelast (tl s)). intros u. induction u as [|c u IH]; [discriminate|].
    cbn [utf8]. unfold utf8_char. repeat match goal with |- context [if ?b then _ else _] => destruct b end; cbn [rbind]; try discriminate;
      (destruct (utf8 u); cbn [rmap]; [discriminate|]; intros X; injection X as ->; now apply IH).
Qed.

Definition spl {A} (f : tok -> P A) : Prop := forall tk, steady (f tk).

Ltac sstep := first
  [ apply steady_ret | apply steady_raise | apply steady_next
  | apply steady_fail; discriminate | assumption
  | apply steady_pair; [|intros ? ?] | apply steady_bind; [|intros ?]
  | match goal with |- steady (if ?b then _ else _) => destruct b end
  | match goal with |- steady (match parse_string ?s with _ => _ end) => let E := fresh in destruct (parse_string s) eqn:E; [|apply steady_fail; intros ->; exact (parse_string_stop _ E)] end
  | match goal with |- steady (match ?b with _ => _ end) => destruct b end ].

Lemma steady_binloop sel o : spl o -> forall k tk e, steady (binloop k sel o tk e).
Proof. intros Ho. induction k as [|k IH]; intros tk e; cbn [binloop]; repeat sstep; [apply Ho|apply IH]. Qed.

Section Levels.
Variable atom : tok -> P (tok * ast).
Hypothesis Ha : spl atom.
Lemma steady_factor k : spl (factor_lv atom k).
Proof. induction k as [|k IH]; intros tk; cbn [factor_lv]; repeat sstep; [apply IH|apply Ha|now apply steady_binloop]. Qed.
Lemma steady_product k : spl (product_lv atom k).
Proof. intros tk. unfold product_lv. sstep; [apply steady_factor|]. apply steady_binloop, steady_factor. Qed.
Lemma steady_arith k : spl (arith_lv atom k).
Proof. intros tk. unfold arith_lv. sstep; [apply steady_product|]. apply steady_binloop, steady_product. Qed.
Lemma steady_comp_loop o : spl o -> forall k tk c r, steady (comp_loop k o tk c r).
Proof. intros Ho. induction k as [|k IH]; intros tk c r; cbn [comp_loop]; repeat sstep; [apply Ho|apply IH]. Qed.
Lemma steady_comparison k : spl (comparison_lv atom k).
Proof. intros tk. unfold comparison_lv. sstep; [apply steady_arith|]. apply steady_comp_loop, steady_arith. Qed.
Lemma steady_not_loop l k : spl (not_loop atom l k).
Proof. induction l as [|l IH]; intros tk; cbn [not_loop]; repeat first [apply IH|apply steady_comparison|sstep]. Qed.
Lemma steady_and k : spl (and_lv atom k).
Proof. intros tk. unfold and_lv. sstep; [apply steady_not_loop|]. apply steady_binloop. intros ?. apply steady_not_loop. Qed.
Lemma steady_term k : spl (term_lv atom k).
Proof. intros tk. unfold term_lv. sstep; [apply steady_and|]. apply steady_binloop, steady_and. Qed.
End Levels.

Lemma steady_terms_loop close t : spl t -> forall k acc, steady (terms_loop k close t acc).
Proof. intros Ht. induction k as [|k IH]; intros acc; cbn [terms_loop]; cbv zeta; repeat sstep; [apply Ht|apply IH]. Qed.
Lemma steady_literal t k : spl t -> spl (literal_lv t k).
Proof. intros Ht tk. unfold literal_lv. repeat sstep; now apply steady_terms_loop. Qed.
Lemma steady_tail_loop a : spl a -> forall k, steady (tail_loop k a).
Proof. intros Ha. induction k as [|k IH]; cbn [tail_loop]; repeat sstep; apply Ha. Qed.
Lemma steady_list_loop a : spl a -> forall k tk acc, steady (list_loop k a tk acc).
Proof. intros Ha. induction k as [|k IH]; intros tk acc; cbn [list_loop]; repeat sstep; first [apply Ha|now apply steady_tail_loop|apply IH]. Qed.

Lemma steady_atom n : spl (parse_atom n).
Proof.
  induction n as [|n IH]; intros tk; cbn [parse_atom]; [sstep|]. cbv zeta.
  assert (T : spl (term_lv (parse_atom n) n)) by now apply steady_term.
  assert (A : spl (and_lv (parse_atom n) n)) by now apply steady_and.
  repeat first [apply T|apply steady_literal; assumption|apply steady_list_loop; assumption
               |sstep].
Qed.
Lemma steady_parse_term n : spl (parse_term n).
Proof. apply steady_term, steady_atom. Qed.
Lemma steady_parse_literal n : spl (parse_literal n).
Proof. apply steady_literal, steady_parse_term. Qed.
Lemma steady_expect tk s : steady (expect tk s).
Proof. unfold expect. repeat sstep. Qed.
Lemma steady_condition n : spl (condition n).
Proof. intros tk. unfold condition. repeat first [apply steady_expect|apply steady_parse_term|sstep]. Qed.
Lemma steady_body_loop f : spl f -> forall k tk acc, steady (body_loop k f tk acc).
Proof. intros Hf. induction k as [|k IH]; intros tk acc; cbn [body_loop]; cbv zeta; repeat first [apply Hf|apply IH|sstep]. Qed.
Lemma steady_formula n : spl (parse_formula n).
Proof.
  induction n as [|n IH]; intros tk; cbn [parse_formula]; cbv zeta; [sstep|].
  assert (B : spl (block_lv (fun tk => body_loop n (parse_formula n) tk []))).
  { intros t. unfold block_lv. repeat first [apply steady_expect|apply steady_body_loop; assumption|sstep]. }
  repeat first [apply steady_condition|apply B|apply steady_parse_term|sstep].
Qed.
Lemma steady_plan_body n : forall k tk acc, steady (plan_body_loop k n tk acc).
Proof. induction k as [|k IH]; intros tk acc; cbn [plan_body_loop]; cbv zeta; repeat first [apply steady_formula|apply IH|sstep]. Qed.
