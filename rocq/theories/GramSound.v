(** What the parser reads belongs to the grammar. *)
From Verif Require Import Base Num Term Str World Ast Names Quote Lex LexSpec LexFacts Parse RoundSpec GramSpec GramTok.

Definition toks (s : pst) : list tok := tokens_of (p_items s).

Lemma bind_ok {A C} (m : P A) (k : A -> P C) s x s' : pbind m k s = (Ok x, s') ->
  exists y s1, m s = (Ok y, s1) /\ k y s1 = (Ok x, s').
Proof. unfold pbind. destruct (m s) as [[y|e] s1]; [|discriminate]. intros H. now exists y, s1. Qed.

Lemma raise_not {A} s (x : A) s' : p_raise s = (Ok x, s') -> False.
Proof. unfold p_raise. destruct (log_error (p_log s)). discriminate. Qed.

Lemma next_ok s t s' : next s = (Ok t, s') -> toks s = t :: toks s'.
Proof.
  unfold next, toks. destruct s as [l lg own]. cbn [p_items p_log p_own]. revert lg.
  induction l as [|i l IH]; intros lg E; [discriminate|]. destruct i as [u|c ln col]; cbn [next_in] in E.
  - injection E as <- <-. reflexivity.
  - destruct own; [|discriminate]. destruct (log_error lg) as [[[]|e] lg']; [|discriminate]. cbn. exact (IH _ E).
Qed.

(** [Q l x t]: the tokens [l] are the phrase [x], and [t] follows. *)
Definition sound {A} (p : tok -> P (tok * A)) (Q : list tok -> A -> tok -> Prop) : Prop :=
  forall tk s tk' x s', Forall fit (tk :: toks s) -> p tk s = (Ok (tk', x), s') ->
  exists l, tk :: toks s = l ++ tk' :: toks s' /\ Q l x tk'.

Lemma fit_rest l t r : Forall fit (l ++ t :: r) -> fit t /\ Forall fit r.
Proof. intros H. apply Forall_app in H as [_ H]. inversion H; auto. Qed.

(** One step backwards through the parser. *)
Ltac back E :=
  let y := fresh "y" in let s1 := fresh "s" in let E1 := fresh "E" in
  apply bind_ok in E as (y & s1 & E1 & E).
(** [next] *)
Ltac back_next E t s1 N :=
  apply bind_ok in E as (t & s1 & N & E); apply next_ok in N.
(** A call that is [sound] *)
Ltac back_call E H t x s1 l L Q :=
  let y := fresh "y" in let E1 := fresh "E" in
  apply bind_ok in E as (y & s1 & E1 & E); destruct y as [t x]; apply H in E1 as (l & L & Q).

Definition sel (lv : level) (t : tok) : option binop :=
  match lv with
  | LOr => when (is_lex t "|") BOr
  | LAnd => when (is_lex t "&") BAnd
  | LSum => tk_add t
  | LProd => tk_mult t
  | _ => None
  end.

Ltac by_kind F Ek := match type of Ek with t_kind _ = ?k =>
  match goal with |- the ?s ?t => apply (proj1 (fit_kind k s t ltac:(unfold fixed_lexemes; cbn [In]; tauto) F)); exact Ek end end.

Lemma sel_sound lv t op : fit t -> sel lv t = Some op -> exists s, In (lv, s, op) infixes /\ the s t.
Proof.
  intros F. destruct lv; cbn [sel]; try discriminate.
  - destruct (is_lex t "|") eqn:E; [|discriminate]. intros [= <-]. exists "|"%string. apply is_lex_the in E. split; [cbn; tauto|exact E].
  - destruct (is_lex t "&") eqn:E; [|discriminate]. intros [= <-]. exists "&"%string. apply is_lex_the in E. split; [cbn; tauto|exact E].
  - unfold tk_add. destruct (t_kind t) eqn:Ek; try discriminate; intros [= <-];
      [exists "+"%string|exists "-"%string]; (split; [cbn; tauto|by_kind F Ek]).
  - unfold tk_mult. destruct (t_kind t) eqn:Ek; try discriminate; intros [= <-];
      [exists "*"%string|exists "/"%string|exists "div"%string|exists "mod"%string]; (split; [cbn; tauto|by_kind F Ek]).
Qed.

Lemma comp_sound t op : fit t -> tk_comp t = Some op -> exists s, In (s, op) comparisons /\ the s t.
Proof.
  intros F. unfold tk_comp. destruct (t_kind t) eqn:Ek; try discriminate; intros [= <-];
  [exists "<="%string|exists ">="%string|exists "\=="%string|exists "=="%string|exists "=.."%string|exists "="%string|exists "<"%string|exists ">"%string]; (split; [cbn; tauto|by_kind F Ek]).
Qed.

Lemma unary_sound t op : fit t -> tk_unary t = Some op -> exists s, In (s, op) signs /\ the s t.
Proof.
  intros F. unfold tk_unary. destruct (t_kind t) eqn:Ek; try discriminate; intros [= <-];
  [exists "+"%string|exists "-"%string]; (split; [cbn; tauto|by_kind F Ek]).
Qed.

Definition is_expr (lv : level) : list tok -> ast -> tok -> Prop := fun l x _ => expr lv l x.

Lemma binloop_sound lv operand : sound operand (is_expr (tighter lv)) -> forall k tk e s tk' x s' l0,
  Forall fit (tk :: toks s) -> expr lv l0 e -> binloop k (sel lv) operand tk e s = (Ok (tk', x), s') ->
  exists l, l0 ++ tk :: toks s = l ++ tk' :: toks s' /\ expr lv l x.
Proof.
  intros Hop. induction k as [|k IH]; intros tk e s tk' x s' l0 F H0 E; cbn [binloop] in E;
    destruct (sel lv tk) as [op|] eqn:Es; try (injection E as <- <- <-; now exists l0); [discriminate|].
  inversion F as [|? ? F1 F2]; subst. apply sel_sound in Es as (str & Hin & Ht); [|assumption].
  back_next E tk1 s1 Nx. rewrite Nx in F2.
  back_call E Hop tk2 rhs s2 b L Hb; [|assumption]. rewrite L in F2. apply fit_rest in F2 as [F3 F4].
  apply IH with (l0 := l0 ++ tk :: b) in E as (l & E & Hl);
    [|now constructor|eapply e_infix; eassumption].
  exists l. split; [|assumption]. rewrite <- E, Nx, L. now rewrite <- app_assoc.
Qed.

Lemma level_sound lv operand : sound operand (is_expr (tighter lv)) -> forall k,
  sound (fun tk => '(tk1, e) <- operand tk ;; binloop k (sel lv) operand tk1 e)%P (is_expr lv).
Proof.
  intros Hop k tk s tk' x s' F E. back_call E Hop tk1 e s1 a L Ha; [|assumption].
  rewrite L in F. apply fit_rest in F as [F1 F2].
  apply binloop_sound with (l0 := a) in E as (l & E & Hl); [|assumption|now constructor|now apply e_tighter].
  exists l. rewrite L. now split.
Qed.

Section Levels.
Variable atom : tok -> P (tok * ast).
Hypothesis Hatom : sound atom (is_expr LAtom).

Lemma factor_sound k : sound (factor_lv atom k) (fun l x t => expr LFactor l x /\ ~ the "**" t).
Proof.
  induction k as [|k IH]; intros tk s tk' x s' F E; cbn [factor_lv] in E; [discriminate|].
  inversion F as [|? ? F1 F2]; subst. destruct (tk_unary tk) as [op|] eqn:Eu.
  - apply unary_sound in Eu as (str & Hin & Ht); [|assumption]. back_next E tk1 s1 Nx. rewrite Nx in F2.
    back_call E IH tk2 a s2 l L Ha; [|assumption]. injection E as <- <- <-. destruct Ha as [Ha Hp].
    exists (tk :: l). rewrite Nx, L. split; [reflexivity|]. split; [eapply e_sign; eassumption|assumption].
  - back_call E Hatom tk1 e s1 a L Ha; [|assumption]. pose proof F as F0. rewrite L in F0. apply fit_rest in F0 as [F3 F4].
    assert (End : forall j tk e s, ~ the "**" tk ->
      binloop j (fun t => when (is_lex t "**") (BNum NPow)) (factor_lv atom k) tk e s = (Ok (tk, e), s)).
    { intros j t ? ? Hn. apply is_lex_false in Hn. destruct j; cbn [binloop]; rewrite Hn; reflexivity. }
    destruct (is_lex tk1 "**") eqn:Ep.
    + destruct k as [|k]; cbn [binloop] in E; rewrite Ep in E; cbn [when] in E; [discriminate|].
      back_next E tk2 s2 Nx. rewrite Nx in F4. back_call E IH tk3 rhs s3 b L3 Hb; [|assumption]. destruct Hb as [Hb Hp].
      rewrite End in E by assumption. injection E as <- <- <-. apply is_lex_the in Ep.
      exists (a ++ tk1 :: b). split; [rewrite L, Nx, L3; now rewrite <- app_assoc|]. split; [|assumption].
      now apply e_power.
    + rewrite End in E by (now apply is_lex_false). injection E as <- <- <-. exists a. split; [assumption|].
      split; [now apply (e_tighter LFactor)|now apply is_lex_false].
Qed.
Lemma factor_sound' k : sound (factor_lv atom k) (is_expr LFactor).
Proof. intros tk s tk' x s' F E. apply factor_sound in E as (l & L & H & _); [|assumption]. now exists l. Qed.

Lemma product_sound k : sound (product_lv atom k) (is_expr LProd).
Proof. apply (level_sound LProd). apply factor_sound'. Qed.
Lemma arith_sound k : sound (arith_lv atom k) (is_expr LSum).
Proof. apply (level_sound LSum). apply product_sound. Qed.

Lemma comp_loop_sound operand : sound operand (is_expr LSum) -> forall j tk c r s tk' x s' l0,
  Forall fit (tk :: toks s) -> match c with None => expr LSum l0 r | Some y => chain l0 y r end ->
  comp_loop j operand tk c r s = (Ok (tk', x), s') ->
  exists l, l0 ++ tk :: toks s = l ++ tk' :: toks s' /\ expr LComp l x.
Proof.
  intros Hop. induction j as [|j IH]; intros tk c r s tk' x s' l0 F H0 E; cbn [comp_loop] in E;
    destruct (tk_comp tk) as [op|] eqn:Es;
    try (injection E as <- <- <-; exists l0; split; [reflexivity|];
         destruct c; [eapply e_chain; exact H0|now apply (e_tighter LComp)]); [discriminate|].
  inversion F as [|? ? F1 F2]; subst. apply comp_sound in Es as (str & Hin & Ht); [|assumption].
  back_next E tk1 s1 Nx. rewrite Nx in F2.
  back_call E Hop tk2 rhs s2 b L Hb; [|assumption]. rewrite L in F2. apply fit_rest in F2 as [F3 F4].
  apply IH with (l0 := l0 ++ tk :: b) in E as (l & E & Hl).
  - exists l. split; [|assumption]. rewrite <- E, Nx, L. now rewrite <- app_assoc.
  - now constructor.
  - destruct c; [eapply c_more; eassumption|eapply c_two; eassumption].
Qed.

Lemma comparison_sound k : sound (comparison_lv atom k) (is_expr LComp).
Proof.
  intros tk s tk' x s' F E. unfold comparison_lv in E. back_call E (arith_sound k) tk1 e s1 a L Ha; [|assumption].
  rewrite L in F. apply fit_rest in F as [F1 F2].
  apply comp_loop_sound with (l0 := a) in E as (l & E & Hl); [|apply arith_sound|now constructor|assumption].
  exists l. rewrite L. now split.
Qed.

Lemma not_sound j k : sound (not_loop atom j k) (is_expr LNot).
Proof.
  induction j as [|j IH]; intros tk s tk' x s' F E; cbn [not_loop] in E; destruct (is_lex tk "not") eqn:En; try discriminate;
    try (apply comparison_sound in E as (l & L & H); [|assumption]; exists l; split; [assumption|now apply (e_tighter LNot)]).
  apply is_lex_the in En. back_next E tk1 s1 Nx. inversion F as [|? ? F1 F2]; subst. rewrite Nx in F2.
  back_call E IH tk2 a s2 l L Ha; [|assumption]. injection E as <- <- <-. exists (tk :: l). rewrite Nx, L.
  split; [reflexivity|now apply e_not].
Qed.

Lemma and_sound k : sound (and_lv atom k) (is_expr LAnd).
Proof. apply (level_sound LAnd). intros tk s tk' x s'. apply not_sound. Qed.
Lemma term_sound k : sound (term_lv atom k) (is_expr LOr).
Proof. apply (level_sound LOr). apply and_sound. Qed.
End Levels.

(** ** Atoms *)

Lemma terms_loop_sound close term : sound term (is_expr LOr) -> forall k acc s tk' xs s',
  Forall fit (toks s) -> terms_loop k close term acc s = (Ok (tk', xs), s') ->
  exists l us c, toks s = l ++ c :: tk' :: toks s' /\ the close c /\ listed LOr l us /\ xs = acc ++ us.
Proof.
  intros Ht. induction k as [|k IH]; intros acc s tk' xs s' F E; cbn [terms_loop] in E; [discriminate|].
  back_next E tk s1 Nx. rewrite Nx in F. back_call E Ht tk1 t s2 a L Ha; [|assumption].
  rewrite L in F. apply fit_rest in F as [F1 F2]. destruct (is_lex tk1 close) eqn:Ec.
  - apply is_lex_the in Ec. back_next E tk2 s3 N2. injection E as <- <- <-. exists a, [t], tk1.
    split; [rewrite Nx, L, N2; reflexivity|]. split; [assumption|]. split; [now apply l_one|reflexivity].
  - destruct (is_lex tk1 ",") eqn:Ek; [|exfalso; now apply raise_not in E]. apply is_lex_the in Ek.
    apply IH in E as (l & us & c & E & Hc & Hl & ->); [|assumption]. exists (a ++ tk1 :: l), (t :: us), c.
    split; [rewrite Nx, L, E; now rewrite <- app_assoc|]. split; [assumption|].
    split; [now apply l_more|now rewrite <- app_assoc].
Qed.

Lemma group_sound o c term k : sound term (is_expr LOr) ->
  sound (fun tk => if is_lex tk o then terms_loop k c term [] else pret (tk, []))%P (fun l xs _ => grouped o c l xs).
Proof.
  intros Ht tk s tk' xs s' F E. destruct (is_lex tk o) eqn:Eo.
  - apply is_lex_the in Eo. inversion F as [|? ? F1 F2]; subst.
    apply terms_loop_sound in E as (l & us & e & E & He & Hl & ->); [|assumption|assumption].
    exists (tk :: l ++ [e]). split; [rewrite E; cbn; now rewrite <- app_assoc|]. now apply p_some.
  - injection E as <- <- <-. exists []. split; [reflexivity|apply p_none].
Qed.

Definition is_literal : list tok -> alit -> tok -> Prop := fun l x _ => literal l x.

Lemma literal_sound term k : sound term (is_expr LOr) -> sound (literal_lv term k) is_literal.
Proof.
  intros Ht tk s tk' x s' F E. unfold literal_lv in E. inversion F as [|? ? F1 F2]; subst.
  unfold tk_functor in E. destruct (t_kind tk) eqn:Ek; try (exfalso; now apply raise_not in E). cbn [negb] in E.
  back_next E tk1 s1 Nx. rewrite Nx in F2.
  pose proof (group_sound "(" ")" term k Ht) as G1. pose proof (group_sound "[" "]" term k Ht) as G2.
  apply bind_ok in E as ([tk2 ts] & s2 & E1 & E). apply G1 in E1 as (a & L & Ha); [|assumption].
  rewrite L in F2. apply fit_rest in F2 as [F3 F4].
  apply bind_ok in E as ([tk3 an] & s3 & E2 & E). apply G2 in E2 as (b & L2 & Hb); [|now constructor].
  injection E as <- <- <-. exists (tk :: a ++ b). split; [rewrite Nx, L, L2; cbn; now rewrite <- app_assoc|].
  now apply g_literal.
Qed.

Lemma tail_sound and_ : sound and_ (is_expr LAnd) -> forall k s tk' x s', Forall fit (toks s) ->
  tail_loop k and_ s = (Ok (tk', x), s') ->
  exists l c, toks s = l ++ c :: tk' :: toks s' /\ the "]" c /\ (expr LAnd l x \/ linked l x).
Proof.
  intros Ha. induction k as [|k IH]; intros s tk' x s' F E; cbn [tail_loop] in E; [discriminate|].
  back_next E tk s1 Nx. rewrite Nx in F. back_call E Ha tk1 t s2 a L Hx; [|assumption].
  rewrite L in F. apply fit_rest in F as [F1 F2]. destruct (is_lex tk1 "|") eqn:Eb.
  - apply is_lex_the in Eb. apply bind_ok in E as ([tk2 r] & s3 & E1 & E). injection E as <- <- <-.
    apply IH in E1 as (l & c & E1 & Hc & Hr); [|assumption]. exists (a ++ tk1 :: l), c.
    split; [rewrite Nx, L, E1; now rewrite <- app_assoc|]. split; [assumption|]. right.
    destruct Hr; [now apply k_two|now apply k_more].
  - destruct (is_lex tk1 "]") eqn:Ec; [|exfalso; now apply raise_not in E]. apply is_lex_the in Ec. back_next E tk2 s3 N2.
    injection E as <- <- <-. exists a, tk1. split; [rewrite Nx, L, N2; reflexivity|]. split; [assumption|now left].
Qed.

Lemma list_sound and_ : sound and_ (is_expr LAnd) -> forall k tk acc s tk' x s', Forall fit (tk :: toks s) ->
  list_loop k and_ tk acc s = (Ok (tk', x), s') ->
  exists l c, tk :: toks s = l ++ c :: tk' :: toks s' /\ the "]" c /\
   ((l = [] /\ x = AList acc) \/
    (exists us, listed LAnd l us /\ x = AList (acc ++ us)) \/
    (exists us m k, l = m ++ [k] /\ the "," k /\ listed LAnd m us /\ x = AList (acc ++ us)) \/
    (acc = [] /\ linked l x)).
Proof.
  intros Ha. induction k as [|k IH]; intros tk acc s tk' x s' F E; cbn [list_loop] in E; destruct (is_lex tk "]") eqn:Ec;
    try (apply is_lex_the in Ec; back_next E tk1 s1 Nx; injection E as <- <- <-; exists [], tk;
         split; [rewrite Nx; reflexivity|]; split; [assumption|left; now split]); [discriminate|].
  back_call E Ha tk1 t s1 a L Hx; [|assumption]. rewrite L in F. apply fit_rest in F as [F1 F2].
  destruct (is_lex tk1 "|") eqn:Eb.
  - apply is_lex_the in Eb. destruct acc as [|? ?]; [|exfalso; now apply raise_not in E].
    apply bind_ok in E as ([tk2 r] & s3 & E1 & E). injection E as <- <- <-.
    apply tail_sound in E1 as (l & c & E1 & Hc & Hr); [|assumption|assumption]. exists (a ++ tk1 :: l), c.
    split; [rewrite L, E1; now rewrite <- app_assoc|]. split; [assumption|]. right. right. right. split; [reflexivity|].
    destruct Hr; [now apply k_two|now apply k_more].
  - destruct (is_lex tk1 ",") eqn:Ek.
    + apply is_lex_the in Ek. back_next E tk2 s2 Nx. rewrite Nx in F2.
      apply IH in E as (l & c & E & Hc & Hr); [|assumption]. exists (a ++ tk1 :: l), c.
      split; [rewrite L, Nx, E; now rewrite <- app_assoc|]. split; [assumption|]. right.
      destruct Hr as [(-> & ->)|[(us & Hl & ->)|[(us & m & k' & -> & Hk & Hl & ->)|(Hn & _)]]].
      * right. left. exists [t], a, tk1. repeat split; try assumption. now apply l_one.
      * left. exists (t :: us). split; [now apply l_more|now rewrite <- app_assoc].
      * right. left. exists (t :: us), (a ++ tk1 :: m), k'. repeat split; try assumption.
        -- now rewrite <- app_assoc.
        -- now apply l_more.
        -- now rewrite <- app_assoc.
      * destruct acc; discriminate.
    + destruct (is_lex tk1 "]") eqn:Ed; [|exfalso; now apply raise_not in E]. assert (E' : list_loop k and_ tk1 (acc ++ [t]) s1 =
        (tk1 <- next ;; pret (tk1, AList (acc ++ [t])))%P s1) by (destruct k; cbn [list_loop]; now rewrite Ed).
      rewrite E' in E. apply is_lex_the in Ed. back_next E tk2 s2 Nx. injection E as <- <- <-.
      exists a, tk1. split; [rewrite L, Nx; reflexivity|]. split; [assumption|]. right. left. exists [t].
      split; [now apply l_one|reflexivity].
Qed.

Lemma atom_sound n : sound (parse_atom n) (is_expr LAtom).
Proof.
  induction n as [|n IH]; intros tk s tk' x s' F E; cbn [parse_atom] in E; [discriminate|].
  pose proof (term_sound _ IH n) as Ht. pose proof (and_sound _ IH n) as Ha. inversion F as [|? ? F1 F2]; subst.
  destruct (tk_variable tk) eqn:Ev.
  { unfold tk_variable in Ev. destruct (t_kind tk) eqn:Ek; try discriminate. back_next E tk1 s1 Nx. injection E as <- <- <-.
    exists [tk]. rewrite Nx. split; [reflexivity|now apply e_variable]. }
  destruct (tk_functor tk) eqn:Ef.
  { apply bind_ok in E as ([tk1 l] & s1 & E1 & E). injection E as <- <- <-.
    apply literal_sound in E1 as (a & L & Hl); [|assumption|assumption]. exists a. split; [assumption|now apply e_literal]. }
  destruct (is_lex tk "[") eqn:Eb.
  { apply is_lex_the in Eb. back_next E tk1 s1 Nx. rewrite Nx in F2.
    apply list_sound in E as (l & c & E & Hc & Hr); [|assumption|assumption].
    exists (tk :: l ++ [c]). split; [rewrite Nx, E; cbn; now rewrite <- app_assoc|].
    destruct Hr as [(-> & ->)|[(us & Hl & ->)|[(us & m & k' & -> & Hk & Hl & ->)|(_ & Hr)]]].
    - now apply e_nil.
    - now apply e_list.
    - rewrite <- app_assoc. cbn [app]. now apply e_list_comma.
    - now apply e_linked. }
  destruct (is_lex tk "(") eqn:Ep.
  { apply is_lex_the in Ep. back_next E tk1 s1 Nx. rewrite Nx in F2. back_call E Ht tk2 t s2 a L Hx; [|assumption].
    destruct (is_lex tk2 ")") eqn:Ec; [|exfalso; now apply raise_not in E]. apply is_lex_the in Ec. back_next E tk3 s3 N3. injection E as <- <- <-.
    exists (tk :: a ++ [tk2]). split; [rewrite Nx, L, N3; cbn; now rewrite <- app_assoc|]. now apply e_parens. }
  destruct (tk_numeric tk) eqn:En.
  { unfold tk_numeric in En. destruct (t_kind tk) eqn:Ek; try discriminate. back_next E tk1 s1 Nx. injection E as <- <- <-.
    exists [tk]. rewrite Nx. split; [reflexivity|now apply e_number]. }
  destruct (tk_boolean tk) as [b|] eqn:Et.
  { unfold tk_boolean in Et. back_next E tk1 s1 Nx. injection E as <- <- <-. exists [tk]. rewrite Nx. split; [reflexivity|].
    destruct (t_kind tk) eqn:Ek; try discriminate; injection Et as <-; [apply e_true|apply e_false]; by_kind F1 Ek. }
  destruct (tk_string tk) eqn:Es; [|exfalso; now apply raise_not in E].
  unfold tk_string in Es. destruct (t_kind tk) eqn:Ek; try discriminate.
  destruct (parse_string (t_lex tk)) as [str|] eqn:Ep'; [|discriminate]. back_next E tk1 s1 Nx. injection E as <- <- <-.
  exists [tk]. rewrite Nx. split; [reflexivity|now apply e_string].
Qed.

Lemma parse_term_sound n : sound (parse_term n) (is_expr LOr).
Proof. apply term_sound, atom_sound. Qed.
Lemma parse_literal_sound n : sound (parse_literal n) is_literal.
Proof. apply literal_sound, parse_term_sound. Qed.

(** ** Bodies *)

Lemma expect_ok s t st t' st' : expect t s st = (Ok t', st') -> the s t /\ toks st = t' :: toks st'.
Proof.
  unfold expect. destruct (is_lex t s) eqn:E; intros H; [|exfalso; now apply raise_not in H].
  split; [now apply is_lex_the|now apply next_ok].
Qed.

Lemma condition_sound n : sound (condition n) (fun l x _ => condition_of l x).
Proof.
  intros tk s tk' x s' F E. unfold condition in E. inversion F as [|? ? F1 F2]; subst.
  apply bind_ok in E as (tk1 & s1 & E1 & E). apply expect_ok in E1 as [Ho N1]. rewrite N1 in F2.
  back_call E (parse_term_sound n) tk2 t s2 a L Ha; [|assumption].
  apply bind_ok in E as (tk3 & s3 & E1 & E). apply expect_ok in E1 as [Hc N3]. injection E as <- <- <-.
  exists (tk :: a ++ [tk2]). split; [rewrite N1, L, N3; cbn; now rewrite <- app_assoc|now apply h_condition].
Qed.

Lemma formula_not f : is_formula f = false -> forall ft t, f <> FForm ft t.
Proof. intros H ft t ->. discriminate. Qed.

Definition is_body : list tok -> list form -> tok -> Prop := fun l x t => body l x /\ the "}" t.
Lemma body_loop_sound fm : sound fm (fun l x _ => formula l x) -> forall k tk acc s tk' fs s', Forall fit (tk :: toks s) ->
  body_loop k fm tk acc s = (Ok (tk', fs), s') ->
  exists l us, tk :: toks s = l ++ tk' :: toks s' /\ body l us /\ fs = acc ++ us.
Proof.
  intros Hf. induction k as [|k IH]; intros tk acc s tk' fs s' F E; cbn [body_loop] in E; destruct (is_lex tk "}") eqn:Ec;
    try (injection E as <- <- <-; exists [], []; rewrite app_nil_r; repeat split; apply b_none); [discriminate|].
  back_call E Hf tk1 f s1 a L Ha; [|assumption]. rewrite L in F. apply fit_rest in F as [F1 F2].
  destruct (is_lex tk1 ";") eqn:Es.
  - apply is_lex_the in Es. back_next E tk2 s2 Nx. rewrite Nx in F2. destruct (is_lex tk2 "}") eqn:Eb.
    + injection E as <- <- <-. exists (a ++ [tk1]), [f]. split; [rewrite L, Nx; now rewrite <- app_assoc|].
      split; [|reflexivity]. apply b_next; [assumption..|apply b_none].
    + apply IH in E as (l & us & E & Hl & ->); [|assumption]. exists (a ++ tk1 :: l), (f :: us).
      split; [rewrite L, Nx, E; now rewrite <- app_assoc|]. split; [now apply b_next|now rewrite <- app_assoc].
  - destruct (is_lex tk1 "}") eqn:Eb.
    + injection E as <- <- <-. exists a, [f]. split; [assumption|]. split; [now apply b_last|reflexivity].
    + destruct (is_formula f) eqn:Ei; [exfalso; now apply raise_not in E|].
      apply IH in E as (l & us & E & Hl & ->); [|now constructor]. exists (a ++ l), (f :: us).
      split; [rewrite L, E; now rewrite <- app_assoc|].
      split; [apply b_after_block; [assumption|now apply formula_not|assumption]|now rewrite <- app_assoc].
Qed.

Lemma block_sound k fm : sound fm (fun l x _ => formula l x) ->
  sound (block_lv (fun tk => body_loop k fm tk [])) (fun l x _ => block l x).
Proof.
  intros Hf tk s tk' x s' F E. unfold block_lv in E. inversion F as [|? ? F1 F2]; subst.
  apply bind_ok in E as (tk1 & s1 & E1 & E). apply expect_ok in E1 as [Ho N1]. rewrite N1 in F2.
  apply bind_ok in E as ([tk2 b] & s2 & E1 & E).
  apply body_loop_sound in E1 as (l & us & L & Hl & ->); [|assumption|assumption].
  apply bind_ok in E as (tk3 & s3 & E1 & E). apply expect_ok in E1 as [Hc N3]. injection E as <- <- <-.
  exists (tk :: l ++ [tk2]). split; [rewrite N1, L, N3; cbn; now rewrite <- app_assoc|now apply b_block].
Qed.

Lemma tk_formula_sound t ft : fit t -> tk_formula t = Some ft -> exists s, In (s, ft) prefixes /\ the s t.
Proof.
  intros F. unfold tk_formula. destruct (t_kind t) eqn:Ek; try discriminate; intros [= <-];
  [exists "!!"%string|exists "!"%string|exists "?"%string|exists "-+"%string|exists "+"%string|exists "-"%string];
  (split; [cbn; tauto|by_kind F Ek]).
Qed.

Lemma formula_sound n : sound (parse_formula n) (fun l x _ => formula l x).
Proof.
  induction n as [|n IH]; intros tk s tk' x s' F E; cbn [parse_formula] in E; [discriminate|].
  pose proof (block_sound n _ IH) as Hb. pose proof (condition_sound n) as Hcd. inversion F as [|? ? F1 F2]; subst.
  destruct (is_lex tk "while") eqn:Ew.
  { apply is_lex_the in Ew. back_next E tk1 s1 Nx. rewrite Nx in F2.
    back_call E Hcd tk2 c s2 a L Ha; [|assumption]. rewrite L in F2. apply fit_rest in F2 as [F3 F4].
    back_call E Hb tk3 b s3 bs L3 Hbs; [|now constructor]. injection E as <- <- <-.
    exists (tk :: a ++ bs). split; [rewrite Nx, L, L3; cbn; now rewrite <- app_assoc|now apply f_while]. }
  destruct (is_lex tk "if") eqn:Ei.
  { apply is_lex_the in Ei. back_next E tk1 s1 Nx. rewrite Nx in F2.
    back_call E Hcd tk2 c s2 a L Ha; [|assumption]. rewrite L in F2. apply fit_rest in F2 as [F3 F4].
    assert (F5 : Forall fit (tk2 :: toks s2)) by now constructor.
    back_call E Hb tk3 b s3 bs L3 Hbs; [|assumption]. rewrite L3 in F5. apply fit_rest in F5 as [F5 F6].
    destruct (is_lex tk3 "else") eqn:Ee.
    - apply is_lex_the in Ee. back_next E tk4 s4 N4. rewrite N4 in F6.
      back_call E Hb tk5 b' s5 bs' L5 Hbs'; [|assumption]. injection E as <- <- <-.
      exists (tk :: a ++ bs ++ tk3 :: bs'). split; [|now apply f_if_else].
      rewrite Nx, L, L3, N4, L5. cbn. now rewrite <- !app_assoc.
    - injection E as <- <- <-. exists (tk :: a ++ bs).
      split; [rewrite Nx, L, L3; cbn; now rewrite <- app_assoc|now apply f_if]. }
  destruct (is_lex tk "for") eqn:Ef.
  { apply is_lex_the in Ef. back_next E tk1 s1 Nx. rewrite Nx in F2.
    back_call E Hcd tk2 c s2 a L Ha; [|assumption]. rewrite L in F2. apply fit_rest in F2 as [F3 F4].
    back_call E Hb tk3 b s3 bs L3 Hbs; [|now constructor]. injection E as <- <- <-.
    exists (tk :: a ++ bs). split; [rewrite Nx, L, L3; cbn; now rewrite <- app_assoc|now apply f_for]. }
  destruct (tk_formula tk) as [ft|] eqn:Et.
  - apply tk_formula_sound in Et as (str & Hin & Ht); [|assumption]. back_next E tk1 s1 Nx. rewrite Nx in F2.
    back_call E (parse_term_sound n) tk2 t s2 a L Ha; [|assumption]. injection E as <- <- <-.
    exists (tk :: a). split; [rewrite Nx, L; reflexivity|]. eapply f_prefix; eassumption.
  - back_call E (parse_term_sound n) tk2 t s2 a L Ha; [|assumption]. injection E as <- <- <-.
    exists a. split; [assumption|]. apply f_term; [assumption|]. intros (u & l & -> & Hu).
    injection L as <- _. unfold tk_formula in Et. destruct Hu as [Hu|Hu].
    + apply (proj2 (fit_kind KPlus "+" tk ltac:(unfold fixed_lexemes; cbn [In]; tauto) F1)) in Hu. rewrite Hu in Et. discriminate.
    + apply (proj2 (fit_kind KMinus "-" tk ltac:(unfold fixed_lexemes; cbn [In]; tauto) F1)) in Hu. rewrite Hu in Et. discriminate.
Qed.

Lemma plan_body_loop_sound n : forall k tk acc s tk' fs s', Forall fit (tk :: toks s) ->
  plan_body_loop k n tk acc s = (Ok (tk', fs), s') ->
  exists l us, tk :: toks s = l ++ tk' :: toks s' /\ plan_body l us /\ fs = acc ++ us /\ the "." tk'.
Proof.
  induction k as [|k IH]; intros tk acc s tk' fs s' F E; cbn [plan_body_loop] in E; [discriminate|].
  back_call E (formula_sound n) tk1 f s1 a L Ha; [|assumption]. rewrite L in F. apply fit_rest in F as [F1 F2].
  destruct (is_lex tk1 ";") eqn:Es.
  - apply is_lex_the in Es. back_next E tk2 s2 Nx. rewrite Nx in F2.
    apply IH in E as (l & us & E & Hl & -> & Hd); [|assumption]. exists (a ++ tk1 :: l), (f :: us).
    split; [rewrite L, Nx, E; now rewrite <- app_assoc|]. split; [now apply d_next|]. now rewrite <- app_assoc.
  - destruct (is_lex tk1 ".") eqn:Eb.
    + apply is_lex_the in Eb. injection E as <- <- <-. exists a, [f]. split; [assumption|].
      split; [now apply d_last|now split].
    + destruct (is_formula f) eqn:Ei; [exfalso; now apply raise_not in E|].
      apply IH in E as (l & us & E & Hl & -> & Hd); [|now constructor]. exists (a ++ l), (f :: us).
      split; [rewrite L, E; now rewrite <- app_assoc|].
      split; [apply d_after_block; [assumption|now apply formula_not|assumption]|now rewrite <- app_assoc].
Qed.
Lemma plan_body_sound n : sound (parse_plan_body n) (fun l x _ => plan_body l x).
Proof.
  intros tk s tk' x s' F E. apply plan_body_loop_sound in E as (l & us & E & H & -> & _); [|assumption]. now exists l.
Qed.

(** ** Clauses *)

Lemma tk_trigger_sound t x : fit t -> tk_trigger t = Some x -> exists s, In (s, x) triggers /\ the s t.
Proof.
  intros F. unfold tk_trigger. destruct (t_kind t) eqn:Ek; try discriminate; intros [= <-];
  [exists "+"%string|exists "-"%string]; (split; [cbn; tauto|by_kind F Ek]).
Qed.
Lemma tk_goal_sound t x : fit t -> tk_goal t = Some x -> exists s, In (s, x) goal_signs /\ the s t.
Proof.
  intros F. unfold tk_goal. destruct (t_kind t) eqn:Ek; try discriminate; intros [= <-];
  [exists "!"%string|exists "?"%string]; (split; [cbn; tauto|by_kind F Ek]).
Qed.

Lemma event_sound n : sound (parse_event n) (fun l x _ => event_of l x).
Proof.
  intros tk s tk' x s' F E. unfold parse_event in E. inversion F as [|? ? F1 F2]; subst.
  destruct (tk_trigger tk) as [tr|] eqn:Et; [|exfalso; now apply raise_not in E].
  apply tk_trigger_sound in Et as (str & Hin & Ht); [|assumption]. back_next E tk1 s1 Nx. rewrite Nx in F2.
  apply bind_ok in E as ([tk2 gt] & s2 & E1 & E). inversion F2 as [|? ? F3 F4]; subst.
  destruct (tk_goal tk1) as [g|] eqn:Eg.
  - apply tk_goal_sound in Eg as (str' & Hin' & Ht'); [|assumption]. back_next E1 tk3 s3 N3. injection E1 as <- <- <-.
    rewrite N3 in F4. back_call E (parse_literal_sound n) tk4 h s4 a L Ha; [|assumption]. injection E as <- <- <-.
    exists (tk :: tk1 :: a). split; [rewrite Nx, N3, L; reflexivity|]. eapply v_goal; eassumption.
  - injection E1 as <- <- <-. back_call E (parse_literal_sound n) tk4 h s4 a L Ha; [|assumption]. injection E as <- <- <-.
    exists (tk :: a). split; [rewrite Nx, L; reflexivity|]. eapply v_belief; eassumption.
Qed.

Lemma opt_sound {A} str (p : tok -> P (tok * A)) (Q : list tok -> A -> Prop) : sound p (fun l x _ => Q l x) ->
  sound (fun tk => if is_lex tk str then tk1 <- next ;; '(tk2, l) <- p tk1 ;; pret (tk2, Some l) else pret (tk, None))%P
    (fun l x _ => optional str Q l x).
Proof.
  intros Hp tk s tk' x s' F E. destruct (is_lex tk str) eqn:Et.
  - apply is_lex_the in Et. inversion F as [|? ? F1 F2]; subst. back_next E tk1 s1 Nx. rewrite Nx in F2.
    back_call E Hp tk2 y s2 a L Ha; [|assumption]. injection E as <- <- <-. exists (tk :: a).
    split; [rewrite Nx, L; reflexivity|now apply o_some].
  - injection E as <- <- <-. exists []. split; [reflexivity|apply o_none].
Qed.

Lemma plan_sound n : sound (parse_plan n) (fun l x _ => plan_of l x).
Proof.
  intros tk s tk' x s' F E. unfold parse_plan in E.
  pose proof (opt_sound "@" _ _ (parse_literal_sound n)) as H1. pose proof (event_sound n) as H2.
  pose proof (opt_sound ":" _ _ (parse_term_sound n)) as H3. pose proof (opt_sound "<-" _ _ (plan_body_sound n)) as H4.
  apply bind_ok in E as ([tk1 an] & s1 & E1 & E). apply H1 in E1 as (a & L1 & Ha); [|assumption].
  rewrite L1 in F. apply fit_rest in F as [F1 F2]. assert (F : Forall fit (tk1 :: toks s1)) by now constructor.
  apply bind_ok in E as ([tk2 e] & s2 & E1 & E). apply H2 in E1 as (b & L2 & Hb); [|assumption].
  rewrite L2 in F. apply fit_rest in F as [F3 F4]. assert (F : Forall fit (tk2 :: toks s2)) by now constructor.
  apply bind_ok in E as ([tk3 c] & s3 & E1 & E). apply H3 in E1 as (d & L3 & Hd); [|assumption].
  rewrite L3 in F. apply fit_rest in F as [F5 F6]. assert (F : Forall fit (tk3 :: toks s3)) by now constructor.
  apply bind_ok in E as ([tk4 bd] & s4 & E1 & E). apply H4 in E1 as (g & L4 & Hg); [|assumption].
  injection E as <- <- <-. exists (a ++ b ++ d ++ g). split; [rewrite L1, L2, L3, L4; now rewrite <- !app_assoc|].
  now apply q_plan.
Qed.

Lemma clause_sound n : sound (parse_rule_or_belief n) (fun l x _ => clause_of l x).
Proof.
  intros tk s tk' x s' F E. unfold parse_rule_or_belief in E. apply bind_ok in E as (u & s0 & E0 & E).
  assert (T : toks s0 = toks s).
  { destruct (has_char 46 (t_lex tk)); [unfold p_warn in E0|unfold pret in E0]; injection E0 as _ <-; reflexivity. }
  rewrite <- T in *. back_call E (parse_literal_sound n) tk1 b s1 a L Ha; [|assumption].
  destruct (is_lex tk1 ":-") eqn:Ed.
  - apply is_lex_the in Ed. rewrite L in F. apply fit_rest in F as [F1 F2]. back_next E tk2 s2 Nx. rewrite Nx in F2.
    back_call E (parse_term_sound n) tk3 c s3 d L3 Hd; [|assumption]. injection E as <- <- <-.
    exists (a ++ tk1 :: d). split; [rewrite L, Nx, L3; now rewrite <- app_assoc|now apply q_rule].
  - injection E as <- <- <-. exists a. split; [assumption|now apply q_belief].
Qed.

Lemma goal_sound n : sound (parse_initial_goal n) (fun l x _ => goal_of l x).
Proof.
  intros tk s tk' x s' F E. unfold parse_initial_goal in E.
  destruct (is_lex tk "!") eqn:Ed; [|exfalso; now apply raise_not in E]. apply is_lex_the in Ed.
  inversion F as [|? ? F1 F2]; subst. back_next E tk1 s1 Nx. rewrite Nx in F2.
  apply parse_literal_sound in E as (a & L & Ha); [|assumption]. exists (tk :: a). rewrite Nx, L.
  split; [reflexivity|now apply q_goal].
Qed.
