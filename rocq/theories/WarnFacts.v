From Coq Require Import Lia.
From Verif Require Import Base Num Term Str World Ast Names Quote Lex LexSpec LexFacts Parse Fold Program RoundSpec
  GramSpec GramTok GramSound GramComp GramCor Counts Closed SrcSpec SrcQuiet SrcVal SrcFacts WarnSpec.

Definition warns (s : pst) : nat := lg_warnings (p_log s).
Definition adds {A} (k : nat) (m : P A) : Prop := forall s r s', m s = (r, s') -> warns s' = (warns s + k)%nat.
Definition still {A} (m : P A) : Prop := adds 0 m.

Lemma still_ret A (x : A) : still (pret x).
Proof. intros s r s' E. injection E as _ <-. lia. Qed.
Lemma still_fail A e : still (@pfail A e).
Proof. intros s r s' E. injection E as _ <-. lia. Qed.
Lemma still_bind A C (m : P A) (f : A -> P C) : still m -> (forall x, still (f x)) -> still (pbind m f).
Proof.
  intros Hm Hf s r s' E. unfold pbind in E. destruct (m s) as [[x|e] s1] eqn:E1; apply Hm in E1.
  - apply Hf in E. lia.
  - injection E as _ <-. exact E1.
Qed.
Lemma error_warns lg r lg' : log_error lg = (r, lg') -> lg_warnings lg' = lg_warnings lg.
Proof. unfold log_error. destruct (lg_max lg) as [m|]; [destruct (Nat.leb _ _)|]; intros [= _ <-]; reflexivity. Qed.
Lemma still_error : still p_error.
Proof.
  intros s r s' E. unfold p_error in E. destruct (log_error (p_log s)) as [x l] eqn:El. injection E as _ <-. apply error_warns in El.
  unfold warns, set_log. cbn. lia.
Qed.
Lemma still_raise A : still (@p_raise A).
Proof.
  intros s r s' E. unfold p_raise in E. destruct (log_error (p_log s)) as [x l] eqn:El. injection E as _ <-. apply error_warns in El.
  unfold warns, set_log. cbn. lia.
Qed.
Lemma still_next : still next.
Proof.
  intros s r s' E. unfold next in E. destruct s as [items lg own]. cbn [p_items p_log p_own] in E. unfold warns. cbn [p_log].
  revert lg r s' E. induction items as [|[t|c a b] l IH]; intros lg r s' E; cbn [next_in] in E.
  - injection E as _ <-. cbn. lia.
  - injection E as _ <-. cbn. lia.
  - destruct own; [|injection E as _ <-; cbn; lia]. destruct (log_error lg) as [[u|e] lg1] eqn:El; apply error_warns in El.
    + apply IH in E. lia.
    + injection E as _ <-. cbn. lia.
Qed.
Ltac by_still := first [apply @still_ret|apply @still_fail|apply @still_bind|apply still_error|apply @still_raise|apply still_next].
Lemma adds_warn : adds 1 p_warn.
Proof. intros s r s' E. injection E as _ <-. unfold warns. cbn. lia. Qed.
Lemma adds_warns k : adds k (p_warns k).
Proof.
  induction k as [|k IH]; [apply still_ret|]. intros s r s' E. cbn [p_warns] in E. unfold pbind in E. destruct (p_warn s) as [[u|e] s1] eqn:E1; [|discriminate].
  apply adds_warn in E1. apply IH in E. lia.
Qed.

Section WithPy.
Context {PY : Py}.

Lemma still_fold_agent g : still (fold_agent g).
Proof.
  unfold fold_agent.
  apply still_bind; [apply (closed_mapl (@still)); try by_still; intros r _; unfold fold_rule|intro rs].
  { apply still_bind; [apply (closed_fold_lit (@still)); by_still|intro h]. apply still_bind; [apply (closed_fold (@still)); by_still|intro]. apply still_ret. }
  apply still_bind; [apply (closed_mapl (@still)); try by_still; intros b _; apply (closed_fold_lit (@still)); by_still|intro bs].
  apply still_bind; [apply (closed_mapl (@still)); try by_still; intros b _; apply (closed_fold_lit (@still)); by_still|intro gs].
  apply still_bind; [apply (closed_mapl (@still)); try by_still; intros p _; apply (closed_fold_plan (@still)); by_still|intro ps].
  apply still_ret.
Qed.
Lemma still_errors k : still (p_errors k).
Proof. apply (closed_errors (@still)); by_still. Qed.
Lemma each_reports {A} (f : A -> P unit) (R : A -> nat -> Prop) :
  (forall x s u s', f x s = (Ok u, s') -> exists k, R x k /\ warns s' = (warns s + k)%nat) ->
  forall l s u s', p_each f l s = (Ok u, s') -> exists k, total R l k /\ warns s' = (warns s + k)%nat.
Proof.
  intros Hf. induction l as [|x l IH]; intros s u s' E; cbn [p_each] in E.
  - injection E as _ <-. exists 0%nat. split; [constructor|lia].
  - apply bind_ok in E as (v & s1 & E1 & E2). apply Hf in E1 as (i & Hi & W1). apply IH in E2 as (j & Hj & W2).
    exists (i + j)%nat. split; [now constructor|lia].
Qed.
Lemma ops_counted t : operators t (count_ops t).
Proof.
  assert (GL : forall ts, Forall (fun t => operators t (count_ops t)) ts -> total operators ts (list_sum (map count_ops ts))).
  { induction 1 as [|u ts Ht _ IH]; [constructor|]. cbn [map list_sum fold_right]. now constructor. }
  induction t as [b|x|s|v|f ts an IHt IHa|ts IHt|h t IHh IHt|op a IHa|op l0 r IHl IHr] using ast_ind'; cbn [count_ops]; try constructor; auto.
Qed.
Lemma vars_found t : forall vs, find_vars t = Ok vs -> (vs = [] -> forall v, ~ occurs v t) /\ (vs <> [] -> exists v, occurs v t).
Proof.
  assert (GL : forall ts, Forall (fun t => forall vs, find_vars t = Ok vs -> (vs = [] -> forall v, ~ occurs v t) /\ (vs <> [] -> exists v, occurs v t)) ts ->
    forall vs, all_vars ts = Ok vs -> (vs = [] -> forall t v, In t ts -> ~ occurs v t) /\ (vs <> [] -> exists t v, In t ts /\ occurs v t)).
  { induction 1 as [|u ts Ht _ IH]; intros vs E; cbn [all_vars] in E.
    - injection E as <-. split; [intros _ w v []|easy].
    - destruct (find_vars u) as [a|] eqn:Ea; [|discriminate]. cbn in E. destruct (all_vars ts) as [c|] eqn:Ec; [|discriminate]. cbn in E. injection E as <-.
      destruct (Ht a eq_refl) as (A1 & A2). destruct (IH c eq_refl) as (C1 & C2). split.
      + intro X. apply app_eq_nil in X as [-> ->]. intros t0 v [<-|Hin]; [now apply A1|now apply C1].
      + intro X. destruct a as [|x a]; [destruct (C2 X) as (t0 & v & H1 & H2); exists t0, v; split; [now right|exact H2]|].
        destruct A2 as (v & Hv); [discriminate|]. exists u, v. split; [now left|exact Hv]. }
  induction t as [b|x|s|v|f ts an IHt IHa|ts IHt|h t IHh IHt|op a IHa|op l0 r IHl IHr] using ast_ind'; intros vs E.
  1-3: injection E as <-; split; [intros _ v H; inversion H|easy].
  - cbn in E. destruct v as [|c v]; [discriminate|]. injection E as <-. split; [discriminate|]. intros _. eexists. constructor.
  - change (find_vars (ALit f ts an)) with (rbind (all_vars ts) (fun a => rmap (app a) (all_vars an))) in E.
    destruct (all_vars ts) as [a|] eqn:Ea; [|discriminate]. cbn in E. destruct (all_vars an) as [c|] eqn:Ec; [|discriminate]. cbn in E. injection E as <-.
    destruct (GL _ IHt _ Ea) as (A1 & A2). destruct (GL _ IHa _ Ec) as (C1 & C2). split.
    + intro X. apply app_eq_nil in X as [-> ->]. intros v H. inversion H as [|? ? ? ? t [Ht|Ht] Hv| | | | | |]; subst; [now apply (A1 eq_refl t v)|now apply (C1 eq_refl t v)].
    + intro X. destruct a as [|y a].
      * destruct (C2 X) as (t & v & H1 & H2). exists v. eapply oc_arg; [right; exact H1|exact H2].
      * destruct A2 as (t & v & H1 & H2); [discriminate|]. exists v. eapply oc_arg; [left; exact H1|exact H2].
  - change (find_vars (AList ts)) with (all_vars ts) in E. destruct (GL _ IHt _ E) as (A1 & A2). split.
    + intros X v H. inversion H; subst. eapply A1; eauto.
    + intros X. destruct (A2 X) as (t & v & H1 & H2). exists v. eapply oc_item; eauto.
  - discriminate.
  - cbn in E. destruct (find_vars a) as [c|] eqn:Ea; [|discriminate]. cbn in E. injection E as <-. destruct (IHa c eq_refl) as (A1 & A2). split.
    + intros X v H. apply map_eq_nil in X. inversion H; subst. now apply (A1 eq_refl v).
    + intros X. destruct A2 as (v & Hv); [intros ->; now apply X|]. exists v. now constructor.
  - cbn in E. destruct (find_vars l0) as [a|] eqn:Ea; [|discriminate]. cbn in E. destruct (find_vars r) as [c|] eqn:Ec; [|discriminate]. cbn in E. injection E as <-.
    destruct (IHl a eq_refl) as (A1 & A2). destruct (IHr c eq_refl) as (C1 & C2). split.
    + intros X v H. apply map_eq_nil in X. apply app_eq_nil in X as [-> ->]. inversion H; subst; [now apply (A1 eq_refl v)|now apply (C1 eq_refl v)].
    + intros X. destruct a as [|y a]; [destruct C2 as (v & Hv); [intros ->; now apply X|]; exists v; now apply oc_right|].
      destruct A2 as (v & Hv); [discriminate|]. exists v. now apply oc_left.
Qed.
Lemma belief_checked b s u s' : check_belief b s = (Ok u, s') -> exists k, belief_reports b k /\ warns s' = (warns s + k)%nat.
Proof.
  unfold check_belief. intro E. apply bind_ok in E as (v & s1 & E1 & E2). apply still_errors in E2.
  destruct (find_vars (lit_ast b)) as [vs|e] eqn:Ev; [|discriminate]. destruct (vars_found _ _ Ev) as (V1 & V2). destruct vs as [|x vs].
  - injection E1 as _ <-. exists 0%nat. split; [apply br_closed; now apply V1|lia].
  - destruct (forallb _ _); [|discriminate]. apply adds_warn in E1. destruct V2 as (y & Hy); [discriminate|]. exists 1%nat. split; [now apply (br_open _ y)|lia].
Qed.
Lemma plan_checked p s u s' : check_plan p s = (Ok u, s') -> exists k, plan_reports p k /\ warns s' = (warns s + k)%nat.
Proof.
  unfold check_plan. intro E. apply bind_ok in E as (v & s1 & E1 & E2). apply still_errors in E1. apply bind_ok in E2 as (v2 & s2 & E2 & E3).
  assert (exists n, label_reports (ap_annot p) n /\ warns s2 = (warns s1 + n)%nat) as (n & Hn & W2).
  { destruct (ap_annot p) as [l|]; cbn [label_reports].
    - apply adds_warns in E2. eexists. split; [apply ops_counted|exact E2].
    - apply still_ret in E2. exists 0%nat. auto. }
  assert (Z : forall s0, pret tt s0 = (Ok u, s') -> ~ recovery p -> warns s0 = (warns s + n)%nat -> exists k, plan_reports p k /\ warns s' = (warns s + k)%nat).
  { intros s0 X Hr W. apply still_ret in X. exists n. split; [now apply pr_other|lia]. }
  assert (Y : p_warn s2 = (Ok u, s') -> recovery p -> exists k, plan_reports p k /\ warns s' = (warns s + k)%nat).
  { intros X Hr. apply adds_warn in X. exists (n + 1)%nat. split; [now apply pr_recovery|lia]. }
  unfold recovery in *. destruct (ae_gt (ap_event p)); destruct (ae_trig (ap_event p)); first [apply (Z s2 E3); [intros []; congruence|lia]|apply (Y E3); split; congruence].
Qed.
Theorem validate_reports g s g' s' : validate g s = (Ok g', s') -> exists n, agent_reports g' n /\ warns s' = (warns s + n)%nat.
Proof.
  unfold validate. intro E. apply bind_ok in E as (h & s1 & E1 & E). apply still_fold_agent in E1.
  apply bind_ok in E as (u1 & s2 & E2 & E). apply (each_reports _ belief_reports) in E2 as (i & Hi & W2); [|exact belief_checked].
  apply bind_ok in E as (u2 & s3 & E3 & E). apply bind_ok in E as (u3 & s4 & E4 & E).
  apply (each_reports _ plan_reports) in E4 as (j & Hj & W4); [|exact plan_checked]. injection E as <- <-.
  assert (W3 : warns s3 = warns s2).
  { assert (X : still (p_each check_rule (ag_rules h))) by (apply (closed_each (@still)); try by_still; intro; apply still_errors). apply X in E3. lia. }
  exists (i + j)%nat. split; [exists i, j; auto|lia].
Qed.

(** ** Programs *)
Lemma still_literal n tk : still (parse_literal n tk).
Proof. apply (closed_parse_literal (@still)); by_still. Qed.
Lemma still_term n tk : still (parse_term n tk).
Proof. apply (closed_parse_term (@still)); by_still. Qed.
Lemma still_goal n tk : still (parse_initial_goal n tk).
Proof. apply (closed_initial_goal (@still)); by_still. Qed.
Lemma still_plan n tk : still (parse_plan n tk).
Proof. apply (closed_plan (@still)); by_still. Qed.
Lemma still_next_is x : still (next_is x).
Proof. unfold next_is. apply still_bind; [apply still_next|]. intro t. destruct (is_lex t x); [apply still_ret|apply still_raise]. Qed.
Lemma still_res {A} (r : res A) : still (p_res r).
Proof. intros s x s' E. unfold p_res in E. injection E as _ <-. lia. Qed.
Lemma clause_adds n tk : adds (if has_char 46 (t_lex tk) then 1 else 0) (parse_rule_or_belief n tk).
Proof.
  intros s r s' E. unfold parse_rule_or_belief in E.
  assert (X : forall s0 s1 r1, (y <- parse_literal n tk ;; let '(tk1, b) := y in
   if is_lex tk1 ":-" then tk2 <- next ;; y <- parse_term n tk2 ;; let '(tk3, c) := y in pret (tk3, inl (mkarule b c))
   else pret (tk1, inr b))%P s0 = (r1, s1) -> warns s1 = warns s0).
  { intros s0 s1 r1 E0. match type of E0 with ?m _ = _ => assert (Z : still m) end; [|apply Z in E0; lia].
    apply still_bind; [apply still_literal|]. intros [t b]. destruct (is_lex t ":-"); [|apply still_ret]. apply still_bind; [apply still_next|].
    intro t2. apply still_bind; [apply still_term|]. intros [t3 c]. apply still_ret. }
  unfold pbind at 1 in E. destruct (has_char 46 (t_lex tk)).
  - destruct (p_warn s) as [[u|e] s1] eqn:E1; [|discriminate]. apply adds_warn in E1. apply X in E. lia.
  - cbn [pret] in E. apply X in E. lia.
Qed.
Lemma has_char_in c s : has_char c s = true <-> In c s.
Proof.
  unfold has_char. rewrite existsb_exists. split; [intros (x & H & E); apply N.eqb_eq in E; now subst|intro H; exists c; split; [exact H|apply N.eqb_refl]].
Qed.
Lemma head_looks tk l a x : clause_of a x -> tk :: l = a -> looks_like_action (match x with inl r => ar_head r | inr b => b end) (if has_char 46 (t_lex tk) then 1 else 0).
Proof.
  assert (G : forall a h rest, literal a h -> tk :: rest = a -> looks_like_action h (if has_char 46 (t_lex tk) then 1 else 0)).
  { intros a0 h rest H E. inversion H as [f ga ts gb an Hf Hga Hgb]; subst a0 h. injection H0 as -> _. unfold looks_like_action. cbn [l_functor].
    destruct (has_char 46 (t_lex tk)) eqn:Eh; [left|right]; (split; [|reflexivity]); [now apply has_char_in|]. intro X. apply has_char_in in X. congruence. }
  intros H E. destruct H as [a h H|a h o b c H Ho Hb]; [now apply (G a h l)|]. cbn [ar_head].
  inversion H as [f ga ts gb an Hf Hga Hgb]; subst a h. cbn in E. injection E as -> _. exact (G _ _ _ H eq_refl).
Qed.

Variable files : pystr -> file.

Ltac cl := first [apply clean_ret|apply clean_error|apply clean_raise|apply clean_warn|apply clean_next|apply clean_fail|assumption
  |apply clean_bind; [|intros ?] | match goal with |- clean (let '(_, _) := ?y in _) => destruct y end
  | match goal with |- clean (if ?b then _ else _) => destruct b end
  | match goal with |- clean (match ?b with _ => _ end) => destruct b end ].

Ltac cont := intros; cbv zeta; repeat first [apply clean_agent_loop; assumption|apply clean_include; assumption|apply clean_literal|apply clean_must|apply clean_next_is
    |match goal with H : forall _ _ _, clean _ |- _ => apply H end
    |apply clean_validate|apply clean_clause|apply clean_goal|apply clean_plan|cl].
Ltac qsplit E Es y s1 E1 := 
  let En := fresh "En" in apply quiet_split in E as (y & s1 & E1 & _ & E & En); [|solve [cont]|solve [cont]|exact Es]; clear Es; rename En into Es.


Definition loop_warns (file : pystr) (within : list pystr) (directive after : bool) (g : aagent) (s : pst) (g' : aagent) (s' : pst) : Prop :=
  exists l h i j, program_reports files file within after l h i /\ validated (followed g h) g' /\ agent_reports g' j /\ warns s' = (warns s + i + j)%nat /\
    if directive then exists c, end_of c /\ toks s = l ++ c ++ toks s' else toks s = l /\ p_items s' = [].
Definition sub_warns (sub : pystr -> list pystr -> bool -> P aagent) : Prop := forall file within directive s g' s',
  Forall fit (toks s) -> sub file within directive s = (Ok g', s') -> errs s' = errs s ->
  loop_warns file (normpath file :: within) directive false nothing s g' s'.

Lemma include_warns sub file within s h' s' : (forall a b c, clean (sub a b c)) -> sub_warns sub ->
  include_file files sub file within s = (Ok h', s') -> errs s' = errs s ->
  exists c t d e name lines b h i j, toks s = c :: t :: d :: e :: toks s' /\ the "(" c /\ t_kind t = KString /\
    parse_string (t_lex t) = Ok name /\ the ")" d /\ the "}" e /\
    let path := join_path (dirname file) name in
    ~ In path within /\ files path = File lines /\ tokenize 1 lines = Ok (map ITok b) /\
    program_reports files path (normpath path :: within) false b h i /\ validated h h' /\ agent_reports h' j /\ warns s' = (warns s + i + j)%nat.
Proof.
  intros Cs Hs E Es. unfold include_file in E.
  apply quiet_split in E as (u & s1 & E1 & _ & E & E0); [|apply clean_next_is| |assumption]; cycle 1.
  { intros y. repeat first [apply clean_next_is|apply clean_res|apply clean_in_file; apply Cs|cl]. }
  pose proof (still_next_is _ _ _ _ E1) as W1. apply next_is_ok in E1 as (c & T1 & Hc). clear Es. rename E0 into Es.
  apply quiet_split in E as (t & s2 & E2 & _ & E & E0); [|apply clean_next| |assumption]; cycle 1.
  { intros y. repeat first [apply clean_next_is|apply clean_res|apply clean_in_file; apply Cs|cl]. }
  pose proof (still_next _ _ _ E2) as W2. apply next_ok in E2. clear Es. rename E0 into Es.
  destruct (tk_string t) eqn:Et; [|now apply raise_not in E].
  assert (Kt : t_kind t = KString) by (unfold tk_string in Et; destruct (t_kind t); congruence).
  apply bind_ok in E as (name & s3 & E3 & E). unfold p_res in E3. injection E3 as En <-.
  apply quiet_split in E as (u2 & s4 & E4 & _ & E & E0); [|apply clean_next_is| |assumption]; cycle 1.
  { intros y. repeat first [apply clean_next_is|apply clean_res|apply clean_in_file; apply Cs|cl]. }
  pose proof (still_next_is _ _ _ _ E4) as W4. apply next_is_ok in E4 as (d & T4 & Hd). clear Es. rename E0 into Es.
  apply quiet_split in E as (u3 & s5 & E5 & _ & E & E0); [|apply clean_next_is| |assumption]; cycle 1.
  { intros y. cbv zeta. repeat first [apply clean_next_is|apply clean_res|apply clean_in_file; apply Cs|cl]. }
  pose proof (still_next_is _ _ _ _ E5) as W5. apply next_is_ok in E5 as (e & T5 & He). clear Es. rename E0 into Es. cbv zeta in E. set (path := join_path (dirname file) name) in *.
  assert (Z : forall s0 x, (_ <- p_error ;; pret no_agent)%P s0 = (Ok x, s') -> errs s' = errs s0 -> False).
  { intros s0 x X Xs. apply bind_ok in X as (v & s6 & X1 & X2). apply error_errs in X1. injection X2 as _ <-. lia. }
  destruct (existsb (pystr_eqb path) within) eqn:Ex; [exfalso; eapply Z; eassumption|].
  destruct (files path) as [| |lines] eqn:Ef; [exfalso; eapply Z; eassumption|discriminate E|].
  apply bind_ok in E as (items & s6 & E6 & E). unfold p_res in E6. injection E6 as Ei <-.
  unfold in_file in E. destruct (sub path within false (mkpst items (p_log s5) false)) as [r s7] eqn:E7. injection E as -> <-.
  assert (Es7 : errs s7 = errs (mkpst items (p_log s5) false)) by exact Es.
  pose proof (proj2 (Cs path within false) _ _ _ E7 Es7) as ((b & I) & _).
  apply (fun X => Hs _ _ _ _ _ _ X E7) in Es7; [|unfold toks; cbn [p_items]; eapply tokenize_fits; eassumption].
  destruct Es7 as (l & h & i & j & Hp & Hv & Hr & Hw & T & End). rewrite End, app_nil_r in I. cbn [p_items] in I.
  assert (l = b) as -> by (rewrite <- T; unfold toks; cbn [p_items]; rewrite I; apply tokens_clean).
  exists c, t, d, e, name, lines, b, h, i, j. split.
  { rewrite T1, E2, T4, T5. reflexivity. }
  do 5 (split; [assumption|]). cbv zeta. fold path. split.
  { intros Hin. apply Bool.not_true_iff_false in Ex. apply Ex. apply existsb_exists. exists path. split; [assumption|apply pystr_eqb_refl]. }
  split; [assumption|]. split; [congruence|]. split; [assumption|]. rewrite nothing_followed in Hv. split; [assumption|]. split; [assumption|].
  unfold warns in *. cbn [p_log] in *. lia.
Qed.

Lemma warns_after file within directive after after' g c a k s s2 g' s' :
  (forall l h i, program_reports files file within after' l h i -> program_reports files file within after (a ++ l) (followed c h) (k + i)) ->
  toks s = a ++ toks s2 -> warns s2 = (warns s + k)%nat -> loop_warns file within directive after' (followed g c) s2 g' s' -> loop_warns file within directive after g s g' s'.
Proof.
  intros Hp T W (l & h & i & j & Hl & Hv & Hr & Hw & He). exists (a ++ l), (followed c h), (k + i)%nat, j. split; [now apply Hp|]. split; [now rewrite <- followed_assoc|].
  split; [exact Hr|]. split; [lia|].
  destruct directive.
  - destruct He as (e & He & T2). exists e. split; [assumption|]. now rewrite T, T2, <- app_assoc.
  - destruct He as [T2 I]. split; [now rewrite T, T2|assumption].
Qed.

Lemma agent_loop_warns sub n file within directive : (forall a b c, clean (sub a b c)) -> sub_warns sub ->
  forall k g plans s g' s', Forall fit (toks s) -> agent_loop files sub n k file within directive g plans s = (Ok g', s') ->
  errs s' = errs s -> loop_warns file within directive plans g s g' s'.
Proof.
  intros Cs Hs. induction k as [|k IH]; intros g plans s g' s' F E Es; [discriminate E|]. cbn [agent_loop] in E. cbv zeta in E.
  unfold next_or in E. destruct (next s) as [[tk|e] s1] eqn:En; pose proof (counts_le _ _ _ _ counts_next En) as L.
  2: { destruct e; try discriminate E. destruct directive; [now apply raise_not in E|].
       pose proof (counts_le _ _ _ _ (proj1 (clean_validate g)) E) as L1. apply next_quiet in En as [I ->]; [|lia].
       pose proof (proj2 (clean_validate g) _ _ _ E Es) as ((l & J) & _). rewrite I in J. symmetry in J. apply app_eq_nil in J as [_ J].
       destruct (validate_reports _ _ _ _ E) as (j & Hj & Wj). apply validate_ok in E as [V T]; [|assumption]. exists [], nothing, 0%nat, j. split; [apply w_end|]. rewrite followed_nothing.
       split; [assumption|]. split; [assumption|]. split; [lia|]. split; [unfold toks; now rewrite I|assumption]. }
  pose proof (still_next _ _ _ En) as W0. apply next_ok in En.
  assert (Es0 : errs s' = errs s1 /\ errs s1 = errs s).
  { pose proof (fun X => counts_le _ _ _ _ X E) as L1.
    assert (errs s1 <= errs s')%nat; [|lia]. apply L1.
    match goal with |- counts ?m => assert (clean m) as [X _]; [|exact X] end. cont. }
  destruct Es0 as [Es1 _]. clear Es L. rename Es1 into Es. rewrite En in F. inversion F as [|? ? Ft F1]; subst.
  destruct (is_lex tk "{") eqn:E1.
  { apply is_lex_the in E1. qsplit E Es tk1 s2 E2. pose proof (still_next _ _ _ E2) as W2. apply next_ok in E2. rewrite E2 in F1. inversion F1 as [|? ? Ft1 F2]; subst.
    destruct (is_lex tk1 "include") eqn:E3.
    - apply is_lex_the in E3. apply quiet_split in E as (h' & s3 & E4 & Es4 & E & Es5); [|cont|cont|assumption].
      apply include_warns in E4 as (c & t & d & e & name & lines & b & h & i & j & T & Hc & Ht & Hn & Hd & He & Hw & Hf & Hb & Hp & Hv & Hr & W4); try assumption.
      apply IH in E; [|rewrite T in F2; now do 4 (apply Forall_inv_tail in F2)|assumption].
      apply (warns_after _ _ _ _ plans _ h' [tk; tk1; c; t; d; e] (i + j) s s3); [|rewrite En, E2, T; reflexivity|lia|exact E].
      intros l0 h0 i0 H0. eapply w_include; eauto. constructor; assumption.
    - destruct (is_lex tk1 "begin") eqn:E4.
      + apply is_lex_the in E4. qsplit E Es tk2 s3 E5. pose proof (still_next _ _ _ E5) as W5. apply next_ok in E5. rewrite E5 in F2.
        apply quiet_split in E as ([tk3 d] & s4 & E6 & _ & E & Es4); [|cont|cont|assumption].
        pose proof (still_literal _ _ _ _ _ E6) as W6. apply parse_literal_sound in E6 as (a & T & Ha); [|assumption]. clear Es. rename Es4 into Es.
        qsplit E Es u s5 E7. apply must_ok in E7 as [Hb ->]. qsplit E Es u1 s5 E7. pose proof (adds_warn _ _ _ E7) as W7.
        assert (T5 : toks s5 = toks s4) by (injection E7 as _ <-; reflexivity).
        apply quiet_split in E as (h' & s6 & E8 & Es8 & E & Es9); [|cont|cont|assumption].
        rewrite T in F2. apply fit_rest in F2 as [F3 F4]. rewrite <- T5 in F4.
        destruct (Hs _ _ _ _ _ _ F4 E8 Es8) as (l & h & i & j & Hp & Hv & Hr & W8 & c & Hc & T8).
        rewrite nothing_followed in Hv. rewrite T8 in F4. apply Forall_app in F4 as [_ F4]. apply Forall_app in F4 as [_ F4].
        apply IH in E; [|assumption|assumption].
        apply (warns_after _ _ _ _ plans _ h' ((tk :: tk1 :: a ++ [tk3]) ++ l ++ c) (1 + i + j) s s6); [| |lia|exact E].
        * intros l0 h0 i0 H0. replace (((tk :: tk1 :: a ++ [tk3]) ++ l ++ c) ++ l0) with ((tk :: tk1 :: a ++ [tk3]) ++ l ++ c ++ l0)
            by now rewrite <- !app_assoc.
          eapply w_block; eauto. econstructor; eassumption.
        * rewrite En, E2, E5, T, <- T5, T8. cbn [app]. now rewrite <- !app_assoc.
      + destruct (is_lex tk1 "end") eqn:E5; [|now apply raise_not in E].
        apply is_lex_the in E5. qsplit E Es u s3 E6. pose proof (still_next_is _ _ _ _ E6) as W6. apply next_is_ok in E6 as (t & T & Ht).
        destruct directive.
        * destruct (validate_reports _ _ _ _ E) as (j & Hj & Wj). apply validate_ok in E as [V T2]; [|assumption]. exists [], nothing, 0%nat, j. split; [apply w_end|]. rewrite followed_nothing.
          split; [assumption|]. split; [assumption|]. split; [lia|]. exists [tk; tk1; t]. split; [now constructor|]. rewrite En, E2, T, T2. reflexivity.
        * exfalso. apply quiet_split in E as (u1 & s4 & E7 & Es7 & _); [|cont|cont|assumption]. apply error_errs in E7. lia. }
  destruct (tk_functor tk) eqn:E2.
  { assert (exists s2, toks s2 = toks s1 /\ errs s' = errs s2 /\ warns s2 = (warns s1 + late plans)%nat /\
      (y <- parse_rule_or_belief n tk ;; let '(tk1, x) := y in must tk1 "." ;;
       agent_loop files sub n k file within directive (add_rule_belief g x) plans)%P s2 = (Ok g', s')) as (s2 & T2 & Es2 & W2 & E3).
    { qsplit E Es u s2 E3. exists s2. assert (W2 : warns s2 = (warns s1 + late plans)%nat) by (destruct plans; [now apply adds_warn in E3|now apply still_ret in E3]).
      split; [|split; [assumption|split; [exact W2|exact E]]]. destruct plans; injection E3 as _ <-; reflexivity. }
    clear E Es. rename E3 into E, Es2 into Es. rewrite <- T2 in *.
    apply quiet_split in E as ([tk1 x] & s3 & E3 & _ & E & Es3); [|cont|cont|assumption].
    pose proof (clause_adds _ _ _ _ _ E3) as W3. apply clause_sound in E3 as (a & T & Ha); [|now constructor]. clear Es. rename Es3 into Es.
    qsplit E Es u s4 E4. apply must_ok in E4 as [Hd ->].
    assert (Hl : looks_like_action (match x with inl r => ar_head r | inr b => b end) (if has_char 46 (t_lex tk) then 1 else 0)).
    { destruct a as [|t0 a]; [inversion Ha as [? ? Hx|? ? ? ? ? Hx]; subst; inversion Hx; subst; discriminate|]. injection T as -> T. eapply head_looks; [exact Ha|reflexivity]. }
    rewrite T in F. apply fit_rest in F as [_ F4].
    apply IH in E; [|assumption|assumption].
    apply (warns_after _ _ _ _ plans _ (match x with inl r => mkaagent [r] [] [] [] | inr b => mkaagent [] [b] [] [] end) (a ++ [tk1])
      (late plans + (if has_char 46 (t_lex tk) then 1 else 0)) s s3);
      [|rewrite En, T; now rewrite <- app_assoc|lia|destruct x; exact E].
    intros l0 h0 i0 H0. eapply w_clause; [|exact H0]. destruct x; now constructor. }
  destruct (is_lex tk "!") eqn:E3.
  { apply quiet_split in E as ([tk1 x] & s3 & E4 & _ & E & Es3); [|cont|cont|assumption].
    pose proof (still_goal _ _ _ _ _ E4) as W4. apply goal_sound in E4 as (a & T & Ha); [|assumption]. clear Es. rename Es3 into Es.
    qsplit E Es u s4 E4. apply must_ok in E4 as [Hd ->]. rewrite T in F. apply fit_rest in F as [_ F4].
    apply IH in E; [|assumption|assumption].
    apply (warns_after _ _ _ _ plans _ (mkaagent [] [] [x] []) (a ++ [tk1]) 0 s s3); [|rewrite En, T; now rewrite <- app_assoc|lia|exact E].
    intros l0 h0 i0 H0. eapply w_clause; [|exact H0]. now constructor. }
  destruct (is_lex tk "@" || is_lex tk "+" || is_lex tk "-").
  { apply quiet_split in E as ([tk1 x] & s3 & E4 & _ & E & Es3); [|cont|cont|assumption].
    pose proof (still_plan _ _ _ _ _ E4) as W4. apply plan_sound in E4 as (a & T & Ha); [|assumption]. clear Es. rename Es3 into Es.
    qsplit E Es u s4 E4. apply must_ok in E4 as [Hd ->]. rewrite T in F. apply fit_rest in F as [_ F4].
    apply IH in E; [|assumption|assumption].
    apply (warns_after _ _ _ _ true _ (mkaagent [] [] [] [x]) (a ++ [tk1]) 0 s s3); [|rewrite En, T; now rewrite <- app_assoc|lia|exact E].
    intros l0 h0 i0 H0. eapply w_clause; [|exact H0]. now constructor. }
  exfalso. apply quiet_split in E as (u1 & s4 & E7 & Es7 & _); [|cont|cont|assumption]. apply error_errs in E7. lia.
Qed.

Lemma program_warns n : sub_warns (parse_program files n).
Proof.
  induction n as [|n IH]; intros file within directive s g' s' F E Es; [discriminate E|]. cbn [parse_program] in E.
  unfold at_eof in E. destruct (agent_loop _ _ _ _ _ _ _ _ _ _) as [[y|e] s1] eqn:Em.
  - injection E as <- <-. eapply agent_loop_warns in Em; [exact Em|apply clean_program|exact IH|assumption|assumption].
  - destruct e; try discriminate E. now apply raise_not in E.
Qed.

Theorem source_reports n name lines items lg g s : tokenize 1 lines = Ok items ->
  parse_program files n name [] false (mkpst items lg true) = (Ok g, s) -> lg_errors (p_log s) = lg_errors lg ->
  exists l h i j, items = map ITok l /\ program_reports files name [normpath name] false l h i /\ validated h g /\ agent_reports g j /\
    lg_warnings (p_log s) = (lg_warnings lg + i + j)%nat.
Proof.
  intros Et Ep Es. change (errs s = errs (mkpst items lg true)) in Es.
  pose proof (proj2 (clean_program files n name [] false) _ _ _ Ep Es) as ((l & I) & _).
  assert (F : Forall fit (toks (mkpst items lg true))) by (unfold toks; cbn [p_items]; eapply tokenize_fits; eassumption).
  destruct (program_warns n _ _ _ _ _ _ F Ep Es) as (l' & h & i & j & Hp & Hv & Hr & Hw & T & End).
  rewrite End, app_nil_r in I. cbn [p_items] in I. subst items.
  assert (l' = l) as -> by (rewrite <- T; unfold toks; cbn [p_items]; apply tokens_clean).
  exists l, h, i, j. rewrite nothing_followed in Hv. auto.
Qed.

(** The program that is reported about is the one that is read. *)
Theorem reports_program file within after l h i : program_reports files file within after l h i -> program files file within l h.
Proof.
  induction 1 as [|file within after after' a c l g i j Hc _ IH|file within after a name path lines b h h' l g i j k Hi Hpath Hin Hf Ht _ IH1 Hv Hr _ IH2
    |file within after a b h h' c l g i j k Hb _ IH1 Hv Hr Hc _ IH2].
  - constructor.
  - apply s_clause; [|exact IH]. destruct Hc; econstructor; eassumption.
  - eapply s_include; eassumption.
  - eapply s_block; eassumption.
Qed.
End WithPy.
