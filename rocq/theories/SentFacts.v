(** The texts by which plans are sent. *)
From Verif Require Import Base Num Term Unify Str World Engine Ast Names Build Lex Parse Front TellSpec.
From Verif Require Import RoundSpec RoundLex RoundTok RoundText RoundParse ParseInv NumRead ParseTotal RoundCor TellFacts.

Local Notation len := List.length.

Ltac in_list := unfold closed, spaced; cbn [In]; tauto.
Ltac is_stop := cbn; repeat split; discriminate.

Section WithPy.
Context {PY : Py}.

(** ** Reading *)
Lemma told_text p s : readable_plan p -> sp s (s2p "." ++ []) (plan_toks p) ->
  exists N, forall n, (N <= n)%nat -> read_plan n (s ++ s2p ".") = Ok p.
Proof.
  intros H S1.
  assert (B : read_back parse_plan (s ++ s2p ".") p).
  { apply (back _ _ (plan_toks p) (psize p)); [exact S1| | | |].
    - unfold plan_toks, event_toks. destruct (ap_annot p); discriminate.
    - intros n tk toks a b c lg own Hn E. apply plan_ok; assumption.
    - intros. now apply mle_plan.
    - intros. now apply fine_plan. }
  destruct B as (first & rest & dot & E1 & E2 & E3).
  exists (List.length rest + 3)%nat. intros n Hn. unfold read_plan. rewrite E1.
  apply dot_items in S1 as (toks & a & b & c & E4 & E5). rewrite E1 in E4. injection E4 as E4.
  destruct (plan_first p) as (w & ws & Ew & Hw). rewrite Ew in E5. destruct toks as [|t toks]; [discriminate|]. cbn in E4, E5.
  injection E4 as -> ->. injection E5 as E5 _. cbn [filter is_token]. rewrite keep_tokens.
  replace (is_lex t "@" || is_lex t "+" || is_lex t "-") with true.
  - unfold told_plan, pbind. rewrite E3 by exact Hn. rewrite E2. reflexivity.
  - unfold is_lex. destruct t as [k lx ? ? ?]. unfold tw in E5. cbn in E5. cbn [t_lex]. subst w.
    destruct Hw as [X|[X|X]]; injection X as -> ->; reflexivity.
Qed.

(** ** Substituting the names *)
Lemma sub_name w rest names x n r ns : (exists b c d h, w = s2p "_X_" ++ b :: c :: d :: 95%N :: h /\
    is_hex b = true /\ is_hex c = true /\ is_hex d = true /\ h <> [] /\ forallb is_hex h = true) ->
  match rest with c :: _ => is_hex c = false | [] => True end ->
  sub_vars n rest names = (Ok r, ns) -> sub_vars (S n) (w ++ rest) (x :: names) = (Ok (x ++ r), ns).
Proof.
  intros (b & c & d & h & -> & H1 & H2 & H3 & H4 & H5) Hr E.
  assert (X : span_hex (h ++ rest) = (h, rest)).
  { clear -H5 Hr. induction h as [|y h IH]; cbn in *.
    - destruct rest as [|z rest]; [reflexivity|]. cbn. now rewrite Hr.
    - apply andb_prop in H5 as [-> H5]. now rewrite IH. }
  change ((s2p "_X_" ++ b :: c :: d :: 95%N :: h) ++ rest) with (95%N :: 88%N :: 95%N :: b :: c :: d :: 95%N :: (h ++ rest)).
  cbn [sub_vars match_var]. rewrite H1, H2, H3, X. cbn [andb]. destruct h; [congruence|]. now rewrite E.
Qed.
Lemma sub_char c s n names r ns : match_var (c :: s) = None ->
  sub_vars n s names = (Ok r, ns) -> sub_vars (S n) (c :: s) names = (Ok (c :: r), ns).
Proof. intros H E. cbn [sub_vars]. now rewrite H, E. Qed.
Lemma sub_more n : forall s names r ns, sub_vars n s names = (Ok r, ns) -> forall n', (n <= n')%nat -> sub_vars n' s names = (Ok r, ns).
Proof.
  induction n as [|n IH]; intros s names r ns E n' Hn; [discriminate|]. destruct n' as [|n']; [lia|]. cbn [sub_vars] in *.
  destruct s as [|c s]; [exact E|]. destruct (match_var (c :: s)) as [rest|].
  - destruct names as [|x names]; [discriminate|]. destruct (sub_vars n rest names) as [[r1|] ns1] eqn:E1; [|discriminate].
    rewrite (IH _ _ _ _ E1) by lia. exact E.
  - destruct (sub_vars n s names) as [[r1|] ns1] eqn:E1; [|discriminate]. rewrite (IH _ _ _ _ E1) by lia. exact E.
Qed.

Lemma match_start s rest : match_var s = Some rest -> exists v, s = s2p "_X_" ++ v.
Proof.
  unfold match_var. destruct s as [|a s]; [discriminate|].
  destruct a as [|a]; [discriminate|]. do 7 (destruct a as [a|a|]; try discriminate).
  destruct s as [|b s]; [discriminate|]. destruct b as [|a]; [discriminate|]. do 7 (destruct a as [a|a|]; try discriminate).
  destruct s as [|b s]; [discriminate|]. destruct b as [|a]; [discriminate|]. do 7 (destruct a as [a|a|]; try discriminate).
  intros _. now exists s.
Qed.
(** Characters that begin no name. *)
Lemma match_other c s : c <> 95%N -> match_var (c :: s) = None.
Proof. intro H. destruct (match_var (c :: s)) as [rest|] eqn:E; [|reflexivity]. apply match_start in E as [v E]. injection E. congruence. Qed.

Lemma sub_functor f : (forall u v, f <> u ++ s2p "_X_" ++ v) -> forall c rest names n r ns,
  c <> 95%N -> c <> 88%N -> sub_vars n (c :: rest) names = (Ok r, ns) -> sub_vars (len f + n) (f ++ c :: rest) names = (Ok (f ++ r), ns).
Proof.
  induction f as [|x f IH]; intros Hf c rest names n r ns H1 H2 E; [exact E|]. cbn [List.length app Nat.add]. apply sub_char.
  - destruct (match_var (x :: f ++ c :: rest)) as [q|] eqn:Em; [|reflexivity]. exfalso. apply match_start in Em as [v Em].
    destruct f as [|y [|z f]]; cbn in Em; try (injection Em; congruence). apply (Hf [] f). cbn. injection Em as -> -> -> _. reflexivity.
  - apply IH; auto. intros u v X. apply (Hf (x :: u) v). now rewrite X.
Qed.

Lemma sub_list (H : hex_names) vs : vs <> [] -> forall xs rest n r ns, List.length xs = List.length vs ->
  match rest with c :: _ => is_hex c = false | [] => True end ->
  sub_vars n rest [] = (Ok r, ns) ->
  exists n', sub_vars n' (joins (s2p ", ") (map vname vs) ++ rest) xs = (Ok (joins (s2p ", ") xs ++ r), ns).
Proof.
  induction vs as [|v vs IH]; intros Hv xs rest n r ns HL Hr E; [congruence|].
  destruct xs as [|x xs]; [discriminate|]. injection HL as HL. destruct vs as [|w vs].
  - destruct xs; [|discriminate]. cbn [map joins]. exists (S n). now apply sub_name.
  - destruct xs as [|y xs]; [discriminate|]. destruct (IH ltac:(discriminate) (y :: xs) rest n r ns HL Hr E) as [n' E'].
    cbn [map]. rewrite !joins_cons2. rewrite <- !app_assoc. exists (S (S (S n'))). apply sub_name; [apply H|reflexivity|].
    change (s2p ", ") with [44%N; 32%N]. cbn [app]. do 2 (apply sub_char; [now apply match_other|]). exact E'.
Qed.

Lemma sub_head (H : hex_names) f vs xs : (forall u v, f <> u ++ s2p "_X_" ++ v) -> vs <> [] -> List.length xs = List.length vs ->
  let text := f ++ s2p "(" ++ joins (s2p ", ") (map vname vs) ++ s2p ")" in
  exists n, sub_vars n text xs = (Ok (f ++ s2p "(" ++ joins (s2p ", ") xs ++ s2p ")"), []).
Proof.
  intros Hf Hv HL text.
  assert (E0 : sub_vars 2 (s2p ")") [] = (Ok (s2p ")"), [])) by reflexivity.
  destruct (sub_list H vs Hv xs (s2p ")") 2 _ _ HL eq_refl E0) as [n E].
  exists (len f + S n)%nat. unfold text. change (s2p "(" ++ joins (s2p ", ") (map vname vs) ++ s2p ")") with (40%N :: (joins (s2p ", ") (map vname vs) ++ s2p ")")).
  apply sub_functor; [assumption|discriminate|discriminate|]. apply sub_char; [now apply match_other|]. exact E.
Qed.

(** More than the length of the text is never needed. *)
Lemma span_len s : forall a b, span_hex s = (a, b) -> (len b <= len s)%nat.
Proof.
  induction s as [|c s IH]; intros a b E; cbn in E; [injection E as <- <-; cbn; lia|].
  destruct (is_hex c); [|injection E as <- <-; cbn; lia]. destruct (span_hex s) as [a' b']. injection E as <- <-. specialize (IH _ _ eq_refl). cbn. lia.
Qed.
Lemma match_len s rest : match_var s = Some rest -> (len rest < len s)%nat.
Proof.
  intro E. destruct (match_start _ _ E) as [v ->]. cbn in E. destruct v as [|a [|b [|c [|d v]]]]; try discriminate.
  destruct d as [|d]; [discriminate|]. do 7 (destruct d as [d|d|]; try discriminate).
  destruct (is_hex a && is_hex b && is_hex c); [|discriminate]. destruct (span_hex v) as [[|x y] z] eqn:Ev; [discriminate|]. injection E as ->.
  apply span_len in Ev. cbn. lia.
Qed.
Lemma sub_enough n : forall s names x, sub_vars n s names = x -> fst x <> Err ERecursion -> forall n', (len s < n')%nat -> sub_vars n' s names = x.
Proof.
  induction n as [|n IH]; intros s names x E Hx n' Hn; [subst x; now contradict Hx|]. destruct n' as [|n']; [lia|]. subst x. cbn [sub_vars] in *.
  destruct s as [|c s]; [reflexivity|]. cbn in Hn. destruct (match_var (c :: s)) as [rest|] eqn:Em.
  - apply match_len in Em. cbn in Em. destruct names as [|y names]; [reflexivity|].
    rewrite (IH rest names _ eq_refl); [reflexivity| |lia]. intro X. apply Hx. destruct (sub_vars n rest names) as [[]]; cbn in *; congruence.
  - rewrite (IH s names _ eq_refl); [reflexivity| |lia]. intro X. apply Hx. destruct (sub_vars n s names) as [[]]; cbn in *; congruence.
Qed.

(** ** The plan *)
Lemma build_vars ts : Forall (fun t => exists v, t = AVar v /\ v <> s2p "_") ts -> forall s xs s',
  Forall (fun nt => exists v, snd nt = TVar v) (v_vars s) ->
  bmapl (build_term false) ts s = (Ok xs, s') -> exists vs, xs = map TVar vs /\ List.length vs = List.length ts.
Proof.
  induction 1 as [|t ts (v & -> & Hv) _ IH]; intros s xs s' HS E.
  - inversion E; subst. now exists [].
  - change (bmapl (build_term false) (AVar v :: ts)) with (bbind (build_var v) (fun y => bbind (bmapl (build_term false) ts) (fun ys => bret (y :: ys)))) in E.
    unfold bbind at 1 in E. destruct (build_var v s) as [[y|] s1] eqn:E1; [|discriminate].
    unfold bbind at 1 in E. destruct (bmapl (build_term false) ts s1) as [[ys|] s2] eqn:E2; [|discriminate]. inversion E; subst.
    assert (X : (exists w, y = TVar w) /\ Forall (fun nt => exists v, snd nt = TVar v) (v_vars s1)).
    { unfold build_var in E1. destruct (assoc pystr_eqb v (v_vars s)) as [u|] eqn:Ea.
      - injection E1 as X1 X2. subst y s1. split; [|exact HS]. clear -Ea HS. revert Ea HS. generalize (v_vars s). intros l0 Ea HS. induction l0 as [|[k u'] l IH]; [discriminate|]. cbn in Ea. inversion HS; subst.
        destruct (pystr_eqb v k); [|auto]. injection Ea as ->. assumption.
      - destruct (pystr_eqb v (s2p "_")) eqn:Eu; [apply pystr_eqb_eq in Eu; congruence|]. injection E1 as <- <-. split; [eauto|]. constructor; [cbn; eauto|exact HS]. }
    destruct X as [[w ->] HS1]. destruct (IH _ _ _ HS1 E2) as (vs & -> & HL). exists (w :: vs). cbn. now rewrite HL.
Qed.

Lemma sp_always p : readable_plan (always p) -> forall b, ap_body p = Some b -> forall a, stop a ->
  sp ((match ap_annot p with Some l => s2p "@" ++ lit_str l ++ s2p " " | None => [] end) ++ event_str (ap_event p) ++
      s2p " : " ++ ast_str (full_context p) ++ s2p " <- " ++ body_str b) a (plan_toks (always p)).
Proof.
  intros (H1 & H2 & H3 & H4) b Hb a Ha. unfold plan_toks, always in *. cbn [ap_annot ap_event ap_ctx ap_body] in *. rewrite Hb.
  destruct (H4 b Hb) as [_ Hf]. specialize (H3 _ eq_refl). set (cx := full_context p) in *.
  assert (B : sp (s2p " <- " ++ body_str b) a (wd KArrow "<-" :: body_toks b)).
  { change (s2p " <- ") with (s2p " " ++ s2p "<-" ++ s2p " "). rewrite <- !app_assoc. apply sp_space1, sp_closed; [in_list|]. apply sp_space1.
    apply sp_body; [|assumption]. eapply Forall_impl; [|exact Hf]. exact sp_form. }
  assert (C : sp (s2p " : " ++ ast_str cx ++ s2p " <- " ++ body_str b) a ((wd KColon ":" :: ast_toks cx) ++ wd KArrow "<-" :: body_toks b)).
  { change (s2p " : ") with (s2p " " ++ s2p ":" ++ s2p " "). rewrite <- !app_assoc. apply sp_space1. cbn [app].
    apply sp_spaced; [in_list|]. apply (sp_good cx); [now apply sp_ast|is_stop|assumption]. }
  assert (E : sp (event_str (ap_event p) ++ s2p " : " ++ ast_str cx ++ s2p " <- " ++ body_str b) a (event_toks (ap_event p) ++ (wd KColon ":" :: ast_toks cx) ++ wd KArrow "<-" :: body_toks b)).
  { apply sp_app; [|assumption]. apply sp_event; [assumption|is_stop]. }
  destruct (ap_annot p) as [l|]; [|assumption]. rewrite <- !app_assoc. cbn [app]. apply sp_closed; [in_list|].
  unfold lit_str, lit_toks. apply sp_good; [apply sp_ast; now apply H1|is_stop|]. now apply sp_space1.
Qed.

(** ** The context *)
Lemma mk_set_nil : PyLawful PY -> mk_set [] = [].
Proof. intro HPy. unfold mk_set; cbn [dedup]. apply Permutation.Permutation_nil, Permutation.Permutation_sym, HPy. Qed.

Lemma repr_plain (HPy : PyLawful PY) t : plain_term t -> forall s x s', build_term false t s = (Ok x, s') -> asl_repr x = ast_str t.
Proof.
  assert (HL : forall ts, Forall (fun t => plain_term t -> forall s x s', build_term false t s = (Ok x, s') -> asl_repr x = ast_str t) ts ->
    fold_right and True (map plain_term ts) -> forall s xs s', bmapl (build_term false) ts s = (Ok xs, s') -> map asl_repr xs = map ast_str ts).
  { induction 1 as [|t0 ts Ht _ IH]; intros Hp s xs s' E; [inversion E; reflexivity|]. destruct Hp as [P1 P2].
    change (bmapl (build_term false) (t0 :: ts)) with (bbind (build_term false t0) (fun y => bbind (bmapl (build_term false) ts) (fun ys => bret (y :: ys)))) in E.
    unfold bbind at 1 in E. destruct (build_term false t0 s) as [[y|] s1] eqn:E1; [|discriminate].
    unfold bbind at 1 in E. destruct (bmapl (build_term false) ts s1) as [[ys|] s2] eqn:E2; [|discriminate]. inversion E; subst. cbn [map].
    rewrite (Ht P1 _ _ _ E1), (IH P2 _ _ _ E2). reflexivity. }
  induction t as [b|x|s0|v|f ts an Hts Han|ts Hts|h t IHh IHt|op b IH|op l r IHl IHr] using ast_ind'; intros Hp s y s' E; cbn [build_term plain_term] in *.
  - inversion E. reflexivity.
  - inversion E. reflexivity.
  - inversion E. reflexivity.
  - destruct Hp.
  - destruct Hp as [-> Hp]. unfold bbind at 1 in E. destruct (bmapl (build_term false) ts s) as [[args|] s1] eqn:E1; [|discriminate].
    pose proof (HL _ Hts Hp _ _ _ E1) as M. unfold bbind at 1 in E. cbn [bmapl] in E. unfold bret in E. injection E as <- _. rewrite (mk_set_nil HPy). cbn [asl_repr ast_str]. rewrite M.
    destruct args, ts; try discriminate M; reflexivity.
  - unfold bbind at 1 in E. destruct (bmapl (build_term false) ts s) as [[args|] s1] eqn:E1; [|discriminate]. unfold bret in E. injection E as <- _.
    cbn [asl_repr ast_str]. now rewrite (HL _ Hts Hp _ _ _ E1).
  - destruct Hp as [P1 P2]. unfold bbind at 1 in E. destruct (build_term false h s) as [[h'|] s1] eqn:E1; [|discriminate].
    unfold bbind at 1 in E. destruct (build_term false t s1) as [[t'|] s2] eqn:E2; [|discriminate]. unfold bret in E. injection E as <- _.
    cbn [asl_repr ast_str]. now rewrite (IHh P1 _ _ _ E1), (IHt P2 _ _ _ E2).
  - unfold bbind at 1 in E. destruct (build_term false b s) as [[h'|] s1] eqn:E1; [|discriminate]. unfold bret in E. injection E as <- _.
    cbn [asl_repr ast_str]. now rewrite (IH Hp _ _ _ E1).
  - destruct Hp as [P1 P2]. unfold bbind at 1 in E. destruct (build_term false l s) as [[h'|] s1] eqn:E1; [|discriminate].
    unfold bbind at 1 in E. destruct (build_term false r s1) as [[t'|] s2] eqn:E2; [|discriminate]. unfold bret in E. injection E as <- _.
    cbn [asl_repr ast_str]. now rewrite (IHl P1 _ _ _ E1), (IHr P2 _ _ _ E2).
Qed.

Lemma built_literal t s x s' : literal_tree t = true -> build_term false t s = (Ok x, s') -> exists f args an, x = TLit f args an.
Proof.
  destruct t; try discriminate. intros _ E. cbn [build_term] in E. unfold bbind at 1 in E.
  destruct (bmapl (build_term false) terms s) as [[xs|] s1]; [|discriminate]. unfold bbind at 1 in E.
  destruct (bmapl (build_term false) annots s1) as [[ys|] s2]; [|discriminate]. unfold bret in E. injection E as <- _. eauto.
Qed.

Lemma qstr_plain (HPy : PyLawful PY) acts c : plain_condition c -> forall s q s', build_query acts c s = (Ok q, s') ->
  q <> QTrue /\ forall text, qstr q = Ok text -> text = ast_str c.
Proof.
  induction c as [b|x|s0|v|f ts an _ _|ts _|h t _ _|op b _|op l r IHl IHr] using ast_ind'; intros Hp s q s' E; cbn [plain_condition] in Hp; try contradiction.
  - cbn [build_query] in E. unfold bbind at 1 in E. destruct (build_term false (ALit f ts an) s) as [[x|] s1] eqn:E1; [|discriminate].
    pose proof (repr_plain HPy _ Hp _ _ _ E1) as R. destruct (built_literal (ALit f ts an) _ _ _ eq_refl E1) as (f' & a' & n' & ->).
    destruct (actions_lookup acts f (len ts)) as [ac|e].
    + unfold bret in E. injection E as <- _. split; [discriminate|]. cbn. discriminate.
    + unfold bbind at 1 in E. destruct ((if has_dot f then b_warn else bret tt) s1) as [[]s2]; [|discriminate].
      unfold bret in E. injection E as <- _. split; [discriminate|]. cbn [qstr py_str]. intros text T. injection T as <-. exact R.
  - assert (HB : forall (mk : query -> query -> query) o, (forall x y, mk x y <> QTrue) ->
        (forall x y, qstr (mk x y) = rbind (qstr x) (fun x => rbind (qstr y) (fun y => Ok (s2p "(" ++ x ++ s2p " " ++ binop_lex o ++ s2p " " ++ y ++ s2p ")")))) ->
        plain_condition l /\ plain_condition r -> bbind (build_query acts l) (fun x => bbind (build_query acts r) (fun y => bret (mk x y))) s = (Ok q, s') ->
        q <> QTrue /\ forall text, qstr q = Ok text -> text = ast_str (ABin o l r)).
    { intros mk o M1 M2 [P1 P2] E0. unfold bbind at 1 in E0. destruct (build_query acts l s) as [[x|] s1] eqn:E1; [|discriminate].
      unfold bbind at 1 in E0. destruct (build_query acts r s1) as [[y|] s2] eqn:E2; [|discriminate]. unfold bret in E0. injection E0 as <- _. split; [apply M1|].
      intros text T. rewrite M2 in T. destruct (IHl P1 _ _ _ E1) as [_ Ql]. destruct (IHr P2 _ _ _ E2) as [_ Qr].
      destruct (qstr x) as [tx|]; [|discriminate]. destruct (qstr y) as [ty|]; [|discriminate]. cbn [rbind] in T. injection T as <-.
      rewrite (Ql _ eq_refl), (Qr _ eq_refl). reflexivity. }
    assert (HC : is_comp op = true -> plain_term (ABin op l r) -> bbind (build_term false (ABin op l r)) (fun x => bret (QTerm x)) s = (Ok q, s') ->
        q <> QTrue /\ forall text, qstr q = Ok text -> text = ast_str (ABin op l r)).
    { intros _ P E0. unfold bbind at 1 in E0. destruct (build_term false (ABin op l r) s) as [[x|] s1] eqn:E1; [|discriminate]. unfold bret in E0. injection E0 as <- _.
      split; [discriminate|]. intros text T. cbn [qstr] in T. pose proof (repr_plain HPy _ P _ _ _ E1) as R. rewrite <- R.
      cbn [build_term] in E1. unfold bbind at 1 in E1. destruct (build_term false l s) as [[x1|] s2]; [|discriminate]. unfold bbind at 1 in E1.
      destruct (build_term false r s2) as [[x2|] s3]; [|discriminate]. unfold bret in E1. injection E1 as <- _. cbn [py_str] in T. injection T as <-. reflexivity. }
    destruct op; cbn [plain_condition] in Hp.
    + destruct Hp as [_ Hc]; discriminate Hc.
    + destruct Hp as (P & L1 & L2). cbn [build_query] in E. unfold bbind at 1 in E. destruct (build_term false l s) as [[x|] s1] eqn:E1; [|discriminate].
      unfold bbind at 1 in E. destruct (build_term false r s1) as [[y|] s2] eqn:E2; [|discriminate]. unfold bret in E. injection E as <- _. split; [discriminate|].
      destruct P as [P1 P2]. pose proof (repr_plain HPy _ P1 _ _ _ E1) as R1. pose proof (repr_plain HPy _ P2 _ _ _ E2) as R2.
      destruct (built_literal _ _ _ _ L1 E1) as (f1 & a1 & n1 & ->). destruct (built_literal _ _ _ _ L2 E2) as (f2 & a2 & n2 & ->).
      intros text T. cbn [qstr py_str rbind] in T. rewrite R1, R2 in T. injection T as <-. reflexivity.
    + destruct Hp as [_ Hc]; discriminate Hc.
    + apply HC; [reflexivity|apply Hp|exact E].
    + apply HC; [reflexivity|apply Hp|exact E].
    + apply HC; [reflexivity|apply Hp|exact E].
    + apply (HB QAnd BAnd); [discriminate|reflexivity|exact Hp|exact E].
    + apply (HB QOr BOr); [discriminate|reflexivity|exact Hp|exact E].
Qed.

Theorem sent_text p x : PyLawful PY -> hex_names -> readable_plan p -> plain_plan p -> loaded_from p x ->
  (ap_ctx p = None -> exists s, sent_as x s) /\
  forall s, sent_as x s -> exists N, forall n, (N <= n)%nat -> read_plan n s = Ok (always p).
Proof.
  intros HPy HX HR (P1 & P2 & P3 & P4 & P5) (acts & lg & k & lg' & k' & E).
  destruct (ap_body p) as [b|] eqn:Eb; [|congruence].
  assert (HA : readable_plan (always p)).
  { destruct HR as (H1 & H2 & H3 & H4). unfold always. split; [exact H1|]. split; [exact H2|]. split; [|rewrite Eb in *; exact H4]. cbn. unfold full_context. intros c [= <-].
    destruct (ap_ctx p); [now apply H3|exact I]. }
  pose proof (sp_always p HA b Eb _ stop_dot) as HS. apply told_text in HS as [N HN]; [|assumption].
  set (text := _ ++ event_str _ ++ _) in HN.
  unfold clause in E. destruct (build_plan acts p (mkbs [] k lg)) as [[y|] s1] eqn:Ep; [|discriminate]. injection E as -> _ _.
  unfold build_plan in Ep. unfold bbind at 1 in Ep. unfold build_lit in Ep. unfold bbind at 1 in Ep.
  destruct (bmapl (build_term false) (l_terms (ae_head (ap_event p))) (mkbs [] k lg)) as [[args|] s2] eqn:Et; [|discriminate].
  apply build_vars in Et as (vs & -> & HL); [|assumption|constructor].
  rewrite P2 in Ep. unfold bbind at 1 in Ep. cbn [bmapl] in Ep. unfold bret at 1 2 in Ep. rewrite Eb in Ep.
  unfold bbind at 1 in Ep.
  destruct (match ap_ctx p with Some t => build_query acts t | None => bret QTrue end s2) as [[cq|] s2'] eqn:Eq; [|discriminate].
  unfold bbind at 1 in Ep.
  destruct (compile_all acts b _ s2') as [[c|] s3] eqn:Ec; [|discriminate]. unfold bbind at 1 in Ep. cbn [annot_texts] in Ep. inversion Ep; subst x; clear Ep.
  assert (HQ : (ap_ctx p = None -> cq = QTrue) /\ forall tx, match cq with QTrue => Ok (s2p "true") | q => qstr q end = Ok tx -> tx = ast_str (full_context p)).
  { unfold full_context. destruct (ap_ctx p) as [cx|] eqn:Ex.
    - split; [discriminate|]. destruct (P5 _ eq_refl) as [->|Pc].
      + cbn in Eq. unfold bret in Eq. injection Eq as <- _. intros tx [= <-]. reflexivity.
      + destruct (qstr_plain HPy acts cx Pc _ _ _ Eq) as [Q1 Q2]. intros tx Tx. apply Q2. now destruct cq.
    - unfold bret in Eq. injection Eq as <- _. split; [reflexivity|]. intros tx [= <-]. reflexivity. }
  destruct HQ as [HQ0 HQ].
  destruct p as [an [tr gt [f ts ann]] cx bd]. cbn [ap_annot ap_event ap_ctx ap_body ae_head ae_trig ae_gt l_functor l_terms l_annots] in *. subst ann bd.
  unfold sent_as, plan_to_str, p_head. cbn [p_ctx p_hargs p_args p_label p_ltext p_btext p_trig p_gt p_functor p_hannots]. rewrite (mk_set_nil HPy), app_nil_r.
  set (ht := asl_repr (TLit f (map TVar vs) [])).
  assert (EH : exists names, match map TVar vs with [] => (Ok ht, map ast_str ts) | _ => sub_vars (S (len ht)) ht (map ast_str ts) end = (Ok (lit_str (mkalit f ts [])), names)).
  { destruct vs as [|v vs].
    - destruct ts; [|discriminate]. eexists. reflexivity.
    - assert (Et : ht = f ++ s2p "(" ++ joins (s2p ", ") (map vname (v :: vs)) ++ s2p ")").
      { unfold ht. cbn [asl_repr map]. rewrite app_nil_r. rewrite map_map. reflexivity. }
      destruct (sub_head HX f (v :: vs) (map ast_str ts) P3 ltac:(discriminate)) as [n E]; [now rewrite map_length|].
      rewrite <- Et in E. cbn [map]. exists []. rewrite (sub_enough n ht (map ast_str ts) _ E); [|discriminate|lia].
      destruct ts; [discriminate|]. unfold lit_str, lit_ast. cbn [ast_str l_functor l_terms l_annots]. now rewrite app_nil_r. }
  destruct EH as [names EH]. rewrite EH. cbn [fst rbind]. split.
  - intro Hn. rewrite (HQ0 Hn). eexists. reflexivity.
  - intros s Hs. exists N. intros n Hn. rewrite <- (HN n Hn). f_equal.
    match type of Hs with rbind ?m _ = _ => destruct m as [tx|] eqn:Etx; [|discriminate] end. cbn [rbind] in Hs. assert (Hi : forall (u v : pystr), Ok u = Ok v -> u = v) by (intros u v [=]; assumption). apply Hi in Hs. subst s.
    rewrite (HQ tx ltac:(destruct cq; exact Etx)). unfold text, event_str. cbn [ae_trig ae_gt ae_head].
    destruct an as [l|]; cbn [option_map]; rewrite <- ?app_assoc; reflexivity.
Qed.
End WithPy.

Section Copies.
Context {PY : Py}.
Lemma read_mono n n' s p : (n <= n')%nat -> read_plan n s = Ok p -> read_plan n' s = Ok p.
Proof.
  intros Hn E. unfold read_plan in *. destruct (tokenize 1 (string_source s)) as [items|]; [|discriminate].
  destruct (filter is_token items) as [|[tk|] rest]; try discriminate. destruct (_ || _ || _); [|discriminate].
  assert (X : fst (told_plan n tk (mkpst rest (log_new None) true)) = Ok p) by (destruct (fst _) as [|[]]; cbn in E; congruence).
  unfold told_plan, pbind in *. destruct (mle_plan n n' Hn tk (mkpst rest (log_new None) true)) as [Y|Y].
  - destruct (parse_plan n tk _) as [[]]; cbn in *; congruence.
  - rewrite Y. exact E.
Qed.

Theorem copy_plain m p x y : PyLawful PY -> hex_names -> readable_plan p -> plain_plan p -> loaded_from p x ->
  copy_of m x y -> built_from (always p) y.
Proof.
  intros H1 H2 H3 H4 H5 (s & q & E1 & E2 & E3). destruct (proj2 (sent_text p x H1 H2 H3 H4 H5) s E1) as [N HN].
  assert (X : read_plan (Nat.max m N) s = Ok (always p)) by (apply HN; lia).
  rewrite (read_mono m _ s q (Nat.le_max_l _ _) E2) in X. injection X as ->. exact E3.
Qed.

(** All plans are offered if there is at most one in each group. *)
Lemma offered_all s a W : (forall l, In l (plan_groups a W) -> (List.length (filter (asked_for s) l) <= 1)%nat) ->
  offered s a W = filter (asked_for s) (List.concat (plan_groups a W)).
Proof.
  unfold offered. induction (plan_groups a W) as [|l ls IH]; intro H; [reflexivity|]. cbn [flat_map List.concat]. rewrite filter_app, IH by (intros; apply H; now right).
  f_equal. specialize (H l (or_introl eq_refl)). destruct (filter (asked_for s) l) as [|x [|y r]]; cbn in *; try reflexivity. lia.
Qed.
End Copies.
