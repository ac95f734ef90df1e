From Coq Require Import Lia.
From Verif Require Import Base Num Term Unify Str World Engine Ast Names Quote Lex LexSpec LexFacts Parse Fold Build Front RoundSpec GramSpec GramTok GramSound GramComp GramCor SrcSpec Program Closed Counts SrcQuiet SrcVal FoldCor ScopeSpec ScopeFacts WaitSpec.

Lemma items_lexed s items : tokenize 1 (string_source s) = Ok items -> Forall lexed (tokens_of items).
Proof.
  intros E. apply Forall_forall. intros t Ht. exists 1%nat, (string_source s), items. split; [exact E|].
  unfold tokens_of in Ht. apply in_flat_map in Ht as ([u|c a b] & Hi & Hu); cbn in Hu; [|easy]. destruct Hu as [->|[]]. exact Hi.
Qed.
Lemma tokens_map l rest : tokens_of (map ITok l ++ rest) = l ++ tokens_of rest.
Proof. induction l as [|t l IH]; [reflexivity|]. cbn. now f_equal. Qed.
Lemma filter_tokens items : filter is_token items = map ITok (tokens_of items).
Proof. induction items as [|[t|c a b] l IH]; [reflexivity|cbn; f_equal; exact IH|exact IH]. Qed.
Lemma tokens_of_map l : tokens_of (map ITok l) = l.
Proof. rewrite <- (app_nil_r (map ITok l)), tokens_map. cbn. apply app_nil_r. Qed.

(** ** Plans *)
Lemma no_stop_ok {A} (r : res A) x : no_stop r = Ok x -> r = Ok x.
Proof. destruct r as [y|e]; [auto|]. destruct e; discriminate. Qed.
Lemma no_stop_not {A} (r : res A) : no_stop r <> Err EStopIter.
Proof. destruct r as [y|e]; [discriminate|]. destruct e; discriminate. Qed.

Lemma plan_first l p : plan_of l p -> exists t l', l = t :: l' /\ (the "@" t \/ the "+" t \/ the "-" t).
Proof.
  intros [a an b e c ctx d bd Ha Hb Hc Hd]. inversion Ha; subst; [|eexists _, _; split; [reflexivity|now left]].
  cbn [app]. assert (T : forall s tr o, In (s, tr) triggers -> the s o -> the "@" o \/ the "+" o \/ the "-" o).
  { intros s tr o [X|[X|[]]] Ho; injection X as <- <-; auto. }
  inversion Hb; subst; (eexists _, _; split; [reflexivity|eapply T; eassumption]).
Qed.

Theorem read_only_plans n s p : read_plan n s = Ok p -> plan_text s p.
Proof.
  unfold read_plan. destruct (tokenize 1 (string_source s)) as [items|] eqn:E; [|discriminate]. rewrite filter_tokens.
  pose proof (items_lexed _ _ E) as L. unfold plan_text. destruct (tokens_of items) as [|tk rest] eqn:Et; [discriminate|]. cbn [map].
  destruct (is_lex tk "@" || is_lex tk "+" || is_lex tk "-"); [|discriminate]. intro H. apply no_stop_ok in H.
  destruct (told_plan n tk _) as [r s'] eqn:Ep. cbn in H. subst r. unfold told_plan in Ep.
  apply GramSound.bind_ok in Ep as ([tk' q] & s1 & E1 & E2). destruct (is_lex tk' ".") eqn:Ed; [|now apply raise_not in E2].
  injection E2 as -> <-. apply plan_sound in E1 as (l & El & Hp).
  2:{ unfold toks. cbn [p_items]. rewrite tokens_of_map. now apply fits. }
  unfold toks in El. cbn [p_items] in El. rewrite tokens_of_map in El.
  exists items, l, tk', (tokens_of (p_items s1)). split; [exact E|]. split; [congruence|]. split; [exact Hp|]. now apply is_lex_the.
Qed.
Theorem read_all_plans s p : plan_text s p -> exists N, forall n, (N <= n)%nat -> read_plan n s = Ok p.
Proof.
  intros (items & ts & d & rest & E & Et & Hp & Hd). pose proof (items_lexed _ _ E) as L. rewrite Et in L.
  apply fits in L. apply Forall_app in L as [L1 L2]. inversion L2; subst.
  destruct (plan_read ts p Hp L1) as (N & R). exists N. intros n Hn. unfold read_plan. rewrite E, filter_tokens, Et.
  destruct (plan_first _ _ Hp) as (t & l' & -> & Hf). cbn [app map].
  assert (X : is_lex t "@" || is_lex t "+" || is_lex t "-" = true).
  { rewrite !Bool.orb_true_iff. destruct Hf as [Hf|[Hf|Hf]]; apply is_lex_the in Hf; auto. }
  rewrite X. unfold told_plan. rewrite map_app. cbn [map].
  rewrite (first_reads (parse_plan n) t l' p d) by (apply R; assumption).
  apply is_lex_the in Hd. cbv beta iota. rewrite Hd. reflexivity.
Qed.
Theorem read_errors n s items : tokenize 1 (string_source s) = Ok items ->
  (tokens_of items = [] -> read_plan n s = Err EIndex) /\
  (forall t rest, tokens_of items = t :: rest -> ~ the "@" t -> ~ the "+" t -> ~ the "-" t -> read_plan n s = Err EName).
Proof.
  intros E. unfold read_plan. rewrite E, filter_tokens. split; [intros ->; reflexivity|]. intros t rest -> H1 H2 H3. cbn [map].
  assert (X : is_lex t "@" || is_lex t "+" || is_lex t "-" = false).
  { destruct (is_lex t "@") eqn:E1; [now apply is_lex_the in E1|]. destruct (is_lex t "+") eqn:E2; [now apply is_lex_the in E2|].
    destruct (is_lex t "-") eqn:E3; [now apply is_lex_the in E3|]. reflexivity. }
  now rewrite X.
Qed.

(** ** Events *)
Section WithPy.
Context {PY : Py} (L : PyLawful PY).

Lemma clean_event n tk : clean (parse_event n tk).
Proof. apply (closed_event (@clean)); by_clean. Qed.
Lemma blind_event e : blind (fold_event e).
Proof. unfold fold_event. apply blind_bind; [apply blind_lit|]. intro. apply blind_ret. Qed.
Lemma clean_fold_event e : clean (fold_event e).
Proof. unfold fold_event. apply clean_bind; [apply (closed_fold_lit (@clean)); by_clean|]. intro. apply clean_ret. Qed.
Lemma event_runs e e' : runs (fold_event e) e' <-> ae_trig e' = ae_trig e /\ ae_gt e' = ae_gt e /\ folded_lit (ae_head e) (ae_head e').
Proof.
  unfold fold_event. rewrite runs_bind; [|apply blind_lit|intro; apply blind_ret]. split.
  - intros (h & H1 & H2). apply runs_ret in H2 as ->. cbn. split; [reflexivity|]. split; [reflexivity|]. now apply folded_lit_runs.
  - intros (H1 & H2 & H3). exists (ae_head e'). split; [now apply folded_lit_runs|]. apply runs_ret. destruct e' as [tr gt h]. cbn in *. congruence.
Qed.
Lemma has_op_plain l : has_op (lit_ast l) = false <-> plain_lit l.
Proof.
  assert (G : forall t, has_op t = false <-> plain t).
  { assert (GL : forall ts, Forall (fun t => has_op t = false <-> plain t) ts -> (existsb has_op ts = false <-> Forall plain ts)).
    { induction 1 as [|t ts Ht _ IH]; cbn; [split; [constructor|reflexivity]|]. rewrite Bool.orb_false_iff, Ht, IH. split; [intros (A & B); now constructor|intro X; inversion X; auto]. }
    induction t as [b|x|s|v|f ts an IHt IHa|ts IHt|h t IHh IHt|op a IHa|op l0 r IHl IHr] using ast_ind'; cbn [has_op];
      try (split; [constructor|reflexivity]; fail).
    - rewrite Bool.orb_false_iff, (GL _ IHt), (GL _ IHa). split; [intros (A & B); now constructor|intro X; inversion X; auto].
    - rewrite (GL _ IHt). split; [now constructor|intro X; inversion X; auto].
    - rewrite Bool.orb_false_iff, IHh, IHt. split; [intros (A & B); now constructor|intro X; inversion X; auto].
    - split; [discriminate|intro X; inversion X].
    - split; [discriminate|intro X; inversion X]. }
  rewrite G. unfold lit_ast, plain_lit. split; [intro X; inversion X; auto|intros (A & B); now constructor].
Qed.

(** No error has been reported if there is a result. *)
Lemma silent {A} (m : P A) items own x s' : counts m -> m (mkpst items (log_new (Some 1%nat)) own) = (Ok x, s') -> errs s' = 0%nat.
Proof.
  intros C E. specialize (C (mkpst items (log_new (Some 1%nat)) own)). rewrite E in C. destruct C as (_ & _ & C).
  destruct (C 1%nat eq_refl) as (C1 & C2); [cbn; lia|]. cbn [fst snd] in *. destruct (errs s') as [|[|k]] eqn:Es; [reflexivity| |lia].
  discriminate (C2 eq_refl).
Qed.
Lemma clean_awaited n : clean (awaited n).
Proof.
  unfold awaited. apply clean_bind; [apply clean_next|]. intro tk. apply clean_bind; [apply clean_event|]. intros [tk' e].
  destruct (is_lex tk' "."); [apply clean_fold_event|apply clean_raise].
Qed.

Lemma awaited_only n items e' s' : Forall lexed (tokens_of items) -> awaited n (mkpst items (log_new (Some 1%nat)) true) = (Ok e', s') ->
  exists ts d rest e, items = map ITok (ts ++ [d]) ++ rest /\ event_of ts e /\ the "." d /\ ae_trig e' = ae_trig e /\ ae_gt e' = ae_gt e /\
    folded_lit (ae_head e) (ae_head e').
Proof.
  intros F E. pose proof (silent _ _ _ _ _ (proj1 (clean_awaited n)) E) as Es.
  destruct (proj2 (clean_awaited n) _ _ _ E Es) as ((l & El) & _). cbn [p_items] in El.
  unfold awaited in E. apply GramSound.bind_ok in E as (tk & s1 & E1 & E). apply GramSound.bind_ok in E as ([tk' e] & s2 & E2 & E).
  destruct (is_lex tk' ".") eqn:Ed; [|now apply raise_not in E]. pose proof (next_ok _ _ _ E1) as N1. unfold toks at 1 in N1. cbn [p_items] in N1.
  assert (F1 : Forall fit (tk :: toks s1)) by (rewrite <- N1; now apply fits).
  destruct (event_sound n _ _ _ _ _ F1 E2) as (ts & Ets & He). rewrite Ets in N1.
  pose proof (counts_le _ _ _ _ (proj1 (blind_event e)) E) as C3.
  destruct (proj2 (blind_event e) _ _ _ E) as (I & _ & R); [lia|].
  assert (T : toks s2 = tokens_of (p_items s')) by (unfold toks; now rewrite I).
  exists ts, tk', (p_items s'), e. split.
  - rewrite El. f_equal. f_equal. rewrite El, tokens_map, T in N1. change (tk' :: tokens_of (p_items s')) with ([tk'] ++ tokens_of (p_items s')) in N1.
    rewrite app_assoc in N1. now apply app_inv_tail in N1.
  - split; [exact He|]. split; [now apply is_lex_the|]. apply event_runs. exact R.
Qed.
Lemma awaited_all ts d rest e e' : Forall lexed (ts ++ [d]) -> event_of ts e -> the "." d -> ae_trig e' = ae_trig e -> ae_gt e' = ae_gt e ->
  folded_lit (ae_head e) (ae_head e') -> exists N, forall n lg, (N <= n)%nat -> exists lg',
    awaited n (mkpst (map ITok (ts ++ [d]) ++ rest) lg true) = (Ok e', mkpst rest lg' true) /\ lg_errors lg' = lg_errors lg.
Proof.
  intros F He Hd H1 H2 H3. apply fits in F. apply Forall_app in F as [F1 F2]. inversion F2; subst.
  destruct (event_read ts e He F1) as (N & R). exists N. intros n lg Hn. unfold awaited.
  rewrite map_app, <- app_assoc. cbn [map app].
  rewrite (then_reads (parse_event n) ts e d); [|apply R; [exact Hn|assumption|apply (the_stops "."); [exact Hd|reflexivity]]].
  cbv beta iota. apply is_lex_the in Hd. rewrite Hd.
  assert (X : runs (fold_event e) e') by (apply event_runs; auto). apply X.
Qed.

Theorem event_only n s k ev k' : text_event n s k = Ok (ev, k') -> exists e, event_text s e /\ names_event k k' e ev.
Proof.
  unfold text_event. destruct (tokenize 1 (string_source s)) as [items|] eqn:E; [|discriminate].
  destruct (awaited n _) as [[e|x] s'] eqn:Ea; [|intro H; apply no_stop_ok in H; discriminate].
  destruct (awaited_only _ _ _ _ (items_lexed _ _ E) Ea) as (ts & d & rest & e0 & -> & He & Hd & H1 & H2 & H3).
  destruct (clause (build_event e) (p_log s') k) as [[[y|x] lg] k1] eqn:Ec; [|discriminate]. intro H. injection H as -> ->.
  unfold build_event in Ec. destruct (has_op (lit_ast (ae_head e))) eqn:Eo.
  { unfold clause, b_raise in Ec. destruct (log_error _). discriminate. }
  exists e. split.
  - exists ts, d, rest, e0. rewrite has_op_plain in Eo. auto 10.
  - unfold clause, bbind in Ec. destruct (build_lit (ae_head e) _) as [[[[f us] ws]|x] s1] eqn:El; [|discriminate].
    unfold bret in Ec. injection Ec as <- _ <-.
    destruct (head_stands L (ae_head e) (p_log s') k f us ws (v_log s1) (v_nv s1)) as (K & env & Fr & St).
    { unfold clause. now rewrite El. }
    split; [reflexivity|]. split; [reflexivity|]. split; [exact K|]. exists env. auto.
Qed.
Lemma lit_built l : forall b, exists h b', build_lit l b = (Ok h, b').
Proof.
  intro b. destruct (build_total (lit_ast l) false b) as (x & b1 & E). unfold lit_ast in E. cbn [build_term] in E. unfold build_lit.
  unfold bbind in *. destruct (bmapl _ (l_terms l) b) as [[us|e] s1]; [|discriminate]. destruct (bmapl _ (l_annots l) s1) as [[vs|e] s2]; [|discriminate].
  eexists _, _. reflexivity.
Qed.
Theorem event_all s e : event_text s e -> exists N, forall n k, (N <= n)%nat -> exists ev k', text_event n s k = Ok (ev, k') /\ names_event k k' e ev.
Proof.
  intros (ts & d & rest & e0 & E & He & Hd & H1 & H2 & H3 & H4). pose proof (items_lexed _ _ E) as F. rewrite tokens_map in F. apply Forall_app in F as [F _].
  destruct (awaited_all ts d rest e0 e F He Hd H1 H2 H3) as (N & R). exists N. intros n k Hn.
  assert (X : exists ev k', text_event n s k = Ok (ev, k')).
  { unfold text_event. rewrite E. destruct (R n (log_new (Some 1%nat)) Hn) as (lg' & Ea & _). rewrite Ea.
    unfold build_event. apply has_op_plain in H4. rewrite H4. unfold clause, bbind. destruct (lit_built (ae_head e) (mkbs [] k (p_log (mkpst rest lg' true)))) as ([[f us] ws] & b' & El).
    rewrite El. eexists _, _. reflexivity. }
  destruct X as (ev & k' & X). exists ev, k'. split; [exact X|]. destruct (event_only n s k ev k' X) as (e2 & Ht & Hn2).
  (* the event that is read is e *)
  destruct Ht as (ts2 & d2 & rest2 & e3 & E' & G1 & G2 & G3 & G4 & G5 & _).
  pose proof (items_lexed _ _ E') as F2. rewrite tokens_map in F2. apply Forall_app in F2 as [F2 _].
  destruct (awaited_all ts2 d2 rest2 e3 e2 F2 G1 G2 G3 G4 G5) as (N2 & R2).
  destruct (R (N + N2)%nat (log_new None)) as (lg1 & A1 & _); [lia|]. destruct (R2 (N + N2)%nat (log_new None)) as (lg2 & A2 & _); [lia|].
  assert (map ITok (ts ++ [d]) ++ rest = map ITok (ts2 ++ [d2]) ++ rest2) by congruence. rewrite H in A1. rewrite A1 in A2. injection A2 as ->. exact Hn2.
Qed.
Theorem event_once s e e' : event_text s e -> event_text s e' -> e = e'.
Proof.
  intros (ts & d & rest & e0 & E & He & Hd & H1 & H2 & H3 & _) (ts2 & d2 & rest2 & e3 & E' & G1 & G2 & G3 & G4 & G5 & _).
  pose proof (items_lexed _ _ E) as F. rewrite tokens_map in F. apply Forall_app in F as [F _].
  pose proof (items_lexed _ _ E') as F2. rewrite tokens_map in F2. apply Forall_app in F2 as [F2 _].
  destruct (awaited_all _ _ rest _ _ F He Hd H1 H2 H3) as (N & R). destruct (awaited_all _ _ rest2 _ _ F2 G1 G2 G3 G4 G5) as (N2 & R2).
  destruct (R (N + N2)%nat (log_new None)) as (lg1 & A1 & _); [lia|]. destruct (R2 (N + N2)%nat (log_new None)) as (lg2 & A2 & _); [lia|].
  assert (Q : map ITok (ts ++ [d]) ++ rest = map ITok (ts2 ++ [d2]) ++ rest2) by congruence. rewrite Q in A1. congruence.
Qed.
Theorem event_stop n s k items : tokenize 1 (string_source s) = Ok items -> text_event n s k <> Err EStopIter.
Proof.
  intros E. unfold text_event. rewrite E. destruct (awaited n _) as [[e|x] s']; [|apply no_stop_not].
  unfold build_event. destruct (has_op _).
  - unfold clause, b_raise. destruct (log_error _) as [[y|x] lg] eqn:El; [|]; cbn [fst snd v_log v_nv]; try discriminate.
  - unfold clause, bbind. destruct (lit_built (ae_head e) (mkbs [] k (p_log s'))) as ([[f us] ws] & b' & El). rewrite El. discriminate.
Qed.
End WithPy.
Theorem plan_stop n s items : tokenize 1 (string_source s) = Ok items -> read_plan n s <> Err EStopIter.
Proof.
  intros E. unfold read_plan. rewrite E. destruct (filter is_token items) as [|[t|c a b] l]; try discriminate.
  destruct (_ || _); [apply no_stop_not|discriminate].
Qed.

(** ** What a plan keeps for printing *)
Lemma texts_are {PY : Py} l r : annot_texts l = Ok r -> exists m, annot_args l m /\ r = map ast_str m.
Proof.
  revert r. induction l as [|t l IH]; intros r E; [injection E as <-; exists []; now split; [constructor|]|].
  destruct t; try discriminate; cbn [annot_texts] in E; (destruct (annot_texts l) as [r'|]; [|discriminate]); cbn in E; injection E as <-;
    destruct (IH r' eq_refl) as (m & H & ->); eexists; (split; [constructor; exact H|now rewrite map_app]).
Qed.
Theorem plan_keeps {PY : Py} acts p lg k x lg' k' : clause (build_plan acts p) lg k = (Ok x, lg', k') ->
  (exists more, annot_args (l_annots (ae_head (ap_event p))) more /\ p_args x = map ast_str (l_terms (ae_head (ap_event p)) ++ more)) /\
  match ap_annot p with Some l => p_label x = Some (l_functor l) /\ p_ltext x = lit_str l | None => p_label x = None end /\
  p_btext x = match ap_body p with Some b => body_str b | None => s2p "None" end.
Proof.
  unfold clause. intros E. destruct (build_plan acts p (mkbs [] k lg)) as [r s] eqn:E1. injection E as -> <- <-.
  unfold build_plan in E1. unfold bbind at 1 in E1.
  destruct (build_lit (ae_head (ap_event p)) _) as [[[[f args] annots]|e] s1]; [|discriminate].
  unfold bbind at 1 in E1.
  destruct (match ap_ctx p with Some t => build_query acts t | None => bret QTrue end s1) as [[ctx|e] s2]; [|discriminate].
  unfold bbind at 1 in E1.
  destruct (match ap_body p with Some b => compile_all acts b _ | None => _ end s2) as [[c|e] s3]; [|discriminate].
  unfold bbind at 1 in E1. destruct (annot_texts _) as [texts|e] eqn:Et; [|discriminate]. unfold bret in E1. injection E1 as <- <-. cbn [p_args p_label p_ltext p_btext].
  split; [|split; [destruct (ap_annot p); [split|]; reflexivity|reflexivity]].
  destruct (texts_are _ _ Et) as (m & Hm & ->). exists m. split; [exact Hm|now rewrite map_app].
Qed.
