(** Conditions built from a text and from the folded text (C34). *)
From Verif Require Import Base Num Term Unify PyEq TrailFacts FuelFacts Str World Ast Names Engine Build Lex Parse Fold Counts FoldSpec FoldSem FoldCor QuerySpec QueryComplete QueryCor FoldQuery.

Section WithPy.
Context {PY : Py}.

Ltac qb Q x p1 Q1 := apply quiet_bind in Q as (x & p1 & Q1 & Q);
  [|repeat first [progress intros|apply counts_fold|apply counts_fold_comp|apply counts_mapl; intros; apply counts_fold|cstep]..].

Definition qbuilds (acts : actions act) (t t' : ast) : Prop := forall b q b1, build_query acts t b = (Ok q, b1) ->
  exists q', build_query acts t' b = (Ok q', b1) /\ qfolds q q'.

Lemma qbuilds_bool acts t b : qbuilds acts t (ABool b) -> forall s q s1, build_query acts t s = (Ok q, s1) -> s1 = s /\ qfolds q (qb b).
Proof.
  intros H s q s1 E. destruct (H s q s1 E) as (q' & E' & F).
  destruct b; cbn in E'; unfold bret in E'; injection E' as <- <-; auto.
Qed.

Lemma comp_builds acts op l r t' : is_comp op = true -> builds (ABin op l r) t' ->
  ((exists l' r', t' = ABin op l' r') \/ exists b, t' = ABool b) -> qbuilds acts (ABin op l r) t'.
Proof.
  intros C B Sh b q b1 E.
  assert (Q : forall l r s, build_query acts (ABin op l r) s = (x <- build_term false (ABin op l r) ;; bret (QTerm x))%B s).
  { intros l0 r0 s. destruct op; try discriminate C; reflexivity. }
  rewrite Q in E. unfold bbind in E. destruct (B b) as (x & x' & b2 & E1 & E2 & F).
  rewrite E1 in E. unfold bret in E. injection E as <- <-.
  destruct Sh as [(l' & r' & ->)|[bo ->]].
  - rewrite Q. unfold bbind. rewrite E2. unfold bret. eexists. split; [reflexivity|]. now apply q_term.
  - cbn in E2. unfold bret in E2. injection E2 as <- <-. exists (qb bo). split; [now destruct bo|]. now apply q_termc.
Qed.

Lemma fold_comp_shape op l r p t' p' : quiet (fold_comp op l r) p t' p' -> (exists l' r', t' = ABin op l' r') \/ exists b, t' = ABool b.
Proof.
  unfold fold_comp. intros Q. destruct (const l) as [c|]; [|apply quiet_ret in Q as [<- _]; eauto].
  destruct (const r) as [d|]; [|destruct c; apply quiet_ret in Q as [<- _]; eauto].
  assert (K : quiet (match eval_binop op c d with Ok (TBool b) => pret (ABool b) | Ok _ => pret (ABin op l r) | Err e => pfail e end) p t' p' ->
    (exists l' r', t' = ABin op l' r') \/ exists b, t' = ABool b).
  { clear Q. intros Q. destruct (eval_binop op c d) as [v|e]; [|now apply quiet_fail in Q]. destruct v; apply quiet_ret in Q as [<- _]; eauto. }
  destruct c, d; auto; apply quiet_ret in Q as [<- _]; eauto.
Qed.

Lemma fold_query acts t : plain_annots t = true -> no_double t -> forall p t' p', quiet (fold MLog t) p t' p' -> qbuilds acts t t'.
Proof.
  induction t as [b|x|s|v|f ts an Hts Han|ts Hts|h t IHh IHt|op a IH|op l r IHl IHr] using ast_ind'; intros Pl Si p t' p' Q;
    pose proof (fold_builds _ Pl _ _ _ _ Q) as B; cbn [fold] in Q.
  - qb Q u p1 Q1. apply quiet_ret in Q as [<- _]. intros s q b1 E. exists q. split; [exact E|].
    destruct b; cbn in E; unfold bret in E; injection E as <- _; constructor.
  - now apply quiet_error in Q; [|cstep].
  - now apply quiet_error in Q; [|cstep].
  - destruct v; [now apply quiet_fail in Q|]. apply quiet_ret in Q as [<- _]. intros s q b1 E. exists q. split; [exact E|].
    cbn [build_query] in E. unfold bbind in E. destruct (build_term false _ s) as [[x|] s1]; [|discriminate]. unfold bret in E. injection E as <- _.
    apply q_term, f_refl.
  - qb Q ts' p1 Q1. qb Q an' p2 Q2. apply quiet_ret in Q as [<- _].
    assert (L : List.length ts' = List.length ts).
    { apply quiet_mapl in Q1; [|intros; apply counts_fold]. symmetry. clear - Q1. induction Q1; cbn; congruence. }
    intros s q b1 E. cbn [build_query] in *. unfold bbind in *. rewrite L. destruct (B s) as (x & x' & s1 & E1 & E2 & F).
    rewrite E1 in E. rewrite E2. destruct (actions_lookup acts f (List.length ts)) as [ac|e].
    + unfold bret in E. injection E as <- <-. eexists. split; [reflexivity|]. now apply q_act.
    + destruct ((if has_dot f then b_warn else bret tt) s1) as [[u|e2] s2]; [|discriminate]. unfold bret in E. injection E as <- <-.
      eexists. split; [reflexivity|]. now apply q_term.
  - now apply quiet_error in Q; [|cstep].
  - now apply quiet_fail in Q.
  - cbn in Pl. destruct op; cbn [unop_mode] in Q; try (now apply quiet_error in Q; [|cstep]).
    cbn in Si. qb Q a' p1 Q1. specialize (IH Pl Si _ _ _ Q1).
    assert (C : t' = AUn UNot a' \/ exists b, a' = ABool b /\ t' = ABool (negb b)).
    { destruct a'; apply quiet_ret in Q as [<- _]; eauto. }
    intros s q b1 E. cbn [build_query] in E. unfold bbind in E. destruct (build_query acts a s) as [[q0|e] s1] eqn:E0; [|discriminate].
    unfold bret in E. injection E as <- <-. destruct C as [->|(b & -> & ->)].
    + destruct (IH _ _ _ E0) as (q' & E' & F). cbn [build_query]. unfold bbind. rewrite E'. unfold bret. eexists. split; [reflexivity|]. now apply q_not.
    + destruct (qbuilds_bool _ _ _ IH _ _ _ E0) as [-> F]. exists (qb (negb b)). split; [now destruct b|]. now apply q_notc.
  - assert (Pb := Pl). cbn in Pl. apply andb_prop in Pl as [P1 P2].
    assert (Cmp : forall o, o = op -> is_comp o = true -> quiet (l' <- fold MTerm l ;; r' <- fold MTerm r ;; fold_comp o l' r')%P p t' p' -> qbuilds acts (ABin op l r) t').
    { intros o -> Co Q0. qb Q0 l' p1 Q1. qb Q0 r' p2 Q2. apply comp_builds; auto. eauto using fold_comp_shape. }
    destruct op; cbn [binop_mode] in Q; try (now apply quiet_error in Q; [|cstep]); eauto.
    + (* = *)
      qb Q l' p1 Q1. qb Q r' p2 Q2. apply quiet_ret in Q as [<- _].
      pose proof (fold_builds _ P1 _ _ _ _ Q1) as B1. pose proof (fold_builds _ P2 _ _ _ _ Q2) as B2.
      intros s q b1 E. cbn [build_query] in *. unfold bbind in *.
      destruct (B1 s) as (x & x' & s1 & E1 & E2 & F1). rewrite E1 in E. rewrite E2.
      destruct (B2 s1) as (y & y' & s2 & E3 & E4 & F2). rewrite E3 in E. rewrite E4. unfold bret in *. injection E as <- <-.
      eexists. split; [reflexivity|]. now apply q_unify.
    + (* =.. *)
      qb Q l' p1 Q1. qb Q r' p2 Q2. apply quiet_ret in Q as [<- _].
      intros s q b1 E. cbn [build_query is_comp] in *. unfold bbind at 1 in E. unfold bbind at 1. destruct (b_error s) as [[u|e] s0]; [|discriminate].
      unfold bbind at 1 in E. unfold bbind at 1. destruct (B s0) as (x & x' & s1 & E1 & E2 & F). rewrite E1 in E. rewrite E2.
      unfold bret in *. injection E as <- <-. eexists. split; [reflexivity|]. now apply q_term.
    + (* & *)
      cbn in Si. destruct Si as [S1 S2]. qb Q l' p1 Q1. qb Q r' p2 Q2. specialize (IHl P1 S1 _ _ _ Q1). specialize (IHr P2 S2 _ _ _ Q2).
      assert (C : t' = ABin BAnd l' r' \/ exists x y, l' = ABool x /\ r' = ABool y /\ t' = ABool (x && y)).
      { destruct l'; try (apply quiet_ret in Q as [<- _]; auto). destruct r'; apply quiet_ret in Q as [<- _]; eauto 6. }
      intros s q b1 E. cbn [build_query] in E. unfold bbind in E. destruct (build_query acts l s) as [[q0|e] s1] eqn:E0; [|discriminate].
      destruct (build_query acts r s1) as [[q1|e] s2] eqn:E1; [|discriminate]. unfold bret in E. injection E as <- <-.
      destruct C as [->|(x & y & -> & -> & ->)].
      * destruct (IHl _ _ _ E0) as (q0' & E0' & F0). destruct (IHr _ _ _ E1) as (q1' & E1' & F1).
        cbn [build_query]. unfold bbind. rewrite E0', E1'. unfold bret. eexists. split; [reflexivity|]. now apply q_and.
      * destruct (qbuilds_bool _ _ _ IHl _ _ _ E0) as [-> F0]. destruct (qbuilds_bool _ _ _ IHr _ _ _ E1) as [-> F1].
        exists (qb (x && y)). split; [now destruct (x && y)|]. now apply q_andc.
    + (* | *)
      cbn in Si. destruct Si as (S1 & S2 & S3). qb Q l' p1 Q1. qb Q r' p2 Q2. specialize (IHl P1 S1 _ _ _ Q1). specialize (IHr P2 S2 _ _ _ Q2).
      assert (C : t' = ABin BOr l' r' \/ exists x y, l' = ABool x /\ r' = ABool y /\ t' = ABool (x || y)).
      { destruct l'; try (apply quiet_ret in Q as [<- _]; auto). destruct r'; apply quiet_ret in Q as [<- _]; eauto 6. }
      intros s q b1 E. cbn [build_query] in E. unfold bbind in E. destruct (build_query acts l s) as [[q0|e] s1] eqn:E0; [|discriminate].
      destruct (build_query acts r s1) as [[q1|e] s2] eqn:E1; [|discriminate]. unfold bret in E. injection E as <- <-.
      destruct C as [->|(x & y & -> & -> & ->)].
      * destruct (IHl _ _ _ E0) as (q0' & E0' & F0). destruct (IHr _ _ _ E1) as (q1' & E1' & F1).
        cbn [build_query]. unfold bbind. rewrite E0', E1'. unfold bret. eexists. split; [reflexivity|]. now apply q_or.
      * destruct (qbuilds_bool _ _ _ IHl _ _ _ E0) as [-> F0]. destruct (qbuilds_bool _ _ _ IHr _ _ _ E1) as [-> F1].
        assert (N : x && y = false).
        { destruct x, y; try reflexivity. exfalso. apply S3. split; [exists p, p1; apply Q1|exists p1, p2; apply Q2]. }
        exists (qb (x || y)). split; [now destruct (x || y)|]. now apply q_orc.
Qed.

Lemma qfolds_refl q : qfolds q q.
Proof. induction q; constructor; auto using f_refl. Qed.
Lemma fold_lit_ast l p l' p' : quiet (fold_lit l) p l' p' -> quiet (fold MTerm (lit_ast l)) p (lit_ast l') p'.
Proof.
  intros [E Q]. split; [|exact Q]. unfold fold_lit, lit_ast in *. cbn [fold]. unfold pbind in *.
  destruct (pmapl (fold MTerm) (l_terms l) p) as [[ts|e] p1]; [|discriminate].
  destruct (pmapl (fold MTerm) (l_annots l) p1) as [[an|e] p2]; [|discriminate].
  unfold pret in *. injection E as <- <-. reflexivity.
Qed.
Lemma build_lit_term l b : build_term false (lit_ast l) b =
  match build_lit l b with (Ok (f, args, an), b1) => (Ok (TLit f args an), b1) | (Err e, b1) => (Err e, b1) end.
Proof.
  unfold build_lit, lit_ast. cbn [build_term]. unfold bbind. destruct (bmapl _ (l_terms l) b) as [[xs|e] b1]; [|reflexivity].
  destruct (bmapl _ (l_annots l) b1) as [[ys|e] b2]; reflexivity.
Qed.

Lemma folded_rfolds acts r r' : folded_rule acts r r' -> rfolds r r'.
Proof.
  intros (a & p & a' & p' & b & b1 & b2 & E & Q & Ph & Pc & Si & Er & Er').
  assert (Qr : quiet (fold_rule a) p a' p') by (split; assumption). unfold fold_rule in Qr.
  apply quiet_bind in Qr as (h' & p1 & Q1 & Qr); [|unfold fold_lit; repeat first [progress intros|apply counts_fold|apply counts_mapl; intros; apply counts_fold|cstep]..].
  qb Qr c' p2 Q2. apply quiet_ret in Qr as [<- _].
  apply fold_lit_ast in Q1. pose proof (fold_builds _ Ph _ _ _ _ Q1) as B. pose proof (fold_query acts _ Pc Si _ _ _ Q2) as C.
  unfold build_rule in *. cbn [ar_head ar_cons] in *. unfold bbind in *.
  destruct (B b) as (x & x' & b3 & E1 & E2 & F). rewrite build_lit_term in E1, E2.
  destruct (build_lit (ar_head a) b) as [[[[f args] an]|e] b4]; [|discriminate].
  destruct (build_lit h' b) as [[[[f' args'] an']|e] b5]; [|discriminate].
  assert (b4 = b3) by congruence. assert (b5 = b3) by congruence. subst b4 b5.
  destruct (build_query acts (ar_cons a) b3) as [[q|e] b6] eqn:Eq; [|discriminate].
  destruct (C _ _ _ Eq) as (q' & Eq' & Fq). rewrite Eq' in Er'. unfold bret in *.
  assert (Hr : r = mkrule (TLit f args an) q) by congruence. assert (Hr' : r' = mkrule (TLit f' args' an') q') by congruence. subst r r'.
  split; [|exact Fq]. cbn. congruence.
Qed.

Theorem fold_condition acts t p t' p' : fold MLog t p = (Ok t', p') -> lg_errors (p_log p') = lg_errors (p_log p) ->
  plain_annots t = true -> no_double t -> forall b q b1, build_query acts t b = (Ok q, b1) ->
  exists q', build_query acts t' b = (Ok q', b1) /\
  forall FR (quiet : bool) a i st W W' c l o, proper quiet q = true -> proper quiet q' = true ->
    proper_db quiet (db_of a W) -> proper_db quiet (db_of a W') -> (quiet = true -> Forall (fun p => fst p = []) c) ->
    folded_rules acts (db_of a W) (db_of a W') -> w_nv W' = w_nv W -> o <> Raised ERecursion ->
    (exists n0, forall n, (n0 <= n)%nat -> fst (@drive PY FR c n a i (GQ q) (st, W)) = (l, o)) ->
    exists l', (exists n0, forall n, (n0 <= n)%nat -> fst (@drive PY FR c n a i (GQ q') (st, W')) = (l', o)) /\ Forall2 same_scope l l'.
Proof.
  intros E Q Pl Si b q b1 Eq. destruct (fold_query acts t Pl Si p t' p' (conj E Q) b q b1 Eq) as (q' & Eq' & F).
  exists q'. split; [exact Eq'|]. intros FR quiet a i st W W' c l o Pq Pq' PD PD' Hc (Rn & Rb & Rr) Nv No D.
  apply (query_iff quiet) in D as [d0 D]; auto.
  assert (HD : dfolds (db_of a W) (db_of a W')).
  { split; [exact Rn|]. split; [exact Rb|]. intros g. specialize (Rr g). induction Rr as [|r r' rs rs' [->|H] _ IH]; constructor; eauto using folded_rfolds.
    split; auto using f_refl, qfolds_refl. }
  assert (K : forall d, (d0 <= d)%nat -> exists l', take c (sols d (db_of a W') q' (b_scope st) (w_nv W')) = (l', o) /\ Forall2 sfolds l l').
  { intros d Hd. rewrite Nv. eapply take_folds; [|apply D; exact Hd|exact No]. apply trel_sols; auto using sfolds_refl. }
  destruct (K d0 (le_n _)) as (l' & T & Fl). exists l'. split.
  - pose proof (query_complete quiet a i q' c d0 st W' Pq' PD' Hc) as HS. cbv zeta in HS. rewrite T in HS.
    destruct HS as [HS|HS]; [contradiction|exact HS].
  - clear - Fl. induction Fl; constructor; auto using folds_scope.
Qed.
End WithPy.
