(** Folding keeps values (C34). *)
From Verif Require Import Base Num Term Unify PyEq TrailFacts FuelFacts Str World Ast Names Engine Build Lex Parse Fold Counts FoldSpec FoldSem.

Section WithPy.
Context {PY : Py}.

Definition quiet {A} (m : P A) (p : pst) (y : A) (p' : pst) : Prop := m p = (Ok y, p') /\ errs p' = errs p.

Lemma quiet_bind {A C} (a : P A) (k : A -> P C) p y p' : counts a -> (forall x, counts (k x)) ->
  quiet (pbind a k) p y p' -> exists x p1, quiet a p x p1 /\ quiet (k x) p1 y p'.
Proof.
  intros Ca Ck [E Q]. unfold pbind in E. destruct (a p) as [[x|e] p1] eqn:Ea; [|discriminate].
  pose proof (Ca p) as [L _]. rewrite Ea in L. cbn in L. pose proof (Ck x p1) as [L2 _]. rewrite E in L2. cbn in L2.
  exists x, p1. unfold quiet. repeat split; auto; lia.
Qed.
Lemma quiet_error {A} (k : P A) p y p' : counts k -> ~ quiet (pbind p_error (fun _ => k)) p y p'.
Proof.
  intros Ck [E Q]. unfold pbind, p_error, log_error in E. pose proof (Ck) as L.
  assert (H : forall l, (errs p < lg_errors l)%nat -> k (set_log p l) = (Ok y, p') -> False).
  { intros l Hl El. pose proof (Ck (set_log p l)) as [L2 _]. rewrite El in L2. unfold errs in *. cbn in L2. lia. }
  destruct (lg_max (p_log p)) as [mx|]; [destruct (Nat.leb _ _); [discriminate|]|]; (eapply H; [|exact E]; unfold errs; cbn; lia).
Qed.
Lemma quiet_ret {A} (x : A) p y p' : quiet (pret x) p y p' -> x = y /\ p' = p.
Proof. intros [E _]. unfold pret in E. now injection E as -> ->. Qed.
Lemma quiet_fail {A} e p (y : A) p' : ~ quiet (pfail e) p y p'.
Proof. intros [E _]. discriminate. Qed.

Lemma quiet_mapl {A C} (f : A -> P C) l : (forall x, counts (f x)) -> forall p y p', quiet (pmapl f l) p y p' ->
  Forall2 (fun a c => exists q q', quiet (f a) q c q') l y.
Proof.
  intros Cf. induction l as [|x l IH]; intros p y p' Q; cbn [pmapl] in Q.
  - apply quiet_ret in Q as [<- _]. constructor.
  - apply quiet_bind in Q; [|apply Cf|intros; apply counts_bind; [apply counts_mapl; auto|intros; apply counts_ret]].
    destruct Q as (z & p1 & Q1 & Q2).
    apply quiet_bind in Q2; [|apply counts_mapl; auto|intros; apply counts_ret].
    destruct Q2 as (zs & p2 & Q2 & Q3). apply quiet_ret in Q3 as [<- _]. constructor; eauto.
Qed.

Definition builds (t t' : ast) : Prop := forall b, exists x x' b1,
  build_term false t b = (Ok x, b1) /\ build_term false t' b = (Ok x', b1) /\ folds x x'.

Lemma build_total t : forall pat b, exists x b1, build_term pat t b = (Ok x, b1).
Proof.
  assert (L : forall pat l, Forall (fun t => forall pat b, exists x b1, build_term pat t b = (Ok x, b1)) l -> forall b, exists x b1, bmapl (build_term pat) l b = (Ok x, b1)).
  { intros pat. induction 1 as [|x l H _ IH]; intros b; cbn [bmapl]; [unfold bret; eauto|]. unfold bbind.
    destruct (H pat b) as (y & b1 & ->). destruct (IH b1) as (ys & b2 & ->). unfold bret. eauto. }
  induction t as [b|x|s|v|f ts an Hts Han|ts Hts|h t IHh IHt|op a IH|op l r IHl IHr] using ast_ind'; intros pat st; cbn [build_term]; unfold bret, bbind; eauto.
  - unfold build_var. destruct (assoc _ _ _); eauto.
  - destruct (L pat ts Hts st) as (? & b1 & ->). destruct (L pat an Han b1) as (? & ? & ->). eauto.
  - destruct (L pat ts Hts st) as (? & b1 & ->). eauto.
  - destruct (IHh pat st) as (? & b1 & ->). destruct (IHt pat b1) as (? & ? & ->). eauto.
  - destruct pat; unfold b_fresh; cbn; eauto. destruct (IH false st) as (? & b1 & ->). eauto.
  - destruct pat; unfold b_fresh; cbn; eauto. destruct (IHl false st) as (? & b1 & ->). destruct (IHr false b1) as (? & ? & ->). eauto.
Qed.
Lemma builds_refl t : builds t t.
Proof. intros b. destruct (build_total t false b) as (x & b1 & E). eauto 7 using f_refl. Qed.
Lemma builds_list ts ts' : Forall2 builds ts ts' -> forall b, exists xs xs' b1,
  bmapl (build_term false) ts b = (Ok xs, b1) /\ bmapl (build_term false) ts' b = (Ok xs', b1) /\ Forall2 folds xs xs'.
Proof.
  induction 1 as [|t t' ts ts' H _ IH]; intros b; cbn [bmapl]; unfold bret, bbind; [eauto 7|].
  destruct (H b) as (x & x' & b1 & -> & -> & F). destruct (IH b1) as (xs & xs' & b2 & -> & -> & Fs). eauto 8.
Qed.
Lemma builds_lit f ts ts' an : Forall2 builds ts ts' -> builds (ALit f ts an) (ALit f ts' an).
Proof.
  intros H b. cbn [build_term]. unfold bbind. destruct (builds_list ts ts' H b) as (xs & xs' & b1 & -> & -> & F).
  assert (R : Forall2 builds an an) by (induction an; constructor; auto using builds_refl).
  destruct (builds_list an an R b1) as (ys & ys' & b2 & E & E' & _).
  rewrite E in E'. injection E' as <-. rewrite E. unfold bret. eauto 8 using f_lit.
Qed.
Lemma builds_tup ts ts' : Forall2 builds ts ts' -> builds (AList ts) (AList ts').
Proof.
  intros H b. cbn [build_term]. unfold bbind. destruct (builds_list ts ts' H b) as (xs & xs' & b1 & -> & -> & F). unfold bret. eauto 8 using f_tup.
Qed.
Lemma builds_ll h h' t t' : builds h h' -> builds t t' -> builds (ALL h t) (ALL h' t').
Proof.
  intros H T b. cbn [build_term]. unfold bbind. destruct (H b) as (x & x' & b1 & -> & -> & F). destruct (T b1) as (y & y' & b2 & -> & -> & G).
  unfold bret. eauto 8 using f_ll.
Qed.
Lemma builds_un op a a' : builds a a' -> builds (AUn op a) (AUn op a').
Proof. intros H b. cbn [build_term]. unfold bbind. destruct (H b) as (x & x' & b1 & -> & -> & F). unfold bret. eauto 8 using f_un. Qed.
Lemma builds_bin op l l' r r' : builds l l' -> builds r r' -> builds (ABin op l r) (ABin op l' r').
Proof.
  intros H T b. cbn [build_term]. unfold bbind. destruct (H b) as (x & x' & b1 & -> & -> & F). destruct (T b1) as (y & y' & b2 & -> & -> & G).
  unfold bret. eauto 8 using f_bin.
Qed.

Lemma const_build t c b : const t = Some c -> build_term false t b = (Ok c, b) /\ atom c.
Proof. destruct t; try discriminate; cbn; injection 1 as <-; (split; [reflexivity|exact I]). Qed.
Lemma builds_unc op a a' c v t' : builds a a' -> const a' = Some c -> eval_unop op c = Ok v -> const t' = Some v -> builds (AUn op a) t'.
Proof.
  intros H Ec Ev Et b. destruct (H b) as (x & x' & b1 & E1 & E2 & F). destruct (const_build a' c b Ec) as [Eb At].
  rewrite Eb in E2. injection E2 as <- <-. destruct (const_build t' v b Et) as [Et' _].
  cbn [build_term]. unfold bbind. rewrite E1, Et'. unfold bret. eauto 8 using f_unc.
Qed.
Lemma builds_binc op l l' r r' c d v t' : builds l l' -> builds r r' -> const l' = Some c -> const r' = Some d ->
  eval_binop op c d = Ok v -> const t' = Some v -> builds (ABin op l r) t'.
Proof.
  intros H T Ec Ed Ev Et b. destruct (H b) as (x & x' & b1 & E1 & E2 & F). destruct (const_build l' c b Ec) as [Eb At].
  rewrite Eb in E2. injection E2 as <- <-. destruct (T b) as (y & y' & b2 & E3 & E4 & G). destruct (const_build r' d b Ed) as [Eb' At'].
  rewrite Eb' in E4. injection E4 as <- <-. destruct (const_build t' v b Et) as [Et' _].
  cbn [build_term]. unfold bbind. rewrite E1, E3, Et'. unfold bret. eauto 8 using f_binc.
Qed.

(** Without operators folding changes nothing. *)
Lemma fold_plain t : has_op t = false -> forall p t' p', quiet (fold MTerm t) p t' p' -> t' = t.
Proof.
  assert (L : forall l, Forall (fun t => has_op t = false -> forall p t' p', quiet (fold MTerm t) p t' p' -> t' = t) l ->
    existsb has_op l = false -> forall p l' p', quiet (pmapl (fold MTerm) l) p l' p' -> l' = l).
  { intros l H E p l' p' Q. apply quiet_mapl in Q; [|intros; apply counts_fold]. induction Q as [|a c l l' (q & q' & Q) _ IH]; [reflexivity|].
    inversion H; subst. cbn in E. apply Bool.orb_false_iff in E as [E1 E2]. f_equal; eauto. }
  induction t as [b|x|s|v|f ts an Hts Han|ts Hts|h t IHh IHt|op a IH|op l r IHl IHr] using ast_ind'; intros E p t' p' Q; cbn [fold] in Q; try discriminate E.
  - apply quiet_bind in Q as (? & ? & _ & Q); [|repeat first [progress intros|cstep]..]. now apply quiet_ret in Q as [<- _].
  - apply quiet_bind in Q as (? & ? & _ & Q); [|repeat first [progress intros|cstep]..]. now apply quiet_ret in Q as [<- _].
  - apply quiet_bind in Q as (? & ? & _ & Q); [|repeat first [progress intros|cstep]..]. now apply quiet_ret in Q as [<- _].
  - destruct v; [now apply quiet_fail in Q|]. now apply quiet_ret in Q as [<- _].
  - cbn in E. apply Bool.orb_false_iff in E as [E1 E2].
    apply quiet_bind in Q as (ts' & p1 & Q1 & Q); [|repeat first [progress intros|apply counts_mapl; intros; apply counts_fold|cstep]..].
    apply quiet_bind in Q as (an' & p2 & Q2 & Q); [|repeat first [progress intros|apply counts_mapl; intros; apply counts_fold|cstep]..].
    apply quiet_ret in Q as [<- _]. f_equal; eauto.
  - apply quiet_bind in Q as (ts' & p1 & Q1 & Q); [|repeat first [progress intros|apply counts_mapl; intros; apply counts_fold|cstep]..].
    apply quiet_ret in Q as [<- _]. f_equal; eauto.
  - cbn in E. apply Bool.orb_false_iff in E as [E1 E2].
    apply quiet_bind in Q as (h' & p1 & Q1 & Q); [|repeat first [progress intros|apply counts_fold|cstep]..].
    apply quiet_bind in Q as (u' & p2 & Q2 & Q); [|repeat first [progress intros|apply counts_fold|cstep]..].
    apply quiet_ret in Q as [<- _]. f_equal; eauto.
Qed.

Lemma fold_plain_list l : existsb has_op l = false -> forall p l' p', quiet (pmapl (fold MTerm) l) p l' p' -> l' = l.
Proof.
  intros E p l' p' Q. apply quiet_mapl in Q; [|intros; apply counts_fold]. induction Q as [|a c l l' (q & q' & Q) _ IH]; [reflexivity|].
  cbn in E. apply Bool.orb_false_iff in E as [E1 E2]. f_equal; eauto using fold_plain.
Qed.

Lemma counts_fold_comp op l r : counts (fold_comp op l r).
Proof. unfold fold_comp. repeat cstep. Qed.

Ltac qb Q x p1 Q1 := apply quiet_bind in Q as (x & p1 & Q1 & Q);
  [|repeat first [progress intros|apply counts_fold|apply counts_fold_comp|apply counts_mapl; intros; apply counts_fold|cstep]..].

Lemma fold_builds t : plain_annots t = true -> forall m p t' p', quiet (fold m t) p t' p' -> builds t t'.
Proof.
  assert (L : forall l, Forall (fun t => plain_annots t = true -> forall m p t' p', quiet (fold m t) p t' p' -> builds t t') l ->
    forallb plain_annots l = true -> forall p l' p', quiet (pmapl (fold MTerm) l) p l' p' -> Forall2 builds l l').
  { intros l H E p l' p' Q. apply quiet_mapl in Q; [|intros; apply counts_fold]. induction Q as [|a c l l' (q & q' & Q) _ IH]; [constructor|].
    inversion H; subst. cbn in E. apply andb_prop in E as [E1 E2]. constructor; eauto. }
  assert (Same : forall t0 (c : P unit) p t' p', counts c -> quiet (pbind c (fun _ => pret t0)) p t' p' -> builds t0 t').
  { intros t0 c p t' p' Cc Q. qb Q u p1 Q1. apply quiet_ret in Q as [<- _]. apply builds_refl. }
  induction t as [b|x|s|v|f ts an Hts Han|ts Hts|h t IHh IHt|op a IH|op l r IHl IHr] using ast_ind'; intros Pl m p t' p' Q; cbn [fold] in Q.
  - apply Same in Q; [assumption|]. destruct m; repeat cstep.
  - apply Same in Q; [assumption|]. destruct m; repeat cstep.
  - apply Same in Q; [assumption|]. destruct m; repeat cstep.
  - destruct v; [now apply quiet_fail in Q|]. apply quiet_ret in Q as [<- _]. apply builds_refl.
  - cbn in Pl. apply andb_prop in Pl as [P1 P2]. apply Bool.negb_true_iff in P2.
    assert (C : quiet (ts' <- pmapl (fold MTerm) ts ;; an' <- pmapl (fold MTerm) an ;; pret (ALit f ts' an'))%P p t' p' -> builds (ALit f ts an) t').
    { clear Q. intros Q. qb Q ts' p1 Q1. qb Q an' p2 Q2. apply quiet_ret in Q as [<- _].
      apply fold_plain_list in Q2; [|assumption]. subst an'. eauto using builds_lit. }
    destruct m; [now apply quiet_error in Q; [|cstep]|now apply quiet_error in Q; [|cstep]|auto|auto].
  - cbn in Pl. destruct m; [now apply quiet_error in Q; [|cstep]|now apply quiet_error in Q; [|cstep]| |now apply quiet_error in Q; [|cstep]].
    qb Q ts' p1 Q1. apply quiet_ret in Q as [<- _]. eauto using builds_tup.
  - cbn in Pl. apply andb_prop in Pl as [P1 P2]. destruct m; try (now apply quiet_fail in Q).
    qb Q h' p1 Q1. qb Q u' p2 Q2. apply quiet_ret in Q as [<- _]. eauto using builds_ll.
  - cbn in Pl. specialize (IH Pl).
    assert (U : forall m, quiet (a' <- fold m a ;; match a' with ABool b => pret (ABool (negb b)) | _ => pret (AUn UNot a') end)%P p t' p' -> builds (AUn UNot a) t').
    { intros m0 Q0. qb Q0 a' p1 Q1. apply IH in Q1. destruct a'; apply quiet_ret in Q0 as [<- _]; try now apply builds_un.
      now apply (builds_unc UNot a (ABool b) (TBool b) (TBool (negb b))). }
    destruct (unop_mode m op), op; try (now apply quiet_error in Q; [|cstep]); eauto.
    + qb Q a' p1 Q1. apply IH in Q1. destruct a'; apply quiet_ret in Q as [<- _]; try now apply builds_un.
      now apply (builds_unc UPos a (ANum x) (TNum x) (TNum x)).
    + qb Q a' p1 Q1. apply IH in Q1. destruct a'; apply quiet_ret in Q as [<- _]; try now apply builds_un.
      now apply (builds_unc UNeg a (ANum x) (TNum x) (TNum (num_opp x))).
  - cbn in Pl. apply andb_prop in Pl as [P1 P2]. specialize (IHl P1). specialize (IHr P2).
    assert (Log : forall m o, o = BAnd \/ o = BOr -> quiet (l' <- fold m l ;; r' <- fold m r ;;
       match l', r' with
       | ABool x, ABool y => pret (ABool (match o with BAnd => x && y | _ => x || y end))
       | _, _ => pret (ABin o l' r')
       end)%P p t' p' -> builds (ABin o l r) t').
    { intros m0 o Ho Q0. qb Q0 l' p1 Q1. qb Q0 r' p2 Q2. apply IHl in Q1. apply IHr in Q2.
      destruct l'; try (apply quiet_ret in Q0 as [<- _]; now apply builds_bin).
      destruct r'; apply quiet_ret in Q0 as [<- _]; try now apply builds_bin.
      destruct Ho as [->| ->];
        [now apply (builds_binc BAnd l (ABool b) r (ABool b0) (TBool b) (TBool b0) (TBool (b && b0)))
        |now apply (builds_binc BOr l (ABool b) r (ABool b0) (TBool b) (TBool b0) (TBool (b || b0)))]. }
    assert (Cmp : forall o, quiet (l' <- fold MTerm l ;; r' <- fold MTerm r ;; fold_comp o l' r')%P p t' p' -> builds (ABin o l r) t').
    { intros o Q0. qb Q0 l' p1 Q1. qb Q0 r' p2 Q2. apply IHl in Q1. apply IHr in Q2. unfold fold_comp in Q0.
      assert (K : forall c d, const l' = Some c -> const r' = Some d ->
        quiet (match eval_binop o c d with Ok (TBool b) => pret (ABool b) | Ok _ => pret (ABin o l' r') | Err e => pfail e end) p2 t' p' -> builds (ABin o l r) t').
      { intros c d Ec Ed Q3. destruct (eval_binop o c d) as [v|e] eqn:Ev; [|now apply quiet_fail in Q3].
        destruct v; apply quiet_ret in Q3 as [<- _]; try now apply builds_bin.
        now apply (builds_binc o l l' r r' c d (TBool b)). }
      destruct (const l') as [c|] eqn:Ec; [|apply quiet_ret in Q0 as [<- _]; now apply builds_bin].
      destruct (const r') as [d|] eqn:Ed; [|apply quiet_ret in Q0 as [<- _]; now apply builds_bin].
      destruct c, d; first [eapply K; eassumption || reflexivity|apply quiet_ret in Q0 as [<- _]; now apply builds_bin]. }
    assert (Un : forall o, quiet (l' <- fold MTerm l ;; r' <- fold MTerm r ;; pret (ABin o l' r'))%P p t' p' -> builds (ABin o l r) t').
    { intros o Q0. qb Q0 l' p1 Q1. qb Q0 r' p2 Q2. apply quiet_ret in Q0 as [<- _]. eauto using builds_bin. }
    destruct (binop_mode m op), op; try (now apply quiet_error in Q; [|cstep]); eauto.
    qb Q l' p1 Q1. qb Q r' p2 Q2. apply IHl in Q1. apply IHr in Q2.
    destruct l'; try (apply quiet_ret in Q as [<- _]; now apply builds_bin).
    destruct r'; try (apply quiet_ret in Q as [<- _]; now apply builds_bin).
    destruct (num_op fpow op x x0) as [z|e] eqn:Ez.
    + apply quiet_ret in Q as [<- _]. apply (builds_binc (BNum op) l (ANum x) r (ANum x0) (TNum x) (TNum x0) (TNum z)); auto.
      cbn [eval_binop]. rewrite Ez. reflexivity.
    + destruct e; try (now apply quiet_fail in Q). now apply quiet_error in Q; [|cstep].
Qed.

(** ** The specification *)

Lemma same_efix {A} (r r' : res A) : efix r r' -> same r r'.
Proof. intros [->| ->] N; [contradiction|reflexivity]. Qed.
Lemma folds_values x x' : folds x x' -> same_values x x'.
Proof.
  intros F n s. pose proof (sfolds_refl s) as S. repeat split.
  - apply same_efix, grounded_folds; assumption.
  - apply same_efix, is_ground_folds; assumption.
  - intros m N. destruct (freeze_folds s s S n x x' m F) as [E|E]; [contradiction|exact E].
Qed.
Lemma folds_evaluation x x' : folds x x' -> same_evaluation x x'.
Proof.
  intros F n s. pose proof (evaluate_folds n x x' s s (sfolds_refl s) F) as E. destruct (evaluate n x s) as [v|e] eqn:Ev; cbn in E.
  - destruct E as (v' & E & Fv). exists v'. split; [exact E|]. split; [now apply folds_values|].
    pose proof (folds_head _ _ Fv) as H. pose proof (evaluate_nonop _ _ _ _ Ev) as N. destruct v; auto; exfalso; apply N; exact I.
  - intros N. destruct E as [->|E]; [contradiction|exact E].
Qed.
Lemma folds_scope s s' : sfolds s s' -> same_scope s s'.
Proof. intros S v. split; [now apply bound_folds|]. intros n. apply same_efix, grounded_folds; auto using f_refl. Qed.
Lemma urel_outcome {A} (r r' : res A * bst) : urel r r' -> same_outcome r r'.
Proof. intros [E|[E (S & K & N)]] NR; [contradiction|]. split; [exact E|]. split; [now apply folds_scope|exact K]. Qed.
Lemma brel_refl st : brel st st.
Proof. unfold brel. auto using sfolds_refl. Qed.
Lemma folds_unification x x' : folds x x' -> same_unification x x'.
Proof.
  intros F n y st. (split; [|split; [|split]]); apply urel_outcome; first [apply unify_folds|apply uann_folds]; auto using f_refl, brel_refl.
Qed.

Theorem fold_same m t p t' p' : fold m t p = (Ok t', p') -> lg_errors (p_log p') = lg_errors (p_log p) ->
  plain_annots t = true -> forall b, exists x x' b1,
  build_term false t b = (Ok x, b1) /\ build_term false t' b = (Ok x', b1) /\
  same_evaluation x x' /\ same_values x x' /\ same_unification x x'.
Proof.
  intros E Q Pl b. destruct (fold_builds t Pl m p t' p' (conj E Q) b) as (x & x' & b1 & E1 & E2 & F).
  exists x, x', b1. repeat apply conj; auto using folds_evaluation, folds_values, folds_unification.
Qed.
End WithPy.
