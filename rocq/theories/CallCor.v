(** The functions a user registers, against CallSpec.v. *)
From Verif Require Import Base Num Term Unify TrailFacts FuelFacts AnnotFlat Str World Engine FuelEngine Names CmpSpec CmpFacts QuerySpec EnumSpec EnumFacts ActSpec ActCor CallSpec.
From Coq Require Import QArith SpecFloat Lia.

Lemma trunc_spec z p : is_trunc (dyadic z (Zneg p)) (rnd_trunc z (2 ^ Zpos p)).
Proof.
  unfold is_trunc, is_floor, is_ceil, rnd_trunc, dyadic, Qle, Qlt, inject_Z. cbn [Qnum Qden]. rewrite pow2_Zpos.
  assert (D : (0 < 2 ^ Zpos p)%Z) by (apply Z.pow_pos_nonneg; lia).
  pose proof (Z.quot_rem z (2 ^ Zpos p) ltac:(lia)) as E. split; intros H.
  - assert (0 <= z)%Z by lia. pose proof (Z.rem_bound_pos z _ ltac:(lia) D). nia.
  - assert (Hz : (z <= 0)%Z) by lia. pose proof (Z.rem_bound_pos (- z) (2 ^ Zpos p) ltac:(lia) D) as B. rewrite Z.rem_opp_l in B by lia. nia.
Qed.
Lemma floor_unique q z z' : is_floor q z -> is_floor q z' -> z = z'.
Proof.
  intros [A B] [C D]. assert (E : (inject_Z z < inject_Z (z' + 1))%Q) by (eapply Qle_lt_trans; eassumption).
  assert (F : (inject_Z z' < inject_Z (z + 1))%Q) by (eapply Qle_lt_trans; eassumption). rewrite <- Zlt_Qlt in E, F. lia.
Qed.
Lemma ceil_unique q z z' : is_ceil q z -> is_ceil q z' -> z = z'.
Proof.
  intros [A B] [C D]. assert (E : (inject_Z (z - 1) < inject_Z z')%Q) by (eapply Qlt_le_trans; eassumption).
  assert (F : (inject_Z (z' - 1) < inject_Z z)%Q) by (eapply Qlt_le_trans; eassumption). rewrite <- Zlt_Qlt in E, F. lia.
Qed.
Lemma trunc_unique q z z' : is_trunc q z -> is_trunc q z' -> z = z'.
Proof.
  intros [A B] [C D]. destruct (Qlt_le_dec q 0) as [H|H].
  - apply (ceil_unique q); [apply B|apply D]; now apply Qlt_le_weak.
  - apply (floor_unique q); auto.
Qed.
Lemma trunc_int z : is_trunc (inject_Z z) z.
Proof. split; intros _; unfold is_floor, is_ceil; rewrite <- Zle_Qle, <- Zlt_Qlt; lia. Qed.

Lemma iter_in v ts : items_in v ts <-> iter_items v = (ts, None).
Proof.
  split.
  - induction 1; cbn; try reflexivity. now rewrite IHitems_in.
  - revert ts. induction v; intros l; cbn; intros H; try discriminate.
    + injection H as <-. constructor.
    + injection H as <-. constructor.
    + destruct (iter_items v2) as [xs o] eqn:E. injection H as <- ->. constructor. now apply IHv2.
Qed.
Lemma iter_unfit v e : unfit STuple v e <-> exists xs, iter_items v = (xs, Some e).
Proof.
  split.
  - intros H. remember STuple as sp eqn:Es. revert Es. induction H; intros Es; subst; try discriminate.
    + destruct H as [H|[H|[]]]; discriminate.
    + destruct v; try contradiction; cbn; eauto.
    + destruct (IHunfit eq_refl) as [xs E]. cbn. rewrite E. eauto.
  - induction v; cbn; intros [xs H]; try discriminate; try (injection H as _ <-; now constructor).
    destruct (iter_items v2) as [ys o] eqn:E. injection H as _ ->.
    assert (X : unfit STuple v2 e) by (apply IHv2; eauto). assert (Y : e = EType).
    { clear -E. revert ys E. induction v2; cbn; intros ys E; try discriminate; try congruence. destruct (iter_items v2_2) as [z o]. injection E as _ ->. eapply IHv2_2; reflexivity. }
    subst. now constructor.
Qed.

Section WithPy.
Context {PY : Py}.

Lemma shown_str v x : shown v x <-> asl_str v = x.
Proof.
  assert (A : forall t, shown t (asl_str t)).
  { clear v x. intro t; induction t using term_ind'; try (constructor; exact I).
    - destruct b; constructor.
    - destruct x as [z|fl]; cbn [asl_str num_asl]; [constructor|]. destruct (flt_int fl) eqn:E; [now apply sh_integral|now apply sh_float].
    - apply sh_list. induction H; constructor; auto. }
  split; [|intros <-; apply A]. revert x. induction v using term_ind'; intros y Hy; inversion Hy; subst; try contradiction; try reflexivity.
  - cbn [asl_str num_asl]. now rewrite H0.
  - cbn [asl_str num_asl]. now rewrite H0.
  - cbn [asl_str]. do 3 f_equal. clear Hy. revert xs H1. induction H; intros xs Hx; inversion Hx; subst; [reflexivity|]. cbn [map]. f_equal; auto.
Qed.

Lemma convert_ok sp v w : sp <> SAgent -> sp <> SEnv -> (converts sp v w <-> convert sp v = Ok w).
Proof.
  intros NA NE. split.
  - destruct 1; try reflexivity.
    + cbn [convert to_int]. destruct (flt_to_Z_spec rnd_trunc is_trunc trunc_int trunc_spec f q H) as (z' & E & T).
      rewrite E. cbn [rmap]. now rewrite (trunc_unique q z z').
    + cbn [convert to_flt]. subst f. vm_compute. reflexivity.
    + cbn [convert to_flt]. subst f. vm_compute. reflexivity.
    + cbn [convert to_flt as_float]. unfold to_float. rewrite <- H. destruct f; try reflexivity. now destruct (H0 s).
    + apply shown_str in H. cbn [convert]. now rewrite H.
    + apply iter_in in H. cbn [convert]. unfold to_tuple. now rewrite H.
  - destruct sp; cbn [convert]; intros E; try contradiction.
    + injection E as <-. constructor.
    + destruct v as [[]|[z|f]| | | | | | | |]; cbn [to_int rmap] in E; try discriminate; try (injection E as <-; constructor).
      destruct (flt_to_Z rnd_trunc f) as [z|] eqn:Ef; [|discriminate]. injection E as <-.
      destruct f as [s|s| |s m e] eqn:Es.
      * eapply cv_trunc; [reflexivity|]. cbn in Ef. injection Ef as <-. apply (trunc_int 0).
      * discriminate.
      * discriminate.
      * rewrite <- Es in Ef. assert (Ev : flt_val f = XQ (dyadic (if s then Zneg m else Zpos m) e)) by (rewrite Es; reflexivity).
        destruct (flt_to_Z_spec rnd_trunc is_trunc trunc_int trunc_spec f _ Ev) as (z' & E & T). rewrite <- Es.
        eapply cv_trunc; [exact Ev|]. assert (z = z') as -> by congruence. exact T.
    + destruct v as [[]|[z|f]| | | | | | | |]; cbn [to_flt rmap as_float] in E; try discriminate.
      * vm_compute in E. injection E as <-. apply cv_ftrue. vm_compute. reflexivity.
      * vm_compute in E. injection E as <-. apply cv_ffalse. vm_compute. reflexivity.
      * unfold to_float in E. destruct (binary_normalize prec emax z 0 false) eqn:En; try discriminate; injection E as <-; apply cv_nearest; congruence.
      * injection E as <-. constructor.
    + injection E as <-. constructor. now apply shown_str.
    + unfold to_tuple in E. destruct (iter_items v) as [xs [e|]] eqn:Ei; [discriminate|]. injection E as <-. constructor. now apply iter_in.
Qed.

Lemma convert_unfit sp v e : unfit sp v e -> convert sp v = Err e /\ sp <> SAgent /\ sp <> SEnv /\ e <> ERecursion.
Proof.
  destruct 1.
  - destruct H as [<-|[<-|[]]]; (split; [|repeat split; discriminate]); destruct v; try contradiction; reflexivity.
  - split; [|repeat split; discriminate]. destruct v; try contradiction; reflexivity.
  - split; [|repeat split; discriminate]. assert (X : unfit STuple (TLL h tl) EType) by now constructor.
    apply iter_unfit in X as [xs E]. unfold convert, to_tuple. now rewrite E.
  - split; [|repeat split; discriminate]. destruct f as [| | |]; cbn in H; try discriminate; [destruct s; discriminate|reflexivity].
  - split; [|repeat split; discriminate]. destruct f as [|s| |]; cbn in H; try (destruct H; discriminate). destruct s; reflexivity.
  - split; [|repeat split; discriminate]. cbn [convert to_flt as_float]. unfold to_float. now rewrite H.
Qed.

(** Every value of an argument can be converted or not; numbers in texts are left
    open. *)
Theorem converts_or_not sp v : sp <> SAgent -> sp <> SEnv -> ~ (In sp [SInt; SFloat] /\ exists x, v = TStr x) ->
  (exists w, converts sp v w /\ forall w', converts sp v w' -> w' = w) \/ (exists e, unfit sp v e /\ forall w, ~ converts sp v w).
Proof.
  intros NA NE NT. destruct (convert sp v) as [w|e] eqn:E.
  - left. exists w. split; [now apply convert_ok|]. intros w' H. apply convert_ok in H; congruence.
  - right. exists e. split; [|intros w H; apply convert_ok in H; congruence].
    destruct sp; try contradiction; cbn [convert] in E; try discriminate.
    + destruct v as [b|[z|f]| | | | | | | |]; cbn [to_int rmap] in E; try discriminate; try (injection E as <-; apply uf_other; [cbn; tauto|exact I]).
      * destruct f as [s|s| |s m ex] eqn:Es; cbn in E; try discriminate.
        -- injection E as <-. apply uf_inf. destruct s; cbn; tauto.
        -- injection E as <-. now apply uf_nan.
        -- destruct ex; discriminate.
      * exfalso. apply NT. split; [cbn; tauto|eauto].
    + destruct v as [b|[z|f]| | | | | | | |]; cbn [to_flt rmap as_float] in E; try discriminate; try (injection E as <-; apply uf_other; [cbn; tauto|exact I]).
      * destruct b; vm_compute in E; discriminate.
      * unfold to_float in E. destruct (binary_normalize prec emax z 0 false) eqn:En; try discriminate; injection E as <-; eapply uf_huge; exact En.
      * exfalso. apply NT. split; [cbn; tauto|eauto].
    + unfold to_tuple in E. destruct (iter_items v) as [xs [x|]] eqn:Ei; [|discriminate]. injection E as <-. apply iter_unfit. eauto.
Qed.

Lemma conv_proper sp v w : converts sp v w -> sp <> SAgent /\ sp <> SEnv.
Proof. destruct 1; split; discriminate. Qed.
Lemma zip_cons n sp sps t args s m v w : grounded n t s = Ok v -> converts sp v w -> fst m = [] ->
  zip_specs n (sp :: sps) (t :: args) s m = match zip_specs n sps args s m with (Err e, m2) => (Err e, m2) | (Ok vs, m2) => (Ok (w :: vs), m2) end.
Proof.
  intros E C Hm. destruct (conv_proper _ _ _ C) as [NA NE]. apply convert_ok in C; [|assumption|assumption]. cbn [zip_specs].
  destruct sp; try contradiction; rewrite (freeze_grounded _ _ _ _ _ Hm E), C; reflexivity.
Qed.
Lemma zip_handed d s sps ins ws : handed d s sps ins ws -> forall n rest nv, (d <= n)%nat ->
  zip_specs n sps (ins ++ rest) s ([], nv) = (Ok ws, ([], nv)).
Proof.
  induction 1 as [|sps ins ws H IH|sps ins ws H IH|sp sps t ins v w ws E C H IH]; intros n rest nv Hn; [reflexivity|now apply IH|now apply IH|].
  cbn [Datatypes.app]. rewrite (zip_cons n sp sps t _ s ([], nv) v w (grounded_more _ _ _ _ _ Hn E) C eq_refl), IH by assumption. reflexivity.
Qed.
Lemma zip_misfit d s sps ins e : misfit d s sps ins e -> forall n rest nv, (d <= n)%nat ->
  zip_specs n sps (ins ++ rest) s ([], nv) = (Err e, ([], nv)).
Proof.
  induction 1 as [sp sps t ins v e E U|sps ins e H IH|sps ins e H IH|sp sps t ins v w e E C H IH]; intros n rest nv Hn; [|now apply IH|now apply IH|].
  - cbn [zip_specs Datatypes.app]. apply convert_unfit in U as (U & NA & NE & _).
    destruct sp; try contradiction; rewrite (freeze_grounded _ _ _ _ _ (eq_refl : fst ([], nv) = []) (grounded_more _ _ _ _ _ Hn E)), U; reflexivity.
  - cbn [Datatypes.app]. rewrite (zip_cons n sp sps t _ s ([], nv) v w (grounded_more _ _ _ _ _ Hn E) C eq_refl), IH by assumption. reflexivity.
Qed.

Lemma truthy_untrue v : truthy v = false <-> untrue v.
Proof.
  split.
  - destruct v as [[]|x|[|]| | | | | |[|]|]; cbn [truthy]; intros H; try discriminate; try constructor.
    apply negb_false_iff in H. unfold num_eqb, num_cmp in H. destruct (num_val x) as [| | |q] eqn:E; cbn in H; try discriminate.
    eapply un_zero; [exact E|]. destruct (q ?= inject_Z 0)%Q eqn:Eq; try discriminate. now apply Qeq_alt.
  - destruct 1; try reflexivity. cbn [truthy]. apply negb_false_iff. unfold num_eqb, num_cmp. rewrite H. cbn [num_val xcmp].
    apply Qeq_alt in H0. change (inject_Z 0) with 0%Q. now rewrite H0.
Qed.

Context {FR : Front}.
Definition ticked (W : world) : world := set_tick W (N.succ (w_tick W)).

Theorem function_called p d a i f ins x an st W specs ws v b st1 : handed d (b_scope st) specs ins ws -> py_call p (w_tick W) ws = Ok v ->
  unify d x v (mkbst (b_scope st) [] 0) = (Ok b, st1) ->
  forall n, (d < n)%nat -> exists st', b_scope st' = b_scope st1 /\
    resume n a i (GQ (QAct (AFun specs (FOpaque p)) (TLit f (ins ++ [x]) an))) (st, W) = (Ok (if b then Some GStop else None), (st', ticked W)).
Proof.
  intros H E U n Hn. destruct n as [|n]; [lia|]. destruct (yield_frame d x v st (ticked W) b st1 U n ltac:(lia)) as (st' & Ey & Es).
  exists st'. split; [exact Es|].
  change (resume (S n) a i (GQ (QAct (AFun specs (FOpaque p)) (TLit f (ins ++ [x]) an))) (st, W)) with (start_act (engine n) n a i (AFun specs (FOpaque p)) (TLit f (ins ++ [x]) an) (st, W)).
  unfold start_act, mbind at 1, lift at 1. cbn [lit_args]. unfold act_fun, mbind at 1, m_zip. cbn [fst snd].
  rewrite (zip_handed _ _ _ _ _ H n [x] (w_nv W) ltac:(lia)). rewrite set_nv_same.
  unfold mbind at 1, m_tick, on_world. cbn [fst snd]. unfold mbind at 1, lift. cbn [fn_apply]. rewrite E.
  unfold mbind at 1, last_arg. rewrite last_snoc. unfold mret. exact Ey.
Qed.
Theorem function_raises p d a i f ins x an st W specs ws e : handed d (b_scope st) specs ins ws -> py_call p (w_tick W) ws = Err e ->
  forall n, (d < n)%nat ->
    resume n a i (GQ (QAct (AFun specs (FOpaque p)) (TLit f (ins ++ [x]) an))) (st, W) = (Err e, (st, ticked W)).
Proof.
  intros H E n Hn. destruct n as [|n]; [lia|].
  change (resume (S n) a i (GQ (QAct (AFun specs (FOpaque p)) (TLit f (ins ++ [x]) an))) (st, W)) with (start_act (engine n) n a i (AFun specs (FOpaque p)) (TLit f (ins ++ [x]) an) (st, W)).
  unfold start_act, mbind at 1, lift at 1. cbn [lit_args]. unfold act_fun, mbind at 1, m_zip. cbn [fst snd].
  rewrite (zip_handed _ _ _ _ _ H n [x] (w_nv W) ltac:(lia)). rewrite set_nv_same.
  unfold mbind at 1, m_tick, on_world. cbn [fst snd]. unfold mbind at 1, lift. cbn [fn_apply]. rewrite E. reflexivity.
Qed.
Theorem predicate_called p d a i f ins an st W specs ws r : handed d (b_scope st) specs ins ws -> py_call p (w_tick W) ws = r ->
  forall n, (d < n)%nat ->
    (forall v, r = Ok v -> untrue v -> resume n a i (GQ (QAct (APred specs (POpaque p)) (TLit f ins an))) (st, W) = (Ok None, (st, ticked W))) /\
    (forall v, r = Ok v -> ~ untrue v -> resume n a i (GQ (QAct (APred specs (POpaque p)) (TLit f ins an))) (st, W) = (Ok (Some GStop), (st, ticked W))) /\
    (forall e, r = Err e -> resume n a i (GQ (QAct (APred specs (POpaque p)) (TLit f ins an))) (st, W) = (Err e, (st, ticked W))).
Proof.
  intros H E n Hn. destruct n as [|n]; [lia|].
  assert (X : resume (S n) a i (GQ (QAct (APred specs (POpaque p)) (TLit f ins an))) (st, W) =
    (match r with Ok v => Ok (if truthy v then Some GStop else None) | Err e => Err e end, (st, ticked W))).
  { change (resume (S n) a i (GQ (QAct (APred specs (POpaque p)) (TLit f ins an))) (st, W)) with (start_act (engine n) n a i (APred specs (POpaque p)) (TLit f ins an) (st, W)).
    unfold start_act, mbind at 1, lift at 1. cbn [lit_args]. unfold act_pred, mbind at 1, m_zip. cbn [fst snd].
    pose proof (zip_handed _ _ _ _ _ H n [] (w_nv W) ltac:(lia)) as Z. rewrite app_nil_r in Z. rewrite Z. rewrite set_nv_same.
    unfold mbind at 1, m_tick, on_world. cbn [fst snd]. unfold mbind at 1, lift. cbn [pr_apply]. rewrite E. destruct r; reflexivity. }
  rewrite X. split; [|split]; intros v ->; [intros U|intros U|reflexivity].
  - apply truthy_untrue in U. rewrite U. reflexivity.
  - destruct (truthy v) eqn:T; [reflexivity|]. now apply truthy_untrue in T.
Qed.
Theorem procedure_called p d a i f ins an st W specs ws r : handed d (b_scope st) specs ins ws -> py_call p (w_tick W) ws = r ->
  forall n, (d < n)%nat ->
    resume n a i (GQ (QAct (AProc specs p) (TLit f ins an))) (st, W) = (match r with Ok _ => Ok (Some GStop) | Err e => Err e end, (st, ticked W)).
Proof.
  intros H E n Hn. destruct n as [|n]; [lia|].
  change (resume (S n) a i (GQ (QAct (AProc specs p) (TLit f ins an))) (st, W)) with (start_act (engine n) n a i (AProc specs p) (TLit f ins an) (st, W)).
  unfold start_act, mbind at 1, lift at 1. cbn [lit_args]. unfold act_proc, mbind at 1, m_zip. cbn [fst snd].
  pose proof (zip_handed _ _ _ _ _ H n [] (w_nv W) ltac:(lia)) as Z. rewrite app_nil_r in Z. rewrite Z. rewrite set_nv_same.
  unfold mbind at 1, m_tick, on_world. cbn [fst snd]. unfold mbind at 1, lift. rewrite E. destruct r; reflexivity.
Qed.
(** Nothing is called with arguments that do not fit. *)
Theorem misfit_raises d a i f ins rest an st W specs e ac : misfit d (b_scope st) specs ins e ->
  (exists fn, ac = AFun specs fn) \/ (exists p, ac = APred specs p) \/ (exists p, ac = AProc specs p) ->
  forall n, (d < n)%nat -> resume n a i (GQ (QAct ac (TLit f (ins ++ rest) an))) (st, W) = (Err e, (st, W)).
Proof.
  intros H Ha n Hn. destruct n as [|n]; [lia|].
  change (resume (S n) a i (GQ (QAct ac (TLit f (ins ++ rest) an))) (st, W)) with (start_act (engine n) n a i ac (TLit f (ins ++ rest) an) (st, W)).
  pose proof (zip_misfit _ _ _ _ _ H n rest (w_nv W) ltac:(lia)) as Z.
  destruct Ha as [[fn ->]|[[p ->]|[p ->]]]; unfold start_act, mbind at 1, lift at 1; cbn [lit_args];
    (unfold act_fun || unfold act_pred || unfold act_proc); unfold mbind at 1, m_zip; cbn [fst snd]; rewrite Z, set_nv_same; reflexivity.
Qed.
End WithPy.
