(** Plan selection. *)
From Verif Require Import Base Num Term Unify TrailSpec TrailFacts TrailHist FuelFacts AnnotFlat AnnotFacts Str World Engine FuelEngine NamesFacts QuerySpec QueryBase QueryFacts QueryComplete PlanSpec.

Section WithPy.
Context {PY : Py} {FR : Front}.

(** The query "match, then context". *)
Lemma and_trace d D h e c nv : sols (S (S d)) D (QAnd (QUnify h e) c) [] nv =
  match uann d h e (mkbst [] [] 0) with
  | (Err x, _) => terr x
  | (Ok None, _) => TEnd nv
  | (Ok (Some _), st) => append (sols (S d) D c (b_scope st) nv) (fun nv' => TEnd nv')
  end.
Proof.
  cbn [sols matches]. destruct (uann d h e _) as [[[cp|]|x] st]; try reflexivity. destruct x; reflexivity.
Qed.

Section Sel.
Variables (a ni : nat) (W0 : world).
Let D := db_of a W0.
Hypothesis HD : proper_db false D.

Definition outcome_of (c : choice) (frozen t : term) (ci : nat) (delayed : bool) (Wc : world) (o : res bool * ST) : Prop :=
  let '(r, (cur', W')) := o in
  match c with
  | Chosen p s nv => b_scope cur' = s /\ w_nv Wc = nv /\ launch a p frozen t ci delayed ni (cur', Wc) = (r, (cur', W'))
  | NoPlan nv => r = Ok false /\ W' = Wc /\ w_nv Wc = nv
  | Fails e => r = Err e /\ W' = Wc
  | CutOff => False
  end.

Definition sel_post (W : world) (l : list plan) (frozen t : term) (ci : nat) (delayed : bool) (o : res bool * ST) : Prop :=
  fst o = Err ERecursion \/
  exists Wc c, unchanged W Wc /\ (exists d0, forall d, (d0 <= d)%nat -> select d D l frozen (w_nv W) = c) /\
    outcome_of c frozen t ci delayed Wc o.

Lemma launch_cur p frozen t ci delayed cur W : fst (snd (launch a p frozen t ci delayed ni (cur, W))) = cur.
Proof.
  unfold launch, mbind, m_st, on_world, m_world, mret, lift, put_world. cbn [fst snd].
  destruct delayed; [reflexivity|]. destruct (push_on _ _ _) as [[|]|]; reflexivity.
Qed.

Lemma plans_sound n : forall ref frozen t ci delayed j cur W, unchanged W0 W -> b_scope cur = [] -> is_literal frozen = true ->
  Forall (fun p => proper false (p_ctx p) = true) (get_plist W0 ref) ->
  sel_post W (skipn j (get_plist W0 ref)) frozen t ci delayed (e_plans (engine n) a ref (frozen, t, ci, delayed, ni) j (cur, W)).
Proof.
  induction n as [|n IH]; intros ref frozen t ci delayed j cur W HU Hs Hf HP; [now left|].
  cbn [engine e_plans]. unfold plans_body. unfold mbind at 1, m_world. cbn [fst snd].
  assert (EP : get_plist W ref = get_plist W0 ref) by (unfold get_plist; now rewrite (un_plists _ _ HU)).
  rewrite EP.
  destruct (nth_error (get_plist W0 ref) j) as [p|] eqn:Ej.
  2:{ right. exists W, (NoPlan (w_nv W)). split; [apply unchanged_refl|]. split; [|unfold outcome_of, mret; cbn; auto].
      exists 0%nat. intros d _. apply nth_error_None in Ej. rewrite skipn_all2 by assumption. reflexivity. }
  assert (Esk : skipn j (get_plist W0 ref) = p :: skipn (S j) (get_plist W0 ref)).
  { clear -Ej. revert j Ej. induction (get_plist W0 ref) as [|q l IHl]; intros [|j] E; try discriminate E; cbn in *; [now inversion E|auto]. }
  rewrite Esk. assert (Hp : proper false (p_ctx p) = true).
  { rewrite Forall_forall in HP. apply HP. eapply nth_error_In, Ej. }
  unfold mbind at 1, m_uann, on_st. cbn [fst snd].
  pose proof (fun d => uann_at n d (p_head p) frozen cur [] Hs) as HA.
  pose proof (fun cp st1 => uann_mark n (p_head p) frozen cur cp st1 (literal_mark (p_head p) frozen (b_scope cur) Hf)) as HK.
  pose proof (uann_none_exact n (p_head p) frozen cur) as HN.
  destruct (uann n (p_head p) frozen cur) as [[[cp|]|e] st1] eqn:E.
  - (* the head matches *)
    cbn [fst snd cutr] in HA. specialize (HK cp st1 eq_refl).
    destruct (engine_sound a ni false W0 HD n) as [HR _].
    specialize (HR _ st1 (GQ (p_ctx p)) st1 true _ (r_q a false W0 st1 st1 (p_ctx p) Hp (okst_refl _ _)) st1 W (okst_refl _ _) HU).
    unfold mbind at 1. destruct (e_resume (engine n) a ni (GQ (p_ctx p)) (st1, W)) as [o [c1 W1]]. cbn [post] in HR.
    destruct HR as [H|[HU1 H]]; [apply cutr_true in H; subst o; now left|].
    destruct o as [[g'|]|e].
    + right. destruct H as (F' & _ & [d1 H2]). exists W1, (Chosen p (b_scope c1) (w_nv W1)). split; [exact HU1|]. split.
      * exists (S (S (Nat.max n d1))). intros [|[|d]] Hd; try lia. cbn [select]. rewrite and_trace.
        destruct (HA d eq_refl) as [[H3 H4]|[Hlt _]]; [|lia].
        destruct (uann d (p_head p) frozen _) as [[[cp'|]|] st2]; cbn in H3, H4; try contradiction H3. rewrite H4.
        destruct (H2 (S d)) as [H5|[Hlt _]]; [|lia]. cbv beta in H5. fold D in H5. destruct (sols (S d) D (p_ctx p) (b_scope st1) (w_nv W)); inversion H5; subst. cbn [append]. reflexivity.
      * unfold outcome_of. pose proof (launch_cur p frozen t ci delayed c1 W1) as HL.
        destruct (launch a p frozen t ci delayed ni (c1, W1)) as [r [c2 W2]] eqn:EL. cbn in HL. subst c2. now repeat split.
    + destruct H as (Hk & [d1 H2]). unfold mbind at 1, m_reroll, on_st. cbn [fst snd].
      pose proof (mark_reroll _ _ _ (mark_trail _ _ _ _ HK (okst_trail _ _ _ Hk))) as HO.
      assert (Hs1 : b_scope (reroll c1 cp) = []) by (rewrite (okst_scope _ _ HO); exact Hs).
      specialize (IH ref frozen t ci delayed (S j) (reroll c1 cp) W1 (unchanged_trans _ _ _ HU HU1) Hs1 Hf HP).
      destruct IH as [IH|(Wc & c & I1 & [d2 I2] & I3)]; [now left|]. right. exists Wc, c. split; [eapply unchanged_trans; eassumption|]. split; [|exact I3].
      exists (S (S (Nat.max n (Nat.max d1 d2)))). intros [|[|d]] Hd; try lia. cbn [select]. rewrite and_trace.
      destruct (HA d eq_refl) as [[H3 H4]|[Hlt _]]; [|lia].
      destruct (uann d (p_head p) frozen _) as [[[cp'|]|] st2]; cbn in H3, H4; try contradiction H3. rewrite H4.
      destruct (H2 (S d)) as [H5|[Hlt _]]; [|lia]. cbv beta in H5. fold D in H5. destruct (sols (S d) D (p_ctx p) (b_scope st1) (w_nv W)); inversion H5; subst. cbn [append]. apply I2. lia.
    + destruct H as [d1 H2]. destruct (exc_eq_rec e) as [->|He]; [now left|]. right. exists W1, (Fails e). split; [exact HU1|]. split; [|unfold outcome_of, mret; cbn; auto].
      exists (S (S (Nat.max n d1))). intros [|[|d]] Hd; try lia. cbn [select]. rewrite and_trace.
      destruct (HA d eq_refl) as [[H3 H4]|[Hlt _]]; [|lia].
      destruct (uann d (p_head p) frozen _) as [[[cp'|]|] st2]; cbn in H3, H4; try contradiction H3. rewrite H4.
      destruct (H2 (S d)) as [H5|[Hlt _]]; [|lia]. cbv beta in H5. fold D in H5. destruct (sols (S d) D (p_ctx p) (b_scope st1) (w_nv W)); inversion H5; subst. reflexivity.
  - cbn [fst snd cutr] in HA. destruct (HN st1 eq_refl) as [HN1 HN2].
    specialize (IH ref frozen t ci delayed (S j) st1 W HU (eq_trans HN1 Hs) Hf HP).
    destruct IH as [IH|(Wc & c & I1 & [d2 I2] & I3)]; [now left|]. right. exists Wc, c. split; [exact I1|]. split; [|exact I3].
    exists (S (S (Nat.max n d2))). intros [|[|d]] Hd; try lia. cbn [select]. rewrite and_trace.
    destruct (HA d eq_refl) as [[H3 H4]|[Hlt _]]; [|lia].
    destruct (uann d (p_head p) frozen _) as [[[cp'|]|] st2]; cbn in H3, H4; try contradiction H3. apply I2. lia.
  - destruct (exc_eq_rec e) as [->|He]; [now left|]. right. exists W, (Fails e). split; [apply unchanged_refl|]. split; [|unfold outcome_of, mret; cbn; auto].
    exists (S (S n)). intros [|[|d]] Hd; try lia. cbn [select]. rewrite and_trace.
    destruct (HA d) as [[H3 H4]|[Hlt _]]; [destruct e; cbn; congruence| |lia].
    destruct (uann d (p_head p) frozen _) as [[[cp'|]|] st2]; cbn in H3, H4; try contradiction H3. subst. now rewrite terr_other.
Qed.

Lemma plans_more n m ref x j st : (n <= m)%nat -> fst (e_plans (engine n) a ref x j st) <> Err ERecursion ->
  e_plans (engine m) a ref x j st = e_plans (engine n) a ref x j st.
Proof.
  intros. apply (more (fun k => e_plans (engine k) a ref x j)); auto. intros k s'. apply (proj1 (proj2 (proj2 (engine_mono k)))).
Qed.

Lemma launch_uncut p frozen t ci delayed s : fst (launch a p frozen t ci delayed ni s) <> Err ERecursion.
Proof.
  unfold launch, mbind, m_st, on_world, m_world, mret, lift, put_world. cbn [fst snd].
  destruct delayed; [discriminate|].
  match goal with |- context [push_on ci ni ?l] => generalize l end. intro l. assert (H : push_on ci ni l <> Err ERecursion).
  { induction l as [|[|x y] l IH]; cbn; try discriminate. destruct (Nat.eqb _ _); [discriminate|]. destruct (push_on ci ni l) as [[|]|]; congruence. }
  destruct (push_on ci ni l) as [[|]|]; cbn; congruence.
Qed.

Lemma plans_complete d l : forall ref frozen t ci delayed j cur W, unchanged W0 W -> b_scope cur = [] -> is_literal frozen = true ->
  Forall (fun p => proper false (p_ctx p) = true) (get_plist W0 ref) -> skipn j (get_plist W0 ref) = l ->
  select d D l frozen (w_nv W) <> CutOff ->
  exists n, fst (e_plans (engine n) a ref (frozen, t, ci, delayed, ni) j (cur, W)) <> Err ERecursion.
Proof.
  induction l as [|p l IH]; intros ref frozen t ci delayed j cur W HU Hs Hf HP Hl HS.
  all: assert (EP : get_plist W ref = get_plist W0 ref) by (unfold get_plist; now rewrite (un_plists _ _ HU)).
  { exists 1%nat. cbn [engine e_plans]. unfold plans_body, mbind at 1, m_world. cbn [fst snd]. rewrite EP.
    assert (E : nth_error (get_plist W0 ref) j = None).
    { apply nth_error_None. assert (List.length (skipn j (get_plist W0 ref)) = 0%nat) by now rewrite Hl. rewrite skipn_length in H. lia. }
    rewrite E. discriminate. }
  assert (Ej : nth_error (get_plist W0 ref) j = Some p /\ skipn (S j) (get_plist W0 ref) = l).
  { clear -Hl. revert j Hl. induction (get_plist W0 ref) as [|q l0 IHl]; intros [|j] E; try discriminate E; cbn in *; [inversion E; auto|auto]. }
  destruct Ej as [Ej El].
  assert (Hp : proper false (p_ctx p) = true).
  { rewrite Forall_forall in HP. apply HP. eapply nth_error_In, Ej. }
  cbn [select] in HS. destruct d as [|[|d]]; [contradiction HS; reflexivity|contradiction HS; reflexivity|]. rewrite and_trace in HS.
  pose proof (uann_same d (p_head p) frozen cur [] Hs) as HF.
  pose proof (fun cp st1 => uann_mark d (p_head p) frozen cur cp st1 (literal_mark (p_head p) frozen (b_scope cur) Hf)) as HK.
  pose proof (uann_none_exact d (p_head p) frozen cur) as HN.
  assert (HUp : forall m, (d <= m)%nat -> fst (uann d (p_head p) frozen cur) <> Err ERecursion -> uann m (p_head p) frozen cur = uann d (p_head p) frozen cur)
    by (intros; now apply uann_up).
  assert (Hstep : forall m k, k = S m -> (d <= m)%nat -> fst (uann d (p_head p) frozen cur) <> Err ERecursion ->
    e_plans (engine k) a ref (frozen, t, ci, delayed, ni) j (cur, W) =
    match uann d (p_head p) frozen cur with
    | (Err e, st1) => (Err e, (st1, W))
    | (Ok None, st1) => e_plans (engine m) a ref (frozen, t, ci, delayed, ni) (S j) (st1, W)
    | (Ok (Some cp), st1) => 
        match resume m a ni (GQ (p_ctx p)) (st1, W) with
        | (Err e, s2) => (Err e, s2)
        | (Ok (Some _), s2) => launch a p frozen t ci delayed ni s2
        | (Ok None, (c1, W1)) => e_plans (engine m) a ref (frozen, t, ci, delayed, ni) (S j) (reroll c1 cp, W1)
        end
    end).
  { intros m k -> Hm Hu. cbn [engine e_plans]. unfold plans_body, mbind at 1, m_world. cbn [fst snd]. rewrite EP, Ej.
    unfold mbind at 1, m_uann, on_st. cbn [fst snd]. rewrite HUp by assumption.
    destruct (uann d (p_head p) frozen cur) as [[[cp|]|e] st1]; try reflexivity. unfold mbind at 1, resume.
    destruct (e_resume (engine m) a ni (GQ (p_ctx p)) (st1, W)) as [[[g|]|e] [c1 W1]]; reflexivity. }
  destruct (uann d (p_head p) frozen (mkbst [] [] 0)) as [[[cp'|]|e'] st2];
    destruct (uann d (p_head p) frozen cur) as [[[cp|]|e] st1] eqn:E; destruct HF as [HF1 HF2]; cbn in HF1, HF2; try contradiction HF1.
  - specialize (HK cp st1 eq_refl). rewrite HF2 in HS.
    pose proof (engine_complete a ni false W0 HD (S d) (p_ctx p) st1 st1 W Hp (okst_refl _ _) HU) as HA.
    assert (HA' : exists n1, fst (resume n1 a ni (GQ (p_ctx p)) (st1, W)) <> Err ERecursion).
    { eapply alive_uncut; [exact HA|]. intro E'. fold D in E'. rewrite E' in HS. now apply HS. }
    destruct HA' as [n1 H1].
    destruct (engine_sound a ni false W0 HD n1) as [HR _].
    specialize (HR _ st1 (GQ (p_ctx p)) st1 true _ (r_q a false W0 st1 st1 (p_ctx p) Hp (okst_refl _ _)) st1 W (okst_refl _ _) HU).
    fold (resume n1 a ni (GQ (p_ctx p)) (st1, W)) in HR.
    assert (HM : forall m, (n1 <= m)%nat -> resume m a ni (GQ (p_ctx p)) (st1, W) = resume n1 a ni (GQ (p_ctx p)) (st1, W)).
    { intros m Hm. now apply resume_more. }
    destruct (resume n1 a ni (GQ (p_ctx p)) (st1, W)) as [[[g|]|e] [c1 W1]] eqn:Er.
    + exists (S (Nat.max d n1)). rewrite (Hstep _ _ eq_refl) by (discriminate || lia). rewrite HM by lia. apply launch_uncut.
    + cbn [post] in HR. destruct HR as [H|[HU1 H]]; [discriminate H|]. destruct H as (Hk & [d1 H2]).
      pose proof (mark_reroll _ _ _ (mark_trail _ _ _ _ HK (okst_trail _ _ _ Hk))) as HO.
      assert (Hs1 : b_scope (reroll c1 cp) = []) by (rewrite (okst_scope _ _ HO); exact Hs).
      assert (HS' : select (S (S d)) D l frozen (w_nv W1) <> CutOff).
      { intro HC. apply HS. destruct (H2 (S d)) as [H5|[_ H5]]; cbv beta in H5; fold D in H5.
        - destruct (sols (S d) D (p_ctx p) (b_scope st1) (w_nv W)); inversion H5; subst. exact HC.
        - rewrite H5 in *. reflexivity. }
      destruct (IH ref frozen t ci delayed (S j) (reroll c1 cp) W1 (unchanged_trans _ _ _ HU HU1) Hs1 Hf HP El HS') as [n2 H3].
      exists (S (Nat.max d (Nat.max n1 n2))). rewrite (Hstep _ _ eq_refl) by (discriminate || lia). rewrite HM by lia.
      rewrite (plans_more n2) by (assumption || lia). exact H3.
    + exists (S (Nat.max d n1)). rewrite (Hstep _ _ eq_refl) by (discriminate || lia). rewrite HM by lia. cbn in *. congruence.
  - destruct (HN st1 eq_refl) as [HN1 HN2].
    destruct (IH ref frozen t ci delayed (S j) st1 W HU (eq_trans HN1 Hs) Hf HP El HS) as [n2 H3].
    exists (S (Nat.max d n2)). rewrite (Hstep _ _ eq_refl) by (discriminate || lia). rewrite (plans_more n2) by (assumption || lia). exact H3.
  - subst e'. exists (S d). destruct (exc_eq_rec e) as [->|He]; [now contradiction HS|].
    rewrite (Hstep _ _ eq_refl) by (cbn; congruence || lia). cbn. congruence.
Qed.
End Sel.
End WithPy.
