(** Freezing and grounding compute instances. *)
From Verif Require Import Base Num Term Unify TrailFacts FuelFacts ChainFacts TermSpec InstSpec PyEq SetFacts UnifySem.

Section InstInd.
  Context {PY : Py}.
  Variable s : scope.
  Variable rho : N -> option N.
  Variable P : term -> term -> Prop.
  Hypothesis Hbool : forall b, P (TBool b) (TBool b).
  Hypothesis Hnum : forall x, P (TNum x) (TNum x).
  Hypothesis Hstr : forall x, P (TStr x) (TStr x).
  Hypothesis Hwild : forall w, P (TWild w) (TWild w).
  Hypothesis Hbound : forall v t t', lookup s v = Some t -> inst s rho t t' -> P t t' -> P (TVar v) t'.
  Hypothesis Hfree : forall v x, lookup s v = None -> rho v = Some x -> P (TVar v) (TVar x).
  Hypothesis Hun : forall op a v, evals s (TUn op a) v -> P (TUn op a) v.
  Hypothesis Hbin : forall op a b v, evals s (TBin op a b) v -> P (TBin op a b) v.
  Hypothesis Hlit : forall f args annots args' items annots',
    Forall2 (inst s rho) args args' -> Forall2 P args args' ->
    Forall2 (inst s rho) annots items -> Forall2 P annots items -> set_of items annots' ->
    P (TLit f args annots) (TLit f args' annots').
  Hypothesis Htup : forall ts ts', Forall2 (inst s rho) ts ts' -> Forall2 P ts ts' -> P (TTup ts) (TTup ts').
  Hypothesis Hll : forall h t h' t', inst s rho h h' -> P h h' -> inst s rho t t' -> P t t' -> P (TLL h t) (TLL h' t').

  Fixpoint inst_ind' t t' (H : inst s rho t t') {struct H} : P t t' :=
    let go := fix go l l' (HF : Forall2 (inst s rho) l l') {struct HF} : Forall2 P l l' :=
      match HF with
      | Forall2_nil _ => Forall2_nil P
      | Forall2_cons x y Hxy Hl => Forall2_cons x y (inst_ind' x y Hxy) (go _ _ Hl)
      end in
    match H with
    | in_bool _ _ b => Hbool b
    | in_num _ _ x => Hnum x
    | in_str _ _ x => Hstr x
    | in_wild _ _ w => Hwild w
    | in_bound _ _ v t t' H1 H2 => Hbound v t t' H1 H2 (inst_ind' _ _ H2)
    | in_free _ _ v x H1 H2 => Hfree v x H1 H2
    | in_un _ _ op a v H1 => Hun op a v H1
    | in_bin _ _ op a b v H1 => Hbin op a b v H1
    | in_lit _ _ f args annots args' items annots' H1 H2 H3 =>
        Hlit f args annots args' items annots' H1 (go _ _ H1) H2 (go _ _ H2) H3
    | in_tup _ _ ts ts' H1 => Htup ts ts' H1 (go _ _ H1)
    | in_ll _ _ h t h' t' H1 H2 => Hll h t h' t' H1 (inst_ind' _ _ H1) H2 (inst_ind' _ _ H2)
    end.
End InstInd.

Section WithPy.
Context {PY : Py}.

Definition rho_le (r1 r2 : N -> option N) : Prop := forall v x, r1 v = Some x -> r2 v = Some x.

Lemma Forall2_impl {A B} (P Q : A -> B -> Prop) l l' : (forall x y, P x y -> Q x y) -> Forall2 P l l' -> Forall2 Q l l'.
Proof. induction 2; constructor; auto. Qed.

Lemma inst_mono s r1 r2 t t' : rho_le r1 r2 -> inst s r1 t t' -> inst s r2 t t'.
Proof.
  intros Hr H. induction H using @inst_ind'; try (econstructor; eauto; fail).
Qed.

Lemma inst_deref s rho n : forall t u t', deref_loop n t s = Ok u -> inst s rho u t' -> inst s rho t t'.
Proof.
  induction n as [|n IH]; intros t u t' H Hi; destruct t; cbn in H; try (inversion H; subst; assumption);
    destruct (lookup s v) eqn:E; try easy; try (inversion H; subst; assumption).
  eapply in_bound; [exact E|]. eapply IH; eassumption.
Qed.

(** * Freezing *)
Definition minv (s : scope) (m : fst_) : Prop :=
  (forall v x, memo_get (fst m) v = Some x -> lookup s v = None /\ (x < snd m)%N) /\
  (forall v w x, memo_get (fst m) v = Some x -> memo_get (fst m) w = Some x -> v = w).

Definition mstep (m m' : fst_) : Prop :=
  rho_le (memo_get (fst m)) (memo_get (fst m')) /\ (snd m <= snd m')%N /\
  (forall v x, memo_get (fst m') v = Some x -> memo_get (fst m) v = Some x \/ (snd m <= x)%N).

Lemma mstep_refl m : mstep m m.
Proof. split; [easy|]. split; [apply N.le_refl|]. auto. Qed.

Lemma mstep_trans a b c : mstep a b -> mstep b c -> mstep a c.
Proof.
  intros (A1 & A2 & A3) (B1 & B2 & B3). split; [|split].
  - intros v x H. auto.
  - eapply N.le_trans; eassumption.
  - intros v x H. destruct (B3 v x H) as [H'|H']; [auto|]. right. eapply N.le_trans; eassumption.
Qed.

Definition fgood (s : scope) (m m' : fst_) : Prop := minv s m' /\ mstep m m'.

Definition fspec (f : term -> fst_ -> res term * fst_) (s : scope) : Prop :=
  forall t m r m', f t m = (r, m') -> minv s m ->
    fgood s m m' /\ forall t', r = Ok t' -> inst s (memo_get (fst m')) t t'.

Lemma smapl_freeze f s : fspec f s -> forall l m r m', smapl f l m = (r, m') -> minv s m ->
  fgood s m m' /\ forall l', r = Ok l' -> Forall2 (inst s (memo_get (fst m'))) l l'.
Proof.
  intros Hf l. induction l as [|x l IH]; intros m r m' H Hm; cbn in H.
  - inversion H; subst. split; [split; [assumption|apply mstep_refl]|]. intros l' E. inversion E. constructor.
  - destruct (f x m) as [rx m1] eqn:Ex. destruct (Hf _ _ _ _ Ex Hm) as [[I1 S1] T1].
    destruct rx as [y|]; [|inversion H; subst; split; [split; assumption|easy]].
    destruct (smapl f l m1) as [rl m2] eqn:El. destruct (IH _ _ _ El I1) as [[I2 S2] T2].
    assert (G : fgood s m m2) by (split; [assumption|eapply mstep_trans; eassumption]).
    destruct rl as [ys|]; inversion H; subst; (split; [assumption|]); [|easy].
    intros l' E. inversion E; subst. constructor; [|auto].
    eapply inst_mono; [apply S2|]. auto.
Qed.

Lemma freeze_inst (L : PyLawful PY) n s : fspec (fun t => freeze n t s) s.
Proof.
  induction n as [|n IH]; intros t m r m' H Hm.
  { cbn in H. inversion H; subst. split; [split; [assumption|apply mstep_refl]|easy]. }
  assert (HR : forall x, (x, m) = (r, m') -> (forall t', x = Ok t' -> inst s (memo_get (fst m)) t t') ->
    fgood s m m' /\ forall t', r = Ok t' -> inst s (memo_get (fst m')) t t').
  { intros x E Hx. inversion E; subst. split; [split; [assumption|apply mstep_refl]|assumption]. }
  rewrite freeze_S in H. destruct t.
  - apply (HR _ H). intros t' E; inversion E; constructor.
  - apply (HR _ H). intros t' E; inversion E; constructor.
  - apply (HR _ H). intros t' E; inversion E; constructor.
  - destruct (memo_get (fst m) v) as [x|] eqn:Em.
    + apply (HR _ H). intros t' E; inversion E; subst. apply in_free; [apply (proj1 Hm v x Em)|assumption].
    + destruct (bound s v) eqn:Eb.
      * destruct (deref (TVar v) s) as [u|] eqn:Ed; [|apply (HR _ H); easy].
        destruct (IH _ _ _ _ H Hm) as [G T]. split; [assumption|]. intros t' E.
        eapply inst_deref; [exact Ed|]. auto.
      * apply bound_false in Eb. inversion H; subst. cbn [fst snd].
        assert (HN : forall w x, memo_get ((v, snd m) :: fst m) w = Some x ->
           (w = v /\ x = snd m) \/ (w <> v /\ memo_get (fst m) w = Some x)).
        { intros w x Hx. cbn in Hx. destruct (N.eqb_spec w v); [left|right]; split; congruence. }
        split; [split|].
        -- split; cbn [fst snd].
           ++ intros w x [[-> ->]|[Hn Hx]]%HN; [split; [assumption|lia]|].
              destruct (proj1 Hm _ _ Hx). split; [assumption|lia].
           ++ intros w1 w2 x [[-> ->]|[Hn Hx]]%HN [[-> E2]|[Hn2 Hx2]]%HN; try congruence.
              ** destruct (proj1 Hm _ _ Hx2). lia.
              ** subst x. destruct (proj1 Hm _ _ Hx). lia.
              ** eapply (proj2 Hm); eassumption.
        -- split; [|split]; cbn [fst snd].
           ++ intros w x Hx. cbn. destruct (N.eqb_spec w v); [subst; congruence|assumption].
           ++ lia.
           ++ intros w x [[-> ->]|[Hn Hx]]%HN; [right; lia|now left].
        -- intros t' E. inversion E; subst. apply in_free; [assumption|]. cbn. now rewrite N.eqb_refl.
  - apply (HR _ H). intros t' E; inversion E; constructor.
  - destruct (evaluate n (TUn op t) s) as [v|] eqn:Ee; [|apply (HR _ H); easy].
    assert (Hsc : is_scalar_const v) by (eapply evaluate_expr_const; [|exact Ee]; exact I).
    destruct (IH _ _ _ _ H Hm) as [G T]. split; [assumption|]. intros t' E. subst r.
    destruct n; [easy|]. rewrite freeze_S in H. destruct v; try contradiction Hsc; inversion H; subst; (apply in_un; eexists; exact Ee).
  - destruct (evaluate n (TBin op t1 t2) s) as [v|] eqn:Ee; [|apply (HR _ H); easy].
    assert (Hsc : is_scalar_const v) by (eapply evaluate_expr_const; [|exact Ee]; exact I).
    destruct (IH _ _ _ _ H Hm) as [G T]. split; [assumption|]. intros t' E. subst r.
    destruct n; [easy|]. rewrite freeze_S in H. destruct v; try contradiction Hsc; inversion H; subst; (apply in_bin; eexists; exact Ee).
  - destruct (smapl _ args m) as [ra m1] eqn:Ea. destruct (smapl_freeze _ s IH _ _ _ _ Ea Hm) as [[I1 S1] T1].
    destruct ra as [args'|]; [|inversion H; subst; split; [split; assumption|easy]].
    destruct (smapl _ annots m1) as [rn m2] eqn:En. destruct (smapl_freeze _ s IH _ _ _ _ En I1) as [[I2 S2] T2].
    assert (G : fgood s m m2) by (split; [assumption|eapply mstep_trans; eassumption]).
    destruct rn as [items|]; inversion H; subst; (split; [assumption|]); [|easy].
    intros t' E. inversion E; subst. eapply in_lit.
    + eapply Forall2_impl; [|apply T1; reflexivity]. intros x y. apply inst_mono. apply S2.
    + apply T2. reflexivity.
    + now apply mk_set_of.
  - destruct (smapl _ ts m) as [ra m1] eqn:Ea. destruct (smapl_freeze _ s IH _ _ _ _ Ea Hm) as [G1 T1].
    destruct ra as [ts'|]; inversion H; subst; (split; [assumption|]); [|easy].
    intros t' E. inversion E; subst. constructor. now apply T1.
  - destruct (freeze n t1 s m) as [rh m1] eqn:Eh. destruct (IH _ _ _ _ Eh Hm) as [[I1 S1] T1].
    destruct rh as [h'|]; [|inversion H; subst; split; [split; assumption|easy]].
    destruct (freeze n t2 s m1) as [rt m2] eqn:Et. destruct (IH _ _ _ _ Et I1) as [[I2 S2] T2].
    assert (G : fgood s m m2) by (split; [assumption|eapply mstep_trans; eassumption]).
    destruct rt as [t'|]; inversion H; subst; (split; [assumption|]); [|easy].
    intros u E. inversion E; subst. constructor; [eapply inst_mono; [apply S2|]|]; auto.
Qed.

(** Variables of an instance come from the renaming. *)
Lemma inst_mentions s rho t t' : inst s rho t t' -> forall x, mentions x t' -> exists v, lookup s v = None /\ rho v = Some x.
Proof.
  intro H. induction H using @inst_ind'; intros x0 Hx; try (inversion Hx; fail); eauto.
  - inversion Hx; subst. eauto.
  - destruct H as [n Hn]. apply evaluate_expr_const in Hn; [|exact I]. destruct v; try contradiction Hn; inversion Hx.
  - destruct H as [n Hn]. apply evaluate_expr_const in Hn; [|exact I]. destruct v; try contradiction Hn; inversion Hx.
  - assert (HF : forall l l', Forall2 (fun (_ : term) t' => forall x, mentions x t' -> exists v, lookup s v = None /\ rho v = Some x) l l' ->
       Exists (mentions x0) l' -> exists v, lookup s v = None /\ rho v = Some x0).
    { intros l l' HF HE. induction HF; inversion HE; subst; eauto. }
    inversion Hx as [| | |? ? ? HE0| |]; subst. destruct HE0 as [HE|HE]; [exact (HF _ _ H0 HE)|].
    apply (HF _ _ H2). apply Exists_exists in HE as (y & Hy & HE). apply Exists_exists. exists y.
    split; [|assumption]. apply H3. assumption.
  - assert (HF : forall l l', Forall2 (fun (_ : term) t' => forall x, mentions x t' -> exists v, lookup s v = None /\ rho v = Some x) l l' ->
       Exists (mentions x0) l' -> exists v, lookup s v = None /\ rho v = Some x0).
    { intros l l' HF HE. induction HF; inversion HE; subst; eauto. }
    inversion Hx; subst. eapply HF; eassumption.
  - inversion Hx as [| | | | |? ? HE0]; subst. destruct HE0; eauto.
Qed.

Lemma minv_nil s k : minv s ([], k).
Proof. split; cbn; easy. Qed.

Theorem freeze_copy (L : PyLawful PY) n t s k t' m k' : freeze n t s ([], k) = (Ok t', (m, k')) ->
  inst s (memo_get m) t t' /\
  (forall v x, memo_get m v = Some x -> lookup s v = None /\ (k <= x < k')%N) /\
  (forall v w x, memo_get m v = Some x -> memo_get m w = Some x -> v = w) /\
  (forall x, mentions x t' -> (k <= x < k')%N).
Proof.
  intro H. destruct (freeze_inst L n s t _ _ _ H (minv_nil s k)) as [[[I1 I2] (S1 & S2 & S3)] T].
  cbn [fst snd] in *. specialize (T t' eq_refl).
  assert (HK : forall v x, memo_get m v = Some x -> lookup s v = None /\ (k <= x < k')%N).
  { intros v x Hx. destruct (I1 v x Hx). split; [assumption|]. destruct (S3 v x Hx) as [E|E]; [discriminate E|lia]. }
  split; [assumption|]. split; [exact HK|]. split; [exact I2|].
  intros x Hx. destruct (inst_mentions _ _ _ _ T x Hx) as (v & _ & Hv). apply (HK v x Hv).
Qed.

(** Freezing succeeds if there is an instance. *)
Definition isOk {A} (r : res A) : Prop := match r with Ok _ => True | Err _ => False end.

Lemma freeze_ok_more n n' t s m : (n <= n')%nat -> isOk (fst (freeze n t s m)) -> isOk (fst (freeze n' t s m)).
Proof.
  intros Hn H. destruct (smono_le (fun n => freeze n t s m) (fun n => freeze_mono n t s m) n n' Hn) as [E|E].
  - rewrite E in H. contradiction H.
  - now rewrite <- E.
Qed.

Lemma smapl_ok s l : (forall x, In x l -> exists n0, forall n m, (n0 <= n)%nat -> isOk (fst (freeze n x s m))) ->
  exists n0, forall n m, (n0 <= n)%nat -> isOk (fst (smapl (fun a => freeze n a s) l m)).
Proof.
  induction l as [|x l IH]; intro H.
  - exists 0%nat. intros. exact I.
  - destruct (H x) as [n1 H1]; [now left|]. destruct IH as [n2 H2]; [intros y Hy; apply H; now right|].
    exists (Nat.max n1 n2). intros n m Hn. cbn.
    specialize (H1 n m ltac:(lia)). destruct (freeze n x s m) as [r m1]. destruct r as [y|]; [|contradiction H1].
    specialize (H2 n m1 ltac:(lia)). destruct (smapl _ l m1) as [r m2]. destruct r; [exact I|contradiction H2].
Qed.

Lemma Forall2_in_l {A B} (P : A -> B -> Prop) l l' x : Forall2 P l l' -> In x l -> exists y, In y l' /\ P x y.
Proof. induction 1; intros []; subst; [eexists; split; [now left|eassumption]|]. destruct IHForall2 as (z & Hz & E); auto. exists z. split; [now right|assumption]. Qed.

Lemma deref_step s v t : chain_ok s -> lookup s v = Some t -> deref (TVar v) s = deref t s.
Proof.
  intros Hc E. destruct (deref_ok s (TVar v) Hc) as [u Hu]. rewrite Hu. unfold deref in Hu.
  destruct (List.length s) as [|k] eqn:Hk; cbn in Hu; rewrite E in Hu; [easy|].
  apply deref_loop_more in Hu. unfold deref. rewrite Hk. now symmetry.
Qed.

Lemma deref_var_cases t s u : deref t s = Ok u -> (match t with TVar v => bound s v = true | _ => False end) \/ u = t.
Proof.
  unfold deref. intro H. destruct t; try (right; destruct (List.length s); inversion H; reflexivity).
  unfold bound. destruct (lookup s v) eqn:E; [now left|]. right. destruct (List.length s); cbn in H; rewrite E in H; now inversion H.
Qed.

Theorem freeze_total s rho t t' : chain_ok s -> inst s rho t t' ->
  exists n0, forall n m, (n0 <= n)%nat -> exists r m', freeze n t s m = (Ok r, m').
Proof.
  intros Hc H.
  assert (HQ : exists n0, forall n m, (n0 <= n)%nat -> isOk (fst (freeze n t s m)) /\
     forall u, deref t s = Ok u -> isOk (fst (freeze n u s m))).
  2:{ destruct HQ as [n0 HQ]. exists n0. intros n m Hn. destruct (HQ n m Hn) as [HQ' _].
      destruct (freeze n t s m) as [r m']. destruct r; [eauto|contradiction HQ']. }
  assert (HS : forall n0 t, match t with TVar v => bound s v = false | _ => True end ->
    (forall n m, (n0 <= n)%nat -> isOk (fst (freeze n t s m))) ->
    exists n0, forall n m, (n0 <= n)%nat -> isOk (fst (freeze n t s m)) /\
      forall u, deref t s = Ok u -> isOk (fst (freeze n u s m))).
  { intros n0 x Hx HF. exists n0. intros n m Hn. split; [auto|]. intros u Hu.
    apply deref_var_cases in Hu as [Hu|Hu]; [|subst; auto]. destruct x; try contradiction Hu. congruence. }
  assert (HL : forall l l', Forall2 (fun t (_ : term) => exists n0, forall n m, (n0 <= n)%nat -> isOk (fst (freeze n t s m)) /\
     forall u, deref t s = Ok u -> isOk (fst (freeze n u s m))) l l' ->
     exists n0, forall n m, (n0 <= n)%nat -> isOk (fst (smapl (fun a => freeze n a s) l m))).
  { intros l l' HF. apply smapl_ok. intros x Hx. destruct (Forall2_in_l _ _ _ _ HF Hx) as (y & _ & n0 & Hn).
    exists n0. intros n m Hnn. exact (proj1 (Hn n m Hnn)). }
  induction H using @inst_ind';
    try (apply (HS 1%nat); [exact I|]; intros [|n] m Hn; [lia|exact I]).
  - destruct IHinst as [n0 IH]. exists (S n0). intros [|n] m Hn; [lia|].
    destruct (deref_ok s (TVar v) Hc) as [u Hu].
    assert (HU : forall n m, (n0 <= n)%nat -> isOk (fst (freeze n u s m))).
    { intros n1 m1 Hn1. apply IH; [assumption|]. rewrite <- Hu. symmetry. now apply deref_step. }
    split.
    + rewrite freeze_S. destruct (memo_get (fst m) v); [exact I|]. unfold bound. rewrite H, Hu. apply HU. lia.
    + intros u' Hu'. assert (u' = u) by congruence. subst u'. apply HU. lia.
  - apply (HS 1%nat); [unfold bound; now rewrite H|]. intros [|n] m Hn; [lia|]. rewrite freeze_S.
    destruct (memo_get (fst m) v); [exact I|]. unfold bound. rewrite H. exact I.
  - destruct H as [k Hk]. apply (HS (S (S k))); [exact I|]. intros [|[|n]] m Hn; try lia.
    rewrite freeze_S, (evaluate_more k (S n) _ _ _ ltac:(lia) Hk).
    apply evaluate_expr_const in Hk; [|exact I]. destruct v; try contradiction Hk; exact I.
  - destruct H as [k Hk]. apply (HS (S (S k))); [exact I|]. intros [|[|n]] m Hn; try lia.
    rewrite freeze_S, (evaluate_more k (S n) _ _ _ ltac:(lia) Hk).
    apply evaluate_expr_const in Hk; [|exact I]. destruct v; try contradiction Hk; exact I.
  - destruct (HL _ _ H0) as [n1 H1']. destruct (HL _ _ H2) as [n2 H2'].
    apply (HS (S (Nat.max n1 n2))); [exact I|]. intros [|n] m Hn; [lia|]. rewrite freeze_S.
    specialize (H1' n m ltac:(lia)). destruct (smapl _ args m) as [r m1]. destruct r; [|contradiction H1'].
    specialize (H2' n m1 ltac:(lia)). destruct (smapl _ annots m1) as [r m2]. destruct r; [exact I|contradiction H2'].
  - destruct (HL _ _ H0) as [n1 H1'].
    apply (HS (S n1)); [exact I|]. intros [|n] m Hn; [lia|]. rewrite freeze_S.
    specialize (H1' n m ltac:(lia)). destruct (smapl _ ts m) as [r m1]. destruct r; [exact I|contradiction H1'].
  - destruct IHinst1 as [n1 H1']. destruct IHinst2 as [n2 H2'].
    apply (HS (S (Nat.max n1 n2))); [exact I|]. intros [|n] m Hn; [lia|]. rewrite freeze_S.
    specialize (H1' n m ltac:(lia)) as [H1' _]. destruct (freeze n h s m) as [r m1]. destruct r; [|contradiction H1'].
    specialize (H2' n m1 ltac:(lia)) as [H2' _]. destruct (freeze n t s m1) as [r m2]. destruct r; [exact I|contradiction H2'].
Qed.

(** * Grounding *)
Lemma rmapl_Forall2 {A B} (f : A -> res B) (P : A -> B -> Prop) l : forall l',
  (forall x y, f x = Ok y -> P x y) -> rmapl f l = Ok l' -> Forall2 P l l'.
Proof.
  induction l as [|x l IH]; intros l' Hf H; cbn in H; [inversion H; constructor|].
  destruct (f x) as [y|] eqn:E; [|easy]. destruct (rmapl f l) as [ys|]; [|easy]. inversion H; subst. constructor; auto.
Qed.

Lemma Forall2_and_r {A B} (P : A -> B -> Prop) (Q : B -> Prop) l l' :
  Forall2 (fun x y => P x y /\ Q y) l l' -> Forall2 P l l' /\ Forall Q l'.
Proof. induction 1 as [|x y l l' [A1 A2] H [B1 B2]]; split; constructor; assumption. Qed.

Theorem grounded_inst (L : PyLawful PY) n : forall t s t', grounded n t s = Ok t' ->
  inst s (fun _ => None) t t' /\ ground t'.
Proof.
  induction n as [|n IH]; intros t s t' H; [easy|].
  rewrite grounded_S in H. destruct t; try (inversion H; subst; split; constructor; fail).
  - destruct (bound s v) eqn:Eb; [|easy]. destruct (deref (TVar v) s) as [u|] eqn:Ed; [|easy].
    destruct (IH _ _ _ H) as [A B]. split; [|assumption]. eapply inst_deref; [exact Ed|assumption].
  - destruct (evaluate n (TUn op t) s) as [v|] eqn:Ee; [|easy].
    assert (Hsc : is_scalar_const v) by (eapply evaluate_expr_const; [|exact Ee]; exact I).
    destruct n; [easy|]. rewrite grounded_S in H.
    assert (t' = v) by (destruct v; try contradiction Hsc; inversion H; reflexivity). subst t'.
    split; [apply in_un; eexists; exact Ee|]. destruct v; try contradiction Hsc; constructor.
  - destruct (evaluate n (TBin op t1 t2) s) as [v|] eqn:Ee; [|easy].
    assert (Hsc : is_scalar_const v) by (eapply evaluate_expr_const; [|exact Ee]; exact I).
    destruct n; [easy|]. rewrite grounded_S in H.
    assert (t' = v) by (destruct v; try contradiction Hsc; inversion H; reflexivity). subst t'.
    split; [apply in_bin; eexists; exact Ee|]. destruct v; try contradiction Hsc; constructor.
  - destruct (rmapl _ args) as [args'|] eqn:Ea; [|easy]. destruct (rmapl _ annots) as [items|] eqn:En; [|easy].
    inversion H; subst.
    apply (rmapl_Forall2 _ (fun x y => inst s (fun _ => None) x y /\ ground y)) in Ea; [|intros x y; apply IH].
    apply (rmapl_Forall2 _ (fun x y => inst s (fun _ => None) x y /\ ground y)) in En; [|intros x y; apply IH].
    apply Forall2_and_r in Ea as [A1 A2], En as [B1 B2]. split.
    + eapply in_lit; try eassumption. now apply mk_set_of.
    + constructor; [assumption|]. now apply mk_set_Forall.
  - destruct (rmapl _ ts) as [ts'|] eqn:Ea; [|easy]. inversion H; subst.
    apply (rmapl_Forall2 _ (fun x y => inst s (fun _ => None) x y /\ ground y)) in Ea; [|intros x y; apply IH].
    apply Forall2_and_r in Ea as [A1 A2]. split; constructor; assumption.
  - destruct (grounded n t1 s) as [h'|] eqn:Eh; [|easy]. destruct (grounded n t2 s) as [u|] eqn:Et; [|easy].
    inversion H; subst. destruct (IH _ _ _ Eh), (IH _ _ _ Et). split; constructor; assumption.
Qed.

Lemma exprless_deref s : exprless_scope s -> forall n t u, deref_loop n t s = Ok u -> exprless t -> exprless u.
Proof.
  intros Hs n. induction n as [|n IH]; intros t u H Ht; destruct t; cbn in H; try (inversion H; subst; assumption);
    destruct (lookup s v) eqn:E; try easy; try (inversion H; subst; assumption). eauto.
Qed.

(** The same recursion limit gives corresponding outcomes. *)
Definition corr {A} (b : res bool) (g : res A) : Prop :=
  match b, g with
  | Ok true, Ok _ => True
  | Ok false, Err EAsl => True
  | Err e, Err e' => e = e' /\ e <> EAsl
  | _, _ => False
  end.

Lemma corr_list (f : term -> res bool) (g : term -> res term) l :
  (forall x, In x l -> corr (f x) (g x)) -> corr (rall f l) (rmapl g l).
Proof.
  induction l as [|x l IH]; intro H; [exact I|]. cbn.
  assert (Hx := H x (or_introl eq_refl)). specialize (IH (fun y Hy => H y (or_intror Hy))).
  destruct (f x) as [[]|e], (g x) as [y|e']; cbn in Hx; try contradiction Hx; try (destruct e'; contradiction Hx).
  - destruct (rall f l) as [[]|e], (rmapl g l) as [ys|e']; cbn in *; try contradiction IH; auto.
  - exact Hx.
  - exact Hx.
Qed.

Theorem is_ground_grounded n : forall t s, exprless t -> exprless_scope s ->
  corr (is_ground n t s) (grounded n t s).
Proof.
  induction n as [|n IH]; intros t s Ht Hs; [now split|].
  rewrite is_ground_S, grounded_S. destruct t; try exact I; try (inversion Ht; fail).
  - destruct (bound s v) eqn:Eb; [|exact I]. destruct (deref (TVar v) s) as [u|e] eqn:Ed.
    + apply IH; [|assumption]. eapply exprless_deref; eassumption.
    + unfold deref in Ed. apply deref_loop_err in Ed. subst e. now split.
  - inversion Ht as [| | | | |? ? ? HA HN| |]; subst. rewrite Forall_forall in HA, HN.
    pose proof (corr_list (fun a => is_ground n a s) (fun a => grounded n a s) args (fun x Hx => IH x s (HA x Hx) Hs)) as C1.
    pose proof (corr_list (fun a => is_ground n a s) (fun a => grounded n a s) annots (fun x Hx => IH x s (HN x Hx) Hs)) as C2.
    destruct (rall _ args) as [[]|e], (rmapl _ args) as [ys|e']; cbn in C1; try contradiction C1; try (destruct e'; contradiction C1); try exact C1.
    destruct (rall _ annots) as [[]|e], (rmapl _ annots) as [zs|e']; cbn in *; try contradiction C2; auto.
  - inversion Ht as [| | | | | |? HA|]; subst. rewrite Forall_forall in HA.
    pose proof (corr_list (fun a => is_ground n a s) (fun a => grounded n a s) ts (fun x Hx => IH x s (HA x Hx) Hs)) as C1.
    destruct (rall _ ts) as [[]|e], (rmapl _ ts) as [ys|e']; cbn in *; try contradiction C1; auto.
  - inversion Ht; subst.
    pose proof (IH t1 s ltac:(assumption) Hs) as C1. pose proof (IH t2 s ltac:(assumption) Hs) as C2. cbn.
    destruct (is_ground n t1 s) as [[]|e], (grounded n t1 s) as [y|e']; cbn in C1; try contradiction C1; try (destruct e'; contradiction C1); try exact C1.
    destruct (is_ground n t2 s) as [[]|e], (grounded n t2 s) as [z|e']; cbn in *; try contradiction C2; auto.
Qed.

End WithPy.
