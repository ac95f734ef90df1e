(** Matching with annotations, where one side is variable-free, always comes to
    a decision. *)
From Verif Require Import Base Num Term Unify TrailFacts FuelFacts ChainFacts TermSpec WildSpec InstSpec UnifySem UnifyTerm UnifyWild PatMatch UnifyPres AnnotSpec AnnotFacts PatTotal.

(** Size including annotations. *)
Fixpoint asize (t : term) : nat :=
  match t with
  | TLit _ args annots =>
      S ((fix go (l : list term) := match l with [] => O | x :: l' => (asize x + go l')%nat end) args +
         (fix go (l : list term) := match l with [] => O | x :: l' => (asize x + go l')%nat end) annots)
  | TTup ts => S ((fix go (l : list term) := match l with [] => O | x :: l' => (asize x + go l')%nat end) ts)
  | TLL h t => S (asize h + asize t)
  | _ => 1
  end.
Lemma asize_annot f args annots x : In x annots -> (asize x < asize (TLit f args annots))%nat.
Proof.
  intro H. cbn [asize]. apply Nat.lt_succ_r. eapply Nat.le_trans; [|apply Nat.le_add_l].
  induction annots as [|y ys IH]; [destruct H|]. destruct H as [->|H]; [lia|]. specialize (IH H). lia.
Qed.

Definition gclosed (t : term) : Prop := ground t /\ nonan t.

Lemma gclosed_closed t : gclosed t -> closed t.
Proof.
  unfold gclosed. induction t using term_ind'; intros [HG HN]; inversion HG; inversion HN; subst; constructor; auto;
    rewrite Forall_forall in *; auto.
Qed.
Lemma gclosed_annots f args annots : gclosed (TLit f args annots) -> Forall gclosed annots.
Proof. intros [H1 H2]. inversion H1; inversion H2; subst. rewrite Forall_forall in *. unfold gclosed. auto. Qed.

Section WithPy.
Context {PY : Py}.
Variable s0 : scope.
Variable ex : term -> term.
Notation wplain := (wplain s0 ex).
Notation dplain := (dplain s0 ex).
Notation good := (good ex s0).

Lemma dplain_wplain t : dplain t -> wplain t.
Proof.
  induction t using term_ind'; intro Hp; inversion Hp; subst; try (constructor; auto; fail);
    constructor; rewrite Forall_forall in *; auto.
Qed.
Lemma gclosed_dplain t : gclosed t -> dplain t.
Proof.
  unfold gclosed. induction t using term_ind'; intros [HG HN]; inversion HG; inversion HN; subst; constructor; auto;
    rewrite Forall_forall in *; auto.
Qed.

Lemma dplain_evaluate n : forall t s v, G0 s0 s -> scopeP dplain s -> dplain t -> evaluate n t s = Ok v -> dplain v.
Proof.
  induction n as [|n IH]; intros t s v Hg Hs Ht E; [easy|].
  assert (HE : match t with TUn _ _ | TBin _ _ _ => True | _ => False end -> dplain v).
  { intro He. assert (Hsc := evaluate_expr_const _ _ _ _ He E).
    assert (Ex : ex t = v).
    { destruct t; try contradiction He; inversion Ht as [| | | | |? ? [k Hk] Hn|? ? ? [k Hk] Hn| | |]; subst;
        (eapply evaluate_expr_stable; [apply Hg|apply Hg| |exact Hk|exact E]; exact I). }
    assert (Hnn : not_nan v) by (rewrite <- Ex; inversion Ht; subst; try contradiction He; assumption).
    destruct v; try contradiction Hsc; constructor; exact Hnn. }
  destruct t; try (now apply HE); try (rewrite evaluate_S in E; inversion E; subst; assumption).
  rewrite evaluate_S in E. destruct (bound s v0); [|inversion E; subst; assumption].
  destruct (deref (TVar v0) s) as [u|] eqn:Ed; [|easy].
  eapply IH; [exact Hg|exact Hs| |exact E]. eapply deref_P; eassumption.
Qed.

Lemma dplain_hereditary : hereditary dplain (G0 s0).
Proof.
  split.
  - intros f args annots H. now inversion H.
  - intros ts H. now inversion H.
  - intros x xs H. inversion H as [| | | | | | | |? HF|]; subst. inversion HF; subst. now constructor.
  - intros h t H. now inversion H.
  - intros n s t v. apply dplain_evaluate.
  - intros st st' T C [He _]. split; [|assumption]. intros v t Hv. eapply vtrail_lookup; [exact T|]. now apply He.
Qed.

(** The scopes considered. *)
Definition dgood (s : scope) : Prop := good s /\ scopeP dplain s.

Lemma dgood_inv s : dgood s -> inv dplain (G0 s0) s.
Proof. intros [(A & B & C) D]. split; [assumption|]. split; [now split|assumption]. Qed.

Lemma dgood_step n p c st st' : dplain p -> gclosed c -> dgood (b_scope st) ->
  (unify n p c st = (Ok true, st') \/ unify n c p st = (Ok true, st')) -> dgood (b_scope st').
Proof.
  intros Hp Hc Hg H. split.
  - eapply psound_good; [apply dplain_wplain; exact Hp|apply gclosed_closed; exact Hc|apply Hg|exact H].
  - destruct H as [H|H]; eapply unify_pres in H; eauto using dplain_hereditary, dgood_inv, gclosed_dplain.
Qed.

Definition udec (l r : term) (st : bst) : Prop :=
  exists n o st', uann n l r st = (Ok o, st') /\ dgood (b_scope st').

Lemma udec_of l r st n o st' : dgood (b_scope st) -> uann n l r st = (Ok o, st') ->
  (o <> None -> dgood (b_scope st')) -> udec l r st.
Proof.
  intros Hg E HS. exists n, o, st'. split; [assumption|]. destruct o; [apply HS; discriminate|].
  apply uann_none_exact in E as [-> _]. assumption.
Qed.

Section Step.
Variable k : nat.
Hypothesis IH : forall c, (asize c < k)%nat -> gclosed c -> forall p, dplain p -> forall st, dgood (b_scope st) -> udec p c st /\ udec c p st.

Lemma find_dec_r la : dplain la -> forall ras closed st, Forall gclosed ras -> (forall r, In r ras -> (asize r < k)%nat) ->
  dgood (b_scope st) -> exists n o st', annot_find (uann n) la ras closed st = (Ok o, st') /\ dgood (b_scope st').
Proof.
  intros Hl ras. induction ras as [|r ras IHr]; intros closed st Hr Hk Hg; [exists 0%nat, None, st; split; [reflexivity|assumption]|].
  inversion Hr; subst.
  assert (Hk' : forall x, In x ras -> (asize x < k)%nat) by (intros; apply Hk; now right).
  cbn [annot_find]. destruct (py_in r closed); [now apply IHr|].
  destruct (IH r (Hk r (or_introl eq_refl)) ltac:(assumption) la Hl st Hg) as [(n & o & st1 & E & G) _].
  destruct o as [cp|]; [exists n, (Some r), st1; rewrite E; split; [reflexivity|assumption]|].
  destruct (IHr closed st1 ltac:(assumption) Hk' G) as (m & o & st2 & E2 & G2).
  exists (n + m)%nat, o, st2. rewrite (uann_more n (n + m) _ _ _ _ _ ltac:(lia) E). split; [|assumption].
  destruct (smono_le (fun n => annot_find (uann n) la ras closed st1)
     (fun n => annot_find_sle _ _ (fun l r s => uann_mono n l r s) la ras closed st1) m (n + m) ltac:(lia)) as [E'|E'];
    [rewrite E2 in E'; discriminate E'|congruence].
Qed.
Lemma find_dec_l la : gclosed la -> (asize la < k)%nat -> forall ras closed st, Forall dplain ras ->
  dgood (b_scope st) -> exists n o st', annot_find (uann n) la ras closed st = (Ok o, st') /\ dgood (b_scope st').
Proof.
  intros Hl Hk ras. induction ras as [|r ras IHr]; intros closed st Hr Hg; [exists 0%nat, None, st; split; [reflexivity|assumption]|].
  inversion Hr; subst.
  cbn [annot_find]. destruct (py_in r closed); [now apply IHr|].
  destruct (IH la Hk Hl r ltac:(assumption) st Hg) as [_ (n & o & st1 & E & G)].
  destruct o as [cp|]; [exists n, (Some r), st1; rewrite E; split; [reflexivity|assumption]|].
  destruct (IHr closed st1 ltac:(assumption) G) as (m & o & st2 & E2 & G2).
  exists (n + m)%nat, o, st2. rewrite (uann_more n (n + m) _ _ _ _ _ ltac:(lia) E). split; [|assumption].
  destruct (smono_le (fun n => annot_find (uann n) la ras closed st1)
     (fun n => annot_find_sle _ _ (fun l r s => uann_mono n l r s) la ras closed st1) m (n + m) ltac:(lia)) as [E'|E'];
    [rewrite E2 in E'; discriminate E'|congruence].
Qed.

Lemma annots_more n m las ras closed st b st' : (n <= m)%nat ->
  annots_match (uann n) las ras closed st = (Ok b, st') -> annots_match (uann m) las ras closed st = (Ok b, st').
Proof.
  intros Hnm H. destruct (smono_le (fun n => annots_match (uann n) las ras closed st)
     (fun n => annots_match_sle _ _ (fun l r s => uann_mono n l r s) las ras closed st) n m Hnm) as [E'|E'];
    [rewrite H in E'; discriminate E'|congruence].
Qed.
Lemma find_more n m la ras closed st b st' : (n <= m)%nat ->
  annot_find (uann n) la ras closed st = (Ok b, st') -> annot_find (uann m) la ras closed st = (Ok b, st').
Proof.
  intros Hnm H. destruct (smono_le (fun n => annot_find (uann n) la ras closed st)
     (fun n => annot_find_sle _ _ (fun l r s => uann_mono n l r s) la ras closed st) n m Hnm) as [E'|E'];
    [rewrite H in E'; discriminate E'|congruence].
Qed.

Lemma annots_dec las : forall ras closed st,
  (Forall dplain las /\ Forall gclosed ras /\ (forall r, In r ras -> (asize r < k)%nat)) \/
  (Forall gclosed las /\ Forall dplain ras /\ (forall r, In r las -> (asize r < k)%nat)) ->
  dgood (b_scope st) -> exists n b st', annots_match (uann n) las ras closed st = (Ok b, st') /\ dgood (b_scope st').
Proof.
  induction las as [|la las IHl]; intros ras closed st HC Hg; [exists 0%nat, true, st; split; [reflexivity|assumption]|].
  assert (HF : exists n o st', annot_find (uann n) la ras closed st = (Ok o, st') /\ dgood (b_scope st')).
  { destruct HC as [(A & B & C)|(A & B & C)]; inversion A; subst.
    - now apply find_dec_r.
    - apply find_dec_l; try assumption. apply C. now left. }
  destruct HF as (n & o & st1 & E & G). cbn [annots_match]. destruct o as [ra|].
  - destruct (IHl ras (ra :: closed) st1) as (m & b & st2 & E2 & G2); [|assumption|].
    { destruct HC as [(A & B & C)|(A & B & C)]; inversion A; subst; [left|right]; repeat split; auto. intros; apply C; now right. }
    exists (n + m)%nat, b, st2. rewrite (find_more n (n + m) _ _ _ _ _ _ ltac:(lia) E). split; [|assumption].
    eapply annots_more; [|exact E2]. lia.
  - exists n, false, st1. rewrite E. split; [reflexivity|assumption].
Qed.

Lemma udec_plain l r st : (forall f args annots, l <> TLit f args annots) ->
  (exists p c, dplain p /\ gclosed c /\ ((l = p /\ r = c) \/ (l = c /\ r = p))) -> dgood (b_scope st) -> udec l r st.
Proof.
  intros Hl (p & c & Hp & Hc & HH) Hg.
  set (st0 := push_cp (b_ncp st) (mkbst (b_scope st) (b_stack st) (N.succ (b_ncp st)))).
  assert (HD : decides l r st0).
  { destruct (pat_decides s0 ex p c st0 (dplain_wplain _ Hp) (gclosed_closed _ Hc) (proj1 Hg)) as [A B].
    destruct HH as [[-> ->] | [-> ->]]; assumption. }
  destruct HD as (n & b & st1 & E).
  assert (Hu : uann (S n) l r st = match unify n l r st0 with (Err e, st1) => (Err e, st1)
     | (Ok true, st1) => (Ok (Some (b_ncp st)), st1) | (Ok false, st1) => (Ok None, reroll st1 (b_ncp st)) end).
  { rewrite uann_S. destruct l; try reflexivity. now destruct (Hl f args annots). }
  rewrite E in Hu. destruct b.
  - eapply udec_of; [exact Hg|exact Hu|]. intros _. apply (dgood_step n p c st0); [exact Hp|exact Hc| |].
    + exact Hg.
    + destruct HH as [[-> ->] | [-> ->]]; [left|right]; exact E.
  - eapply udec_of; [exact Hg|exact Hu|]. congruence.
Qed.

Lemma udec_step c : (asize c <= k)%nat -> gclosed c -> forall p, dplain p -> forall st, dgood (b_scope st) -> udec p c st /\ udec c p st.
Proof.
  intros Hk Hc p Hp st Hg. assert (Hcc := gclosed_closed _ Hc). split.
  - destruct p as [| | | | | | |f args annots| |]; try (apply udec_plain; [intros; discriminate|eauto 8|assumption]).
    set (p := TLit f args annots) in *.
    set (st0 := push_cp (b_ncp st) (mkbst (b_scope st) (b_stack st) (N.succ (b_ncp st)))).
    destruct (pat_decides s0 ex p c st0 (dplain_wplain _ Hp) Hcc (proj1 Hg)) as [(n & b & st1 & E) _].
    assert (Hu : forall n, uann (S (S n)) p c st = match unify (S n) p c st0 with
                  | (Err e, st1) => (Err e, st1)
                  | (Ok false, st1) => (Ok None, reroll st1 (b_ncp st))
                  | (Ok true, st1) =>
                      match annots_match (uann (S n)) annots (lit_annots c) [] st1 with
                      | (Err e, st2) => (Err e, st2)
                      | (Ok false, st2) => (Ok None, reroll st2 (b_ncp st))
                      | (Ok true, st2) => (Ok (Some (b_ncp st)), st2)
                      end
                  end).
    { intro m. rewrite uann_S. unfold p. rewrite (closed_evaluate m c (b_scope st) Hcc). cbn [new_cp].
      destruct c; try reflexivity; inversion Hcc. }
    destruct b.
    + assert (G1 : dgood (b_scope st1)) by (apply (dgood_step n p c st0); [exact Hp|exact Hc|exact Hg|left; exact E]).
      destruct (annots_dec annots (lit_annots c) [] st1) as (m & b & st2 & E2 & G2); [left|assumption|].
      { inversion Hp; subst. split; [assumption|]. destruct c; cbn [lit_annots]; try (split; [constructor|easy]).
        split; [eapply gclosed_annots; exact Hc|]. intros r Hr. apply (asize_annot f0 args0) in Hr. lia. }
      specialize (Hu (n + m)%nat). rewrite (unify_more n (S (n + m)) _ _ _ _ _ ltac:(lia) E) in Hu.
      rewrite (annots_more m (S (n + m)) _ _ _ _ _ _ ltac:(lia) E2) in Hu.
      destruct b; (eapply udec_of; [exact Hg|exact Hu|]); [intros _; assumption|congruence].
    + specialize (Hu n). rewrite (unify_more n (S n) _ _ _ _ _ ltac:(lia) E) in Hu.
      eapply udec_of; [exact Hg|exact Hu|]. congruence.
  - destruct c as [| | | | | | |f args annots| |]; try (apply udec_plain; [intros; discriminate|eauto 8|assumption]).
    set (c := TLit f args annots) in *.
    destruct (evaluate_wplain_ok s0 ex p (b_scope st) (dplain_wplain _ Hp) (good_wgood _ _ _ (proj1 Hg))) as (n0 & p' & Hev).
    assert (Hp' : dplain p').
    { eapply dplain_evaluate; [|apply Hg|exact Hp|exact (Hev n0 (le_n _))]. destruct (dgood_inv _ Hg) as (A & B & _). exact B. }
    set (st0 := mkbst (b_scope st) (b_stack st) (N.succ (b_ncp st))).
    destruct (match p' with TVar _ | TWild _ => true | _ => false end) eqn:Ek.
    + destruct (pat_decides s0 ex p' c st0 (dplain_wplain _ Hp') Hcc (proj1 Hg)) as [(n & b & st1 & E) _].
      assert (Hu : uann (S (n0 + n)) c p st = match unify (n0 + n) p' c st0 with (Err e, st1) => (Err e, st1)
         | (Ok true, st1) => (Ok (Some (b_ncp st)), st1) | (Ok false, st1) => (Ok None, reroll st1 (b_ncp st)) end).
      { rewrite uann_S. unfold c. rewrite Hev by lia. cbn [new_cp]. destruct p'; try discriminate Ek; reflexivity. }
      rewrite (unify_more n (n0 + n) _ _ _ _ _ ltac:(lia) E) in Hu. destruct b.
      * eapply udec_of; [exact Hg|exact Hu|]. intros _. apply (dgood_step n p' c st0); [exact Hp'|exact Hc|exact Hg|left; exact E].
      * eapply udec_of; [exact Hg|exact Hu|]. congruence.
    + destruct (pat_decides s0 ex p' c (push_cp (b_ncp st) st0) (dplain_wplain _ Hp') Hcc (proj1 Hg)) as [_ (n & b & st1 & E)].
      assert (Hu : forall m, uann (S (n0 + m)) c p st = match unify (n0 + m) c p' (push_cp (b_ncp st) st0) with
                  | (Err e, st1) => (Err e, st1)
                  | (Ok false, st1) => (Ok None, reroll st1 (b_ncp st))
                  | (Ok true, st1) =>
                      match annots_match (uann (n0 + m)) annots (lit_annots p') [] st1 with
                      | (Err e, st2) => (Err e, st2)
                      | (Ok false, st2) => (Ok None, reroll st2 (b_ncp st))
                      | (Ok true, st2) => (Ok (Some (b_ncp st)), st2)
                      end
                  end).
      { intro m. rewrite uann_S. unfold c. rewrite Hev by lia. cbn [new_cp]. destruct p'; try discriminate Ek; reflexivity. }
      destruct b.
      * assert (G1 : dgood (b_scope st1)) by (apply (dgood_step n p' c (push_cp (b_ncp st) st0)); [exact Hp'|exact Hc|exact Hg|right; exact E]).
        destruct (annots_dec annots (lit_annots p') [] st1) as (m & b & st2 & E2 & G2); [right|assumption|].
        { split; [eapply gclosed_annots; exact Hc|]. split; [destruct p'; cbn [lit_annots]; try constructor; now inversion Hp'|].
          intros r Hr. apply (asize_annot f args) in Hr. fold c in Hr. lia. }
        specialize (Hu (n + m)%nat). rewrite (unify_more n (n0 + (n + m)) _ _ _ _ _ ltac:(lia) E) in Hu.
        rewrite (annots_more m (n0 + (n + m)) _ _ _ _ _ _ ltac:(lia) E2) in Hu.
        destruct b; (eapply udec_of; [exact Hg|exact Hu|]); [intros _; assumption|congruence].
      * specialize (Hu n). rewrite (unify_more n (n0 + n) _ _ _ _ _ ltac:(lia) E) in Hu.
        eapply udec_of; [exact Hg|exact Hu|]. congruence.
Qed.
End Step.

Theorem uann_decides p c st : dplain p -> gclosed c -> dgood (b_scope st) -> udec p c st /\ udec c p st.
Proof.
  assert (HA : forall k c, (asize c <= k)%nat -> gclosed c -> forall p, dplain p -> forall st, dgood (b_scope st) -> udec p c st /\ udec c p st).
  { induction k as [k IHk] using lt_wf_ind. intros c' Hk Hc. apply (udec_step k); try assumption.
    intros c2 Hk2 Hc2. apply (IHk (asize c2)); auto. }
  intros Hp Hc Hg. exact (HA (asize c) c (le_n _) Hc p Hp st Hg).
Qed.
End WithPy.
