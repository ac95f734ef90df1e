(** Matching with annotations: soundness, and the variable-free case. *)
From Verif Require Import Base Num Term Unify TrailFacts FuelFacts ChainFacts TermSpec InstSpec AnnotSpec.
From Verif Require Import PyEq SetFacts UnifySem UnifyTerm UnifyCor UnifyPres BackUnify TrailSpec TrailHist WildSpec.

Section WithPy.
Context {PY : Py}.

Lemma vtrail_lookup st st' : vtrail st st' -> forall v t, lookup (b_scope st) v = Some t -> lookup (b_scope st') v = Some t.
Proof.
  induction 1; intros w u Hw; [assumption|]. cbn. destruct (N.eqb_spec w v); [|now apply IHvtrail].
  subst. apply IHvtrail in Hw. apply bound_false in H0. congruence.
Qed.

Section Sound.
Variable s0 : scope.
Variable ex : term -> term.
Notation aplain := (aplain s0 ex).
Notation aplain_scope := (aplain_scope s0 ex).
Notation amatch := (amatch s0 ex).
Notation value := (value ex).
Notation agrees := (agrees ex).

Lemma aplain_plain t : aplain t -> plain s0 ex t.
Proof.
  induction t using term_ind'; intro Ha; inversion Ha; subst; try (constructor; auto; fail);
    constructor; rewrite Forall_forall in *; auto.
Qed.

Lemma aplain_nonan t : aplain t -> nonan t.
Proof.
  induction t using term_ind'; intro Ha; inversion Ha; subst; try (constructor; auto; fail); try assumption;
    constructor; rewrite Forall_forall in *; auto.
Qed.

Lemma aplain_scalar t v : match t with TUn _ _ | TBin _ _ _ => True | _ => False end -> aplain t ->
  forall s n, extends s0 s -> chain_ok s -> evaluate n t s = Ok v -> aplain v /\ is_scalar_const v.
Proof.
  intros Ht Ha s n He Hc E. assert (Hsc := evaluate_expr_const _ _ _ _ Ht E).
  assert (Ex : ex t = v).
  { destruct t; try contradiction Ht; inversion Ha as [| | | |? ? Hnn [k Hk] Hn|? ? ? Hnn [k Hk] Hn| | |]; subst;
      (eapply evaluate_expr_stable; [exact He|exact Hc| |exact Hk|exact E]; exact I). }
  split; [|assumption].
  assert (Hnn : not_nan v) by (rewrite <- Ex; inversion Ha; subst; try contradiction Ht; assumption).
  destruct v; try contradiction Hsc; constructor; exact Hnn.
Qed.

Definition G0 (s : scope) : Prop := extends s0 s /\ chain_ok s.

Lemma aplain_evaluate n : forall t s v, G0 s -> scopeP aplain s -> aplain t -> evaluate n t s = Ok v -> aplain v.
Proof.
  induction n as [|n IH]; intros t s v Hg Hs Ht E; [easy|].
  destruct t;
    try (rewrite evaluate_S in E; inversion E; subst; assumption);
    try (eapply aplain_scalar; [|exact Ht|apply Hg|apply Hg|exact E]; exact I).
  rewrite evaluate_S in E. destruct (bound s v0); [|inversion E; subst; assumption].
  destruct (deref (TVar v0) s) as [u|] eqn:Ed; [|easy].
  eapply IH; [exact Hg|exact Hs| |exact E]. eapply deref_P; eassumption.
Qed.

Lemma aplain_hereditary : hereditary aplain G0.
Proof.
  split.
  - intros f args annots H. now inversion H.
  - intros ts H. now inversion H.
  - intros x xs H. inversion H as [| | | | | | |? HF|]; subst. inversion HF; subst. now constructor.
  - intros h t H. now inversion H.
  - intros n s t v. apply aplain_evaluate.
  - intros st st' T C [He _]. split; [|assumption]. intros v t Hv. eapply vtrail_lookup; [exact T|]. now apply He.
Qed.

Definition ainv (s : scope) : Prop := inv aplain G0 s.

Lemma ainv_good s : ainv s -> good ex s0 s.
Proof.
  intros (C & [E _] & S). split; [|split; assumption]. intros v t Hv. apply aplain_plain. eapply S; exact Hv.
Qed.

Lemma amatch_value th l r s : extends s0 s -> agrees th s -> amatch th l r -> value th l = value th r.
Proof.
  intros He Ha H. induction H; try assumption. rewrite IHamatch. symmetry. cbn. apply Ha. now apply He.
Qed.

Lemma deref_amatch th l s n : extends s0 s -> agrees th s -> forall t u, deref_loop n t s = Ok u -> amatch th l u -> amatch th l t.
Proof.
  intros He Ha. induction n as [|n IH]; intros t u E Hm; destruct t; cbn in E; try (inversion E; subst; assumption);
    destruct (lookup s v) as [t'|] eqn:El; try easy; try (inversion E; subst; assumption).
  specialize (IH _ _ E Hm). destruct (lookup s0 v) as [t''|] eqn:E0.
  - pose proof (He _ _ E0). assert (t'' = t') by congruence. subst. eapply am_bound; eassumption.
  - apply am_free; [assumption|]. rewrite (amatch_value th l t' s He Ha IH). symmetry. now apply Ha.
Qed.

Lemma eval_amatch th l s n : extends s0 s -> agrees th s -> is_literal l = true ->
  forall r r', evaluate n r s = Ok r' -> amatch th l r' -> amatch th l r.
Proof.
  intros He Ha Hl. induction n as [|n IH]; intros r r' E Hm; [easy|].
  assert (Hsc : is_scalar_const r' -> False).
  { intro Hsc. destruct r'; try contradiction Hsc; inversion Hm; subst; congruence. }
  destruct r;
    try (rewrite evaluate_S in E; inversion E; subst; assumption);
    try (exfalso; apply Hsc; eapply evaluate_expr_const; [|exact E]; exact I).
  rewrite evaluate_S in E. destruct (bound s v); [|inversion E; subst; assumption].
  destruct (deref (TVar v) s) as [u|] eqn:Ed; [|easy].
  eapply deref_amatch; [exact He|exact Ha|exact Ed|]. eapply IH; eassumption.
Qed.

Definition asound (u : term -> term -> bst -> res (option N) * bst) : Prop :=
  forall l r st cp st', u l r st = (Ok (Some cp), st') -> aplain l -> aplain r -> ainv (b_scope st) ->
    ainv (b_scope st') /\ forall th, agrees th (b_scope st') -> agrees th (b_scope st) /\ amatch th l r.

Lemma annot_find_spec n la ras closed : forall st ra st', annot_find (uann n) la ras closed st = (Ok (Some ra), st') ->
  In ra ras /\ py_in ra closed = false /\ exists st0 cp, b_scope st0 = b_scope st /\ b_stack st0 = b_stack st /\
    uann n la ra st0 = (Ok (Some cp), st').
Proof.
  induction ras as [|x ras IH]; intros st ra st' E; cbn in E; [discriminate E|].
  destruct (py_in x closed) eqn:Ep.
  - destruct (IH _ _ _ E) as (A & B & C). split; [now right|]. split; assumption.
  - destruct (uann n la x st) as [[[cp|]|] st1] eqn:Eu; [| |discriminate E].
    + inversion E; subst. split; [now left|]. split; [assumption|]. exists st, cp. auto.
    + pose proof (uann_trail n _ _ _ _ _ Eu) as [_ Hr]. destruct (Hr eq_refl) as [R1 R2].
      destruct (IH _ _ _ E) as (A & B & (st0 & cp & C1 & C2 & C3)). split; [now right|]. split; [assumption|].
      exists st0, cp. split; [congruence|]. split; [congruence|assumption].
Qed.

Lemma annots_match_sound n ras : asound (uann n) -> Forall aplain ras -> forall las closed st st',
  annots_match (uann n) las ras closed st = (Ok true, st') -> Forall aplain las -> ainv (b_scope st) ->
  ainv (b_scope st') /\ exists ms, incl ms ras /\ NoDup ms /\ Forall (fun m => py_in m closed = false) ms /\
    forall th, agrees th (b_scope st') -> agrees th (b_scope st) /\ Forall2 (amatch th) las ms.
Proof.
  intros Hu Hr las. induction las as [|la las IH]; intros closed st st' E Hl Hi; cbn in E.
  - inversion E; subst. split; [assumption|]. exists []. split; [easy|]. split; [constructor|]. split; [constructor|].
    intros th Ha. split; [assumption|constructor].
  - inversion Hl; subst.
    destruct (annot_find (uann n) la ras closed st) as [[[ra|]|] st1] eqn:Ef; try discriminate E.
    apply annot_find_spec in Ef as (A & B & (st0 & cp & C1 & C2 & C3)).
    assert (Hra : aplain ra) by (rewrite Forall_forall in Hr; auto).
    destruct (Hu _ _ _ _ _ C3 ltac:(assumption) Hra) as [I1 M1]; [now rewrite C1|].
    destruct (IH _ _ _ E ltac:(assumption) I1) as [I2 (ms & M2 & M3 & M4 & M5)].
    split; [assumption|]. exists (ra :: ms). split; [|split; [|split]].
    + intros x [->|Hx]; auto.
    + constructor; [|assumption]. intro Hin. rewrite Forall_forall in M4. apply M4 in Hin.
      cbn in Hin. rewrite py_eqb_refl in Hin; [discriminate Hin|]. now apply aplain_nonan.
    + constructor; [assumption|]. eapply Forall_impl; [|exact M4]. intros m Hm. cbn in Hm. now apply orb_false_elim in Hm.
    + intros th Ha. destruct (M5 th Ha) as [A1 A2]. destruct (M1 th A1) as [A3 A4]. rewrite <- C1.
      split; [assumption|]. constructor; assumption.
Qed.

Lemma resolved_not_expr n r s r' : evaluate n r s = Ok r' -> match r' with TUn _ _ | TBin _ _ _ => False | _ => True end.
Proof.
  revert r. induction n as [|n IH]; intros r E; [easy|].
  destruct r;
    try (rewrite evaluate_S in E; inversion E; subst; exact I);
    try (apply evaluate_expr_const in E; [destruct r'; easy|exact I]).
  rewrite evaluate_S in E. destruct (bound s v); [|inversion E; subst; exact I].
  destruct (deref (TVar v) s) as [u|] eqn:Ed; [|easy]. eapply IH; exact E.
Qed.

Theorem uann_sound n : asound (uann n).
Proof.
  induction n as [|n IH]; intros l r st cp st' E Hl Hr Hi; [easy|].
  rewrite uann_S in E. cbn [new_cp] in E.
  set (st0 := mkbst (b_scope st) (b_stack st) (N.succ (b_ncp st))) in *.
  assert (HU : forall l r st1 st2, b_scope st1 = b_scope st -> aplain l -> aplain r ->
     unify n l r st1 = (Ok true, st2) -> ainv (b_scope st2) /\
     forall th, agrees th (b_scope st2) -> agrees th (b_scope st) /\ value th l = value th r).
  { intros l' r' st1 st2 Hst Hl' Hr' Eu. rewrite <- Hst in Hi |- *. split.
    - eapply unify_inv; [apply aplain_hereditary|exact Eu|assumption|assumption|exact Hi].
    - pose proof (unify_sound_fin s0 ex n l' r' st1 true st2 Eu (aplain_plain _ Hl') (aplain_plain _ Hr') (ainv_good _ Hi)) as [_ HS].
      intros th. apply HS. }
  destruct (is_literal l) eqn:El.
  2:{ assert (E' : match unify n l r (push_cp (b_ncp st) st0) with
          | (Err e, st1) => (Err e, st1)
          | (Ok true, st1) => (Ok (Some (b_ncp st)), st1)
          | (Ok false, st1) => (Ok None, reroll st1 (b_ncp st))
          end = (Ok (Some cp), st')) by (destruct l; try discriminate El; exact E).
      destruct (unify n l r (push_cp (b_ncp st) st0)) as [[[]|] st1] eqn:Eu; try discriminate E'.
      inversion E'; subst. destruct (HU l r (push_cp (b_ncp st) st0) _ eq_refl Hl Hr Eu) as [A B]. split; [assumption|].
      intros th Ha. destruct (B th Ha). split; [assumption|]. now apply am_other. }
  destruct l as [| | | | | | |f args las| |]; try discriminate El.
  destruct (evaluate n r (b_scope st)) as [r'|] eqn:Er; [|discriminate E].
  assert (Hr' : aplain r').
  { destruct Hi as (C & g & S). eapply aplain_evaluate; [exact g|exact S|exact Hr|exact Er]. }
  assert (He : extends s0 (b_scope st)) by apply Hi.
  assert (HB : forall th, agrees th (b_scope st) -> amatch th (TLit f args las) r' -> amatch th (TLit f args las) r)
    by (intros th Ha; eapply eval_amatch; [exact He|exact Ha|reflexivity|exact Er]).
  assert (Hother : forall st1, match r' with TVar _ | TWild _ | TLit _ _ _ | TUn _ _ | TBin _ _ _ => False | _ => True end ->
    fst (unify n (TLit f args las) r' st1) <> Ok true).
  { intros st1 Hn. destruct n as [|n]; [easy|]. rewrite unify_S. destruct n as [|n]; [easy|].
    rewrite evaluate_S. destruct r'; try contradiction Hn; easy. }
  destruct r' as [b|x|s|v|w|op a|op a b|f' args' ras|ts|h t].
  - specialize (Hother (push_cp (b_ncp st) st0) I). destruct (unify n _ (TBool b) _) as [[[]|] st1]; cbn in Hother; try discriminate E; now contradiction Hother.
  - specialize (Hother (push_cp (b_ncp st) st0) I). destruct (unify n _ (TNum x) _) as [[[]|] st1]; cbn in Hother; try discriminate E; now contradiction Hother.
  - specialize (Hother (push_cp (b_ncp st) st0) I). destruct (unify n _ (TStr s) _) as [[[]|] st1]; cbn in Hother; try discriminate E; now contradiction Hother.
  - destruct (unify n (TVar v) (TLit f args las) st0) as [[[]|] st1] eqn:Eu; try discriminate E.
    inversion E; subst. destruct (HU _ _ st0 _ eq_refl Hr' Hl Eu) as [A B]. split; [assumption|].
    intros th Ha. destruct (B th Ha) as [B1 B2]. split; [assumption|]. apply HB; [assumption|].
    apply am_free; [|now symmetry]. pose proof (evaluate_var_unbound _ _ _ _ Er) as Hb.
    destruct (lookup s0 v) as [t|] eqn:E0; [|reflexivity]. apply He in E0. apply bound_false in Hb. congruence.
  - inversion Hr'.
  - now apply resolved_not_expr in Er.
  - now apply resolved_not_expr in Er.
  - destruct (unify n (TLit f args las) (TLit f' args' ras) (push_cp (b_ncp st) st0)) as [[[]|] st1] eqn:Eu; try discriminate E.
    destruct (annots_match (uann n) las (lit_annots (TLit f' args' ras)) [] st1) as [[[]|] st2] eqn:Ea; try discriminate E.
    inversion E; subst. destruct (HU _ _ (push_cp (b_ncp st) st0) _ eq_refl Hl Hr' Eu) as [A B].
    inversion Hl; inversion Hr'; subst. cbn [lit_annots] in Ea.
    destruct (annots_match_sound n ras IH ltac:(assumption) las [] st1 st' Ea ltac:(assumption) A) as [A2 (ms & M1 & M2 & M3 & M4)].
    split; [assumption|]. intros th Ha. destruct (M4 th Ha) as [B1 B2]. destruct (B th B1) as [B3 B4].
    split; [assumption|]. apply HB; [assumption|]. eapply am_lit; eassumption.
  - specialize (Hother (push_cp (b_ncp st) st0) I). destruct (unify n _ (TTup ts) _) as [[[]|] st1]; cbn in Hother; try discriminate E; now contradiction Hother.
  - specialize (Hother (push_cp (b_ncp st) st0) I). destruct (unify n _ (TLL h t) _) as [[[]|] st1]; cbn in Hother; try discriminate E; now contradiction Hother.
Qed.
End Sound.

Theorem uann_sound_top ex n l r st cp st' :
  aplain (b_scope st) ex l -> aplain (b_scope st) ex r ->
  aplain_scope (b_scope st) ex (b_scope st) -> chain_ok (b_scope st) ->
  uann n l r st = (Ok (Some cp), st') ->
  forall th, agrees ex th (b_scope st') -> agrees ex th (b_scope st) /\ amatch (b_scope st) ex th l r.
Proof.
  intros Hl Hr Hs Hc E. eapply (uann_sound (b_scope st) ex n l r st cp st' E Hl Hr).
  split; [assumption|]. split; [split; [apply extends_refl|assumption]|exact Hs].
Qed.

(** * Resuming *)
Theorem uann_resume_exact n l r st cp st1 os :
  (is_literal l = false \/ forall k r', evaluate k r (b_scope st) = Ok r' -> match r' with TVar _ | TWild _ => False | _ => True end) ->
  uann n l r st = (Ok (Some cp), st1) ->
  let st2 := uann_resume cp (run_bops os st1) in
  b_scope st2 = b_scope st /\ b_stack st2 = b_stack st.
Proof.
  intros Hnv E.
  assert (HT : cp = b_ncp st /\ trail (push_cp (b_ncp st) (snd (new_cp st))) st1).
  { destruct n as [|n]; [easy|]. rewrite uann_S in E. cbn [new_cp snd] in E |- *.
    set (st0 := mkbst (b_scope st) (b_stack st) (N.succ (b_ncp st))) in *.
    assert (H1 : match unify n l r (push_cp (b_ncp st) st0) with
          | (Err e, st1) => (Err e, st1)
          | (Ok true, st1) => (Ok (Some (b_ncp st)), st1)
          | (Ok false, st1) => (Ok None, reroll st1 (b_ncp st))
          end = (Ok (Some cp), st1) -> cp = b_ncp st /\ trail (push_cp (b_ncp st) st0) st1).
    { intro E'. destruct (unify n l r (push_cp (b_ncp st) st0)) as [[[]|] st2] eqn:Eu; try discriminate E'.
      inversion E'; subst. split; [reflexivity|]. apply vtrail_trail. eapply unify_vtrail; exact Eu. }
    destruct l; try (apply H1; exact E). destruct Hnv as [Hnv|Hnv]; [discriminate Hnv|].
    destruct (evaluate n r (b_scope st)) as [r'|] eqn:Er; [|discriminate E]. specialize (Hnv _ _ Er).
    assert (E' : match unify n (TLit f args annots) r' (push_cp (b_ncp st) st0) with
                  | (Err e, st1) => (Err e, st1)
                  | (Ok false, st1) => (Ok None, reroll st1 (b_ncp st))
                  | (Ok true, st1) =>
                      match annots_match (uann n) annots (lit_annots r') [] st1 with
                      | (Err e, st2) => (Err e, st2)
                      | (Ok false, st2) => (Ok None, reroll st2 (b_ncp st))
                      | (Ok true, st2) => (Ok (Some (b_ncp st)), st2)
                      end
                  end = (Ok (Some cp), st1)) by (destruct r'; try contradiction Hnv; exact E).
    destruct (unify n _ r' _) as [[[]|] st2] eqn:Eu; try discriminate E'.
    destruct (annots_match _ _ _ _ _) as [[[]|] st3] eqn:Ea; try discriminate E'.
    inversion E'; subst. split; [reflexivity|]. apply unify_vtrail, vtrail_trail in Eu.
    eapply trail_trans; [exact Eu|]. eapply annots_match_trail; [apply uann_trail|exact Ea]. }
  destruct HT as [-> HT]. cbn zeta. unfold uann_resume.
  destruct (reroll_trail st (run_bops os st1)) as [H _].
  - eapply trail_trans; [exact HT|]. apply run_bops_trail.
  - rewrite H. split; reflexivity.
Qed.

(** An unsuccessful match leaves nothing behind. *)
Theorem uann_none_exact n l r st st1 : uann n l r st = (Ok None, st1) ->
  b_scope st1 = b_scope st /\ b_stack st1 = b_stack st.
Proof. intro E. now apply (uann_trail n l r st _ st1 E). Qed.

(** * Variable-free annotations *)
Fixpoint tsize (t : term) : nat :=
  match t with
  | TLit _ args _ => S ((fix go (l : list term) := match l with [] => O | x :: l' => (S (tsize x) + go l')%nat end) args)
  | TTup ts => S ((fix go (l : list term) := match l with [] => O | x :: l' => (S (tsize x) + go l')%nat end) ts)
  | TLL h t => S (S (tsize h + tsize t))
  | _ => 1
  end.

Definition lsize (l : list term) : nat := fold_right (fun x n => S (tsize x) + n)%nat O l.
Lemma tsize_lit f args annots : tsize (TLit f args annots) = S (lsize args).
Proof. reflexivity. Qed.
Lemma tsize_tup ts : tsize (TTup ts) = S (lsize ts).
Proof. reflexivity. Qed.

Definition fclosed := closed.
Notation fv := flat_value.

Lemma fv_tup_cons x xs : fv (TTup (x :: xs)) = VCons (fv x) (fv (TTup xs)).
Proof. reflexivity. Qed.
Lemma fv_ll h t : fv (TLL h t) = VCons (fv h) (fv t).
Proof. reflexivity. Qed.

Lemma fv_tup_eq xs : forall ys, fv (TTup xs) = fv (TTup ys) <-> map fv xs = map fv ys.
Proof.
  induction xs as [|x xs IH]; intros [|y ys]; cbn [map]; rewrite ?fv_tup_cons; split; intro H; try discriminate H; try reflexivity.
  - injection H as H1 H2. rewrite H1. f_equal. now apply IH.
  - injection H as H1 H2. rewrite H1. f_equal. now apply IH.
Qed.

Definition cgood (l r : term) (st : bst) (o : res bool * bst) : Prop :=
  exists b, o = (Ok b, st) /\ (b = true <-> fv l = fv r).

Lemma closed_evaluate_id n t s : fclosed t -> evaluate (S n) t s = Ok t.
Proof. intro H. rewrite evaluate_S. destruct H; reflexivity. Qed.

Lemma cgood_false l r st : fv l <> fv r -> cgood l r st (Ok false, st).
Proof. intro H. exists false. split; [reflexivity|]. split; [discriminate|]. now intro. Qed.

Lemma cgood_sym l r st o : cgood l r st o -> cgood r l st o.
Proof. intros (b & E & H). exists b. split; [assumption|]. rewrite H. split; intro; now symmetry. Qed.

Section ClosedStep.
Variable k : nat.
Variable n : nat.
Hypothesis IH : forall l r st, (tsize l + tsize r < k)%nat -> fclosed l -> fclosed r -> cgood l r st (unify n l r st).

Lemma all_closed ls : forall rs st, (lsize ls + lsize rs < k)%nat -> List.length ls = List.length rs ->
  Forall fclosed ls -> Forall fclosed rs ->
  exists b, all_unify (unify n) ls rs st = (Ok b, st) /\ (b = true <-> map fv ls = map fv rs).
Proof.
  induction ls as [|l ls IHl]; intros [|r rs] st Hk Hlen Hl Hr; try discriminate Hlen.
  - exists true. split; [reflexivity|]. now split.
  - inversion Hl; inversion Hr; subst.
    change (S (tsize l) + lsize ls + (S (tsize r) + lsize rs) < k)%nat in Hk. injection Hlen as Hlen.
    destruct (IH l r st) as (b & E & Hb); [lia|assumption|assumption|]. cbn. rewrite E. destruct b.
    + destruct (IHl rs st) as (b2 & E2 & Hb2); [lia|assumption|assumption|assumption|]. exists b2. split; [assumption|].
      rewrite Hb2. split; intro HH; [f_equal; [now apply Hb|assumption]|now injection HH].
    + exists false. split; [reflexivity|]. split; [discriminate|]. intro HH. injection HH as HH _. apply Hb in HH. discriminate.
Qed.

Lemma pair_closed h t h' t' st : (tsize h + tsize h' < k)%nat -> (tsize t + tsize t' < k)%nat ->
  fclosed h -> fclosed t -> fclosed h' -> fclosed t' ->
  exists b, match unify n h h' st with (Ok true, st1) => unify n t t' st1 | y => y end = (Ok b, st) /\
    (b = true <-> VCons (fv h) (fv t) = VCons (fv h') (fv t')).
Proof.
  intros K1 K2 C1 C2 C3 C4. destruct (IH h h' st K1 C1 C3) as (b & E & Hb). rewrite E. destruct b.
  - destruct (IH t t' st K2 C2 C4) as (b2 & E2 & Hb2). exists b2. split; [assumption|]. rewrite Hb2.
    assert (fv h = fv h') by now apply Hb. split; intro HH; [congruence|now injection HH].
  - exists false. split; [reflexivity|]. split; [discriminate|]. intro HH. injection HH as HH _. apply Hb in HH. discriminate.
Qed.
End ClosedStep.

Lemma fv_num_eq x y : is_nan x = false -> fv (TNum x) = fv (TNum y) <-> num_eqb x y = true.
Proof.
  intro Hx. rewrite num_eqb_canon. unfold flat_value. cbn. split.
  - intro H. injection H as H. auto.
  - intros [H _]. congruence.
Qed.

Lemma cu_lit n k f args annots r st : (forall l r st, (tsize l + tsize r < k)%nat -> fclosed l -> fclosed r -> cgood l r st (unify (S n) l r st)) ->
  (tsize (TLit f args annots) + tsize r <= k)%nat -> Forall fclosed args -> fclosed r ->
  cgood (TLit f args annots) r st (unify (S (S n)) (TLit f args annots) r st).
Proof.
  intros IH Hk Ha Hr. rewrite unify_S, closed_evaluate_id by assumption.
  destruct Hr as [b|x Hx|s|f' args' annots' Hr|ts Hr|h t H1 H2]; try (apply cgood_false; easy).
  2:{ apply cgood_false. destruct ts; easy. }
  destruct (pystr_eqb f f') eqn:Ef; cbn [andb].
  2:{ apply cgood_false. intro E. injection E as E _. subst. rewrite pystr_eqb_refl in Ef. discriminate. }
  apply pystr_eqb_eq in Ef. subst f'.
  destruct (Nat.eqb (List.length args) (List.length args')) eqn:El.
  - apply Nat.eqb_eq in El. rewrite !tsize_lit in Hk.
    destruct (all_closed k (S n) IH args args' st) as (b & E & Hb); try assumption; [lia|].
    exists b. split; [assumption|]. rewrite Hb.
    change (map fv args = map fv args' <-> VLit f (map fv args) = VLit f (map fv args')). split; intro HH; [now rewrite HH|now injection HH].
  - apply Nat.eqb_neq in El. apply cgood_false. intro E. injection E as E. apply El.
    rewrite <- (map_length fv args), <- (map_length fv args'). change (map fv args = map fv args') in E. now rewrite E.
Qed.

Lemma cu_ll n k h t r st : (forall l r st, (tsize l + tsize r < k)%nat -> fclosed l -> fclosed r -> cgood l r st (unify (S n) l r st)) ->
  (tsize (TLL h t) + tsize r <= k)%nat -> fclosed h -> fclosed t -> fclosed r ->
  cgood (TLL h t) r st (unify (S (S n)) (TLL h t) r st).
Proof.
  intros IH Hk Hh Ht Hr. rewrite unify_S, closed_evaluate_id by assumption.
  destruct Hr as [b|x Hx|s|f' args' annots' Hr|ts Hr|h' t' H1 H2]; try (apply cgood_false; easy).
  - destruct ts as [|x xs]; [apply cgood_false; easy|]. inversion Hr; subst.
    cbn [tsize] in Hk.
    assert (Hs : (tsize (TTup xs) = S (lsize xs))%nat) by apply tsize_tup.
    assert (Hs2 : (tsize (TTup (x :: xs)) = S (S (tsize x) + lsize xs))%nat) by (rewrite tsize_tup; reflexivity).
    change (tsize (TLL h t) + tsize (TTup (x :: xs)) <= k)%nat in Hk. rewrite Hs2 in Hk. cbn [tsize] in Hk.
    destruct (pair_closed k (S n) IH h t x (TTup xs) st) as (b & E & Hb); try assumption; [lia|rewrite Hs; lia|now constructor|].
    exists b. split; [exact E|]. rewrite Hb. reflexivity.
  - cbn [tsize] in Hk.
    destruct (pair_closed k (S n) IH h t h' t' st) as (b & E & Hb); try assumption; [lia|lia|].
    exists b. split; [exact E|]. rewrite Hb. reflexivity.
Qed.

Theorem closed_unify : forall k l r st n, (tsize l + tsize r <= k)%nat -> (2 * k + 2 <= n)%nat -> fclosed l -> fclosed r ->
  cgood l r st (unify n l r st).
Proof.
  induction k as [k IHk] using lt_wf_ind. intros l r st n Hk Hn Hl Hr.
  assert (Hp : (1 <= tsize l)%nat /\ (1 <= tsize r)%nat) by (split; [destruct l|destruct r]; cbn; lia).
  destruct k as [|k]; [lia|]. destruct n as [|[|n]]; try lia.
  assert (IH : forall l r st n, (tsize l + tsize r < S k)%nat -> (2 * k + 2 <= n)%nat -> fclosed l -> fclosed r ->
     cgood l r st (unify n l r st)).
  { intros l' r' st' n' Hlt Hn' Hl' Hr'. eapply (IHk k); [lia|lia|lia|assumption|assumption]. }
  assert (HL : forall f args annots r st, fclosed (TLit f args annots) -> fclosed r -> (tsize (TLit f args annots) + tsize r <= S k)%nat ->
     forall m, (2 * k + 3 <= m)%nat -> cgood (TLit f args annots) r st (unify m (TLit f args annots) r st)).
  { intros f args annots r' st' Hc Hc' Hks [|[|m]] Hm; try lia. eapply cu_lit; [|exact Hks|now inversion Hc|assumption].
    intros; apply IH; try assumption; lia. }
  assert (HLL : forall h t r st, fclosed (TLL h t) -> fclosed r -> (tsize (TLL h t) + tsize r <= S k)%nat ->
     forall m, (2 * k + 3 <= m)%nat -> cgood (TLL h t) r st (unify m (TLL h t) r st)).
  { intros h t r' st' Hc Hc' Hks [|[|m]] Hm; try lia. inversion Hc; subst. eapply cu_ll; [|exact Hks|assumption|assumption|assumption].
    intros; apply IH; try assumption; lia. }
  assert (Hsw : match r with TLit _ _ _ | TLL _ _ => True | _ => False end -> cgood l r st (unify (S n) r l st)).
  { intro Hrr. apply cgood_sym. destruct r; try contradiction Hrr; [apply HL|apply HLL]; try assumption; lia. }
  destruct l; try (exfalso; inversion Hl; fail).
  - rewrite unify_S. destruct r; try (exfalso; inversion Hr; fail); cbn [has_unify];
      try (apply Hsw; exact I); try (apply cgood_false; easy).
    + exists (Bool.eqb b b0). split; [reflexivity|]. unfold flat_value. cbn. destruct b, b0; cbn; split; congruence.
    + apply cgood_false. destruct ts; easy.
  - rewrite unify_S. inversion Hl; subst. destruct r; try (exfalso; inversion Hr; fail); cbn [has_unify];
      try (apply Hsw; exact I); try (apply cgood_false; easy).
    + eexists. split; [reflexivity|]. rewrite fv_num_eq by assumption. reflexivity.
    + exists false. split; [reflexivity|]. split; [discriminate|]. destruct ts; easy.
  - rewrite unify_S. inversion Hl; subst. destruct r; try (exfalso; inversion Hr; fail); cbn [has_unify];
      try (apply Hsw; exact I); try (apply cgood_false; easy).
    + eexists. split; [reflexivity|]. cbn [py_eqb]. rewrite pystr_eqb_eq. unfold flat_value. cbn. split; congruence.
    + exists false. split; [reflexivity|]. split; [discriminate|]. destruct ts; easy.
  - apply HL; try assumption; lia.
  - rewrite unify_S. inversion Hl; subst. destruct r; try (exfalso; inversion Hr; fail); cbn [has_unify];
      try (apply Hsw; exact I).
    + apply cgood_false. destruct ts; easy.
    + exists false. split; [destruct ts; reflexivity|]. split; [discriminate|]. destruct ts; easy.
    + exists false. split; [destruct ts; reflexivity|]. split; [discriminate|]. destruct ts; easy.
    + inversion Hr; subst. destruct (Nat.eqb (List.length ts) (List.length ts0)) eqn:El.
      * apply Nat.eqb_eq in El. rewrite !tsize_tup in Hk.
        destruct (all_closed (S k) (S n)) with (ls := ts) (rs := ts0) (st := st) as (b & E & Hb); try assumption.
        -- intros; apply IH; try assumption; lia.
        -- lia.
        -- exists b. split; [assumption|]. rewrite Hb. symmetry. apply fv_tup_eq.
      * apply Nat.eqb_neq in El. apply cgood_false. rewrite fv_tup_eq. intro E. apply El.
        rewrite <- (map_length fv ts), <- (map_length fv ts0). now rewrite E.
  - apply HLL; try assumption; lia.
Qed.

End WithPy.
