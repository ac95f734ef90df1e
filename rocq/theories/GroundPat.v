(** Matching a pattern whose variables are all bound (to variable-free terms)
    with a closed term: nothing is bound, and the result is whether the values
    are equal. *)
From Verif Require Import Base Num Term Unify TrailFacts FuelFacts ChainFacts TermSpec WildSpec InstSpec UnifySem UnifyTerm FreezeFacts PatMatch AnnotSpec AnnotFacts PatTotal.

Section WithPy.
Context {PY : Py}.
Variable s : scope.
Hypothesis Hch : chain_ok s.
Notation ginst := (inst s (fun _ => None)).
Notation fv := flat_value.

Definition at_s (st : bst) : Prop := b_scope st = s.

Definition gd (p c : term) (st : bst) (b : bool) : Prop :=
  (exists n, unify n p c st = (Ok b, st)) /\ (exists n, unify n c p st = (Ok b, st)).

(** Following variables. *)
Lemma deref_ginst n : forall t u t', deref_loop n t s = Ok u -> ginst t t' -> ginst u t'.
Proof.
  induction n as [|n IH]; intros t u t' E H; destruct t; cbn in E; try (inversion E; subst; assumption);
    destruct (lookup s v) as [w|] eqn:El; try discriminate E; try (inversion E; subst; assumption).
  eapply IH; [exact E|]. inversion H; subst; congruence.
Qed.

Lemma ginst_evaluate p p' : ginst p p' -> closed p' -> exists n0 q,
  (forall n, (n0 <= n)%nat -> evaluate n p s = Ok q) /\ ginst q p' /\
  match q with TVar _ | TWild _ | TUn _ _ | TBin _ _ _ => False | _ => True end.
Proof.
  intros H Hc.
  assert (HE : forall e, match e with TUn _ _ | TBin _ _ _ => True | _ => False end -> ginst e p' ->
     exists n0 q, (forall n, (n0 <= n)%nat -> evaluate n e s = Ok q) /\ ginst q p' /\
       match q with TVar _ | TWild _ | TUn _ _ | TBin _ _ _ => False | _ => True end).
  { intros e He Hi. assert (Hev : evals s e p') by (destruct e; try contradiction He; now inversion Hi).
    destruct Hev as [k Hk]. exists k, p'. split; [intros n Hn; eapply evaluate_more; eassumption|].
    apply evaluate_expr_const in Hk; [|exact He]. destruct p'; try contradiction Hk; split; try exact I; constructor. }
  destruct p; try (now apply HE);
    try (eexists 1%nat, _; split; [intros n Hn; destruct n as [|n]; [lia|]; rewrite evaluate_S; reflexivity|split; [exact H|exact I]]).
  - destruct (deref_ok s (TVar v) Hch) as [l Hl]. assert (Hil := deref_ginst _ _ _ _ Hl H).
    assert (Hb : bound s v = true) by (inversion H as [| | | |? ? ? Hlk| ? ? ? Hf| | | | |]; subst; [unfold bound; now rewrite Hlk|discriminate Hf]).
    assert (HX : exists n0 q, (forall n, (n0 <= n)%nat -> evaluate n l s = Ok q) /\ ginst q p' /\
       match q with TVar _ | TWild _ | TUn _ _ | TBin _ _ _ => False | _ => True end).
    { destruct l; try (now apply HE);
        try (eexists 1%nat, _; split; [intros n Hn; destruct n as [|n]; [lia|]; rewrite evaluate_S; reflexivity|split; [exact Hil|exact I]]).
      - apply deref_loop_unbound in Hl. inversion Hil; subst; [|easy]. unfold bound in Hl. now rewrite H1 in Hl.
      - inversion Hil; subst. inversion Hc. }
    destruct HX as (n0 & q & A & B & C). exists (S n0), q. split; [|now split].
    intros n Hn. destruct n as [|n]; [lia|]. rewrite evaluate_S, Hb, Hl. apply A. lia.
  - inversion H; subst. inversion Hc.
Qed.

Section Step.
Variable k : nat.
Hypothesis IH : forall c, (tsize c < k)%nat -> closed c -> forall p p', ginst p p' -> closed p' -> forall st, at_s st ->
  exists b, gd p c st b /\ (b = true <-> fv p' = fv c).

Lemma list_gd ps ps' : Forall2 ginst ps ps' -> forall cs st, (lsize cs < k)%nat -> Forall closed cs -> Forall closed ps' -> at_s st ->
  List.length ps' = List.length cs ->
  exists b, (exists n, all_unify (unify n) ps cs st = (Ok b, st)) /\ (exists n, all_unify (unify n) cs ps st = (Ok b, st)) /\
    (b = true <-> map fv ps' = map fv cs).
Proof.
  induction 1 as [|p p' ps ps' Hi HF IHl]; intros cs st Hk Hc Hp Hs Hlen.
  - destruct cs; [|discriminate Hlen]. exists true. split; [exists 0%nat; reflexivity|]. split; [exists 0%nat; reflexivity|]. now split.
  - destruct cs as [|c cs]; [discriminate Hlen|]. injection Hlen as Hlen. inversion Hc; inversion Hp; subst.
    change (S (tsize c) + lsize cs < k)%nat in Hk.
    destruct (IH c ltac:(lia) ltac:(assumption) p p' Hi ltac:(assumption) st Hs) as (b & [[n1 E1] [n2 E2]] & Hb).
    destruct b.
    + destruct (IHl cs st ltac:(lia) ltac:(assumption) ltac:(assumption) Hs Hlen) as (b & [m1 F1] & [m2 F2] & Hb2).
      exists b. split; [|split].
      * exists (n1 + m1)%nat. cbn. rewrite (unify_more n1 (n1 + m1) _ _ _ _ _ ltac:(lia) E1). eapply all_unify_more; [|exact F1]. lia.
      * exists (n2 + m2)%nat. cbn. rewrite (unify_more n2 (n2 + m2) _ _ _ _ _ ltac:(lia) E2). eapply all_unify_more; [|exact F2]. lia.
      * rewrite Hb2. cbn. split; intro HH; [f_equal; [now apply Hb|assumption]|now injection HH].
    + exists false. split; [exists n1; cbn; now rewrite E1|]. split; [exists n2; cbn; now rewrite E2|].
      split; [discriminate|]. intro HH. cbn in HH. injection HH as HH _. apply Hb in HH. discriminate.
Qed.

Lemma pair_gd p p' q q' c d st : (tsize c < k)%nat -> (tsize d < k)%nat -> closed c -> closed d ->
  ginst p p' -> closed p' -> ginst q q' -> closed q' -> at_s st ->
  exists b, (exists n, match unify n p c st with (Ok true, st1) => unify n q d st1 | y => y end = (Ok b, st)) /\
    (exists n, match unify n c p st with (Ok true, st1) => unify n d q st1 | y => y end = (Ok b, st)) /\
    (b = true <-> VCons (fv p') (fv q') = VCons (fv c) (fv d)).
Proof.
  intros K1 K2 C1 C2 I1 C3 I2 C4 Hs.
  destruct (IH c K1 C1 p p' I1 C3 st Hs) as (b & [[n1 E1] [n2 E2]] & Hb). destruct b.
  - destruct (IH d K2 C2 q q' I2 C4 st Hs) as (b & [[m1 F1] [m2 F2]] & Hb2). exists b. split; [|split].
    + exists (n1 + m1)%nat. rewrite (unify_more n1 (n1 + m1) _ _ _ _ _ ltac:(lia) E1). eapply unify_more; [|exact F1]. lia.
    + exists (n2 + m2)%nat. rewrite (unify_more n2 (n2 + m2) _ _ _ _ _ ltac:(lia) E2). eapply unify_more; [|exact F2]. lia.
    + rewrite Hb2. assert (fv p' = fv c) by now apply Hb. split; intro HH; [congruence|now injection HH].
  - exists false. split; [exists n1; now rewrite E1|]. split; [exists n2; now rewrite E2|].
    split; [discriminate|]. intro HH. injection HH as HH _. apply Hb in HH. discriminate.
Qed.

Lemma gd_false p c p' st : (exists n, unify n p c st = (Ok false, st)) -> (exists n, unify n c p st = (Ok false, st)) -> fv p' <> fv c ->
  exists b, gd p c st b /\ (b = true <-> fv p' = fv c).
Proof. intros A B C. exists false. split; [now split|]. split; [discriminate|now intro]. Qed.

Lemma gd_resolved c q p' : (tsize c <= k)%nat -> closed c -> ginst q p' -> closed p' ->
  match q with TVar _ | TWild _ | TUn _ _ | TBin _ _ _ => False | _ => True end -> forall st, at_s st ->
  exists b, gd q c st b /\ (b = true <-> fv p' = fv c).
Proof.
  intros Hk Hc Hi Hp Hq st Hs.
  assert (Eq : forall n, evaluate (S n) q (b_scope st) = Ok q) by (intro; rewrite evaluate_S; destruct q; try contradiction Hq; reflexivity).
  assert (Ec : forall n, evaluate (S n) c (b_scope st) = Ok c) by (intro; now apply closed_evaluate).
  destruct q as [bl|xl|sl|v|wl|opl al|opl al bl|f args annots|ls|h t]; try contradiction Hq; inversion Hi; subst.
  - destruct c as [br|xr|sr|vr|wr| | |f' args' an0|rs|h' t']; try (exfalso; inversion Hc; fail);
      try (apply gd_false; [exists 3%nat; rewrite unify_S; cbn [has_unify]; rewrite ?unify_S, ?Eq; reflexivity|exists 3%nat; rewrite unify_S, ?Eq; reflexivity|try easy; destruct rs; easy]).
    exists (Bool.eqb bl br). split.
    + split; [exists 1%nat; reflexivity|]. exists 1%nat. rewrite unify_S. cbn. now destruct bl, br.
    + unfold flat_value. cbn. destruct bl, br; cbn; split; congruence.
  - inversion Hp; subst.
    destruct c as [br|xr|sr|vr|wr| | |f' args' an0|rs|h' t']; try (exfalso; inversion Hc; fail);
      try (apply gd_false; [exists 3%nat; rewrite unify_S; cbn [has_unify]; rewrite ?unify_S, ?Eq; reflexivity|exists 3%nat; rewrite unify_S, ?Eq; try reflexivity; destruct rs; reflexivity|try easy; destruct rs; easy]).
    exists (num_eqb xl xr). split.
    + split; [exists 1%nat; reflexivity|]. exists 1%nat. rewrite unify_S. cbn. now rewrite PyEq.num_eqb_sym.
    + rewrite fv_num_eq by assumption. reflexivity.
  - destruct c as [br|xr|sr|vr|wr| | |f' args' an0|rs|h' t']; try (exfalso; inversion Hc; fail);
      try (apply gd_false; [exists 3%nat; rewrite unify_S; cbn [has_unify]; rewrite ?unify_S, ?Eq; reflexivity|exists 3%nat; rewrite unify_S, ?Eq; try reflexivity; destruct rs; reflexivity|try easy; destruct rs; easy]).
    exists (pystr_eqb sl sr). split.
    + split; [exists 1%nat; reflexivity|]. exists 1%nat. rewrite unify_S. cbn. now rewrite PyEq.pystr_eqb_sym.
    + rewrite pystr_eqb_eq. unfold flat_value. cbn. split; congruence.
  - inversion Hp; subst.
    match goal with HF : Forall2 _ args ?l |- _ => rename HF into HI; rename l into args2 end.
    destruct c as [br|xr|sr|vr|wr| | |f' args' an0|rs|h' t']; try (exfalso; inversion Hc; fail);
      try (apply gd_false; [exists 3%nat; rewrite unify_S, Ec; reflexivity|
          exists 4%nat; rewrite unify_S; cbn [has_unify]; rewrite ?Eq; try reflexivity; rewrite unify_S, Ec; reflexivity|try easy; destruct rs; easy]).
    inversion Hc; subst. rewrite tsize_lit in Hk.
    assert (Hl2 := Forall2_len _ _ _ HI).
    destruct (pystr_eqb_spec f f') as [->|Hff].
    + destruct (Nat.eqb_spec (List.length args) (List.length args')) as [El|El].
      * destruct (list_gd args args2 HI args' st ltac:(lia) ltac:(assumption) ltac:(assumption) Hs ltac:(congruence)) as (b & [n1 E1] & [n2 E2] & Hb).
        exists b. split; [split|].
        -- exists (S (S n1)). rewrite unify_S, Ec, pystr_eqb_refl, El, Nat.eqb_refl. cbn [andb]. eapply all_unify_more; [|exact E1]. lia.
        -- exists (S (S n2)). rewrite unify_S, Eq, pystr_eqb_refl, El, Nat.eqb_refl. cbn [andb]. eapply all_unify_more; [|exact E2]. lia.
        -- rewrite Hb. change (map fv args2 = map fv args' <-> VLit f' (map fv args2) = VLit f' (map fv args')). split; intro HH; [now rewrite HH|now injection HH].
      * apply gd_false.
        -- exists 2%nat. rewrite unify_S, Ec, pystr_eqb_refl. apply Nat.eqb_neq in El. now rewrite El.
        -- exists 2%nat. rewrite unify_S, Eq, pystr_eqb_refl. rewrite Nat.eqb_sym. apply Nat.eqb_neq in El. now rewrite El.
        -- intro E. change (VLit f' (map fv args2) = VLit f' (map fv args')) in E. injection E as E. apply El.
           rewrite Hl2, <- (map_length fv args2), <- (map_length fv args'). now rewrite E.
    + assert (F1 : pystr_eqb f f' = false) by (destruct (pystr_eqb_spec f f'); congruence).
      assert (F2 : pystr_eqb f' f = false) by (destruct (pystr_eqb_spec f' f); congruence).
      apply gd_false; [exists 2%nat; rewrite unify_S, Ec, F1; reflexivity|exists 2%nat; rewrite unify_S, Eq, F2; reflexivity|].
      intro E. change (VLit f (map fv args2) = VLit f' (map fv args')) in E. congruence.
  - inversion Hp; subst.
    match goal with HF : Forall2 _ ls ?l |- _ => rename HF into HI; rename l into ls2 end.
    assert (Hl2 := Forall2_len _ _ _ HI).
    destruct c as [br|xr|sr|vr|wr| | |f' args' an0|rs|h' t']; try (exfalso; inversion Hc; fail).
    1,2,3: apply gd_false; [exists 3%nat; rewrite unify_S; cbn [has_unify]; destruct ls; reflexivity|
          exists 3%nat; rewrite unify_S; cbn [has_unify]; destruct ls; reflexivity|destruct ls2; easy].
    + apply gd_false; [exists 3%nat; rewrite unify_S; cbn [has_unify]; rewrite unify_S, Eq; reflexivity|exists 3%nat; rewrite unify_S, Eq; reflexivity|destruct ls2; easy].
    + inversion Hc; subst. rewrite tsize_tup in Hk.
      destruct (Nat.eqb_spec (List.length ls) (List.length rs)) as [El|El].
      * destruct (list_gd ls ls2 HI rs st ltac:(lia) ltac:(assumption) ltac:(assumption) Hs ltac:(congruence)) as (b & [n1 E1] & [n2 E2] & Hb).
        exists b. split; [split|].
        -- exists (S n1). rewrite unify_S. cbn [has_unify]. rewrite El, Nat.eqb_refl. exact E1.
        -- exists (S n2). rewrite unify_S. cbn [has_unify]. rewrite El, Nat.eqb_refl. exact E2.
        -- rewrite Hb. symmetry. apply fv_tup_eq.
      * apply gd_false.
        -- exists 1%nat. rewrite unify_S. cbn [has_unify]. apply Nat.eqb_neq in El. now rewrite El.
        -- exists 1%nat. rewrite unify_S. cbn [has_unify]. rewrite Nat.eqb_sym. apply Nat.eqb_neq in El. now rewrite El.
        -- rewrite fv_tup_eq. intro E. apply El. rewrite Hl2, <- (map_length fv ls2), <- (map_length fv rs). now rewrite E.
    + inversion Hc; subst. cbn [tsize] in Hk.
      destruct HI as [|x x' xs xs' Hx Hxs].
      * apply gd_false; [exists 3%nat; rewrite unify_S; cbn [has_unify]; rewrite unify_S, Eq; reflexivity|exists 3%nat; rewrite unify_S, Eq; reflexivity|easy].
      * match goal with HF : Forall closed (_ :: _) |- _ => inversion HF; subst end.
        destruct (pair_gd x x' (TTup xs) (TTup xs') h' t' st) as (b & _ & [n2 E2] & Hb); try assumption; try lia; try reflexivity; [now constructor|now constructor|].
        assert (HU : unify (S (S n2)) (TLL h' t') (TTup (x :: xs)) st = (Ok b, st)).
        { rewrite unify_S, Eq. eapply unify_pair_more; [|exact E2]. lia. }
        exists b. split; [split|].
        -- exists (S (S (S n2))). rewrite unify_S. exact HU.
        -- exists (S (S n2)). exact HU.
        -- rewrite fv_tup_cons, fv_ll. exact Hb.
  - inversion Hp; subst.
    match goal with H1 : ginst h ?a, H2 : ginst t ?b |- _ => rename H1 into HI1; rename H2 into HI2; rename a into h2; rename b into t2 end.
    destruct c as [br|xr|sr|vr|wr| | |f' args' an0|rs|h' t']; try (exfalso; inversion Hc; fail);
      try (apply gd_false; [exists 3%nat; rewrite unify_S, Ec; reflexivity|
          exists 4%nat; rewrite unify_S; cbn [has_unify]; rewrite ?Eq; try reflexivity; rewrite unify_S, Ec; reflexivity|easy]).
    + destruct rs as [|x xs].
      * apply gd_false; [exists 3%nat; rewrite unify_S, Ec; reflexivity|exists 4%nat; rewrite unify_S; cbn [has_unify]; rewrite unify_S, Ec; reflexivity|easy].
      * inversion Hc as [| | | |? PF|]; subst. inversion PF; subst. rewrite tsize_tup in Hk. change (S (S (tsize x) + lsize xs) <= k)%nat in Hk.
        destruct (pair_gd h h2 t t2 x (TTup xs) st) as (b & [n1 E1] & _ & Hb); try assumption; rewrite ?tsize_tup; try lia; try reflexivity; [now constructor|].
        assert (HU : unify (S (S n1)) (TLL h t) (TTup (x :: xs)) st = (Ok b, st)).
        { rewrite unify_S, Ec. eapply unify_pair_more; [|exact E1]. lia. }
        exists b. split; [split|].
        -- exists (S (S n1)). exact HU.
        -- exists (S (S (S n1))). rewrite unify_S. exact HU.
        -- rewrite fv_tup_cons, fv_ll. exact Hb.
    + inversion Hc; subst. cbn [tsize] in Hk.
      destruct (pair_gd h h2 t t2 h' t' st) as (b & [n1 E1] & [n2 E2] & Hb); try assumption; try lia; try reflexivity.
      exists b. split; [split|].
      * exists (S (S n1)). rewrite unify_S, Ec. eapply unify_pair_more; [|exact E1]. lia.
      * exists (S (S n2)). rewrite unify_S, Eq. eapply unify_pair_more; [|exact E2]. lia.
      * rewrite !fv_ll. exact Hb.
Qed.

Lemma gd_step c p p' : (tsize c <= k)%nat -> closed c -> ginst p p' -> closed p' -> forall st, at_s st ->
  exists b, gd p c st b /\ (b = true <-> fv p' = fv c).
Proof.
  intros Hk Hc Hi Hp st Hs.
  assert (HX : forall p, ginst p p' -> match p with TUn _ _ | TBin _ _ _ => True | _ => False end -> exists b, gd p c st b /\ (b = true <-> fv p' = fv c)).
  { intros e He Ht. destruct (ginst_evaluate e p' He Hp) as (n0 & q & Ev & Hq & Hk'). unfold at_s in Hs; rewrite <- Hs in Ev.
    destruct (gd_resolved c q p' Hk Hc Hq Hp Hk' st Hs) as (b & [[n1 E1] [n2 E2]] & Hb). exists b. split; [|exact Hb].
    assert (HU : unify (S (n0 + n1)) e c st = (Ok b, st)).
    { rewrite unify_S, Ev by lia. apply (unify_more n1 (n0 + n1)) in E1; [|lia]. destruct e; try contradiction Ht; exact E1. }
    split; [eauto|]. destruct (has_unify c) eqn:Eu.
    - exists (S (S (n0 + n2))). apply (unify_more n2 (S (S (n0 + n2)))) in E2; [|lia]. rewrite unify_S in E2. rewrite unify_S.
      rewrite Ev by lia. assert (Eq : evaluate (S (n0 + n2)) q (b_scope st) = Ok q) by (rewrite evaluate_S; destruct q; try contradiction Hk'; reflexivity).
      destruct c; try discriminate Eu; try (inversion Hc; fail); rewrite Eq in E2; exact E2.
    - exists (S (S (n0 + n1))). rewrite unify_S. destruct c; try discriminate Eu; destruct e; try contradiction Ht; exact HU. }
  destruct p; try (now apply HX); try (apply gd_resolved; try assumption; exact I).
  - destruct (deref_ok s (TVar v) Hch) as [l Hl]. assert (Hil := deref_ginst _ _ _ _ Hl Hi).
    assert (Hb : bound (b_scope st) v = true).
    { unfold at_s in Hs; rewrite Hs. inversion Hi as [| | | |? ? ? Hlk| ? ? ? Hf| | | | |]; subst; [unfold bound; now rewrite Hlk|discriminate Hf]. }
    assert (HD : exists b, gd l c st b /\ (b = true <-> fv p' = fv c)).
    { destruct l; try (now apply HX); try (apply gd_resolved; try assumption; exact I).
      - apply deref_loop_unbound in Hl. inversion Hil; subst; [|easy]. unfold bound in Hl. now rewrite H0 in Hl.
      - inversion Hil; subst. inversion Hp. }
    unfold at_s in Hs; rewrite <- Hs in Hl.
    destruct HD as (b & [[n1 E1] [n2 E2]] & HB). exists b. split; [|exact HB].
    assert (HU : unify (S n1) (TVar v) c st = (Ok b, st)) by (rewrite unify_S, Hb, Hl; exact E1).
    split; [eauto|]. destruct (has_unify c) eqn:Eu.
    + exists (S (S (S n2))). apply (unify_more n2 (S (S n2))) in E2; [|lia].
      rewrite unify_S in E2. rewrite unify_S.
      assert (HE : forall r, evaluate (S n2) l (b_scope st) = Ok r -> evaluate (S (S n2)) (TVar v) (b_scope st) = Ok r).
      { intros r Er. rewrite evaluate_S, Hb, Hl. exact Er. }
      destruct c; try discriminate Eu; try (inversion Hc; fail);
        (destruct (evaluate (S n2) l (b_scope st)) as [r|] eqn:Er; [|discriminate E2]; rewrite (HE r eq_refl)).
      * destruct r; try exact E2; try (eapply unify_more; [|exact E2]; lia).
        destruct (_ && _); [|exact E2]. eapply all_unify_more; [|exact E2]. lia.
      * destruct r as [| | | | | | | |[|]|]; try exact E2; try (eapply unify_more; [|exact E2]; lia);
          (eapply unify_pair_more; [|exact E2]; lia).
    + exists (S (S n1)). rewrite unify_S. destruct c; try discriminate Eu; exact HU.
  - inversion Hi; subst. inversion Hp.
Qed.
End Step.

Theorem ground_unify c p p' st : closed c -> ginst p p' -> closed p' -> at_s st ->
  exists b, gd p c st b /\ (b = true <-> fv p' = fv c).
Proof.
  assert (HA : forall k c, (tsize c <= k)%nat -> closed c -> forall p p', ginst p p' -> closed p' -> forall st, at_s st ->
     exists b, gd p c st b /\ (b = true <-> fv p' = fv c)).
  { induction k as [k IHk] using lt_wf_ind. intros c' Hk Hc' p1 p1' Hi Hp st1 Hs. eapply (gd_step k); try eassumption.
    intros c2 Hk2 Hc2. apply (IHk (tsize c2)); auto. }
  intros Hc Hi Hp Hs. exact (HA (tsize c) c (le_n _) Hc p p' Hi Hp st Hs).
Qed.
End WithPy.
