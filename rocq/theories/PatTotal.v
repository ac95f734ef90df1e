(** Matching a pattern with a closed term always comes to a decision. *)
From Verif Require Import Base Num Term Unify TrailFacts FuelFacts ChainFacts TermSpec WildSpec InstSpec UnifySem UnifyTerm UnifyWild PatMatch AnnotFacts.

Section WithPy.
Context {PY : Py}.
Variable s0 : scope.
Variable ex : term -> term.
Notation wplain := (wplain s0 ex).
Notation good := (good ex s0).

Definition decides (l r : term) (st : bst) : Prop := exists n b st', unify n l r st = (Ok b, st').

Definition both (p c : term) : Prop := forall st, wplain p -> good (b_scope st) -> decides p c st /\ decides c p st.

Lemma psound_good p c st n st' : wplain p -> closed c -> good (b_scope st) ->
  (unify n p c st = (Ok true, st') \/ unify n c p st = (Ok true, st')) -> good (b_scope st').
Proof.
  intros Hp Hc Hg H. destruct (unify_psound s0 ex n p c st true st' Hp Hc Hg) as [A B].
  destruct H as [H|H]; [apply A in H|apply B in H]; apply H.
Qed.

Lemma unify_pair_more n m h x t y st b st' : (n <= m)%nat ->
  match unify n h x st with (Ok true, st1) => unify n t y st1 | z => z end = (Ok b, st') ->
  match unify m h x st with (Ok true, st1) => unify m t y st1 | z => z end = (Ok b, st').
Proof.
  intros Hnm H.
  destruct (smono_le (fun n => match unify n h x st with (Ok true, st1) => unify n t y st1 | z => z end)
     (fun n => pair_sle _ _ h x t y st (fun l r s => unify_mono n l r s)) n m Hnm) as [E|E].
  - rewrite H in E. discriminate.
  - congruence.
Qed.

Section Step.
Variable k : nat.
Hypothesis IH : forall c, (tsize c < k)%nat -> closed c -> forall p, both p c.

Lemma list_dec ps : forall cs st, (lsize cs < k)%nat -> Forall closed cs -> Forall wplain ps -> good (b_scope st) ->
  (exists n b st', all_unify (unify n) ps cs st = (Ok b, st')) /\ (exists n b st', all_unify (unify n) cs ps st = (Ok b, st')).
Proof.
  induction ps as [|p ps IHp]; intros cs st Hk Hc Hp Hg.
  - split; [exists 0%nat, true, st; reflexivity|]. exists 0%nat, true, st. now destruct cs.
  - destruct cs as [|c cs]; [split; exists 0%nat, true, st; reflexivity|].
    inversion Hc; inversion Hp; subst. change (S (tsize c) + lsize cs < k)%nat in Hk.
    destruct (IH c ltac:(lia) ltac:(assumption) p st ltac:(assumption) Hg) as [(n1 & b1 & st1 & E1) (n2 & b2 & st2 & E2)].
    split.
    + destruct b1; [|exists n1, false, st1; cbn; now rewrite E1].
      destruct (IHp cs st1 ltac:(lia) ltac:(assumption) ltac:(assumption)) as [(m & b & st' & E) _].
      { eapply psound_good; [| |exact Hg|left; exact E1]; assumption. }
      exists (n1 + m)%nat, b, st'. cbn. rewrite (unify_more n1 (n1 + m) _ _ _ _ _ ltac:(lia) E1).
      eapply all_unify_more; [|exact E]. lia.
    + destruct b2; [|exists n2, false, st2; cbn; now rewrite E2].
      destruct (IHp cs st2 ltac:(lia) ltac:(assumption) ltac:(assumption)) as [_ (m & b & st' & E)].
      { eapply psound_good; [| |exact Hg|right; exact E2]; assumption. }
      exists (n2 + m)%nat, b, st'. cbn. rewrite (unify_more n2 (n2 + m) _ _ _ _ _ ltac:(lia) E2).
      eapply all_unify_more; [|exact E]. lia.
Qed.

Lemma pair_dec p q c d st : (tsize c < k)%nat -> (tsize d < k)%nat -> closed c -> closed d -> wplain p -> wplain q ->
  good (b_scope st) ->
  (exists n b st', match unify n p c st with (Ok true, st1) => unify n q d st1 | y => y end = (Ok b, st')) /\
  (exists n b st', match unify n c p st with (Ok true, st1) => unify n d q st1 | y => y end = (Ok b, st')).
Proof.
  intros Hk1 Hk2 Hc Hd Hp Hq Hg. destruct (IH c Hk1 Hc p st Hp Hg) as [(n1 & b1 & st1 & E1) (n2 & b2 & st2 & E2)]. split.
  - destruct b1; [|exists n1, false, st1; now rewrite E1].
    destruct (IH d Hk2 Hd q st1 Hq) as [(m & b & st' & E) _].
    { eapply psound_good; [| |exact Hg|left; exact E1]; assumption. }
    exists (n1 + m)%nat, b, st'. rewrite (unify_more n1 (n1 + m) _ _ _ _ _ ltac:(lia) E1).
    eapply unify_more; [|exact E]. lia.
  - destruct b2; [|exists n2, false, st2; now rewrite E2].
    destruct (IH d Hk2 Hd q st2 Hq) as [_ (m & b & st' & E)].
    { eapply psound_good; [| |exact Hg|right; exact E2]; assumption. }
    exists (n2 + m)%nat, b, st'. rewrite (unify_more n2 (n2 + m) _ _ _ _ _ ltac:(lia) E2).
    eapply unify_more; [|exact E]. lia.
Qed.

Lemma dec_S l r st : (exists n b st', unify (S n) l r st = (Ok b, st')) -> decides l r st.
Proof. intros (n & b & st' & E). exists (S n), b, st'. exact E. Qed.
Lemma dec_now l r st n b st' : unify n l r st = (Ok b, st') -> decides l r st.
Proof. intro. exists n, b, st'. assumption. Qed.

Lemma eval_self s t : match t with TVar v => bound s v = false | TUn _ _ | TBin _ _ _ => False | _ => True end ->
  forall n, evaluate (S n) t s = Ok t.
Proof. intros H n. rewrite evaluate_S. destruct t; try easy. now rewrite H. Qed.

(** A resolved pattern. *)
Lemma dec_resolved c p : (tsize c <= k)%nat -> closed c -> forall st, wplain p -> good (b_scope st) ->
  resolved (b_scope st) p -> noexpr p -> decides p c st /\ decides c p st.
Proof.
  intros Hk Hc st Hp Hg Hr Hn.
  assert (Ep : forall n, evaluate (S n) p (b_scope st) = Ok p) by (apply eval_self; destruct p; try exact I; assumption).
  assert (Ec : forall n, evaluate (S n) c (b_scope st) = Ok c) by (intro; now apply closed_evaluate).
  (* patterns with a unify method *)
  assert (Swap : has_unify p = true -> has_unify c = false -> decides p c st -> decides p c st /\ decides c p st).
  { intros Hu Huc (n & b & st' & E). split; [exists n, b, st'; exact E|].
    exists (S n), b, st'. rewrite unify_S, Hu. destruct c; try discriminate Huc; exact E. }
  destruct p as [bl|xl|sl|v|wl|opl al|opl al bl|f args annots|ls|h t]; try contradiction Hn.
  4:{ cbn in Hr. assert (HD : decides (TVar v) c st).
      { exists 2%nat, true. eexists. rewrite unify_S, Hr, Ec.
        unfold bind. rewrite Hr. destruct c; try (inversion Hc; fail); reflexivity. }
      split; [exact HD|]. destruct HD as (n & b & st' & E). exists (S (S n)), b, st'. rewrite unify_S. rewrite Ep.
      apply (unify_more n (S n)) in E; [|lia]. destruct c; try (inversion Hc; fail); exact E. }
  4:{ split; [exists 1%nat, true, st; reflexivity|]. exists 2%nat, true, st. rewrite unify_S, Ep.
      destruct c; try (inversion Hc; fail); reflexivity. }
  4:{ inversion Hp; subst. destruct c as [br|xr|sr|vr|wr| | |f' args' annots'|rs|h' t']; try (inversion Hc; fail);
        try (apply Swap; try reflexivity; exists 2%nat, false, st; rewrite unify_S, Ec; reflexivity).
      - inversion Hc; subst. rewrite tsize_lit in Hk.
        destruct (pystr_eqb f f' && Nat.eqb (List.length args) (List.length args')) eqn:Eq.
        + apply andb_true_iff in Eq as [Eq1 Eq2]. apply Nat.eqb_eq in Eq2. destruct (pystr_eqb_spec f f'); [subst f'|easy].
          destruct (list_dec args args' st ltac:(lia) ltac:(assumption) ltac:(assumption) Hg) as [(n & b & st' & E) (n2 & b2 & st2 & E2)]. split.
          * exists (S (S n)), b, st'. rewrite unify_S, Ec, pystr_eqb_refl, Eq2, Nat.eqb_refl. cbn [andb]. eapply all_unify_more; [|exact E]. lia.
          * exists (S (S n2)), b2, st2. rewrite unify_S, Ep, pystr_eqb_refl, Eq2, Nat.eqb_refl. cbn [andb]. eapply all_unify_more; [|exact E2]. lia.
        + split; exists 2%nat, false, st; rewrite unify_S, ?Ec, ?Ep; [now rewrite Eq|].
          replace (pystr_eqb f' f) with (pystr_eqb f f') by (destruct (pystr_eqb_spec f f'), (pystr_eqb_spec f' f); congruence).
          now rewrite (Nat.eqb_sym (List.length args')), Eq.
      - split; exists 2%nat, false, st; rewrite unify_S, ?Ec, ?Ep; reflexivity. }
  5:{ inversion Hp; subst. destruct c as [br|xr|sr|vr|wr| | |f' args' annots'|rs|h' t']; try (inversion Hc; fail);
        try (apply Swap; try reflexivity; exists 2%nat, false, st; rewrite unify_S, Ec; reflexivity).
      - split; exists 2%nat, false, st; rewrite unify_S, ?Ec, ?Ep; reflexivity.
      - apply Swap; try reflexivity. destruct rs as [|x xs]; [exists 2%nat, false, st; rewrite unify_S, Ec; reflexivity|].
        inversion Hc as [| | | |? PF|]; subst. inversion PF; subst. rewrite tsize_tup in Hk. change (S (S (tsize x) + lsize xs) <= k)%nat in Hk.
        destruct (pair_dec h t x (TTup xs) st) as [(n & b & st' & E) _]; try assumption; rewrite ?tsize_tup; try lia; [now constructor|].
        exists (S (S n)), b, st'. rewrite unify_S, Ec. eapply unify_pair_more; [|exact E]. lia.
      - inversion Hc; subst. cbn [tsize] in Hk.
        destruct (pair_dec h t h' t' st) as [(n & b & st' & E) (n2 & b2 & st2 & E2)]; try assumption; try lia. split.
        + exists (S (S n)), b, st'. rewrite unify_S, Ec. eapply unify_pair_more; [|exact E]. lia.
        + exists (S (S n2)), b2, st2. rewrite unify_S, Ep. eapply unify_pair_more; [|exact E2]. lia. }
  (* patterns without *)
  all: destruct (has_unify c) eqn:Eh; [match goal with |- decides ?P ?c ?st /\ _ =>
     enough (HD : decides c P st) by
       (split; [|exact HD]; destruct HD as (n & b & st' & E); exists (S n), b, st'; rewrite unify_S, Eh; exact E)
     end; clear Swap|].
  all: try (destruct c as [br|xr|sr|vr|wr| | |f' args' annots'|rs|h' t']; try (inversion Hc; fail); try discriminate Eh;
     exists 2%nat, false, st; rewrite unify_S, Ep; reflexivity).
  all: try (destruct c as [br|xr|sr|vr|wr| | |f' args' annots'|rs|h' t']; try (inversion Hc; fail); try discriminate Eh;
     split; (eexists 1%nat, _, st; reflexivity)).
  - (* TTup, c with unify *)
    destruct c as [br|xr|sr|vr|wr| | |f' args' annots'|rs|h' t']; try (inversion Hc; fail); try discriminate Eh.
    + exists 2%nat, false, st; rewrite unify_S, Ep; reflexivity.
    + destruct ls as [|x xs]; [exists 2%nat, false, st; rewrite unify_S, Ep; reflexivity|].
      inversion Hc; subst. inversion Hp as [| | | | | | | |? PF|]; subst. inversion PF; subst. cbn [tsize] in Hk.
      destruct (pair_dec x (TTup xs) h' t' st) as [_ (n2 & b2 & st2 & E2)]; try assumption; try lia; [now constructor|].
      exists (S (S n2)), b2, st2. rewrite unify_S, Ep. eapply unify_pair_more; [|exact E2]. lia.
  - destruct c as [br|xr|sr|vr|wr| | |f' args' annots'|rs|h' t']; try (inversion Hc; fail); try discriminate Eh;
      try (split; (eexists 1%nat, _, st; reflexivity)).
    inversion Hc; inversion Hp; subst. rewrite tsize_tup in Hk.
    destruct (Nat.eqb_spec (List.length ls) (List.length rs)) as [El|El].
    + destruct (list_dec ls rs st ltac:(lia) ltac:(assumption) ltac:(assumption) Hg) as [(n & b & st' & E) (n2 & b2 & st2 & E2)]. split.
      * exists (S n), b, st'. rewrite unify_S. cbn [has_unify]. rewrite El, Nat.eqb_refl. exact E.
      * exists (S n2), b2, st2. rewrite unify_S. cbn [has_unify]. rewrite El, Nat.eqb_refl. exact E2.
    + split; exists 1%nat, false, st; rewrite unify_S; cbn [has_unify].
      * apply Nat.eqb_neq in El. now rewrite El.
      * assert (El' : List.length rs <> List.length ls) by congruence. apply Nat.eqb_neq in El'. now rewrite El'.
Qed.

Lemma dec_expr c p : (tsize c <= k)%nat -> closed c -> match p with TUn _ _ | TBin _ _ _ => True | _ => False end ->
  forall st, wplain p -> good (b_scope st) -> decides p c st /\ decides c p st.
Proof.
  intros Hk Hc He st Hp Hg.
  destruct (evaluate_wplain_ok s0 ex p (b_scope st) Hp (good_wgood _ _ _ Hg)) as (n0 & p' & Hev).
  destruct (pevaluate s0 ex n0 p (b_scope st) p' (Hev n0 (le_n _)) Hp Hg) as (P1 & P2 & P3 & _).
  destruct (dec_resolved c p' Hk Hc st P1 Hg P2 P3) as [(n & b & st' & E) _].
  assert (HD : decides p c st).
  { exists (S (n0 + n)), b, st'. rewrite unify_S. rewrite Hev by lia. apply (unify_more n (n0 + n)) in E; [|lia].
    destruct p; try contradiction He; exact E. }
  split; [exact HD|].
  destruct HD as (m & b2 & st2 & E2).
  destruct (dec_resolved c p' Hk Hc st P1 Hg P2 P3) as [_ (m3 & b3 & st3 & E3)].
  destruct (has_unify c) eqn:Eu.
  - exists (S (S (n0 + m3))), b3, st3. apply (unify_more m3 (S (S (n0 + m3)))) in E3; [|lia].
    rewrite unify_S in E3. rewrite unify_S. rewrite Hev by lia.
    assert (Ep' : forall n, evaluate (S n) p' (b_scope st) = Ok p') by (apply eval_self; destruct p'; try exact I; assumption).
    destruct c; try discriminate Eu; try (inversion Hc; fail); rewrite Ep' in E3; exact E3.
  - exists (S m), b2, st2. rewrite unify_S. destruct c; try discriminate Eu; destruct p; try contradiction He; exact E2.
Qed.

Lemma dec_step c p : (tsize c <= k)%nat -> closed c -> both p c.
Proof.
  intros Hk Hc st Hp Hg.
  assert (Cases : (exists v, p = TVar v /\ bound (b_scope st) v = true) \/ match p with TUn _ _ | TBin _ _ _ => True | _ => False end
     \/ (resolved (b_scope st) p /\ noexpr p)).
  { destruct p; try (right; right; split; exact I); try (right; left; exact I).
    destruct (bound (b_scope st) v) eqn:E; [left; eauto|right; right; now split]. }
  destruct Cases as [(v & -> & Hv)|[He|[H1 H2]]]; [|now apply dec_expr|now apply dec_resolved].
  destruct (deref_ok (b_scope st) (TVar v) (proj1 (proj2 Hg))) as [l Hl].
  destruct (pderef_loop s0 ex _ _ _ _ Hl (proj1 Hg)) as [D1 _]. specialize (D1 Hp).
  assert (Hd : decides l c st /\ decides c l st).
  { destruct l; try (apply dec_expr; [assumption|assumption|exact I|assumption|assumption]);
      try (apply dec_resolved; [assumption|assumption|assumption|assumption|exact I|exact I]).
    apply dec_resolved; try assumption; [|exact I]. eapply deref_loop_unbound. exact Hl. }
  destruct Hd as [(n & b & st' & E) (m & b2 & st2 & E2)]. split.
  - exists (S n), b, st'. rewrite unify_S, Hv, Hl. exact E.
  - destruct (has_unify c) eqn:Eu.
    + exists (S (S m)), b2, st2. apply (unify_more m (S m)) in E2; [|lia].
      rewrite unify_S in E2. rewrite unify_S. destruct m as [|m].
      { destruct c; try discriminate Eu; try (inversion Hc; fail); discriminate E2. }
      assert (HE : forall r, evaluate (S m) l (b_scope st) = Ok r -> evaluate (S (S m)) (TVar v) (b_scope st) = Ok r).
      { intros r Er. rewrite evaluate_S, Hv, Hl. exact Er. }
      destruct c; try discriminate Eu; try (inversion Hc; fail);
        (destruct (evaluate (S m) l (b_scope st)) as [r|] eqn:Er; [|discriminate E2]; rewrite (HE r eq_refl)).
      * destruct r; try exact E2; try (eapply unify_more; [|exact E2]; lia).
        destruct (_ && _); [|exact E2]. eapply all_unify_more; [|exact E2]. lia.
      * destruct r as [| | | | | | | |[|]|]; try exact E2; try (eapply unify_more; [|exact E2]; lia);
          (eapply unify_pair_more; [|exact E2]; lia).
    + exists (S (S n)), b, st'. rewrite unify_S.
      assert (E' : unify (S n) (TVar v) c st = (Ok b, st')) by (rewrite unify_S, Hv, Hl; exact E).
      destruct c; try discriminate Eu; exact E'.
Qed.
End Step.

Theorem pat_decides : forall p c st, wplain p -> closed c -> good (b_scope st) -> decides p c st /\ decides c p st.
Proof.
  assert (HA : forall k c, (tsize c <= k)%nat -> closed c -> forall p, both p c).
  { induction k as [k IHk] using lt_wf_ind. intros c Hk Hc p. apply (dec_step k); try assumption.
    intros c' Hk' Hc' p'. apply (IHk (tsize c')); auto. }
  intros p c st Hp Hc Hg. exact (HA (tsize c) c (le_n _) Hc p st Hp Hg).
Qed.
End WithPy.
