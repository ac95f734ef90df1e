(** Preliminaries for the query semantics: trace equivalence, scope and stack,
    stability under more fuel. *)
From Verif Require Import Base Num Term Unify TrailSpec TrailFacts TrailHist FuelFacts AnnotFlat AnnotFacts Str World Engine NamesFacts QuerySpec.

(** * Traces *)
Inductive teq : trace -> trace -> Prop :=
| te_end nv : teq (TEnd nv) (TEnd nv)
| te_err e : teq (TErr e) (TErr e)
| te_cut : teq TCut TCut
| te_sol s nv k k' : (forall x, teq (k x) (k' x)) -> teq (TSol s nv k) (TSol s nv k').

Lemma teq_refl t : teq t t.
Proof. induction t; constructor; auto. Qed.
Lemma teq_sym t u : teq t u -> teq u t.
Proof. induction 1; constructor; auto. Qed.
Lemma teq_trans t u v : teq t u -> teq u v -> teq t v.
Proof.
  intro H. revert v. induction H; intros v H2; try assumption.
  inversion H2; subst. constructor. intro x. apply H0. auto.
Qed.

Lemma teq_append t t' f f' : teq t t' -> (forall nv, teq (f nv) (f' nv)) -> teq (append t f) (append t' f').
Proof. intros H Hf. induction H; cbn; try constructor; auto. Qed.
Lemma teq_append_l t t' f : teq t t' -> teq (append t f) (append t' f).
Proof. intro H. apply teq_append; [assumption|intro; apply teq_refl]. Qed.
Lemma teq_bindt t t' f : teq t t' -> teq (bindt t f) (bindt t' f).
Proof. intro H. induction H; cbn; try (constructor; fail). apply teq_append; [apply teq_refl|assumption]. Qed.
Lemma teq_negt t t' s : teq t t' -> negt t s = negt t' s.
Proof. now destruct 1. Qed.
Lemma teq_gather {S} (step : scope -> N -> S -> res (S * N)) t t' : teq t t' -> forall x, gather step t x = gather step t' x.
Proof.
  induction 1; intro y; cbn; try reflexivity. destruct (step s nv y) as [[z nv']|]; [|reflexivity]. apply H0.
Qed.
Lemma teq_take t t' : teq t t' -> forall c, take c t = take c t'.
Proof.
  induction 1; intro c; try reflexivity. destruct c as [|[os n] c]; [reflexivity|]. cbn. now rewrite H0.
Qed.
Lemma append_end t : teq (append t TEnd) t.
Proof. induction t; cbn; constructor; auto. Qed.
Lemma append_assoc t f g : teq (append (append t f) g) (append t (fun nv => append (f nv) g)).
Proof. induction t; cbn; try constructor; auto. apply teq_refl. Qed.

Lemma teq_cut t : teq t TCut -> t = TCut.
Proof. now inversion 1. Qed.

(** Equality from some depth on; below it, equality or nothing at all. *)
Definition ev (F G : nat -> trace) : Prop :=
  exists d0, forall d, teq (F d) (G d) \/ (d < d0)%nat /\ F d = TCut.
Lemma ev_refl F : ev F F.
Proof. exists 0%nat. intro. left. apply teq_refl. Qed.
Lemma ev_trans F G H : ev F G -> ev G H -> ev F H.
Proof.
  intros [d1 A1] [d2 A2]. exists (Nat.max d1 d2). intro d.
  destruct (A1 d) as [E|[L E]]; [|right; split; [lia|assumption]]. destruct (A2 d) as [E2|[L E2]].
  - left. eapply teq_trans; eassumption.
  - rewrite E2 in E. right. split; [lia|now apply teq_cut].
Qed.
Lemma ev_pred F G : ev F G -> ev (fun d => F (pred d)) (fun d => G (pred d)).
Proof. intros [d1 A]. exists (S d1). intro d. destruct (A (pred d)) as [E|[L E]]; [now left|right; split; [lia|assumption]]. Qed.
Lemma ev_append_l F G f : ev F G -> ev (fun d => append (F d) (f d)) (fun d => append (G d) (f d)).
Proof.
  intros [d1 A]. exists d1. intro d.
  destruct (A d) as [E|[L E]]; [left; now apply teq_append_l|right; split; [assumption|now rewrite E]].
Qed.
Lemma ev_bindt F G f : ev F G -> ev (fun d => bindt (F d) (f d)) (fun d => bindt (G d) (f d)).
Proof.
  intros [d1 A]. exists d1. intro d.
  destruct (A d) as [E|[L E]]; [left; now apply teq_bindt|right; split; [assumption|now rewrite E]].
Qed.
(** Equal from depth [n] on. *)
Lemma ev_from n F G : (forall d, F d = G d \/ ((d <= n)%nat /\ F d = TCut)) -> ev F G.
Proof.
  intro H. exists (S n). intro d. destruct (H d) as [E|[L E]]; [left; rewrite E; apply teq_refl|right; split; [lia|assumption]].
Qed.
Lemma ev_step F G : F 0%nat = TCut -> (forall d, F (S d) = G (S d)) -> ev F G.
Proof. intros H0 H. apply (ev_from 0). intros [|d]; [right; auto|left; apply H]. Qed.

(** * Fuel *)
Definition cutr {A} (r : res A) : bool := match r with Err ERecursion => true | _ => false end.

Lemma cutr_true {A} (r : res A) : cutr r = true -> r = Err ERecursion.
Proof. destruct r as [|[]]; cbn; congruence. Qed.
Lemma stab {A} (f : nat -> res A) n : (forall k, rle (f k) (f (S k))) -> cutr (f n) = false ->
  forall d, f d = f n \/ (d < n)%nat /\ f d = Err ERecursion.
Proof.
  intros H Hc d. destruct (Nat.le_gt_cases n d) as [Hd|Hd].
  - left. destruct (mono_le f H n d Hd) as [E|E]; [rewrite E in Hc; discriminate|congruence].
  - destruct (mono_le f H d n) as [E|E]; [lia|now right|now left].
Qed.
Lemma sstab {A S} (f : nat -> res A * S) n : (forall k, sle (f k) (f (Datatypes.S k))) -> cutr (fst (f n)) = false ->
  forall d, f d = f n \/ (d < n)%nat /\ exists m, f d = (Err ERecursion, m).
Proof.
  intros H Hc d. destruct (Nat.le_gt_cases n d) as [Hd|Hd].
  - left. destruct (smono_le f H n d Hd) as [E|E]; [rewrite E in Hc; discriminate|congruence].
  - destruct (smono_le f H d n) as [E|E]; [lia| |now left]. right. split; [assumption|].
    exists (snd (f d)). destruct (f d). cbn in *. now subst.
Qed.

Lemma terr_other e : e <> ERecursion -> terr e = TErr e.
Proof. destruct e; cbn; congruence. Qed.

(** * Scope and stack *)
Definition bump (y : bst) (k : N) : bst := mkbst (b_scope y) (b_stack y) k.

(** The state is as at [y] (up to choicepoint identities), or an extension of it. *)
Definition okst (x : bool) (y cur : bst) : Prop :=
  if x then exists k, (b_ncp y <= k)%N /\ cur = bump y k else trail y cur.

Lemma bump_trail y k : (b_ncp y <= k)%N -> trail y (bump y k).
Proof. intro H. apply tr_ncp; [constructor|assumption]. Qed.
Lemma okst_trail x y cur : okst x y cur -> trail y cur.
Proof. destruct x; cbn; [|easy]. intros (k & Hk & ->). now apply bump_trail. Qed.
Lemma okst_weaken x y cur : okst true y cur -> okst x y cur.
Proof. intro H. destruct x; [assumption|]. now apply (okst_trail true). Qed.
Lemma okst_le (x x' : bool) y cur : (x' = true -> x = true) -> okst x y cur -> okst x' y cur.
Proof.
  intros H Ho. destruct x'; [|now apply (okst_trail x)]. rewrite H in Ho; [assumption|reflexivity].
Qed.
Lemma okst_refl x y : okst x y y.
Proof. apply okst_weaken. exists (b_ncp y). split; [lia|]. now destruct y. Qed.
Lemma okst_trans x y z w : okst x y z -> okst x z w -> okst x y w.
Proof.
  destruct x; cbn.
  - intros (k & Hk & ->) (j & Hj & ->). exists j. cbn in Hj. split; [lia|reflexivity].
  - apply trail_trans.
Qed.
Lemma okst_scope y cur : okst true y cur -> b_scope cur = b_scope y.
Proof. now intros (k & _ & ->). Qed.
Lemma okst_stack y cur : okst true y cur -> b_stack cur = b_stack y.
Proof. now intros (k & _ & ->). Qed.
Lemma okst_ncp x y cur : okst x y cur -> (b_ncp y <= b_ncp cur)%N.
Proof. intro H. now apply trail_ncp, (okst_trail x). Qed.

(** [cp] was pushed at (a copy of) [y0], and the state has been extended since. *)
Definition mark (cp : N) (y0 y : bst) : Prop :=
  exists k, (b_ncp y0 <= cp)%N /\ (cp < k)%N /\ trail (push_cp cp (bump y0 k)) y.

Lemma mark_trail cp y0 y cur : mark cp y0 y -> trail y cur -> mark cp y0 cur.
Proof. intros (k & H1 & H2 & H3) H. exists k. repeat split; try assumption. eapply trail_trans; eauto. Qed.
Lemma mark_base cp y0 y0' y : okst true y0 y0' -> mark cp y0' y -> mark cp y0 y.
Proof. intros (j & Hj & ->) (k & H1 & H2 & H3). exists k. cbn in *. repeat split; try assumption; lia. Qed.
Lemma mark_reroll cp y0 cur : mark cp y0 cur -> okst true y0 (reroll cur cp).
Proof.
  intros (k & H1 & H2 & H3). rewrite (reroll_eq (bump y0 k) cur cp); [|assumption|assumption].
  exists (b_ncp cur). apply trail_ncp in H3. cbn in *. split; [lia|reflexivity].
Qed.
Lemma mark_ncp cp y0 y : mark cp y0 y -> (b_ncp y0 <= cp)%N /\ (cp < b_ncp y)%N.
Proof. intros (k & H1 & H2 & H3). apply trail_ncp in H3. cbn in H3. lia. Qed.
Lemma mark_new y : mark (b_ncp y) y (push_cp (b_ncp y) (snd (new_cp y))).
Proof. exists (N.succ (b_ncp y)). cbn. split; [lia|]. split; [lia|]. constructor. Qed.
Lemma mark_push cp y0 y : okst true y0 y -> (b_ncp y0 <= cp)%N -> (cp < b_ncp y)%N -> mark cp y0 (push_cp cp y).
Proof. intros (k & Hk & ->) H1 H2. exists k. split; [lia|]. split; [assumption|]. constructor. Qed.
Lemma mark_above cp y0 y : mark cp y0 y -> trail y0 y.
Proof.
  intros (k & H1 & H2 & H3). eapply trail_trans; [|exact H3]. unfold push_cp, bump. cbn.
  apply tr_cp with (st' := y0); [constructor|assumption|assumption].
Qed.

Section WithPy.
Context {PY : Py}.

(** * Unification with annotations depends only on the scope *)
Definition same_u (o1 o2 : res (option N) * bst) : Prop :=
  match fst o1, fst o2 with
  | Ok (Some _), Ok (Some _) | Ok None, Ok None => True
  | Err e, Err e' => e = e'
  | _, _ => False
  end /\ b_scope (snd o1) = b_scope (snd o2).
Definition frame_u (u : term -> term -> bst -> res (option N) * bst) : Prop :=
  forall l r st1 st2, b_scope st1 = b_scope st2 -> same_u (u l r st1) (u l r st2).

Lemma annot_find_frame u : frame_u u -> forall la ras closed st1 st2, b_scope st1 = b_scope st2 ->
  same_o (annot_find u la ras closed st1) (annot_find u la ras closed st2).
Proof.
  intros Hu la ras. induction ras as [|ra ras IH]; intros closed st1 st2 Hs; [now split|]. cbn.
  destruct (py_in ra closed); [now apply IH|]. destruct (Hu la ra st1 st2 Hs) as [E1 E2].
  destruct (u la ra st1) as [[[|]|] s1], (u la ra st2) as [[[|]|] s2]; cbn in E1, E2; try contradiction E1.
  - now split.
  - now apply IH.
  - subst. now split.
Qed.
Lemma annots_match_frame u : frame_u u -> forall las ras closed st1 st2, b_scope st1 = b_scope st2 ->
  same_o (annots_match u las ras closed st1) (annots_match u las ras closed st2).
Proof.
  intros Hu las. induction las as [|la las IH]; intros ras closed st1 st2 Hs; [now split|]. cbn.
  destruct (annot_find_frame u Hu la ras closed st1 st2 Hs) as [E1 E2].
  destruct (annot_find u la ras closed st1) as [x1 s1], (annot_find u la ras closed st2) as [x2 s2]. cbn in E1, E2. subst x2.
  destruct x1 as [[|]|]; [now apply IH| |]; now split.
Qed.

Lemma uann_frame n : frame_u (uann n).
Proof.
  assert (RX : forall st0 st1 cp, cp = b_ncp st0 -> trail (push_cp cp (snd (new_cp st0))) st1 -> b_scope (reroll st1 cp) = b_scope st0)
    by (intros st0 st1 cp -> H; now rewrite (proj1 (reroll_trail st0 st1 H))).
  induction n as [|n IH]; intros l r st1 st2 Hs; [now split|].
  pose proof (uann_none_exact (S n) l r st1) as N1. pose proof (uann_none_exact (S n) l r st2) as N2.
  rewrite !uann_S in *. cbn [new_cp] in *. rewrite Hs in *.
  assert (HP : forall l' r', same_o (unify n l' r' (push_cp (b_ncp st1) (mkbst (b_scope st2) (b_stack st1) (N.succ (b_ncp st1)))))
     (unify n l' r' (push_cp (b_ncp st2) (mkbst (b_scope st2) (b_stack st2) (N.succ (b_ncp st2)))))) by (intros; now apply unify_frame).
  assert (HQ : forall l' r', same_o (unify n l' r' (mkbst (b_scope st2) (b_stack st1) (N.succ (b_ncp st1))))
     (unify n l' r' (mkbst (b_scope st2) (b_stack st2) (N.succ (b_ncp st2))))) by (intros; now apply unify_frame).
  assert (HD : forall o1 o2 : res (option N) * bst,
     (forall s', o1 = (Ok None, s') -> b_scope s' = b_scope st2 /\ b_stack s' = b_stack st1) ->
     (forall s', o2 = (Ok None, s') -> b_scope s' = b_scope st2 /\ b_stack s' = b_stack st2) ->
     match fst o1, fst o2 with
     | Ok (Some _), Ok (Some _) => b_scope (snd o1) = b_scope (snd o2)
     | Ok None, Ok None => True
     | Err e, Err e' => e = e' /\ b_scope (snd o1) = b_scope (snd o2) | _, _ => False end -> same_u o1 o2).
  { intros [x1 s1] [x2 s2] M1 M2 H. cbn in H. unfold same_u. cbn.
    destruct x1 as [[|]|], x2 as [[|]|]; try contradiction H; auto.
    specialize (M1 _ eq_refl). specialize (M2 _ eq_refl). split; [exact I|]. destruct M1, M2. congruence. }
  apply HD; [exact N1|exact N2|]. clear HD N1 N2.
  assert (HG : forall l', match fst (match unify n l' r (push_cp (b_ncp st1) (mkbst (b_scope st2) (b_stack st1) (N.succ (b_ncp st1)))) with
              | (Err e, st1') => (Err e, st1') | (Ok true, st1') => (Ok (Some (b_ncp st1)), st1') | (Ok false, st1') => (Ok None, reroll st1' (b_ncp st1)) end),
        fst (match unify n l' r (push_cp (b_ncp st2) (mkbst (b_scope st2) (b_stack st2) (N.succ (b_ncp st2)))) with
              | (Err e, st1') => (Err e, st1') | (Ok true, st1') => (Ok (Some (b_ncp st2)), st1') | (Ok false, st1') => (Ok None, reroll st1' (b_ncp st2)) end) with
     | Ok (Some _), Ok (Some _) => b_scope (snd (match unify n l' r (push_cp (b_ncp st1) (mkbst (b_scope st2) (b_stack st1) (N.succ (b_ncp st1)))) with
              | (Err e, st1') => (Err e, st1') | (Ok true, st1') => (Ok (Some (b_ncp st1)), st1') | (Ok false, st1') => (Ok None, reroll st1' (b_ncp st1)) end)) =
        b_scope (snd (match unify n l' r (push_cp (b_ncp st2) (mkbst (b_scope st2) (b_stack st2) (N.succ (b_ncp st2)))) with
              | (Err e, st1') => (Err e, st1') | (Ok true, st1') => (Ok (Some (b_ncp st2)), st1') | (Ok false, st1') => (Ok None, reroll st1' (b_ncp st2)) end))
     | Ok None, Ok None => True
     | Err e, Err e' => e = e' /\ b_scope (snd (match unify n l' r (push_cp (b_ncp st1) (mkbst (b_scope st2) (b_stack st1) (N.succ (b_ncp st1)))) with
              | (Err e, st1') => (Err e, st1') | (Ok true, st1') => (Ok (Some (b_ncp st1)), st1') | (Ok false, st1') => (Ok None, reroll st1' (b_ncp st1)) end)) =
        b_scope (snd (match unify n l' r (push_cp (b_ncp st2) (mkbst (b_scope st2) (b_stack st2) (N.succ (b_ncp st2)))) with
              | (Err e, st1') => (Err e, st1') | (Ok true, st1') => (Ok (Some (b_ncp st2)), st1') | (Ok false, st1') => (Ok None, reroll st1' (b_ncp st2)) end))
     | _, _ => False end).
  { intro l'. destruct (HP l' r) as [E1 E2].
    destruct (unify n l' r (push_cp (b_ncp st1) _)) as [x1 s1], (unify n l' r (push_cp (b_ncp st2) _)) as [x2 s2].
    cbn in E1, E2. subst x2. destruct x1 as [[]|]; cbn; auto. }
  destruct l; try exact (HG _). clear HG.
  destruct (evaluate n r (b_scope st2)) as [r'|e]; [|cbn; auto].
  assert (HA : forall (b : bool), match (if b then
      match unify n r' (TLit f args annots) (mkbst (b_scope st2) (b_stack st1) (N.succ (b_ncp st1))) with
      | (Ok true, st3) => (Ok (Some (b_ncp st1)), st3) | (Ok false, st3) => (Ok None, reroll st3 (b_ncp st1)) | (Err e, st3) => (Err e, st3) end
     else match unify n (TLit f args annots) r' (push_cp (b_ncp st1) (mkbst (b_scope st2) (b_stack st1) (N.succ (b_ncp st1)))) with
      | (Ok true, st3) => match annots_match (uann n) annots (lit_annots r') [] st3 with
          | (Ok true, st4) => (Ok (Some (b_ncp st1)), st4) | (Ok false, st4) => (Ok None, reroll st4 (b_ncp st1)) | (Err e, st4) => (Err e, st4) end
      | (Ok false, st3) => (Ok None, reroll st3 (b_ncp st1)) | (Err e, st3) => (Err e, st3) end) with (x1, s1) =>
     match (if b then
      match unify n r' (TLit f args annots) (mkbst (b_scope st2) (b_stack st2) (N.succ (b_ncp st2))) with
      | (Ok true, st3) => (Ok (Some (b_ncp st2)), st3) | (Ok false, st3) => (Ok None, reroll st3 (b_ncp st2)) | (Err e, st3) => (Err e, st3) end
     else match unify n (TLit f args annots) r' (push_cp (b_ncp st2) (mkbst (b_scope st2) (b_stack st2) (N.succ (b_ncp st2)))) with
      | (Ok true, st3) => match annots_match (uann n) annots (lit_annots r') [] st3 with
          | (Ok true, st4) => (Ok (Some (b_ncp st2)), st4) | (Ok false, st4) => (Ok None, reroll st4 (b_ncp st2)) | (Err e, st4) => (Err e, st4) end
      | (Ok false, st3) => (Ok None, reroll st3 (b_ncp st2)) | (Err e, st3) => (Err e, st3) end) with (x2, s2) =>
     match x1, x2 with
     | Ok (Some _), Ok (Some _) => b_scope s1 = b_scope s2
     | Ok None, Ok None => True
     | Err e, Err e' => e = e' /\ b_scope s1 = b_scope s2 | _, _ => False end end end).
  { intros [].
    - destruct (HQ r' (TLit f args annots)) as [E1 E2].
      destruct (unify n r' _ (mkbst _ (b_stack st1) _)) as [x1 s1], (unify n r' _ (mkbst _ (b_stack st2) _)) as [x2 s2].
      cbn in E1, E2. subst x2. destruct x1 as [[]|]; auto.
    - destruct (HP (TLit f args annots) r') as [E1 E2].
      destruct (unify n _ r' (push_cp (b_ncp st1) _)) as [x1 s1], (unify n _ r' (push_cp (b_ncp st2) _)) as [x2 s2].
      cbn in E1, E2. subst x2. destruct x1 as [[]|]; auto.
      destruct (annots_match_frame _ IH annots (lit_annots r') [] s1 s2 E2) as [E3 E4].
      destruct (annots_match _ _ _ _ s1) as [x3 s3], (annots_match _ _ _ _ s2) as [x4 s4]. cbn in E3, E4. subst x4.
      destruct x3 as [[]|]; auto. }
  pose proof (HA true) as H1. pose proof (HA false) as H2. clear HA HP HQ. cbn iota in H1, H2.
  destruct r' as [b|x|s|v|w|op a|op a b|f' args' ras|ts|h t].
  1,2,3,6,7,8,9,10: clear H1; rename H2 into H1.
  all: repeat match goal with H : context[match ?x with (_, _) => _ end] |- _ => destruct x as [[[]|] ?] end; cbn in *; try contradiction; auto.
Qed.

(** Where the protected match leaves its choicepoint. *)
Lemma uann_mark n l r st cp st1 :
  (is_literal l = false \/ forall k r', evaluate k r (b_scope st) = Ok r' -> match r' with TVar _ | TWild _ => False | _ => True end) ->
  uann n l r st = (Ok (Some cp), st1) -> mark cp st st1.
Proof.
  intros Hnv E.
  assert (HT : cp = b_ncp st /\ trail (push_cp (b_ncp st) (snd (new_cp st))) st1).
  { destruct n as [|n]; [easy|]. rewrite uann_S in E. cbn [new_cp snd] in E |- *.
    set (st0 := mkbst (b_scope st) (b_stack st) (N.succ (b_ncp st))) in *.
    assert (H1 : match unify n l r (push_cp (b_ncp st) st0) with
          | (Err e, st1) => (Err e, st1)
          | (Ok true, st1) => (Ok (Some (b_ncp st)), st1)
          | (Ok false, st1) => (Ok None, reroll st1 (b_ncp st))
          end = (Ok (Some cp), st1) -> cp = b_ncp st /\ trail (push_cp (b_ncp st) st0) st1).
    { intro E'. destruct (unify n l r (push_cp (b_ncp st) st0)) as [[[]|] st2] eqn:Eu; try discriminate E'.
      inversion E'; subst. split; [reflexivity|]. apply vtrail_trail. eapply unify_vtrail; exact Eu. }
    destruct l; try (apply H1; exact E). destruct Hnv as [Hnv|Hnv]; [discriminate Hnv|].
    destruct (evaluate n r (b_scope st)) as [r'|] eqn:Er; [|discriminate E]. specialize (Hnv _ _ Er).
    assert (E' : match unify n (TLit f args annots) r' (push_cp (b_ncp st) st0) with
                  | (Err e, st1) => (Err e, st1)
                  | (Ok false, st1) => (Ok None, reroll st1 (b_ncp st))
                  | (Ok true, st1) =>
                      match annots_match (uann n) annots (lit_annots r') [] st1 with
                      | (Err e, st2) => (Err e, st2)
                      | (Ok false, st2) => (Ok None, reroll st2 (b_ncp st))
                      | (Ok true, st2) => (Ok (Some (b_ncp st)), st2)
                      end
                  end = (Ok (Some cp), st1)) by (destruct r'; try contradiction Hnv; exact E).
    destruct (unify n _ r' _) as [[[]|] st2] eqn:Eu; try discriminate E'.
    destruct (annots_match _ _ _ _ _) as [[[]|] st3] eqn:Ea; try discriminate E'.
    inversion E'; subst. split; [reflexivity|]. apply unify_vtrail, vtrail_trail in Eu.
    eapply trail_trans; [exact Eu|]. eapply annots_match_trail; [apply uann_trail|exact Ea]. }
  destruct HT as [-> HT]. eapply mark_trail; [apply mark_new|exact HT].
Qed.

Lemma safe_eq_mark l r s : safe_eq l r = true ->
  is_literal l = false \/ forall k r', evaluate k r s = Ok r' -> match r' with TVar _ | TWild _ => False | _ => True end.
Proof.
  unfold safe_eq. intro H. destruct (is_literal l) eqn:E; [right|now left]. cbn in H.
  intros k r' Er. destruct k as [|k]; [discriminate Er|]. rewrite evaluate_S in Er.
  destruct r; try discriminate H; try (inversion Er; exact I).
  - destruct (evaluate k r s) as [v|]; [|discriminate Er].
    destruct op, v; try discriminate Er; inversion Er; exact I.
  - destruct (evaluate k r1 s) as [v1|]; [|discriminate Er]. destruct (evaluate k r2 s) as [v2|]; [|discriminate Er].
    assert (HB : forall a b, eval_binop op a b = Ok r' -> match r' with TVar _ | TWild _ => False | _ => True end).
    { intros a b Hab. destruct op; cbn in Hab; unfold rmap in Hab;
        repeat match type of Hab with context[match ?x with _ => _ end] => destruct x; try discriminate Hab end;
        inversion Hab; exact I. }
    destruct (is_comp op); [|now apply HB in Er].
    destruct (grounded k v1 s); [|discriminate Er]. destruct (grounded k v2 s); [|discriminate Er]. now apply HB in Er.
Qed.
Lemma literal_mark (l r : term) s : is_literal r = true ->
  is_literal l = false \/ forall k r', evaluate k r s = Ok r' -> match r' with TVar _ | TWild _ => False | _ => True end.
Proof.
  intro H. right. intros [|k] r' E; [discriminate E|]. rewrite evaluate_S in E. destruct r; try discriminate H. inversion E; exact I.
Qed.

(** * The world *)
Lemma unchanged_refl W : unchanged W W.
Proof. now constructor. Qed.
Lemma unchanged_trans W1 W2 W3 : unchanged W1 W2 -> unchanged W2 W3 -> unchanged W1 W3.
Proof. intros [] []. constructor; intros; congruence. Qed.
Lemma unchanged_nv W k : unchanged W (set_nv W k).
Proof. now constructor. Qed.
Lemma unchanged_tick W k : unchanged W (set_tick W k).
Proof. now constructor. Qed.
Lemma unchanged_out W x : unchanged W (set_out W x).
Proof. now constructor. Qed.

Lemma upd_nth_same {A} (l : list A) k x d : (k < List.length l)%nat -> nth k (upd l k x) d = x.
Proof. revert k; induction l as [|y l IH]; intros [|k] H; cbn in *; try lia; auto. apply IH. lia. Qed.
Lemma upd_nth_other {A} (l : list A) k j x d : k <> j -> nth j (upd l k x) d = nth j l d.
Proof. revert k j; induction l as [|y l IH]; intros [|k] [|j] H; cbn; auto; congruence. Qed.
Lemma upd_length {A} (l : list A) k x : List.length (upd l k x) = List.length l.
Proof. revert k; induction l as [|y l IH]; intros [|k]; cbn; auto. Qed.
Lemma upd_over {A} (l : list A) k x : (List.length l <= k)%nat -> upd l k x = l.
Proof. revert k; induction l as [|y l IH]; intros [|k] H; cbn in *; try lia; auto. f_equal. apply IH. lia. Qed.

Lemma get_put_agent W a b x : get_agent (put_agent W a x) b =
  if Nat.eqb a b then (if Nat.ltb a (List.length (w_agents W)) then x else agent0) else get_agent W b.
Proof.
  unfold get_agent, put_agent. cbn [w_agents set_agents]. destruct (Nat.eqb_spec a b) as [->|N].
  - destruct (Nat.ltb_spec b (List.length (w_agents W))).
    + now apply upd_nth_same.
    + rewrite upd_over by assumption. now apply nth_overflow.
  - now apply upd_nth_other.
Qed.

Lemma get_agent_over W a : (List.length (w_agents W) <= a)%nat -> get_agent W a = agent0.
Proof. intro H. now apply nth_overflow. Qed.

Lemma get_set_app W r : nth r (w_sets W ++ [mkbset 0 []]) (mkbset 0 []) = get_set W r.
Proof.
  unfold get_set. destruct (Nat.lt_ge_cases r (List.length (w_sets W))) as [H|H].
  - now apply app_nth1.
  - rewrite app_nth2 by assumption. rewrite (nth_overflow (w_sets W)) by assumption.
    destruct (r - List.length (w_sets W))%nat as [|[|]]; reflexivity.
Qed.

Lemma bel_ref_spec a g W r W' : bel_ref a g W = (r, W') ->
  unchanged W W' /\ s_elems (get_set W' r) = beliefs a g W /\ w_nv W' = w_nv W.
Proof.
  unfold bel_ref. intro H.
  destruct (assoc group_eqb g (a_bel (get_agent W a))) as [r'|] eqn:E.
  { inversion H; subst. split; [apply unchanged_refl|]. unfold beliefs. now rewrite E. }
  inversion H; subst. clear H. set (r := List.length (w_sets W)).
  set (W1 := set_sets W (w_sets W ++ [mkbset 0 []])).
  set (ag := get_agent W a).
  assert (HS : forall x, get_set (put_agent W1 a (set_a_bel ag (a_bel ag ++ [(g, r)]))) x = get_set W x).
  { intro x. unfold get_set at 1. cbn. apply get_set_app. }
  assert (HR : get_set W r = mkbset 0 []) by (apply nth_overflow; unfold r; lia).
  assert (HA : forall b, get_agent (put_agent W1 a (set_a_bel ag (a_bel ag ++ [(g, r)]))) b =
    if Nat.eqb a b && Nat.ltb a (List.length (w_agents W)) then set_a_bel ag (a_bel ag ++ [(g, r)]) else get_agent W b).
  { intro b. rewrite get_put_agent. destruct (Nat.eqb_spec a b) as [->|]; [|reflexivity]. cbn [andb].
    change (w_agents W1) with (w_agents W).
    destruct (Nat.ltb_spec b (List.length (w_agents W))); [reflexivity|]. now rewrite get_agent_over. }
  split; [constructor|split]; try reflexivity; try exact HS.
  6: apply upd_length.
  2-5: intro b; rewrite HA; destruct (Nat.eqb_spec a b) as [->|]; [|reflexivity]; cbn [andb]; destruct (Nat.ltb _ _); reflexivity.
  - intros b h. unfold beliefs. rewrite HA. destruct (Nat.eqb_spec a b) as [->|]; cbn [andb].
    + destruct (Nat.ltb_spec b (List.length (w_agents W))); [|destruct (assoc group_eqb h (a_bel (get_agent W b))); [f_equal; apply HS|reflexivity]].
      cbn [set_a_bel a_bel]. rewrite assoc_app. fold ag in E. destruct (assoc group_eqb h (a_bel ag)) as [x|] eqn:Eh; fold ag; rewrite Eh.
      * f_equal. apply HS.
      * cbn [assoc]. destruct (group_eqb h g); [|reflexivity]. rewrite HS, HR. reflexivity.
    + destruct (assoc group_eqb h (a_bel (get_agent W b))); [f_equal; apply HS|reflexivity].
  - rewrite HS, HR. unfold beliefs. fold ag in E. fold ag. now rewrite E.
Qed.
End WithPy.
