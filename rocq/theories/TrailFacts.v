(** Every operation on scope and stack only pushes: the trail discipline. *)
From Verif Require Import Base Num Term Unify.
Open Scope N_scope.

(** [trail st st']: [st'] arises from [st] by binding unbound variables and
    pushing fresh choicepoints. *)
Inductive trail (st : bst) : bst -> Prop :=
| tr_refl : trail st st
| tr_bind st' v t :
    trail st st' -> bound (b_scope st') v = false ->
    trail st (mkbst ((v, t) :: b_scope st') (EVar v :: b_stack st') (b_ncp st'))
| tr_cp st' c k :
    trail st st' -> b_ncp st' <= c -> c < k ->
    trail st (mkbst (b_scope st') (ECP c :: b_stack st') k)
| tr_ncp st' k :
    trail st st' -> b_ncp st' <= k ->
    trail st (mkbst (b_scope st') (b_stack st') k).

Lemma trail_trans st1 st2 st3 : trail st1 st2 -> trail st2 st3 -> trail st1 st3.
Proof. intros H1 H2; induction H2; auto; constructor; assumption. Qed.

Lemma trail_ncp st st' : trail st st' -> b_ncp st <= b_ncp st'.
Proof. induction 1; cbn in *; lia. Qed.

(** * reroll *)
Lemma remove_key_unbound s v : bound s v = false -> remove_key s v = s.
Proof.
  unfold bound. induction s as [|[w t] s IH]; cbn; [easy|].
  destruct (N.eqb v w); [easy|]. intro H. now rewrite IH.
Qed.

Lemma reroll_push st cp st' :
  cp < b_ncp st ->
  trail (push_cp cp st) st' ->
  reroll_loop (b_scope st') (b_stack st') cp = (b_scope st, b_stack st).
Proof.
  intros Hlt H. 
  induction H as [|st' v t H IH Hb|st' c k H IH Hc Hk|st' k H IH Hk]; cbn -[N.eqb] in *.
  - now rewrite N.eqb_refl.
  - rewrite N.eqb_refl, remove_key_unbound by assumption. exact IH.
  - apply trail_ncp in H. cbn in H. destruct (N.eqb_spec c cp); [lia|]. exact IH.
  - exact IH.
Qed.

Lemma reroll_eq st st' cp :
  cp < b_ncp st -> trail (push_cp cp st) st' ->
  reroll st' cp = mkbst (b_scope st) (b_stack st) (b_ncp st').
Proof. intros H1 H2. unfold reroll. now rewrite (reroll_push st cp st'). Qed.

(** * unify *)
Section WithPy.
Context {PY : Py}.

(** Unfolding equations for the mutual fixpoint. *)
Lemma evaluate_S n t s : evaluate (S n) t s =
      match t with
      | TVar v =>
          if bound s v then
            match deref t s with
            | Err e => Err e
            | Ok t' => evaluate n t' s
            end
          else Ok t
      | TUn op a =>
          match evaluate n a s with
          | Err e => Err e
          | Ok v => eval_unop op v
          end
      | TBin op l r =>
          match evaluate n l s with
          | Err e => Err e
          | Ok lv =>
              match evaluate n r s with
              | Err e => Err e
              | Ok rv =>
                  if is_comp op then
                    match grounded n lv s with
                    | Err e => Err e
                    | Ok lg =>
                        match grounded n rv s with
                        | Err e => Err e
                        | Ok rg => eval_binop op lg rg
                        end
                    end
                  else eval_binop op lv rv
              end
          end
      | _ => Ok t
      end.
Proof. destruct t; reflexivity. Qed.

Lemma grounded_S n t s : grounded (S n) t s =
      match t with
      | TVar v =>
          if bound s v then
            match deref t s with
            | Err e => Err e
            | Ok t' => grounded n t' s
            end
          else Err EAsl
      | TWild _ => Err EAsl
      | TUn _ _ | TBin _ _ _ =>
          match evaluate n t s with
          | Err e => Err e
          | Ok v => grounded n v s
          end
      | TLit f args annots =>
          match rmapl (fun a => grounded n a s) args with
          | Err e => Err e
          | Ok args' =>
              match rmapl (fun a => grounded n a s) annots with
              | Err e => Err e
              | Ok annots' => Ok (TLit f args' (mk_set annots'))
              end
          end
      | TTup ts => rmap TTup (rmapl (fun a => grounded n a s) ts)
      | TLL h tl =>
          match grounded n h s with
          | Err e => Err e
          | Ok h' => match grounded n tl s with Err e => Err e | Ok t' => Ok (TLL h' t') end
          end
      | TBool _ | TNum _ | TStr _ => Ok t
      end.
Proof. destruct t; reflexivity. Qed.

Lemma bind_trail v t st x st' :
  bind v t st = (x, st') -> trail st st' /\ b_ncp st' = b_ncp st.
Proof.
  unfold bind. intro H.
  assert (HB : forall (y : res unit * bst), (if bound (b_scope st) v then (Err ERuntime, st)
         else (Ok tt, mkbst ((v, t) :: b_scope st) (EVar v :: b_stack st) (b_ncp st))) = (x, st') ->
         trail st st' /\ b_ncp st' = b_ncp st).
  { intros _ HB. destruct (bound (b_scope st) v) eqn:E; inversion HB; subst; split; try constructor; auto using tr_refl. }
  destruct t; try (now apply HB; [exact (Ok tt, st) | assumption]).
  destruct (N.eqb v v0); [inversion H; subst; split; auto using tr_refl|].
  apply HB; [exact (Ok tt, st) | assumption].
Qed.

(** Only bindings are added, no choicepoint. *)
Inductive vtrail (st : bst) : bst -> Prop :=
| vt_refl : vtrail st st
| vt_bind st' v t :
    vtrail st st' -> bound (b_scope st') v = false ->
    vtrail st (mkbst ((v, t) :: b_scope st') (EVar v :: b_stack st') (b_ncp st')).

Lemma vtrail_trans st1 st2 st3 : vtrail st1 st2 -> vtrail st2 st3 -> vtrail st1 st3.
Proof. intros H1 H2; induction H2; auto; constructor; assumption. Qed.

Lemma vtrail_trail st st' : vtrail st st' -> trail st st'.
Proof. induction 1; constructor; assumption. Qed.

Lemma bind_vtrail v t st x st' : bind v t st = (x, st') -> vtrail st st'.
Proof.
  unfold bind. intro H.
  destruct t; destruct (bound (b_scope st) v) eqn:E;
    try (inversion H; subst; first [apply vt_refl | apply vt_bind; [apply vt_refl|assumption]]);
  destruct (N.eqb v v0); inversion H; subst; first [apply vt_refl | apply vt_bind; [apply vt_refl|assumption]].
Qed.

Lemma all_unify_vtrail (u : term -> term -> bst -> res bool * bst) :
  (forall l r st x st', u l r st = (x, st') -> vtrail st st') ->
  forall ls rs st x st', all_unify u ls rs st = (x, st') -> vtrail st st'.
Proof.
  intros Hu ls; induction ls as [|l ls IH]; intros rs st x st' H; cbn in H.
  - inversion H; subst; constructor.
  - destruct rs as [|r rs]; [inversion H; subst; constructor|].
    destruct (u l r st) as [y st1] eqn:E. apply Hu in E.
    destruct y as [[]|]; try (inversion H; subst; assumption).
    apply IH in H. eapply vtrail_trans; eassumption.
Qed.

Lemma unify_vtrail n : forall l r st x st', unify n l r st = (x, st') -> vtrail st st'.
Proof.
  induction n as [|n IH]; intros l r st x st' H.
  { inversion H; subst; constructor. }
  cbn [unify] in H.
  assert (Hall : forall ls rs, all_unify (unify n) ls rs st = (x, st') -> vtrail st st')
    by (intros ls rs; apply all_unify_vtrail; exact IH).
  assert (Hre : forall a b, unify n a b st = (x, st') -> vtrail st st') by (intros a b; apply IH).
  assert (Hpair : forall h x' t t', match unify n h x' st with
                  | (Ok true, st1) => unify n t t' st1 | y => y end = (x, st') -> vtrail st st').
  { intros h x' t t' HH. destruct (unify n h x' st) as [y st1] eqn:E. apply IH in E.
    destruct y as [[]|]; try (inversion HH; subst; assumption).
    apply IH in HH. eapply vtrail_trans; eassumption. }
  assert (Hid : forall y : res bool, (y, st) = (x, st') -> vtrail st st')
    by (intros y HH; inversion HH; subst; constructor).
  destruct l; 
    repeat match type of H with
    | (if ?c then _ else _) = _ => destruct c eqn:?
    | match deref ?a ?b with _ => _ end = _ => destruct (deref a b) eqn:?
    | match evaluate ?a ?b ?c with _ => _ end = _ => destruct (evaluate a b c) eqn:?
    end; eauto.
  all: try (destruct r; eauto;
     repeat match type of H with
    | (if ?c then _ else _) = _ => destruct c eqn:?
    | match evaluate ?a ?b ?c with _ => _ end = _ => destruct (evaluate a b c) eqn:?
    | match bind ?a ?b ?c with _ => _ end = _ => destruct (bind a b c) as [[]] eqn:?
    end; eauto; inversion H; subst; eapply bind_vtrail; eassumption).
  - destruct a; eauto. destruct (_ && _); eauto.
  - destruct a; eauto. destruct ts; eauto.
Qed.

Lemma vtrail_spec st st' : vtrail st st' ->
  exists news : list (N * term),
    b_scope st' = news ++ b_scope st /\
    b_stack st' = map (fun p => EVar (fst p)) news ++ b_stack st /\
    b_ncp st' = b_ncp st /\
    NoDup (map fst news) /\
    Forall (fun p => lookup (b_scope st) (fst p) = None) news.
Proof.
  induction 1 as [|st' v t H IH Hb].
  - exists []. repeat split; constructor.
  - destruct IH as (news & H1 & H2 & H3 & H4 & H5).
    exists ((v, t) :: news). cbn. rewrite H1, H2, H3. repeat split.
    + constructor; [|assumption]. intro Hin.
      unfold bound in Hb. rewrite H1 in Hb.
      apply in_map_iff in Hin as ((w, t') & Hw & Hin). cbn in Hw; subst w.
      clear -Hb Hin. induction news as [|[w s] news IH]; cbn in *; [easy|].
      destruct (N.eqb_spec v w); [easy|]. destruct Hin as [Hin|Hin]; [congruence|auto].
    + constructor; [|assumption]. cbn. unfold bound in Hb. rewrite H1 in Hb.
      clear -Hb. induction news as [|[w s] news IH]; cbn in *.
      * now destruct (lookup (b_scope st) v).
      * destruct (N.eqb v w); [easy|auto].
Qed.

Lemma vtrail_lookup st st' v t :
  vtrail st st' -> lookup (b_scope st) v = Some t -> lookup (b_scope st') v = Some t.
Proof.
  induction 1 as [|st' w s H IH Hb]; intro Hl; [assumption|]. cbn.
  specialize (IH Hl). destruct (N.eqb_spec v w); [|assumption].
  subst w. unfold bound in Hb. now rewrite IH in Hb.
Qed.

Lemma trail_lookup st st' v t :
  trail st st' -> lookup (b_scope st) v = Some t -> lookup (b_scope st') v = Some t.
Proof.
  induction 1 as [|st' w s H IH Hb| |]; intro Hl; cbn; auto.
  specialize (IH Hl). destruct (N.eqb_spec v w); [|assumption].
  subst w. unfold bound in Hb. now rewrite IH in Hb.
Qed.

(** * unify_annotated *)

(** An evaluated variable is unbound. *)
Lemma deref_loop_unbound n : forall t s v, deref_loop n t s = Ok (TVar v) -> bound s v = false.
Proof.
  induction n as [|n IH]; intros t s v H; destruct t; cbn in H; try easy;
    unfold bound; destruct (lookup s v0) eqn:E; try easy.
  - now inversion H; subst; rewrite E.
  - apply IH in H. exact H.
  - now inversion H; subst; rewrite E.
Qed.

Lemma evaluate_var_unbound n : forall t s v, evaluate n t s = Ok (TVar v) -> bound s v = false.
Proof.
  induction n as [|n IH]; intros t s v H; [easy|]. rewrite evaluate_S in H.
  destruct t; try easy.
  - destruct (bound s v0) eqn:E; [|now inversion H; subst].
    destruct (deref (TVar v0) s) eqn:D; [|easy]. eauto.
  - destruct (evaluate n t s); [|easy]. destruct op, a; cbn in H; easy.
  - destruct (evaluate n t1 s) as [lv|]; [|easy]. destruct (evaluate n t2 s) as [rv|]; [|easy].
    assert (Hop : forall a b, eval_binop op a b <> Ok (TVar v)).
    { intros a b. destruct op; cbn; try easy.
      - destruct a, b; try easy. destruct (num_op fpow op x x0); easy.
      - destruct (py_ord c a b); easy.
      - destruct (py_eq a b); easy.
      - destruct (py_eq a b); easy.
      - destruct a, b; easy.
      - destruct a, b; easy. }
    destruct (is_comp op).
    + destruct (grounded n lv s); [|easy]. destruct (grounded n rv s); [|easy]. now apply Hop in H.
    + now apply Hop in H.
Qed.

(** Unifying an unbound variable or a wildcard with a literal never answers False. *)
Lemma unify_var_never_false n r f args annots st st1 :
  match r with TVar v => bound (b_scope st) v = false | TWild _ => True | _ => False end ->
  unify n r (TLit f args annots) st <> (Ok false, st1).
Proof.
  intros Hr H. destruct n as [|n]; [easy|]. cbn [unify] in H.
  destruct r; try easy. rewrite Hr in H.
  destruct n; [easy|]. cbn [evaluate] in H.
  destruct (bind v _ st) as [[]]; easy.
Qed.

Lemma push_cp_trail st : trail st (push_cp (b_ncp st) (snd (new_cp st))).
Proof. unfold push_cp; cbn. apply tr_cp with (st' := st); [apply tr_refl | lia | lia]. Qed.

Lemma new_cp_trail st : trail st (snd (new_cp st)).
Proof. cbn. apply tr_ncp with (st' := st); [apply tr_refl | lia]. Qed.

(** After rolling back to a choicepoint pushed on [st]. *)
Lemma reroll_trail st st' :
  trail (push_cp (b_ncp st) (snd (new_cp st))) st' ->
  reroll st' (b_ncp st) = mkbst (b_scope st) (b_stack st) (b_ncp st')
  /\ trail st (reroll st' (b_ncp st)).
Proof.
  intro H. rewrite (reroll_eq (snd (new_cp st)) st' (b_ncp st)); [|cbn; lia|exact H].
  split; [reflexivity|]. apply trail_ncp in H. cbn in *. apply (tr_ncp st st); [constructor|lia].
Qed.

Definition uann_ok (u : term -> term -> bst -> res (option N) * bst) : Prop :=
  forall l r st x st', u l r st = (x, st') ->
    trail st st' /\
    (x = Ok None -> b_scope st' = b_scope st /\ b_stack st' = b_stack st).

Lemma annot_find_trail u : uann_ok u ->
  forall la ras closed st x st', annot_find u la ras closed st = (x, st') ->
    trail st st'.
Proof.
  intros Hu la ras; induction ras as [|ra ras IH]; intros closed st x st' H; cbn in H.
  - inversion H; subst; constructor.
  - destruct (py_in ra closed); [eauto|].
    destruct (u la ra st) as [y st1] eqn:E. destruct (Hu _ _ _ _ _ E) as [HT _].
    destruct y as [[c|]|]; try (inversion H; subst; assumption).
    eapply trail_trans; eauto.
Qed.

Lemma annots_match_trail u : uann_ok u ->
  forall las ras closed st x st', annots_match u las ras closed st = (x, st') -> trail st st'.
Proof.
  intros Hu las; induction las as [|la las IH]; intros ras closed st x st' H; cbn in H.
  - inversion H; subst; constructor.
  - destruct (annot_find u la ras closed st) as [y st1] eqn:E.
    apply annot_find_trail in E; [|assumption].
    destruct y as [[ra|]|]; try (inversion H; subst; assumption).
    eapply trail_trans; eauto.
Qed.

Lemma uann_trail n : uann_ok (uann n).
Proof.
  induction n as [|n IH]; intros l r st x st' H; cbn in H.
  { inversion H; subst; split; [constructor|easy]. }
  assert (Hdef : forall l', match unify n l' r (push_cp (b_ncp st) (snd (new_cp st))) with
          | (Ok true, st1) => (Ok (Some (b_ncp st)), st1)
          | (Ok false, st1) => (Ok None, reroll st1 (b_ncp st))
          | (Err e, st1) => (Err e, st1)
          end = (x, st') -> trail st st' /\
          (x = Ok None -> b_scope st' = b_scope st /\ b_stack st' = b_stack st)).
  { intros l' HH.
    destruct (unify n l' r _) as [y st1] eqn:E. apply unify_vtrail, vtrail_trail in E.
    assert (HT : trail st st1) by (eapply trail_trans; [apply push_cp_trail|exact E]).
    destruct y as [[]|]; try (inversion HH; subst; split; [assumption|easy]).
    apply reroll_trail in E as [E1 E2]. inversion HH; subst. rewrite E1 in *. auto. }
  destruct l; try (now eapply Hdef; exact H).
  destruct (evaluate n r (b_scope st)) as [r'|] eqn:Er; [|inversion H; subst; split; [constructor|easy]].
  assert (Hlit : match unify n (TLit f args annots) r' (push_cp (b_ncp st) (snd (new_cp st))) with
              | (Err e, st1) => (Err e, st1)
              | (Ok false, st1) => (Ok None, reroll st1 (b_ncp st))
              | (Ok true, st1) =>
                  match annots_match (uann n) annots (lit_annots r') [] st1 with
                  | (Err e, st2) => (Err e, st2)
                  | (Ok false, st2) => (Ok None, reroll st2 (b_ncp st))
                  | (Ok true, st2) => (Ok (Some (b_ncp st)), st2)
                  end
              end = (x, st') -> trail st st' /\
          (x = Ok None -> b_scope st' = b_scope st /\ b_stack st' = b_stack st)).
  { intro HH.
    destruct (unify n _ r' _) as [y st1] eqn:E. apply unify_vtrail, vtrail_trail in E.
    assert (HT : trail st st1) by (eapply trail_trans; [apply push_cp_trail|exact E]).
    destruct y as [[]|]; try (inversion HH; subst; split; [assumption|easy]).
    - destruct (annots_match _ _ _ _ _) as [z st2] eqn:Ea.
      apply annots_match_trail in Ea; [|exact IH].
      assert (E' := trail_trans _ _ _ E Ea).
      assert (HT' := trail_trans _ _ _ HT Ea).
      destruct z as [[]|]; try (inversion HH; subst; split; [assumption|easy]).
      apply reroll_trail in E' as [E1 E2]. inversion HH; subst. rewrite E1 in *. auto.
    - apply reroll_trail in E as [E1 E2]. inversion HH; subst. rewrite E1 in *. auto. }
  destruct r'; try (now apply Hlit; exact H).
  - destruct (unify n (TVar v) _ _) as [y st1] eqn:E.
    assert (E' := E). apply unify_vtrail, vtrail_trail in E'.
    assert (HT : trail st st1) by (eapply trail_trans; [apply new_cp_trail|exact E']).
    destruct y as [[]|]; try (inversion H; subst; split; [assumption|easy]).
    exfalso. eapply unify_var_never_false; [|exact E]. cbn. eapply evaluate_var_unbound; eassumption.
  - destruct (unify n (TWild w) _ _) as [y st1] eqn:E.
    assert (E' := E). apply unify_vtrail, vtrail_trail in E'.
    assert (HT : trail st st1) by (eapply trail_trans; [apply new_cp_trail|exact E']).
    destruct y as [[]|]; try (inversion H; subst; split; [assumption|easy]).
    exfalso. eapply unify_var_never_false; [|exact E]. exact I.
Qed.

End WithPy.
