(** Folding what has been folded changes nothing. *)
From Verif Require Import Base Num Term Unify Str World Ast Names Quote Lex LexSpec LexFacts Parse Fold Program RoundSpec
  GramSpec GramTok GramSound GramComp GramCor Counts Closed SrcSpec SrcQuiet SrcVal SrcFacts.

Section WithPy.
Context {PY : Py}.

Lemma never {A} e (y : A) : runs (pfail e) y -> False.
Proof. intros H. exact (proj1 (runs_fail e y) H). Qed.

Lemma blind_comp op l r : blind (fold_comp op l r).
Proof.
  unfold fold_comp. destruct (const l) as [x|]; [|apply blind_ret]. destruct (const r) as [y|]; [|apply blind_ret].
  assert (B : blind match eval_binop op x y with Ok (TBool b) => pret (ABool b) | Ok _ => pret (ABin op l r) | Err e => pfail e end).
  { destruct (eval_binop op x y) as [[]|e]; apply blind_ret || apply blind_fail. }
  destruct x, y; apply blind_ret || exact B.
Qed.
Lemma comp_runs op l r y : runs (fold_comp op l r) y -> (exists b, y = ABool b) \/ y = ABin op l r.
Proof.
  unfold fold_comp. destruct (const l) as [x|]; [|intros H; right; now apply runs_ret in H].
  destruct (const r) as [z|]; [|intros H; right; now apply runs_ret in H].
  assert (B : runs match eval_binop op x z with Ok (TBool b) => pret (ABool b) | Ok _ => pret (ABin op l r) | Err e => pfail e end y ->
    (exists b, y = ABool b) \/ y = ABin op l r).
  { destruct (eval_binop op x z) as [[]|e]; intros H; (destruct (never _ _ H)) || (apply runs_ret in H as ->; eauto). }
  destruct x, z; exact B || (intros H; right; now apply runs_ret in H).
Qed.

Ltac bl := repeat first [apply blind_ret|apply blind_fail|apply blind_error|apply blind_fold|apply blind_comp
  |apply blind_mapl; intros|apply blind_bind; [|intros]|assumption
  |match goal with |- blind (match ?b with _ => _ end) => destruct b end].
Ltac rb := rewrite runs_bind; [|solve [bl]|intros; solve [bl]].
Ltac inv H := apply runs_bind' in H; [|solve [bl]|intros; solve [bl]].
Ltac bad H := let y := fresh in let X := fresh in
  solve [inv H; destruct H as (y & X & _); now apply runs_error in X | destruct (never _ _ H)].

Definition settles (t : ast) : Prop := forall m t', runs (fold m t) t' -> runs (fold m t') t'.

Lemma settles_list ts : Forall settles ts -> forall ts', runs (pmapl (fold MTerm) ts) ts' -> runs (pmapl (fold MTerm) ts') ts'.
Proof.
  intros F ts' H. apply runs_mapl in H; [|intros; bl]. apply runs_mapl; [intros; bl|].
  revert F. induction H as [|x y l l' H _ IH]; intros F; [constructor|]. inversion F; subst. constructor; [|now apply IH]. eauto.
Qed.

Lemma bool_runs m b : m <> MNum -> runs (fold m (ABool b)) (ABool b).
Proof. intros Hm. cbn [fold]. destruct m; [congruence|..]; rb; exists tt; split; now apply runs_ret. Qed.
Lemma num_runs m x : m = MNum \/ m = MTerm -> runs (fold m (ANum x)) (ANum x).
Proof. intros [-> | ->]; cbn [fold]; rb; exists tt; split; now apply runs_ret. Qed.

Lemma fold_settles t : settles t.
Proof.
  induction t as [b|x|s|v|f ts an Hts Han|ts Hts|h t IHh IHt|op a IH|op l r IHl IHr] using ast_ind'; intros m t' H.
  - assert (E : t' = ABool b). { cbn [fold] in H. destruct m; [bad H|..]; inv H; destruct H as (u & _ & H); now apply runs_ret in H. }
    subst. assumption.
  - assert (E : t' = ANum x). { cbn [fold] in H. inv H; destruct H as (u & _ & H); now apply runs_ret in H. }
    subst. assumption.
  - assert (E : t' = AStr s). { cbn [fold] in H. inv H; destruct H as (u & _ & H); now apply runs_ret in H. }
    subst. assumption.
  - assert (E : t' = AVar v). { cbn [fold] in H. destruct v; [bad H|]. now apply runs_ret in H. }
    subst. assumption.
  - assert (X : forall ts' an', runs (pmapl (fold MTerm) ts) ts' -> runs (pmapl (fold MTerm) an) an' -> m = MTerm \/ m = MLog ->
      runs (fold m (ALit f ts' an')) (ALit f ts' an')).
    { intros ts' an' H1 H2 Hm. apply settles_list in H1; [|assumption]. apply settles_list in H2; [|assumption].
      destruct Hm as [-> | ->]; cbn [fold]; rb; exists ts'; (split; [assumption|]); rb; exists an'; (split; [assumption|now apply runs_ret]). }
    cbn [fold] in H. destruct m; try bad H; inv H; destruct H as (ts' & H1 & H); inv H; destruct H as (an' & H2 & H); apply runs_ret in H as ->;
      apply X; auto.
  - cbn [fold] in H. destruct m; try bad H. inv H. destruct H as (ts' & H1 & H). apply runs_ret in H as ->.
    apply settles_list in H1; [|assumption]. cbn [fold]. rb. exists ts'. split; [assumption|now apply runs_ret].
  - cbn [fold] in H. destruct m; try bad H. inv H. destruct H as (h' & H1 & H). inv H. destruct H as (u & H2 & H). apply runs_ret in H as ->.
    apply IHh in H1. apply IHt in H2. cbn [fold]. rb. exists h'. split; [assumption|]. rb. exists u. split; [assumption|now apply runs_ret].
  - assert (Not : forall md, (md = MBool \/ md = MLog) -> (m = MTerm \/ m = md) -> md = unop_mode m UNot -> op = UNot ->
      runs (a' <- fold md a ;; match a' with ABool b => pret (ABool (negb b)) | _ => pret (AUn UNot a') end)%P t' ->
      runs (fold m t') t').
    { intros md Hmd Hm Em -> R. inv R. destruct R as (a' & H1 & R). pose proof (IH _ _ H1) as H2.
      assert (C : (exists b, a' = ABool b /\ t' = ABool (negb b)) \/ ((forall b, a' <> ABool b) /\ t' = AUn UNot a')).
      { destruct a'; apply runs_ret in R as ->; eauto; right; split; discriminate || reflexivity. }
      destruct C as [(b & -> & ->)|[Hn ->]].
      - apply bool_runs. destruct Hm as [-> | ->]; [discriminate|]. destruct Hmd as [-> | ->]; discriminate.
      - cbn [fold]. rewrite <- Em. destruct Hmd as [-> | ->]; rb; exists a'; (split; [assumption|]); destruct a'; first [now apply runs_ret|exfalso; eapply Hn; reflexivity]. }
    assert (Sign : forall (fn : num -> num) op', op = op' -> op' <> UNot -> m = MNum \/ m = MTerm ->
      (forall z u, runs (fold m (AUn op' z)) u <->
         runs (a' <- fold MNum z ;; match a' with ANum x => pret (ANum (fn x)) | _ => pret (AUn op' a') end)%P u) -> runs (fold m t') t').
    { intros fn op' <- Hop Hm Ef. apply Ef in H. inv H. destruct H as (a' & H1 & R). pose proof (IH _ _ H1) as H2.
      assert (C : (exists x, a' = ANum x /\ t' = ANum (fn x)) \/ ((forall b, a' <> ANum b) /\ t' = AUn op a')).
      { destruct a'; apply runs_ret in R as ->; eauto; right; split; discriminate || reflexivity. }
      destruct C as [(b & -> & ->)|[Hn ->]]; [now apply num_runs|].
      apply Ef. rb. exists a'. split; [assumption|]. destruct a'; first [now apply runs_ret|exfalso; eapply Hn; reflexivity]. }
    destruct op.
    + cbn [fold] in H. destruct m; cbn [unop_mode] in H; try bad H; refine (Not _ _ _ _ _ H); cbn [unop_mode]; auto.
    + destruct m; [|cbn [fold unop_mode] in H; bad H| |cbn [fold unop_mode] in H; bad H];
        apply (Sign (fun x => x) UPos); auto; try discriminate; intros; reflexivity.
    + destruct m; [|cbn [fold unop_mode] in H; bad H| |cbn [fold unop_mode] in H; bad H];
        apply (Sign num_opp UNeg); auto; try discriminate; intros; reflexivity.
  - (* the operators on numbers *)
    assert (Num : forall o, op = BNum o -> m = MNum \/ m = MTerm ->
      (forall y z u, runs (fold m (ABin (BNum o) y z)) u <->
        runs (l' <- fold MNum y ;; r' <- fold MNum z ;;
           match l', r' with
           | ANum x, ANum y' =>
               match num_op fpow o x y' with
               | Ok w => pret (ANum w)
               | Err EZeroDiv => p_error ;; pret (ABin (BNum o) y z)
               | Err e => pfail e
               end
           | _, _ => pret (ABin (BNum o) l' r')
           end)%P u) -> runs (fold m t') t').
    { intros o -> Hm Ef. apply Ef in H. inv H. destruct H as (l' & H1 & H). inv H. destruct H as (r' & H2 & R).
      pose proof (IHl _ _ H1) as H1'. pose proof (IHr _ _ H2) as H2'.
      assert (C : (exists w, t' = ANum w) \/ ((forall x y, l' = ANum x -> r' = ANum y -> False) /\ t' = ABin (BNum o) l' r')).
      { destruct l'; try (apply runs_ret in R as ->; right; split; [discriminate|reflexivity]).
        destruct r'; try (apply runs_ret in R as ->; right; split; [discriminate|reflexivity]).
        left. destruct (num_op fpow o x x0) as [w|e].
        - apply runs_ret in R as ->. eauto.
        - destruct e; try (destruct (never _ _ R)). inv R. destruct R as (y & X & _). now apply runs_error in X. }
      destruct C as [(w & ->)|[Hn ->]]; [now apply num_runs|].
      apply Ef. rb. exists l'. split; [assumption|]. rb. exists r'. split; [assumption|].
      destruct l'; try (now apply runs_ret). destruct r'; try (now apply runs_ret). exfalso. eapply Hn; reflexivity. }
    assert (Two : op = BUnify \/ op = BDecompose -> m = MLog -> runs (fold m t') t').
    { intros Hop ->. assert (X : exists l' r', runs (fold MTerm l) l' /\ runs (fold MTerm r) r' /\ t' = ABin op l' r').
      { destruct Hop as [-> | ->]; cbn [fold binop_mode] in H; inv H; destruct H as (l' & H1 & H); inv H; destruct H as (r' & H2 & H);
          apply runs_ret in H as ->; eauto. }
      destruct X as (l' & r' & H1 & H2 & ->). apply IHl in H1. apply IHr in H2.
      destruct Hop as [-> | ->]; cbn [fold binop_mode]; rb; exists l'; (split; [assumption|]); rb; exists r'; (split; [assumption|now apply runs_ret]). }
    assert (Comp : (forall y z u, runs (fold m (ABin op y z)) u <->
        runs (l' <- fold MTerm y ;; r' <- fold MTerm z ;; fold_comp op l' r')%P u) -> m <> MNum -> runs (fold m t') t').
    { intros Ef Hm. apply Ef in H. inv H. destruct H as (l' & H1 & H). inv H. destruct H as (r' & H2 & R).
      destruct (comp_runs _ _ _ _ R) as [(b & ->)| ->]; [now apply bool_runs|].
      apply Ef. rb. exists l'. split; [eauto|]. rb. exists r'. split; [eauto|assumption]. }
    assert (Logic : forall md fn, (forall y z u, runs (fold m (ABin op y z)) u <->
        runs (l' <- fold md y ;; r' <- fold md z ;;
           match l', r' with ABool x, ABool y => pret (ABool (fn x y)) | _, _ => pret (ABin op l' r') end)%P u) -> m <> MNum -> runs (fold m t') t').
    { intros md fn Ef Hm. apply Ef in H. inv H. destruct H as (l' & H1 & H). inv H. destruct H as (r' & H2 & R).
      pose proof (IHl _ _ H1) as H1'. pose proof (IHr _ _ H2) as H2'.
      assert (C : (exists w, t' = ABool w) \/ ((forall x y, l' = ABool x -> r' = ABool y -> False) /\ t' = ABin op l' r')).
      { destruct l'; try (apply runs_ret in R as ->; right; split; [discriminate|reflexivity]).
        destruct r'; try (apply runs_ret in R as ->; right; split; [discriminate|reflexivity]).
        left. apply runs_ret in R as ->. eauto. }
      destruct C as [(w & ->)|[Hn ->]]; [now apply bool_runs|].
      apply Ef. rb. exists l'. split; [assumption|]. rb. exists r'. split; [assumption|].
      destruct l'; try (now apply runs_ret). destruct r'; try (now apply runs_ret). exfalso. eapply Hn; reflexivity. }
    destruct op as [o| | | | | | |].
    all: destruct m; try (cbn [fold binop_mode] in H; bad H).
    all: first [ now (apply (Num o); auto; intros; reflexivity)
               | now (apply Two; auto)
               | now (apply Comp; [intros; reflexivity|discriminate])
               | now (apply (Logic MBool andb); [intros; reflexivity|discriminate])
               | now (apply (Logic MLog andb); [intros; reflexivity|discriminate])
               | now (apply (Logic MBool orb); [intros; reflexivity|discriminate])
               | now (apply (Logic MLog orb); [intros; reflexivity|discriminate]) ].
Qed.

(** ** Clauses *)

Lemma lit_settles l l' : folded_lit l l' -> folded_lit l' l'.
Proof.
  assert (X : forall ts ts', Forall2 (folded MTerm) ts ts' -> Forall2 (folded MTerm) ts' ts').
  { induction 1 as [|x y ts ts' H _ IH]; constructor; [|assumption]. exact (fold_settles x MTerm y H). }
  intros (_ & H1 & H2). split; [reflexivity|]. split; eauto.
Qed.
Lemma other_settles m f ts an t' : m = MTerm \/ m = MLog -> folded m (ALit f ts an) t' -> exists ts' an', t' = ALit f ts' an'.
Proof.
  intros Hm H. change (runs (fold m (ALit f ts an)) t') in H. cbn [fold] in H.
  destruct Hm as [-> | ->]; inv H; destruct H as (ts' & _ & H); inv H; destruct H as (an' & _ & H); apply runs_ret in H; eauto.
Qed.
Lemma var_settles v t' : folded MTerm (AVar v) t' -> t' = AVar v.
Proof.
  intros H. change (runs (fold MTerm (AVar v)) t') in H. cbn [fold] in H. destruct v; [destruct (never _ _ H)|]. now apply runs_ret in H.
Qed.
Lemma form_settles f : forall f', folded_form f f' -> folded_form f' f'.
Proof.
  assert (Body : forall b, Forall (fun f => forall f', folded_form f f' -> folded_form f' f') b ->
    forall b', Forall2 folded_form b b' -> Forall2 folded_form b' b').
  { intros b F b' H. induction H as [|x y b b' Hx _ IH]; inversion F; subst; constructor; auto. }
  induction f as [ft t|c b IH|c ib eb IHi IHe|c b IH] using form_ind'; intros f' H; inversion H; subst.
  - constructor. now apply (fold_settles t MLog).
  - match goal with X : folded MTerm (ALit _ _ _) _ |- _ => rename X into Hx end.
    pose proof (fold_settles _ MTerm _ Hx) as Hy. destruct (other_settles MTerm _ _ _ _ (or_introl eq_refl) Hx) as (ts' & an' & ->).
    now constructor.
  - match goal with X : folded MTerm (AVar _) _ |- _ => rename X into Hx end. pose proof (var_settles _ _ Hx) as ->. now constructor.
  - constructor; [now apply (fold_settles c MLog)|]. now apply (Body b).
  - constructor; [now apply (fold_settles c MLog)|]. now apply (Body ib).
  - constructor; [now apply (fold_settles c MLog)|now apply (Body ib)|eapply Body; [exact IHe|assumption]].
  - constructor; [now apply (fold_settles c MLog)|]. now apply (Body b).
Qed.
Lemma part_settles {A} (R : A -> A -> Prop) o o' : (forall x y, R x y -> R y y) -> part R o o' -> part R o' o'.
Proof. intros H [|x x' Hx]; constructor. eauto. Qed.
Lemma all_settles {A} (R : A -> A -> Prop) l l' : (forall x y, R x y -> R y y) -> Forall2 R l l' -> Forall2 R l' l'.
Proof. intros H F. induction F; constructor; eauto. Qed.
Lemma log_settles t t' : folded MLog t t' -> folded MLog t' t'.
Proof. exact (fold_settles t MLog t'). Qed.
Lemma rule_settles r r' : folded_rule r r' -> folded_rule r' r'.
Proof. intros [H1 H2]. split; [exact (lit_settles _ _ H1)|exact (log_settles _ _ H2)]. Qed.
Lemma plan_settles p p' : folded_plan p p' -> folded_plan p' p'.
Proof.
  intros (H1 & (_ & _ & H2) & H3 & H4). split; [exact (part_settles _ _ _ lit_settles H1)|].
  split; [split; [reflexivity|]; split; [reflexivity|exact (lit_settles _ _ H2)]|].
  split; [exact (part_settles _ _ _ log_settles H3)|]. revert H4. apply part_settles. intros x y. apply all_settles. exact form_settles.
Qed.

Theorem validated_settles g g' : validated g g' -> validated g' g'.
Proof.
  intros ((H1 & H2 & H3 & H4) & H). split; [|exact H].
  repeat split; [exact (all_settles _ _ _ rule_settles H1)|exact (all_settles _ _ _ lit_settles H2)|exact (all_settles _ _ _ lit_settles H3)
                |exact (all_settles _ _ _ plan_settles H4)].
Qed.
End WithPy.
