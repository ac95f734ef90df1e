(** A larger recursion limit never changes an outcome other than
    RecursionError. *)
From Verif Require Import Base Num Term Unify TrailFacts.

Definition rle {A} (x y : res A) : Prop := x = Err ERecursion \/ x = y.
Definition sle {A S} (x y : res A * S) : Prop := fst x = Err ERecursion \/ x = y.

Lemma rle_refl {A} (x : res A) : rle x x. Proof. now right. Qed.
Lemma sle_refl {A S} (x : res A * S) : sle x x. Proof. now right. Qed.
Lemma sle_trans {A S} (x y z : res A * S) : sle x y -> sle y z -> sle x z.
Proof. intros [H|H] [H'|H']; subst; unfold sle; auto. Qed.
Lemma rle_trans {A} (x y z : res A) : rle x y -> rle y z -> rle x z.
Proof. intros [H|H] [H'|H']; subst; unfold rle; auto. Qed.

Lemma rle_bind {A B} (x y : res A) (f g : A -> res B) :
  rle x y -> (forall a, rle (f a) (g a)) ->
  rle (match x with Err e => Err e | Ok a => f a end) (match y with Err e => Err e | Ok a => g a end).
Proof. intros [->| ->] H; [now left|]. destruct y; [apply H|apply rle_refl]. Qed.

Lemma rmapl_rle {A B} (f g : A -> res B) l :
  (forall a, rle (f a) (g a)) -> rle (rmapl f l) (rmapl g l).
Proof.
  intro H. induction l as [|x l IH]; cbn; [apply rle_refl|].
  apply rle_bind; [apply H|]. intro y. apply rle_bind; [apply IH|]. intros; apply rle_refl.
Qed.

Lemma rall_rle {A} (f g : A -> res bool) l :
  (forall a, rle (f a) (g a)) -> rle (rall f l) (rall g l).
Proof.
  intro H. induction l as [|x l IH]; cbn; [apply rle_refl|].
  destruct (H x) as [E|E]; rewrite E; [now left|].
  destruct (g x) as [[]|]; [apply IH|apply rle_refl|apply rle_refl].
Qed.

Section WithPy.
Context {PY : Py}.

Lemma eval_mono n :
  (forall t s, rle (evaluate n t s) (evaluate (S n) t s)) /\
  (forall t s, rle (grounded n t s) (grounded (S n) t s)).
Proof.
  induction n as [|n [IHe IHg]]; [split; intros; now left|].
  split; intros t s.
  - rewrite (evaluate_S (S n)), (evaluate_S n).
    destruct t; try apply rle_refl.
    + destruct (bound s v); [|apply rle_refl]. destruct (deref _ _); [apply IHe|apply rle_refl].
    + apply rle_bind; [apply IHe|]. intros; apply rle_refl.
    + apply rle_bind; [apply IHe|]. intro lv. apply rle_bind; [apply IHe|]. intro rv.
      destruct (is_comp op); [|apply rle_refl].
      apply rle_bind; [apply IHg|]. intro. apply rle_bind; [apply IHg|]. intros; apply rle_refl.
  - rewrite (grounded_S (S n)), (grounded_S n).
    destruct t; try apply rle_refl.
    + destruct (bound s v); [|apply rle_refl]. destruct (deref _ _); [apply IHg|apply rle_refl].
    + apply rle_bind; [apply IHe|]. intro; apply IHg.
    + apply rle_bind; [apply IHe|]. intro; apply IHg.
    + apply rle_bind; [apply rmapl_rle; intro; apply IHg|]. intro.
      apply rle_bind; [apply rmapl_rle; intro; apply IHg|]. intro; apply rle_refl.
    + unfold rmap. 
      destruct (rmapl_rle (fun a => grounded n a s) (fun a => grounded (S n) a s) ts (fun a => IHg a s)) as [E|E];
        rewrite E; [now left|apply rle_refl].
    + apply rle_bind; [apply IHg|]. intro. apply rle_bind; [apply IHg|]. intro; apply rle_refl.
Qed.

Lemma evaluate_mono n t s : rle (evaluate n t s) (evaluate (S n) t s).
Proof. apply eval_mono. Qed.
Lemma grounded_mono n t s : rle (grounded n t s) (grounded (S n) t s).
Proof. apply eval_mono. Qed.

Lemma is_ground_mono n : forall t s, rle (is_ground n t s) (is_ground (S n) t s).
Proof.
  induction n as [|n IH]; [intros; now left|]. intros t s.
  change (rle (is_ground (S n) t s) (is_ground (S (S n)) t s)).
  assert (forall m, is_ground (S m) t s = match t with
      | TVar v =>
          if bound s v then
            match deref t s with
            | Err e => Err e
            | Ok t' => is_ground m t' s
            end
          else Ok false
      | TWild _ => Ok false
      | TUn _ a => is_ground m a s
      | TBin _ l r => rall (fun a => is_ground m a s) [l; r]
      | TLit _ args annots =>
          match rall (fun a => is_ground m a s) args with
          | Ok true => rall (fun a => is_ground m a s) annots
          | x => x
          end
      | TTup ts => rall (fun a => is_ground m a s) ts
      | TLL h tl => rall (fun a => is_ground m a s) [h; tl]
      | TBool _ | TNum _ | TStr _ => Ok true
      end) as HS by reflexivity.
  rewrite (HS (S n)), (HS n). clear HS.
  destruct t; try apply rle_refl.
  - destruct (bound s v); [|apply rle_refl]. destruct (deref _ _); [apply IH|apply rle_refl].
  - apply IH.
  - apply rall_rle; intro; apply IH.
  - destruct (rall_rle (fun a => is_ground n a s) (fun a => is_ground (S n) a s) args (fun a => IH a s)) as [E|E];
      rewrite E; [now left|].
    clear E. destruct (rall (fun a => is_ground (S n) a s) args) as [[]|]; try apply rle_refl. apply rall_rle; intro; apply IH.
  - apply rall_rle; intro; apply IH.
  - apply rall_rle; intro; apply IH.
Qed.

Lemma smapl_sle {A B S} (f g : A -> S -> res B * S) l : forall s,
  (forall a s, sle (f a s) (g a s)) -> sle (smapl f l s) (smapl g l s).
Proof.
  induction l as [|x l IH]; cbn; intros s H; [apply sle_refl|].
  destruct (H x s) as [E|E].
  - destruct (f x s) as [y s1]. cbn in E. subst. now left.
  - rewrite E. destruct (g x s) as [[y|] s1]; [|apply sle_refl].
    destruct (IH s1 H) as [E1|E1].
    + destruct (smapl f l s1) as [ys s2]. cbn in E1. subst. now left.
    + rewrite E1. apply sle_refl.
Qed.

Lemma freeze_mono n : forall t s m, sle (freeze n t s m) (freeze (S n) t s m).
Proof.
  induction n as [|n IH]; [intros; now left|]. intros t s m.
  assert (HS : forall k, freeze (S k) t s m = match t with
      | TVar v =>
          match memo_get (fst m) v with
          | Some x => (Ok (TVar x), m)
          | None =>
              if bound s v then
                match deref t s with
                | Err e => (Err e, m)
                | Ok t' => freeze k t' s m
                end
              else (Ok (TVar (snd m)), ((v, snd m) :: fst m, N.succ (snd m)))
          end
      | TWild _ => (Ok t, m)
      | TUn _ _ | TBin _ _ _ =>
          match evaluate k t s with
          | Err e => (Err e, m)
          | Ok v => freeze k v s m
          end
      | TLit f args annots =>
          match smapl (fun a => freeze k a s) args m with
          | (Err e, m1) => (Err e, m1)
          | (Ok args', m1) =>
              match smapl (fun a => freeze k a s) annots m1 with
              | (Err e, m2) => (Err e, m2)
              | (Ok annots', m2) => (Ok (TLit f args' (mk_set annots')), m2)
              end
          end
      | TTup ts =>
          match smapl (fun a => freeze k a s) ts m with
          | (Err e, m1) => (Err e, m1)
          | (Ok ts', m1) => (Ok (TTup ts'), m1)
          end
      | TLL h tl =>
          match freeze k h s m with
          | (Err e, m1) => (Err e, m1)
          | (Ok h', m1) =>
              match freeze k tl s m1 with
              | (Err e, m2) => (Err e, m2)
              | (Ok t', m2) => (Ok (TLL h' t'), m2)
              end
          end
      | TBool _ | TNum _ | TStr _ => (Ok t, m)
      end) by (intro; destruct t; reflexivity).
  rewrite (HS (S n)), (HS n). clear HS.
  assert (HL : forall l m', sle (smapl (fun a => freeze n a s) l m') (smapl (fun a => freeze (S n) a s) l m'))
    by (intros; apply smapl_sle; intros; apply IH).
  destruct t; try apply sle_refl.
  - destruct (memo_get _ _); [apply sle_refl|]. destruct (bound s v); [|apply sle_refl].
    destruct (deref _ _); [apply IH|apply sle_refl].
  - destruct (evaluate_mono n (TUn op t) s) as [E|E]; rewrite E; [now left|].
    destruct (evaluate (S n) _ s); [apply IH|apply sle_refl].
  - destruct (evaluate_mono n (TBin op t1 t2) s) as [E|E]; rewrite E; [now left|].
    destruct (evaluate (S n) _ s); [apply IH|apply sle_refl].
  - destruct (HL args m) as [E|E].
    { destruct (smapl _ args m) as [? ?]. cbn in E; subst. now left. }
    rewrite E. clear E. destruct (smapl _ args m) as [[ys|] m1]; [|apply sle_refl].
    destruct (HL annots m1) as [E1|E1].
    { destruct (smapl _ annots m1) as [? ?]. cbn in E1; subst. now left. }
    rewrite E1. apply sle_refl.
  - destruct (HL ts m) as [E|E].
    { destruct (smapl _ ts m) as [? ?]. cbn in E; subst. now left. }
    rewrite E. apply sle_refl.
  - destruct (IH t1 s m) as [E|E].
    { destruct (freeze n t1 s m) as [? ?]. cbn in E; subst. now left. }
    rewrite E. destruct (freeze (S n) t1 s m) as [[y|] m1]; [|apply sle_refl].
    destruct (IH t2 s m1) as [E1|E1].
    { destruct (freeze n t2 s m1) as [? ?]. cbn in E1; subst. now left. }
    rewrite E1. apply sle_refl.
Qed.

Lemma all_unify_sle (u v : term -> term -> bst -> res bool * bst) :
  (forall l r st, sle (u l r st) (v l r st)) ->
  forall ls rs st, sle (all_unify u ls rs st) (all_unify v ls rs st).
Proof.
  intros H ls; induction ls as [|l ls IH]; intros rs st; cbn; [apply sle_refl|].
  destruct rs as [|r rs]; [apply sle_refl|].
  destruct (H l r st) as [E|E].
  - destruct (u l r st) as [x st1]. cbn in E. subst. now left.
  - rewrite E. destruct (v l r st) as [[[]|] st1]; try apply sle_refl. apply IH.
Qed.

Lemma pair_sle (u v : term -> term -> bst -> res bool * bst) h x t y st :
  (forall l r st, sle (u l r st) (v l r st)) ->
  sle (match u h x st with (Ok true, st1) => u t y st1 | z => z end)
      (match v h x st with (Ok true, st1) => v t y st1 | z => z end).
Proof.
  intro H. destruct (H h x st) as [E|E].
  - destruct (u h x st) as [a st1]. cbn in E. subst. now left.
  - rewrite E. destruct (v h x st) as [[[]|] st1]; try apply sle_refl. apply H.
Qed.

Lemma unify_S n l r st :
  unify (S n) l r st = ltac:(let x := eval cbn [unify] in (unify (S n) l r st) in exact x).
Proof. reflexivity. Qed.
Lemma uann_S n l r st :
  uann (S n) l r st = ltac:(let x := eval cbn [uann] in (uann (S n) l r st) in exact x).
Proof. reflexivity. Qed.
Lemma freeze_S n t s m :
  freeze (S n) t s m = ltac:(let x := eval cbn [freeze] in (freeze (S n) t s m) in exact x).
Proof. reflexivity. Qed.
Lemma is_ground_S n t s :
  is_ground (S n) t s = ltac:(let x := eval cbn [is_ground] in (is_ground (S n) t s) in exact x).
Proof. reflexivity. Qed.

Lemma unify_mono n : forall l r st, sle (unify n l r st) (unify (S n) l r st).
Proof.
  induction n as [|n IH]; [intros; now left|]. intros l r st.
  rewrite (unify_S (S n)), (unify_S n).
  assert (HA : forall ls rs st, sle (all_unify (unify n) ls rs st) (all_unify (unify (S n)) ls rs st))
    by (apply all_unify_sle; exact IH).
  assert (HP : forall h x t y st, sle (match unify n h x st with (Ok true, st1) => unify n t y st1 | z => z end)
      (match unify (S n) h x st with (Ok true, st1) => unify (S n) t y st1 | z => z end))
    by (intros; apply pair_sle; exact IH).
  destruct l.
  all: try (destruct (has_unify r); [apply IH|]; destruct r; try apply sle_refl; (destruct (Nat.eqb _ _); [apply HA|apply sle_refl])).
  - destruct (bound _ _).
    + destruct (deref _ _); [apply IH|apply sle_refl].
    + destruct r; try apply sle_refl;
      match goal with |- context[evaluate n ?t ?s] =>
        destruct (evaluate_mono n t s) as [E|E]; rewrite E; [now left|apply sle_refl] end.
  - apply sle_refl.
  - match goal with |- context[evaluate n ?t ?s] =>
        destruct (evaluate_mono n t s) as [E|E]; rewrite E; [now left|] end.
    destruct (evaluate (S n) _ _); [apply IH|apply sle_refl].
  - match goal with |- context[evaluate n ?t ?s] =>
        destruct (evaluate_mono n t s) as [E|E]; rewrite E; [now left|] end.
    destruct (evaluate (S n) _ _); [apply IH|apply sle_refl].
  - match goal with |- context[evaluate n ?t ?s] =>
        destruct (evaluate_mono n t s) as [E|E]; rewrite E; [now left|] end.
    destruct (evaluate (S n) _ _) as [r'|]; [|apply sle_refl].
    destruct r'; try apply sle_refl; try apply IH.
    destruct (_ && _); [apply HA|apply sle_refl].
  - match goal with |- context[evaluate n ?t ?s] =>
        destruct (evaluate_mono n t s) as [E|E]; rewrite E; [now left|] end.
    destruct (evaluate (S n) _ _) as [r'|]; [|apply sle_refl].
    destruct r'; try apply sle_refl; try apply IH; [|apply HP].
    destruct ts; [apply sle_refl|apply HP].
Qed.

Lemma annot_find_sle (u v : term -> term -> bst -> res (option N) * bst) :
  (forall l r st, sle (u l r st) (v l r st)) ->
  forall la ras closed st, sle (annot_find u la ras closed st) (annot_find v la ras closed st).
Proof.
  intros H la ras; induction ras as [|ra ras IH]; intros closed st; cbn; [apply sle_refl|].
  destruct (py_in _ _); [apply IH|].
  destruct (H la ra st) as [E|E].
  - destruct (u la ra st) as [x st1]. cbn in E. subst. now left.
  - rewrite E. destruct (v la ra st) as [[[]|] st1]; try apply sle_refl. apply IH.
Qed.

Lemma annots_match_sle (u v : term -> term -> bst -> res (option N) * bst) :
  (forall l r st, sle (u l r st) (v l r st)) ->
  forall las ras closed st, sle (annots_match u las ras closed st) (annots_match v las ras closed st).
Proof.
  intros H las; induction las as [|la las IH]; intros ras closed st; cbn; [apply sle_refl|].
  destruct (annot_find_sle u v H la ras closed st) as [E|E].
  - destruct (annot_find u la ras closed st) as [x st1]. cbn in E. subst. now left.
  - rewrite E. destruct (annot_find v la ras closed st) as [[[]|] st1]; try apply sle_refl. apply IH.
Qed.

Lemma uann_mono n : forall l r st, sle (uann n l r st) (uann (S n) l r st).
Proof.
  induction n as [|n IH]; [intros; now left|]. intros l r st.
  rewrite (uann_S (S n)), (uann_S n).
  assert (HU : forall a b st', sle (unify n a b st') (unify (S n) a b st')) by (intros; apply unify_mono).
  destruct l; cbn [new_cp];
    try (match goal with |- context[unify n ?a ?b ?s] => destruct (HU a b s) as [E|E] end;
      [match goal with |- context[unify n ?a ?b ?s] => destruct (unify n a b s) as [? ?]; cbn in E; subst; now left end
      |rewrite E; apply sle_refl]).
  destruct (evaluate_mono n r (b_scope st)) as [E|E]; rewrite E; [now left|].
  destruct (evaluate (S n) r (b_scope st)) as [r'|]; [|apply sle_refl].
  destruct r';
    (match goal with |- context[unify n ?a ?b ?s] => destruct (HU a b s) as [E1|E1] end;
      [match goal with |- context[unify n ?a ?b ?s] => destruct (unify n a b s) as [? ?]; cbn in E1; subst; now left end
      |rewrite E1]); try apply sle_refl;
    (match goal with |- context[unify (S n) ?a ?b ?s] => destruct (unify (S n) a b s) as [[[]|] st1] end; try apply sle_refl);
    (match goal with |- context[annots_match (uann n) ?a ?b ?c ?s] =>
       destruct (annots_match_sle (uann n) (uann (S n)) IH a b c s) as [E2|E2];
       [destruct (annots_match (uann n) a b c s) as [y st2]; cbn in E2; subst; now left
       |rewrite E2; apply sle_refl] end).
Qed.

(** Lifting to arbitrary larger limits. *)
Lemma mono_le {A} (f : nat -> res A) : (forall n, rle (f n) (f (S n))) ->
  forall n m, (n <= m)%nat -> rle (f n) (f m).
Proof.
  intros H n m Hnm. induction Hnm; [apply rle_refl|]. eapply rle_trans; eauto.
Qed.
Lemma smono_le {A S} (f : nat -> res A * S) : (forall n, sle (f n) (f (Datatypes.S n))) ->
  forall n m, (n <= m)%nat -> sle (f n) (f m).
Proof.
  intros H n m Hnm. induction Hnm; [apply sle_refl|]. eapply sle_trans; eauto.
Qed.

Lemma unify_more n m l r st b st' : (n <= m)%nat ->
  unify n l r st = (Ok b, st') -> unify m l r st = (Ok b, st').
Proof.
  intros Hnm H. destruct (smono_le (fun n => unify n l r st) (fun n => unify_mono n l r st) n m Hnm) as [E|E].
  - rewrite H in E. discriminate.
  - congruence.
Qed.
Lemma evaluate_more n m t s x : (n <= m)%nat ->
  evaluate n t s = Ok x -> evaluate m t s = Ok x.
Proof.
  intros Hnm H. destruct (mono_le (fun n => evaluate n t s) (fun n => evaluate_mono n t s) n m Hnm) as [E|E]; congruence.
Qed.
Lemma grounded_more n m t s x : (n <= m)%nat ->
  grounded n t s = Ok x -> grounded m t s = Ok x.
Proof.
  intros Hnm H. destruct (mono_le (fun n => grounded n t s) (fun n => grounded_mono n t s) n m Hnm) as [E|E]; congruence.
Qed.
Lemma is_ground_more n m t s x : (n <= m)%nat ->
  is_ground n t s = Ok x -> is_ground m t s = Ok x.
Proof.
  intros Hnm H. destruct (mono_le (fun n => is_ground n t s) (fun n => is_ground_mono n t s) n m Hnm) as [E|E]; congruence.
Qed.
Lemma freeze_more n m t s f x f' : (n <= m)%nat ->
  freeze n t s f = (Ok x, f') -> freeze m t s f = (Ok x, f').
Proof.
  intros Hnm H. destruct (smono_le (fun n => freeze n t s f) (fun n => freeze_mono n t s f) n m Hnm) as [E|E].
  - rewrite H in E. discriminate.
  - congruence.
Qed.
Lemma uann_more n m l r st b st' : (n <= m)%nat ->
  uann n l r st = (Ok b, st') -> uann m l r st = (Ok b, st').
Proof.
  intros Hnm H. destruct (smono_le (fun n => uann n l r st) (fun n => uann_mono n l r st) n m Hnm) as [E|E].
  - rewrite H in E. discriminate.
  - congruence.
Qed.

End WithPy.
