(** Folding keeps the solutions of conditions (C34). *)
From Verif Require Import Base Num Term Unify PyEq TrailFacts FuelFacts Str World Ast Names Engine Build Lex Parse Fold Counts FoldSpec FoldSem FoldCor QuerySpec.

Section WithPy.
Context {PY : Py}.

Definition qb (b : bool) : query := if b then QTrue else QFalse.

Inductive qfolds : query -> query -> Prop :=
| q_true : qfolds QTrue QTrue
| q_false : qfolds QFalse QFalse
| q_act a t t' : folds t t' -> qfolds (QAct a t) (QAct a t')
| q_term t t' : folds t t' -> qfolds (QTerm t) (QTerm t')
| q_and l l' r r' : qfolds l l' -> qfolds r r' -> qfolds (QAnd l r) (QAnd l' r')
| q_or l l' r r' : qfolds l l' -> qfolds r r' -> qfolds (QOr l r) (QOr l' r')
| q_not q q' : qfolds q q' -> qfolds (QNot q) (QNot q')
| q_unify l l' r r' : folds l l' -> folds r r' -> qfolds (QUnify l r) (QUnify l' r')
| q_termc t b : folds t (TBool b) -> qfolds (QTerm t) (qb b)
| q_notc q b : qfolds q (qb b) -> qfolds (QNot q) (qb (negb b))
| q_andc l r x y : qfolds l (qb x) -> qfolds r (qb y) -> qfolds (QAnd l r) (qb (x && y))
| q_orc l r x y : qfolds l (qb x) -> qfolds r (qb y) -> x && y = false -> qfolds (QOr l r) (qb (x || y)).

(** ** Variables *)
Lemma folds_tvars t : forall t', folds t t' -> tvars t' = tvars t.
Proof.
  assert (A : forall x, atom x -> tvars x = []) by (intros []; cbn; tauto).
  assert (L : forall ts, Forall (fun t => forall t', folds t t' -> tvars t' = tvars t) ts -> forall ts', Forall2 folds ts ts' ->
    flat_map tvars ts' = flat_map tvars ts).
  { induction 1 as [|x l Hx _ IH]; intros l' F; inversion F; subst; [reflexivity|]. cbn. f_equal; auto. }
  induction t using term_ind'; intros t' F; inversion F; subst; try reflexivity; cbn.
  - auto.
  - rewrite <- (IHt x) by assumption. rewrite (A x) by assumption. apply A. eauto using eval_unop_atom.
  - f_equal; auto.
  - rewrite <- (IHt1 x), <- (IHt2 y), (A x), (A y) by assumption. apply A. eauto using eval_binop_atom.
  - f_equal. auto.
  - auto.
  - f_equal; auto.
Qed.
Lemma folds_vars_list ts ts' : Forall2 folds ts ts' -> flat_map tvars ts' = flat_map tvars ts.
Proof. induction 1; cbn; [reflexivity|]. f_equal; auto using folds_tvars. Qed.
Lemma qfolds_qvars q q' : qfolds q q' -> qvars q' = qvars q.
Proof.
  assert (B : forall b, qvars (qb b) = []) by (now intros []).
  induction 1; cbn; rewrite ?B in *; try congruence; auto using folds_tvars.
  - rewrite (folds_tvars l l'), (folds_tvars r r') by assumption. reflexivity.
  - rewrite <- (folds_tvars t (TBool b)) by assumption. reflexivity.
  - now rewrite <- IHqfolds1, <- IHqfolds2.
  - now rewrite <- IHqfolds1, <- IHqfolds2.
Qed.
Lemma rename_atom m x : atom x -> rename m x = x.
Proof. destruct x; cbn; tauto. Qed.
Lemma folds_rename m t : forall t', folds t t' -> folds (rename m t) (rename m t').
Proof.
  assert (L : forall ts, Forall (fun t => forall t', folds t t' -> folds (rename m t) (rename m t')) ts -> forall ts', Forall2 folds ts ts' ->
    Forall2 folds (map (rename m) ts) (map (rename m) ts')).
  { induction 1 as [|x l Hx _ IH]; intros l' F; inversion F; subst; cbn; constructor; auto. }
  induction t using term_ind'; intros t' F; inversion F; subst; try apply f_refl; cbn [rename].
  - apply f_un; auto.
  - rewrite (rename_atom m t') by eauto using eval_unop_atom. apply f_unc with x; auto.
    rewrite <- (rename_atom m x) by assumption. auto.
  - apply f_bin; auto.
  - rewrite (rename_atom m t') by eauto using eval_binop_atom. apply f_binc with x y; auto.
    + rewrite <- (rename_atom m x) by assumption. auto.
    + rewrite <- (rename_atom m y) by assumption. auto.
  - apply f_lit. auto.
  - apply f_tup. auto.
  - apply f_ll; auto.
Qed.
Lemma qfolds_rename m q q' : qfolds q q' -> qfolds (qrename m q) (qrename m q').
Proof.
  assert (B : forall b, qrename m (qb b) = qb b) by (now intros []).
  induction 1; cbn [qrename]; rewrite ?B in *; try (constructor; auto using folds_rename; fail).
  apply q_termc. change (TBool b) with (rename m (TBool b)). now apply folds_rename.
Qed.

Definition rfolds (r r' : rule) : Prop := folds (r_head r) (r_head r') /\ qfolds (r_query r) (r_query r').
Lemma copy_folds r r' k : rfolds r r' -> snd (copy_rule r' k) = snd (copy_rule r k) /\ rfolds (fst (copy_rule r k)) (fst (copy_rule r' k)).
Proof.
  intros [H Q]. unfold copy_rule. rewrite (folds_tvars _ _ H), (qfolds_qvars _ _ Q).
  destruct (number _ _ _) as [m k']. cbn. split; [reflexivity|]. split; cbn; auto using folds_rename, qfolds_rename.
Qed.

(** ** Traces *)
Inductive trel : trace -> trace -> Prop :=
| r_cut t : trel TCut t
| r_end nv : trel (TEnd nv) (TEnd nv)
| r_err e : trel (TErr e) (TErr e)
| r_sol s s' nv k k' : sfolds s s' -> (forall n, trel (k n) (k' n)) -> trel (TSol s nv k) (TSol s' nv k').

Lemma trel_one s s' nv : sfolds s s' -> trel (one s nv) (one s' nv).
Proof. intros H. constructor; [exact H|]. intros; constructor. Qed.
Lemma trel_append t t' f f' : trel t t' -> (forall n, trel (f n) (f' n)) -> trel (append t f) (append t' f').
Proof. intros H F. induction H; cbn [append]; try (constructor; auto; fail). auto. Qed.
Lemma trel_bindt t t' f f' : trel t t' -> (forall s s' n, sfolds s s' -> trel (f s n) (f' s' n)) -> trel (bindt t f) (bindt t' f').
Proof. intros H F. induction H; cbn [bindt]; try (constructor; auto; fail). apply trel_append; auto. Qed.
Lemma trel_negt t t' s s' : trel t t' -> sfolds s s' -> trel (negt t s) (negt t' s').
Proof. intros H S. destruct H; cbn [negt]; try constructor; auto. intros; constructor. Qed.
Lemma trel_terr e t : trel (terr e) t \/ forall t2, t2 = terr e -> trel (terr e) t2.
Proof. destruct e; cbn; (left; constructor; fail) || (right; intros t2 ->; constructor). Qed.
Lemma trel_terr_same e : trel (terr e) (terr e).
Proof. destruct e; constructor. Qed.
Lemma trel_tres {A} (r r' : res A) f f' : efix r r' -> (forall x, r = Ok x -> trel (f x) (f' x)) -> trel (tres r f) (tres r' f').
Proof. intros [->| ->] F; [constructor|]. destruct r; cbn; auto. apply trel_terr_same. Qed.
Lemma trel_tres_ev (r r' : res term) f f' : efolds r r' -> (forall x x', r = Ok x -> folds x x' -> trel (f x) (f' x')) -> trel (tres r f) (tres r' f').
Proof.
  intros E F. destruct r as [v|e]; cbn in *.
  - destruct E as (v' & -> & H). cbn. auto.
  - destruct E as [->| ->]; [constructor|]. cbn. apply trel_terr_same.
Qed.

Lemma mk_brel s s' : sfolds s s' -> brel (mkbst s [] 0) (mkbst s' [] 0).
Proof. intros H. repeat split; auto. Qed.
Lemma trel_matches d l l' : folds l l' -> forall c c', Forall2 folds c c' -> forall s s' nv, sfolds s s' ->
  trel (matches d l c s nv) (matches d l' c' s' nv).
Proof.
  intros L c c' H. induction H as [|b b' c c' Hb _ IH]; intros s s' nv S; cbn [matches]; [constructor|].
  pose proof (uann_folds d l l' b b' _ _ L Hb (mk_brel s s' S)) as U.
  destruct (uann d l b (mkbst s [] 0)) as [r st], (uann d l' b' (mkbst s' [] 0)) as [r' st'].
  destruct U as [E|[E B]]; cbn in E; [subst r; cbn; constructor|subst r'].
  destruct r as [[cp|]|e]; [constructor; [apply B|auto]|auto|apply trel_terr_same].
Qed.
Lemma trel_choices d l l' : folds l l' -> forall c c', Forall2 folds c c' -> forall fin s s' nv, sfolds s s' ->
  trel (choices d l c fin s nv) (choices d l' c' fin s' nv).
Proof.
  intros L c c' H. induction H as [|b b' c c' Hb _ IH]; intros fin s s' nv S; cbn [choices]; [destruct fin; constructor|].
  pose proof (unify_folds d l l' b b' _ _ L Hb (mk_brel s s' S)) as U.
  destruct (unify d l b (mkbst s [] 0)) as [r st], (unify d l' b' (mkbst s' [] 0)) as [r' st'].
  destruct U as [E|[E B]]; cbn in E; [subst r; cbn; constructor|subst r'].
  destruct r as [[]|e]; [constructor; [apply B|auto]|auto|apply trel_terr_same].
Qed.
Lemma trel_clauses d solve solve' g g' : folds g g' ->
  (forall q q' s s' nv, qfolds q q' -> sfolds s s' -> trel (solve q s nv) (solve' q' s' nv)) ->
  forall rs rs', Forall2 rfolds rs rs' -> forall s s' nv, sfolds s s' ->
  trel (clauses d solve g rs s nv) (clauses d solve' g' rs' s' nv).
Proof.
  intros G Sv rs rs' H. induction H as [|r r' rs rs' Hr _ IH]; intros s s' nv S; cbn [clauses]; [constructor|].
  destruct (copy_folds r r' nv Hr) as [En [Hh Hq]]. destruct (copy_rule r nv) as [c nv1], (copy_rule r' nv) as [c' nv1']. cbn in En, Hh, Hq. subst nv1'.
  pose proof (unify_folds d g g' _ _ _ _ G Hh (mk_brel s s' S)) as U.
  destruct (unify d g (r_head c) (mkbst s [] 0)) as [x st], (unify d g' (r_head c') (mkbst s' [] 0)) as [x' st'].
  destruct U as [E|[E B]]; cbn in E; [subst x; cbn; constructor|subst x'].
  destruct x as [[]|e]; [apply trel_append; [apply Sv; [exact Hq|apply B]|auto]|auto|apply trel_terr_same].
Qed.

Lemma gather_folds {X} (step step' : scope -> N -> X -> res (X * N)) t t' : trel t t' ->
  (forall s s' nv x, sfolds s s' -> efix (step s nv x) (step' s' nv x)) -> forall x, efix (gather step t x) (gather step' t' x).
Proof.
  intros H F. induction H as [t| |e|s s' nv k k' S H IH]; intros x; cbn [gather]; [now left|now right|now right|].
  destruct (F s s' nv x S) as [E|E]; rewrite E; [now left|]. destruct (step s nv x) as [[x' nv']|e]; [apply IH|now right].
Qed.

(** ** Actions *)
Lemma eval_unop_shape op x v : eval_unop op x = Ok v -> match v with TBool _ | TNum _ => True | _ => False end.
Proof. destruct op, x; try discriminate; injection 1 as <-; exact I. Qed.
Lemma eval_binop_shape op x y v : eval_binop op x y = Ok v -> match v with TBool _ | TNum _ => True | _ => False end.
Proof.
  unfold eval_binop, rmap. intros E. destruct op as [o| | | | | | |]; try discriminate;
    repeat match type of E with
    | match ?a with _ => _ end = _ => destruct a; try discriminate
    end; injection E as <-; exact I.
Qed.
Lemma iter_folds t : forall t', folds t t' -> Forall2 folds (fst (iter_items t)) (fst (iter_items t')) /\ snd (iter_items t') = snd (iter_items t).
Proof.
  induction t using term_ind'; intros t' F; inversion F; subst; cbn [iter_items];
    try (split; [apply folds_list|reflexivity]); try (split; [constructor|reflexivity]).
  - match goal with H : eval_unop _ _ = _ |- _ => apply eval_unop_shape in H end.
    destruct t'; try contradiction; cbn; split; [constructor|reflexivity|constructor|reflexivity].
  - match goal with H : eval_binop _ _ _ = _ |- _ => apply eval_binop_shape in H end.
    destruct t'; try contradiction; cbn; split; [constructor|reflexivity|constructor|reflexivity].
  - cbn. auto.
  - specialize (IHt2 _ ltac:(eassumption)) as [A B].
    destruct (iter_items t2) as [xs1 e1]. match goal with |- context[iter_items ?a] => destruct (iter_items a) as [xs2 e2] end.
    cbn in *. split; [constructor; auto|assumption].
Qed.
Lemma zip_folds d specs : forall ts ts' s s' m, Forall2 folds ts ts' -> sfolds s s' -> sfix (zip_specs d specs ts s m) (zip_specs d specs ts' s' m).
Proof.
  induction specs as [|sp specs IH]; intros ts ts' s s' m F S; cbn [zip_specs]; [now right|].
  assert (C : sfix match ts with
      | [] => (Err ERuntime, m)
      | t :: args' => match freeze d t s m with
          | (Err e, m1) => (Err e, m1)
          | (Ok f, m1) => match convert sp f with
              | Err e => (Err e, m1)
              | Ok v => match zip_specs d specs args' s m1 with (Err e, m2) => (Err e, m2) | (Ok vs, m2) => (Ok (v :: vs), m2) end
              end
          end
      end
      match ts' with
      | [] => (Err ERuntime, m)
      | t :: args' => match freeze d t s' m with
          | (Err e, m1) => (Err e, m1)
          | (Ok f, m1) => match convert sp f with
              | Err e => (Err e, m1)
              | Ok v => match zip_specs d specs args' s' m1 with (Err e, m2) => (Err e, m2) | (Ok vs, m2) => (Ok (v :: vs), m2) end
              end
          end
      end).
  { destruct F as [|t t' ts ts' Ft F]; [now right|]. destruct (freeze_folds s s' S d t t' m Ft) as [E|E]; [|rewrite E].
    - left. destruct (freeze d t s m) as [r m1]. cbn in E. subst r. reflexivity.
    - destruct (freeze d t s m) as [[f|e] m1]; [|now right]. destruct (convert sp f) as [v|e]; [|now right].
      destruct (IH ts ts' s s' m1 F S) as [E2|E2]; [left|right; now rewrite E2].
      destruct (zip_specs d specs ts s m1) as [r m2]. cbn in E2. subst r. reflexivity. }
  destruct sp; auto.
Qed.
Lemma find_step_folds d p p' : folds p p' -> forall s s' nv x, sfolds s s' -> efix (find_step d p s nv x) (find_step d p' s' nv x).
Proof.
  intros F s s' nv x S. unfold find_step. destruct (freeze_folds s s' S d p p' (fst x, nv) F) as [E|E]; [left|rewrite E; now right].
  destruct (freeze d p s (fst x, nv)) as [r m]. cbn in E. now subst r.
Qed.
Lemma sum_step_folds d p p' : folds p p' -> forall s s' nv x, sfolds s s' -> efix (sum_step d p s nv x) (sum_step d p' s' nv x).
Proof.
  intros F s s' nv x S. unfold sum_step. destruct (grounded_folds d p p' s s' S F) as [E|E]; rewrite E; [now left|now right].
Qed.
Lemma Forall2_removelast {A C} (R : A -> C -> Prop) l l' : Forall2 R l l' -> Forall2 R (removelast l) (removelast l').
Proof. induction 1 as [|x y l l' H H2 IH]; [constructor|]. destruct H2; [constructor|]. cbn in *. constructor; auto. Qed.
Lemma Forall2_last {A} (R : A -> A -> Prop) l l' d : R d d -> Forall2 R l l' -> R (last l d) (last l' d).
Proof. intros D. induction 1 as [|x y l l' H H2 IH]; [exact D|]. destruct H2; [exact H|]. exact IH. Qed.

Definition dfolds (D D' : db) : Prop := d_name D' = d_name D /\ (forall g, d_bel D' g = d_bel D g) /\
  forall g, Forall2 rfolds (d_rules D g) (d_rules D' g).

Lemma trel_act d D D' solve solve' ac t t' ts ts' s s' nv : dfolds D D' ->
  (forall q q' s s' nv, qfolds q q' -> sfolds s s' -> trel (solve q s nv) (solve' q' s' nv)) ->
  folds t t' -> Forall2 folds ts ts' -> sfolds s s' ->
  trel (act_sols d D solve ac t ts s nv) (act_sols d D' solve' ac t' ts' s' nv).
Proof.
  intros (Dn & Db & Dr) Sv Ft F S.
  assert (One : forall r, Forall2 folds [r] [r]) by (intros; constructor; auto using f_refl).
  assert (G : forall a a', folds a a' -> efix (grounded d a s) (grounded d a' s')) by (intros; now apply grounded_folds).
  assert (Ev : forall a a', folds a a' -> efolds (evaluate d a s) (evaluate d a' s')) by (intros; now apply evaluate_folds).
  destruct ac; cbn [act_sols]; try (apply trel_one; exact S); try (constructor; fail).
  - (* print *)
    pose proof (smapl_folds (fun a => freeze d a s) (fun a => freeze d a s') ts ts') as H.
    specialize (H ltac:(intros; now apply freeze_folds) F ([], nv)). destruct H as [E|E].
    + destruct (smapl (fun a => freeze d a s) ts ([], nv)) as [r [m nv']]. cbn in E. subst r. cbn. constructor.
    + rewrite E. destruct (smapl (fun a => freeze d a s) ts ([], nv)) as [r [m nv']]. apply trel_tres; [now right|]. intros. now apply trel_one.
  - (* my_name *)
    destruct F as [|a a' ts ts' Fa F]; [constructor|]. destruct F; [|constructor]. rewrite Dn. now apply trel_choices.
  - (* concat *)
    pose proof (rmapl_folds (fun a => grounded d a s) (fun a => grounded d a s') (removelast ts) (removelast ts') G (Forall2_removelast _ _ _ F)) as H.
    pose proof (Forall2_last folds ts ts' (TBool false) (f_refl _) F) as L.
    destruct F as [|a a' ts ts' Fa F]; [constructor|]. apply trel_tres; [exact H|]. intros vs _. apply trel_tres; [now right|].
    intros result _. now apply trel_choices.
  - (* substring *)
    destruct F as [|a a' ts ts' Fa F]; [constructor|]. destruct F as [|b b' ts ts' Fb F]; [constructor|].
    destruct F as [|c c' ts ts' Fc F]; [constructor|]. destruct F; [|constructor].
    apply trel_tres; [auto|]. intros v0 _. apply trel_tres; [auto|]. intros v1 _. apply trel_choices; auto using folds_list.
  - (* member *)
    destruct F as [|a a' ts ts' Fa F]; [constructor|]. destruct F as [|b b' ts ts' Fb F]; [constructor|]. destruct F; [|constructor].
    apply trel_tres_ev; [auto|]. intros v v' _ Fv. destruct (iter_folds v v' Fv) as [A B].
    destruct (iter_items v) as [xs e1], (iter_items v') as [xs' e2]. cbn in A, B. subst e2. now apply trel_choices.
  - (* ground *)
    apply trel_tres; [now apply is_ground_folds|]. intros [] _; [now apply trel_one|constructor].
  - (* findall *)
    destruct F as [|a a' ts ts' Fa F]; [constructor|]. destruct F as [|b b' ts ts' Fb F]; [constructor|].
    destruct F as [|c c' ts ts' Fc F]; [constructor|]. destruct F; [|constructor].
    apply trel_tres_ev; [auto|]. intros v v' _ Fv. apply trel_tres.
    + apply gather_folds; [apply Sv; [now apply q_term|exact S]|]. intros. now apply find_step_folds.
    + intros y _. apply trel_choices; auto using f_refl.
  - (* count *)
    destruct F as [|a a' ts ts' Fa F]; [constructor|]. destruct F as [|b b' ts ts' Fb F]; [constructor|]. destruct F; [|constructor].
    apply trel_tres.
    + apply gather_folds; [apply Sv; [now apply q_term|exact S]|]. intros. now right.
    + intros y _. apply trel_choices; auto using f_refl.
  - (* range *)
    destruct F as [|a a' ts ts' Fa F]; [constructor|]. destruct F as [|b b' ts ts' Fb F]; [constructor|]. destruct F; [|constructor].
    apply trel_tres; [auto|]. intros v0 _. apply trel_tres; [now right|]. intros z _. apply trel_choices; auto using folds_list.
  - (* sum *)
    destruct F as [|a a' ts ts' Fa F]; [constructor|]. destruct F as [|b b' ts ts' Fb F]; [constructor|].
    destruct F as [|c c' ts ts' Fc F]; [constructor|]. destruct F; [|constructor].
    apply trel_tres_ev; [auto|]. intros v v' _ Fv. apply trel_tres.
    + apply gather_folds; [apply Sv; [now apply q_term|exact S]|]. intros. now apply sum_step_folds.
    + intros y _. apply trel_choices; auto using f_refl.
  - (* functions *)
    pose proof (zip_folds d specs ts ts' s s' ([], nv) F S) as H.
    pose proof (Forall2_last folds ts ts' (TBool false) (f_refl _) F) as L.
    destruct F as [|a a' ts ts' Fa F]; [constructor|]. destruct H as [E|E].
    + destruct (zip_specs d specs (a :: ts) s ([], nv)) as [r [m nv']]. cbn in E. subst r. cbn. constructor.
    + rewrite E. destruct (zip_specs d specs (a :: ts) s ([], nv)) as [r [m nv']]. apply trel_tres; [now right|]. intros vs _.
      apply trel_tres; [now right|]. intros result _. now apply trel_choices.
  - (* predicates *)
    pose proof (zip_folds d specs ts ts' s s' ([], nv) F S) as H. destruct H as [E|E].
    + destruct (zip_specs d specs ts s ([], nv)) as [r [m nv']]. cbn in E. subst r. cbn. constructor.
    + rewrite E. destruct (zip_specs d specs ts s ([], nv)) as [r [m nv']]. apply trel_tres; [now right|]. intros vs _.
      apply trel_tres; [now right|]. intros [] _; [now apply trel_one|constructor].
Qed.

(** ** Queries *)
Lemma sols_qb d D b s nv : sols (S d) D (qb b) s nv = if b then one s nv else TEnd nv.
Proof. now destruct b. Qed.

Lemma trel_one_inv t s nv : trel t (one s nv) -> t = TCut \/ exists s0 k, t = TSol s0 nv k /\ sfolds s0 s /\ forall n, trel (k n) (TEnd n).
Proof. intros H. inversion H; subst; [now left|]. right. eauto 7. Qed.
Lemma trel_end_inv t nv : trel t (TEnd nv) -> t = TCut \/ t = TEnd nv.
Proof. intros H. inversion H; subst; auto. Qed.

Lemma trel_sols D D' : dfolds D D' -> forall d q q' s s' nv, qfolds q q' -> sfolds s s' -> trel (sols d D q s nv) (sols d D' q' s' nv).
Proof.
  intros HD. pose proof HD as (Dn & Db & Dr). induction d as [|d IH]; intros q q' s s' nv Q S; [constructor|].
  assert (K : forall q b s s' nv, qfolds q (qb b) -> sfolds s s' -> trel (sols d D q s nv) (if b then one s' nv else TEnd nv)).
  { intros q0 b s0 s0' nv0 Q0 S0. destruct d as [|d]; [constructor|]. rewrite <- (sols_qb d D' b). auto. }
  assert (T : forall t t', folds t t' -> trel (sols (Datatypes.S d) D (QTerm t) s nv) (sols (Datatypes.S d) D' (QTerm t') s' nv)).
  { intros t t' F. cbn [sols]. apply trel_tres_ev; [now apply evaluate_folds|]. intros v v' Ev Fv.
    pose proof (folds_head v v' Fv) as H. pose proof (evaluate_nonop _ _ _ _ Ev) as No.
    destruct v; try (subst v'); try (exfalso; apply No; exact I); try constructor.
    - destruct b; [now apply trel_one|constructor].
    - destruct H as (ts' & -> & H). rewrite (Forall2_len _ _ _ H). rewrite Db. apply trel_append; [apply trel_matches; auto using folds_list|].
      intros n. apply trel_clauses; auto.
    - destruct H as (ts' & -> & H). pose proof (Forall2_len _ _ _ H) as L. cbn [fmt_exc].
      destruct ts as [|? [|]], ts' as [|? [|]]; try discriminate; constructor.
    - destruct H as (h' & t2' & -> & _). constructor. }
  destruct Q as [ | |a t t' F|t t' F|l l' r r' Hl Hr|l l' r r' Hl Hr|q q' Hq|l l' r r' Hl Hr|t b F|q b Hq|l r x y Hl Hr|l r x y Hl Hr N].
  - cbn [sols]. now apply trel_one.
  - cbn [sols]. constructor.
  - cbn [sols]. pose proof (folds_head t t' F) as H. destruct t; cbn [lit_args tres terr]; try (subst t'; constructor).
    all: try (destruct H as [(? & -> & _)|(? & At & _)]; [constructor|destruct t'; try contradiction; constructor]).
    all: try (destruct H as [(? & ? & -> & _)|(? & ? & At & _)]; [constructor|destruct t'; try contradiction; constructor]).
    + destruct H as (ts' & -> & H). cbn. apply trel_act; auto.
    + destruct H as (ts' & -> & H). constructor.
    + destruct H as (h' & t2' & -> & _). constructor.
  - now apply T.
  - cbn [sols]. apply trel_bindt; auto.
  - cbn [sols]. apply trel_append; auto.
  - cbn [sols]. apply trel_negt; auto.
  - cbn [sols]. apply trel_matches; auto.
  - rewrite sols_qb. cbn [sols]. destruct d as [|d0] eqn:Ed; [constructor|].
    pose proof (evaluate_folds (Datatypes.S d0) t (TBool b) s s' S F) as E. destruct (evaluate_to _ _ _ _ _ E I) as [->| ->]; [constructor|].
    cbn [tres]. destruct b; [now apply trel_one|constructor].
  - rewrite sols_qb. cbn [sols]. pose proof (K q b s s' nv Hq S) as H. destruct b; cbn [negb].
    + apply trel_one_inv in H as [->|(s0 & k & -> & _ & _)]; cbn; constructor.
    + apply trel_end_inv in H as [->| ->]; [constructor|]. now apply trel_one.
  - rewrite sols_qb. cbn [sols]. pose proof (K l x s s' nv Hl S) as H. destruct x; cbn [andb].
    + apply trel_one_inv in H as [->|(s0 & k & -> & S0 & Hk)]; [constructor|]. cbn [bindt].
      pose proof (K r y s0 s' nv Hr S0) as H2.
      assert (R : forall t u, trel t u -> forall f, (forall n, trel (f n) (TEnd n)) -> trel (append t f) u -> True) by auto.
      destruct y.
      * apply trel_one_inv in H2 as [->|(s1 & k1 & -> & S1 & Hk1)]; [constructor|]. cbn [append]. constructor; [exact S1|].
        intros n. specialize (Hk1 n). apply trel_end_inv in Hk1 as [->| ->]; [constructor|]. cbn [append].
        specialize (Hk n). apply trel_end_inv in Hk as [->| ->]; constructor.
      * apply trel_end_inv in H2 as [->| ->]; [constructor|]. cbn [append]. specialize (Hk nv). apply trel_end_inv in Hk as [->| ->]; constructor.
    + apply trel_end_inv in H as [->| ->]; constructor.
  - rewrite sols_qb. cbn [sols]. pose proof (K l x s s' nv Hl S) as H. destruct x; cbn [orb].
    + cbn in N. subst y. apply trel_one_inv in H as [->|(s0 & k & -> & S0 & Hk)]; [constructor|]. cbn [append]. constructor; [exact S0|].
      intros n. specialize (Hk n). apply trel_end_inv in Hk as [->| ->]; [constructor|]. cbn [append]. exact (K r false s s' n Hr S).
    + apply trel_end_inv in H as [->| ->]; [constructor|]. cbn [append]. exact (K r y s s' nv Hr S).
Qed.

Lemma take_folds c : forall t t', trel t t' -> forall l o, take c t = (l, o) -> o <> Raised ERecursion ->
  exists l', take c t' = (l', o) /\ Forall2 sfolds l l'.
Proof.
  induction c as [|[os k] c IH]; intros t t' H l o E N; cbn [take] in *.
  - injection E as <- <-. eauto.
  - inversion H; subst.
    + assert (o = Raised ERecursion) by congruence. contradiction.
    + injection E as <- <-. eauto.
    + injection E as <- <-. eauto.
    + destruct (take c (k0 (nv + k)%N)) as [l1 o1] eqn:Et. injection E as <- <-.
      destruct (IH _ _ (H1 (nv + k)%N) _ _ Et N) as (l2 & E2 & F). rewrite E2. eauto.
Qed.
End WithPy.
