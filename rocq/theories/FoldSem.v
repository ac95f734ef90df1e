(** Terms whose constant operators were evaluated beforehand behave the same
    (used by C34). *)
From Verif Require Import Base Num Term Unify PyEq TrailFacts FuelFacts.

Section WithPy.
Context {PY : Py}.

Definition atom (t : term) : Prop := match t with TBool _ | TNum _ | TStr _ => True | _ => False end.
Definition is_op (t : term) : Prop := match t with TUn _ _ | TBin _ _ _ => True | _ => False end.

Inductive folds : term -> term -> Prop :=
| f_refl t : folds t t
| f_lit f ts ts' an : Forall2 folds ts ts' -> folds (TLit f ts an) (TLit f ts' an)
| f_tup ts ts' : Forall2 folds ts ts' -> folds (TTup ts) (TTup ts')
| f_ll h h' t t' : folds h h' -> folds t t' -> folds (TLL h t) (TLL h' t')
| f_un op a a' : folds a a' -> folds (TUn op a) (TUn op a')
| f_bin op l l' r r' : folds l l' -> folds r r' -> folds (TBin op l r) (TBin op l' r')
| f_unc op a x v : folds a x -> atom x -> eval_unop op x = Ok v -> folds (TUn op a) v
| f_binc op l r x y v : folds l x -> folds r y -> atom x -> atom y -> eval_binop op x y = Ok v ->
    folds (TBin op l r) v.

Definition sfolds (s s' : scope) : Prop := Forall2 (fun p q => fst p = fst q /\ folds (snd p) (snd q)) s s'.

Lemma sfolds_refl s : sfolds s s.
Proof. induction s; constructor; auto using f_refl. Qed.

Lemma eval_unop_atom op x v : eval_unop op x = Ok v -> atom v.
Proof. destruct op, x; try discriminate; injection 1 as <-; exact I. Qed.
Lemma eval_binop_atom op x y v : eval_binop op x y = Ok v -> atom v.
Proof.
  unfold eval_binop, rmap. intros E. destruct op as [o| | | | | | |]; try discriminate;
    try (destruct x as [| | | | | | | | |]; try discriminate; destruct y as [| | | | | | | | |]; try discriminate; now injection E as <-);
    try (destruct (py_eq x y); [|discriminate]; now injection E as <-);
    try (destruct (py_ord c x y); [|discriminate]; now injection E as <-).
  destruct x as [|a| | | | | | | |]; try discriminate; destruct y as [|b| | | | | | | |]; try discriminate.
  destruct (num_op fpow o a b); [|discriminate]. now injection E as <-.
Qed.

Lemma folds_atom x x' : folds x x' -> ~ is_op x -> atom x' -> x = x'.
Proof. intros H N A. inversion H; subst; try reflexivity; cbn in *; tauto. Qed.

(** Terms related to a variable, wildcard or constant. *)
Lemma folds_head x x' : folds x x' ->
  match x with
  | TVar _ | TWild _ | TBool _ | TNum _ | TStr _ => x' = x
  | TLit f ts an => exists ts', x' = TLit f ts' an /\ Forall2 folds ts ts'
  | TTup ts => exists ts', x' = TTup ts' /\ Forall2 folds ts ts'
  | TLL h t => exists h' t', x' = TLL h' t' /\ folds h h' /\ folds t t'
  | TUn op a => (exists a', x' = TUn op a' /\ folds a a') \/
      (exists y, atom x' /\ folds a y /\ atom y /\ eval_unop op y = Ok x')
  | TBin op l r => (exists l' r', x' = TBin op l' r' /\ folds l l' /\ folds r r') \/
      (exists y z, atom x' /\ folds l y /\ folds r z /\ atom y /\ atom z /\ eval_binop op y z = Ok x')
  end.
Proof.
  assert (R : forall l, Forall2 folds l l) by (induction l; constructor; auto using f_refl).
  intros H. inversion H; subst; eauto 10 using f_refl, eval_unop_atom, eval_binop_atom.
  destruct x'; eauto 10 using f_refl.
Qed.

(** ** Scopes *)

Lemma lookup_folds s s' v : sfolds s s' ->
  match lookup s v with
  | Some t => exists t', lookup s' v = Some t' /\ folds t t'
  | None => lookup s' v = None
  end.
Proof.
  induction 1 as [|[w t] [w' t'] s s' [E F] _ IH]; cbn in *; [reflexivity|]. subst w'.
  destruct (N.eqb v w); eauto.
Qed.
Lemma bound_folds s s' v : sfolds s s' -> bound s' v = bound s v.
Proof. intros H. unfold bound. pose proof (lookup_folds s s' v H) as L. destruct (lookup s v); [destruct L as (t' & -> & _)|rewrite L]; reflexivity. Qed.
Definition is_var (t : term) : bool := match t with TVar _ => true | _ => false end.
Lemma folds_nonvar t t' : folds t t' -> is_var t = false -> is_var t' = false.
Proof.
  intros F. pose proof (folds_head t t' F) as H. destruct t; intros E; try (subst t'; exact E).
  - destruct H as [(? & -> & _)|(? & At & _)]; [reflexivity|now destruct t'].
  - destruct H as [(? & ? & -> & _)|(? & ? & At & _)]; [reflexivity|now destruct t'].
  - destruct H as (? & -> & _). reflexivity.
  - destruct H as (? & -> & _). reflexivity.
  - destruct H as (? & ? & -> & _). reflexivity.
Qed.
Lemma deref_loop_nonvar n t s : is_var t = false -> deref_loop n t s = Ok t.
Proof. destruct n, t; try reflexivity; discriminate. Qed.
Lemma deref_loop_folds s s' : sfolds s s' -> forall n t t', folds t t' ->
  match deref_loop n t s with
  | Ok u => exists u', deref_loop n t' s' = Ok u' /\ folds u u'
  | Err e => deref_loop n t' s' = Err e
  end.
Proof.
  intros S. induction n as [|n IH]; intros t t' F; (destruct (is_var t) eqn:V;
    [|rewrite !deref_loop_nonvar by eauto using folds_nonvar; eauto]).
  - destruct t; try discriminate. pose proof (folds_head _ _ F) as H. cbn in H. subst t'. cbn [deref_loop].
    pose proof (lookup_folds s s' v S) as L. destruct (lookup s v); [destruct L as (? & -> & _); reflexivity|rewrite L; eauto using f_refl].
  - destruct t; try discriminate. pose proof (folds_head _ _ F) as H. cbn in H. subst t'. cbn [deref_loop].
    pose proof (lookup_folds s s' v S) as L. destruct (lookup s v); [destruct L as (? & -> & ?); now apply IH|rewrite L; eauto using f_refl].
Qed.
Lemma sfolds_len s s' : sfolds s s' -> List.length s' = List.length s.
Proof. induction 1; cbn; congruence. Qed.
Lemma deref_folds s s' t t' : sfolds s s' -> folds t t' ->
  match deref t s with
  | Ok u => exists u', deref t' s' = Ok u' /\ folds u u'
  | Err e => deref t' s' = Err e
  end.
Proof. intros S F. unfold deref. rewrite (sfolds_len s s' S). now apply deref_loop_folds. Qed.

(** ** Evaluation *)

Lemma evaluate_nonop n : forall t s v, evaluate n t s = Ok v -> ~ is_op v.
Proof.
  induction n as [|n IH]; intros t s v E; [discriminate|]. rewrite evaluate_S in E.
  destruct t; try (injection E as <-; cbn; tauto).
  - destruct (bound s v0); [|injection E as <-; cbn; tauto]. destruct (deref (TVar v0) s); [|discriminate]. eauto.
  - destruct (evaluate n t s); [|discriminate]. apply eval_unop_atom in E. now destruct v.
  - destruct (evaluate n t1 s); [|discriminate]. destruct (evaluate n t2 s); [|discriminate].
    enough (atom v) by now destruct v.
    destruct (is_comp op).
    + destruct (grounded n a s); [|discriminate]. destruct (grounded n a0 s); [|discriminate]. now apply eval_binop_atom in E.
    + now apply eval_binop_atom in E.
Qed.

(** Related values are equal, or both are not constants. *)
Lemma folds_val v v' : folds v v' -> ~ is_op v -> v' = v \/ (~ atom v /\ ~ atom v').
Proof.
  intros F N. pose proof (folds_head v v' F) as H. destruct v; auto; try (cbn in N; tauto).
  - destruct H as (? & -> & _). auto.
  - destruct H as (? & -> & _). auto.
  - destruct H as (? & ? & -> & _). auto.
Qed.
Lemma eval_unop_folds op v v' : folds v v' -> ~ is_op v -> eval_unop op v' = eval_unop op v.
Proof. intros F N. destruct (folds_val v v' F N) as [->|[A B]]; [reflexivity|]. destruct op, v, v'; cbn in *; tauto. Qed.
Lemma eval_binop_folds op v v' w w' : is_comp op = false -> folds v v' -> ~ is_op v -> folds w w' -> ~ is_op w ->
  eval_binop op v' w' = eval_binop op v w.
Proof.
  intros C F N F2 N2. destruct (folds_val v v' F N) as [->|[A B]].
  - destruct (folds_val w w' F2 N2) as [->|[A2 B2]]; [reflexivity|].
    destruct op; try discriminate C; cbn; try reflexivity; destruct v; try reflexivity; destruct w, w'; cbn in *; tauto.
  - destruct op; try discriminate C; cbn; try reflexivity; destruct v, v'; cbn in *; tauto.
Qed.

Definition efolds (r r' : res term) : Prop :=
  match r with Ok v => exists v', r' = Ok v' /\ folds v v' | Err e => e = ERecursion \/ r' = Err e end.
Definition efix {A} (r r' : res A) : Prop := r = Err ERecursion \/ r' = r.

Lemma rmapl_folds {A} (f g : term -> res A) ts ts' :
  (forall t t', folds t t' -> efix (f t) (g t')) -> Forall2 folds ts ts' -> efix (rmapl f ts) (rmapl g ts').
Proof.
  intros H. induction 1 as [|t t' ts ts' F _ IH]; cbn [rmapl]; [now right|].
  destruct (H t t' F) as [E|E]; rewrite E; [now left|]. destruct (f t); [|now right].
  destruct IH as [E2|E2]; rewrite E2; [now left|now right].
Qed.
Lemma folds_list ts : Forall2 folds ts ts.
Proof. induction ts; constructor; auto using f_refl. Qed.

(** What has no variables and no structure evaluates to itself. *)
Lemma evaluate_atom n t s : atom t -> evaluate (S n) t s = Ok t.
Proof. now destruct t. Qed.
Lemma grounded_atom n t s : atom t -> grounded (S n) t s = Ok t.
Proof. now destruct t. Qed.

Lemma evaluate_to n t x s s' : efolds (evaluate n t s) (evaluate n x s') -> atom x ->
  evaluate n t s = Err ERecursion \/ evaluate n t s = Ok x.
Proof.
  intros E A. destruct n as [|n]; [now left|]. rewrite (evaluate_atom n x) in E by assumption.
  destruct (evaluate (S n) t s) as [v|e] eqn:Ev; cbn in E.
  - destruct E as (v' & E & F). injection E as <-. right. f_equal. apply folds_atom; [assumption|eauto using evaluate_nonop|assumption].
  - destruct E as [->|]; [now left|discriminate].
Qed.

Lemma eval_folds s s' : sfolds s s' -> forall n,
  (forall t t', folds t t' -> efolds (evaluate n t s) (evaluate n t' s')) /\
  (forall t t', folds t t' -> efix (grounded n t s) (grounded n t' s')).
Proof.
  intros S. induction n as [|n [IHe IHg]]; [split; intros; cbn; now left|]. split.
  - intros t t' F. pose proof (folds_head t t' F) as H. rewrite (evaluate_S n t s); destruct t; cbv iota.
    all: try (subst t'; rewrite evaluate_S; cbn [efolds]; eauto using f_refl; fail).
    + subst t'. rewrite ?(evaluate_S n _ s'); cbv iota. rewrite (bound_folds s s') by assumption. destruct (bound s v); [|cbn; eauto using f_refl].
      pose proof (deref_folds s s' (TVar v) (TVar v) S (f_refl _)) as D.
      destruct (deref (TVar v) s); [|cbn; rewrite D; now right]. destruct D as (u' & -> & Fu). now apply IHe.
    + destruct H as [(a' & -> & Fa)|(y & At & Fa & Ay & Ey)].
      * rewrite ?(evaluate_S n _ s'); cbv iota. specialize (IHe _ _ Fa). destruct (evaluate n t s) as [v|e] eqn:Ev; cbn in IHe |- *.
        -- destruct IHe as (v' & -> & Fv). rewrite (eval_unop_folds op v v') by eauto using evaluate_nonop.
           destruct (eval_unop op v); cbn; eauto using f_refl.
        -- destruct IHe as [->| ->]; [now left|now right].
      * rewrite evaluate_atom by assumption. destruct (evaluate_to n t y s s' (IHe _ _ Fa) Ay) as [E|E]; rewrite E; cbn; [now left|].
        rewrite Ey. cbn. eauto using f_refl.
    + destruct H as [(l' & r' & -> & Fl & Fr)|(y & z & At & Fl & Fr & Ay & Az & Eyz)].
      * rewrite ?(evaluate_S n _ s'); cbv iota. pose proof (IHe _ _ Fl) as Il. pose proof (IHe _ _ Fr) as Ir.
        destruct (evaluate n t1 s) as [lv|e] eqn:El; cbn in Il |- *; [|destruct Il as [->| ->]; [now left|now right]].
        destruct Il as (lv' & -> & Flv).
        destruct (evaluate n t2 s) as [rv|e] eqn:Er; cbn in Ir |- *; [|destruct Ir as [->| ->]; [now left|now right]].
        destruct Ir as (rv' & -> & Frv).
        destruct (is_comp op) eqn:Ec.
        -- destruct (IHg _ _ Flv) as [E|E]; rewrite E; [now left|]. destruct (grounded n lv s); cbn; [|now right].
           destruct (IHg _ _ Frv) as [E2|E2]; rewrite E2; [now left|]. destruct (grounded n rv s); cbn; [|now right].
           destruct (eval_binop op a a0); cbn; eauto using f_refl.
        -- rewrite (eval_binop_folds op lv lv' rv rv') by eauto using evaluate_nonop.
           destruct (eval_binop op lv rv); cbn; eauto using f_refl.
      * rewrite evaluate_atom by assumption.
        destruct (evaluate_to n t1 y s s' (IHe _ _ Fl) Ay) as [E|E]; rewrite E; cbn; [now left|].
        destruct (evaluate_to n t2 z s s' (IHe _ _ Fr) Az) as [E2|E2]; rewrite E2; cbn; [now left|].
        destruct (is_comp op); [|rewrite Eyz; cbn; eauto using f_refl].
        destruct n as [|n]; [discriminate|]. rewrite !grounded_atom by assumption. rewrite Eyz. cbn. eauto using f_refl.
    + destruct H as (ts' & -> & Ht). cbn. eauto using f_lit.
    + destruct H as (ts' & -> & Ht). cbn. eauto using f_tup.
    + destruct H as (h' & u' & -> & Ht & Hu). cbn. eauto using f_ll.
  - intros t t' F. pose proof (folds_head t t' F) as H.
    rewrite (grounded_S n t s); destruct t; cbv iota.
    all: try (subst t'; now right).
    + subst t'. rewrite ?(grounded_S n _ s'); cbv iota. rewrite (bound_folds s s') by assumption. destruct (bound s v); [|now right].
      pose proof (deref_folds s s' (TVar v) (TVar v) S (f_refl _)) as D.
      destruct (deref (TVar v) s); [|rewrite D; now right]. destruct D as (u' & -> & Fu). now apply IHg.
    + destruct H as [(a' & -> & Fa)|(y & At & Fa & Ay & Ey)].
      * rewrite ?(grounded_S n _ s'); cbv iota. specialize (IHe _ _ F). destruct (evaluate n (TUn op t) s) as [v|e]; cbn in IHe.
        -- destruct IHe as (v' & -> & Fv). now apply IHg.
        -- destruct IHe as [->| ->]; [now left|now right].
      * rewrite grounded_atom by assumption. destruct (evaluate_to n (TUn op t) t' s s' (IHe _ _ F) At) as [E|E]; rewrite E; [now left|].
        destruct n; [now left|]. rewrite grounded_atom by assumption. now right.
    + destruct H as [(l' & r' & -> & _)|(y & z & At & _)].
      * rewrite ?(grounded_S n _ s'); cbv iota. specialize (IHe _ _ F). destruct (evaluate n (TBin op t1 t2) s) as [v|e]; cbn in IHe.
        -- destruct IHe as (v' & -> & Fv). now apply IHg.
        -- destruct IHe as [->| ->]; [now left|now right].
      * rewrite grounded_atom by assumption. destruct (evaluate_to n _ t' s s' (IHe _ _ F) At) as [E|E]; rewrite E; [now left|].
        destruct n; [now left|]. rewrite grounded_atom by assumption. now right.
    + destruct H as (ts' & -> & Ht). rewrite ?(grounded_S n _ s'); cbv iota.
      destruct (rmapl_folds (fun a => grounded n a s) (fun a => grounded n a s') _ _ IHg Ht) as [E|E]; rewrite E; [now left|].
      destruct (rmapl (fun a => grounded n a s) args); [|now right].
      destruct (rmapl_folds (fun a => grounded n a s) (fun a => grounded n a s') _ _ IHg (folds_list annots)) as [E2|E2]; rewrite E2; [now left|now right].
    + destruct H as (ts' & -> & Ht). rewrite ?(grounded_S n _ s'); cbv iota.
      destruct (rmapl_folds (fun a => grounded n a s) (fun a => grounded n a s') _ _ IHg Ht) as [E|E]; rewrite E; [now left|now right].
    + destruct H as (h' & u' & -> & Ht & Hu). rewrite ?(grounded_S n _ s'); cbv iota.
      destruct (IHg _ _ Ht) as [E|E]; rewrite E; [now left|]. destruct (grounded n t1 s); [|now right].
      destruct (IHg _ _ Hu) as [E2|E2]; rewrite E2; [now left|now right].
Qed.

Lemma evaluate_folds n t t' s s' : sfolds s s' -> folds t t' -> efolds (evaluate n t s) (evaluate n t' s').
Proof. intros S F. now apply eval_folds. Qed.
Lemma grounded_folds n t t' s s' : sfolds s s' -> folds t t' -> efix (grounded n t s) (grounded n t' s').
Proof. intros S F. now apply eval_folds. Qed.

Lemma rall_folds (f g : term -> res bool) ts ts' :
  (forall t t', folds t t' -> efix (f t) (g t')) -> Forall2 folds ts ts' -> efix (rall f ts) (rall g ts').
Proof.
  intros H. induction 1 as [|t t' ts ts' F _ IH]; cbn [rall]; [now right|].
  destruct (H t t' F) as [E|E]; rewrite E; [now left|]. destruct (f t) as [[]|]; [assumption|now right|now right].
Qed.

Lemma is_ground_folds s s' : sfolds s s' -> forall n t t', folds t t' -> efix (is_ground n t s) (is_ground n t' s').
Proof.
  intros S. induction n as [|n IH]; intros t t' F; [now left|]. pose proof (folds_head t t' F) as H.
  assert (G : forall m t, atom t -> is_ground (Datatypes.S m) t s' = Ok true) by (intros m []; cbn; tauto).
  assert (To : forall t x, folds t x -> atom x -> is_ground n t s = Err ERecursion \/ is_ground n t s = Ok true).
  { intros u x Fu Ax. destruct (IH u x Fu) as [E|E]; [now left|]. destruct n; [now left|]. rewrite G in E by assumption. now right. }
  rewrite (is_ground_S n t s); destruct t; cbv iota.
  all: try (subst t'; now right).
  - subst t'. rewrite ?(is_ground_S n _ s'); cbv iota. rewrite (bound_folds s s') by assumption. destruct (bound s v); [|now right].
    pose proof (deref_folds s s' (TVar v) (TVar v) S (f_refl _)) as D.
    destruct (deref (TVar v) s); [|rewrite D; now right]. destruct D as (u' & -> & Fu). now apply IH.
  - destruct H as [(a' & -> & Fa)|(y & At & Fa & Ay & _)]; [now apply IH|].
    rewrite G by assumption. destruct (To t y Fa Ay) as [E|E]; rewrite E; [now left|now right].
  - destruct H as [(l' & r' & -> & Fl & Fr)|(y & z & At & Fl & Fr & Ay & Az & _)].
    + apply rall_folds; auto.
    + rewrite G by assumption. cbn [rall]. destruct (To t1 y Fl Ay) as [E|E]; rewrite E; [now left|].
      destruct (To t2 z Fr Az) as [E2|E2]; rewrite E2; [now left|now right].
  - destruct H as (ts' & -> & Ht). rewrite ?(is_ground_S n _ s'); cbv iota.
    destruct (rall_folds (fun a => is_ground n a s) (fun a => is_ground n a s') _ _ IH Ht) as [E|E]; rewrite E; [now left|].
    destruct (rall (fun a => is_ground n a s) args) as [[]|]; [|now right|now right]. apply rall_folds; auto using folds_list.
  - destruct H as (ts' & -> & Ht). apply rall_folds; auto.
  - destruct H as (h' & u' & -> & Ht & Hu). apply rall_folds; auto.
Qed.

(** ** Freezing *)

Definition sfix {A S} (x y : res A * S) : Prop := fst x = Err ERecursion \/ y = x.

Lemma smapl_folds {A S} (f g : term -> S -> res A * S) ts ts' :
  (forall t t' m, folds t t' -> sfix (f t m) (g t' m)) -> Forall2 folds ts ts' -> forall m, sfix (smapl f ts m) (smapl g ts' m).
Proof.
  intros H. induction 1 as [|t t' ts ts' F _ IH]; intros m; cbn [smapl]; [now right|].
  destruct (H t t' m F) as [E|E]; [|rewrite E].
  - destruct (f t m) as [r m1]. cbn in E. subst r. now left.
  - destruct (f t m) as [[y|e] m1]; [|now right]. destruct (IH m1) as [E2|E2]; [|rewrite E2; now right].
    destruct (smapl f ts m1) as [r m2]. cbn in E2. subst r. now left.
Qed.

Lemma freeze_folds s s' : sfolds s s' -> forall n t t' m, folds t t' -> sfix (freeze n t s m) (freeze n t' s' m).
Proof.
  intros S. induction n as [|n IH]; intros t t' m F; [now left|]. pose proof (folds_head t t' F) as H.
  assert (G : forall k t, atom t -> freeze (Datatypes.S k) t s' m = (Ok t, m)) by (intros k []; cbn; tauto).
  assert (G2 : forall k t, atom t -> freeze (Datatypes.S k) t s m = (Ok t, m)) by (intros k []; cbn; tauto).
  rewrite (freeze_S n t s m); destruct t; cbv iota.
  all: try (subst t'; now right).
  - subst t'. rewrite ?(freeze_S n _ s'); cbv iota. destruct (memo_get (fst m) v); [now right|]. rewrite (bound_folds s s') by assumption. destruct (bound s v); [|now right].
    pose proof (deref_folds s s' (TVar v) (TVar v) S (f_refl _)) as D.
    destruct (deref (TVar v) s); [|rewrite D; now right]. destruct D as (u' & -> & Fu). now apply IH.
  - pose proof (evaluate_folds n _ _ s s' S F) as E. destruct H as [(a' & -> & Fa)|(y & At & _)].
    + rewrite ?(freeze_S n _ s'); cbv iota. destruct (evaluate n (TUn op t) s) as [v|e]; cbn in E.
      * destruct E as (v' & -> & Fv). now apply IH.
      * destruct E as [->| ->]; [now left|now right].
    + rewrite G by assumption. destruct (evaluate_to n _ t' s s' E At) as [E2|E2]; rewrite E2; [now left|].
      destruct n; [discriminate|]. rewrite G2 by assumption. now right.
  - pose proof (evaluate_folds n _ _ s s' S F) as E. destruct H as [(l' & r' & -> & _)|(y & z & At & _)].
    + rewrite ?(freeze_S n _ s'); cbv iota. destruct (evaluate n (TBin op t1 t2) s) as [v|e]; cbn in E.
      * destruct E as (v' & -> & Fv). now apply IH.
      * destruct E as [->| ->]; [now left|now right].
    + rewrite G by assumption. destruct (evaluate_to n _ t' s s' E At) as [E2|E2]; rewrite E2; [now left|].
      destruct n; [discriminate|]. rewrite G2 by assumption. now right.
  - destruct H as (ts' & -> & Ht). rewrite ?(freeze_S n _ s'); cbv iota.
    destruct (smapl_folds (fun a => freeze n a s) (fun a => freeze n a s') _ _ (fun t t' m => IH t t' m) Ht m) as [E|E]; [|rewrite E].
    { destruct (smapl (fun a => freeze n a s) args m). cbn in E. subst r. now left. }
    destruct (smapl (fun a => freeze n a s) args m) as [[as'|e] m1]; [|now right].
    destruct (smapl_folds (fun a => freeze n a s) (fun a => freeze n a s') _ _ (fun t t' m => IH t t' m) (folds_list annots) m1) as [E2|E2]; [|rewrite E2; now right].
    destruct (smapl (fun a => freeze n a s) annots m1). cbn in E2. subst r. now left.
  - destruct H as (ts' & -> & Ht). rewrite ?(freeze_S n _ s'); cbv iota.
    destruct (smapl_folds (fun a => freeze n a s) (fun a => freeze n a s') _ _ (fun t t' m => IH t t' m) Ht m) as [E|E]; [|rewrite E; now right].
    destruct (smapl (fun a => freeze n a s) ts m). cbn in E. subst r. now left.
  - destruct H as (h' & u' & -> & Ht & Hu). rewrite ?(freeze_S n _ s'); cbv iota.
    destruct (IH _ _ m Ht) as [E|E]; [|rewrite E].
    { destruct (freeze n t1 s m). cbn in E. subst r. now left. }
    destruct (freeze n t1 s m) as [[a|e] m1]; [|now right].
    destruct (IH _ _ m1 Hu) as [E2|E2]; [|rewrite E2; now right].
    destruct (freeze n t2 s m1). cbn in E2. subst r. now left.
Qed.

(** ** Unification *)

Definition brel (st st' : bst) : Prop :=
  sfolds (b_scope st) (b_scope st') /\ b_stack st' = b_stack st /\ b_ncp st' = b_ncp st.
Definition urel {A} (x y : res A * bst) : Prop :=
  fst x = Err ERecursion \/ (fst y = fst x /\ brel (snd x) (snd y)).

Lemma urel_ret {A} (r : res A) st st' : brel st st' -> urel (r, st) (r, st').
Proof. intros H. now right. Qed.
Lemma urel_rec {A} st (y : res A * bst) : urel (Err ERecursion, st) y.
Proof. now left. Qed.
Lemma urel_up {A} (x y z : res A * bst) : urel x y -> sle y z -> urel x z.
Proof.
  intros [H|[H B]] [L|L]; [now left|now left| |subst z; now right].
  left. congruence.
Qed.

Lemma remove_key_folds s s' v : sfolds s s' -> sfolds (remove_key s v) (remove_key s' v).
Proof.
  induction 1 as [|[w t] [w' t'] s s' [E F] _ IH]; cbn in *; [constructor|]. subst w'.
  destruct (N.eqb v w); [assumption|]. constructor; auto.
Qed.
Lemma reroll_loop_folds sk cp : forall s s', sfolds s s' ->
  sfolds (fst (reroll_loop s sk cp)) (fst (reroll_loop s' sk cp)) /\ snd (reroll_loop s' sk cp) = snd (reroll_loop s sk cp).
Proof.
  induction sk as [|[v|c] sk IH]; intros s s' S; cbn [reroll_loop]; [now split|apply IH; now apply remove_key_folds|].
  destruct (N.eqb c cp); [now split|now apply IH].
Qed.
Lemma reroll_folds st st' cp : brel st st' -> brel (reroll st cp) (reroll st' cp).
Proof.
  intros (S & K & N). unfold reroll. rewrite K. pose proof (reroll_loop_folds (b_stack st) cp _ _ S) as [A B].
  destruct (reroll_loop (b_scope st) (b_stack st) cp) as [a b]. destruct (reroll_loop (b_scope st') (b_stack st) cp) as [a' b'].
  cbn in *. now repeat split.
Qed.

Lemma bind_folds v t t' st st' : brel st st' -> folds t t' -> ~ is_op t -> urel (bind v t st) (bind v t' st').
Proof.
  intros (S & K & N) F Op. unfold bind. rewrite (bound_folds _ _ v S), K, N.
  pose proof (folds_head t t' F) as H.
  assert (C : urel (if bound (b_scope st) v then (Err ERuntime, st) else (Ok tt, mkbst ((v, t) :: b_scope st) (EVar v :: b_stack st) (b_ncp st)))
    (if bound (b_scope st) v then (Err ERuntime, st') else (Ok tt, mkbst ((v, t') :: b_scope st') (EVar v :: b_stack st) (b_ncp st)))).
  { destruct (bound (b_scope st) v); right; (split; [reflexivity|]); [now repeat split|]. repeat split. constructor; [|exact S]. now split. }
  destruct t; try (exfalso; apply Op; exact I); try (subst t'; try exact C).
  - destruct (N.eqb v v0); [right; now repeat split|exact C].
  - destruct H as (? & -> & _); exact C.
  - destruct H as (? & -> & _); exact C.
  - destruct H as (? & ? & -> & _); exact C.
Qed.

Lemma all_unify_folds (u w : term -> term -> bst -> res bool * bst) :
  (forall l l' r r' st st', folds l l' -> folds r r' -> brel st st' -> urel (u l r st) (w l' r' st')) ->
  forall ls ls', Forall2 folds ls ls' -> forall rs rs', Forall2 folds rs rs' -> forall st st', brel st st' ->
  urel (all_unify u ls rs st) (all_unify w ls' rs' st').
Proof.
  intros H ls ls'. induction 1 as [|l l' ls ls' F _ IH]; intros rs rs' R st st' B; cbn [all_unify]; [now apply urel_ret|].
  destruct R as [|r r' rs rs' Fr R]; [now apply urel_ret|].
  destruct (H l l' r r' st st' F Fr B) as [E|[E Bn]].
  - destruct (u l r st) as [x s1]. cbn in E. subst x. now left.
  - destruct (u l r st) as [x s1], (w l' r' st') as [x' s1']. cbn in E, Bn. subst x'.
    destruct x as [[]|e]; [now apply IH|now apply urel_ret|now apply urel_ret].
Qed.

Lemma Forall2_len {A C} (R : A -> C -> Prop) l l' : Forall2 R l l' -> List.length l' = List.length l.
Proof. induction 1; cbn; congruence. Qed.

Lemma has_unify_folds r r' : folds r r' -> ~ atom r' \/ ~ is_op r -> has_unify r' = has_unify r.
Proof.
  intros F N. pose proof (folds_head r r' F) as H. destruct r; try (subst r'; reflexivity).
  - destruct H as [(? & -> & _)|(? & At & _)]; [reflexivity|cbn in N; tauto].
  - destruct H as [(? & ? & -> & _)|(? & ? & At & _)]; [reflexivity|cbn in N; tauto].
  - destruct H as (? & -> & _). reflexivity.
  - destruct H as (? & -> & _). reflexivity.
  - destruct H as (? & ? & -> & _). reflexivity.
Qed.

(** An operator whose operands are constants, on the right of a value without
    [unify]. *)
Lemma unify_swapped n l l' r r' st st' : folds l l' -> has_unify l = false -> folds r r' -> is_op r -> atom r' -> brel st st' ->
  urel (unify n r l st) (unify (S n) l' r' st').
Proof.
  intros Fl Hl F Op At B. destruct n as [|n]; [now left|]. rewrite (unify_S n r l st).
  destruct (evaluate_to n r r' _ _ (evaluate_folds n r r' _ _ (proj1 B) F) At) as [E|E];
    (destruct r; try contradiction; rewrite E; [..]); try now left.
  all: destruct n as [|n]; [now left|]; rewrite (unify_S n r' l st), (unify_S (S (S n)) l' r' st');
    destruct l; try discriminate; pose proof (folds_head _ _ Fl) as Hl'; cbn in Hl';
    [subst l'|subst l'|subst l'|destruct Hl' as (ts' & -> & _)]; destruct r'; try contradiction; cbn [has_unify]; cbv iota; right; (split; [|exact B]);
    cbn [fst]; try reflexivity; try (now rewrite py_eqb_sym).
  all: try (destruct b, b0; reflexivity).
Qed.

Lemma unify_folds n : forall l l' r r' st st', folds l l' -> folds r r' -> brel st st' -> urel (unify n l r st) (unify n l' r' st').
Proof.
  induction n as [|n IH]; intros l l' r r' st st' Fl Fr B; [now left|].
  pose proof B as (Sc & _ & _).
  pose proof (folds_head l l' Fl) as Hl. pose proof (folds_head r r' Fr) as Hr.
  pose proof (evaluate_folds n r r' _ _ Sc Fr) as Er.
  assert (At : atom l' -> evaluate n l (b_scope st) = Err ERecursion \/ evaluate n l (b_scope st) = Ok l').
  { intros A. exact (evaluate_to n l l' _ _ (evaluate_folds n l l' _ _ Sc Fl) A). }
  assert (OpAt : atom l' -> is_op l -> urel (match evaluate n l (b_scope st) with Err e => (Err e, st) | Ok l1 => unify n l1 r st end) (unify (S n) l' r' st')).
  { intros A Op. destruct (At A) as [E|E]; rewrite E; [now left|]. apply (urel_up _ (unify n l' r' st')); [|apply unify_mono]. apply IH; auto using f_refl. }
  assert (OpOp : forall u u', folds u u' -> urel (match evaluate n u (b_scope st) with Err e => (Err e, st) | Ok l1 => unify n l1 r st end)
     (match evaluate n u' (b_scope st') with Err e => (Err e, st') | Ok l1 => unify n l1 r' st' end)).
  { intros u u' Fu. pose proof (evaluate_folds n u u' _ _ Sc Fu) as E. destruct (evaluate n u (b_scope st)) as [v|e]; cbn in E.
    - destruct E as (v' & -> & Fv). now apply IH.
    - destruct E as [->| ->]; [now left|now apply urel_ret]. }
  assert (Plain : has_unify l = false -> urel (if has_unify r then unify n r l st else
            match l, r with
            | TBool b, TBool b' => (Ok (Bool.eqb b b'), st)
            | TBool _, _ | _, TBool _ => (Ok false, st)
            | TTup ls, TTup rs =>
                if Nat.eqb (List.length ls) (List.length rs)
                then all_unify (unify n) ls rs st
                else (Ok false, st)
            | _, _ => (Ok (py_eqb l r), st)
            end) (unify (S n) l' r' st')).
  { intros Hu. assert (D : (is_op r /\ atom r') \/ (~ atom r' \/ ~ is_op r)) by (destruct r, r'; cbn; tauto).
    destruct D as [[Op A]|D].
    { replace (has_unify r) with true by (destruct r; try contradiction; reflexivity). now apply unify_swapped. }
    pose proof (has_unify_folds r r' Fr D) as Hru. rewrite unify_S.
    destruct l; try discriminate; cbn in Hl; [subst l'|subst l'|subst l'|destruct Hl as (ls' & -> & Fls)]; rewrite Hru.
    all: destruct (has_unify r) eqn:Hur; [apply IH; auto|].
    all: destruct r; try discriminate; cbn in Hr; [subst r'|subst r'|subst r'|destruct Hr as (rs' & -> & Frs)]; try now apply urel_ret.
    1, 2: rewrite !(py_eqb_sym (TTup _)); apply urel_ret; exact B.
    rewrite (Forall2_len _ _ _ Fls), (Forall2_len _ _ _ Frs). destruct (Nat.eqb _ _); [|now apply urel_ret].
    apply all_unify_folds; auto. }
  rewrite (unify_S n l r st). destruct l; cbv iota.
  - apply Plain. reflexivity.
  - apply Plain. reflexivity.
  - apply Plain. reflexivity.
  - cbn in Hl. subst l'. rewrite (unify_S n _ r' st'). rewrite (bound_folds _ _ v Sc). destruct (bound (b_scope st) v).
    + pose proof (deref_folds _ _ (TVar v) (TVar v) Sc (f_refl _)) as D.
      destruct (deref (TVar v) (b_scope st)); [|rewrite D; now apply urel_ret]. destruct D as (u' & -> & Fu). now apply IH.
    + assert (C : urel (match evaluate n r (b_scope st) with Err e => (Err e, st) | Ok r1 => match bind v r1 st with (Ok _, s1) => (Ok true, s1) | (Err e, s1) => (Err e, s1) end end)
         (match evaluate n r' (b_scope st') with Err e => (Err e, st') | Ok r1 => match bind v r1 st' with (Ok _, s1) => (Ok true, s1) | (Err e, s1) => (Err e, s1) end end)).
      { destruct (evaluate n r (b_scope st)) as [x|e] eqn:Ex; cbn in Er.
        - destruct Er as (x' & -> & Fx). destruct (bind_folds v x x' st st' B Fx (evaluate_nonop _ _ _ _ Ex)) as [E|[E Bn]].
          + destruct (bind v x st) as [y s1]. cbn in E. subst y. now left.
          + destruct (bind v x st) as [y s1], (bind v x' st') as [y' s1']. cbn in E, Bn. subst y'. destruct y; now apply urel_ret.
        - destruct Er as [->| ->]; [now left|now apply urel_ret]. }
      destruct r; cbn in Hr; try (subst r'; first [exact C|now apply urel_ret]).
      * destruct Hr as [(? & -> & _)|(? & A & _)]; [exact C|]. destruct r'; try contradiction; exact C.
      * destruct Hr as [(? & ? & -> & _)|(? & ? & A & _)]; [exact C|]. destruct r'; try contradiction; exact C.
      * destruct Hr as (? & -> & _); exact C.
      * destruct Hr as (? & -> & _); exact C.
      * destruct Hr as (? & ? & -> & _); exact C.
  - cbn in Hl. subst l'. rewrite (unify_S n _ r' st'). now apply urel_ret.
  - cbn in Hl. destruct Hl as [(a' & -> & _)|(? & A & _)]; [rewrite (unify_S n _ r' st'); now apply OpOp|now apply OpAt].
  - cbn in Hl. destruct Hl as [(? & ? & -> & _)|(? & ? & A & _)]; [rewrite (unify_S n _ r' st'); now apply OpOp|now apply OpAt].
  - cbn in Hl. destruct Hl as (ts' & -> & Ft). rewrite (unify_S n _ r' st').
    destruct (evaluate n r (b_scope st)) as [x|e] eqn:Ex; cbn in Er; [|destruct Er as [->| ->]; [now left|now apply urel_ret]].
    destruct Er as (x' & -> & Fx). pose proof (folds_head _ _ Fx) as Hx. pose proof (evaluate_nonop _ _ _ _ Ex) as No.
    destruct x; cbn in Hx; try (cbn in No; tauto); try (subst x'; first [now apply urel_ret|now apply IH]).
    + destruct Hx as (us & -> & Fu). rewrite (Forall2_len _ _ _ Ft), (Forall2_len _ _ _ Fu).
      destruct (_ && _)%bool; [apply all_unify_folds; auto|now apply urel_ret].
    + destruct Hx as (us & -> & Fu). now apply urel_ret.
    + destruct Hx as (? & ? & -> & _). now apply urel_ret.
  - apply Plain. reflexivity.
  - cbn in Hl. destruct Hl as (h' & t' & -> & Fh & Ft). rewrite (unify_S n _ r' st').
    destruct (evaluate n r (b_scope st)) as [x|e] eqn:Ex; cbn in Er; [|destruct Er as [->| ->]; [now left|now apply urel_ret]].
    destruct Er as (x' & -> & Fx). pose proof (folds_head _ _ Fx) as Hx. pose proof (evaluate_nonop _ _ _ _ Ex) as No.
    assert (Pair : forall h2 h2' t2 t2', folds h2 h2' -> folds t2 t2' ->
      urel (match unify n l1 h2 st with (Ok true, s1) => unify n l2 t2 s1 | y => y end)
           (match unify n h' h2' st' with (Ok true, s1) => unify n t' t2' s1 | y => y end)).
    { intros h2 h2' t2 t2' F1 F2. destruct (IH _ _ _ _ _ _ Fh F1 B) as [E|[E Bn]].
      - destruct (unify n l1 h2 st) as [y s1]. cbn in E. subst y. now left.
      - destruct (unify n l1 h2 st) as [y s1], (unify n h' h2' st') as [y' s1']. cbn in E, Bn. subst y'.
        destruct y as [[]|]; [now apply IH|now apply urel_ret|now apply urel_ret]. }
    destruct x; cbn in Hx; try (cbn in No; tauto); try (subst x'; first [now apply urel_ret|now apply IH]).
    + destruct Hx as (us & -> & Fu). now apply urel_ret.
    + destruct Hx as (us & -> & Fu). destruct Fu; [now apply urel_ret|]. apply Pair; [assumption|]. now apply f_tup.
    + destruct Hx as (? & ? & -> & F1 & F2). now apply Pair.
Qed.

(** ** Unification with annotations *)

Lemma annot_find_folds (u w : term -> term -> bst -> res (option N) * bst) la closed :
  (forall l r st st', brel st st' -> urel (u l r st) (w l r st')) ->
  forall ras st st', brel st st' -> urel (annot_find u la ras closed st) (annot_find w la ras closed st').
Proof.
  intros H. induction ras as [|ra ras IH]; intros st st' B; cbn [annot_find]; [now apply urel_ret|].
  destruct (py_in ra closed); [now apply IH|]. destruct (H la ra st st' B) as [E|[E Bn]].
  - destruct (u la ra st) as [y s1]. cbn in E. subst y. now left.
  - destruct (u la ra st) as [y s1], (w la ra st') as [y' s1']. cbn in E, Bn. subst y'.
    destruct y as [[]|]; [now apply urel_ret|now apply IH|now apply urel_ret].
Qed.
Lemma annots_match_folds (u w : term -> term -> bst -> res (option N) * bst) ras :
  (forall l r st st', brel st st' -> urel (u l r st) (w l r st')) ->
  forall las closed st st', brel st st' -> urel (annots_match u las ras closed st) (annots_match w las ras closed st').
Proof.
  intros H. induction las as [|la las IH]; intros closed st st' B; cbn [annots_match]; [now apply urel_ret|].
  destruct (annot_find_folds u w la closed H ras st st' B) as [E|[E Bn]].
  - destruct (annot_find u la ras closed st) as [y s1]. cbn in E. subst y. now left.
  - destruct (annot_find u la ras closed st) as [y s1], (annot_find w la ras closed st') as [y' s1']. cbn in E, Bn. subst y'.
    destruct y as [[]|]; [now apply IH|now apply urel_ret|now apply urel_ret].
Qed.

Lemma folds_annots x x' : folds x x' -> ~ is_op x -> lit_annots x' = lit_annots x.
Proof.
  intros F N. pose proof (folds_head _ _ F) as H. destruct x; cbn in H; try (cbn in N; tauto); try (subst x'; reflexivity).
  - destruct H as (? & -> & _). reflexivity.
  - destruct H as (? & -> & _). reflexivity.
  - destruct H as (? & ? & -> & _). reflexivity.
Qed.

Lemma new_cp_folds st st' : brel st st' -> fst (new_cp st') = fst (new_cp st) /\ brel (snd (new_cp st)) (snd (new_cp st')).
Proof. intros (S & K & N). unfold new_cp. cbn. rewrite N. now repeat split. Qed.
Lemma push_cp_folds cp st st' : brel st st' -> brel (push_cp cp st) (push_cp cp st').
Proof. intros (S & K & N). unfold push_cp. repeat split; cbn; congruence || assumption. Qed.

Lemma uann_folds n : forall l l' r r' st st', folds l l' -> folds r r' -> brel st st' -> urel (uann n l r st) (uann n l' r' st').
Proof.
  induction n as [|n IH]; intros l l' r r' st st' Fl Fr B; [now left|].
  destruct (new_cp_folds st st' B) as [Ec Bc]. pose proof (folds_head l l' Fl) as Hl.
  rewrite (uann_S n l r st), (uann_S n l' r' st').
  destruct (new_cp st) as [cp s0] eqn:Es, (new_cp st') as [cp' s0'] eqn:Es'. cbn in Ec, Bc. subst cp'.
  assert (End : forall (x y : res bool * bst), urel x y ->
    urel (match x with (Err e, s1) => (Err e, s1) | (Ok true, s1) => (Ok (Some cp), s1) | (Ok false, s1) => (Ok None, reroll s1 cp) end)
         (match y with (Err e, s1) => (Err e, s1) | (Ok true, s1) => (Ok (Some cp), s1) | (Ok false, s1) => (Ok None, reroll s1 cp) end)).
  { intros [x s1] [y s2] [E|[E Bn]]; cbn in E; [subst x; now left|]. cbn in Bn. subst y.
    destruct x as [[]|]; [now apply urel_ret|now apply urel_ret, reroll_folds|now apply urel_ret]. }
  assert (Dfl : urel (match unify n l r (push_cp cp s0) with (Err e, s1) => (Err e, s1) | (Ok true, s1) => (Ok (Some cp), s1) | (Ok false, s1) => (Ok None, reroll s1 cp) end)
     (match unify n l' r' (push_cp cp s0') with (Err e, s1) => (Err e, s1) | (Ok true, s1) => (Ok (Some cp), s1) | (Ok false, s1) => (Ok None, reroll s1 cp) end)).
  { apply End, unify_folds; auto using push_cp_folds. }
  destruct l; cbn in Hl; try (subst l'; exact Dfl).
  - destruct Hl as [(? & -> & _)|(? & A & _)]; [exact Dfl|]. destruct l'; try contradiction; exact Dfl.
  - destruct Hl as [(? & ? & -> & _)|(? & ? & A & _)]; [exact Dfl|]. destruct l'; try contradiction; exact Dfl.
  - destruct Hl as (ts' & -> & Ft). pose proof (evaluate_folds n r r' _ _ (proj1 B) Fr) as Er. clear Dfl.
    destruct (evaluate n r (b_scope st)) as [x|e] eqn:Ex; cbn in Er; [|destruct Er as [->| ->]; [now left|now apply urel_ret]].
    destruct Er as (x' & -> & Fx). pose proof (evaluate_nonop _ _ _ _ Ex) as No.
    pose proof (folds_annots x x' Fx No) as La. pose proof (folds_head _ _ Fx) as Hx.
    assert (M : urel (match unify n (TLit f args annots) x (push_cp cp s0) with
                  | (Err e, st1) => (Err e, st1)
                  | (Ok false, st1) => (Ok None, reroll st1 cp)
                  | (Ok true, st1) =>
                      match annots_match (uann n) annots (lit_annots x) [] st1 with
                      | (Err e, st2) => (Err e, st2)
                      | (Ok false, st2) => (Ok None, reroll st2 cp)
                      | (Ok true, st2) => (Ok (Some cp), st2)
                      end
                  end)
                  (match unify n (TLit f ts' annots) x' (push_cp cp s0') with
                  | (Err e, st1) => (Err e, st1)
                  | (Ok false, st1) => (Ok None, reroll st1 cp)
                  | (Ok true, st1) =>
                      match annots_match (uann n) annots (lit_annots x') [] st1 with
                      | (Err e, st2) => (Err e, st2)
                      | (Ok false, st2) => (Ok None, reroll st2 cp)
                      | (Ok true, st2) => (Ok (Some cp), st2)
                      end
                  end)).
    { rewrite La. destruct (unify_folds n _ _ _ _ _ _ Fl Fx (push_cp_folds cp _ _ Bc)) as [E|[E Bn]].
      - destruct (unify n (TLit f args annots) x (push_cp cp s0)) as [y s1]. cbn in E. subst y. now left.
      - destruct (unify n (TLit f args annots) x (push_cp cp s0)) as [y s1], (unify n (TLit f ts' annots) x' (push_cp cp s0')) as [y' s1'].
        cbn in E, Bn. subst y'. destruct y as [[]|]; [|now apply urel_ret, reroll_folds|now apply urel_ret].
        pose proof (annots_match_folds (uann n) (uann n) (lit_annots x) (fun l r s s' => IH l l r r s s' (f_refl l) (f_refl r)) annots [] s1 s1' Bn) as Am.
        destruct (annots_match (uann n) annots (lit_annots x) [] s1) as [z s2]. destruct (annots_match (uann n) annots (lit_annots x) [] s1') as [z' s2'].
        destruct Am as [E|[E Bm]]; cbn in E; [subst z; now left|]. cbn in Bm. subst z'.
        destruct z as [[]|]; [now apply urel_ret|now apply urel_ret, reroll_folds|now apply urel_ret]. }
    destruct x; cbn in Hx; try (cbn in No; tauto); try (subst x'; exact M).
    + subst x'. apply End. apply unify_folds; auto.
    + subst x'. apply End. apply unify_folds; auto.
    + destruct Hx as (? & -> & _); exact M.
    + destruct Hx as (? & -> & _); exact M.
    + destruct Hx as (? & ? & -> & _); exact M.
  - destruct Hl as (? & -> & _); exact Dfl.
  - destruct Hl as (? & ? & -> & _); exact Dfl.
Qed.
End WithPy.
