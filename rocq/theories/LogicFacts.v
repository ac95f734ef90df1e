(** Soundness and completeness of the list-of-solutions semantics with respect
    to logical consequence. *)
From Verif Require Import Base Num Term Unify TrailFacts FuelFacts ChainFacts TermSpec SetFacts UnifySem Str World Engine
  QuerySpec LogicSpec.
From Coq Require Import RelationClasses.

Lemma pure_ind' (P : term -> Prop) :
  (forall b, P (TBool b)) -> (forall x, is_nan x = false -> P (TNum x)) -> (forall s, P (TStr s)) ->
  (forall v, P (TVar v)) ->
  (forall f args annots, Forall pure args -> Forall P args -> P (TLit f args annots)) ->
  (forall ts, Forall pure ts -> Forall P ts -> P (TTup ts)) ->
  (forall h t, pure h -> P h -> pure t -> P t -> P (TLL h t)) ->
  forall t, pure t -> P t.
Proof.
  intros H1 H2 H3 H4 H5 H6 H7. fix IH 2. intros t Ht. destruct Ht; auto.
  - apply H5; [assumption|]. induction H; constructor; auto.
  - apply H6; [assumption|]. induction H; constructor; auto.
Qed.

(** ** Bounded pure terms *)
Section Bounded.
Context {PY : Py}.
Variable nv : N.

Definition pb (t : term) : Prop := pure t /\ Forall (fun w => (w < nv)%N) (dvars t).
Definition sb (s : scope) : Prop := forall v t, lookup s v = Some t -> (v < nv)%N /\ pb t.

Lemma Forall_flat {A B} (f : A -> list B) (P : B -> Prop) l : Forall P (flat_map f l) <-> Forall (fun x => Forall P (f x)) l.
Proof. induction l as [|x l IH]; cbn; [split; constructor|]. rewrite Forall_app, IH. split; [now constructor|inversion 1; auto]. Qed.

Lemma Forall_both {A} (P Q : A -> Prop) l : Forall P l -> Forall Q l -> Forall (fun x => P x /\ Q x) l.
Proof. induction 1; inversion 1; constructor; auto. Qed.

Lemma pb_args f args annots : pb (TLit f args annots) -> Forall pb args.
Proof. intros [H1 H2]. inversion H1; subst. cbn in H2. apply Forall_flat in H2. now apply Forall_both. Qed.
Lemma pb_tup ts : pb (TTup ts) -> Forall pb ts.
Proof. intros [H1 H2]. inversion H1; subst. cbn in H2. apply Forall_flat in H2. now apply Forall_both. Qed.
Lemma pb_of_tup ts : Forall pb ts -> pb (TTup ts).
Proof.
  intro H. split; [constructor|cbn; apply Forall_flat]; eapply Forall_impl; try exact H; intros x Hx; apply Hx.
Qed.
Lemma pb_ll h t : pb (TLL h t) -> pb h /\ pb t.
Proof. intros [H1 H2]. inversion H1; subst. cbn in H2. apply Forall_app in H2. unfold pb. tauto. Qed.
Lemma pb_var v : pb (TVar v) -> (v < nv)%N.
Proof. intros [_ H]. cbn in H. now inversion H. Qed.

Lemma deref_loop_pb n : forall t s u, sb s -> pb t -> deref_loop n t s = Ok u -> pb u.
Proof.
  induction n as [|n IH]; intros t s u Hs Ht E; destruct t; cbn in E; try (inversion E; subst; assumption);
    destruct (lookup s v) eqn:El; try easy; try (inversion E; subst; assumption).
  eapply IH; [exact Hs| |exact E]. eapply Hs. exact El.
Qed.
Lemma deref_pb t s u : sb s -> pb t -> deref t s = Ok u -> pb u.
Proof. apply deref_loop_pb. Qed.

Lemma evaluate_pb n : forall s t v, sb s -> pb t -> evaluate n t s = Ok v -> pb v.
Proof.
  induction n as [|n IH]; intros s t v Hs Ht E; [easy|]. rewrite evaluate_S in E.
  destruct t; try (inversion E; subst; assumption); try (destruct Ht as [Ht _]; now inversion Ht).
  destruct (bound s v0); [|inversion E; subst; assumption].
  destruct (deref (TVar v0) s) eqn:Ed; [|easy]. eapply IH; [exact Hs| |exact E]. eapply deref_pb; eassumption.
Qed.

Definition upb (u : term -> term -> bst -> res bool * bst) : Prop :=
  forall l r st x st', u l r st = (x, st') -> pb l -> pb r -> sb (b_scope st) -> sb (b_scope st').

Lemma all_unify_pb n : upb (unify n) -> forall ls rs st x st', all_unify (unify n) ls rs st = (x, st') ->
  Forall pb ls -> Forall pb rs -> sb (b_scope st) -> sb (b_scope st').
Proof.
  intros Hu ls. induction ls as [|l ls IH]; intros rs st x st' E Hl Hr Hi; cbn in E.
  - inversion E; subst. apply Hi.
  - destruct rs as [|r rs]; [inversion E; subst; apply Hi|]. inversion Hl; inversion Hr; subst.
    destruct (unify n l r st) as [y st1] eqn:E1. assert (S1 : sb (b_scope st1)) by (eapply Hu; eassumption).
    destruct y as [[]|]; try (inversion E; subst; assumption).
    eapply IH; try eassumption.
Qed.

Lemma bind_pb v t st x st' : bind v t st = (x, st') -> (v < nv)%N -> pb t -> sb (b_scope st) -> sb (b_scope st').
Proof.
  intros E Hv Ht Hs. unfold bind in E.
  assert (HB : (if bound (b_scope st) v then (Err ERuntime, st)
         else (Ok tt, mkbst ((v, t) :: b_scope st) (EVar v :: b_stack st) (b_ncp st))) = (x, st') -> sb (b_scope st')).
  { intro E'. destruct (bound (b_scope st) v); inversion E'; subst; [assumption|].
    intros w u Hw. cbn in Hw. destruct (N.eqb_spec w v); [inversion Hw; subst; auto|]. eapply Hs; eassumption. }
  destruct t; try (apply HB; exact E). destruct (N.eqb v v0); [inversion E; subst; assumption|apply HB; exact E].
Qed.

Lemma unify_pb n : upb (unify n).
Proof.
  induction n as [|n IH]; intros l r st x st' E Hl Hr Hi; [inversion E; subst; apply Hi|].
  assert (Hid : forall y : res bool, (y, st) = (x, st') -> sb (b_scope st')) by (intros y Ey; inversion Ey; subst; apply Hi).
  rewrite unify_S in E.
  assert (Hpair : forall h t h' t', match unify n h h' st with (Ok true, st1) => unify n t t' st1 | y => y end = (x, st') ->
     pb h -> pb t -> pb h' -> pb t' -> sb (b_scope st')).
  { intros h t h' t' Ep P1 P2 P3 P4. destruct (unify n h h' st) as [y st1] eqn:E1.
    assert (S1 : sb (b_scope st1)) by (eapply IH; eassumption).
    destruct y as [[]|]; try (inversion Ep; subst; assumption).
    eapply IH; [exact Ep|assumption|assumption|assumption]. }
  assert (Hsc : (if has_unify r then unify n r l st
          else
            match l, r with
            | TBool b, TBool b' => (Ok (Bool.eqb b b'), st)
            | TBool _, _ | _, TBool _ => (Ok false, st)
            | TTup ls, TTup rs =>
                if Nat.eqb (List.length ls) (List.length rs)
                then all_unify (unify n) ls rs st
                else (Ok false, st)
            | _, _ => (Ok (py_eqb l r), st)
            end) = (x, st') -> sb (b_scope st')).
  { intro E'. destruct (has_unify r); [eapply IH; eassumption|].
    destruct l; try (destruct r; eapply Hid; exact E').
    destruct r; try (eapply Hid; exact E'). destruct (Nat.eqb _ _); [|eapply Hid; exact E'].
    eapply all_unify_pb; [exact IH|exact E'|now apply pb_tup|now apply pb_tup|assumption]. }
  destruct l.
  - apply Hsc. exact E.
  - apply Hsc. exact E.
  - apply Hsc. exact E.
  - destruct (bound (b_scope st) v) eqn:Eb.
    + destruct (deref (TVar v) (b_scope st)) as [l'|] eqn:Ed; [|eapply Hid; exact E].
      eapply IH; [exact E| |assumption|assumption]. eapply deref_pb; [apply Hi|exact Hl|exact Ed].
    + assert (Hev : match evaluate n r (b_scope st) with
                | Err e => (Err e, st)
                | Ok r' =>
                    match bind v r' st with
                    | (Ok _, st') => (Ok true, st')
                    | (Err e, st') => (Err e, st')
                    end
                end = (x, st') -> sb (b_scope st')).
      { intro E'. destruct (evaluate n r (b_scope st)) as [r'|] eqn:Er; [|eapply Hid; exact E'].
        destruct (bind v r' st) as [y st1] eqn:Ebd.
        assert (st1 = st') by (destruct y; inversion E'; reflexivity). subst st1.
        eapply bind_pb; [exact Ebd|now apply pb_var| |apply Hi].
        eapply evaluate_pb; [|exact Hr|exact Er]; apply Hi. }
      destruct r; try (apply Hev; exact E). eapply Hid; exact E.
  - eapply Hid; exact E.
  - destruct Hl as [Hl _]; inversion Hl.
  - destruct Hl as [Hl _]; inversion Hl.
  - destruct (evaluate n r (b_scope st)) as [r'|] eqn:Er; [|eapply Hid; exact E].
    assert (Hr' : pb r') by (eapply evaluate_pb; [|exact Hr|exact Er]; apply Hi).
    destruct r'; try (eapply Hid; exact E); try (eapply IH; [exact E|assumption|assumption|assumption]).
    destruct (_ && _); [|eapply Hid; exact E].
    eapply all_unify_pb; [exact IH|exact E|now apply pb_args in Hl|now apply pb_args in Hr'|assumption].
  - apply Hsc. exact E.
  - destruct (evaluate n r (b_scope st)) as [r'|] eqn:Er; [|eapply Hid; exact E].
    assert (Hr' : pb r') by (eapply evaluate_pb; [|exact Hr|exact Er]; apply Hi).
    destruct (pb_ll _ _ Hl) as [P1 P2].
    destruct r'; try (eapply Hid; exact E); try (eapply IH; [exact E|assumption|assumption|assumption]).
    + destruct ts as [|y ys]; [eapply Hid; exact E|].
      apply pb_tup in Hr'. inversion Hr'; subst.
      eapply Hpair; [exact E|assumption|assumption|assumption|now apply pb_of_tup].
    + destruct (pb_ll _ _ Hr'). eapply Hpair; [exact E| | | |]; assumption.
Qed.

End Bounded.

(** Some bound exists for every scope and term. *)
Lemma bound_list (l : list N) : exists n, Forall (fun w => (w < n)%N) l.
Proof.
  induction l as [|x l [n IH]]; [exists 0%N; constructor|].
  exists (N.max n (x + 1)). constructor; [lia|]. eapply Forall_impl; [|exact IH]. cbn; intros; lia.
Qed.
Lemma pb_up n m t : (n <= m)%N -> pb n t -> pb m t.
Proof. intros H [H1 H2]. split; [assumption|]. eapply Forall_impl; [|exact H2]. cbn; intros; lia. Qed.
Lemma sb_up n m s : (n <= m)%N -> sb n s -> sb m s.
Proof. intros H Hs v t E. destruct (Hs _ _ E). split; [lia|]. eapply pb_up; eassumption. Qed.
Lemma pb_exists t : pure t -> exists n, pb n t.
Proof. intro H. destruct (bound_list (dvars t)) as [n Hn]. exists n. now split. Qed.
Lemma sb_exists s : (forall v t, lookup s v = Some t -> pure t) -> exists n, sb n s.
Proof.
  intro H. destruct (bound_list (map fst s ++ flat_map (fun p => dvars (snd p)) s)) as [n Hn].
  apply Forall_app in Hn as [H1 H2]. apply Forall_flat in H2. exists n. intros v t E.
  assert (In (v, t) s).
  { clear - E. induction s as [|[w u] s IH]; [easy|]. cbn in E. destruct (N.eqb_spec v w).
    - inversion E; subst. now left.
    - right. now apply IH. }
  split; [|split; [eapply H; eassumption|]].
  - rewrite Forall_forall in H1. apply H1. change v with (fst (v, t)). now apply in_map.
  - rewrite Forall_forall in H2. exact (H2 _ H0).
Qed.

(** ** Renaming *)
Definition via (m : memo) (v : N) : N := match memo_get m v with Some x => x | None => v end.

Lemma rename_pure {PY : Py} m t : pure t -> pure (rename m t).
Proof.
  intro H. induction H using pure_ind'; cbn [rename]; try (constructor; assumption).
  - constructor. rewrite Forall_map. assumption.
  - constructor. rewrite Forall_map. assumption.
Qed.

Lemma rename_dvars {PY : Py} m t : pure t -> dvars (rename m t) = map (via m) (dvars t).
Proof.
  assert (L : forall ts, Forall (fun t => dvars (rename m t) = map (via m) (dvars t)) ts ->
    flat_map dvars (map (rename m) ts) = map (via m) (flat_map dvars ts)).
  { induction 1; cbn; [reflexivity|]. rewrite map_app. now f_equal. }
  intro H. induction H using pure_ind'; cbn [rename dvars]; try reflexivity.
  - now apply L.
  - now apply L.
  - rewrite map_app. now f_equal.
Qed.

Lemma mk_set_nil {PY : Py} : PyLawful PY -> mk_set [] = [].
Proof. intro L. pose proof (mk_set_incl [] L) as H. destruct (mk_set []) as [|x l]; [reflexivity|]. destruct (H x). now left. Qed.

Lemma qrename_horn {PY : Py} (L : PyLawful PY) m q : horn q -> horn (qrename m q).
Proof.
  induction q; cbn [horn qrename]; try tauto.
  - destruct t; cbn [rename]; try tauto. intros [H ->]. split; [|now apply mk_set_nil].
    rewrite Forall_map. eapply Forall_impl; [|exact H]. intros. now apply rename_pure.
  - intros (H1 & H2 & H3). split; [now apply rename_pure|]. split; [now apply rename_pure|].
    destruct l; cbn in *; subst; try reflexivity. now apply mk_set_nil.
Qed.

Lemma qrename_dqvars {PY : Py} m q : horn q -> dqvars (qrename m q) = map (via m) (dqvars q).
Proof.
  induction q; cbn [horn qrename dqvars]; try tauto; try reflexivity.
  - destruct t; cbn [rename]; try tauto. intros [H ->]. cbn.
    induction H; [reflexivity|]. cbn. rewrite map_app, rename_dvars by assumption. now f_equal.
  - intros [H1 H2]. rewrite map_app. now rewrite IHq1, IHq2.
  - intros [H1 H2]. rewrite map_app. now rewrite IHq1, IHq2.
  - intros (H1 & H2 & H3). rewrite map_app. now rewrite !rename_dvars.
Qed.

Lemma dvars_tvars t : pure t -> incl (dvars t) (tvars t).
Proof.
  assert (L : forall ts, Forall (fun t => incl (dvars t) (tvars t)) ts -> incl (flat_map dvars ts) (flat_map tvars ts)).
  { induction 1; cbn; [apply incl_refl|]. now apply incl_app_app. }
  intro H. induction H using pure_ind'; cbn [dvars tvars]; try apply incl_refl.
  - apply incl_appl. now apply L.
  - now apply L.
  - now apply incl_app_app.
Qed.
Lemma dqvars_qvars q : horn q -> incl (dqvars q) (qvars q).
Proof.
  induction q; cbn [horn dqvars qvars]; try tauto; try (intros; apply incl_refl).
  - destruct t; try tauto. intros [H ->]. apply dvars_tvars. now constructor.
  - intros []. apply incl_app_app; auto.
  - intros []. apply incl_app_app; auto.
  - intros (H1 & H2 & _). apply incl_app_app; now apply dvars_tvars.
Qed.

(** Numbering the variables of a clause is one-to-one into new identities. *)
Definition numbered (m : memo) (lo hi : N) : Prop :=
  (lo <= hi)%N /\
  (forall v x, memo_get m v = Some x -> (lo <= x < hi)%N) /\
  (forall v w x, memo_get m v = Some x -> memo_get m w = Some x -> v = w).

Lemma number_spec vs : forall m lo k m' k', numbered m lo k -> number vs m k = (m', k') ->
  numbered m' lo k' /\ (k <= k')%N /\ (forall v x, memo_get m v = Some x -> memo_get m' v = Some x) /\
  (forall v, In v vs -> exists x, memo_get m' v = Some x).
Proof.
  induction vs as [|v vs IH]; intros m lo k m' k' Hm E; cbn in E.
  - inversion E; subst. split; [assumption|]. split; [lia|]. split; [auto|]. intros ? [].
  - destruct (memo_get m v) as [x|] eqn:Ev.
    + destruct (IH _ _ _ _ _ Hm E) as (A & B & C & F). split; [assumption|]. split; [assumption|]. split; [assumption|].
      intros w [<-|Hw]; [|now apply F]. exists x. now apply C.
    + destruct Hm as (M1 & M2 & M3).
      assert (G : forall w, memo_get ((v, k) :: m) w = if N.eqb w v then Some k else memo_get m w).
      { intro w. unfold memo_get. cbn. reflexivity. }
      assert (Hm' : numbered ((v, k) :: m) lo (N.succ k)).
      { split; [lia|]. split.
        - intros w x. rewrite G. destruct (N.eqb w v); intro H; [inversion H; subst; lia|]. apply M2 in H. lia.
        - intros w w' x. rewrite !G. destruct (N.eqb_spec w v), (N.eqb_spec w' v); intros H H'; subst; try congruence.
          + inversion H; subst. apply M2 in H'. lia.
          + inversion H'; subst. apply M2 in H. lia.
          + eapply M3; eassumption. }
      destruct (IH _ _ _ _ _ Hm' E) as (A & B & C & F). split; [assumption|]. split; [lia|]. split.
      * intros w x Hw. apply C. rewrite G. destruct (N.eqb_spec w v); [congruence|assumption].
      * intros w [<-|Hw]; [|now apply F]. exists k. apply C. rewrite G. now rewrite N.eqb_refl.
Qed.

Definition inverse (m : memo) (x : N) : option N :=
  match find (fun p => N.eqb (snd p) x) m with Some (v, _) => Some v | None => None end.

Lemma memo_get_in m v x : memo_get m v = Some x -> In (v, x) m.
Proof.
  unfold memo_get. induction m as [|[w y] m IH]; cbn; [easy|]. destruct (N.eqb_spec v w); [|auto].
  intro H; inversion H; subst; auto.
Qed.

Lemma inverse_spec m lo hi v x : numbered m lo hi -> memo_get m v = Some x -> inverse m x = Some v \/
  exists w, inverse m x = Some w /\ In (w, x) m.
Proof.
  intros Hm H. right. unfold inverse. pose proof (memo_get_in _ _ _ H) as Hin.
  destruct (find (fun p => N.eqb (snd p) x) m) as [[w y]|] eqn:E.
  - apply find_some in E as [E1 E2]. cbn in E2. apply N.eqb_eq in E2. subst y. exists w. auto.
  - pose proof (find_none _ _ E _ Hin) as F. cbn in F. now rewrite N.eqb_refl in F.
Qed.

(** Distinct keys, so that membership and lookup agree. *)
Lemma number_nodup vs : forall m k m' k', NoDup (map fst m) -> number vs m k = (m', k') -> NoDup (map fst m').
Proof.
  induction vs as [|v vs IH]; intros m k m' k' Hm E; cbn in E; [inversion E; subst; assumption|].
  destruct (memo_get m v) eqn:Ev; [eapply IH; eassumption|]. eapply IH; [|exact E]. cbn. constructor; [|assumption].
  intro Hin. clear - Hin Ev. induction m as [|[w y] m IH]; [easy|]. cbn in *. destruct (N.eqb_spec v w); [easy|].
  destruct Hin; [congruence|auto].
Qed.
Lemma memo_in_get m v x : NoDup (map fst m) -> In (v, x) m -> memo_get m v = Some x.
Proof.
  induction m as [|[w y] m IH]; [easy|]. cbn. inversion 1; subst. intros [E|Hin].
  - inversion E; subst. now rewrite N.eqb_refl.
  - destruct (N.eqb_spec v w); [|auto]. subst. destruct H2. change w with (fst (w, x)). now apply in_map.
Qed.
Lemma inverse_get m lo hi v x : numbered m lo hi -> NoDup (map fst m) -> memo_get m v = Some x -> inverse m x = Some v.
Proof.
  intros Hm Hn H. destruct (inverse_spec _ _ _ _ _ Hm H) as [E|(w & E & Hw)]; [assumption|].
  rewrite E. f_equal. apply memo_in_get in Hw; [|assumption]. eapply Hm; eassumption.
Qed.
Lemma inverse_range m lo hi x w : numbered m lo hi -> NoDup (map fst m) -> inverse m x = Some w -> (lo <= x < hi)%N.
Proof.
  intros Hm Hn H. unfold inverse in H. destruct (find _ m) as [[v y]|] eqn:E; [|easy].
  apply find_some in E as [E1 E2]. cbn in E2. apply N.eqb_eq in E2. subst y.
  apply memo_in_get in E1; [|assumption]. eapply Hm; eassumption.
Qed.

(** ** Traces *)
Inductive yields : trace -> scope -> Prop :=
| y_now s nv k : yields (TSol s nv k) s
| y_later s nv k nv' s' : yields (k nv') s' -> yields (TSol s nv k) s'.

Lemma yields_append t f s : yields (append t f) s -> yields t s \/ exists nv, yields (f nv) s.
Proof.
  revert s. induction t as [nv|e| |s0 nv k IH]; intros s H; cbn in H; try (inversion H; fail).
  - right. eauto.
  - inversion H as [|? ? ? nv' ? Hl]; subst; [left; constructor|].
    destruct (IH _ _ Hl) as [|[nv1 ?]]; [left; econstructor; eassumption|right; eauto].
Qed.
Lemma yields_bind t f s : yields (bindt t f) s -> exists s1 nv, yields t s1 /\ yields (f s1 nv) s.
Proof.
  revert s. induction t as [nv|e| |s0 nv k IH]; intros s H; cbn in H; try (inversion H; fail).
  apply yields_append in H as [H|[nv' H]]; [exists s0, nv; split; [constructor|assumption]|].
  destruct (IH _ _ H) as (s1 & n1 & A & B). exists s1, n1. split; [econstructor; eassumption|assumption].
Qed.
Lemma take_yields {PY : Py} c : forall t l o s, take c t = (l, o) -> In s l -> yields t s.
Proof.
  induction c as [|[os k] c IH]; intros t l o s H Hin; cbn in H; [inversion H; subst; easy|].
  destruct t as [nv|e| |s0 nv r]; try (inversion H; subst; easy).
  destruct (take c (r (nv + k)%N)) as [l1 o1] eqn:E. inversion H; subst. destruct Hin as [<-|Hin]; [constructor|].
  econstructor. eapply IH; eassumption.
Qed.

(** A run to the end, with the solutions and the counter at each. *)
Inductive runs : trace -> list (scope * N) -> N -> Prop :=
| r_end nv : runs (TEnd nv) [] nv
| r_sol s nv k nv' l nv2 : (nv <= nv')%N -> runs (k nv') l nv2 -> runs (TSol s nv k) ((s, nv) :: l) nv2.

Lemma take_runs {PY : Py} c : forall t l, take c t = (l, Exhausted) -> exists L nv, runs t L nv /\ l = map fst L.
Proof.
  induction c as [|[os k] c IH]; intros t l H; cbn in H; [inversion H|].
  destruct t as [nv|e| |s0 nv r]; try (inversion H; fail).
  - inversion H; subst. exists [], nv. split; [constructor|reflexivity].
  - destruct (take c (r (nv + k)%N)) as [l1 o1] eqn:E. inversion H; subst. destruct (IH _ _ E) as (L & nv1 & A & B).
    exists ((s0, nv) :: L), nv1. split; [econstructor; [|exact A]; lia|cbn; congruence].
Qed.

(** Counters do not decrease. *)
Fixpoint rising (lo : N) (t : trace) : Prop :=
  match t with
  | TEnd nv => (lo <= nv)%N
  | TErr _ | TCut => True
  | TSol _ nv k => (lo <= nv)%N /\ forall nv', (nv <= nv')%N -> rising nv' (k nv')
  end.
Lemma rising_down t : forall lo lo', (lo' <= lo)%N -> rising lo t -> rising lo' t.
Proof. destruct t; cbn; intros; try easy; [lia|]. destruct H0. split; [lia|assumption]. Qed.
Lemma rising_append t : forall f lo, rising lo t -> (forall nv, (lo <= nv)%N -> rising nv (f nv)) -> rising lo (append t f).
Proof.
  induction t as [nv|e| |s0 nv k IH]; intros f lo H Hf; cbn in *; try easy.
  - eapply rising_down; [exact H|]. now apply Hf.
  - destruct H as [H1 H2]. split; [assumption|]. intros nv' Hn. apply IH; [now apply H2|]. intros n2 H3. apply Hf. lia.
Qed.
Lemma rising_bind t : forall f lo, rising lo t -> (forall s nv, (lo <= nv)%N -> rising nv (f s nv)) -> rising lo (bindt t f).
Proof.
  induction t as [nv|e| |s0 nv k IH]; intros f lo H Hf; cbn in *; try easy.
  destruct H as [H1 H2]. eapply rising_down; [exact H1|]. apply rising_append.
  - now apply Hf.
  - intros nv' Hn. apply IH; [now apply H2|]. intros s n2 H3. apply Hf. lia.
Qed.
Lemma rising_runs t L nv lo : runs t L nv -> rising lo t -> (lo <= nv)%N /\ Forall (fun p => (lo <= snd p <= nv)%N) L.
Proof.
  intro H. revert lo. induction H as [nv|s nv k nv' l nv2 Hn H IH]; intros lo Hr; cbn in Hr.
  - split; [assumption|constructor].
  - destruct Hr as [H1 H2]. destruct (IH _ (H2 _ Hn)) as [A B]. split; [lia|]. constructor; [cbn; lia|].
    eapply Forall_impl; [|exact B]. cbn. intros; lia.
Qed.

Lemma runs_append t f L nv : runs (append t f) L nv ->
  exists L1 n1 L2, runs t L1 n1 /\ runs (f n1) L2 nv /\ L = L1 ++ L2.
Proof.
  revert L. induction t as [n|e| |s0 n k IH]; intros L H; cbn in H; try (inversion H; fail).
  - exists [], n, L. split; [constructor|]. split; [assumption|reflexivity].
  - inversion H as [|? ? ? nv' ? ? Hle Hr]; subst. destruct (IH _ _ Hr) as (L1 & n1 & L2 & A & B & C).
    exists ((s0, n) :: L1), n1, L2. split; [econstructor; eassumption|]. split; [assumption|]. cbn. congruence.
Qed.

Lemma runs_bind lo t f L nv : rising lo t -> (forall s nv, (lo <= nv)%N -> rising nv (f s nv)) -> runs (bindt t f) L nv ->
  exists L1 n1, runs t L1 n1 /\
    (forall s n, In (s, n) L1 -> exists L2 n2, runs (f s n) L2 n2 /\ incl L2 L) /\
    (forall p, In p L -> exists s n L2 n2, In (s, n) L1 /\ runs (f s n) L2 n2 /\ In p L2).
Proof.
  revert lo L. induction t as [n|e| |s0 n k IH]; intros lo L Hr Hf H; cbn in H; try (inversion H; fail).
  - inversion H; subst. exists [], nv. split; [constructor|]. split; [intros ? ? []|intros ? []].
  - destruct Hr as [H1 H2]. apply runs_append in H as (L1 & n1 & L2 & A & B & C).
    destruct (rising_runs _ _ _ _ A (Hf _ _ H1)) as [R1 _].
    assert (Hf' : forall s nv, (n1 <= nv)%N -> rising nv (f s nv)) by (intros; apply Hf; lia).
    destruct (IH _ _ _ (H2 _ R1) Hf' B) as (L3 & n3 & E & F & F').
    exists ((s0, n) :: L3), n3. split; [econstructor; eassumption|]. subst L. split.
    + intros s m [Hin|Hin].
      * inversion Hin; subst. exists L1, n1. split; [assumption|apply incl_appl, incl_refl].
      * destruct (F _ _ Hin) as (L4 & n4 & G & I). exists L4, n4. split; [assumption|now apply incl_appr].
    + intros p Hp. apply in_app_or in Hp as [Hp|Hp].
      * exists s0, n, L1, n1. split; [now left|]. auto.
      * destruct (F' _ Hp) as (s & m & L4 & n4 & G1 & G2 & G3). exists s, m, L4, n4. split; [now right|]. auto.
Qed.

(** ** Meaning *)
Section Sem.
Context {PY : Py}.
Hypothesis LAW : PyLawful PY.
Variable D : Type.
Variable deq : D -> D -> Prop.
Hypothesis deq_equiv : Equivalence deq.
Variable dconst : const -> D.
Variable dlit : pystr -> list D -> D.
Variable dcons : D -> D -> D.
Hypothesis FA : free_algebra D deq dconst dlit dcons.
Notation den := (den D dconst dlit dcons noex).
Notation sat := (sat D deq dconst dlit dcons noex).
Notation derivable := (derivable D deq den).

Lemma pure_plain s0 t : pure t -> plain s0 noex t.
Proof. intro H. induction H using pure_ind'; constructor; assumption. Qed.

Lemma pure_good s : pure_scope s -> good noex s s.
Proof.
  intros [H1 H2]. split; [intros v t E; apply pure_plain; eauto|]. split; [assumption|apply extends_refl].
Qed.

Lemma unify_pure n l r st x st' : unify n l r st = (x, st') -> pure l -> pure r -> pure_scope (b_scope st) ->
  pure_scope (b_scope st').
Proof.
  intros E Hl Hr [H1 H2]. split; [exact (unify_chain n _ _ _ _ _ E H1)|].
  destruct (sb_exists _ H2) as [n0 S0]. destruct (pb_exists _ Hl) as [n1 S1]. destruct (pb_exists _ Hr) as [n2 S2].
  assert (S3 : sb (n0 + n1 + n2)%N (b_scope st')).
  { eapply unify_pb; [exact E|eapply pb_up; [|exact S1]; lia|eapply pb_up; [|exact S2]; lia|eapply sb_up; [|exact S0]; lia]. }
  intros v t Ev. apply (S3 _ _ Ev).
Qed.

Lemma unify_sem n l r st b st' : unify n l r st = (Ok b, st') -> pure l -> pure r -> pure_scope (b_scope st) ->
  if b then forall th, sat th (b_scope st') <-> sat th (b_scope st) /\ deq (den th l) (den th r)
  else forall th, sat th (b_scope st) -> ~ deq (den th l) (den th r).
Proof.
  intros E Hl Hr Hs.
  pose proof (unify_sound D deq deq_equiv dconst dlit dcons noex FA (b_scope st) n l r st b st' E
    (pure_plain _ _ Hl) (pure_plain _ _ Hr) (pure_good _ Hs)) as H.
  destruct b; [apply H|exact H].
Qed.

Lemma evaluate_sem n t s t' : evaluate n t s = Ok t' -> pure t -> pure_scope s ->
  forall th, sat th s -> deq (den th t) (den th t').
Proof.
  intros E Ht Hs.
  apply (evaluate_plain D deq deq_equiv dconst dlit dcons noex s n t s t' E (pure_plain _ _ Ht) (pure_good _ Hs)).
Qed.

Lemma evaluate_pure n t s t' : evaluate n t s = Ok t' -> pure t -> pure_scope s -> pure t'.
Proof.
  intros E Ht [_ Hs]. destruct (sb_exists _ Hs) as [n0 S0]. destruct (pb_exists _ Ht) as [n1 S1].
  refine (proj1 (evaluate_pb (n0 + n1) n s t t' _ _ E)); [eapply sb_up; [|exact S0]; lia|eapply pb_up; [|exact S1]; lia].
Qed.

(** Matching, when there are no annotations to match. *)
Lemma uann_sem n l r st o st' : uann n l r st = (Ok o, st') -> lit_annots l = [] ->
  pure l -> pure r -> pure_scope (b_scope st) ->
  match o with
  | Some _ => pure_scope (b_scope st') /\ (forall th, sat th (b_scope st') <-> sat th (b_scope st) /\ deq (den th l) (den th r)) /\
      (forall nv, pb nv l -> pb nv r -> sb nv (b_scope st) -> sb nv (b_scope st'))
  | None => forall th, sat th (b_scope st) -> ~ deq (den th l) (den th r)
  end.
Proof.
  intros E Hl Pl Pr Ps. destruct n as [|n]; [easy|]. cbn [uann] in E.
  assert (HD : forall cp st0, b_scope st0 = b_scope st ->
    match unify n l r st0 with
    | (Err e, st1) => (Err e, st1)
    | (Ok true, st1) => (Ok (Some cp), st1)
    | (Ok false, st1) => (Ok None, reroll st1 cp)
    end = (Ok o, st') ->
    match o with
  | Some _ => pure_scope (b_scope st') /\ (forall th, sat th (b_scope st') <-> sat th (b_scope st) /\ deq (den th l) (den th r)) /\
      (forall nv, pb nv l -> pb nv r -> sb nv (b_scope st) -> sb nv (b_scope st'))
  | None => forall th, sat th (b_scope st) -> ~ deq (den th l) (den th r)
  end).
  { intros cp st0 E0 H. rewrite <- E0 in *. destruct (unify n l r st0) as [[[|]|] st1] eqn:Eu; inversion H; subst.
    - split; [eapply unify_pure; eassumption|]. split; [exact (unify_sem _ _ _ _ _ _ Eu Pl Pr Ps)|].
      intros nv A B C. eapply unify_pb; eassumption.
    - exact (unify_sem _ _ _ _ _ _ Eu Pl Pr Ps). }
  destruct l as [b|x|s|v|w|op a|op a b|f args annots|ts|h t]; try (destruct (new_cp st) as [cp st0] eqn:Ec;
    eapply HD; [|exact E]; unfold new_cp in Ec; inversion Ec; subst; reflexivity).
  cbn in Hl. subst annots.
  destruct (evaluate n r (b_scope st)) as [r'|] eqn:Er; [|easy].
  assert (Pr' := evaluate_pure _ _ _ _ Er Pr Ps). pose proof (evaluate_sem _ _ _ _ Er Pr Ps) as Sr.
  assert (Br : forall nv, pb nv r -> sb nv (b_scope st) -> pb nv r') by (intros; eapply evaluate_pb; eassumption).
  clear HD Er.
  assert (Fin : forall cp st0, b_scope st0 = b_scope st ->
    forall swap : bool,
    match (if swap then unify n r' (TLit f args []) st0 else unify n (TLit f args []) r' st0) with
    | (Err e, st1) => (Err e, st1)
    | (Ok true, st1) => (Ok (Some cp), st1)
    | (Ok false, st1) => (Ok None, reroll st1 cp)
    end = (Ok o, st') ->
    match o with
  | Some _ => pure_scope (b_scope st') /\ (forall th, sat th (b_scope st') <-> sat th (b_scope st) /\ deq (den th (TLit f args [])) (den th r)) /\
      (forall nv, pb nv (TLit f args []) -> pb nv r -> sb nv (b_scope st) -> sb nv (b_scope st'))
  | None => forall th, sat th (b_scope st) -> ~ deq (den th (TLit f args [])) (den th r)
  end).
  { intros cp st0 E0 swap H. rewrite <- E0 in *. destruct swap.
    - destruct (unify n r' (TLit f args []) st0) as [[[|]|] st1] eqn:Eu; inversion H; subst.
      + split; [eapply unify_pure; eassumption|]. split.
        * intro th. rewrite (unify_sem _ _ _ _ _ _ Eu Pr' Pl Ps th). split; intros [A B]; (split; [assumption|]).
          -- etransitivity; [symmetry; exact B|]. symmetry. now apply Sr.
          -- etransitivity; [symmetry; now apply Sr|]. now symmetry.
        * intros nv A B C. eapply unify_pb; [exact Eu|now apply Br|assumption|assumption].
      + intros th A B. apply (unify_sem _ _ _ _ _ _ Eu Pr' Pl Ps th A).
        etransitivity; [symmetry; now apply Sr|]. now symmetry.
    - destruct (unify n (TLit f args []) r' st0) as [[[|]|] st1] eqn:Eu; inversion H; subst.
      + split; [eapply unify_pure; eassumption|]. split.
        * intro th. rewrite (unify_sem _ _ _ _ _ _ Eu Pl Pr' Ps th). split; intros [A B]; (split; [assumption|]).
          -- etransitivity; [exact B|]. symmetry. now apply Sr.
          -- etransitivity; [exact B|]. now apply Sr.
        * intros nv A B C. eapply unify_pb; [exact Eu|assumption|now apply Br|assumption].
      + intros th A B. apply (unify_sem _ _ _ _ _ _ Eu Pl Pr' Ps th A).
        etransitivity; [exact B|]. now apply Sr. }
  destruct (new_cp st) as [cp st0] eqn:Ec.
  assert (E0 : b_scope st0 = b_scope st) by (unfold new_cp in Ec; inversion Ec; reflexivity).
  assert (E1 : b_scope (push_cp cp st0) = b_scope st) by exact E0.
  assert (A2 : match unify n (TLit f args []) r' (push_cp cp st0) with
                  | (Err e, st1) => (Err e, st1)
                  | (Ok false, st1) => (Ok None, reroll st1 cp)
                  | (Ok true, st1) =>
                      match annots_match (uann n) [] (lit_annots r') [] st1 with
                      | (Err e, st2) => (Err e, st2)
                      | (Ok false, st2) => (Ok None, reroll st2 cp)
                      | (Ok true, st2) => (Ok (Some cp), st2)
                      end
                  end = match unify n (TLit f args []) r' (push_cp cp st0) with
    | (Err e, st1) => (Err e, st1)
    | (Ok true, st1) => (Ok (Some cp), st1)
    | (Ok false, st1) => (Ok None, reroll st1 cp)
    end).
  { cbn [annots_match]. destruct (unify n (TLit f args []) r' (push_cp cp st0)) as [[[|]|] st1]; reflexivity. }
  destruct r'; try (rewrite A2 in E; exact (Fin cp _ E1 false E)).
  - exact (Fin cp _ E0 true E).
  - exact (Fin cp _ E0 true E).
Qed.

(** *** Meaning and renaming *)
Lemma den_rename th m t : pure t -> den th (rename m t) = den (fun v => th (via m v)) t.
Proof.
  intro H. induction H using pure_ind'; cbn [rename]; try reflexivity.
  - cbn. f_equal. rewrite map_map. induction H0; [reflexivity|]. inversion H; subst. cbn. f_equal; auto.
  - cbn [den]. induction H0; [reflexivity|]. inversion H; subst. cbn. f_equal; auto.
  - cbn. f_equal; assumption.
Qed.

Lemma den_ext th th' t : pure t -> (forall v, In v (dvars t) -> th v = th' v) -> den th t = den th' t.
Proof.
  intro H. induction H using pure_ind'; cbn [dvars]; intro HE; try reflexivity.
  - cbn. apply HE. now left.
  - cbn. f_equal. induction H0; [reflexivity|]. inversion H; subst. cbn in *. f_equal.
    + apply H0. intros. apply HE. apply in_or_app. auto.
    + apply IHForall; [assumption|]. intros. apply HE. apply in_or_app. auto.
  - cbn [den]. induction H0; [reflexivity|]. inversion H; subst. cbn in HE. cbn. f_equal.
    + apply H0. intros. apply HE. apply in_or_app. auto.
    + apply IHForall; [assumption|]. intros. apply HE. apply in_or_app. auto.
  - cbn. f_equal; [apply IHpure1|apply IHpure2]; intros; apply HE; apply in_or_app; auto.
Qed.

Lemma derivable_rename DB m q : horn q -> forall th, derivable DB (qrename m q) th <-> derivable DB q (fun v => th (via m v)).
Proof.
  induction q; cbn [horn qrename]; try tauto; intros Hq th.
  - split; constructor.
  - split; inversion 1.
  - destruct t; try contradiction. destruct Hq as [Hq ->].
    assert (P : pure (TLit f args [])) by now constructor.
    pose proof (den_rename th m _ P) as E. cbn [rename] in *.
    split; inversion 1; subst.
    + eapply dv_fact; [rewrite map_length in *; eassumption|].
      rewrite <- E. eassumption.
    + eapply dv_rule; [rewrite map_length in *; eassumption| |eassumption].
      rewrite <- E. eassumption.
    + eapply dv_fact; [rewrite map_length in *; eassumption|].
      rewrite E. eassumption.
    + eapply dv_rule; [rewrite map_length in *; eassumption| |eassumption].
      rewrite E. eassumption.
  - destruct Hq as [H1 H2]. split; inversion 1; subst; constructor; try (now apply IHq1); now apply IHq2.
  - destruct Hq as [H1 H2]. split; inversion 1; subst.
    + apply dv_left. now apply IHq1.
    + apply dv_right. now apply IHq2.
    + apply dv_left. now apply IHq1.
    + apply dv_right. now apply IHq2.
  - destruct Hq as (H1 & H2 & H3). pose proof (den_rename th m _ H1) as E1. pose proof (den_rename th m _ H2) as E2.
    split; inversion 1; subst; constructor; congruence.
Qed.

Lemma derivable_ext DB q : horn q -> forall th th', (forall v, In v (dqvars q) -> th v = th' v) ->
  derivable DB q th -> derivable DB q th'.
Proof.
  induction q; cbn [horn dqvars]; try tauto; intros Hq th th' HE Hd.
  - constructor.
  - inversion Hd.
  - destruct t; try contradiction. destruct Hq as [Hq ->].
    assert (P : pure (TLit f args [])) by now constructor.
    pose proof (den_ext _ _ _ P HE) as E.
    inversion Hd; subst; [eapply dv_fact|eapply dv_rule]; try eassumption; rewrite <- E; eassumption.
  - destruct Hq. inversion Hd; subst. constructor; [eapply IHq1|eapply IHq2]; try eassumption;
      intros; apply HE; apply in_or_app; auto.
  - destruct Hq. inversion Hd; subst; [apply dv_left; eapply IHq1|apply dv_right; eapply IHq2]; try eassumption;
      intros; apply HE; apply in_or_app; auto.
  - destruct Hq as (H1 & H2 & H3). inversion Hd; subst. constructor.
    rewrite <- (den_ext th th' l), <- (den_ext th th' r); try assumption; intros; apply HE; apply in_or_app; auto.
Qed.

Lemma sat_ext th th' s nv : sb nv s -> (forall v, (v < nv)%N -> th v = th' v) -> sat th s -> sat th' s.
Proof.
  intros Hs HE H v t E. destruct (Hs _ _ E) as [Hv [Hp Ht]]. rewrite <- HE by assumption.
  rewrite <- (den_ext th th' t Hp); [now apply H|]. rewrite Forall_forall in Ht. auto.
Qed.

(** *** Soundness *)
Variable DB : db.
Hypothesis HDB : horn_db DB.

Lemma matches_sound d l cands : lit_annots l = [] -> pure l -> Forall pure cands -> forall s nv s', pure_scope s ->
  yields (matches d l cands s nv) s' ->
  pure_scope s' /\ exists b, In b cands /\ forall th, sat th s' -> sat th s /\ deq (den th l) (den th b).
Proof.
  intros Hl Pl Hc. induction Hc as [|b cands Pb Hc IH]; intros s nv s' Hs H; cbn in H; [inversion H|].
  destruct (uann d l b (mkbst s [] 0)) as [[[cp|]|e] st] eqn:E.
  - destruct (uann_sem _ _ _ _ _ _ E Hl Pl Pb Hs) as (A & B & _). cbn in B. inversion H as [|? ? ? nv' ? H']; subst.
    + split; [assumption|]. exists b. split; [now left|]. intros th. apply B.
    + destruct (IH _ _ _ Hs H') as (A' & b' & I & F). split; [assumption|]. exists b'. split; [now right|assumption].
  - destruct (IH _ _ _ Hs H) as (A' & b' & I & F). split; [assumption|]. exists b'. split; [now right|assumption].
  - destruct e; inversion H.
Qed.

Definition sound_at (solve : query -> scope -> N -> trace) : Prop :=
  forall q s nv s', horn q -> pure_scope s -> yields (solve q s nv) s' ->
  pure_scope s' /\ forall th, sat th s' -> sat th s /\ derivable DB q th.

Lemma clauses_sound d solve goal rs : sound_at solve -> pure goal ->
  Forall (fun r => pure (r_head r) /\ horn (r_query r)) rs -> forall s nv s', pure_scope s ->
  yields (clauses d solve goal rs s nv) s' ->
  pure_scope s' /\ exists r, In r rs /\ forall th, sat th s' -> sat th s /\
    exists th', deq (den th' (r_head r)) (den th goal) /\ derivable DB (r_query r) th'.
Proof.
  intros Hsolve Pg Hrs. induction Hrs as [|r rs [Pr Hr] Hrs IH]; intros s nv s' Hs H; cbn in H; [inversion H|].
  destruct (copy_rule r nv) as [c nv1] eqn:Ec. unfold copy_rule in Ec.
  destruct (number _ [] nv) as [m k] eqn:En. inversion Ec; subst c nv1. clear Ec. cbn [r_head r_query] in H.
  assert (Rest : forall nv', yields (clauses d solve goal rs s nv') s' -> pure_scope s' /\ exists r0, In r0 (r :: rs) /\ forall th, sat th s' -> sat th s /\
    exists th', deq (den th' (r_head r0)) (den th goal) /\ derivable DB (r_query r0) th').
  { intros nv' H'. destruct (IH _ _ _ Hs H') as (A & r0 & B & F). split; [assumption|]. exists r0. split; [now right|assumption]. }
  destruct (unify d goal (rename m (r_head r)) (mkbst s [] 0)) as [[[|]|e] st] eqn:E.
  - pose proof (unify_sem _ _ _ _ _ _ E Pg (rename_pure _ _ Pr) Hs) as S1. cbn [b_scope] in S1.
    pose proof (unify_pure _ _ _ _ _ _ E Pg (rename_pure _ _ Pr) Hs) as S2.
    apply yields_append in H as [H|[nv' H]]; [|eapply Rest; eassumption].
    destruct (Hsolve _ _ _ _ (qrename_horn LAW m _ Hr) S2 H) as [A B]. split; [assumption|].
    exists r. split; [now left|]. intros th Hth. destruct (B _ Hth) as [B1 B2]. apply S1 in B1 as [B1 B3].
    split; [assumption|]. exists (fun v => th (via m v)). rewrite <- den_rename by assumption.
    split; [now symmetry|]. now apply derivable_rename.
  - eapply Rest; eassumption.
  - destruct e; inversion H.
Qed.

Lemma evaluate_lit n f args annots s v : evaluate n (TLit f args annots) s = Ok v -> v = TLit f args annots.
Proof. destruct n as [|n]; [easy|]. rewrite evaluate_S. congruence. Qed.

Lemma sols_sound d : sound_at (sols d DB).
Proof.
  induction d as [|d IH]; intros q s nv s' Hq Hs H; [inversion H|].
  destruct q as [| |ac t|t|l r|l r|q|l r]; cbn [sols] in H.
  - inversion H as [|? ? ? ? ? H']; subst; [|inversion H']. split; [assumption|]. intros; split; [assumption|constructor].
  - inversion H.
  - contradiction Hq.
  - destruct t; try contradiction Hq. destruct Hq as [Hq ->].
    assert (P : pure (TLit f args [])) by now constructor.
    destruct (evaluate d (TLit f args []) s) as [v|e] eqn:E; [|destruct e; inversion H].
    apply evaluate_lit in E. subst v. cbn [tres] in H. destruct (HDB (f, List.length args)) as [H1 H2].
    apply yields_append in H as [H|[nv' H]].
    + destruct (matches_sound d (TLit f args []) _ eq_refl P H1 _ _ _ Hs H) as (A & b & B & F). split; [assumption|].
      intros th Hth. destruct (F _ Hth) as [F1 F2]. split; [assumption|].
      eapply dv_fact; [exact B|]. symmetry. exact F2.
    + destruct (clauses_sound d (sols d DB) _ _ IH P H2 _ _ _ Hs H) as (A & r & B & F). split; [assumption|].
      intros th Hth. destruct (F _ Hth) as (F1 & th' & F2 & F3). split; [assumption|].
      eapply dv_rule; eassumption.
  - destruct Hq as [H1 H2]. apply yields_bind in H as (s1 & n1 & A & B).
    destruct (IH _ _ _ _ H1 Hs A) as [P1 S1]. destruct (IH _ _ _ _ H2 P1 B) as [P2 S2]. split; [assumption|].
    intros th Hth. destruct (S2 _ Hth) as [C1 C2]. destruct (S1 _ C1). split; [assumption|]. now constructor.
  - destruct Hq as [H1 H2]. apply yields_append in H as [H|[nv' H]].
    + destruct (IH _ _ _ _ H1 Hs H) as [P1 S1]. split; [assumption|]. intros th Hth. destruct (S1 _ Hth). split; [assumption|]. now apply dv_left.
    + destruct (IH _ _ _ _ H2 Hs H) as [P1 S1]. split; [assumption|]. intros th Hth. destruct (S1 _ Hth). split; [assumption|]. now apply dv_right.
  - contradiction Hq.
  - destruct Hq as (H1 & H2 & H3).
    destruct (matches_sound d l [r] H3 H1 (Forall_cons _ H2 (Forall_nil _)) _ _ _ Hs H) as (A & b & [<-|[]] & F).
    split; [assumption|]. intros th Hth. destruct (F _ Hth). split; [assumption|]. now constructor.
Qed.

(** *** Completeness *)
Lemma rising_matches d l cands s : forall nv, rising nv (matches d l cands s nv).
Proof.
  induction cands as [|b cands IH]; intros nv; cbn; [apply N.le_refl|].
  destruct (uann d l b (mkbst s [] 0)) as [[[cp|]|e] st].
  - cbn. split; [apply N.le_refl|auto].
  - apply IH.
  - destruct e; exact I.
Qed.

Lemma copy_rule_up r nv c nv1 : copy_rule r nv = (c, nv1) -> (nv <= nv1)%N.
Proof.
  unfold copy_rule. destruct (number _ [] nv) as [m k] eqn:En. intro H. inversion H; subst.
  eapply (number_spec _ [] nv nv); [|exact En]. split; [lia|]. split; intros ? ? *; discriminate.
Qed.

Lemma rising_clauses d solve goal rs s : (forall q s nv, horn q -> rising nv (solve q s nv)) ->
  Forall (fun r => pure (r_head r) /\ horn (r_query r)) rs -> forall nv, rising nv (clauses d solve goal rs s nv).
Proof.
  intros Hsolve H. induction H as [|r rs [Pr Hr] Hrs IH]; intros nv; cbn; [apply N.le_refl|].
  destruct (copy_rule r nv) as [c nv1] eqn:Ec. pose proof (copy_rule_up _ _ _ _ Ec) as Hle.
  unfold copy_rule in Ec. destruct (number _ [] nv) as [m k] eqn:En. inversion Ec; subst c nv1. cbn [r_query r_head].
  destruct (unify d goal (rename m (r_head r)) (mkbst s [] 0)) as [[[|]|e] st].
  - eapply rising_down; [exact Hle|]. apply rising_append; [|intros; apply IH].
    apply Hsolve. now apply qrename_horn.
  - eapply rising_down; [exact Hle|]. apply IH.
  - destruct e; exact I.
Qed.

Lemma rising_sols d : forall q s nv, horn q -> rising nv (sols d DB q s nv).
Proof.
  induction d as [|d IH]; intros q s nv Hq; [exact I|].
  destruct q as [| |ac t|t|l r|l r|q|l r]; cbn [sols]; try contradiction Hq.
  - cbn. split; [apply N.le_refl|]. intros. apply N.le_refl.
  - cbn. apply N.le_refl.
  - destruct t; try contradiction Hq. destruct Hq as [Hq ->].
    destruct (evaluate d (TLit f args []) s) as [v|e] eqn:E; [|destruct e; exact I].
    apply evaluate_lit in E. subst v. cbn [tres]. apply rising_append; [apply rising_matches|].
    intros. apply rising_clauses; [exact IH|apply HDB].
  - destruct Hq. apply rising_bind; [now apply IH|]. intros. now apply IH.
  - destruct Hq. apply rising_append; [now apply IH|]. intros. now apply IH.
  - apply rising_matches.
Qed.

Hypothesis HG : ground_db DB.

Definition sols_ok (nv : N) (L : list (scope * N)) : Prop :=
  forall s' n, In (s', n) L -> pure_scope s' /\ sb n s' /\ (nv <= n)%N.

Lemma sols_ok_app nv n1 L1 L2 : (nv <= n1)%N -> sols_ok nv L1 -> sols_ok n1 L2 -> sols_ok nv (L1 ++ L2).
Proof.
  intros Hn H1 H2 s' n Hin. apply in_app_or in Hin as [Hin|Hin]; [now apply H1|].
  destruct (H2 _ _ Hin) as (A & B & C). split; [assumption|]. split; [assumption|]. lia.
Qed.

Lemma matches_complete d l cands : lit_annots l = [] -> pure l -> Forall pure cands ->
  forall s nv L nv', pure_scope s -> sb nv s -> pb nv l -> Forall (pb nv) cands ->
  runs (matches d l cands s nv) L nv' ->
  sols_ok nv L /\
  forall th b, sat th s -> In b cands -> deq (den th l) (den th b) -> exists s' n, In (s', n) L /\ sat th s'.
Proof.
  intros Hl Pl Hc. induction Hc as [|b cands Pb Hc IH]; intros s nv L nv' Hs Bs Bl Bc H; cbn in H.
  - inversion H; subst. split; [intros ? ? []|]. intros ? ? ? [].
  - inversion Bc; subst. destruct (uann d l b (mkbst s [] 0)) as [[[cp|]|e] st] eqn:E.
    + destruct (uann_sem _ _ _ _ _ _ E Hl Pl Pb Hs) as (A & B & C). cbn [b_scope] in *. inversion H as [|? ? ? nv1 ? ? Hle H']; subst.
      destruct (IH s nv1 l0 nv') as [F1 F2]; try assumption.
      { eapply sb_up; eassumption. } { eapply pb_up; eassumption. }
      { eapply Forall_impl; [|eassumption]. intros. eapply pb_up; eassumption. }
      split.
      * intros s' n [Hin|Hin].
        -- inversion Hin; subst. split; [assumption|]. split; [|apply N.le_refl]. now apply C.
        -- destruct (F1 _ _ Hin) as (G1 & G2 & G3). split; [assumption|]. split; [assumption|]. lia.
      * intros th b' Hth [<-|Hin] He.
        -- exists (b_scope st), nv. split; [now left|]. apply B. auto.
        -- destruct (F2 _ _ Hth Hin He) as (s' & n & G1 & G2). exists s', n. split; [now right|assumption].
    + destruct (IH s nv L nv') as [F1 F2]; try assumption. split; [assumption|].
      intros th b' Hth [<-|Hin] He; [|eapply F2; eassumption].
      destruct (uann_sem _ _ _ _ _ _ E Hl Pl Pb Hs th Hth He).
    + destruct e; inversion H.
Qed.

Definition complete_at (solve : query -> scope -> N -> trace) : Prop :=
  forall q s nv L nv', horn q -> pure_scope s -> sb nv s -> Forall (fun w => (w < nv)%N) (dqvars q) ->
  runs (solve q s nv) L nv' ->
  sols_ok nv L /\
  forall th, sat th s -> derivable DB q th ->
    exists s' n th', In (s', n) L /\ sat th' s' /\ forall v, (v < nv)%N -> th' v = th v.

Lemma clauses_complete d solve goal rs : complete_at solve -> (forall q s nv, horn q -> rising nv (solve q s nv)) ->
  pure goal -> Forall (fun r => pure (r_head r) /\ horn (r_query r)) rs ->
  forall s nv L nv', pure_scope s -> sb nv s -> pb nv goal ->
  runs (clauses d solve goal rs s nv) L nv' ->
  sols_ok nv L /\
  forall th r th', sat th s -> In r rs -> deq (den th' (r_head r)) (den th goal) -> derivable DB (r_query r) th' ->
    exists s' n th', In (s', n) L /\ sat th' s' /\ forall v, (v < nv)%N -> th' v = th v.
Proof.
  intros Hsolve Hrise Pg Hrs. induction Hrs as [|r rs [Pr Hr] Hrs IH]; intros s nv L nv' Hs Bs Bg H; cbn in H.
  - inversion H; subst. split; [intros ? ? []|]. intros ? ? ? ? [].
  - destruct (copy_rule r nv) as [c nv1] eqn:Ec. pose proof (copy_rule_up _ _ _ _ Ec) as Hle.
    unfold copy_rule in Ec. destruct (number _ [] nv) as [m k] eqn:En. inversion Ec; subst c nv1. clear Ec. cbn [r_query r_head] in H.
    assert (N0 : numbered [] nv nv) by (split; [lia|]; split; intros ? ? *; discriminate).
    destruct (number_spec _ _ _ _ _ _ N0 En) as (Hm & _ & _ & Hall).
    pose proof (number_nodup _ [] _ _ _ (NoDup_nil _) En) as Hnd.
    assert (Vnew : forall v, In v (dvars (r_head r) ++ dqvars (r_query r)) -> exists x, memo_get m v = Some x).
    { intros v Hv. apply Hall. apply in_app_or in Hv as [Hv|Hv]; apply in_or_app;
        [left; now apply dvars_tvars|right; now apply dqvars_qvars]. }
    assert (Bv : forall v, In v (dvars (r_head r) ++ dqvars (r_query r)) -> (via m v < k)%N).
    { intros v Hv. destruct (Vnew v Hv) as [x Hx]. unfold via. rewrite Hx. apply Hm in Hx. lia. }
    assert (Bh : pb k (rename m (r_head r))).
    { split; [now apply rename_pure|]. rewrite rename_dvars by assumption. rewrite Forall_map, Forall_forall.
      intros v Hv. apply Bv. apply in_or_app. auto. }
    assert (Bq : Forall (fun w => (w < k)%N) (dqvars (qrename m (r_query r)))).
    { rewrite qrename_dqvars by assumption. rewrite Forall_map, Forall_forall.
      intros v Hv. apply Bv. apply in_or_app. auto. }
    assert (Bs' : sb k s) by (eapply sb_up; eassumption). assert (Bg' : pb k goal) by (eapply pb_up; eassumption).
    destruct (unify d goal (rename m (r_head r)) (mkbst s [] 0)) as [[[|]|e] st] eqn:E.
    + pose proof (unify_sem _ _ _ _ _ _ E Pg (rename_pure _ _ Pr) Hs) as S1. cbn [b_scope] in S1.
      pose proof (unify_pure _ _ _ _ _ _ E Pg (rename_pure _ _ Pr) Hs) as S2.
      pose proof (unify_pb k d _ _ _ _ _ E Bg' Bh Bs') as S3.
      apply runs_append in H as (L1 & n1 & L2 & R1 & R2 & ->).
      pose proof (qrename_horn LAW m _ Hr) as Hr'.
      destruct (rising_runs _ _ _ _ R1 (Hrise _ _ _ Hr')) as [Hn1 _].
      destruct (Hsolve _ _ _ _ _ Hr' S2 S3 Bq R1) as [A1 A2].
      destruct (IH s n1 L2 nv') as [B1 B2]; try assumption.
      { eapply sb_up; [|exact Bs]; lia. } { eapply pb_up; [|exact Bg]; lia. }
      split.
      * apply sols_ok_app with (n1 := n1); [lia| |assumption]. intros s' n Hin. destruct (A1 _ _ Hin) as (C1 & C2 & C3).
        split; [assumption|]. split; [assumption|]. lia.
      * intros th r0 th0 Hth [<-|Hin] Heq Hd.
        -- set (th1 := fun v => match inverse m v with Some w => th0 w | None => th v end).
           assert (Old : forall v, (v < nv)%N -> th1 v = th v).
           { intros v Hv. unfold th1. destruct (inverse m v) as [w|] eqn:Ei; [|reflexivity].
             apply (inverse_range _ _ _ _ _ Hm Hnd) in Ei. lia. }
           assert (New : forall v, In v (dvars (r_head r) ++ dqvars (r_query r)) -> th1 (via m v) = th0 v).
           { intros v Hv. destruct (Vnew v Hv) as [x Hx]. unfold via. rewrite Hx. unfold th1.
             now rewrite (inverse_get _ _ _ _ _ Hm Hnd Hx). }
           assert (Sat1 : sat th1 (b_scope st)).
           { apply S1. split.
             - eapply sat_ext; [exact Bs| |exact Hth]. intros; symmetry; now apply Old.
             - rewrite den_rename by assumption. rewrite (den_ext (fun v => th1 (via m v)) th0 (r_head r) Pr).
               + rewrite (den_ext th1 th goal Pg); [now symmetry|]. destruct Bg as [_ Bg]. rewrite Forall_forall in Bg.
                 intros v Hv. apply Old. now apply Bg.
               + intros v Hv. apply New. apply in_or_app. auto. }
           assert (Der1 : derivable DB (qrename m (r_query r)) th1).
           { apply derivable_rename; [assumption|]. eapply derivable_ext; [exact Hr| |exact Hd].
             intros v Hv. symmetry. apply New. apply in_or_app. auto. }
           destruct (A2 _ Sat1 Der1) as (s' & n & th' & C1 & C2 & C3). exists s', n, th'.
           split; [apply in_or_app; auto|]. split; [assumption|]. intros v Hv. rewrite C3 by lia. now apply Old.
        -- destruct (B2 _ _ _ Hth Hin Heq Hd) as (s' & n & th' & C1 & C2 & C3). exists s', n, th'.
           split; [apply in_or_app; auto|]. split; [assumption|]. intros v Hv. apply C3. lia.
    + destruct (IH s k L nv') as [B1 B2]; try assumption.
      split.
      * intros s' n Hin. destruct (B1 _ _ Hin) as (C1 & C2 & C3). split; [assumption|]. split; [assumption|]. lia.
      * intros th r0 th0 Hth [<-|Hin] Heq Hd.
        -- exfalso. pose proof (unify_sem _ _ _ _ _ _ E Pg (rename_pure _ _ Pr) Hs) as S1. cbn [b_scope] in S1.
           set (th1 := fun v => match inverse m v with Some w => th0 w | None => th v end).
           assert (Old : forall v, (v < nv)%N -> th1 v = th v).
           { intros v Hv. unfold th1. destruct (inverse m v) as [w|] eqn:Ei; [|reflexivity].
             apply (inverse_range _ _ _ _ _ Hm Hnd) in Ei. lia. }
           assert (New : forall v, In v (dvars (r_head r) ++ dqvars (r_query r)) -> th1 (via m v) = th0 v).
           { intros v Hv. destruct (Vnew v Hv) as [x Hx]. unfold via. rewrite Hx. unfold th1.
             now rewrite (inverse_get _ _ _ _ _ Hm Hnd Hx). }
           apply (S1 th1).
           ++ eapply sat_ext; [exact Bs| |exact Hth]. intros; symmetry; now apply Old.
           ++ rewrite den_rename by assumption. rewrite (den_ext (fun v => th1 (via m v)) th0 (r_head r) Pr).
               ** rewrite (den_ext th1 th goal Pg); [now symmetry|]. destruct Bg as [_ Bg]. rewrite Forall_forall in Bg.
                 intros v Hv. apply Old. now apply Bg.
               ** intros v Hv. apply New. apply in_or_app. auto.
        -- destruct (B2 _ _ _ Hth Hin Heq Hd) as (s' & n & th' & C1 & C2 & C3). exists s', n, th'.
           split; [assumption|]. split; [assumption|]. intros v Hv. apply C3. lia.
    + destruct e; inversion H.
Qed.

Lemma sols_complete d : complete_at (sols d DB).
Proof.
  induction d as [|d IH]; intros q s nv L nv' Hq Hs Bs Bq H; [inversion H|].
  destruct q as [| |ac t|t|l r|l r|q|l r]; cbn [sols] in H; try contradiction Hq.
  - inversion H as [|? ? ? nv1 ? ? Hle H']; subst. inversion H'; subst. split.
    + intros s' n [Hin|[]]. inversion Hin; subst. split; [assumption|]. split; [assumption|apply N.le_refl].
    + intros th Hth _. exists s, nv, th. split; [now left|]. auto.
  - inversion H; subst. split; [intros ? ? []|]. intros th _ Hd. inversion Hd.
  - destruct t; try contradiction Hq. destruct Hq as [Hq ->].
    assert (P : pure (TLit f args [])) by now constructor. assert (Bg : pb nv (TLit f args [])) by (split; assumption).
    destruct (evaluate d (TLit f args []) s) as [v|e] eqn:E; [|destruct e; inversion H].
    apply evaluate_lit in E. subst v. cbn [tres] in H. destruct (HDB (f, List.length args)) as [H1 H2].
    pose proof (rising_matches d (TLit f args []) (d_bel DB (f, List.length args)) s nv) as Rm.
    apply runs_append in H as (L1 & n1 & L2 & R1 & R2 & ->).
    destruct (rising_runs _ _ _ _ R1 Rm) as [Hn1 _].
    assert (Bc : Forall (pb nv) (d_bel DB (f, List.length args))).
    { rewrite Forall_forall in *. intros b Hb. split; [now apply H1|]. rewrite (HG _ _ Hb). constructor. }
    destruct (matches_complete d (TLit f args []) _ eq_refl P H1 _ _ _ _ Hs Bs Bg Bc R1) as [A1 A2].
    destruct (clauses_complete d (sols d DB) _ _ IH (rising_sols d) P H2 s n1 L2 nv') as [B1 B2]; try assumption.
    { eapply sb_up; eassumption. } { eapply pb_up; eassumption. }
    split; [now apply sols_ok_app with (n1 := n1)|]. intros th Hth Hd. inversion Hd; subst.
    + destruct (A2 th b Hth) as (s' & n & C1 & C2); [assumption| |].
      { rewrite (den_ext th th' b); [symmetry; assumption| |].
        - rewrite Forall_forall in H1. now apply H1.
        - match goal with Hb : In b _ |- _ => rewrite (HG _ _ Hb) end. intros ? []. }
      exists s', n, th. split; [apply in_or_app; auto|]. auto.
    + destruct (B2 th r th' Hth) as (s' & n & th2 & C1 & C2 & C3); try assumption.
      exists s', n, th2. split; [apply in_or_app; auto|]. split; [assumption|]. intros; apply C3; lia.
  - destruct Hq as [H1 H2]. cbn [dqvars] in Bq. apply Forall_app in Bq as [Bl Br].
    pose proof (rising_sols d l s nv H1) as Rl.
    assert (Up : forall n, (nv <= n)%N -> Forall (fun w => (w < n)%N) (dqvars r)).
    { intros n Hn. eapply Forall_impl; [|exact Br]. cbn; intros; lia. }
    apply (runs_bind nv) in H as (L1 & n1 & R1 & R2 & R3); [|assumption|intros; now apply rising_sols].
    destruct (IH _ _ _ _ _ H1 Hs Bs Bl R1) as [A1 A2]. split.
    + intros s' n Hin. destruct (R3 _ Hin) as (s1 & m1 & L2 & n2 & T1 & T2 & T3). destruct (A1 _ _ T1) as (P1 & S1 & N1).
      destruct (IH _ _ _ _ _ H2 P1 S1 (Up _ N1) T2) as [F1 _]. destruct (F1 _ _ T3) as (G1 & G2 & G3).
      split; [assumption|]. split; [assumption|]. lia.
    + intros th Hth Hd. inversion Hd; subst. destruct (A2 _ Hth) as (s1 & m1 & th1 & C1 & C2 & C3); [assumption|].
      destruct (A1 _ _ C1) as (P1 & S1 & N1). destruct (R2 _ _ C1) as (L2 & n2 & T1 & T2).
      destruct (IH _ _ _ _ _ H2 P1 S1 (Up _ N1) T1) as [F1 F2].
      destruct (F2 th1 C2) as (s2 & m2 & th2 & G1 & G2 & G3).
      { eapply derivable_ext; [exact H2| |eassumption]. intros v Hv. symmetry. apply C3.
        rewrite Forall_forall in Br. now apply Br. }
      exists s2, m2, th2. split; [now apply T2|]. split; [assumption|]. intros v Hv. rewrite G3 by lia. now apply C3.
  - destruct Hq as [H1 H2]. cbn [dqvars] in Bq. apply Forall_app in Bq as [Bl Br].
    apply runs_append in H as (L1 & n1 & L2 & R1 & R2 & ->).
    destruct (rising_runs _ _ _ _ R1 (rising_sols d l s nv H1)) as [Hn1 _].
    destruct (IH _ _ _ _ _ H1 Hs Bs Bl R1) as [A1 A2].
    destruct (IH r s n1 L2 nv') as [B1 B2]; try assumption.
    { eapply sb_up; eassumption. } { eapply Forall_impl; [|exact Br]; cbn; intros; lia. }
    split; [now apply sols_ok_app with (n1 := n1)|]. intros th Hth Hd. inversion Hd; subst.
    + destruct (A2 _ Hth) as (s1 & m1 & th1 & C1 & C2 & C3); [assumption|].
      exists s1, m1, th1. split; [apply in_or_app; auto|]. auto.
    + destruct (B2 _ Hth) as (s1 & m1 & th1 & C1 & C2 & C3); [assumption|].
      exists s1, m1, th1. split; [apply in_or_app; auto|]. split; [assumption|]. intros; apply C3; lia.
  - destruct Hq as (H1 & H2 & H3). cbn [dqvars] in Bq. apply Forall_app in Bq as [Bl Br].
    destruct (matches_complete d l [r] H3 H1 (Forall_cons _ H2 (Forall_nil _)) s nv L nv') as [A1 A2]; try assumption.
    { split; assumption. } { constructor; [split; assumption|constructor]. }
    split; [assumption|]. intros th Hth Hd. inversion Hd; subst.
    destruct (A2 th r Hth) as (s' & n & C1 & C2); [now left|assumption|]. exists s', n, th. auto.
Qed.
End Sem.
