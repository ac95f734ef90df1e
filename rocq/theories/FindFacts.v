(** .findall with patterns that are not ground in every solution. *)
From Verif Require Import Base Num Term Unify TermSpec InstSpec TrailSpec TrailFacts FuelFacts Str World Engine QuerySpec QueryFacts QueryCor EnumSpec EnumFacts FrameSpec FrameFacts LogicFacts FreezeFacts.

Section WithPy.
Context {PY : Py}.

(** ** Counters do not decrease *)
Lemma smapl_rel (R : fst_ -> fst_ -> Prop) (f : term -> fst_ -> res term * fst_) ts : (forall m, R m m) -> (forall a b c, R a b -> R b c -> R a c) ->
  (forall t m r m', f t m = (r, m') -> R m m') -> forall m r m', smapl f ts m = (r, m') -> R m m'.
Proof.
  intros Hr Ht Hf. induction ts as [|t ts IH]; intros m r m' E; cbn in E; [inversion E; subst; apply Hr|].
  destruct (f t m) as [r1 m1] eqn:E1. apply Hf in E1. destruct r1; [|inversion E; subst; assumption].
  destruct (smapl f ts m1) as [r2 m2] eqn:E2. apply IH in E2. destruct r2; inversion E; subst; eapply Ht; eassumption.
Qed.
Lemma freeze_rel (R : fst_ -> fst_ -> Prop) : (forall m, R m m) -> (forall a b c, R a b -> R b c -> R a c) ->
  (forall v m, R m ((v, snd m) :: fst m, N.succ (snd m))) -> forall n s t m r m', freeze n t s m = (r, m') -> R m m'.
Proof.
  intros Hr Ht Hn. induction n as [|n IH]; intros s t m r m' E; [inversion E; subst; apply Hr|]. rewrite freeze_S in E.
  destruct t; try (inversion E; subst; apply Hr).
  - destruct (memo_get (fst m) v); [inversion E; subst; apply Hr|]. destruct (bound s v).
    + destruct (deref (TVar v) s); [eapply IH; exact E|inversion E; subst; apply Hr].
    + inversion E; subst. apply Hn.
  - destruct (evaluate n (TUn op t) s); [eapply IH; exact E|inversion E; subst; apply Hr].
  - destruct (evaluate n (TBin op t1 t2) s); [eapply IH; exact E|inversion E; subst; apply Hr].
  - destruct (smapl _ args m) as [r1 m1] eqn:E1. apply (smapl_rel R) in E1; [|assumption|assumption|intros; eapply IH; eassumption].
    destruct r1; [|inversion E; subst; assumption]. destruct (smapl _ annots m1) as [r2 m2] eqn:E2. apply (smapl_rel R) in E2; [|assumption|assumption|intros; eapply IH; eassumption].
    destruct r2; inversion E; subst; eapply Ht; eassumption.
  - destruct (smapl _ ts m) as [r1 m1] eqn:E1. apply (smapl_rel R) in E1; [|assumption|assumption|intros; eapply IH; eassumption]. destruct r1; inversion E; subst; assumption.
  - destruct (freeze n t1 s m) as [r1 m1] eqn:E1. apply IH in E1. destruct r1; [|inversion E; subst; assumption].
    destruct (freeze n t2 s m1) as [r2 m2] eqn:E2. apply IH in E2. destruct r2; inversion E; subst; eapply Ht; eassumption.
Qed.
Lemma freeze_up n s t m r m' : freeze n t s m = (r, m') -> (snd m <= snd m')%N.
Proof. apply (freeze_rel (fun a b => (snd a <= snd b)%N)); [intro; lia|intros; lia|intros; cbn; lia]. Qed.
Lemma freeze_below n s t m r m' : (forall v x, memo_get (fst m) v = Some x -> (x < snd m)%N) -> freeze n t s m = (r, m') ->
  forall v x, memo_get (fst m') v = Some x -> (x < snd m')%N.
Proof.
  intros H E.
  pose (R := fun a b : fst_ => (forall v x, memo_get (fst a) v = Some x -> (x < snd a)%N) -> forall v x, memo_get (fst b) v = Some x -> (x < snd b)%N).
  assert (HR : R m m'); [|exact (HR H)]. refine (freeze_rel R _ _ _ n s t m r m' E); unfold R.
  - intros a Ha. exact Ha.
  - intros a b c Hab Hbc Ha. exact (Hbc (Hab Ha)).
  - intros v [mm k] H0 w x. cbn. destruct (N.eqb w v); [intro Hx; inversion Hx; subst; lia|]. intro Hx. apply H0 in Hx. cbn in Hx. lia.
Qed.
Lemma zip_specs_up n specs : forall args s m r m', zip_specs n specs args s m = (r, m') -> (snd m <= snd m')%N.
Proof.
  induction specs as [|sp specs IH]; intros args s m r m' E; cbn in E; [inversion E; subst; lia|].
  assert (Hx : match args with [] => (Err ERuntime, m) | t :: args' => match freeze n t s m with (Err e, m1) => (Err e, m1) | (Ok f, m1) =>
      match convert sp f with Err e => (Err e, m1) | Ok v => match zip_specs n specs args' s m1 with (Err e, m2) => (Err e, m2) | (Ok vs, m2) => (Ok (v :: vs), m2) end end end end = (r, m') -> (snd m <= snd m')%N).
  { clear E. intro E. destruct args as [|t args]; [inversion E; subst; lia|]. destruct (freeze n t s m) as [r1 m1] eqn:E1. apply freeze_up in E1.
    destruct r1 as [f|]; [|inversion E; subst; lia]. destruct (convert sp f); [|inversion E; subst; lia].
    destruct (zip_specs n specs args s m1) as [r2 m2] eqn:E2. apply IH in E2. destruct r2; inversion E; subst; lia. }
  destruct sp; solve [eapply IH; exact E|apply Hx; exact E].
Qed.

Lemma rising_terr lo e : rising lo (terr e).
Proof. destruct e; exact I. Qed.
Lemma rising_tres {A} lo (r : res A) f : (forall x, r = Ok x -> rising lo (f x)) -> rising lo (tres r f).
Proof. intro H. destruct r; cbn; [now apply H|apply rising_terr]. Qed.
Lemma rising_choices d l cands fin s : forall nv, rising nv (choices d l cands fin s nv).
Proof.
  induction cands as [|b cands IH]; intros nv; cbn [choices]; [destruct fin; [exact I|apply N.le_refl]|].
  destruct (unify d l b (mkbst s [] 0)) as [[[]|e] st]; [|apply IH|apply rising_terr].
  cbn. split; [apply N.le_refl|auto].
Qed.
Lemma rising_one s nv : rising nv (one s nv).
Proof. cbn. split; [lia|]. intros; lia. Qed.
Lemma gather_up {S} (step : scope -> N -> S -> res (S * N)) t : (forall s nv x x' nv', step s nv x = Ok (x', nv') -> (nv <= nv')%N) ->
  forall lo x x' nv', rising lo t -> gather step t x = Ok (x', nv') -> (lo <= nv')%N.
Proof.
  intro Hs. induction t as [nv|e| |s' nv k IH]; intros lo x x' nv' Ht E; cbn in *; try easy.
  - inversion E; subst. assumption.
  - destruct Ht as [A B]. destruct (step s' nv x) as [[x1 nv1]|] eqn:E1; [|easy]. apply Hs in E1.
    apply IH with (lo := nv1) in E; [lia|]. now apply B.
Qed.
Lemma find_step_up d p s nv x x' nv' : find_step d p s nv x = Ok (x', nv') -> (nv <= nv')%N.
Proof.
  unfold find_step. destruct (freeze d p s (fst x, nv)) as [r [m k]] eqn:E. apply freeze_up in E. cbn in E.
  destruct r; intro H; inversion H; subst. assumption.
Qed.
Lemma rising_choices' lo d l cands fin s nv : (lo <= nv)%N -> rising lo (choices d l cands fin s nv).
Proof. intro H. eapply rising_down; [exact H|apply rising_choices]. Qed.

Lemma rising_acts d D solve ac t args s nv : (forall q s nv, rising nv (solve q s nv)) -> rising nv (act_sols d D solve ac t args s nv).
Proof.
  intro Hs.
  assert (HB : forall lo (b : bool), (nv <= lo)%N -> rising nv (if b then one s lo else TEnd lo)).
  { intros lo b H. eapply rising_down; [exact H|]. destruct b; [apply rising_one|cbn; lia]. }
  destruct ac; cbn [act_sols]; try exact I.
  all: try (apply (rising_one s nv)).
  all: try exact s.
  all: try (cbn; apply N.le_refl).
  all: try (apply rising_tres; intros; apply HB; lia).
  all: try (destruct (zip_specs d specs args s ([], nv)) as [r [m' nv']] eqn:E; apply zip_specs_up in E; cbn in E;
            apply rising_tres; intros; apply rising_tres; intros; now apply HB).
  all: try (destruct args as [|a0 args]; [exact I|]; destruct (zip_specs d specs _ s ([], nv)) as [r [m' nv']] eqn:E; apply zip_specs_up in E; cbn in E;
            apply rising_tres; intros; apply rising_tres; intros; now apply rising_choices').
  all: try (destruct args as [|a0 args]; [exact I|]; apply rising_tres; intros; apply rising_tres; intros; apply rising_choices; fail).
  all: try (destruct args as [|a0 [|a1 args]]; try exact I; apply rising_choices; fail).
  all: try (destruct args as [|a0 [|a1 [|a2 args]]]; try exact I; apply rising_tres; intros; apply rising_tres; intros; apply rising_choices; fail).
  all: try (destruct args as [|a0 [|a1 [|a2 [|a3 args]]]]; try exact I; apply rising_tres; intros; apply rising_tres; intros; apply rising_choices; fail).
  all: try (destruct args as [|a0 [|a1 [|a2 args]]]; exact I).
  all: try match goal with |- context[iter_items] => destruct args as [|a0 [|a1 [|a2 args]]]; try exact I | |- context[find_step] => destruct args as [|a0 [|a1 [|a2 [|a3 args]]]]; try exact I
       | |- context[sum_step] => destruct args as [|a0 [|a1 [|a2 [|a3 args]]]]; try exact I | |- context[gather] => destruct args as [|a0 [|a1 [|a2 args]]]; try exact I end.
  - destruct (smapl (fun a => freeze d a s) args ([], nv)) as [r [m' nv']] eqn:E. apply (smapl_rel (fun a b => (snd a <= snd b)%N)) in E; [|intro; lia|intros; lia|intros; eapply freeze_up; eassumption].
    cbn in E. apply rising_tres. intros. now apply (HB nv' true).
  - apply rising_tres. intros. destruct (iter_items x). apply rising_choices.
  - apply rising_tres. intros p Ep. apply rising_tres. intros [y nv'] E. cbn [snd fst]. apply rising_choices'.
    eapply gather_up; [|apply Hs|exact E]. intros; eapply find_step_up; eassumption.
  - apply rising_tres. intros [y nv'] E. cbn [snd fst]. apply rising_choices'.
    eapply gather_up; [|apply Hs|exact E]. intros ? ? ? ? ? H; inversion H; subst; lia.
  - apply rising_tres. intros p Ep. apply rising_tres. intros [y nv'] E. cbn [snd fst]. apply rising_choices'.
    eapply gather_up; [|apply Hs|exact E]. intros s' k x x' k' H. unfold sum_step, rbind, rmap in H. destruct (grounded d p s') as [v|]; [|easy].
    destruct v; try easy; destruct (num_op _ _ _ _); inversion H; subst; lia.
Qed.

Lemma rising_every_clause d solve goal rs s : (forall q s nv, rising nv (solve q s nv)) -> forall nv, rising nv (clauses d solve goal rs s nv).
Proof.
  intros Hs. induction rs as [|r rs IH]; intros nv; cbn [clauses]; [cbn; lia|].
  destruct (copy_rule r nv) as [c nv1] eqn:Ec. pose proof (copy_rule_up _ _ _ _ Ec) as Hle.
  destruct (unify d goal (r_head c) (mkbst s [] 0)) as [[[|]|e] st]; [| |apply rising_terr]; (eapply rising_down; [exact Hle|]).
  - apply rising_append; [apply Hs|intros; apply IH].
  - apply IH.
Qed.

Lemma rising_every d D : forall q s nv, rising nv (sols d D q s nv).
Proof.
  induction d as [|d IH]; intros q s nv; [exact I|]. cbn [sols]. destruct q.
  - apply rising_one.
  - cbn. lia.
  - apply rising_tres. intros. now apply rising_acts.
  - apply rising_tres. intros v Ev. destruct v; try exact I; [destruct b; [apply rising_one|cbn; lia]|].
    apply rising_append; [apply rising_matches|]. intros. now apply rising_every_clause.
  - apply rising_bind; [apply IH|]. intros. apply IH.
  - apply rising_append; [apply IH|]. intros. apply IH.
  - specialize (IH q s nv). destruct (sols d D q s nv) as [k| | |s' k r]; cbn in IH |- *; try exact I; [|apply IH]. split; [exact IH|]. intros; lia.
  - apply rising_matches.
Qed.

(** ** What freezing adds to the memo *)
Definition fresh_memo (P : N -> Prop) (s : scope) (m m' : fst_) : Prop :=
  forall v x, memo_get (fst m') v = Some x -> memo_get (fst m) v = Some x \/ P v /\ lookup s v = None.

Lemma smapl_memo P s (f : term -> fst_ -> res term * fst_) ts : (forall t m r m', pin P t -> f t m = (r, m') -> fresh_memo P s m m') ->
  Forall (pin P) ts -> forall m r m', smapl f ts m = (r, m') -> fresh_memo P s m m'.
Proof.
  intros Hf Ht. induction Ht as [|t ts Ht _ IH]; intros m r m' E; cbn in E; [inversion E; subst; intros v x; auto|].
  destruct (f t m) as [r1 m1] eqn:E1. apply (Hf _ _ _ _ Ht) in E1. destruct r1; [|inversion E; subst; assumption].
  destruct (smapl f ts m1) as [r2 m2] eqn:E2. apply IH in E2.
  assert (fresh_memo P s m m2) by (intros v x Hx; destruct (E2 v x Hx) as [H|H]; [apply E1 in H|]; auto).
  destruct r2; inversion E; subst; assumption.
Qed.
Lemma freeze_memo P s : cl P s -> forall n t m r m', pin P t -> freeze n t s m = (r, m') -> fresh_memo P s m m'.
Proof.
  intro Hs. induction n as [|n IH]; intros t m r m' Ht E; [inversion E; subst; intros v x; auto|]. rewrite freeze_S in E.
  destruct t; try (inversion E; subst; intros ? ?; auto; fail).
  - destruct (memo_get (fst m) v) eqn:Em; [inversion E; subst; intros ? ?; auto|]. destruct (bound s v) eqn:Eb.
    + destruct (deref (TVar v) s) eqn:Ed; [|inversion E; subst; intros ? ?; auto]. eapply IH; [|exact E]. eapply deref_pin; eassumption.
    + inversion E; subst. intros w x. cbn. destruct (N.eqb_spec w v) as [->|]; [|auto]. intros _. right. split; [now apply pin_var in Ht|].
      unfold bound in Eb. now destruct (lookup s v).
  - destruct (evaluate n (TUn op t) s) eqn:Ee; [|inversion E; subst; intros ? ?; auto]. eapply IH; [|exact E]. eapply evaluate_pin; eassumption.
  - destruct (evaluate n (TBin op t1 t2) s) eqn:Ee; [|inversion E; subst; intros ? ?; auto]. eapply IH; [|exact E]. eapply evaluate_pin; eassumption.
  - apply pin_lit in Ht as [H1 H2]. destruct (smapl _ args m) as [r1 m1] eqn:E1. apply (smapl_memo P s) in E1; [|exact IH|exact H1].
    destruct r1; [|inversion E; subst; assumption]. destruct (smapl _ annots m1) as [r2 m2] eqn:E2. apply (smapl_memo P s) in E2; [|exact IH|exact H2].
    assert (fresh_memo P s m m2) by (intros v x Hx; destruct (E2 v x Hx) as [H|H]; [apply E1 in H|]; auto).
    destruct r2; inversion E; subst; assumption.
  - apply pin_tup in Ht. destruct (smapl _ ts m) as [r1 m1] eqn:E1. apply (smapl_memo P s) in E1; [|exact IH|exact Ht].
    destruct r1; inversion E; subst; assumption.
  - apply pin_ll in Ht as [H1 H2]. destruct (freeze n t1 s m) as [r1 m1] eqn:E1. apply IH in E1; [|exact H1].
    destruct r1; [|inversion E; subst; assumption]. destruct (freeze n t2 s m1) as [r2 m2] eqn:E2. apply IH in E2; [|exact H2].
    assert (fresh_memo P s m m2) by (intros v x Hx; destruct (E2 v x Hx) as [H|H]; [apply E1 in H|]; auto).
    destruct r2; inversion E; subst; assumption.
Qed.

Lemma freeze_involved s n t m r m' : freeze n t s m = (r, m') -> fresh_memo (involved s (tvars t)) s m m'.
Proof.
  apply freeze_memo.
  - intros v u H Hv. unfold pin. apply Forall_forall. intros w Hw. eapply in_value; eassumption.
  - unfold pin. apply Forall_forall. intros w Hw. now apply in_here.
Qed.

(** ** Collecting *)
Hypothesis L : PyLawful PY.

Lemma gather_find d p : forall t lo m acc m' ts nv', rising lo t ->
  (forall v x, memo_get m v = Some x -> (x < lo)%N) ->
  gather (find_step d p) t (m, acc) = Ok ((m', ts), nv') ->
  exists c l new, Forall (fun p => fst p = []) c /\ take c t = (l, Exhausted) /\ ts = acc ++ new /\ List.length new = List.length l /\
    (settled p l -> (forall v x s, memo_get m v = Some x -> In s l -> lookup s v = None) ->
     (forall v w x, memo_get m v = Some x -> memo_get m w = Some x -> v = w) ->
     Forall2 (fun s u => inst s (memo_get m') p u) l new /\
     rho_le (memo_get m) (memo_get m') /\
     (forall v w x, memo_get m' v = Some x -> memo_get m' w = Some x -> v = w) /\
     (forall v x, memo_get m' v = Some x -> memo_get m v = Some x \/ (lo <= x)%N)).
Proof.
  induction t as [nv|e| |s nv k IH]; intros lo m acc m' ts nv' Hr Hlo E; cbn [gather] in E; try easy.
  - inversion E; subst. exists [([], 0%N)], [], []. split; [now repeat constructor|]. split; [reflexivity|]. split; [now rewrite app_nil_r|].
    split; [reflexivity|]. intros _ _ HI. split; [constructor|]. split; [easy|]. split; [exact HI|]. auto.
  - destruct (find_step d p s nv (m, acc)) as [[x1 nv1]|] eqn:E1; [|easy]. pose proof (find_step_up _ _ _ _ _ _ _ E1) as Hup.
    unfold find_step in E1. cbn [fst snd] in E1. destruct (freeze d p s (m, nv)) as [r [m1 k1]] eqn:Ef.
    destruct r as [u|]; [|easy]. inversion E1; subst x1 k1. clear E1.
    cbn in Hr. destruct Hr as [R1 R2].
    pose proof (freeze_involved _ _ _ _ _ _ Ef) as Hinv. unfold fresh_memo in Hinv. cbn [fst] in Hinv.
    assert (Hlo1 : forall v x, memo_get m1 v = Some x -> (x < nv1)%N).
    { intros v x Hx. refine (freeze_below _ _ _ _ _ _ _ Ef v x Hx). clear v x Hx. intros v x Hx. cbn in *. apply Hlo in Hx. lia. }
    destruct (IH nv1 nv1 m1 (acc ++ [u]) m' ts nv' (R2 _ Hup) Hlo1 E) as (c & l & new & C1 & C2 & C3 & C4 & C5).
    exists (([], (nv1 - nv)%N) :: c), (s :: l), (u :: new).
    split; [now constructor|]. split.
    { cbn [take]. replace (nv + (nv1 - nv))%N with nv1 by lia. now rewrite C2. }
    split; [rewrite C3, <- app_assoc; reflexivity|]. split; [cbn; congruence|].
    intros HS HU HI. inversion HS as [|? ? HS1 HS2]; subst.
    destruct (freeze_inst L d s p _ _ _ Ef) as [[[I1 I2] (S1 & S2 & S3)] T].
    { split; cbn [fst snd]; [|exact HI]. intros v x Hx. split; [eapply HU; [exact Hx|now left]|]. apply Hlo in Hx. lia. }
    cbn [fst snd] in *. destruct (C5 HS2) as (D1 & D2 & D3 & D4); [|exact I2|].
    { intros v x s' Hx Hs'. destruct (Hinv v x Hx) as [Hm|[Hv Hn]]; [eapply HU; [exact Hm|now right]|].
      rewrite Forall_forall in HS1. eapply HS1; eassumption. }
    split; [constructor; [|exact D1]|].
    + eapply inst_mono; [exact D2|]. now apply T.
    + split; [intros v x Hx; apply D2, S1, Hx|]. split; [exact D3|].
      intros v x Hx. destruct (D4 v x Hx) as [H|H]; [|right; lia]. destruct (S3 v x H) as [H'|H']; [auto|right; lia].
Qed.

Theorem findall_answer (FR : Front) a i st W f pat goal x annots os ans : proper_db false (db_of a W) -> is_literal goal = true ->
  (exists n0, forall n, (n0 <= n)%nat -> fst (drive os n a i (GQ (QAct AFindall (TLit f [pat; goal; x] annots))) (st, W)) = (ans, Exhausted)) ->
  exists d p c l ts b st1,
    evaluate d pat (b_scope st) = Ok p /\
    Forall (fun p => fst p = []) c /\ take c (sols d (db_of a W) (QTerm goal) (b_scope st) (w_nv W)) = (l, Exhausted) /\
    List.length ts = List.length l /\
    (settled p l -> exists rho, Forall2 (fun s t => inst s rho p t) l ts /\
       (forall v w y, rho v = Some y -> rho w = Some y -> v = w) /\ (forall v y, rho v = Some y -> (w_nv W <= y)%N)) /\
    unify d (TTup ts) x (mkbst (b_scope st) [] 0) = (Ok b, st1) /\
    ans = (if b : bool then [b_scope st1] else []).
Proof.
  intros HD Hg H. apply (query_iff false) in H; [|cbn; now rewrite Hg|exact HD|discriminate|discriminate].
  destruct H as [d0 H]. specialize (H (S d0) ltac:(lia)). cbn [sols lit_args tres act_sols] in H.
  assert (HT : forall c e, take c (terr e) = (ans, Exhausted) -> False).
  { intros [|[? ?] c] e E; [discriminate E|]. destruct e; discriminate E. }
  destruct (evaluate d0 pat (b_scope st)) as [p|e] eqn:Ep; [|destruct (HT _ _ H)]. cbn [tres] in H.
  destruct (gather (find_step d0 p) (sols d0 (db_of a W) (QTerm goal) (b_scope st) (w_nv W)) ([], [])) as [[[m ts] nv']|e] eqn:Eg; [|destruct (HT _ _ H)].
  cbn [tres fst snd choices] in H.
  destruct (gather_find d0 p _ (w_nv W) [] [] m ts nv' (rising_every _ _ _ _ _) ltac:(cbn; intros ? ? E0; discriminate E0) Eg) as (c & l & new & C1 & C2 & C3 & C4 & C5).
  cbn in C3. subst new.
  destruct (unify d0 (TTup ts) x (mkbst (b_scope st) [] 0)) as [[b|e] st1] eqn:Eu; [|destruct (HT _ _ H)].
  exists d0, p, c, l, ts, b, st1. split; [exact Ep|]. split; [exact C1|]. split; [exact C2|]. split; [exact C4|]. split; [|split; [exact Eu|]].
  - intro HS. destruct (C5 HS ltac:(cbn; easy) ltac:(cbn; easy)) as (D1 & D2 & D3 & D4). exists (memo_get m). split; [exact D1|]. split; [exact D3|].
    intros v y Hy. destruct (D4 v y Hy) as [E|E]; [discriminate E|exact E].
  - destruct b; destruct os as [|[? ?] [|[? ?] os]]; cbn in H; inversion H; reflexivity.
Qed.

(** Conditions that are neither true nor false nor literals. *)
Theorem term_raises (FR : Front) a i t v d st W os k c : proper_db false (db_of a W) ->
  evaluate d t (b_scope st) = Ok v -> is_literal v = false -> is_bool v = false ->
  exists n0, forall n, (n0 <= n)%nat -> fst (drive ((os, k) :: c) n a i (GQ (QTerm t)) (st, W)) =
    ([], Raised (if unformattable v then EType else EAsl)).
Proof.
  intros HD Ev Hl Hb. apply (query_iff false); [reflexivity|exact HD|discriminate|destruct (unformattable v); discriminate|].
  exists (S d). intros d' Hd. destruct d' as [|d']; [lia|]. cbn [sols]. rewrite (evaluate_more d d' _ _ _ ltac:(lia) Ev). cbn [tres].
  destruct v as [|x|x|x|x| | | |l|]; try discriminate Hl; try discriminate Hb; try reflexivity. destruct l as [|? [|? ?]]; reflexivity.
Qed.
End WithPy.
