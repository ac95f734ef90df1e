(** Queries bind only the variables they involve. *)
From Verif Require Import Base Num Term Unify SetFacts TrailSpec TrailFacts FuelFacts AnnotFacts Str World Engine QuerySpec QueryFacts LogicFacts FrameSpec.

Section WithPy.
Context {PY : Py}.
Hypothesis L : PyLawful PY.
Variable P : N -> Prop.
Variable nv0 : N.
Hypothesis Pnew : forall v, (nv0 <= v)%N -> P v.

Definition pin (t : term) : Prop := Forall P (tvars t).
Definition cl (s : scope) : Prop := forall v t, lookup s v = Some t -> P v -> pin t.
Definition fr (s s' : scope) : Prop :=
  (forall v t, lookup s v = Some t -> lookup s' v = Some t) /\
  (forall v t, lookup s' v = Some t -> lookup s v = Some t \/ P v).

Lemma fr_refl s : fr s s.
Proof. split; auto. Qed.
Lemma fr_trans s1 s2 s3 : fr s1 s2 -> fr s2 s3 -> fr s1 s3.
Proof. intros [A B] [C D]. split; [auto|]. intros v t H. destruct (D v t H) as [H'|H']; auto. Qed.

Lemma pins ts : Forall P (flat_map tvars ts) <-> Forall pin ts.
Proof. apply Forall_flat. Qed.
Lemma pin_lit f args an : pin (TLit f args an) <-> Forall pin args /\ Forall pin an.
Proof. unfold pin at 1. cbn [tvars]. rewrite Forall_app, !pins. tauto. Qed.
Lemma pin_tup ts : pin (TTup ts) <-> Forall pin ts.
Proof. unfold pin at 1. cbn [tvars]. apply pins. Qed.
Lemma pin_ll h t : pin (TLL h t) <-> pin h /\ pin t.
Proof. unfold pin at 1. cbn [tvars]. rewrite Forall_app. tauto. Qed.
Lemma pin_un op t : pin (TUn op t) <-> pin t.
Proof. unfold pin at 1. cbn [tvars]. tauto. Qed.
Lemma pin_bin op h t : pin (TBin op h t) <-> pin h /\ pin t.
Proof. unfold pin at 1. cbn [tvars]. rewrite Forall_app. tauto. Qed.
Lemma pin_var v : pin (TVar v) <-> P v.
Proof. unfold pin. cbn [tvars]. split; [now inversion 1|now constructor]. Qed.
Lemma pin_plain t : tvars t = [] -> pin t.
Proof. unfold pin. intros ->. constructor. Qed.

Lemma deref_loop_pin n : forall t s u, cl s -> pin t -> deref_loop n t s = Ok u -> pin u.
Proof.
  induction n as [|n IH]; intros t s u Hs Ht E; destruct t; cbn in E;
    try (inversion E; subst; assumption); destruct (lookup s v) eqn:Ev; try easy; try (inversion E; subst; assumption).
  eapply IH; [exact Hs| |exact E]. eapply Hs; [exact Ev|]. now apply pin_var.
Qed.
Lemma deref_pin t s u : cl s -> pin t -> deref t s = Ok u -> pin u.
Proof. apply deref_loop_pin. Qed.

Lemma unop_pin op v u : eval_unop op v = Ok u -> pin u.
Proof. unfold eval_unop. destruct op, v; try easy; intro E; inversion E; subst; now apply pin_plain. Qed.
Lemma binop_pin op l r u : eval_binop op l r = Ok u -> pin u.
Proof.
  unfold eval_binop, rmap. intro E. destruct op.
  all: repeat match type of E with match ?x with _ => _ end = _ => destruct x; try easy end; inversion E; subst; now apply pin_plain.
Qed.

Lemma evaluate_pin n : forall s t v, cl s -> pin t -> evaluate n t s = Ok v -> pin v.
Proof.
  induction n as [|n IH]; intros s t v Hs Ht E; [easy|]. rewrite evaluate_S in E.
  destruct t; try (inversion E; subst; assumption).
  - destruct (bound s v0); [|inversion E; subst; assumption].
    destruct (deref (TVar v0) s) eqn:Ed; [|easy]. eapply IH; [exact Hs| |exact E]. eapply deref_pin; eassumption.
  - destruct (evaluate n t s); [|easy]. eapply unop_pin; exact E.
  - destruct (evaluate n t1 s); [|easy]. destruct (evaluate n t2 s); [|easy]. destruct (is_comp op).
    + destruct (grounded n _ s); [|easy]. destruct (grounded n _ s); [|easy]. eapply binop_pin; exact E.
    + eapply binop_pin; exact E.
Qed.

Lemma rmapl_pin (f : term -> res term) ts : forall us, (forall t u, pin t -> f t = Ok u -> pin u) -> Forall pin ts ->
  rmapl f ts = Ok us -> Forall pin us.
Proof.
  induction ts as [|t ts IH]; intros us Hf Ht E; cbn in E; [inversion E; constructor|]. inversion Ht; subst.
  destruct (f t) as [u|] eqn:Eu; [|easy]. destruct (rmapl f ts) as [us'|]; [|easy]. inversion E; subst.
  constructor; [eapply Hf; eassumption|now apply IH].
Qed.

Lemma grounded_pin n : forall s t v, cl s -> pin t -> grounded n t s = Ok v -> pin v.
Proof.
  induction n as [|n IH]; intros s t v Hs Ht E; [easy|]. rewrite grounded_S in E.
  destruct t; try easy; try (inversion E; subst; assumption).
  - destruct (bound s v0); [|easy].
    destruct (deref (TVar v0) s) eqn:Ed; [|easy]. eapply IH; [exact Hs| |exact E]. eapply deref_pin; eassumption.
  - destruct (evaluate n (TUn op t) s) eqn:Ee; [|easy]. eapply IH; [exact Hs| |exact E]. eapply evaluate_pin; eassumption.
  - destruct (evaluate n (TBin op t1 t2) s) eqn:Ee; [|easy]. eapply IH; [exact Hs| |exact E]. eapply evaluate_pin; eassumption.
  - apply pin_lit in Ht as [H1 H2]. destruct (rmapl _ args) as [a1|] eqn:E1; [|easy]. destruct (rmapl _ annots) as [a2|] eqn:E2; [|easy].
    inversion E; subst. apply pin_lit. split.
    + eapply rmapl_pin; [|exact H1|exact E1]. intros; eapply IH; eassumption.
    + apply mk_set_Forall; [exact L|]. eapply rmapl_pin; [|exact H2|exact E2]. intros; eapply IH; eassumption.
  - apply pin_tup in Ht. unfold rmap in E. destruct (rmapl _ ts) as [a1|] eqn:E1; [|easy]. inversion E; subst. apply pin_tup.
    eapply rmapl_pin; [|exact Ht|exact E1]. intros; eapply IH; eassumption.
  - apply pin_ll in Ht as [H1 H2]. destruct (grounded n t1 s) eqn:E1; [|easy]. destruct (grounded n t2 s) eqn:E2; [|easy].
    inversion E; subst. apply pin_ll. split; [eapply IH; [exact Hs|exact H1|exact E1]|eapply IH; [exact Hs|exact H2|exact E2]].
Qed.

(** ** Freezing *)
Definition mok (m : fst_) : Prop := (forall v x, memo_get (fst m) v = Some x -> P x) /\ (nv0 <= snd m)%N.

Lemma smapl_pin {A} (f : A -> fst_ -> res term * fst_) ts : forall m r m', (forall t m r m', mok m -> f t m = (r, m') ->
    mok m' /\ forall u, r = Ok u -> pin u) -> mok m -> smapl f ts m = (r, m') -> mok m' /\ forall us, r = Ok us -> Forall pin us.
Proof.
  induction ts as [|t ts IH]; intros m r m' Hf Hm E; cbn in E.
  - inversion E; subst. split; [assumption|]. intros us E'; inversion E'; constructor.
  - destruct (f t m) as [r1 m1] eqn:E1. destruct (Hf _ _ _ _ Hm E1) as [M1 P1].
    destruct r1 as [u|]; [|inversion E; subst; split; [assumption|easy]].
    destruct (smapl f ts m1) as [r2 m2] eqn:E2. destruct (IH _ _ _ Hf M1 E2) as [M2 P2].
    destruct r2 as [us|]; inversion E; subst; (split; [assumption|]); [|easy].
    intros us' E'; inversion E'; subst. constructor; auto.
Qed.

Lemma freeze_pin n : forall s t m r m', mok m -> freeze n t s m = (r, m') -> mok m' /\ forall u, r = Ok u -> pin u.
Proof.
  induction n as [|n IH]; intros s t m r m' Hm E; [inversion E; subst; split; [assumption|easy]|]. rewrite freeze_S in E.
  assert (Hp : forall t', tvars t' = [] -> (Ok t', m) = (r, m') -> mok m' /\ forall u, r = Ok u -> pin u).
  { intros t' Ht E'. inversion E'; subst. split; [assumption|]. intros u Eu; inversion Eu; subst. now apply pin_plain. }
  assert (He : forall e, (Err e, m) = (r, m') -> mok m' /\ forall u, r = Ok u -> pin u).
  { intros e E'. inversion E'; subst. split; [assumption|easy]. }
  destruct t; try (eapply Hp; [|exact E]; reflexivity).
  - destruct (memo_get (fst m) v) eqn:Em.
    + inversion E; subst. split; [assumption|]. intros u Eu; inversion Eu; subst. apply pin_var. eapply Hm; exact Em.
    + destruct (bound s v).
      * destruct (deref (TVar v) s) eqn:Ed; [|eapply He; exact E]. eapply IH; eassumption.
      * inversion E; subst. split.
        -- destruct Hm as [M1 M2]. split; [|cbn; lia]. intros w x. cbn. destruct (N.eqb w v); [|apply M1].
           intro Ex; inversion Ex; subst. now apply Pnew.
        -- intros u Eu; inversion Eu; subst. apply pin_var, Pnew, Hm.
  - destruct (evaluate n (TUn op t) s); [|eapply He; exact E]. eapply IH; eassumption.
  - destruct (evaluate n (TBin op t1 t2) s); [|eapply He; exact E]. eapply IH; eassumption.
  - destruct (smapl _ args m) as [r1 m1] eqn:E1. destruct (smapl_pin _ _ _ _ _ (fun t => IH s t) Hm E1) as [M1 P1].
    destruct r1 as [a1|]; [|inversion E; subst; split; [assumption|easy]].
    destruct (smapl _ annots m1) as [r2 m2] eqn:E2. destruct (smapl_pin _ _ _ _ _ (fun t => IH s t) M1 E2) as [M2 P2].
    destruct r2 as [a2|]; inversion E; subst; (split; [assumption|]); [|easy].
    intros u Eu; inversion Eu; subst. apply pin_lit. split; [auto|]. apply mk_set_Forall; [exact L|auto].
  - destruct (smapl _ ts m) as [r1 m1] eqn:E1. destruct (smapl_pin _ _ _ _ _ (fun t => IH s t) Hm E1) as [M1 P1].
    destruct r1 as [a1|]; inversion E; subst; (split; [assumption|]); [|easy].
    intros u Eu; inversion Eu; subst. apply pin_tup. auto.
  - destruct (freeze n t1 s m) as [r1 m1] eqn:E1. destruct (IH _ _ _ _ _ Hm E1) as [M1 P1].
    destruct r1 as [a1|]; [|inversion E; subst; split; [assumption|easy]].
    destruct (freeze n t2 s m1) as [r2 m2] eqn:E2. destruct (IH _ _ _ _ _ M1 E2) as [M2 P2].
    destruct r2 as [a2|]; inversion E; subst; (split; [assumption|]); [|easy].
    intros u Eu; inversion Eu; subst. apply pin_ll. auto.
Qed.

(** ** Unification *)
Definition frs (st st' : bst) : Prop := fr (b_scope st) (b_scope st') /\ cl (b_scope st').
Definition ufr (u : term -> term -> bst -> res bool * bst) : Prop :=
  forall l r st x st', u l r st = (x, st') -> pin l -> pin r -> cl (b_scope st) -> frs st st'.

Lemma frs_trans a b c : frs a b -> frs b c -> frs a c.
Proof. intros [A B] [C D]. split; [eapply fr_trans; eassumption|assumption]. Qed.

Lemma all_unify_fr u : ufr u -> forall ls rs st x st', all_unify u ls rs st = (x, st') ->
  Forall pin ls -> Forall pin rs -> cl (b_scope st) -> frs st st'.
Proof.
  intros Hu ls. induction ls as [|l ls IH]; intros rs st x st' E Hl Hr Hi; cbn in E.
  - inversion E; subst. split; [apply fr_refl|apply Hi].
  - destruct rs as [|r rs]; [inversion E; subst; split; [apply fr_refl|apply Hi]|]. inversion Hl; inversion Hr; subst.
    destruct (u l r st) as [y st1] eqn:E1. assert (S1 : frs st st1) by (eapply Hu; eassumption).
    destruct y as [[]|]; try (inversion E; subst; assumption).
    eapply frs_trans; [exact S1|]. eapply IH; try eassumption. apply S1.
Qed.

Lemma bind_fr v t st x st' : bind v t st = (x, st') -> P v -> pin t -> cl (b_scope st) -> frs st st'.
Proof.
  intros E Hv Ht Hs. unfold bind in E.
  assert (HB : (if bound (b_scope st) v then (Err ERuntime, st)
         else (Ok tt, mkbst ((v, t) :: b_scope st) (EVar v :: b_stack st) (b_ncp st))) = (x, st') -> frs st st').
  { intro E'. destruct (bound (b_scope st) v) eqn:Eb; inversion E'; subst; [split; [apply fr_refl|assumption]|].
    unfold bound in Eb. split; [split|]; cbn [b_scope].
    - intros w u Hw. cbn. destruct (N.eqb_spec w v); [|assumption]. subst w. now rewrite Hw in Eb.
    - intros w u Hw. cbn in Hw. destruct (N.eqb_spec w v); [subst; now right|now left].
    - intros w u Hw Hp. cbn in Hw. destruct (N.eqb_spec w v); [inversion Hw; subst; auto|]. eapply Hs; eassumption. }
  assert (Hid : st = st' -> frs st st') by (intros <-; split; [apply fr_refl|assumption]).
  destruct t; try (apply HB; exact E). destruct (N.eqb v v0); [inversion E; subst; now apply Hid|apply HB; exact E].
Qed.

Lemma unify_fr n : ufr (unify n).
Proof.
  induction n as [|n IH]; intros l r st x st' E Hl Hr Hi; [inversion E; subst; split; [apply fr_refl|apply Hi]|].
  assert (Hid : forall y : res bool, (y, st) = (x, st') -> frs st st') by (intros y Ey; inversion Ey; subst; split; [apply fr_refl|apply Hi]).
  rewrite unify_S in E.
  assert (Hpair : forall h t h' t', match unify n h h' st with (Ok true, st1) => unify n t t' st1 | y => y end = (x, st') ->
     pin h -> pin t -> pin h' -> pin t' -> frs st st').
  { intros h t h' t' Ep P1 P2 P3 P4. destruct (unify n h h' st) as [y st1] eqn:E1.
    assert (S1 : frs st st1) by (eapply IH; eassumption).
    destruct y as [[]|]; try (inversion Ep; subst; assumption).
    eapply frs_trans; [exact S1|]. eapply IH; [exact Ep|assumption|assumption|apply S1]. }
  assert (Hsc : (if has_unify r then unify n r l st
          else
            match l, r with
            | TBool b, TBool b' => (Ok (Bool.eqb b b'), st)
            | TBool _, _ | _, TBool _ => (Ok false, st)
            | TTup ls, TTup rs =>
                if Nat.eqb (List.length ls) (List.length rs)
                then all_unify (unify n) ls rs st
                else (Ok false, st)
            | _, _ => (Ok (py_eqb l r), st)
            end) = (x, st') -> frs st st').
  { intro E'. destruct (has_unify r); [eapply IH; eassumption|].
    destruct l; try (destruct r; eapply Hid; exact E').
    destruct r; try (eapply Hid; exact E'). destruct (Nat.eqb _ _); [|eapply Hid; exact E'].
    eapply all_unify_fr; [exact IH|exact E'|now apply pin_tup|now apply pin_tup|assumption]. }
  destruct l.
  - apply Hsc. exact E.
  - apply Hsc. exact E.
  - apply Hsc. exact E.
  - destruct (bound (b_scope st) v) eqn:Eb.
    + destruct (deref (TVar v) (b_scope st)) as [l'|] eqn:Ed; [|eapply Hid; exact E].
      eapply IH; [exact E| |assumption|assumption]. eapply deref_pin; [apply Hi|exact Hl|exact Ed].
    + assert (Hev : match evaluate n r (b_scope st) with
                | Err e => (Err e, st)
                | Ok r' =>
                    match bind v r' st with
                    | (Ok _, st') => (Ok true, st')
                    | (Err e, st') => (Err e, st')
                    end
                end = (x, st') -> frs st st').
      { intro E'. destruct (evaluate n r (b_scope st)) as [r'|] eqn:Er; [|eapply Hid; exact E'].
        destruct (bind v r' st) as [y st1] eqn:Ebd.
        assert (st1 = st') by (destruct y; inversion E'; reflexivity). subst st1.
        eapply bind_fr; [exact Ebd|now apply pin_var| |apply Hi].
        eapply evaluate_pin; [|exact Hr|exact Er]; apply Hi. }
      destruct r; try (apply Hev; exact E). eapply Hid; exact E.
  - eapply Hid; exact E.
  - destruct (evaluate n (TUn op l) (b_scope st)) as [l'|] eqn:El; [|eapply Hid; exact E].
    eapply IH; [exact E| |assumption|assumption]. eapply evaluate_pin; [|exact Hl|exact El]; assumption.
  - destruct (evaluate n (TBin op l1 l2) (b_scope st)) as [l'|] eqn:El; [|eapply Hid; exact E].
    eapply IH; [exact E| |assumption|assumption]. eapply evaluate_pin; [|exact Hl|exact El]; assumption.
  - destruct (evaluate n r (b_scope st)) as [r'|] eqn:Er; [|eapply Hid; exact E].
    assert (Hr' : pin r') by (eapply evaluate_pin; [|exact Hr|exact Er]; apply Hi).
    destruct r'; try (eapply Hid; exact E); try (eapply IH; [exact E|assumption|assumption|assumption]).
    destruct (_ && _); [|eapply Hid; exact E].
    apply pin_lit in Hl as [Hl _]. apply pin_lit in Hr' as [Hr' _].
    eapply all_unify_fr; [exact IH|exact E|exact Hl|exact Hr'|assumption].
  - apply Hsc. exact E.
  - destruct (evaluate n r (b_scope st)) as [r'|] eqn:Er; [|eapply Hid; exact E].
    assert (Hr' : pin r') by (eapply evaluate_pin; [|exact Hr|exact Er]; apply Hi).
    pose proof (proj1 (pin_ll _ _) Hl) as [P1 P2].
    destruct r'; try (eapply Hid; exact E); try (eapply IH; [exact E|assumption|assumption|assumption]).
    + destruct ts as [|y ys]; [eapply Hid; exact E|].
      apply pin_tup in Hr'. inversion Hr'; subst.
      eapply Hpair; [exact E|assumption|assumption|assumption|now apply pin_tup].
    + apply pin_ll in Hr' as [P3 P4]. eapply Hpair; [exact E| | | |]; assumption.
Qed.

Lemma unify_frames n l r st x st' : unify n l r st = (x, st') -> pin l /\ pin r /\ cl (b_scope st) -> frs st st'.
Proof. intros E (A & B & C). eapply unify_fr; eassumption. Qed.

Definition afr (u : term -> term -> bst -> res (option N) * bst) : Prop :=
  forall l r st o st', u l r st = (Ok o, st') -> pin l -> pin r -> cl (b_scope st) -> frs st st'.

Lemma annot_find_fr u la ras closed : afr u -> pin la -> Forall pin ras -> forall st o st', annot_find u la ras closed st = (Ok o, st') ->
  cl (b_scope st) -> frs st st'.
Proof.
  intros Hu Hl. induction ras as [|ra ras IH]; intros Hr st o st' E Hi; cbn in E.
  - inversion E; subst. split; [apply fr_refl|assumption].
  - inversion Hr; subst. destruct (py_in ra closed); [now eapply IH; eassumption|].
    destruct (u la ra st) as [[[c|]|] st1] eqn:E1; [| |easy].
    + inversion E; subst. eapply Hu; eassumption.
    + assert (S1 : frs st st1) by (eapply Hu; eassumption). eapply frs_trans; [exact S1|]. eapply IH; try eassumption. apply S1.
Qed.
Lemma annots_match_fr u ras : afr u -> Forall pin ras -> forall las closed st b st', annots_match u las ras closed st = (Ok b, st') ->
  Forall pin las -> cl (b_scope st) -> frs st st'.
Proof.
  intros Hu Hr. induction las as [|la las IH]; intros closed st b st' E Hl Hi; cbn in E.
  - inversion E; subst. split; [apply fr_refl|assumption].
  - inversion Hl; subst. destruct (annot_find u la ras closed st) as [[o|] st1] eqn:E1; [|easy].
    assert (S1 : frs st st1) by (eapply annot_find_fr; [exact Hu| |exact Hr|exact E1|exact Hi]; assumption).
    destruct o as [ra|]; [|inversion E; subst; assumption]. eapply frs_trans; [exact S1|]. eapply IH; try eassumption. apply S1.
Qed.

Lemma uann_fr n : afr (uann n).
Proof.
  induction n as [|n IH]; intros l r st o st' E Hl Hr Hi; [easy|].
  destruct o as [cp|].
  2: { apply uann_none_exact in E as [E _]. split; rewrite E; [apply fr_refl|assumption]. }
  rewrite uann_S in E.
  assert (Hd : forall l', pin l' -> (let '(cp, st0) := new_cp st in
          match unify n l' r (push_cp cp st0) with
          | (Err e, st1) => (Err e, st1)
          | (Ok true, st1) => (Ok (Some cp), st1)
          | (Ok false, st1) => (Ok None, reroll st1 cp)
          end) = (Ok (Some cp), st') -> frs st st').
  { intros l' Hl' E'. cbn [new_cp] in E'. destruct (unify n l' r _) as [y st1] eqn:E1. eapply unify_frames in E1; [|repeat split; assumption].
    destruct y as [[]|]; inversion E'; subst. exact E1. }
  destruct l; try (eapply Hd; [|exact E]; assumption). clear Hd.
  destruct (evaluate n r (b_scope st)) as [r'|] eqn:Er; [|easy].
  assert (Hr' : pin r') by (eapply evaluate_pin; [|exact Hr|exact Er]; assumption). cbn [new_cp] in E.
  assert (Hd : match unify n (TLit f args annots) r' (push_cp (b_ncp st) (mkbst (b_scope st) (b_stack st) (N.succ (b_ncp st)))) with
                  | (Err e, st1) => (Err e, st1)
                  | (Ok false, st1) => (Ok None, reroll st1 (b_ncp st))
                  | (Ok true, st1) =>
                      match annots_match (uann n) annots (lit_annots r') [] st1 with
                      | (Err e, st2) => (Err e, st2)
                      | (Ok false, st2) => (Ok None, reroll st2 (b_ncp st))
                      | (Ok true, st2) => (Ok (Some (b_ncp st)), st2)
                      end
                  end = (Ok (Some cp), st') -> frs st st').
  { intro E'. destruct (unify n _ r' _) as [y st1] eqn:E1. eapply unify_frames in E1; [|repeat split; assumption].
    destruct y as [[]|]; try easy. destruct (annots_match _ _ _ _ _) as [z st2] eqn:E2. destruct z as [[]|]; inversion E'; subst.
    assert (Ha : Forall pin (lit_annots r')) by (destruct r'; cbn [lit_annots]; try constructor; now apply pin_lit in Hr').
    apply pin_lit in Hl as [_ Hl]. eapply frs_trans; [exact E1|]. eapply annots_match_fr; try eassumption. apply E1. }
  assert (Hv : match unify n r' (TLit f args annots) (mkbst (b_scope st) (b_stack st) (N.succ (b_ncp st))) with
                  | (Err e, st1) => (Err e, st1)
                  | (Ok true, st1) => (Ok (Some (b_ncp st)), st1)
                  | (Ok false, st1) => (Ok None, reroll st1 (b_ncp st))
                  end = (Ok (Some cp), st') -> frs st st').
  { intro E'. destruct (unify n r' _ _) as [y st1] eqn:E1. eapply unify_frames in E1; [|repeat split; assumption].
    destruct y as [[]|]; inversion E'; subst. exact E1. }
  destruct r'; first [apply Hd; exact E|apply Hv; exact E].
Qed.

Lemma uann_frames n l r st o st' : uann n l r st = (Ok o, st') -> pin l /\ pin r /\ cl (b_scope st) -> frs st st'.
Proof. intros E (A & B & C). eapply uann_fr; eassumption. Qed.

(** ** Traces *)
Fixpoint framed (s : scope) (t : trace) : Prop :=
  match t with
  | TEnd nv => (nv0 <= nv)%N
  | TSol s' nv k => (nv0 <= nv)%N /\ fr s s' /\ cl s' /\ forall nv', (nv0 <= nv')%N -> framed s (k nv')
  | _ => True
  end.

Lemma framed_append s t f : framed s t -> (forall nv, (nv0 <= nv)%N -> framed s (f nv)) -> framed s (append t f).
Proof. intros Ht Hf. induction t as [nv|e| |s' nv k IH]; cbn in *; auto. destruct Ht as (A & B & C & D). auto 10. Qed.
Lemma framed_trans s s' t : fr s s' -> framed s' t -> framed s t.
Proof.
  intros H. induction t as [nv|e| |s2 nv k IH]; cbn; auto. intros (A & B & C & D). split; [assumption|].
  split; [eapply fr_trans; eassumption|]. auto.
Qed.
Lemma framed_bind s t f : framed s t -> (forall s' nv, cl s' -> (nv0 <= nv)%N -> framed s' (f s' nv)) -> framed s (bindt t f).
Proof.
  intros Ht Hf. induction t as [nv|e| |s' nv k IH]; cbn in *; auto. destruct Ht as (A & B & C & D).
  apply framed_append; [|auto]. eapply framed_trans; [exact B|]. auto.
Qed.
Lemma framed_one s nv : cl s -> (nv0 <= nv)%N -> framed s (one s nv).
Proof. intros. cbn. repeat split; auto; apply fr_refl. Qed.
Lemma framed_neg s t : cl s -> framed s t -> framed s (negt t s).
Proof. intros Hs Ht. destruct t; cbn in *; auto; [|tauto]. repeat split; auto; apply fr_refl. Qed.
Lemma framed_terr s e : framed s (terr e).
Proof. now destruct e. Qed.
Lemma framed_tres {A} s (r : res A) f : (forall x, r = Ok x -> framed s (f x)) -> framed s (tres r f).
Proof. intros H. destruct r; cbn; [now apply H|apply framed_terr]. Qed.

Lemma gather_inv {S} s (step : scope -> N -> S -> res (S * N)) (I : S -> Prop) t : framed s t ->
  (forall s' nv x x' nv', cl s' -> (nv0 <= nv)%N -> I x -> step s' nv x = Ok (x', nv') -> I x' /\ (nv0 <= nv')%N) ->
  forall x x' nv', I x -> gather step t x = Ok (x', nv') -> I x' /\ (nv0 <= nv')%N.
Proof.
  intros Ht Hs. induction t as [nv|e| |s' nv k IH]; intros x x' nv' Hx E; cbn in *; try easy.
  - inversion E; subst. auto.
  - destruct Ht as (A & B & C & D). destruct (step s' nv x) as [[x1 nv1]|] eqn:E1; [|easy].
    destruct (Hs _ _ _ _ _ C A Hx E1) as [I1 N1]. eapply IH; eauto.
Qed.

Lemma framed_matches d l cands s : pin l -> Forall pin cands -> cl s -> forall nv, (nv0 <= nv)%N -> framed s (matches d l cands s nv).
Proof.
  intros Hl Hc Hs. induction Hc as [|b cands Hb Hc IH]; intros nv Hn; cbn [matches]; [exact Hn|].
  destruct (uann d l b (mkbst s [] 0)) as [[[cp|]|e] st] eqn:E; [| |apply framed_terr].
  - eapply uann_frames in E; [|repeat split; assumption]. destruct E as [E1 E2]. cbn. repeat split; auto; apply E1.
  - now apply IH.
Qed.
Lemma framed_choices d l cands fin s : pin l -> Forall pin cands -> cl s -> forall nv, (nv0 <= nv)%N -> framed s (choices d l cands fin s nv).
Proof.
  intros Hl Hc Hs. induction Hc as [|b cands Hb Hc IH]; intros nv Hn; cbn [choices]; [now destruct fin|].
  destruct (unify d l b (mkbst s [] 0)) as [[[]|e] st] eqn:E; [| |apply framed_terr].
  - eapply unify_frames in E; [|repeat split; assumption]. destruct E as [E1 E2]. cbn. repeat split; auto; apply E1.
  - now apply IH.
Qed.

Lemma rename_pin m t : (forall v, In v (tvars t) -> exists x, memo_get m v = Some x /\ P x) -> pin (rename m t).
Proof.
  assert (HL : forall ts, Forall (fun t => (forall v, In v (tvars t) -> exists x, memo_get m v = Some x /\ P x) -> pin (rename m t)) ts ->
    (forall v, In v (flat_map tvars ts) -> exists x, memo_get m v = Some x /\ P x) -> Forall pin (map (rename m) ts)).
  { intros ts H Hv. apply Forall_forall. intros u Hu. apply in_map_iff in Hu as (t0 & <- & Ht0). rewrite Forall_forall in H.
    apply H; [assumption|]. intros v Hin. apply Hv. apply in_flat_map. eauto. }
  induction t using term_ind'; intros Hv; cbn [rename tvars] in *; try (now apply pin_plain).
  - destruct (Hv v (or_introl eq_refl)) as (x & -> & Hx). now apply pin_var.
  - apply pin_un. auto.
  - apply pin_bin. split; [apply IHt1|apply IHt2]; intros; apply Hv, in_or_app; auto.
  - apply pin_lit. split; [|apply mk_set_Forall; [exact L|]]; apply HL; auto; intros; apply Hv, in_or_app; auto.
  - apply pin_tup. now apply HL.
  - apply pin_ll. split; [apply IHt1|apply IHt2]; intros; apply Hv, in_or_app; auto.
Qed.
Definition qpin (q : query) : Prop := Forall P (qvars q).
Lemma qrename_pin m q : (forall v, In v (qvars q) -> exists x, memo_get m v = Some x /\ P x) -> qpin (qrename m q).
Proof.
  unfold qpin. induction q; intro Hv; cbn [qrename qvars] in *; try constructor; rewrite ?Forall_app.
  all: try (apply rename_pin; assumption); auto.
  all: split; first [apply rename_pin|apply IHq1|apply IHq2]; intros; apply Hv, in_or_app; auto.
Qed.

Lemma copy_rule_pin r nv c nv1 : (nv0 <= nv)%N -> copy_rule r nv = (c, nv1) -> pin (r_head c) /\ qpin (r_query c) /\ (nv0 <= nv1)%N.
Proof.
  intros Hn E. unfold copy_rule in E. destruct (number _ [] nv) as [m k'] eqn:En. inversion E; subst. cbn [r_head r_query].
  apply (number_spec _ _ nv) in En as ((_ & A & _) & B & _ & C); [|split; [lia|split; easy]].
  assert (H : forall v, In v (tvars (r_head r) ++ qvars (r_query r)) -> exists x, memo_get m v = Some x /\ P x).
  { intros v Hv. destruct (C v Hv) as [x Hx]. exists x. split; [assumption|]. apply Pnew. apply A in Hx. lia. }
  split; [|split; [|lia]].
  - apply rename_pin. intros v Hv. apply H, in_or_app. auto.
  - apply qrename_pin. intros v Hv. apply H, in_or_app. auto.
Qed.

Lemma framed_clauses b d solve goal rs : (forall q s nv, proper b q = true -> qpin q -> cl s -> (nv0 <= nv)%N -> framed s (solve q s nv)) ->
  pin goal -> Forall (fun r => proper b (r_query r) = true) rs -> forall s nv, cl s -> (nv0 <= nv)%N ->
  framed s (clauses d solve goal rs s nv).
Proof.
  intros Hsol Hg Hr. induction Hr as [|r rs Hr Hrs IH]; intros s nv Hs Hn; cbn [clauses]; [exact Hn|].
  destruct (copy_rule r nv) as [c nv1] eqn:Ec. pose proof (copy_rule_pin _ _ _ _ Hn Ec) as (C1 & C2 & C3).
  rewrite <- (proper_copy b r nv c nv1 Ec) in Hr.
  destruct (unify d goal (r_head c) (mkbst s [] 0)) as [[[]|e] st] eqn:E; [| |apply framed_terr].
  - eapply unify_frames in E; [|repeat split; assumption]. destruct E as [E1 E2]. cbn [b_scope] in E1. apply framed_append; [|intros; now apply IH].
    eapply framed_trans; [exact E1|]. now apply Hsol.
  - now apply IH.
Qed.

(** ** Actions *)
Lemma iter_items_pin t : pin t -> Forall pin (fst (iter_items t)).
Proof.
  induction t using term_ind'; intro Ht; cbn [iter_items fst]; try constructor.
  - apply Forall_forall. intros x Hx. apply in_map_iff in Hx as (c & <- & _). now apply pin_plain.
  - now apply pin_tup.
  - apply pin_ll in Ht as [H1 H2]. destruct (iter_items t2) as [xs e]. cbn in *. constructor; auto.
Qed.
Lemma convert_pin sp t u : pin t -> convert sp t = Ok u -> pin u.
Proof.
  intros Ht. unfold convert, rmap. destruct sp; intro E.
  all: try (inversion E; subst; assumption).
  all: try (inversion E; subst; now apply pin_plain).
  - destruct (to_int t); inversion E; subst; now apply pin_plain.
  - destruct (to_flt t); inversion E; subst; now apply pin_plain.
  - unfold to_tuple in E. pose proof (iter_items_pin t Ht) as H. destruct (iter_items t) as [xs [e|]]; inversion E; subst. now apply pin_tup.
Qed.
Lemma zip_specs_pin d specs : forall args s m r m', mok m -> zip_specs d specs args s m = (r, m') -> mok m' /\ forall us, r = Ok us -> Forall pin us.
Proof.
  induction specs as [|sp specs IH]; intros args s m r m' Hm E; cbn [zip_specs] in E.
  - inversion E; subst. split; [assumption|]. intros us E'; inversion E'; constructor.
  - assert (Hc : match args with
          | [] => (Err ERuntime, m)
          | t :: args' =>
              match freeze d t s m with
              | (Err e, m1) => (Err e, m1)
              | (Ok f, m1) =>
                  match convert sp f with
                  | Err e => (Err e, m1)
                  | Ok v =>
                      match zip_specs d specs args' s m1 with
                      | (Err e, m2) => (Err e, m2)
                      | (Ok vs, m2) => (Ok (v :: vs), m2)
                      end
                  end
              end
          end = (r, m') -> mok m' /\ forall us, r = Ok us -> Forall pin us).
    { intro E'. destruct args as [|t args]; [inversion E'; subst; split; [assumption|easy]|].
      destruct (freeze d t s m) as [r1 m1] eqn:E1. destruct (freeze_pin _ _ _ _ _ _ Hm E1) as [M1 P1].
      destruct r1 as [f|]; [|inversion E'; subst; split; [assumption|easy]].
      destruct (convert sp f) as [v|] eqn:Ev; [|inversion E'; subst; split; [assumption|easy]].
      destruct (zip_specs d specs args s m1) as [r2 m2] eqn:E2. destruct (IH _ _ _ _ _ M1 E2) as [M2 P2].
      destruct r2 as [vs|]; inversion E'; subst; (split; [assumption|]); [|easy].
      intros us Eu; inversion Eu; subst. constructor; [|auto]. eapply convert_pin; [|exact Ev]. auto. }
    destruct sp; try (apply Hc; exact E); now eapply IH; eassumption.
Qed.

Lemma select_pin c l : forall best u, pin best -> Forall pin l -> select c best l = Ok u -> pin u.
Proof.
  induction l as [|x l IH]; intros best u Hb Hl E; cbn in E; [inversion E; subst; assumption|]. inversion Hl; subst.
  destruct (py_ord c x best) as [[]|]; [| |easy]; (eapply IH; [| |exact E]; assumption).
Qed.
Lemma insert_pin x l : pin x -> Forall pin l -> Forall pin (insert_sorted x l).
Proof. intros Hx Hl. induction Hl; cbn; [auto|]. destruct (lt_yes _ _); auto. Qed.
Lemma min_pin l u : Forall pin l -> py_min l = Ok u -> pin u.
Proof. intros Hl E. destruct Hl; [easy|]. eapply select_pin; [| |exact E]; assumption. Qed.
Lemma max_pin l u : Forall pin l -> py_max l = Ok u -> pin u.
Proof. intros Hl E. destruct Hl; [easy|]. eapply select_pin; [| |exact E]; assumption. Qed.
Lemma sorted_pin l u : Forall pin l -> py_sorted l = Ok u -> Forall pin u.
Proof.
  intros Hl E. unfold py_sorted in E. destruct (Nat.leb _ _); [inversion E; subst; assumption|].
  destruct (forallb _ _); [|easy]. inversion E; subst. clear E. induction Hl; cbn [fold_right]; [constructor|]. now apply insert_pin.
Qed.
Lemma fn_apply_pin f k args u : match f with FOpaque _ => False | _ => True end -> Forall pin args -> fn_apply f k args = Ok u -> pin u.
Proof.
  intros Hf Ha E.
  assert (H1 : forall t l, args = t :: l -> pin t) by (intros t l ->; now inversion Ha).
  assert (HN : forall r : res Z, rmap (fun z => TNum (NInt z)) r = Ok u -> pin u).
  { intros r Er. destruct r; inversion Er; subst. now apply pin_plain. }
  destruct f; try easy; cbn [fn_apply] in E; destruct args as [|x args]; try easy.
  - destruct x; try easy. destruct args; try easy. eapply min_pin; [|exact E]. apply pin_tup. now eapply H1.
  - destruct x; try easy. destruct args; try easy. eapply max_pin; [|exact E]. apply pin_tup. now eapply H1.
  - destruct args; try easy. eapply HN; exact E.
  - destruct x as [| [z|] | | | | | | | |]; try easy. destruct args as [|y [|]]; try easy; destruct y; try easy.
    destruct (z <? 0)%Z; [easy|]. destruct (nth_error ts (Z.to_nat z)) eqn:En; [|easy]. inversion E; subst.
    apply nth_error_In in En. inversion Ha as [|? ? _ Ha']; subst. inversion Ha' as [|? ? Hp _]; subst. apply pin_tup in Hp.
    rewrite Forall_forall in Hp. auto.
  - destruct x; try easy. destruct args; try easy. unfold rmap in E. destruct (py_sorted ts) eqn:Es; [|easy]. inversion E; subst.
    apply pin_tup. eapply sorted_pin; [|exact Es]. apply pin_tup. now eapply H1.
  - destruct x; try easy. destruct args; try easy. inversion E; subst. apply pin_tup.
    pose proof (H1 _ _ eq_refl) as Hp. apply pin_tup in Hp. destruct Hp; cbn; [constructor|assumption].
  - destruct x as [| [|] | | | | | | | |]; try easy. destruct args; try easy. eapply HN; exact E.
  - destruct x as [| [|] | | | | | | | |]; try easy. destruct args; try easy. eapply HN; exact E.
  - destruct x as [| [|] | | | | | | | |]; try easy. destruct args; try easy. eapply HN; exact E.
Qed.

Lemma all_tuples_pin vs : forall ts, Forall pin vs -> all_tuples vs = Some ts -> Forall pin ts.
Proof.
  induction vs as [|v vs IH]; intros ts Hv E; cbn in E; [inversion E; constructor|]. inversion Hv; subst.
  destruct v; try easy. destruct (all_tuples vs); [|easy]. inversion E; subst. apply Forall_app. split; [now apply pin_tup|auto].
Qed.
Lemma removelast_pin l : Forall pin l -> Forall pin (removelast l).
Proof. intros H. induction H as [|x l Hx Hl IH]; cbn; [constructor|]. destruct l; [constructor|]. now constructor. Qed.
Lemma last_pin l x : Forall pin l -> pin x -> pin (last l x).
Proof. intros H Hx. induction H as [|y l Hy Hl IH]; cbn; [assumption|]. destruct l; assumption. Qed.

Lemma framed_acts b d D solve ac t args s nv :
  (forall q s nv, proper b q = true -> qpin q -> cl s -> (nv0 <= nv)%N -> framed s (solve q s nv)) ->
  proper b (QAct ac t) = true -> lit_args t = Ok args -> pin t -> cl s -> (nv0 <= nv)%N ->
  framed s (act_sols d D solve ac t args s nv).
Proof.
  intros Hsol Hp Ea Ht Hs Hn. destruct t; try discriminate Ea. cbn in Ea. inversion Ea; subst args0. clear Ea.
  pose proof (proj1 (proj1 (pin_lit _ _ _) Ht)) as Ha.
  assert (Hm : mok ([], nv)) by (split; [intros ? ? E; discriminate E|exact Hn]).
  assert (Hlast : pin (last args (TBool false))) by (apply last_pin; [assumption|now apply pin_plain]).
  assert (H1 : forall x l, pin x -> pin l -> forall k, (nv0 <= k)%N -> framed s (choices d x [l] None s k)).
  { intros x l Hx Hl k Hk. apply framed_choices; auto. }
  destruct ac; cbn [act_sols]; try exact I; try (now apply framed_one); try exact Hn.
  - destruct (smapl (fun a : term => freeze d a s) args ([], nv)) as [r [m' nv']] eqn:E.
    destruct (smapl_pin _ _ _ _ _ (fun t => freeze_pin d s t) Hm E) as [[_ M] _]. apply framed_tres. intros _ _. now apply framed_one.
  - destruct args as [|x [|]]; try exact I. inversion Ha; subst. apply H1; [assumption|now apply pin_plain|assumption].
  - destruct args as [|a0 args]; [exact I|]. apply framed_tres. intros vs Ev. apply framed_tres. intros res Er. apply H1; [assumption| |assumption].
    destruct (all_tuples vs) as [ts|] eqn:Et.
    + inversion Er; subst. apply pin_tup. eapply all_tuples_pin; [|exact Et].
      eapply rmapl_pin; [|apply removelast_pin; exact Ha|exact Ev]. intros t u Hu Eu. eapply grounded_pin; [exact Hs|exact Hu|exact Eu].
    + unfold rmap in Er. destruct (rmapl py_str vs); inversion Er; subst. now apply pin_plain.
  - destruct args as [|x0 [|x1 [|x2 [|]]]]; try exact I. apply framed_tres. intros v0 _. apply framed_tres. intros v1 _.
    inversion Ha as [|? ? _ Ha1]; subst. inversion Ha1 as [|? ? _ Ha2]; subst. inversion Ha2; subst. apply framed_choices; auto.
    apply Forall_forall. intros y Hy. apply in_map_iff in Hy as (z & <- & _). now apply pin_plain.
  - destruct args as [|x0 [|x1 [|]]]; try exact I. apply framed_tres. intros v Ev.
    inversion Ha as [|? ? Hx Ha1]; subst. inversion Ha1 as [|? ? Hl _]; subst.
    pose proof (iter_items_pin v (evaluate_pin _ _ _ _ Hs Hl Ev)) as Hi. destruct (iter_items v) as [items fin]. apply framed_choices; auto.
  - apply framed_tres. intros [] _; [now apply framed_one|exact Hn].
  - destruct args as [|x0 [|x1 [|x2 [|]]]]; try exact I.
    inversion Ha as [|? ? Hx0 Ha1]; subst. inversion Ha1 as [|? ? Hx1 Ha2]; subst. inversion Ha2 as [|? ? Hx2 _]; subst.
    apply framed_tres. intros p Ep. apply framed_tres. intros [[m ts] nv'] Eg. cbn [fst snd].
    apply (gather_inv s (find_step d p) (fun x => (forall v y, memo_get (fst x) v = Some y -> P y) /\ Forall pin (snd x))) in Eg.
    + destruct Eg as [[_ G] K]. apply H1; [now apply pin_tup|assumption|exact K].
    + apply Hsol; [reflexivity|exact Hx1|assumption|assumption].
    + intros s' k [m1 t1] [m2 t2] k' Hs' Hk [I1 I2] E. unfold find_step in E. cbn [fst snd] in *.
      destruct (freeze d p s' (m1, k)) as [r [m3 k3]] eqn:Ef. destruct (freeze_pin _ _ _ _ _ _ (conj I1 Hk : mok (m1, k)) Ef) as [[M1 M2] M3].
      destruct r; inversion E; subst. split; [|exact M2]. split; [exact M1|]. apply Forall_app. split; [assumption|]. constructor; [auto|constructor].
    + cbn. split; [intros ? ? E; discriminate E|constructor].
  - destruct args as [|x0 [|x1 [|]]]; try exact I.
    inversion Ha as [|? ? Hx0 Ha1]; subst. inversion Ha1 as [|? ? Hx1 _]; subst.
    apply framed_tres. intros [k nv'] Eg. cbn [fst snd].
    apply (gather_inv s _ (fun _ => True)) in Eg; [|now apply Hsol| |exact I].
    + apply H1; [now apply pin_plain|assumption|apply Eg].
    + intros s' k' x x' nv1 _ Hk _ E. inversion E; subst. auto.
  - destruct args as [|x0 [|x1 [|]]]; try exact I. inversion Ha as [|? ? _ Ha1]; subst. inversion Ha1 as [|? ? Hx1 _]; subst.
    apply framed_tres. intros v _. apply framed_tres. intros z _. apply framed_choices; auto.
    apply Forall_forall. intros y Hy. apply in_map_iff in Hy as (k & <- & _). now apply pin_plain.
  - destruct args as [|x0 [|x1 [|x2 [|]]]]; try exact I.
    inversion Ha as [|? ? Hx0 Ha1]; subst. inversion Ha1 as [|? ? Hx1 Ha2]; subst. inversion Ha2 as [|? ? Hx2 _]; subst.
    apply framed_tres. intros p Ep. apply framed_tres. intros [k nv'] Eg. cbn [fst snd].
    apply (gather_inv s _ (fun _ => True)) in Eg; [|now apply Hsol| |exact I].
    + apply H1; [now apply pin_plain|assumption|apply Eg].
    + intros s' k' x x' nv1 _ Hk _ E. unfold sum_step, rbind, rmap in E. destruct (grounded d p s') as [v|]; [|easy].
      destruct v; try easy; destruct (num_op _ _ _ _); inversion E; subst; auto.
  - destruct args as [|a0 args]; [exact I|].
    destruct (zip_specs d specs (a0 :: args) s ([], nv)) as [r [m' nv']] eqn:E. destruct (zip_specs_pin _ _ _ _ _ _ _ Hm E) as [[_ M] Pz].
    apply framed_tres. intros vs ->. apply framed_tres. intros u Eu. apply H1; [assumption| |exact M].
    eapply fn_apply_pin; [|apply Pz; reflexivity|exact Eu]. destruct f0; try exact I.
    cbn in Hp. rewrite Bool.andb_false_r in Hp. discriminate Hp.
  - destruct (zip_specs d specs args s ([], nv)) as [r [m' nv']] eqn:E. destruct (zip_specs_pin _ _ _ _ _ _ _ Hm E) as [[_ M] Pz].
    apply framed_tres. intros vs ->. apply framed_tres. intros [] _; [now apply framed_one|exact M].
Qed.

Lemma framed_sols b D d : closed_beliefs D -> proper_db b D -> forall q s nv, proper b q = true -> qpin q -> cl s -> (nv0 <= nv)%N ->
  framed s (sols d D q s nv).
Proof.
  intros Hcb HD. induction d as [|d IH]; intros q s nv Hp Hq Hs Hn; [exact I|]. cbn [sols].
  destruct q; cbn [proper] in Hp; unfold qpin in Hq; cbn [qvars] in Hq; rewrite ?Forall_app in Hq.
  - now apply framed_one.
  - exact Hn.
  - apply framed_tres. intros args Ea. eapply framed_acts; eassumption.
  - apply framed_tres. intros v Ev. assert (Hv : pin v) by (eapply evaluate_pin; [|exact Hq|exact Ev]; assumption).
    destruct v; try exact I; [destruct b0; [now apply framed_one|exact Hn]|].
    apply framed_append.
    + apply framed_matches; try assumption. apply Forall_forall. intros x Hx. apply pin_plain. now apply Hcb in Hx.
    + intros k Hk. eapply (framed_clauses b); try assumption. apply HD.
  - apply Bool.andb_true_iff in Hp as [P1 P2]. destruct Hq. apply framed_bind; [now apply IH|]. intros. now apply IH.
  - apply Bool.andb_true_iff in Hp as [Hp _]. apply Bool.andb_true_iff in Hp as [P1 P2]. destruct Hq.
    apply framed_append; [now apply IH|]. intros. now apply IH.
  - apply framed_neg; [assumption|]. now apply IH.
  - destruct Hq. apply framed_matches; auto.
Qed.

Lemma framed_take t : forall c s l o, framed s t -> take c t = (l, o) -> Forall (fr s) l.
Proof.
  induction t as [nv|e| |s' nv k IH]; intros c s l o Ht E; destruct c as [|[os j] c]; cbn in E; try (inversion E; subst; constructor).
  destruct Ht as (A & B & C & D). destruct (take c (k (nv + j)%N)) as [l' o'] eqn:E'. inversion E; subst. constructor; [assumption|].
  eapply IH; [|exact E']. apply D. lia.
Qed.

End WithPy.

(** The variables involved, and all later ones, are closed under the scope. *)
Lemma involved_closed {PY : Py} s vs nv : none_after nv s -> cl (fun v => involved s vs v \/ (nv <= v)%N) s.
Proof.
  intros Hs v t Ev [Hv|Hv]; [|apply Hs in Ev; lia]. apply Forall_forall. intros w Hw. left. eapply in_value; eassumption.
Qed.

Theorem query_binds_only {PY : Py} {FR : Front} (L : PyLawful PY) b a i q c n st W l o s2 :
  proper b q = true -> proper_db b (db_of a W) -> closed_beliefs (db_of a W) -> none_after (w_nv W) (b_scope st) ->
  (b = true -> Forall (fun p => fst p = []) c) ->
  drive c n a i (GQ q) (st, W) = (l, o, s2) -> o <> Raised ERecursion ->
  Forall (binds_only (b_scope st) (qvars q) (w_nv W)) l.
Proof.
  intros Hp HD Hc Hs Hb E Ho. pose proof (query_sound b a i q c n st W Hp HD Hb) as HS. rewrite E in HS. destruct s2 as [st2 W2].
  destruct HS as [HS|(_ & [d HS] & _)]; [contradiction|]. specialize (HS d (Nat.le_refl _)).
  set (P := fun v => involved (b_scope st) (qvars q) v \/ (w_nv W <= v)%N).
  eapply (framed_take P (w_nv W)) in HS.
  - eapply Forall_impl; [|exact HS]. intros s' [A B]. split; [exact A|]. intros v t N E'. destruct (B v t E') as [H|H]; [congruence|exact H].
  - apply (framed_sols L P (w_nv W)) with (b := b); try assumption.
    + intros v Hv. now right.
    + apply Forall_forall. intros v Hv. left. now apply in_here.
    + now apply involved_closed.
    + lia.
Qed.
