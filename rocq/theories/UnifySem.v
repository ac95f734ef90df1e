(** Soundness and generality of unification with respect to an arbitrary
    algebra of trees with free constructors. *)
From Verif Require Import Base Num Term Unify TrailFacts FuelFacts ChainFacts TermSpec.
From Coq Require Import RelationClasses.

Lemma Forall2_len {A B} (P : A -> B -> Prop) xs ys : Forall2 P xs ys -> List.length xs = List.length ys.
Proof. induction 1; cbn; congruence. Qed.

Section Gen.
Variable D : Type.
Variable deq : D -> D -> Prop.
Hypothesis deq_equiv : Equivalence deq.
Variable dconst : const -> D.
Variable dlit : pystr -> list D -> D.
Variable dcons : D -> D -> D.

Variable ex : term -> term.
Notation den := (den D dconst dlit dcons ex).
Notation den_const := (den_const D dconst).
Notation sat := (sat D deq dconst dlit dcons ex).
Notation free_algebra := (free_algebra D deq dconst dlit dcons).
Notation fa_const := (fa_const D deq dconst dlit dcons).
Notation fa_lit := (fa_lit D deq dconst dlit dcons).
Notation fa_lit_cong := (fa_lit_cong D deq dconst dlit dcons).
Notation fa_cons := (fa_cons D deq dconst dlit dcons).
Notation fa_cons_cong := (fa_cons_cong D deq dconst dlit dcons).
Notation fa_const_lit := (fa_const_lit D deq dconst dlit dcons).
Notation fa_const_cons := (fa_const_cons D deq dconst dlit dcons).
Notation fa_lit_cons := (fa_lit_cons D deq dconst dlit dcons).
Hypothesis FA : free_algebra.

Section WithPy.
Context {PY : Py}.
Variable s0 : scope.

Notation plain := (plain s0 ex).
Notation plain_scope := (plain_scope s0 ex).

(** The scopes reached while unifying: extensions of [s0]. *)
Definition good (s : scope) : Prop := plain_scope s /\ chain_ok s /\ extends s0 s.

Lemma den_tup_cons th x xs : den th (TTup (x :: xs)) = dcons (den th x) (den th (TTup xs)).
Proof. reflexivity. Qed.

Lemma den_scalar th v : is_scalar_const v -> den_const v = den th v.
Proof. destruct v; easy. Qed.

Lemma deref_loop_sound n : forall t s t', deref_loop n t s = Ok t' ->
  (plain_scope s -> plain t -> plain t') /\
  (forall th, sat th s -> deq (den th t) (den th t')).
Proof.
  induction n as [|n IH]; intros t s t' H; destruct t; cbn in H;
    try (inversion H; subst; split; [auto|reflexivity]);
    destruct (lookup s v) eqn:E; try easy;
    try (inversion H; subst; split; [auto|reflexivity]).
  destruct (IH _ _ _ H) as [H1 H2]. split.
  - intros Hs _. apply H1; eauto.
  - intros th Hth. etransitivity; [apply Hth; exact E|]. auto.
Qed.

Lemma deref_sound t s t' : deref t s = Ok t' ->
  (plain_scope s -> plain t -> plain t') /\
  (forall th, sat th s -> deq (den th t) (den th t')).
Proof. apply deref_loop_sound. Qed.

(** A plain term that is not an expression. *)
Definition noexpr (t : term) : Prop := match t with TUn _ _ | TBin _ _ _ => False | _ => True end.

Lemma evaluate_expr_plain n t s t' : match t with TUn _ _ | TBin _ _ _ => True | _ => False end ->
  plain t -> good s -> evaluate n t s = Ok t' ->
  t' = ex t /\ is_scalar_const t' /\ plain t' /\ forall th, deq (den th t) (den th t').
Proof.
  intros Ht Hp (G1 & G2 & G3) H.
  assert (Hsc := evaluate_expr_const _ _ _ _ Ht H).
  assert (E : ex t = t').
  { destruct t; try contradiction Ht.
    - inversion Hp as [| | | |? ? [k Hk] Hnn| | | |]; subst; eapply evaluate_expr_stable; [exact G3|exact G2| |exact Hk|exact H]; exact I.
    - inversion Hp as [| | | | |? ? ? [k Hk] Hnn| | |]; subst; eapply evaluate_expr_stable; [exact G3|exact G2| |exact Hk|exact H]; exact I. }
  split; [now symmetry|]. split; [assumption|]. split.
  - assert (Hnn : not_nan t') by (rewrite <- E; inversion Hp; subst; try contradiction Ht; assumption).
    destruct t'; try contradiction Hsc; constructor; exact Hnn.
  - intro th. rewrite <- (den_scalar th t' Hsc), <- E. destruct t; try contradiction Ht; reflexivity.
Qed.

Lemma evaluate_plain n : forall t s t', evaluate n t s = Ok t' -> plain t -> good s ->
  plain t' /\ resolved s t' /\ noexpr t' /\ (forall th, sat th s -> deq (den th t) (den th t')).
Proof.
  induction n as [|n IH]; intros t s t' H Hp Hs; [easy|].
  destruct t;
    try (rewrite evaluate_S in H; inversion H; subst; split; [assumption|split; [exact I|split; [exact I|reflexivity]]]; fail).
  - rewrite evaluate_S in H.
    destruct (bound s v) eqn:E; [|inversion H; subst; split; [constructor|split; [exact E|split; [exact I|reflexivity]]]].
    destruct (deref (TVar v) s) as [t1|] eqn:Ed; [|easy].
    destruct (deref_sound _ _ _ Ed) as [D1 D2].
    destruct (IH _ _ _ H) as (H1 & H2 & H3 & H4); [apply D1; [apply Hs|assumption]|assumption|].
    split; [assumption|split; [assumption|split; [assumption|]]].
    intros th Hth. etransitivity; [apply D2|apply H4]; assumption.
  - destruct (evaluate_expr_plain (S n) (TUn op t) s t' I Hp Hs H) as (A & B & C & E).
    split; [assumption|]. split; [destruct t'; easy|]. split; [destruct t'; easy|]. intros; apply E.
  - destruct (evaluate_expr_plain (S n) (TBin op t1 t2) s t' I Hp Hs H) as (A & B & C & E).
    split; [assumption|]. split; [destruct t'; easy|]. split; [destruct t'; easy|]. intros; apply E.
Qed.

Lemma sat_bind th s v t : lookup s v = None ->
  sat th ((v, t) :: s) <-> sat th s /\ deq (th v) (den th t).
Proof.
  intro Hv. split.
  - intro H. split.
    + intros w u Hw. apply H. cbn. destruct (N.eqb_spec w v); [congruence|assumption].
    + apply H. cbn. now rewrite N.eqb_refl.
  - intros [H1 H2] w u Hw. cbn in Hw. destruct (N.eqb_spec w v).
    + inversion Hw; subst. assumption.
    + apply H1. assumption.
Qed.

Lemma plain_scope_bind s v t : plain_scope s -> plain t -> plain_scope ((v, t) :: s).
Proof.
  intros H1 H2 w u Hw. cbn in Hw. destruct (N.eqb w v); [inversion Hw; subst; assumption|eauto].
Qed.

Lemma good_bind s v t : good s -> lookup s v = None -> plain t -> resolved s t -> is_var t v = false ->
  good ((v, t) :: s).
Proof.
  intros (H1 & H2 & H3) Hv Hp Hr Hn. split; [now apply plain_scope_bind|].
  split; [now apply chain_ok_bind|now apply extends_bind].
Qed.

(** The specification of one unification. *)
Definition usound (l r : term) (st : bst) (b : bool) (st' : bst) : Prop :=
  if b then
    good (b_scope st') /\
    forall th, sat th (b_scope st') <-> sat th (b_scope st) /\ deq (den th l) (den th r)
  else forall th, sat th (b_scope st) -> ~ deq (den th l) (den th r).

Lemma usound_eq l r l' r' st b st' :
  (forall th, sat th (b_scope st) -> deq (den th l) (den th l')) ->
  (forall th, sat th (b_scope st) -> deq (den th r) (den th r')) ->
  usound l' r' st b st' -> usound l r st b st'.
Proof.
  intros Hl Hr. unfold usound. destruct b.
  - intros [H1 H2]. split; [assumption|]. intro th. rewrite H2. split; intros [Hs He]; split; auto.
    + rewrite (Hl th Hs), (Hr th Hs). assumption.
    + rewrite <- (Hl th Hs), <- (Hr th Hs). assumption.
  - intros H th Hs He. apply (H th Hs). rewrite <- (Hl th Hs), <- (Hr th Hs). assumption.
Qed.

Lemma usound_sym l r st b st' : usound r l st b st' -> usound l r st b st'.
Proof.
  unfold usound. destruct b.
  - intros [H1 H2]. split; [assumption|]. intro th. rewrite H2. split; intros [? ?]; split; auto; now symmetry.
  - intros H th Hs He. apply (H th Hs). now symmetry.
Qed.

Lemma usound_bind v t st u st' : bound (b_scope st) v = false -> plain t -> resolved (b_scope st) t -> good (b_scope st) ->
  bind v t st = (Ok u, st') -> usound (TVar v) t st true st'.
Proof.
  intros Hv Ht Hres Hs H. unfold usound.
  assert (HB : is_var t v = false -> (Ok tt, mkbst ((v, t) :: b_scope st) (EVar v :: b_stack st) (b_ncp st)) = (Ok u, st') ->
     good (b_scope st') /\
    forall th, sat th (b_scope st') <-> sat th (b_scope st) /\ deq (den th (TVar v)) (den th t)).
  { intros Hnv HB. inversion HB; subst; clear HB. cbn [b_scope]. split.
    - apply good_bind; try assumption. now apply bound_false.
    - intro th. rewrite sat_bind by now apply bound_false. reflexivity. }
  unfold bind in H. rewrite Hv in H.
  destruct t; try exact (HB eq_refl H).
  destruct (N.eqb_spec v v0) as [->|]; [|apply HB; [cbn; apply N.eqb_neq; congruence|exact H]].
  inversion H; subst. split; [assumption|]. intro th. split; [|easy]. intro; split; [assumption|reflexivity].
Qed.

(** One unification, given as induction hypothesis. *)
Definition usound_f (u : term -> term -> bst -> res bool * bst) : Prop :=
  forall l r st b st', u l r st = (Ok b, st') -> plain l -> plain r -> good (b_scope st) ->
  usound l r st b st'.

Lemma all_unify_sound u : usound_f u ->
  forall ls rs st b st', all_unify u ls rs st = (Ok b, st') ->
  List.length ls = List.length rs ->
  Forall plain ls -> Forall plain rs -> good (b_scope st) ->
  if b then
    good (b_scope st') /\
    forall th, sat th (b_scope st') <->
      sat th (b_scope st) /\ Forall2 deq (map (den th) ls) (map (den th) rs)
  else forall th, sat th (b_scope st) -> ~ Forall2 deq (map (den th) ls) (map (den th) rs).
Proof.
  intros Hu ls. induction ls as [|l ls IH]; intros rs st b st' H Hlen Hl Hr Hs.
  - destruct rs; [|easy]. cbn in H. inversion H; subst. split; [assumption|].
    intro th. cbn. split; [|easy]. intro; split; [assumption|constructor].
  - destruct rs as [|r rs]; [easy|]. cbn in H. cbn in Hlen.
    inversion Hl as [|? ? Hl1 Hl2]; inversion Hr as [|? ? Hr1 Hr2]; subst.
    destruct (u l r st) as [x st1] eqn:E.
    destruct x as [x|]; [|easy].
    pose proof (Hu _ _ _ _ _ E Hl1 Hr1 Hs) as Hx. unfold usound in Hx.
    destruct x.
    + destruct Hx as [Hs1 Hx].
      specialize (IH rs st1 b st' H). cbn in Hlen. injection Hlen as Hlen.
      specialize (IH Hlen Hl2 Hr2 Hs1). destruct b.
      * destruct IH as [IH1 IH2]. split; [assumption|]. intro th. rewrite IH2, Hx. cbn. split.
        -- intros [[A B] C]. split; [assumption|]. constructor; assumption.
        -- intros [A B]. inversion B; subst. repeat split; assumption.
      * intros th Hth HF. cbn in HF. inversion HF; subst. apply (IH th); [|assumption].
        apply Hx. split; assumption.
    + inversion H; subst. intros th Hth HF. cbn in HF. inversion HF; subst. eapply Hx; eassumption.
Qed.

Lemma den_tup_deq th xs : forall ys, List.length xs = List.length ys ->
  deq (den th (TTup xs)) (den th (TTup ys)) <-> Forall2 deq (map (den th) xs) (map (den th) ys).
Proof.
  induction xs as [|x xs IH]; intros [|y ys] Hlen; try easy.
  - cbn. split; [constructor|reflexivity].
  - rewrite !den_tup_cons. injection Hlen as Hlen. cbn [map]. split.
    + intro H. apply (fa_cons FA) in H as [H1 H2]. constructor; [assumption|]. now apply IH.
    + intro H. inversion H; subst. apply (fa_cons_cong FA); [assumption|]. now apply IH.
Qed.

Lemma den_tup_len th xs : forall ys, List.length xs <> List.length ys ->
  ~ deq (den th (TTup xs)) (den th (TTup ys)).
Proof.
  induction xs as [|x xs IH]; intros [|y ys] Hlen H; cbn in Hlen; try easy.
  - rewrite den_tup_cons in H. now apply (fa_const_cons FA) in H.
  - rewrite den_tup_cons in H. symmetry in H. now apply (fa_const_cons FA) in H.
  - rewrite !den_tup_cons in H. apply (fa_cons FA) in H as [_ H]. apply IH in H; [assumption|]. lia.
Qed.

Lemma const_diff a b : a <> b -> ~ deq (dconst a) (dconst b).
Proof. intros H1 H2. apply H1. now apply (fa_const FA). Qed.

Lemma scalar_sound l r st st' b :
  plain l -> plain r ->
  match l with TNum _ | TStr _ | TTup _ => True | _ => False end ->
  match r with TNum _ | TStr _ | TTup _ => True | _ => False end ->
  match l, r with TTup _, TTup _ => False | _, _ => True end ->
  good (b_scope st) ->
  (Ok (py_eqb l r), st) = (Ok b, st') -> usound l r st b st'.
Proof.
  intros Hl Hr Kl Kr Klr Hs H. inversion H; subst; clear H.
  destruct l as [|x|s| | | | | |ls|]; try easy; destruct r as [|y|s'| | | | | |rs|]; try easy; cbn [py_eqb].
  - inversion Hl; inversion Hr; subst. unfold usound. destruct (num_eqb x y) eqn:E.
    + split; [assumption|]. intro th. apply num_eqb_canon in E as [E _]. cbn. rewrite E.
      split; [|easy]. intro; split; [assumption|reflexivity].
    + intros th _ He. cbn in He. apply (fa_const FA) in He. injection He as He.
      assert (num_eqb x y = true) by (apply num_eqb_canon; auto). congruence.
  - intros th _ He. cbn in He. apply (fa_const FA) in He. discriminate.
  - intros th _ He. destruct rs.
    + cbn in He. apply (fa_const FA) in He. discriminate.
    + rewrite den_tup_cons in He. now apply (fa_const_cons FA) in He.
  - intros th _ He. cbn in He. apply (fa_const FA) in He. discriminate.
  - unfold usound. destruct (pystr_eqb_spec s s') as [->|Hn].
    + split; [assumption|]. intro th. split; [|easy]. intro; split; [assumption|reflexivity].
    + intros th _ He. cbn in He. apply (fa_const FA) in He. congruence.
  - intros th _ He. destruct rs.
    + cbn in He. apply (fa_const FA) in He. discriminate.
    + rewrite den_tup_cons in He. now apply (fa_const_cons FA) in He.
  - destruct ls; intros th _ He.
    + cbn in He. apply (fa_const FA) in He. discriminate.
    + rewrite den_tup_cons in He. symmetry in He. now apply (fa_const_cons FA) in He.
  - destruct ls; intros th _ He.
    + cbn in He. apply (fa_const FA) in He. discriminate.
    + rewrite den_tup_cons in He. symmetry in He. now apply (fa_const_cons FA) in He.
Qed.

Lemma pair_sound u h t h' t' st b st' : usound_f u ->
  plain h -> plain t -> plain h' -> plain t' -> good (b_scope st) ->
  match u h h' st with (Ok true, st1) => u t t' st1 | y => y end = (Ok b, st') ->
  if b then good (b_scope st') /\
    forall th, sat th (b_scope st') <->
      sat th (b_scope st) /\ deq (dcons (den th h) (den th t)) (dcons (den th h') (den th t'))
  else forall th, sat th (b_scope st) -> ~ deq (dcons (den th h) (den th t)) (dcons (den th h') (den th t')).
Proof.
  intros Hu Ph Pt Ph' Pt' Hs H.
  destruct (u h h' st) as [x st1] eqn:E. destruct x as [x|]; [|easy].
  pose proof (Hu _ _ _ _ _ E Ph Ph' Hs) as Hx. unfold usound in Hx. destruct x.
  - destruct Hx as [Hs1 Hx]. pose proof (Hu _ _ _ _ _ H Pt Pt' Hs1) as Hy. unfold usound in Hy. destruct b.
    + destruct Hy as [Hs2 Hy]. split; [assumption|]. intro th. rewrite Hy, Hx. split.
      * intros [[A B] C]. split; [assumption|]. now apply (fa_cons_cong FA).
      * intros [A B]. apply (fa_cons FA) in B as [B C]. auto.
    + intros th Hth He. apply (fa_cons FA) in He as [He1 He2]. apply (Hy th); [|assumption].
      apply Hx. auto.
  - inversion H; subst. intros th Hth He. apply (fa_cons FA) in He as [He1 He2]. now apply (Hx th).
Qed.

Theorem unify_sound n : usound_f (unify n).
Proof.
  induction n as [|n IH]; intros l r st b st' H Hl Hr Hs; [easy|].
  cbn [unify] in H.
  destruct l as [bl|xl|sl|v| | | |f args annots|ls|h t].
  4:{ (* variable *)
    destruct (bound (b_scope st) v) eqn:Ev.
    - destruct (deref (TVar v) (b_scope st)) as [l'|] eqn:Ed; [|easy].
      destruct (deref_sound _ _ _ Ed) as [D1 D2].
      eapply usound_eq; [exact D2|reflexivity|]. eapply IH; eauto. apply D1; [apply Hs|assumption].
    - assert (HH : match evaluate n r (b_scope st) with
                | Err e => (Err e, st)
                | Ok r' =>
                    match bind v r' st with
                    | (Ok _, st') => (Ok true, st')
                    | (Err e, st') => (Err e, st')
                    end
                end = (Ok b, st')) by (destruct r; try exact H; inversion Hr).
      clear H. destruct (evaluate n r (b_scope st)) as [r'|] eqn:Er; [|easy].
      destruct (evaluate_plain _ _ _ _ Er Hr Hs) as (P1 & P2 & P2' & P3).
      destruct (bind v r' st) as [[u|] st1] eqn:Eb; [|easy].
      inversion HH; subst. eapply usound_eq; [reflexivity|exact P3|].
      eapply usound_bind; eassumption. }
  4: inversion Hl.
  4:{ destruct (evaluate n _ (b_scope st)) as [l'|] eqn:El; [|easy].
      destruct (evaluate_plain _ _ _ _ El Hl Hs) as (P1 & P2 & P2' & P3).
      eapply usound_eq; [exact P3|reflexivity|]. eapply IH; eauto. }
  4:{ destruct (evaluate n _ (b_scope st)) as [l'|] eqn:El; [|easy].
      destruct (evaluate_plain _ _ _ _ El Hl Hs) as (P1 & P2 & P2' & P3).
      eapply usound_eq; [exact P3|reflexivity|]. eapply IH; eauto. }
  4:{ (* literal *)
    destruct (evaluate n r (b_scope st)) as [r'|] eqn:Er; [|easy].
    destruct (evaluate_plain _ _ _ _ Er Hr Hs) as (P1 & P2 & P2' & P3).
    eapply usound_eq; [reflexivity|exact P3|].
    assert (Hf : forall c, (forall th, ~ deq (dlit f (map (den th) args)) (den th c)) -> (Ok false, st) = (Ok b, st') ->
              usound (TLit f args annots) c st b st').
    { intros c Hc HH. inversion HH; subst. intros th _ He. exact (Hc th He). }
    assert (Hconst : forall c xs, ~ deq (dlit f xs) (dconst c)) by (intros c xs He; symmetry in He; now apply (fa_const_lit FA) in He).
    destruct r' as [br|xr|sr|vr|wr| | |f' args' annots'|rs|h' t'].
    - apply Hf; [|exact H]. intros th He. now apply Hconst in He.
    - apply Hf; [|exact H]. intros th He. now apply Hconst in He.
    - apply Hf; [|exact H]. intros th He. now apply Hconst in He.
    - apply usound_sym. eapply IH; eauto.
    - inversion P1.
    - contradiction P2'.
    - contradiction P2'.
    - destruct (pystr_eqb_spec f f') as [->|Hff]; cbn [andb] in H.
      + destruct (Nat.eqb_spec (List.length args) (List.length args')) as [Hlen|Hlen].
        * inversion Hl; inversion P1; subst.
          pose proof (all_unify_sound _ IH _ _ _ _ _ H Hlen) as HA. unfold usound.
          destruct b.
          -- destruct HA as [HA1 HA2]; try assumption. split; [assumption|]. intro th.
             rewrite HA2. cbn [den]. split; intros [A B]; (split; [assumption|]).
             ++ now apply (fa_lit_cong FA).
             ++ now apply (fa_lit FA) in B.
          -- intros th Hth He. cbn [den] in He. apply (fa_lit FA) in He as [_ He]. revert He. apply HA; assumption.
        * apply Hf; [|exact H]. intros th He. cbn [den] in He. apply (fa_lit FA) in He as [_ He].
          apply Forall2_len in He. now rewrite !map_length in He.
      + apply Hf; [|exact H]. intros th He. cbn [den] in He. now apply (fa_lit FA) in He as [He _].
    - apply Hf; [|exact H]. intros th He. destruct rs.
      + cbn in He. now apply Hconst in He.
      + rewrite den_tup_cons in He. now apply (fa_lit_cons FA) in He.
    - apply Hf; [|exact H]. intros th He. cbn [den] in He. now apply (fa_lit_cons FA) in He. }
  5:{ (* linked list *)
    destruct (evaluate n r (b_scope st)) as [r'|] eqn:Er; [|easy].
    destruct (evaluate_plain _ _ _ _ Er Hr Hs) as (P1 & P2 & P2' & P3).
    eapply usound_eq; [reflexivity|exact P3|].
    assert (Hf : forall c, (forall th, ~ deq (dcons (den th h) (den th t)) (den th c)) -> (Ok false, st) = (Ok b, st') ->
              usound (TLL h t) c st b st').
    { intros c Hc HH. inversion HH; subst. intros th _ He. exact (Hc th He). }
    assert (Hconst : forall c x y, ~ deq (dcons x y) (dconst c)) by (intros c x y He; symmetry in He; now apply (fa_const_cons FA) in He).
    inversion Hl; subst.
    destruct r' as [br|xr|sr|vr|wr| | |f' args' annots'|rs|h' t'].
    - apply Hf; [|exact H]. intros th He. now apply Hconst in He.
    - apply Hf; [|exact H]. intros th He. now apply Hconst in He.
    - apply Hf; [|exact H]. intros th He. now apply Hconst in He.
    - apply usound_sym. eapply IH; eauto.
    - inversion P1.
    - contradiction P2'.
    - contradiction P2'.
    - apply Hf; [|exact H]. intros th He. cbn [den] in He. symmetry in He. now apply (fa_lit_cons FA) in He.
    - destruct rs as [|x xs].
      + apply Hf; [|exact H]. intros th He. now apply Hconst in He.
      + inversion P1 as [| | | | | | |? PF|]; subst. inversion PF; subst. unfold usound.
        pose proof (pair_sound _ h t x (TTup xs) st b st' IH) as HP.
        apply HP; try assumption. now constructor.
    - inversion P1; subst. unfold usound. cbn [den].
      pose proof (pair_sound _ h t h' t' st b st' IH) as HP. now apply HP. }
  (* no unify method on the left *)
  - destruct (has_unify r) eqn:Eh; [apply usound_sym; eapply IH; eauto|].
    destruct r; try discriminate Eh.
    + inversion H; subst. unfold usound. destruct (Bool.eqb bl b0) eqn:Eb.
      * apply Bool.eqb_prop in Eb. subst. split; [assumption|]. intro th. split; [|easy]. intro; split; [assumption|reflexivity].
      * intros th _ He. cbn in He. apply (fa_const FA) in He. injection He as ->. now rewrite Bool.eqb_reflx in Eb.
    + inversion H; subst. intros th _ He. cbn in He. now apply (fa_const FA) in He.
    + inversion H; subst. intros th _ He. cbn in He. now apply (fa_const FA) in He.
    + inversion H; subst. intros th _ He. destruct ts.
      * cbn in He. now apply (fa_const FA) in He.
      * rewrite den_tup_cons in He. now apply (fa_const_cons FA) in He.
  - destruct (has_unify r) eqn:Eh; [apply usound_sym; eapply IH; eauto|].
    destruct r; try discriminate Eh; try (now apply scalar_sound).
    inversion H; subst. intros th _ He. cbn in He. now apply (fa_const FA) in He.
  - destruct (has_unify r) eqn:Eh; [apply usound_sym; eapply IH; eauto|].
    destruct r; try discriminate Eh; try (now apply scalar_sound).
    inversion H; subst. intros th _ He. cbn in He. now apply (fa_const FA) in He.
  - destruct (has_unify r) eqn:Eh; [apply usound_sym; eapply IH; eauto|].
    destruct r; try discriminate Eh; try (now apply scalar_sound).
    + inversion H; subst. intros th _ He. destruct ls.
      * cbn in He. now apply (fa_const FA) in He.
      * rewrite den_tup_cons in He. symmetry in He. now apply (fa_const_cons FA) in He.
    + inversion Hl; inversion Hr; subst. unfold usound.
      destruct (Nat.eqb_spec (List.length ls) (List.length ts)) as [Hlen|Hlen].
      * pose proof (all_unify_sound _ IH _ _ _ _ _ H Hlen) as HA. destruct b.
        -- destruct HA as [HA1 HA2]; try assumption. split; [assumption|]. intro th.
           rewrite HA2. now rewrite den_tup_deq.
        -- intros th Hth He. rewrite den_tup_deq in He by assumption. revert He. now apply HA.
      * inversion H; subst. intros th _ He. revert He. now apply den_tup_len.
Qed.

End WithPy.
End Gen.
