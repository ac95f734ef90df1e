(** Comparison and list notations. *)
From Verif Require Import Base Num Term Unify TrailFacts FuelFacts ChainFacts TermSpec InstSpec CmpSpec.
From Verif Require Import PyEq UnifySem UnifyTerm UnifyCor.
From Coq Require Import QArith SpecFloat Lia.

Lemma pow2_Zpos p : Zpos (Pos.pow 2 p) = (2 ^ Zpos p)%Z.
Proof. apply Pos2Z.inj_pow. Qed.

Lemma dyadic_scale m e k : (k <= e)%Z -> (dyadic m e == inject_Z (scaled m e k) * dyadic 1 k)%Q.
Proof.
  intro H. unfold scaled. unfold dyadic, Qeq, inject_Z.
  destruct e as [|p|p], k as [|q|q]; cbn [Qnum Qden Qmult]; try lia;
    rewrite ?Pos.mul_1_l, ?pow2_Zpos, ?Z.mul_1_r, ?Z.mul_1_l, <- ?Z.mul_assoc, <- ?Z.pow_add_r by lia;
    rewrite ?Z.mul_1_r; try (f_equal; f_equal; lia).
Qed.

Lemma dyadic_pos k : (0 < dyadic 1 k)%Q.
Proof. unfold dyadic. destruct k; cbn; unfold Qlt; cbn; try lia. change (Z.pow_pos 2 p) with (2 ^ Zpos p)%Z. rewrite Z.mul_1_r. assert (0 < 2 ^ Zpos p)%Z by (apply Z.pow_pos_nonneg; lia). destruct (2 ^ Z.pos p)%Z; lia. Qed.

Lemma dyadic_cmp m1 e1 m2 e2 : Qcompare (dyadic m1 e1) (dyadic m2 e2) =
  Z.compare (scaled m1 e1 (Z.min e1 e2)) (scaled m2 e2 (Z.min e1 e2)).
Proof.
  set (k := Z.min e1 e2).
  rewrite (dyadic_scale m1 e1 k), (dyadic_scale m2 e2 k) by (unfold k; lia).
  set (a := scaled m1 e1 k). set (b := scaled m2 e2 k). assert (P := dyadic_pos k). set (d := dyadic 1 k) in *.
  destruct (Z.compare_spec a b) as [E|E|E].
  - subst a. rewrite E. apply Qeq_alt. reflexivity.
  - apply Qlt_alt. apply Qmult_lt_r; [assumption|]. now rewrite <- Zlt_Qlt.
  - apply Qgt_alt. apply Qmult_lt_r; [assumption|]. now rewrite <- Zlt_Qlt.
Qed.

Definition ecmp (a b : ereal) : comparison :=
  match a, b with
  | NegInf, NegInf | PosInf, PosInf => Eq
  | NegInf, _ => Lt
  | _, NegInf => Gt
  | PosInf, _ => Gt
  | _, PosInf => Lt
  | Fin m1 e1, Fin m2 e2 => Z.compare (scaled m1 e1 (Z.min e1 e2)) (scaled m2 e2 (Z.min e1 e2))
  end.

Lemma num_cmp_ereal x y a b : ereal_of x = Some a -> ereal_of y = Some b -> num_cmp x y = Some (ecmp a b).
Proof.
  assert (HV : forall x a, ereal_of x = Some a -> match a with
     | NegInf => num_val x = XNInf | PosInf => num_val x = XPInf
     | Fin m e => exists q, num_val x = XQ q /\ (q == dyadic m e)%Q end).
  { intros z c E. destruct z as [z|[s|s| |s m e]]; cbn in E; inversion E; subst; cbn.
    - eexists. split; [reflexivity|]. cbn. rewrite Z.mul_1_r. reflexivity.
    - eexists. split; reflexivity.
    - destruct s; reflexivity.
    - eexists. split; [reflexivity|]. destruct s; reflexivity. }
  intros Ex Ey. apply HV in Ex, Ey. unfold num_cmp.
  destruct a as [|m1 e1|], b as [|m2 e2|]; try (destruct Ex as (p & Ex & Q1)); try (destruct Ey as (q & Ey & Q2)); rewrite Ex, Ey; cbn; try reflexivity.
  rewrite Q1, Q2. now rewrite dyadic_cmp.
Qed.

Lemma ecmp_spec a b : match ecmp a b with Eq => ereal_eq a b | Lt => ereal_lt a b | Gt => ereal_lt b a end.
Proof.
  destruct a as [|m1 e1|], b as [|m2 e2|]; cbn; try exact I.
  rewrite (Z.min_comm e2 e1). destruct (Z.compare_spec (scaled m1 e1 (Z.min e1 e2)) (scaled m2 e2 (Z.min e1 e2))); assumption.
Qed.

Lemma ereal_excl a b : ~ (ereal_lt a b /\ ereal_lt b a) /\ ~ (ereal_lt a b /\ ereal_eq a b) /\ ~ (ereal_lt b a /\ ereal_eq a b).
Proof.
  destruct a as [|m1 e1|], b as [|m2 e2|]; cbn; try tauto. rewrite (Z.min_comm e2 e1). lia.
Qed.

Lemma cop_holds_spec c o (lt eq gt : Prop) : (match o with Eq => eq | Lt => lt | Gt => gt end) ->
  ~ (lt /\ gt) -> ~ (lt /\ eq) -> ~ (gt /\ eq) -> (cop_of c o = true <-> cop_holds c lt eq gt).
Proof. intros. destruct c, o; cbn; split; try tauto; try discriminate; intuition. Qed.

(** * Strings *)
Lemma pystr_cmp_spec a : forall b, match pystr_cmp a b with Eq => a = b | Lt => lex_lt a b | Gt => lex_lt b a end.
Proof.
  induction a as [|x a IH]; intros [|y b]; cbn; try constructor.
  destruct (N.compare_spec x y) as [E|E|E].
  - subst. specialize (IH b). destruct (pystr_cmp a b); [now f_equal|now apply ll_tail|now apply ll_tail].
  - now apply ll_head.
  - now apply ll_head.
Qed.

Lemma lex_lt_trans a b c : lex_lt a b -> lex_lt b c -> lex_lt a c.
Proof.
  intro H. revert c. induction H; intros c Hc; inversion Hc; subst; try (constructor; fail).
  - apply ll_head. lia.
  - now apply ll_head.
  - now apply ll_head.
  - apply ll_tail. auto.
Qed.

Lemma lex_lt_irrefl a : ~ lex_lt a a.
Proof. induction a; intro H; inversion H; subst; [lia|auto]. Qed.

Lemma lex_excl a b : ~ (lex_lt a b /\ lex_lt b a) /\ ~ (lex_lt a b /\ a = b) /\ ~ (lex_lt b a /\ a = b).
Proof.
  split; [intros [H1 H2]; apply (lex_lt_irrefl a); eapply lex_lt_trans; eassumption|].
  split; intros [H1 ->]; now apply lex_lt_irrefl in H1.
Qed.

Section WithPy.
Context {PY : Py}.

Lemma cmp_scalar n s op a b : is_comp op = true ->
  match a with TNum _ | TStr _ => True | TLit _ [] [] => horder [] = [] | _ => False end ->
  match b with TNum _ | TStr _ => True | TLit _ [] [] => horder [] = [] | _ => False end ->
  evaluate (S (S n)) (TBin op a b) s = eval_binop op a b.
Proof.
  intros Hc Ha Hb. rewrite evaluate_S.
  assert (E : forall n t, match t with TNum _ | TStr _ => True | TLit _ [] [] => horder [] = [] | _ => False end ->
     evaluate (S n) t s = Ok t /\ grounded (S n) t s = Ok t).
  { intros m t Ht. rewrite evaluate_S, grounded_S. destruct t as [| | | | | | |f [|] [|]| |]; try contradiction Ht; split; try reflexivity.
    cbn. unfold mk_set. cbn. now rewrite Ht. }
  destruct (E n a Ha) as [E1 E2], (E n b Hb) as [E3 E4]. rewrite E1, E3, Hc, E2, E4. reflexivity.
Qed.

Lemma ne_not_eq n s l r :
  evaluate n (TBin BNe l r) s =
  match evaluate n (TBin BEq l r) s with Ok (TBool b) => Ok (TBool (negb b)) | Ok v => Ok v | Err e => Err e end.
Proof.
  destruct n as [|n]; [reflexivity|]. rewrite !evaluate_S.
  destruct (evaluate n l s) as [lv|]; [|reflexivity]. destruct (evaluate n r s) as [rv|]; [|reflexivity]. cbn [is_comp].
  destruct (grounded n lv s) as [lg|]; [|reflexivity]. destruct (grounded n rv s) as [rg|]; [|reflexivity].
  cbn. unfold py_eq. destruct (_ && _); reflexivity.
Qed.

Theorem cmp_numbers n s x y a b : ereal_of x = Some a -> ereal_of y = Some b ->
  (exists e, evaluate (S (S n)) (TBin BEq (TNum x) (TNum y)) s = Ok (TBool e) /\ (e = true <-> ereal_eq a b)) /\
  forall c, exists o, evaluate (S (S n)) (TBin (BCmp c) (TNum x) (TNum y)) s = Ok (TBool o) /\
    (o = true <-> cop_holds c (ereal_lt a b) (ereal_eq a b) (ereal_lt b a)).
Proof.
  intros Ex Ey. pose proof (num_cmp_ereal x y a b Ex Ey) as EC. pose proof (ecmp_spec a b) as ES.
  destruct (ereal_excl a b) as (X1 & X2 & X3). split.
  - eexists. rewrite cmp_scalar by easy. split; [reflexivity|]. cbn. unfold num_eqb. rewrite EC.
    destruct (ecmp a b); split; try easy; intro; exfalso; tauto.
  - intro c. eexists. rewrite cmp_scalar by easy. split; [reflexivity|]. unfold num_ord. rewrite EC.
    apply cop_holds_spec; assumption.
Qed.

Theorem cmp_nan n s x y : ereal_of x = None \/ ereal_of y = None ->
  evaluate (S (S n)) (TBin BEq (TNum x) (TNum y)) s = Ok (TBool false) /\
  forall c, evaluate (S (S n)) (TBin (BCmp c) (TNum x) (TNum y)) s = Ok (TBool false).
Proof.
  intro H. assert (E : num_cmp x y = None).
  { assert (HN : forall z, ereal_of z = None -> num_val z = XNan) by (intros [z|[]] Hz; easy).
    unfold num_cmp. destruct H as [H|H]; rewrite (HN _ H); [reflexivity|]. now destruct (num_val x). }
  split; [|intro c]; rewrite cmp_scalar by easy; cbn; [unfold py_eq; cbn; unfold num_eqb|unfold num_ord]; now rewrite E.
Qed.

Theorem cmp_strings n s x y :
  (exists e, evaluate (S (S n)) (TBin BEq (TStr x) (TStr y)) s = Ok (TBool e) /\ (e = true <-> x = y)) /\
  forall c, exists o, evaluate (S (S n)) (TBin (BCmp c) (TStr x) (TStr y)) s = Ok (TBool o) /\
    (o = true <-> cop_holds c (lex_lt x y) (x = y) (lex_lt y x)).
Proof.
  destruct (lex_excl x y) as (X1 & X2 & X3). pose proof (pystr_cmp_spec x y) as ES. split.
  - eexists. rewrite cmp_scalar by easy. split; [reflexivity|]. cbn. apply pystr_eqb_eq.
  - intro c. eexists. rewrite cmp_scalar by easy. split; [reflexivity|]. apply cop_holds_spec; assumption.
Qed.

Theorem cmp_atoms (L : PyLawful PY) n s x y :
  (exists e, evaluate (S (S n)) (TBin BEq (TLit x [] []) (TLit y [] [])) s = Ok (TBool e) /\ (e = true <-> x = y)) /\
  forall c, exists o, evaluate (S (S n)) (TBin (BCmp c) (TLit x [] []) (TLit y [] [])) s = Ok (TBool o) /\
    (o = true <-> cop_holds c (lex_lt x y) (x = y) (lex_lt y x)).
Proof.
  assert (HO : horder [] = []) by (apply Permutation.Permutation_nil, Permutation.Permutation_sym, L).
  destruct (lex_excl x y) as (X1 & X2 & X3). pose proof (pystr_cmp_spec x y) as ES. split.
  - eexists. rewrite cmp_scalar by (try easy; exact HO). split; [reflexivity|]. cbn. rewrite !andb_true_r. apply pystr_eqb_eq.
  - intro c. eexists. rewrite cmp_scalar by (try easy; exact HO). split; [reflexivity|]. apply cop_holds_spec; assumption.
Qed.

(** The numeric order is a total order. *)
Lemma scaled_scale m e k k' : (k' <= k)%Z -> (k <= e)%Z -> scaled m e k' = (scaled m e k * 2 ^ (k - k'))%Z.
Proof. intros. unfold scaled. rewrite <- Z.mul_assoc, <- Z.pow_add_r by lia. f_equal. f_equal. lia. Qed.

Lemma scaled_lt m1 e1 m2 e2 k : (k <= Z.min e1 e2)%Z ->
  (scaled m1 e1 (Z.min e1 e2) < scaled m2 e2 (Z.min e1 e2) <-> scaled m1 e1 k < scaled m2 e2 k)%Z.
Proof.
  intro H. rewrite (scaled_scale m1 e1 (Z.min e1 e2) k), (scaled_scale m2 e2 (Z.min e1 e2) k) by lia.
  assert (0 < 2 ^ (Z.min e1 e2 - k))%Z by (apply Z.pow_pos_nonneg; lia). nia.
Qed.

Theorem ereal_order a b c :
  (ereal_lt a b \/ ereal_eq a b \/ ereal_lt b a) /\
  (~ (ereal_lt a b /\ ereal_lt b a) /\ ~ (ereal_lt a b /\ ereal_eq a b)) /\
  (ereal_lt a b -> ereal_lt b c -> ereal_lt a c).
Proof.
  split; [|split].
  - pose proof (ecmp_spec a b). destruct (ecmp a b); auto.
  - destruct (ereal_excl a b) as (A & B & C). auto.
  - destruct a as [|m1 e1|], b as [|m2 e2|], c as [|m3 e3|]; cbn; try tauto.
    set (k := Z.min e1 (Z.min e2 e3)).
    rewrite (scaled_lt m1 e1 m2 e2 k), (scaled_lt m2 e2 m3 e3 k), (scaled_lt m1 e1 m3 e3 k) by lia. lia.
Qed.

Theorem lex_order a b c :
  (lex_lt a b \/ a = b \/ lex_lt b a) /\
  (~ (lex_lt a b /\ lex_lt b a) /\ ~ (lex_lt a b /\ a = b)) /\
  (lex_lt a b -> lex_lt b c -> lex_lt a c).
Proof.
  split; [|split].
  - pose proof (pystr_cmp_spec a b). destruct (pystr_cmp a b); auto.
  - destruct (lex_excl a b) as (A & B & C). auto.
  - apply lex_lt_trans.
Qed.

(** * List notations *)
Section Den.
Variable D : Type.
Variable dconst : const -> D.
Variable dlit : pystr -> list D -> D.
Variable dcons : D -> D -> D.
Variable ex : term -> term.

Lemma den_norm th t : den D dconst dlit dcons ex th (norm t) = den D dconst dlit dcons ex th t.
Proof.
  induction t using term_ind'; try reflexivity.
  - cbn. f_equal. rewrite map_map. apply map_ext_in. intros x Hx. rewrite Forall_forall in H. auto.
  - cbn [norm]. induction ts as [|x ts IH]; [reflexivity|]. inversion H; subst. cbn [map].
    change (dcons (den D dconst dlit dcons ex th (norm x)) (den D dconst dlit dcons ex th (TTup (map norm ts))) =
            dcons (den D dconst dlit dcons ex th x) (den D dconst dlit dcons ex th (TTup ts))).
    now rewrite H2, IH.
  - cbn [norm]. transitivity (den D dconst dlit dcons ex th (TLL (norm t1) (norm t2))).
    + destruct (norm t2); reflexivity.
    + cbn [den]. now rewrite IHt1, IHt2.
Qed.
End Den.

Lemma plain_norm s ex t : plain s ex t -> plain s ex (norm t).
Proof.
  induction t using term_ind'; intro Hp; inversion Hp; subst; try assumption.
  - cbn. constructor. rewrite Forall_forall in *. intros x Hx. apply in_map_iff in Hx as (y & <- & Hy). auto.
  - cbn. constructor. rewrite Forall_forall in *. intros x Hx. apply in_map_iff in Hx as (y & <- & Hy). auto.
  - cbn. specialize (IHt1 H1). specialize (IHt2 H2). destruct (norm t2); try (constructor; assumption).
    inversion IHt2; subst. constructor. constructor; assumption.
Qed.

(** Terms that always denote the same tree unify in the same way. *)
Theorem unify_same_den ex n m l l' r r' st b1 st1 b2 st2 :
  plain (b_scope st) ex l -> plain (b_scope st) ex r ->
  plain (b_scope st) ex l' -> plain (b_scope st) ex r' ->
  plain_scope (b_scope st) ex (b_scope st) -> chain_ok (b_scope st) ->
  (forall th, ivalue ex th l = ivalue ex th l') -> (forall th, ivalue ex th r = ivalue ex th r') ->
  (forall th, value ex th l = value ex th l') -> (forall th, value ex th r = value ex th r') ->
  unify n l r st = (Ok b1, st1) -> unify m l' r' st = (Ok b2, st2) ->
  b1 = b2 /\ (b1 = true -> forall th, agrees ex th (b_scope st1) <-> agrees ex th (b_scope st2)).
Proof.
  intros P1 P2 P3 P4 PS C I1 I2 V1 V2 U1 U2.
  pose proof (unify_mgu_inf ex n l r st b1 st1 P1 P2 PS C U1) as S1.
  pose proof (unify_mgu_inf ex m l' r' st b2 st2 P3 P4 PS C U2) as S2.
  pose proof (unify_chain n _ _ _ _ _ U1 C) as C1. pose proof (unify_chain m _ _ _ _ _ U2 C) as C2.
  assert (Hb : b1 = b2).
  { destruct b1, b2; try reflexivity; exfalso.
    - pose proof (solution_agrees ex _ C1) as HA. apply S1 in HA as [A B]. apply (S2 _ A). now rewrite <- I1, <- I2.
    - pose proof (solution_agrees ex _ C2) as HA. apply S2 in HA as [A B]. apply (S1 _ A). now rewrite I1, I2. }
  split; [assumption|]. intros -> th. subst b2.
  rewrite (unify_mgu ex n l r st true st1 P1 P2 PS C U1 th), (unify_mgu ex m l' r' st true st2 P3 P4 PS C U2 th).
  now rewrite V1, V2.
Qed.

Theorem unify_norm ex n m l r st b1 st1 b2 st2 :
  plain (b_scope st) ex l -> plain (b_scope st) ex r ->
  plain_scope (b_scope st) ex (b_scope st) -> chain_ok (b_scope st) ->
  unify n l r st = (Ok b1, st1) -> unify m (norm l) (norm r) st = (Ok b2, st2) ->
  b1 = b2 /\ (b1 = true -> forall th, agrees ex th (b_scope st1) <-> agrees ex th (b_scope st2)).
Proof.
  intros P1 P2 PS C. apply unify_same_den; try assumption; try (now apply plain_norm);
    intro th; symmetry; apply den_norm.
Qed.

Lemma py_eqb_norm t : nonan t -> py_eqb t (norm t) = true.
Proof.
  induction t using term_ind'; intro Hn; try (now apply py_eqb_refl).
  - inversion Hn; subst. cbn [norm]. rewrite py_eqb_lit, pystr_eqb_refl.
    assert (E1 : list_eqb py_eqb args (map norm args) = true).
    { clear Hn. induction args as [|x xs IH]; [reflexivity|]. inversion H; subst.
      match goal with HX : Forall nonan (x :: xs) |- _ => inversion HX; subst end. cbn. apply andb_true_intro. split; auto. }
    assert (E2 : set_le py_eqb annots annots = true).
    { apply forallb_forall. intros x Hx. apply existsb_exists. exists x. split; [assumption|]. apply py_eqb_refl. rewrite Forall_forall in *. auto. }
    assert (E3 : forallb (fun y => existsb (fun x => py_eqb x y) annots) annots = true).
    { apply forallb_forall. intros x Hx. apply existsb_exists. exists x. split; [assumption|]. apply py_eqb_refl. rewrite Forall_forall in *. auto. }
    now rewrite E1, E2, E3.
  - inversion Hn; subst. cbn [norm]. clear Hn. induction ts as [|x xs IH]; [reflexivity|].
    inversion H; subst. match goal with HX : Forall nonan (x :: xs) |- _ => inversion HX; subst end.
    cbn [map]. rewrite py_eqb_tup_cons. cbn [list_view]. apply andb_true_intro. split; auto.
  - inversion Hn; subst. specialize (IHt1 ltac:(assumption)). specialize (IHt2 ltac:(assumption)).
    cbn [norm]. cbn [py_eqb]. destruct (norm t2); cbn [list_view]; rewrite IHt1, IHt2; reflexivity.
Qed.

Theorem py_eqb_norm_iff l r : nonan l -> nonan r -> py_eqb (norm l) (norm r) = py_eqb l r.
Proof.
  intros Hl Hr. pose proof (py_eqb_norm l Hl) as A. pose proof (py_eqb_norm r Hr) as B.
  pose proof A as A'. rewrite py_eqb_sym in A'. pose proof B as B'. rewrite py_eqb_sym in B'.
  apply bool_eq_iff. split; intro E.
  - eapply py_eqb_trans; [exact A|]. eapply py_eqb_trans; [exact E|exact B'].
  - eapply py_eqb_trans; [exact A'|]. eapply py_eqb_trans; [exact E|exact B].
Qed.
End WithPy.
