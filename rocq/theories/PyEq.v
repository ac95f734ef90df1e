(** Python equality of terms: symmetry, transitivity, reflexivity. *)
From Verif Require Import InstSpec.
From Verif Require Import Base Num Term.
From Coq Require Import Permutation.

Fixpoint list_eqb (e : term -> term -> bool) (xs ys : list term) : bool :=
  match xs, ys with
  | [], [] => true
  | x :: xs', y :: ys' => e x y && list_eqb e xs' ys'
  | _, _ => false
  end.

Definition set_le (e : term -> term -> bool) (xs ys : list term) : bool :=
  forallb (fun x => existsb (fun y => e x y) ys) xs.

Lemma py_eqb_lit f args annots f' args' annots' :
  py_eqb (TLit f args annots) (TLit f' args' annots') =
  pystr_eqb f f' && list_eqb py_eqb args args' && set_le py_eqb annots annots'
  && forallb (fun y => existsb (fun x => py_eqb x y) annots) annots'.
Proof.
  cbn [py_eqb].
  assert (E1 : forall xs ys, (fix go (xs ys : list term) : bool :=
                match xs, ys with
                | [], [] => true
                | x :: xs', y :: ys' => py_eqb x y && go xs' ys'
                | _, _ => false
                end) xs ys = list_eqb py_eqb xs ys).
  { induction xs as [|x xs IH]; intros [|y ys]; cbn; try reflexivity; try now rewrite IH. }
  assert (E2 : forall xs, (fix sub (xs : list term) : bool :=
                match xs with
                | [] => true
                | x :: xs' => existsb (fun y => py_eqb x y) annots' && sub xs'
                end) xs = set_le py_eqb xs annots').
  { induction xs as [|x xs IH]; cbn; try reflexivity; try now rewrite IH. }
  assert (E3 : forall y xs, (fix ex (xs : list term) : bool :=
                match xs with
                | [] => false
                | x :: xs' => py_eqb x y || ex xs'
                end) xs = existsb (fun x => py_eqb x y) xs).
  { intros y. induction xs as [|x xs IH]; cbn; try reflexivity; try now rewrite IH. }
  rewrite E1, E2. f_equal.
Qed.

Lemma py_eqb_tup_cons x xs r : py_eqb (TTup (x :: xs)) r =
  match list_view r with Some (yh, yt) => py_eqb x yh && py_eqb (TTup xs) yt | None => false end.
Proof. reflexivity. Qed.

Lemma py_eqb_nil r : py_eqb (TTup []) r = match r with TTup [] => true | _ => false end.
Proof. reflexivity. Qed.

Lemma canon_nan x y : num_canon x = num_canon y -> is_nan x = is_nan y.
Proof. unfold num_canon, is_nan. destruct (num_val x), (num_val y); cbn; congruence. Qed.

Lemma num_eqb_sym x y : num_eqb x y = num_eqb y x.
Proof.
  destruct (num_eqb x y) eqn:E1, (num_eqb y x) eqn:E2; try reflexivity.
  - apply num_eqb_canon in E1 as (A & B). pose proof (canon_nan _ _ A).
    assert (num_eqb y x = true) by (apply num_eqb_canon; split; congruence). congruence.
  - apply num_eqb_canon in E2 as (A & B). pose proof (canon_nan _ _ A).
    assert (num_eqb x y = true) by (apply num_eqb_canon; split; congruence). congruence.
Qed.

Lemma num_eqb_trans x y z : num_eqb x y = true -> num_eqb y z = true -> num_eqb x z = true.
Proof.
  intros (A & B)%num_eqb_canon (D & E)%num_eqb_canon. apply num_eqb_canon. split; congruence.
Qed.

Lemma pystr_eqb_sym a b : pystr_eqb a b = pystr_eqb b a.
Proof. destruct (pystr_eqb_spec a b), (pystr_eqb_spec b a); congruence. Qed.

Lemma unop_eqb_eq a b : unop_eqb a b = true <-> a = b.
Proof. destruct a, b; cbn; split; congruence. Qed.
Lemma nop_eqb_eq a b : nop_eqb a b = true <-> a = b.
Proof. destruct a, b; cbn; split; congruence. Qed.
Lemma cop_eqb_eq a b : cop_eqb a b = true <-> a = b.
Proof. destruct a, b; cbn; split; congruence. Qed.
Lemma binop_eqb_eq a b : binop_eqb a b = true <-> a = b.
Proof.
  destruct a as [x| | |x| | | |], b as [y| | |y| | | |]; cbn; split; try congruence;
    rewrite ?nop_eqb_eq, ?cop_eqb_eq; congruence.
Qed.

Lemma bool_eq_iff (a b : bool) : (a = true <-> b = true) -> a = b.
Proof. destruct a, b; intuition congruence. Qed.

Lemma list_eqb_sym_in xs : forall ys, Forall (fun x => forall y, py_eqb x y = py_eqb y x) xs ->
  list_eqb py_eqb xs ys = list_eqb py_eqb ys xs.
Proof.
  induction xs as [|x xs IH]; intros [|y ys] H; try reflexivity. inversion H; subst. cbn.
  rewrite H2, IH by assumption. reflexivity.
Qed.

Lemma py_eqb_sym : forall l r, py_eqb l r = py_eqb r l.
Proof.
  induction l using term_ind'; intro r.
  - destruct r; try reflexivity; [cbn; now destruct b, b0|cbn; apply num_eqb_sym|destruct ts; reflexivity].
  - destruct r; try reflexivity; [cbn; apply num_eqb_sym|cbn; apply num_eqb_sym|destruct ts; reflexivity].
  - destruct r; try reflexivity; [cbn; apply pystr_eqb_sym|destruct ts; reflexivity].
  - destruct r; try reflexivity; [cbn; apply N.eqb_sym|destruct ts; reflexivity].
  - destruct r; try reflexivity; [cbn; apply N.eqb_sym|destruct ts; reflexivity].
  - destruct r; try reflexivity; [cbn|destruct ts; reflexivity]. rewrite IHl. f_equal.
    apply bool_eq_iff. rewrite !unop_eqb_eq. intuition.
  - destruct r; try reflexivity; [cbn|destruct ts; reflexivity]. rewrite IHl1, IHl2. f_equal. f_equal.
    apply bool_eq_iff. rewrite !binop_eqb_eq. intuition.
  - destruct r as [| | | | | | |f' args' annots'|ts|]; try reflexivity; [|destruct ts; reflexivity].
    rewrite !py_eqb_lit. rewrite pystr_eqb_sym, (list_eqb_sym_in args args') by assumption.
    rewrite <- !andb_assoc. f_equal. f_equal. rewrite andb_comm. unfold set_le. f_equal.
    + apply bool_eq_iff. rewrite !forallb_forall. split; intros HH x Hx; specialize (HH x Hx);
        rewrite existsb_exists in *; destruct HH as (y & Hy & E); exists y; (split; [assumption|]);
        rewrite Forall_forall in *.
      * rewrite <- H0 by assumption. exact E.
      * rewrite H0 by assumption. exact E.
    + apply bool_eq_iff. rewrite !forallb_forall. split; intros HH x Hx; specialize (HH x Hx);
        rewrite existsb_exists in *; destruct HH as (y & Hy & E); exists y; (split; [assumption|]);
        rewrite Forall_forall in *.
      * rewrite <- H0 by assumption. exact E.
      * rewrite H0 by assumption. exact E.
  - revert r. induction ts as [|x xs IH]; intro r.
    + rewrite py_eqb_nil. destruct r as [| | | | | | | |[|y ys]|]; reflexivity.
    + inversion H; subst. rewrite py_eqb_tup_cons. destruct r as [| | | | | | | |[|y ys]|h t]; try reflexivity.
      * cbn [list_view]. rewrite py_eqb_tup_cons. cbn [list_view]. rewrite H2, IH by assumption. reflexivity.
      * cbn [list_view py_eqb]. rewrite H2. f_equal. exact (IH H3 t).
  - destruct r as [| | | | | | | |[|y ys]|h' t']; try reflexivity.
    + rewrite py_eqb_tup_cons. cbn [py_eqb list_view]. now rewrite IHl1, IHl2.
    + cbn [py_eqb list_view]. now rewrite IHl1, IHl2.
Qed.

Lemma list_eqb_trans_in xs : forall ys zs,
  Forall (fun x => forall y z, py_eqb x y = true -> py_eqb y z = true -> py_eqb x z = true) xs ->
  list_eqb py_eqb xs ys = true -> list_eqb py_eqb ys zs = true -> list_eqb py_eqb xs zs = true.
Proof.
  induction xs as [|x xs IH]; intros [|y ys] [|z zs] H H1 H2; try easy.
  inversion H; subst. cbn in *. apply andb_true_iff in H1 as [A B], H2 as [C D].
  apply andb_true_iff. split; eauto.
Qed.

Lemma py_eqb_trans : forall a b c, py_eqb a b = true -> py_eqb b c = true -> py_eqb a c = true.
Proof.
  induction a using term_ind'; intros r c H1 H2.
  - destruct r; try discriminate H1; destruct c; try discriminate H2; cbn [py_eqb] in *.
    + apply Bool.eqb_prop in H1, H2. subst. apply Bool.eqb_reflx.
    + apply Bool.eqb_prop in H1. now subst.
    + assert (E : num_eqb (bool_num b) (bool_num b0) = true) by (eapply num_eqb_trans; eassumption).
      destruct b, b0; try reflexivity; discriminate E.
    + eapply num_eqb_trans; eassumption.
  - destruct r; try discriminate H1; destruct c; try discriminate H2; cbn [py_eqb] in *.
    + apply Bool.eqb_prop in H2. now subst.
    + eapply num_eqb_trans; eassumption.
    + eapply num_eqb_trans; eassumption.
    + eapply num_eqb_trans; eassumption.
  - destruct r; try discriminate H1; destruct c; try discriminate H2; cbn [py_eqb] in *.
    apply pystr_eqb_eq in H1, H2. subst. apply pystr_eqb_refl.
  - destruct r; try discriminate H1; destruct c; try discriminate H2; cbn [py_eqb] in *.
    apply N.eqb_eq in H1, H2. subst. apply N.eqb_refl.
  - destruct r; try discriminate H1; destruct c; try discriminate H2; cbn [py_eqb] in *.
    apply N.eqb_eq in H1, H2. subst. apply N.eqb_refl.
  - destruct r; try discriminate H1; destruct c; try discriminate H2; cbn [py_eqb] in *.
    apply andb_true_iff in H1 as [A B], H2 as [C D]. apply unop_eqb_eq in A, C. subst.
    apply andb_true_iff. split; [now apply unop_eqb_eq|eauto].
  - destruct r; try discriminate H1; destruct c; try discriminate H2; cbn [py_eqb] in *.
    apply andb_true_iff in H1 as [H1 B], H2 as [H2 D]. apply andb_true_iff in H1 as [H1 E], H2 as [H2 F].
    apply binop_eqb_eq in H1, H2. subst.
    apply andb_true_iff. split; [apply andb_true_iff; split; [now apply binop_eqb_eq|eauto]|eauto].
  - destruct r as [| | | | | | |f1 args1 annots1| |]; try discriminate H1.
    destruct c as [| | | | | | |f2 args2 annots2| |]; try discriminate H2.
    rewrite py_eqb_lit in *.
    apply andb_true_iff in H1 as [H1 A4], H2 as [H2 B4]. apply andb_true_iff in H1 as [H1 A3], H2 as [H2 B3].
    apply andb_true_iff in H1 as [A1 A2], H2 as [B1 B2].
    apply pystr_eqb_eq in A1, B1. subst. rewrite pystr_eqb_refl, (list_eqb_trans_in args args1 args2) by assumption.
    cbn [andb]. unfold set_le in *. rewrite forallb_forall in *. rewrite Forall_forall in H0.
    apply andb_true_iff. rewrite !forallb_forall. split.
    + intros x Hx. specialize (A3 x Hx). rewrite existsb_exists in *. destruct A3 as (y & Hy & E).
      specialize (B3 y Hy). rewrite existsb_exists in B3. destruct B3 as (z & Hz & E2). exists z. split; [assumption|]. eauto.
    + intros z Hz. specialize (B4 z Hz). rewrite existsb_exists in *. destruct B4 as (y & Hy & E).
      specialize (A4 y Hy). rewrite existsb_exists in A4. destruct A4 as (x & Hx & E2). exists x. split; [assumption|]. eauto.
  - revert r c H1 H2. induction ts as [|x xs IH]; intros r c H1 H2.
    + rewrite py_eqb_nil in *. destruct r as [| | | | | | | |[|]|]; try discriminate. exact H2.
    + inversion H; subst. rewrite py_eqb_tup_cons in *.
      destruct (list_view r) as [[yh yt]|] eqn:Er; [|discriminate]. apply andb_true_iff in H1 as [A B].
      assert (E : exists zh zt, list_view c = Some (zh, zt) /\ py_eqb yh zh = true /\ py_eqb yt zt = true).
      { destruct r as [| | | | | | | |[|y ys]|h t]; try discriminate Er; injection Er as <- <-.
        - rewrite py_eqb_tup_cons in H2. destruct (list_view c) as [[zh zt]|]; [|discriminate].
          apply andb_true_iff in H2 as [? ?]. eauto.
        - cbn [py_eqb] in H2. destruct (list_view c) as [[zh zt]|]; [|discriminate].
          apply andb_true_iff in H2 as [? ?]. eauto. }
      destruct E as (zh & zt & -> & E1 & E2). apply andb_true_iff. split; [eauto|]. eapply IH; eassumption.
  - cbn [py_eqb] in *. destruct (list_view r) as [[yh yt]|] eqn:Er; [|discriminate]. apply andb_true_iff in H1 as [A B].
    assert (E : exists zh zt, list_view c = Some (zh, zt) /\ py_eqb yh zh = true /\ py_eqb yt zt = true).
    { destruct r as [| | | | | | | |[|y ys]|h t]; try discriminate Er; injection Er as <- <-.
      - rewrite py_eqb_tup_cons in H2. destruct (list_view c) as [[zh zt]|]; [|discriminate].
        apply andb_true_iff in H2 as [? ?]. eauto.
      - cbn [py_eqb] in H2. destruct (list_view c) as [[zh zt]|]; [|discriminate].
        apply andb_true_iff in H2 as [? ?]. eauto. }
    destruct E as (zh & zt & -> & E1 & E2). apply andb_true_iff. split; eauto.
Qed.



Lemma py_eqb_refl : forall t, nonan t -> py_eqb t t = true.
Proof.
  induction t using term_ind'; intro Hn; inversion Hn; subst; cbn [py_eqb].
  - apply Bool.eqb_reflx.
  - apply num_eqb_canon. auto.
  - apply pystr_eqb_refl.
  - apply N.eqb_refl.
  - apply N.eqb_refl.
  - apply andb_true_iff. split; [now apply unop_eqb_eq|auto].
  - apply andb_true_iff. split; [apply andb_true_iff; split; [now apply binop_eqb_eq|auto]|auto].
  - change (py_eqb (TLit f args annots) (TLit f args annots) = true). rewrite py_eqb_lit, pystr_eqb_refl.
    match goal with HA : Forall nonan args, HB : Forall nonan annots |- _ => rename HA into HA0; rename HB into HB0 end.
    assert (E : list_eqb py_eqb args args = true).
    { clear -H HA0. induction args as [|a args IH]; [reflexivity|]. inversion H; inversion HA0; subst. cbn.
      rewrite H2 by assumption. auto. }
    rewrite E. cbn [andb]. unfold set_le. rewrite Forall_forall in H0, HB0. apply andb_true_iff.
    rewrite !forallb_forall. split; intros x Hx; rewrite existsb_exists; exists x; auto.
  - change (py_eqb (TTup ts) (TTup ts) = true).
    match goal with HA : Forall nonan ts |- _ => rename HA into HA0 end.
    clear Hn. induction ts as [|a ts IH]; [reflexivity|].
    inversion H; inversion HA0; subst. rewrite py_eqb_tup_cons. cbn [list_view]. rewrite H2, IH by assumption. reflexivity.
  - cbn [list_view]. rewrite IHt1, IHt2 by assumption. reflexivity.
Qed.
