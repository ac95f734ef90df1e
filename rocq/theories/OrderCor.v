(** == and < decide [same] and [compared]. *)
From Verif Require Import Base Num Term Unify TrailFacts TermSpec InstSpec CmpSpec EnumSpec OrderSpec PyEq CmpFacts ExPy.

Lemma all_Forall (P : term -> Prop) l : fold_right and True (map P l) <-> Forall P l.
Proof.
  induction l as [|x l IH]; cbn; [split; constructor|]. rewrite IH. split; [intros [? ?]; now constructor|]. intros H. inversion H; auto.
Qed.
Lemma value_lit f args an : is_data (TLit f args an) <-> Forall is_data args /\ Forall is_data an.
Proof. cbn [is_data]. now rewrite !all_Forall. Qed.
Lemma value_tup ts : is_data (TTup ts) <-> Forall is_data ts.
Proof. cbn [is_data]. now rewrite all_Forall. Qed.

Lemma list_of_det l xs : list_of l xs -> forall ys, list_of l ys -> ys = xs.
Proof. induction 1; intros ys H1; inversion H1; subst; [reflexivity|]. f_equal. auto. Qed.
Lemma value_list t : is_data t -> is_list t = true -> exists xs, list_of t xs /\ Forall is_data xs.
Proof.
  induction t; try discriminate; intros V _.
  - exists ts. split; [constructor|now apply value_tup].
  - destruct V as (V1 & Il & V2). destruct (IHt2 V2 Il) as (xs & Hl & Hv). exists (t1 :: xs). split; now constructor.
Qed.
Lemma list_of_is t xs : list_of t xs -> is_list t = true.
Proof. now destruct 1. Qed.

Lemma proper_go l : Forall (fun t => proper t = true) l ->
  (fix go (l : list term) := match l with [] => true | x :: l' => proper x && go l' end) l = true.
Proof. induction 1 as [|x l Hx Hl IH]; [reflexivity|]. rewrite Hx, IH. reflexivity. Qed.
Lemma value_proper t : is_data t -> proper t = true.
Proof.
  induction t using term_ind'; intros V; try reflexivity; try contradiction V.
  - apply value_lit in V as [V1 V2]. cbn [proper]. rewrite !proper_go; [reflexivity| |]; rewrite Forall_forall in *; auto.
  - apply value_tup in V. cbn [proper]. rewrite proper_go; [reflexivity|]. rewrite Forall_forall in *; auto.
  - destruct V as (V1 & Il & V2). cbn [proper]. rewrite (IHt1 V1). destruct t2; try discriminate Il; now rewrite (IHt2 V2).
Qed.

(** * Equality *)
Lemma list_eqb_Forall2 xs : forall ys, list_eqb py_eqb xs ys = true <-> Forall2 (fun x y => py_eqb x y = true) xs ys.
Proof.
  induction xs as [|x xs IH]; intros [|y ys]; cbn; split; intros H; try discriminate; try (inversion H; fail); try constructor.
  - now apply andb_prop in H.
  - apply IH. now apply andb_prop in H.
  - inversion H; subst. apply andb_true_intro. split; [assumption|now apply IH].
Qed.
Lemma eqb_lists l xs : list_of l xs -> forall r ys, list_of r ys -> py_eqb l r = list_eqb py_eqb xs ys.
Proof.
  induction 1 as [ts|h t ts Ht IH].
  - induction ts as [|x ts IH]; intros r ys Hr.
    + rewrite py_eqb_nil. destruct Hr as [[|]|]; reflexivity.
    + rewrite py_eqb_tup_cons. destruct Hr as [[|y ts']|y t ts' Hr]; cbn [list_view list_eqb]; [reflexivity| |];
        f_equal; apply IH; [constructor|assumption].
  - intros r ys Hr. cbn [py_eqb]. destruct Hr as [[|y ts']|y t' ts' Hr]; cbn [list_view list_eqb]; [reflexivity| |];
      f_equal; apply IH; [constructor|assumption].
Qed.

Lemma number_det t x : number t x -> forall y, number t y -> y = x.
Proof. destruct 1; intros z H; now inversion H. Qed.
Lemma number_eqb l r x y : number l x -> number r y -> py_eqb l r = num_eqb x y.
Proof. destruct 1; destruct 1; reflexivity. Qed.
Lemma number_ord c l r x y : number l x -> number r y -> py_ord c l r = Ok (num_ord c x y).
Proof. destruct 1; destruct 1; reflexivity. Qed.
Lemma num_same x y : num_eqb x y = true <-> exists a b, ereal_of x = Some a /\ ereal_of y = Some b /\ ereal_eq a b.
Proof.
  unfold num_eqb. destruct (ereal_of x) as [a|] eqn:Ea; [destruct (ereal_of y) as [b|] eqn:Eb|].
  - rewrite (num_cmp_ereal _ _ _ _ Ea Eb). pose proof (ecmp_spec a b). destruct (ereal_excl a b) as (X1 & X2 & X3). split.
    + intros E. exists a, b. destruct (ecmp a b); try discriminate E. auto.
    + intros (a' & b' & [= <-] & [= <-] & E). destruct (ecmp a b); tauto || reflexivity.
  - split; [|intros (? & ? & _ & ? & _); discriminate]. assert (E : num_val y = XNan) by (destruct y as [?|[]]; easy).
    unfold num_cmp. rewrite E. destruct (num_val x); discriminate.
  - split; [|intros (? & ? & ? & _); discriminate]. assert (E : num_val x = XNan) by (destruct x as [?|[]]; easy).
    unfold num_cmp. rewrite E. discriminate.
Qed.

Definition decided_by (l : term) : Prop := is_data l -> forall r, is_data r -> (py_eqb l r = true <-> same l r).
Lemma items_same xs : Forall decided_by xs -> Forall is_data xs -> forall ys, Forall is_data ys ->
  (Forall2 (fun x y => py_eqb x y = true) xs ys <-> Forall2 same xs ys).
Proof.
  intros D V. induction xs as [|x xs IH]; intros ys W; split; intros H; inversion H; subst; try constructor.
  1,3: inversion D; inversion V; inversion W; subst; match goal with X : decided_by _ |- _ => now apply X end.
  all: inversion D; inversion V; inversion W; subst; apply IH; assumption.
Qed.
Lemma sets_same an an' : Forall decided_by an -> Forall is_data an -> Forall is_data an' ->
  (set_le py_eqb an an' && forallb (fun y => existsb (fun x => py_eqb x y) an) an' = true <->
   (forall x, In x an -> exists y, In y an' /\ same x y) /\ (forall y, In y an' -> exists x, In x an /\ same x y)).
Proof.
  intros D V W. rewrite Forall_forall in D, V, W. unfold set_le. rewrite andb_true_iff, !forallb_forall. split; intros [A B]; split.
  - intros x Hx. specialize (A x Hx). apply existsb_exists in A as (y & Hy & E). exists y. split; [assumption|]. apply D; auto.
  - intros y Hy. specialize (B y Hy). apply existsb_exists in B as (x & Hx & E). exists x. split; [assumption|]. apply D; auto.
  - intros x Hx. destruct (A x Hx) as (y & Hy & E). apply existsb_exists. exists y. split; [assumption|]. apply D; auto.
  - intros y Hy. destruct (B y Hy) as (x & Hx & E). apply existsb_exists. exists x. split; [assumption|]. apply D; auto.
Qed.

Lemma not_list_same l r : is_list l = true -> same l r -> exists xs ys, list_of l xs /\ list_of r ys /\ Forall2 same xs ys.
Proof. intros Il H. inversion H; subst; try discriminate Il; [inversion H0; subst; discriminate Il|eauto]. Qed.

Lemma list_decided l xs : list_of l xs -> Forall decided_by xs -> Forall is_data xs -> forall r, is_data r -> (py_eqb l r = true <-> same l r).
Proof.
  intros Hl D V r W. destruct (is_list r) eqn:Ir.
  - destruct (value_list r W Ir) as (ys & Hr & Hv). rewrite (eqb_lists _ _ Hl _ _ Hr), list_eqb_Forall2, (items_same _ D V _ Hv). split.
    + intros H. eapply sm_list; eassumption.
    + intros H. apply not_list_same in H as (xs1 & ys1 & H1 & H2 & H3); [|eapply list_of_is; eassumption].
      now rewrite <- (list_of_det _ _ Hl _ H1), <- (list_of_det _ _ Hr _ H2).
  - split.
    + intros H. exfalso. destruct Hl as [[|x ts]|h t ts Ht].
      * rewrite py_eqb_nil in H. destruct r; discriminate.
      * rewrite py_eqb_tup_cons in H. destruct r; discriminate.
      * cbn in H. destruct r; discriminate.
    + intros H. apply not_list_same in H as (xs1 & ys1 & H1 & H2 & H3); [|eapply list_of_is; eassumption].
      apply list_of_is in H2. congruence.
Qed.

Lemma decided_deep t : decided_by t /\ forall xs, list_of t xs -> Forall decided_by xs.
Proof.
  induction t using term_ind'; (split; [intros V r W; try contradiction V|try (intros xs X; inversion X; fail)]).
  - (* bool *) assert (N : exists x, number (TBool b) x) by (destruct b; eauto using number). destruct N as [x Nx]. split.
    + intros H. assert (N : exists y, number r y). { destruct r as [b'| | | | | | | | |]; try discriminate H; [destruct b'|]; eauto using number. }
      destruct N as [y Ny]. rewrite (number_eqb _ _ _ _ Nx Ny) in H. apply num_same in H as (a & c & ? & ? & ?). eapply sm_num; eassumption.
    + intros H. inversion H; subst.
      * rewrite (number_eqb _ _ _ _ H0 H1). apply num_same. eauto.
      * inversion H0.
  - split.
    + intros H. assert (N : exists y, number r y). { destruct r as [b'| | | | | | | | |]; try discriminate H; [destruct b'|]; eauto using number. }
      destruct N as [y Ny]. rewrite (number_eqb _ _ _ _ (nb_num x) Ny) in H. apply num_same in H as (a & c & ? & ? & ?). eapply sm_num; [constructor|..]; eassumption.
    + intros H. inversion H; subst.
      * rewrite (number_eqb _ _ _ _ H0 H1). apply num_same. eauto.
      * inversion H0.
  - split.
    + intros H. destruct r; try discriminate H. cbn in H. apply pystr_eqb_eq in H. subst. constructor.
    + intros H. inversion H; subst; [inversion H0|cbn; now apply pystr_eqb_eq|inversion H0].
  - apply value_lit in V as [V1 V2]. destruct r as [| | | | | | |f' args' an'| |]; try (split; [discriminate|intros X; inversion X; subst;
      match goal with Y : number (TLit _ _ _) _ |- _ => inversion Y | Y : list_of (TLit _ _ _) _ |- _ => inversion Y end]; fail).
    apply value_lit in W as [W1 W2]. rewrite py_eqb_lit, <- andb_assoc, andb_true_iff, andb_true_iff.
    assert (D1 : Forall decided_by args) by (revert H; apply Forall_impl; tauto).
    assert (D2 : Forall decided_by annots) by (revert H0; apply Forall_impl; tauto).
    rewrite list_eqb_Forall2, (items_same _ D1 V1 _ W1), (sets_same _ _ D2 V2 W2), pystr_eqb_eq. split.
    + intros ((-> & A) & B & C). now constructor.
    + intros X. inversion X; subst; [inversion H1|tauto|inversion H1].
  - assert (D : Forall decided_by ts) by (revert H; apply Forall_impl; tauto). apply value_tup in V. apply (list_decided _ _ (lo_tup ts) D V r W).
  - intros xs X. inversion X; subst. revert H. apply Forall_impl. tauto.
  - destruct V as (V1 & Il & V2). destruct (value_list _ V2 Il) as (xs & Hl & Hv).
    apply (list_decided (TLL t1 t2) (t1 :: xs)); [now constructor|constructor; [apply IHt1|now apply IHt2]|now constructor|assumption].
  - intros xs X. inversion X; subst. constructor; [apply IHt1|now apply IHt2].
Qed.
Theorem eqb_same l r : is_data l -> is_data r -> (py_eqb l r = true <-> same l r).
Proof. intros V W. now apply (proj1 (decided_deep l)). Qed.

(** * Order *)
Fixpoint olist (c : cop) (xs ys : list term) : res bool :=
  match xs, ys with
  | [], [] => Ok (cop_of c Eq)
  | [], _ :: _ => Ok (cop_of c Lt)
  | _ :: _, [] => Ok (cop_of c Gt)
  | x :: xs', y :: ys' => if py_eqb x y then olist c xs' ys' else py_ord c x y
  end.
Lemma ord_lit c f args an f' args' an' : py_ord c (TLit f args an) (TLit f' args' an') =
  match args, an, args', an' with
  | [], [], [], [] => Ok (cop_of c (pystr_cmp f f'))
  | _, _, _, _ => if pystr_eqb f f' && Nat.eqb (List.length args) (List.length args') then olist c args args' else Err EType
  end.
Proof.
  cbn [py_ord]. assert (E : forall xs ys, (fix go (xs ys : list term) : res bool :=
                   match xs, ys with
                   | [], [] => ord_len c Eq
                   | [], _ :: _ => ord_len c Lt
                   | _ :: _, [] => ord_len c Gt
                   | x :: xs', y :: ys' => if py_eqb x y then go xs' ys' else py_ord c x y
                   end) xs ys = olist c xs ys).
  { induction xs as [|x xs IH]; intros [|y ys]; cbn; try reflexivity. now rewrite IH. }
  destruct args, an, args', an'; try reflexivity; rewrite E; reflexivity.
Qed.
Lemma list_proper l xs : list_of l xs -> Forall is_data xs -> proper l = true.
Proof.
  induction 1 as [ts|h t ts Ht IH]; intros V; [now apply value_proper, value_tup|].
  inversion V; subst. cbn [proper]. rewrite (value_proper h) by assumption. destruct Ht; now apply IH.
Qed.
Lemma ord_lists c l xs : list_of l xs -> Forall is_data xs -> forall r ys, list_of r ys -> Forall is_data ys -> py_ord c l r = olist c xs ys.
Proof.
  induction 1 as [ts|h t ts Ht IH]; intros V.
  - intros r ys Hr W. assert (Pr := list_proper _ _ Hr W). cbn [py_ord].
    transitivity ((fix go (xs : list term) (y : term) : res bool :=
         match xs with
         | [] => match list_view y with None => ord_len c Eq | Some _ => ord_len c Lt end
         | x :: xs' =>
             match list_view y with
             | None => ord_len c Gt
             | Some (yh, yt) => if py_eqb x yh then go xs' yt else py_ord c x yh
             end
         end) ts r); [rewrite Pr; destruct Hr; reflexivity|]. clear V W Pr. revert r ys Hr.
    induction ts as [|x ts IH]; intros r ys Hr; destruct Hr as [[|y ts']|y t ts' Hr]; try reflexivity; cbn [list_view olist]; (destruct (py_eqb x y); [apply IH; first [constructor|assumption]|reflexivity]).
  - intros r ys Hr W. assert (Pr := list_proper _ _ Hr W). assert (Pl : proper (TLL h t) = true) by (eapply list_proper; [apply lo_ll; eassumption|eassumption]).
    inversion V; subst. cbn [py_ord]. rewrite Pl, Pr. destruct Hr as [[|y ts']|y t' ts' Hr]; cbn [list_view olist andb]; [reflexivity| |]; inversion W; subst;
      (destruct (py_eqb h y); [|reflexivity]); apply IH; try assumption; constructor.
Qed.

Lemma answers_some c o : answers c (Some o) = cop_of c o.
Proof. now destruct c, o. Qed.
Lemma answers_none c : answers c None = false.
Proof. now destruct c. Qed.
Lemma num_ord_some c x y a b o : ereal_of x = Some a -> ereal_of y = Some b -> related o (ereal_lt a b) (ereal_eq a b) (ereal_lt b a) ->
  num_ord c x y = answers c (Some o).
Proof.
  intros Ea Eb R. unfold num_ord. rewrite (num_cmp_ereal _ _ _ _ Ea Eb), answers_some.
  pose proof (ecmp_spec a b). destruct (ereal_excl a b) as (X1 & X2 & X3).
  assert (ecmp a b = o) as ->; [|reflexivity]. destruct (ecmp a b), o; cbn in R; tauto || reflexivity.
Qed.
Lemma num_ord_none c x y : ereal_of x = None \/ ereal_of y = None -> num_ord c x y = false.
Proof.
  intros H. assert (E : num_cmp x y = None).
  { assert (HN : forall z, ereal_of z = None -> num_val z = XNan) by (intros [z|[]] Hz; easy).
    unfold num_cmp. destruct H as [H|H]; rewrite (HN _ H); [reflexivity|]. now destruct (num_val x). }
  unfold num_ord. now rewrite E.
Qed.
Lemma str_ord c s s' o : related o (lex_lt s s') (s = s') (lex_lt s' s) -> cop_of c (pystr_cmp s s') = answers c (Some o).
Proof.
  intros R. rewrite answers_some. pose proof (pystr_cmp_spec s s'). destruct (lex_excl s s') as (X1 & X2 & X3).
  assert (pystr_cmp s s' = o) as ->; [|reflexivity]. destruct (pystr_cmp s s'), o; cbn in R; tauto || reflexivity.
Qed.
Lemma str_related s s' : exists o, related o (lex_lt s s') (s = s') (lex_lt s' s).
Proof. exists (pystr_cmp s s'). pose proof (pystr_cmp_spec s s'). now destruct (pystr_cmp s s'). Qed.
Lemma num_compared l r x y : number l x -> number r y -> exists o, compared l r o.
Proof.
  intros Nx Ny. destruct (ereal_of x) as [a|] eqn:Ea; [destruct (ereal_of y) as [b|] eqn:Eb|].
  - exists (Some (ecmp a b)). eapply cp_num; try eassumption. pose proof (ecmp_spec a b). now destruct (ecmp a b).
  - exists None. eapply cp_nan; eauto.
  - exists None. eapply cp_nan; eauto.
Qed.

Definition agreed {A} (R : option comparison -> Prop) (f : cop -> res A) (ok : bool -> A) : Prop :=
  (forall o, R o -> forall c, f c = Ok (ok (answers c o))) /\ ((exists o, R o) \/ forall c, f c = Err EType).
Definition ordered (l : term) : Prop := is_data l -> forall r, is_data r -> agreed (compared l r) (fun c => py_ord c l r) (fun b => b).

Lemma items_agreed xs : Forall ordered xs -> Forall is_data xs -> forall ys, Forall is_data ys ->
  agreed (items_compared xs ys) (fun c => olist c xs ys) (fun b => b).
Proof.
  intros D V. induction xs as [|x xs IH]; intros [|y ys] W.
  - split; [|left; eexists; constructor]. intros o H c. inversion H; subst. now rewrite answers_some.
  - split; [|left; eexists; constructor]. intros o H c. inversion H; subst. now rewrite answers_some.
  - split; [|left; eexists; constructor]. intros o H c. inversion H; subst. now rewrite answers_some.
  - inversion D as [|? ? D1 D2]; inversion V as [|? ? V1 V2]; inversion W as [|? ? W1 W2]; subst.
    pose proof (eqb_same x y V1 W1) as E. destruct (IH D2 V2 _ W2) as [I1 I2]. destruct (D1 V1 y W1) as [O1 O2]. split.
    + intros o H c. cbn [olist]. inversion H; subst.
      * replace (py_eqb x y) with true by (symmetry; now apply E). now apply I1.
      * destruct (py_eqb x y); [exfalso; match goal with X : ~ same x y |- _ => now apply X, E end|]. now apply O1.
    + cbn [olist]. destruct (py_eqb x y) eqn:Ex.
      * destruct I2 as [[o I2]|I2]; [|now right]. left. exists o. apply ic_same; [now apply E|assumption].
      * destruct O2 as [[o O2]|O2]; [|now right]. left. exists o. apply ic_diff; [intros X; apply E in X; discriminate|assumption].
Qed.

Lemma list_ordered l xs : list_of l xs -> Forall ordered xs -> Forall is_data xs -> forall r, is_data r -> agreed (compared l r) (fun c => py_ord c l r) (fun b => b).
Proof.
  intros Hl D V r W. destruct (is_list r) eqn:Ir.
  - destruct (value_list r W Ir) as (ys & Hr & Hv). destruct (items_agreed xs D V ys Hv) as [I1 I2]. split.
    + intros o H c. rewrite (ord_lists c _ _ Hl V _ _ Hr Hv). apply I1. inversion H; subst; try (inversion Hl; fail).
      * destruct Hl; inversion H0.
      * destruct Hl; inversion H0.
      * now rewrite <- (list_of_det _ _ Hl _ H0), <- (list_of_det _ _ Hr _ H1).
    + destruct I2 as [[o I2]|I2]; [left; exists o; eapply cp_list; eassumption|]. right. intros c. rewrite (ord_lists c _ _ Hl V _ _ Hr Hv). apply I2.
  - split.
    + intros o H c. exfalso. inversion H; subst; try (inversion Hl; fail).
      * destruct Hl; inversion H0.
      * destruct Hl; inversion H0.
      * apply list_of_is in H1. congruence.
    + right. intros c. destruct Hl; destruct r; try discriminate Ir; reflexivity.
Qed.

Ltac no_list := match goal with H : list_of _ _ |- _ => now inversion H end.
Ltac no_number := match goal with H : number _ _ |- _ => now inversion H end.
Lemma ordered_deep t : ordered t /\ forall xs, list_of t xs -> Forall ordered xs.
Proof.
  assert (HN : forall l x, number l x -> (forall c r, (forall y, ~ number r y) -> py_ord c l r = Err EType) /\ forall xs, ~ list_of l xs).
  { intros l x [| |]; (split; [intros c r Hr; destruct r as [[]| | | | | | | | |]; try reflexivity; edestruct Hr; constructor|intros xs X; inversion X]). }
  assert (HD : forall r, (exists y, number r y) \/ forall y, ~ number r y).
  { intros [[]| | | | | | | | |]; try (right; intros y X; inversion X; fail); left; eauto using number. }
  assert (HO : forall l x, number l x -> forall r, agreed (compared l r) (fun c => py_ord c l r) (fun b => b)).
  { intros l x Nx r. destruct (HN l x Nx) as [N1 N2]. destruct (HD r) as [[y Ny]|Nr].
    - split; [|left; eapply num_compared; eassumption]. intros o H c. rewrite (number_ord c _ _ _ _ Nx Ny). f_equal. inversion H; subst.
      + rewrite <- (number_det _ _ Nx _ H0), <- (number_det _ _ Ny _ H1) in *. eapply num_ord_some; eassumption.
      + rewrite <- (number_det _ _ Nx _ H0), <- (number_det _ _ Ny _ H1) in *. rewrite answers_none. now apply num_ord_none.
      + inversion Nx.
      + inversion Nx.
      + inversion Nx.
      + now destruct (N2 xs).
    - split; [|right; intros c; now apply N1]. intros o H c. exfalso. inversion H; subst; try (eapply Nr; eassumption); try (inversion Nx; fail). eapply N2; eassumption. }
  induction t using term_ind'; (split; [intros V r W; try contradiction V|try (intros xs X; inversion X; fail)]).
  - destruct b; eapply HO; constructor.
  - eapply HO; constructor.
  - destruct r as [| |s'| | | | | | |]; try (split; [intros o X; exfalso; inversion X; subst; try no_number; no_list|now right]).
    destruct (str_related s s') as [o Ho]. split; [|left; exists (Some o); now constructor].
    intros o' X c. cbn [py_ord]. inversion X; subst; try no_number; try no_list. f_equal. now apply str_ord.
  - apply value_lit in V as [V1 V2]. destruct r as [| | | | | | |f' args' an'| |]; try (split; [intros o X; exfalso; inversion X; subst; try no_number; no_list|now right]).
    apply value_lit in W as [W1 W2]. assert (D : Forall ordered args) by (revert H; apply Forall_impl; tauto).
    destruct (items_agreed args D V1 args' W1) as [I1 I2].
    assert (CA : (args = [] /\ annots = [] /\ args' = [] /\ an' = []) \/ ((args <> [] \/ annots <> [] \/ args' <> [] \/ an' <> []) /\
       forall c, py_ord c (TLit f args annots) (TLit f' args' an') =
         if pystr_eqb f f' && Nat.eqb (List.length args) (List.length args') then olist c args args' else Err EType)).
    { destruct args, annots, args', an'; try (right; split; [intuition discriminate|intros c; now rewrite ord_lit]). now left. }
    destruct CA as [(-> & -> & -> & ->)|[Hne EO]].
    + destruct (str_related f f') as [o Ho]. split; [|left; exists (Some o); now constructor].
      intros o' X c. cbn [py_ord]. inversion X; subst; try no_number; try no_list; [f_equal; now apply str_ord|]. intuition congruence.
    + split.
      * intros o X c. rewrite EO. inversion X; subst; try no_number; try no_list; [intuition congruence|].
        rewrite pystr_eqb_refl. replace (Nat.eqb _ _) with true by (symmetry; now apply Nat.eqb_eq). cbn [andb]. now apply I1.
      * destruct (pystr_eqb f f' && Nat.eqb (List.length args) (List.length args')) eqn:E; [|right; intros c; now rewrite EO].
        apply andb_prop in E as [E1 E2]. apply pystr_eqb_eq in E1. apply Nat.eqb_eq in E2. subst f'.
        destruct I2 as [[o I2]|I2]; [left; exists o|right; intros c; rewrite EO; apply I2].
        apply cp_lit; [|assumption|assumption]. destruct args, args'; try discriminate E2; intuition discriminate.
  - assert (D : Forall ordered ts) by (revert H; apply Forall_impl; tauto). apply value_tup in V. apply (list_ordered _ _ (lo_tup ts) D V r W).
  - intros xs X. inversion X; subst. revert H. apply Forall_impl. tauto.
  - destruct V as (V1 & Il & V2). destruct (value_list _ V2 Il) as (xs & Hl & Hv).
    apply (list_ordered (TLL t1 t2) (t1 :: xs)); [now constructor|constructor; [apply IHt1|now apply IHt2]|now constructor|assumption].
  - intros xs X. inversion X; subst. constructor; [apply IHt1|now apply IHt2].
Qed.

(** * Expressions *)
Section WithPy.
Context {PY : Py}.

Theorem equal_values n s l r v w : valued n s l v -> valued n s r w -> is_data v -> is_data w ->
  exists b, evaluate (S n) (TBin BEq l r) s = Ok (TBool b) /\ (b = true <-> same v w).
Proof.
  intros (u1 & E1 & G1) (u2 & E2 & G2) V W. exists (py_eqb v w). split; [|now apply eqb_same].
  rewrite evaluate_S, E1, E2. cbn [is_comp]. rewrite G1, G2. cbn. unfold py_eq. rewrite (value_proper v V), (value_proper w W). reflexivity.
Qed.
Theorem ordered_values n s l r v w : valued n s l v -> valued n s r w -> is_data v -> is_data w ->
  (forall o, compared v w o -> forall c, evaluate (S n) (TBin (BCmp c) l r) s = Ok (TBool (answers c o))) /\
  ((forall o, ~ compared v w o) -> forall c, evaluate (S n) (TBin (BCmp c) l r) s = Err EType).
Proof.
  intros (u1 & E1 & G1) (u2 & E2 & G2) V W. destruct (proj1 (ordered_deep v) V w W) as [A B].
  assert (E : forall c, evaluate (S n) (TBin (BCmp c) l r) s = rmap TBool (py_ord c v w)).
  { intros c. rewrite evaluate_S, E1, E2. cbn [is_comp]. rewrite G1, G2. cbn. destruct (py_ord c v w); reflexivity. }
  split.
  - intros o Ho c. rewrite E, (A o Ho c). reflexivity.
  - intros Hn c. destruct B as [[o Ho]|B]; [now destruct (Hn o)|]. rewrite E, B. reflexivity.
Qed.
End WithPy.

(** * Examples *)
Lemma int_same z l r : number l (NInt z) -> number r (NInt z) -> same l r.
Proof. intros A B. eapply sm_num; [exact A|exact B|reflexivity|reflexivity|reflexivity]. Qed.
Lemma lists_less : compared (TTup [TNum (NInt 1); TNum (NInt 2)]) (TLL (TNum (NInt 1)) (TTup [TNum (NInt 2); TNum (NInt 3)])) (Some Lt).
Proof.
  eapply cp_list; [constructor|repeat constructor|]. apply ic_same; [eapply int_same; constructor|].
  apply ic_same; [eapply int_same; constructor|]. constructor.
Qed.
Lemma lits_less : compared (TLit (s2p "p") [TNum (NInt 1); TNum (NInt 0)] []) (TLit (s2p "p") [TBool true; TNum (NInt 1)] []) (Some Lt).
Proof.
  apply cp_lit; [left; discriminate|reflexivity|]. apply ic_same; [eapply int_same; constructor|]. apply ic_diff.
  - intros H. apply eqb_same in H; [discriminate H|exact I|exact I].
  - eapply cp_num; [constructor|constructor|reflexivity|reflexivity|]. cbn. lia.
Qed.
Lemma lits_apart o : ~ compared (TLit (s2p "p") [TNum (NInt 1)] []) (TLit (s2p "p") [TNum (NInt 1); TNum (NInt 2)] []) o.
Proof. intros H. inversion H; subst; try no_number; try no_list. discriminate. Qed.
Lemma two_valued : @valued ExPy.PyEx 3 [] (TTup [TNum (NInt 1); TNum (NInt 2)]) (TTup [TNum (NInt 1); TNum (NInt 2)]).
Proof. exists (TTup [TNum (NInt 1); TNum (NInt 2)]). split; reflexivity. Qed.
