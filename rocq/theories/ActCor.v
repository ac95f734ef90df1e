(** The functions and tests of the action library. *)
From Verif Require Import Base Num Term Unify TrailFacts FuelFacts AnnotFlat Str World Engine FuelEngine Names CmpSpec CmpFacts QuerySpec EnumSpec EnumFacts ActSpec.
From Coq Require Import QArith Qround SpecFloat Lia Sorting.Permutation Sorting.Sorted.

(** * Order *)
Lemma ereal_lt_Q m1 e1 m2 e2 : ereal_lt (Fin m1 e1) (Fin m2 e2) <-> (dyadic m1 e1 < dyadic m2 e2)%Q.
Proof.
  cbn [ereal_lt]. rewrite Qlt_alt, dyadic_cmp. symmetry. apply Z.compare_lt_iff.
Qed.

Lemma ereal_negtrans a b c : ereal_lt a c -> ereal_lt a b \/ ereal_lt b c.
Proof.
  destruct a as [|m1 e1|], b as [|m2 e2|], c as [|m3 e3|]; try (cbn; tauto).
  rewrite !ereal_lt_Q. intro H. destruct (Qlt_le_dec (dyadic m1 e1) (dyadic m2 e2)) as [L|L]; [now left|right]. eapply Qle_lt_trans; eassumption.
Qed.

Lemma lex_negtrans a c : lex_lt a c -> forall b, lex_lt a b \/ lex_lt b c.
Proof.
  intros H b. destruct (lex_order a b c) as ([L|[E|L]] & _ & T).
  - now left.
  - subst. now right.
  - right. apply (proj2 (proj2 (lex_order b a c))); assumption.
Qed.

Lemma below_negtrans x y z : below x z -> sortable [x; y; z] -> below x y \/ below y z.
Proof.
  intros H S. destruct S as [S|[S|S]]; inversion S as [|? ? S1 S2]; inversion S2 as [|? ? S3 S4]; subst.
  - destruct S3 as (ny & b & -> & Eb). inversion H as [nx nz a c Ea Ec L| |]; subst; try (destruct S1 as (? & ? & ? & _); discriminate).
    destruct (ereal_negtrans a b c L); [left|right]; econstructor; eassumption.
  - destruct S3 as (sy & ->). destruct S1 as (sx & ->). inversion H as [|? ? L|]; subst. destruct (lex_negtrans _ _ L sy); [left|right]; now constructor.
  - destruct S3 as (sy & ->). destruct S1 as (sx & ->). inversion H as [| |? ? L]; subst. destruct (lex_negtrans _ _ L sy); [left|right]; now constructor.
Qed.

Lemma below_asym x y : below x y -> ~ below y x.
Proof.
  intros H H'. inversion H; subst; inversion H'; subst.
  - assert (a0 = b) by congruence. assert (b0 = a) by congruence. subst. now apply (proj1 (ereal_excl a b)).
  - apply (proj1 (proj1 (proj2 (lex_order x0 y0 x0)))); auto.
  - apply (proj1 (proj1 (proj2 (lex_order x0 y0 x0)))); auto.
Qed.

Lemma sortable_in l l' : sortable l -> (forall x, In x l' -> In x l) -> sortable l'.
Proof.
  intros S H. destruct S as [S|[S|S]]; [left|right; left|right; right]; apply Forall_forall; intros x Hx; apply H in Hx; revert x Hx; now apply Forall_forall.
Qed.
Lemma sortable2 l x y : sortable l -> In x l -> In y l -> sortable [x; y].
Proof. intros S Hx Hy. eapply sortable_in; [exact S|]. intros z [<-|[<-|[]]]; assumption. Qed.

Lemma ord_below c x y : sortable [x; y] -> (c = CLt \/ c = CGt) ->
  exists b, py_ord c x y = Ok b /\ (b = true <-> match c with CLt => below x y | _ => below y x end).
Proof.
  intros S Hc. assert (S2 := S). destruct S as [S|[S|S]]; inversion S as [|? ? S1 S3]; inversion S3 as [|? ? S4 S5]; subst; clear S S3 S5.
  - destruct S1 as (nx & a & -> & Ea), S4 as (ny & b & -> & Eb). exists (num_ord c nx ny). split; [reflexivity|].
    unfold num_ord. rewrite (num_cmp_ereal _ _ _ _ Ea Eb). pose proof (ecmp_spec a b) as E.
    destruct (ereal_excl a b) as (X1 & X2 & X3).
    assert (B1 : below (TNum nx) (TNum ny) <-> ereal_lt a b).
    { split; [intro H; inversion H; subst; congruence|intro; econstructor; eassumption]. }
    assert (B2 : below (TNum ny) (TNum nx) <-> ereal_lt b a).
    { split; [intro H; inversion H; subst; congruence|intro; econstructor; eassumption]. }
    destruct Hc as [-> | ->]; [rewrite B1|rewrite B2]; destruct (ecmp a b); cbn; split; intro; try tauto; try discriminate.
  - destruct S1 as (sx & ->), S4 as (sy & ->). eexists. split; [reflexivity|]. pose proof (pystr_cmp_spec sx sy) as E.
    destruct (lex_order sx sy sx) as (_ & (X1 & X2) & _). assert (X3 := proj2 (proj1 (proj2 (lex_order sy sx sx)))).
    assert (B : forall p q, below (TStr p) (TStr q) <-> lex_lt p q) by (intros p q; split; [intro H; now inversion H|now constructor]).
    destruct Hc as [-> | ->]; rewrite B; destruct (pystr_cmp sx sy); cbn; subst; split; intro; try tauto; try discriminate; exfalso; auto.
  - destruct S1 as (sx & ->), S4 as (sy & ->). eexists. split; [reflexivity|]. pose proof (pystr_cmp_spec sx sy) as E.
    destruct (lex_order sx sy sx) as (_ & (X1 & X2) & _). assert (X3 := proj2 (proj1 (proj2 (lex_order sy sx sx)))).
    assert (B : forall p q, below (TLit p [] []) (TLit q [] []) <-> lex_lt p q) by (intros p q; split; [intro H; now inversion H|now constructor]).
    destruct Hc as [-> | ->]; rewrite B; destruct (pystr_cmp sx sy); cbn; subst; split; intro; try tauto; try discriminate; exfalso; auto.
Qed.

(** [better y x]: [y] replaces [x]. *)
Lemma select_best c (better : term -> term -> Prop) U :
  (forall x y, In x U -> In y U -> exists b, py_ord c y x = Ok b /\ (b = true <-> better y x)) ->
  (forall x y z, In x U -> In y U -> In z U -> better x z -> better x y \/ better y z) ->
  (forall x y, better x y -> ~ better y x) ->
  forall l best pre mid, (forall x, In x (pre ++ best :: mid ++ l) -> In x U) ->
  Forall (fun x => better best x) pre -> Forall (fun x => ~ better x best) mid ->
  exists m, select c best l = Ok m /\
    exists pre' post', pre ++ best :: mid ++ l = pre' ++ m :: post' /\
      Forall (fun x => better m x) pre' /\ Forall (fun x => ~ better x m) post'.
Proof.
  intros HO HN HA. induction l as [|x l IH]; intros best pre mid HU Hpre Hmid; cbn [select].
  - exists best. split; [reflexivity|]. exists pre, mid. rewrite app_nil_r. auto.
  - assert (Ib : In best U) by (apply HU, in_or_app; right; now left).
    assert (Ix : In x U) by (apply HU, in_or_app; right; right; apply in_or_app; right; now left).
    destruct (HO best x Ib Ix) as (b & -> & Hb). destruct b.
    + assert (B : better x best) by now apply Hb.
      destruct (IH x (pre ++ best :: mid) []) as (m & E & pre' & post' & Q & H1 & H2).
      * intros y Hy. apply HU. rewrite <- app_assoc in Hy. exact Hy.
      * apply Forall_app. split; [|constructor; [exact B|]].
        -- apply Forall_forall. intros y Hy. rewrite Forall_forall in Hpre. specialize (Hpre y Hy).
           assert (Iy : In y U) by (apply HU, in_or_app; now left).
           destruct (HN best x y Ib Ix Iy Hpre) as [F|F]; [now apply HA in F|exact F].
        -- apply Forall_forall. intros y Hy. rewrite Forall_forall in Hmid. specialize (Hmid y Hy).
           assert (Iy : In y U) by (apply HU, in_or_app; right; right; apply in_or_app; now left).
           destruct (HN x y best Ix Iy Ib B) as [F|F]; [exact F|contradiction].
      * constructor.
      * exists m. split; [exact E|]. exists pre', post'. rewrite <- Q. cbn [Datatypes.app]. rewrite <- app_assoc. auto.
    + destruct (IH best pre (mid ++ [x])) as (m & E & pre' & post' & Q & H1 & H2).
      * intros y Hy. apply HU. rewrite <- app_assoc in Hy. exact Hy.
      * exact Hpre.
      * apply Forall_app. split; [exact Hmid|]. constructor; [|constructor]. intro B. apply Hb in B. discriminate.
      * exists m. split; [exact E|]. exists pre', post'. rewrite <- Q, <- app_assoc. auto.
Qed.

Lemma max_greatest l : sortable l -> l <> [] -> exists m, py_max l = Ok m /\ greatest m l.
Proof.
  intros S Hl. destruct l as [|x l]; [contradiction|].
  destruct (select_best CGt (fun y x => below x y) (x :: l)) with (l := l) (best := x) (pre := @nil term) (mid := @nil term) as (m & E & pre & post & Q & H1 & H2); auto.
  - intros y z Hy Hz. destruct (ord_below CGt z y (sortable2 _ _ _ S Hz Hy)) as (b & E & Hb); [now right|]. exists b. auto.
  - intros a b c Ha Hb Hc B. destruct (below_negtrans c b a B) as [F|F]; auto.
    eapply sortable_in; [exact S|]. intros t [<-|[<-|[<-|[]]]]; assumption.
  - intros a b B. now apply below_asym.
  - exists m. split; [exact E|]. exists pre, post. auto.
Qed.
Lemma min_least l : sortable l -> l <> [] -> exists m, py_min l = Ok m /\ least m l.
Proof.
  intros S Hl. destruct l as [|x l]; [contradiction|].
  destruct (select_best CLt (fun y x => below y x) (x :: l)) with (l := l) (best := x) (pre := @nil term) (mid := @nil term) as (m & E & pre & post & Q & H1 & H2); auto.
  - intros y z Hy Hz. destruct (ord_below CLt z y (sortable2 _ _ _ S Hz Hy)) as (b & E & Hb); [now left|]. exists b. auto.
  - intros a b c Ha Hb Hc B. destruct (below_negtrans a b c B) as [F|F]; auto.
    eapply sortable_in; [exact S|]. intros t [<-|[<-|[<-|[]]]]; assumption.
  - intros a b B. now apply below_asym.
  - exists m. split; [exact E|]. exists pre, post. auto.
Qed.

Definition in_order (l : list term) (i j : nat) : Prop :=
  forall x y, nth_error l i = Some x -> nth_error l j = Some y -> below x y \/ ~ below y x /\ (i < j)%nat.

Lemma lt_yes_below x y : sortable [x; y] -> lt_yes x y = true <-> below x y.
Proof.
  intro S. unfold lt_yes. destruct (ord_below CLt x y S) as (b & -> & H); [now left|]. rewrite <- H. destruct b; tauto.
Qed.

Lemma insert_ordered x l : sortable (x :: l) -> forall L q, (forall k, In k q -> (0 < k)%nat) ->
  map Some L = map (nth_error (x :: l)) q -> StronglySorted (in_order (x :: l)) q ->
  exists p, Permutation p (0%nat :: q) /\ map Some (insert_sorted x L) = map (nth_error (x :: l)) p /\
    StronglySorted (in_order (x :: l)) p.
Proof.
  intros S. induction L as [|y L IH]; intros q Hq HL HS; destruct q as [|k q]; try discriminate HL.
  - exists [0%nat]. split; [apply Permutation_refl|]. split; [reflexivity|]. repeat constructor.
  - cbn [map] in HL. injection HL as Ey HL. cbn [insert_sorted]. inversion HS as [|? ? HS1 HS2]; subst.
    assert (Iy : In y (x :: l)) by (symmetry in Ey; now apply nth_error_In in Ey).
    destruct (lt_yes y x) eqn:E.
    + destruct (IH q) as (p & P1 & P2 & P3); [intros; apply Hq; now right|exact HL|exact HS1|].
      exists (k :: p). split; [|split].
      * rewrite P1. apply perm_swap.
      * cbn [map]. now rewrite Ey, P2.
      * constructor; [exact P3|]. apply Forall_forall. intros j Hj. apply (Permutation_in _ P1) in Hj. destruct Hj as [<-|Hj].
        -- intros a b Ha Hb. cbn in Hb. injection Hb as <-. rewrite Ha in Ey. injection Ey as ->. left.
           apply lt_yes_below; [|exact E]. eapply sortable2; [exact S|exact Iy|now left].
        -- rewrite Forall_forall in HS2. now apply HS2.
    + assert (NB : ~ below y x). { intro B. apply lt_yes_below in B; [congruence|]. eapply sortable2; [exact S|exact Iy|now left]. }
      exists (0%nat :: k :: q). split; [apply Permutation_refl|]. split; [cbn [map nth_error]; now rewrite Ey, HL|].
      constructor; [exact HS|]. apply Forall_forall. intros j Hj a b Ha Hb. cbn in Ha. injection Ha as <-. right.
      assert (Ib : In b (x :: l)) by now apply nth_error_In in Hb.
      split; [|now apply Hq]. destruct Hj as [<-|Hj].
      * rewrite Hb in Ey. now injection Ey as ->.
      * intro B. rewrite Forall_forall in HS2. symmetry in Ey. destruct (HS2 j Hj y b Ey Hb) as [F|[F _]].
        -- destruct (below_negtrans b y x B) as [G|G]; [|now apply below_asym in F|contradiction].
           eapply sortable_in; [exact S|]. intros t [<-|[<-|[<-|[]]]]; auto. now left.
        -- destruct (below_negtrans b y x B) as [G|G]; [|contradiction|contradiction].
           eapply sortable_in; [exact S|]. intros t [<-|[<-|[<-|[]]]]; auto. now left.
Qed.

Lemma insertion_sorts l : sortable l -> sorted_as l (fold_right insert_sorted [] l).
Proof.
  induction l as [|x l IH]; intro S.
  - exists []. split; [apply Permutation_refl|]. split; [reflexivity|constructor].
  - destruct IH as (p & P1 & P2 & P3). { eapply sortable_in; [exact S|]. intros; now right. }
    destruct (insert_ordered x l S (fold_right insert_sorted [] l) (map Datatypes.S p)) as (p' & Q1 & Q2 & Q3).
    + intros k Hk. apply in_map_iff in Hk as (j & <- & _). lia.
    + rewrite map_map. cbn [nth_error]. exact P2.
    + clear P1 P2. induction P3 as [|i p P3 IHp F]; cbn [map]; constructor; auto.
      apply Forall_forall. intros j Hj. apply in_map_iff in Hj as (j' & <- & Hj). rewrite Forall_forall in F. specialize (F j' Hj).
      intros a b Ha Hb. cbn in Ha, Hb. destruct (F a b Ha Hb) as [B|[B L]]; [now left|right]. split; [exact B|lia].
    + exists p'. split; [|split; assumption]. rewrite Q1. cbn [List.length seq]. constructor. rewrite <- seq_shift. now apply Permutation_map.
Qed.

Lemma sorted_sorts l : sortable l -> exists l', py_sorted l = Ok l' /\ sorted_as l l'.
Proof.
  intro S. unfold py_sorted. destruct (Nat.leb_spec (List.length l) 1) as [H|H].
  - exists l. split; [reflexivity|]. destruct l as [|x [|y l]]; [| |cbn in H; lia].
    + exists []. split; [apply Permutation_refl|]. split; [reflexivity|constructor].
    + exists [0%nat]. split; [apply Permutation_refl|]. split; [reflexivity|]. repeat constructor.
  - assert (E : forallb (fun x => forallb (lt_ok x) l) l = true).
    { apply forallb_forall. intros x Hx. apply forallb_forall. intros y Hy. unfold lt_ok.
      destruct (ord_below CLt x y (sortable2 _ _ _ S Hx Hy)) as (b & -> & _); [now left|reflexivity]. }
    rewrite E. eexists. split; [reflexivity|]. now apply insertion_sorts.
Qed.

(** * Rounding *)
Lemma dyadic_neg_Q z p : (dyadic z (Zneg p) == z # (2 ^ p))%Q. Proof. reflexivity. Qed.

Lemma floor_spec z p : is_floor (dyadic z (Zneg p)) (rnd_floor z (2 ^ Zpos p)).
Proof.
  unfold is_floor, rnd_floor, dyadic, Qle, Qlt, inject_Z. cbn [Qnum Qden]. rewrite pow2_Zpos.
  assert (D : (0 < 2 ^ Zpos p)%Z) by (apply Z.pow_pos_nonneg; lia).
  pose proof (Z.div_mod z (2 ^ Zpos p) ltac:(lia)). pose proof (Z.mod_pos_bound z (2 ^ Zpos p) D). nia.
Qed.
Lemma ceil_spec z p : is_ceil (dyadic z (Zneg p)) (rnd_ceil z (2 ^ Zpos p)).
Proof.
  unfold is_ceil, rnd_ceil, dyadic, Qle, Qlt, inject_Z. cbn [Qnum Qden]. rewrite pow2_Zpos.
  assert (D : (0 < 2 ^ Zpos p)%Z) by (apply Z.pow_pos_nonneg; lia).
  pose proof (Z.div_mod (- z) (2 ^ Zpos p) ltac:(lia)). pose proof (Z.mod_pos_bound (- z) (2 ^ Zpos p) D). nia.
Qed.
Lemma round_spec z p : is_round (dyadic z (Zneg p)) (rnd_even z (2 ^ Zpos p)).
Proof.
  unfold rnd_even. assert (D : (0 < 2 ^ Zpos p)%Z) by (apply Z.pow_pos_nonneg; lia).
  pose proof (Z.div_mod z (2 ^ Zpos p) ltac:(lia)) as E. pose proof (Z.mod_pos_bound z (2 ^ Zpos p) D) as B.
  set (q := (z / 2 ^ Zpos p)%Z) in *. set (r := (z mod 2 ^ Zpos p)%Z) in *.
  assert (HI : forall k, (2 * (k * 2 ^ Zpos p) - 2 ^ Zpos p < 2 * z < 2 * (k * 2 ^ Zpos p) + 2 ^ Zpos p)%Z ->
     is_round (dyadic z (Zneg p)) k).
  { intros k H. left. unfold dyadic, Qlt, Qminus, Qplus, Qopp, inject_Z. cbn [Qnum Qden]. rewrite !Pos2Z.inj_mul, pow2_Zpos. lia. }
  assert (HE : forall k, Z.even k = true -> (2 * z = 2 * (k * 2 ^ Zpos p) - 2 ^ Zpos p \/ 2 * z = 2 * (k * 2 ^ Zpos p) + 2 ^ Zpos p)%Z ->
     is_round (dyadic z (Zneg p)) k).
  { intros k Ek H. right. split; [exact Ek|]. unfold dyadic, Qeq, Qminus, Qplus, Qopp, inject_Z. cbn [Qnum Qden]. rewrite !Pos2Z.inj_mul, pow2_Zpos.
    destruct H; [left|right]; lia. }
  destruct (Z.ltb_spec (2 * r) (2 ^ Zpos p)); [apply HI; lia|].
  destruct (Z.ltb_spec (2 ^ Zpos p) (2 * r)); [apply HI; lia|].
  destruct (Z.even q) eqn:Eq; [apply HE; [exact Eq|]; lia|]. apply HE; [|lia].
  rewrite Z.even_add, Eq. reflexivity.
Qed.

Lemma round_int z : is_floor (inject_Z z) z /\ is_ceil (inject_Z z) z /\ is_round (inject_Z z) z.
Proof.
  unfold is_floor, is_ceil, is_round, Qle, Qlt, Qminus, Qplus, Qopp, inject_Z. cbn [Qnum Qden]. repeat split; cbn; lia.
Qed.

Lemma is_round_Q q q' z : (q == q')%Q -> is_round q z -> is_round q' z.
Proof. unfold is_round. intros E. rewrite E. tauto. Qed.

Lemma flt_to_Z_spec rnd (P : Q -> Z -> Prop) : (forall z, P (inject_Z z) z) ->
  (forall z p, P (dyadic z (Zneg p)) (rnd z (2 ^ Zpos p)%Z)) ->
  forall f q, flt_val f = XQ q -> exists z, flt_to_Z rnd f = Ok z /\ P q z.
Proof.
  intros HI HR f q E. destruct f as [s|s| |s m e]; cbn [flt_val] in E; try discriminate.
  - injection E as <-. exists 0%Z. split; [reflexivity|]. apply (HI 0%Z).
  - destruct s; discriminate.
  - injection E as <-. cbn [flt_to_Z]. destruct e as [|e|e].
    + eexists. split; [reflexivity|]. cbn [dyadic]. apply HI.
    + eexists. split; [reflexivity|]. cbn [dyadic]. apply HI.
    + eexists. split; [reflexivity|]. apply HR.
Qed.

(** * Calling *)
Section WithPy.
Context {PY : Py}.

Lemma drive_once (FR : Front) a i ac t st W d o st' W' c :
  start_act (engine d) d a i ac t (st, W) = (Ok o, (st', W')) -> (o = None \/ o = Some GStop) -> (2 <= List.length c)%nat ->
  exists n0, forall n, (n0 <= n)%nat ->
    fst (drive c n a i (GQ (QAct ac t)) (st, W)) = (match o with Some _ => [b_scope st'] | None => [] end, Exhausted).
Proof.
  intros E Ho Hc. exists (S d). intros n Hn. destruct c as [|[os1 k1] [|[os2 k2] c]]; cbn in Hc; try lia.
  cbn [drive]. rewrite (resume_more (S d) n) by (try exact Hn; change (fst (start_act (engine d) d a i ac t (st, W)) <> Err ERecursion); rewrite E; discriminate).
  change (resume (S d) a i (GQ (QAct ac t)) (st, W)) with (start_act (engine d) d a i ac t (st, W)). rewrite E.
  destruct Ho as [-> | ->]; [reflexivity|]. destruct n as [|n]; [lia|]. reflexivity.
Qed.

Lemma drive_raise (FR : Front) a i ac t st W d e s' c :
  start_act (engine d) d a i ac t (st, W) = (Err e, s') -> e <> ERecursion -> (1 <= List.length c)%nat ->
  exists n0, forall n, (n0 <= n)%nat ->
    fst (drive c n a i (GQ (QAct ac t)) (st, W)) = ([], Raised e).
Proof.
  intros E Ho Hc. exists (S d). intros n Hn. destruct c as [|[os1 k1] c]; cbn in Hc; try lia.
  cbn [drive]. rewrite (resume_more (S d) n) by (try exact Hn; change (fst (start_act (engine d) d a i ac t (st, W)) <> Err ERecursion); rewrite E; cbn; congruence).
  change (resume (S d) a i (GQ (QAct ac t)) (st, W)) with (start_act (engine d) d a i ac t (st, W)). rewrite E. reflexivity.
Qed.

Lemma yield_frame d l r st W b st1 : unify d l r (mkbst (b_scope st) [] 0) = (Ok b, st1) ->
  forall m, (d <= m)%nat -> exists st', unify_yield m l r (st, W) = (Ok (if b then Some GStop else None), (st', W)) /\ b_scope st' = b_scope st1.
Proof.
  intros E m Hm. apply (unify_more _ m _ _ _ _ _ Hm) in E. destruct (unify_frame m l r (mkbst (b_scope st) [] 0) st eq_refl) as [E1 E2].
  rewrite E in E1, E2. unfold unify_yield, mbind, m_unify, on_st. cbn [fst snd].
  destruct (unify m l r st) as [o st']. cbn [fst snd] in E1, E2. subst o. exists st'. split; [reflexivity|]. now rewrite E2.
Qed.

Lemma zip_more n m specs args s f x f' : (n <= m)%nat ->
  zip_specs n specs args s f = (Ok x, f') -> zip_specs m specs args s f = (Ok x, f').
Proof.
  intros Hnm H. destruct (smono_le (fun n => zip_specs n specs args s f) (fun n => zip_specs_mono s specs n args f) n m Hnm) as [E|E].
  - rewrite H in E. discriminate.
  - now rewrite <- E.
Qed.

Lemma last_snoc {A} (l : list A) x : rev (l ++ [x]) = x :: rev l.
Proof. now rewrite rev_app_distr. Qed.

Lemma set_nv_same W : set_nv W (w_nv W) = W.
Proof. now destruct W. Qed.

(** The arguments of a function, converted. *)
Definition args_are (specs : list spec) (ins : list term) (s : scope) (vs : list term) : Prop :=
  exists d, forall rest nv, zip_specs d specs (ins ++ rest) s ([], nv) = (Ok vs, ([], nv)).

Lemma one_arg sp d t s v w : (sp <> SAgent /\ sp <> SEnv) -> grounded d t s = Ok v -> convert sp v = Ok w -> args_are [sp] [t] s [w].
Proof.
  intros H E Ec. exists d. intros rest nv. cbn [zip_specs Datatypes.app]. destruct H as [H1 H2].
  destruct sp; try contradiction; rewrite (freeze_grounded _ _ _ _ _ (eq_refl : fst ([], nv) = []) E), Ec; reflexivity.
Qed.
Lemma two_args sp1 sp2 d1 d2 t1 t2 s v1 v2 w1 w2 : (sp1 <> SAgent /\ sp1 <> SEnv) -> (sp2 <> SAgent /\ sp2 <> SEnv) ->
  grounded d1 t1 s = Ok v1 -> convert sp1 v1 = Ok w1 -> grounded d2 t2 s = Ok v2 -> convert sp2 v2 = Ok w2 ->
  args_are [sp1; sp2] [t1; t2] s [w1; w2].
Proof.
  intros [H1 H2] [H3 H4] E1 C1 E2 C2. exists (Nat.max d1 d2). intros rest nv. cbn [zip_specs Datatypes.app].
  apply (grounded_more _ (Nat.max d1 d2)) in E1; [|lia]. apply (grounded_more _ (Nat.max d1 d2)) in E2; [|lia].
  destruct sp1; try contradiction; rewrite (freeze_grounded _ _ _ _ _ (eq_refl : fst ([], nv) = []) E1), C1;
  destruct sp2; try contradiction; rewrite (freeze_grounded _ _ _ _ _ (eq_refl : fst ([], nv) = []) E2), C2; reflexivity.
Qed.

Lemma fun_gives f ins s specs fn vs v :
  actions_lookup ext_actions (s2p f) (S (List.length ins)) = Ok (AFun specs fn) ->
  args_are specs ins s vs -> (forall k, fn_apply fn k vs = Ok v) -> gives f ins s v.
Proof.
  intros HL [d HZ] HF. eexists. split; [exact HL|]. intros FR a i st W x annots d1 b st1 c Hs Hu Hc. subst s.
  set (m := Nat.max d d1).
  destruct (yield_frame d1 x v st (set_tick W (N.succ (w_tick W))) b st1 Hu m ltac:(lia)) as (st' & Ey & Es).
  destruct (drive_once FR a i (AFun specs fn) (TLit (s2p f) (ins ++ [x]) annots) st W m (if b then Some GStop else None) st' (set_tick W (N.succ (w_tick W))) c) as [n0 H].
  - unfold start_act, mbind at 1, lift at 1. cbn [lit_args]. unfold act_fun, mbind at 1, m_zip. cbn [fst snd].
    rewrite (zip_more d m _ _ _ _ _ _ ltac:(lia) (HZ [x] (w_nv W))). rewrite set_nv_same.
    unfold mbind at 1, m_tick, on_world. cbn [fst snd]. unfold mbind at 1, lift. rewrite HF.
    unfold mbind at 1, last_arg. rewrite last_snoc. unfold mret. exact Ey.
  - destruct b; [now right|now left].
  - exact Hc.
  - exists n0. intros n Hn. rewrite H by exact Hn. destruct b; [|reflexivity]. now rewrite Es.
Qed.

Lemma fun_raises f ins s specs fn vs e :
  actions_lookup ext_actions (s2p f) (S (List.length ins)) = Ok (AFun specs fn) ->
  args_are specs ins s vs -> (forall k, fn_apply fn k vs = Err e) -> e <> ERecursion -> raises f ins s e.
Proof.
  intros HL [d HZ] HF He. eexists. split; [exact HL|]. intros FR a i st W x annots c Hs Hc. subst s.
  eapply (drive_raise FR a i (AFun specs fn) (TLit (s2p f) (ins ++ [x]) annots) st W d e); [|exact He|exact Hc].
  unfold start_act, mbind at 1, lift at 1. cbn [lit_args]. unfold act_fun, mbind at 1, m_zip. cbn [fst snd].
  rewrite (HZ [x] (w_nv W)). unfold mbind at 1, m_tick, on_world. cbn [fst snd]. unfold mbind at 1, lift. rewrite HF. reflexivity.
Qed.

(** An argument that cannot be converted. *)
Lemma fun_converts f t s sp fn d v e :
  actions_lookup ext_actions (s2p f) 2 = Ok (AFun [sp] fn) -> (sp <> SAgent /\ sp <> SEnv) ->
  grounded d t s = Ok v -> convert sp v = Err e -> e <> ERecursion -> raises f [t] s e.
Proof.
  intros HL [H1 H2] E Ec He. eexists. split; [exact HL|]. intros FR a i st W x annots c Hs Hc. subst s.
  eapply (drive_raise FR a i (AFun [sp] fn) (TLit (s2p f) ([t] ++ [x]) annots) st W d e); [|exact He|exact Hc].
  unfold start_act, mbind at 1, lift at 1. cbn [lit_args]. unfold act_fun, mbind at 1, m_zip. cbn [fst snd zip_specs Datatypes.app].
  destruct sp; try contradiction; rewrite (freeze_grounded _ _ _ _ _ (eq_refl : fst ([], w_nv W) = []) E), Ec; reflexivity.
Qed.

Lemma pred_answers f ins s specs p vs b :
  actions_lookup ext_actions (s2p f) (List.length ins) = Ok (APred specs p) ->
  (exists d, forall nv, exists m, zip_specs d specs ins s ([], nv) = (Ok (vs nv), m)) ->
  (forall k nv, pr_apply p k (vs nv) = Ok b) -> answers f ins s b.
Proof.
  intros HL [d HZ] HF. eexists. split; [exact HL|]. intros FR a i st W annots c Hs Hc. subst s.
  destruct (HZ (w_nv W)) as ((mm & k) & Ez). set (W1 := set_nv W k).
  destruct (drive_once FR a i (APred specs p) (TLit (s2p f) ins annots) st W d (if b then Some GStop else None) st (set_tick W1 (N.succ (w_tick W1))) c) as [n0 H].
  - unfold start_act, mbind at 1, lift at 1. cbn [lit_args]. unfold act_pred, mbind at 1, m_zip. cbn [fst snd].
    rewrite Ez. unfold mbind at 1, m_tick, on_world. cbn [fst snd]. unfold mbind at 1, lift. rewrite HF. reflexivity.
  - destruct b; [now right|now left].
  - exact Hc.
  - exists n0. intros n Hn. rewrite H by exact Hn. now destruct b.
Qed.

Lemma to_tuple_list v items : list_of v items -> convert STuple v = Ok (TTup items).
Proof. intro H. unfold convert, to_tuple. now rewrite (iter_list_of _ _ H). Qed.

Ltac noagent := split; discriminate.
Ltac looked := vm_compute; reflexivity.

(** ** Functions on lists *)
Theorem max_gives d t s v items : grounded d t s = Ok v -> list_of v items -> sortable items -> items <> [] ->
  exists m, greatest m items /\ gives ".max" [t] s m.
Proof.
  intros E L S N. destruct (max_greatest items S N) as (m & Em & G). exists m. split; [exact G|].
  eapply fun_gives; [looked|eapply one_arg; [noagent|exact E|apply to_tuple_list; exact L]|]. intro k. exact Em.
Qed.
Theorem min_gives d t s v items : grounded d t s = Ok v -> list_of v items -> sortable items -> items <> [] ->
  exists m, least m items /\ gives ".min" [t] s m.
Proof.
  intros E L S N. destruct (min_least items S N) as (m & Em & G). exists m. split; [exact G|].
  eapply fun_gives; [looked|eapply one_arg; [noagent|exact E|apply to_tuple_list; exact L]|]. intro k. exact Em.
Qed.
Theorem sort_gives d t s v items : grounded d t s = Ok v -> list_of v items -> sortable items ->
  exists items', sorted_as items items' /\ gives ".sort" [t] s (TTup items').
Proof.
  intros E L S. destruct (sorted_sorts items S) as (m & Em & G). exists m. split; [exact G|].
  eapply fun_gives; [looked|eapply one_arg; [noagent|exact E|apply to_tuple_list; exact L]|]. intro k. cbn [fn_apply]. now rewrite Em.
Qed.
Theorem extreme_empty d t s v : grounded d t s = Ok v -> list_of v [] -> raises ".max" [t] s EValue /\ raises ".min" [t] s EValue.
Proof.
  intros E L. split; (eapply fun_raises; [looked|eapply one_arg; [noagent|exact E|apply to_tuple_list; exact L]|intro k; reflexivity|discriminate]).
Qed.
Theorem nth_gives di ti dl tl s i v items : grounded di ti s = Ok (TNum (NInt i)) -> grounded dl tl s = Ok v -> list_of v items ->
  (forall k x, i = Z.of_nat k -> nth_error items k = Some x -> gives ".nth" [ti; tl] s x) /\
  ((i < 0)%Z -> raises ".nth" [ti; tl] s EAssert) /\
  ((Z.of_nat (List.length items) <= i)%Z -> raises ".nth" [ti; tl] s EIndex).
Proof.
  intros Ei El L.
  assert (HA : args_are [SInt; STuple] [ti; tl] s [TNum (NInt i); TTup items]).
  { eapply two_args; [noagent|noagent|exact Ei|reflexivity|exact El|apply to_tuple_list; exact L]. }
  split; [|split].
  - intros k x -> Hx. eapply fun_gives; [looked|exact HA|]. intro j. cbn [fn_apply].
    destruct (Z.ltb_spec (Z.of_nat k) 0); [lia|]. now rewrite Nat2Z.id, Hx.
  - intro Hi. eapply fun_raises; [looked|exact HA| |discriminate]. intro j. cbn [fn_apply]. destruct (Z.ltb_spec i 0); [reflexivity|lia].
  - intro Hi. eapply fun_raises; [looked|exact HA| |discriminate]. intro j. cbn [fn_apply]. destruct (Z.ltb_spec i 0); [lia|].
    destruct (nth_error items (Z.to_nat i)) eqn:En; [|reflexivity]. assert (Z.to_nat i < List.length items)%nat by (apply nth_error_Some; congruence). lia.
Qed.
Theorem tail_gives d t s v x items : grounded d t s = Ok v -> list_of v (x :: items) -> gives ".tail" [t] s (TTup items).
Proof.
  intros E L. eapply fun_gives; [looked|eapply one_arg; [noagent|exact E|apply to_tuple_list; exact L]|]. intro k. reflexivity.
Qed.
Lemma py_len_list v items : list_of v items -> py_len v = Ok (Z.of_nat (List.length items)).
Proof. induction 1; cbn [py_len]; [reflexivity|]. rewrite IHlist_of. cbn [rmap List.length]. f_equal. lia. Qed.
Theorem length_gives d t s v k : grounded d t s = Ok v ->
  (exists items, list_of v items /\ k = List.length items) \/ (exists text, v = TStr text /\ k = List.length text) \/
  (exists f args annots, v = TLit f args annots /\ k = List.length args) ->
  gives ".length" [t] s (TNum (NInt (Z.of_nat k))).
Proof.
  intros E H. eapply fun_gives; [looked|eapply one_arg; [noagent|exact E|reflexivity]|]. intro j. cbn [fn_apply].
  destruct H as [(items & L & ->)|[(text & -> & ->)|(f & args & annots & -> & ->)]]; [now rewrite (py_len_list _ _ L)|reflexivity|reflexivity].
Qed.
(** What is not a list. *)
Theorem not_a_list f d t s v : In f [".max"; ".min"; ".sort"; ".tail"]%string -> grounded d t s = Ok v ->
  match v with TBool _ | TNum _ | TLit _ _ _ => True | _ => False end -> raises f [t] s EType.
Proof.
  intros Hf E H. assert (C : convert STuple v = Err EType) by (destruct v; try contradiction; reflexivity).
  destruct Hf as [<-|[<-|[<-|[<-|[]]]]]; (eapply fun_converts; [looked|noagent|exact E|exact C|discriminate]).
Qed.

(** ** Rounding *)
Section Round.
Variables (d : nat) (t : term) (s : scope) (v : term) (f : spec_float).
Hypothesis E : grounded d t s = Ok v.
Hypothesis Ef : to_flt v = Ok f.
Lemma float_arg : args_are [SFloat] [t] s [TNum (NFlt f)].
Proof. eapply one_arg; [noagent|exact E|]. cbn [convert]. now rewrite Ef. Qed.
Theorem floor_gives q : flt_val f = XQ q -> exists z, is_floor q z /\ gives ".floor" [t] s (TNum (NInt z)).
Proof.
  intro Q. destruct (flt_to_Z_spec rnd_floor is_floor (fun z => proj1 (round_int z)) floor_spec f q Q) as (z & Ez & H).
  exists z. split; [exact H|]. eapply fun_gives; [looked|exact float_arg|]. intro k. cbn [fn_apply]. now rewrite Ez.
Qed.
Theorem ceil_gives q : flt_val f = XQ q -> exists z, is_ceil q z /\ gives ".ceil" [t] s (TNum (NInt z)).
Proof.
  intro Q. destruct (flt_to_Z_spec rnd_ceil is_ceil (fun z => proj1 (proj2 (round_int z))) ceil_spec f q Q) as (z & Ez & H).
  exists z. split; [exact H|]. eapply fun_gives; [looked|exact float_arg|]. intro k. cbn [fn_apply]. now rewrite Ez.
Qed.
Theorem round_gives q : flt_val f = XQ q -> exists z, is_round q z /\ gives ".round" [t] s (TNum (NInt z)).
Proof.
  intro Q. destruct (flt_to_Z_spec rnd_even is_round (fun z => proj2 (proj2 (round_int z))) round_spec f q Q) as (z & Ez & H).
  exists z. split; [exact H|]. eapply fun_gives; [looked|exact float_arg|]. intro k. cbn [fn_apply]. now rewrite Ez.
Qed.
Theorem round_special n : In n [".floor"; ".ceil"; ".round"]%string ->
  (flt_val f = XNan -> raises n [t] s EValue) /\
  (flt_val f = XPInf \/ flt_val f = XNInf -> raises n [t] s EOverflow).
Proof.
  intro Hn. pose proof float_arg as FA. split; intro Q.
  - assert (f = S754_nan) as -> by (destruct f as [| [] | |]; try discriminate Q; reflexivity).
    destruct Hn as [<-|[<-|[<-|[]]]]; (eapply fun_raises; [looked|exact FA|intro k; reflexivity|discriminate]).
  - assert (exists b, f = S754_infinity b) as (b & ->) by (destruct f as [| [] | |]; destruct Q as [Q|Q]; try discriminate Q; eexists; reflexivity).
    destruct Hn as [<-|[<-|[<-|[]]]]; (eapply fun_raises; [looked|exact FA|intro k; reflexivity|discriminate]).
Qed.
End Round.

(** ** .concat *)
Lemma m_groundeds_ok (m : nat) (st : bst) (W : world) : forall args vs,
  Forall2 (fun t v => grounded m t (b_scope st) = Ok v) args vs ->
  m_groundeds m args (st, W) = (Ok vs, (st, W)).
Proof.
  induction 1 as [|t v args vs E H IH]; [reflexivity|]. cbn [m_groundeds]. unfold mbind at 1, m_grounded. cbn [fst snd]. rewrite E.
  unfold mbind at 1. rewrite IH. reflexivity.
Qed.
Lemma lookup_concat k : actions_lookup ext_actions (s2p ".concat") k = Ok AConcat.
Proof.
  unfold ext_actions, stdlib_actions, entry. cbn [actions_lookup].
  assert (H : forall (l : list (group * act)), forallb (fun p => negb (pystr_eqb (s2p ".concat") (fst (fst p)))) l = true -> assoc group_eqb (s2p ".concat", k) l = None).
  { induction l as [|[[g j] x] l IH]; intro H; [reflexivity|]. cbn [forallb fst] in H. apply andb_true_iff in H as [H1 H2]. cbn [assoc].
    unfold group_eqb at 1. cbn [fst snd]. apply negb_true_iff in H1. rewrite H1. cbn [andb]. now apply IH. }
  rewrite !H by (vm_compute; reflexivity). vm_compute. reflexivity.
Qed.
Lemma concat_result ins s d vs v : Forall2 (fun t v => grounded d t s = Ok v) ins vs ->
  (match all_tuples vs with Some ts => Ok (TTup ts) | None => rmap (fun ss => TStr (List.concat ss)) (rmapl py_str vs) end) = Ok v ->
  gives ".concat" ins s v.
Proof.
  intros HF HV. exists AConcat. split; [apply lookup_concat|]. intros FR a i st W x annots d1 b st1 c Hs Hu Hc. subst s.
  set (m := Nat.max d d1).
  destruct (yield_frame d1 x v st W b st1 Hu m ltac:(lia)) as (st' & Ey & Es).
  destruct (drive_once FR a i AConcat (TLit (s2p ".concat") (ins ++ [x]) annots) st W m (if b then Some GStop else None) st' W c) as [n0 H].
  - unfold start_act, mbind at 1, lift at 1. cbn [lit_args]. unfold act_concat, mbind at 1. rewrite removelast_last.
    rewrite (m_groundeds_ok m st W ins vs). 2:{ clear -HF. induction HF; constructor; auto. eapply grounded_more; [|eassumption]. lia. }
    unfold mbind at 1. destruct (all_tuples vs) as [ts|].
    + injection HV as <-. unfold mret at 1. unfold mbind at 1, last_arg. rewrite last_snoc. unfold mret. exact Ey.
    + unfold mbind at 1, lift. destruct (rmapl py_str vs) as [ss|]; [|discriminate HV]. injection HV as <-.
      unfold mret at 1. unfold mbind at 1, last_arg. rewrite last_snoc. unfold mret. exact Ey.
  - destruct b; [now right|now left].
  - exact Hc.
  - exists n0. intros n Hn. rewrite H by exact Hn. destruct b; [|reflexivity]. now rewrite Es.
Qed.
Theorem concat_lists ins s d ls : Forall2 (fun t l => grounded d t s = Ok (TTup l)) ins ls -> gives ".concat" ins s (TTup (List.concat ls)).
Proof.
  intro H. apply (concat_result ins s d (map TTup ls)).
  - induction H; constructor; auto.
  - clear H. enough (E : all_tuples (map TTup ls) = Some (List.concat ls)) by now rewrite E.
    induction ls as [|l ls IH]; [reflexivity|]. cbn [map all_tuples List.concat]. now rewrite IH.
Qed.
Theorem concat_texts ins s d ts : Forall2 (fun t x => grounded d t s = Ok (TStr x)) ins ts -> ins <> [] -> gives ".concat" ins s (TStr (List.concat ts)).
Proof.
  intros H N. apply (concat_result ins s d (map TStr ts)).
  - clear N. induction H; constructor; auto.
  - destruct H as [|t x ins ts _ _]; [contradiction|]. cbn [map all_tuples]. clear. change (TStr x :: map TStr ts) with (map TStr (x :: ts)).
    enough (E : forall l, rmapl py_str (map TStr l) = Ok l) by now rewrite E.
    induction l as [|y l IH]; [reflexivity|]. cbn [map rmapl py_str]. now rewrite IH.
Qed.

(** ** .my_name *)
Theorem my_name_gives : exists ac, actions_lookup ext_actions (s2p ".my_name") 1 = Ok ac /\
  forall (FR : Front) a i st W x annots d b st1 c,
    unify d x (TLit (a_name (get_agent W a)) [] []) (mkbst (b_scope st) [] 0) = (Ok b, st1) -> (2 <= List.length c)%nat ->
    exists n0, forall n, (n0 <= n)%nat ->
      fst (drive c n a i (GQ (QAct ac (TLit (s2p ".my_name") [x] annots))) (st, W)) = (if b : bool then [b_scope st1] else [], Exhausted).
Proof.
  exists AMyName. split; [looked|]. intros FR a i st W x annots d b st1 c Hu Hc.
  destruct (yield_frame d x _ st W b st1 Hu d (Nat.le_refl _)) as (st' & Ey & Es).
  destruct (drive_once FR a i AMyName (TLit (s2p ".my_name") [x] annots) st W d (if b then Some GStop else None) st' W c) as [n0 H].
  - exact Ey.
  - destruct b; [now right|now left].
  - exact Hc.
  - exists n0. intros n Hn. rewrite H by exact Hn. destruct b; [|reflexivity]. now rewrite Es.
Qed.

(** ** .date and .time *)
Theorem clock_gives : forall f pf, In (f, pf) [(".date"%string, PFDate); (".time"%string, PFTime)] ->
  exists ac, actions_lookup ext_actions (s2p f) 3 = Ok ac /\
  forall (FR : Front) a i st W t0 t1 t2 annots x y z d b st1 c,
    py_call pf (w_tick W) [] = Ok (TTup [TNum x; TNum y; TNum z]) ->
    unify d (TTup [t0; t1; t2]) (TTup [TNum x; TNum y; TNum z]) (mkbst (b_scope st) [] 0) = (Ok b, st1) -> (2 <= List.length c)%nat ->
    exists n0, forall n, (n0 <= n)%nat ->
      fst (drive c n a i (GQ (QAct ac (TLit (s2p f) [t0; t1; t2] annots))) (st, W)) = (if b : bool then [b_scope st1] else [], Exhausted).
Proof.
  assert (G : forall f pf ac,
    (forall (FR : Front) E n a i args annots, start_act E n a i ac (TLit (s2p f) args annots) = act_clock n pf args) ->
    forall (FR : Front) a i st W t0 t1 t2 annots x y z d b st1 c,
    py_call pf (w_tick W) [] = Ok (TTup [TNum x; TNum y; TNum z]) ->
    unify d (TTup [t0; t1; t2]) (TTup [TNum x; TNum y; TNum z]) (mkbst (b_scope st) [] 0) = (Ok b, st1) -> (2 <= List.length c)%nat ->
    exists n0, forall n, (n0 <= n)%nat ->
      fst (drive c n a i (GQ (QAct ac (TLit (s2p f) [t0; t1; t2] annots))) (st, W)) = (if b : bool then [b_scope st1] else [], Exhausted)).
  { intros f pf ac HS FR a i st W t0 t1 t2 annots x y z d b st1 c HP Hu Hc.
    destruct (unify_frame d (TTup [t0; t1; t2]) (TTup [TNum x; TNum y; TNum z]) (mkbst (b_scope st) [] 0) st eq_refl) as [E1 E2].
    rewrite Hu in E1, E2. cbn [fst snd] in E1, E2.
    destruct d as [|d]; [discriminate Hu|]. rewrite unify_S in E1, E2. cbn [has_unify List.length Nat.eqb all_unify] in E1, E2.
    destruct (drive_once FR a i ac (TLit (s2p f) [t0; t1; t2] annots) st W d (if b then Some GStop else None)
      (snd (all_unify (unify d) [t0; t1; t2] [TNum x; TNum y; TNum z] st)) (set_tick W (N.succ (w_tick W))) c) as [n0 H].
    - rewrite HS. unfold act_clock. unfold mbind at 1, m_tick, on_world. cbn [fst snd]. unfold mbind at 1, lift. rewrite HP.
      unfold unify_yield, mbind, arg, mret, m_unify, on_st. cbn [nth_error fst snd all_unify] in *.
      destruct (unify d t0 (TNum x) st) as [[[]|e] s1]; cbn [fst snd] in *; [|injection E1 as ->; reflexivity|discriminate E1].
      destruct (unify d t1 (TNum y) s1) as [[[]|e] s2]; cbn [fst snd] in *; [|injection E1 as ->; reflexivity|discriminate E1].
      destruct (unify d t2 (TNum z) s2) as [[[]|e] s3]; cbn [fst snd] in *; try discriminate E1; injection E1 as ->; reflexivity.
    - destruct b; [now right|now left].
    - exact Hc.
    - exists n0. intros n Hn. rewrite H by exact Hn. destruct b; [|reflexivity]. cbn [all_unify]. now rewrite E2. }
  intros f pf [[= <- <-]|[[= <- <-]|[]]]; [exists ADate|exists ATime]; (split; [looked|]); (eapply G; intros; reflexivity).
Qed.

(** ** Tests *)
Theorem test_answers f d t s v k b : grounded d t s = Ok v -> has_kind v k -> test_says f k = Some b -> answers f [t] s b.
Proof.
  intros E K T. unfold test_says in T.
  assert (HZ : exists d', forall nv, exists m, zip_specs d' [SAny] [t] s ([], nv) = (Ok [v], m)).
  { exists d. intro nv. eexists. cbn [zip_specs]. rewrite (freeze_grounded _ _ _ _ _ (eq_refl : fst ([], nv) = []) E). reflexivity. }
  repeat (match type of T with (if String.eqb f ?g then _ else _) = _ => destruct (String.eqb_spec f g) as [->|_] end;
    [injection T as <-; eapply (pred_answers _ _ _ _ _ (fun _ => [v])); [looked|exact HZ|intros j nv; now destruct K]|]).
  discriminate T.
Qed.
(** An unbound variable is of no kind. *)
Theorem test_unbound f x s : bound s x = false -> In f [".atom"; ".literal"; ".list"; ".number"; ".string"; ".structure"]%string ->
  answers f [TVar x] s false.
Proof.
  intros B Hf.
  assert (HZ : exists d', forall nv, exists m, zip_specs d' [SAny] [TVar x] s ([], nv) = (Ok [TVar nv], m)).
  { exists 1%nat. intro nv. eexists. cbn [zip_specs]. rewrite freeze_S. cbn [memo_get]. rewrite B. reflexivity. }
  destruct Hf as [<-|[<-|[<-|[<-|[<-|[<-|[]]]]]]]; (eapply (pred_answers _ _ _ _ _ (fun nv => [TVar nv])); [looked|exact HZ|intros; reflexivity]).
Qed.

(** ** Actions without arguments *)
Theorem unbind_empties : exists ac, actions_lookup ext_actions (s2p ".unbind_all") 0 = Ok ac /\
  forall (FR : Front) a i st W annots c, (2 <= List.length c)%nat ->
    exists n0, forall n, (n0 <= n)%nat ->
      fst (drive c n a i (GQ (QAct ac (TLit (s2p ".unbind_all") [] annots))) (st, W)) = ([[]], Exhausted).
Proof.
  exists AUnbindAll. split; [looked|]. intros FR a i st W annots c Hc.
  destruct (drive_once FR a i AUnbindAll (TLit (s2p ".unbind_all") [] annots) st W 0 (Some GStop) (mkbst [] (b_stack st) (b_ncp st)) W c) as [n0 H];
    [reflexivity|now right|exact Hc|]. exists n0. exact H.
Qed.
Theorem fail_fails : exists ac, actions_lookup ext_actions (s2p ".fail") 0 = Ok ac /\
  forall (FR : Front) a i st W annots c, (2 <= List.length c)%nat ->
    exists n0, forall n, (n0 <= n)%nat ->
      fst (drive c n a i (GQ (QAct ac (TLit (s2p ".fail") [] annots))) (st, W)) = ([], Exhausted).
Proof.
  exists AFail. split; [looked|]. intros FR a i st W annots c Hc.
  destruct (drive_once FR a i AFail (TLit (s2p ".fail") [] annots) st W 0 None st W c) as [n0 H]; [reflexivity|now left|exact Hc|]. exists n0. exact H.
Qed.
Theorem marks_succeed f k : In (f, k) [(".dump", 0); (".inf_mark_nosidef", 1); (".inf_nosideef", 0); (".inf_disable_global", 0);
    (".inf_disable_local", 0); (".inf_side_effect", 2)]%string%nat ->
  exists ac, actions_lookup ext_actions (s2p f) k = Ok ac /\
  forall (FR : Front) a i st W args annots c, (2 <= List.length c)%nat ->
    exists n0, forall n, (n0 <= n)%nat ->
      fst (drive c n a i (GQ (QAct ac (TLit (s2p f) args annots))) (st, W)) = ([b_scope st], Exhausted).
Proof.
  assert (G : forall ac f, (forall (FR : Front) E n a i args annots s, start_act E n a i ac (TLit (s2p f) args annots) s = (Ok (Some GStop), s)) ->
    forall (FR : Front) a i st W args annots c, (2 <= List.length c)%nat ->
    exists n0, forall n, (n0 <= n)%nat ->
      fst (drive c n a i (GQ (QAct ac (TLit (s2p f) args annots))) (st, W)) = ([b_scope st], Exhausted)).
  { intros ac f0 HS FR a i st W args annots c Hc.
    destruct (drive_once FR a i ac (TLit (s2p f0) args annots) st W 0 (Some GStop) st W c) as [n0 H]; [apply HS|now right|exact Hc|]. exists n0. exact H. }
  intros [E|[E|[E|[E|[E|[E|[]]]]]]]; injection E as <- <-; (eexists; split; [looked|]); apply G; reflexivity.
Qed.
Theorem raise_raises : exists ac, actions_lookup ext_actions (s2p ".raise") 0 = Ok ac /\
  forall (FR : Front) a i st W annots c, (1 <= List.length c)%nat ->
    exists n0, forall n, (n0 <= n)%nat ->
      fst (drive c n a i (GQ (QAct ac (TLit (s2p ".raise") [] annots))) (st, W)) = ([], Raised ERuntime).
Proof.
  exists ARaise. split; [looked|]. intros FR a i st W annots c Hc.
  destruct (drive_raise FR a i ARaise (TLit (s2p ".raise") [] annots) st W 0 ERuntime (st, W) c) as [n0 H]; [reflexivity|discriminate|exact Hc|]. exists n0. exact H.
Qed.

(** ** .ground *)
Theorem ground_answers : exists ac, actions_lookup ext_actions (s2p ".ground") 1 = Ok ac /\
  forall (FR : Front) a i st W t d b c,
    is_ground d (TLit (s2p ".ground") [t] []) (b_scope st) = Ok b -> (2 <= List.length c)%nat ->
    exists n0, forall n, (n0 <= n)%nat ->
      fst (drive c n a i (GQ (QAct ac (TLit (s2p ".ground") [t] []))) (st, W)) = (if b : bool then [b_scope st] else [], Exhausted).
Proof.
  exists AGround. split; [looked|]. intros FR a i st W t d b c Hg Hc.
  destruct (drive_once FR a i AGround (TLit (s2p ".ground") [t] []) st W d (if b then Some GStop else None) st W c) as [n0 H].
  - unfold start_act, mbind at 1, lift at 1. cbn [lit_args]. unfold mbind at 1, m_is_ground. cbn [fst snd]. rewrite Hg. reflexivity.
  - destruct b; [now right|now left].
  - exact Hc.
  - exists n0. intros n Hn. rewrite H by exact Hn. now destruct b.
Qed.

(** ** .print *)
Lemma lookup_print k : actions_lookup ext_actions (s2p ".print") k = Ok APrint.
Proof.
  unfold ext_actions, stdlib_actions, entry. cbn [actions_lookup].
  assert (H : forall (l : list (group * act)), forallb (fun p => negb (pystr_eqb (s2p ".print") (fst (fst p)))) l = true -> assoc group_eqb (s2p ".print", k) l = None).
  { induction l as [|[[g j] x] l IH]; intro H; [reflexivity|]. cbn [forallb fst] in H. apply andb_true_iff in H as [H1 H2]. cbn [assoc].
    unfold group_eqb at 1. cbn [fst snd]. apply negb_true_iff in H1. rewrite H1. cbn [andb]. now apply IH. }
  rewrite !H by (vm_compute; reflexivity). vm_compute. reflexivity.
Qed.
Lemma m_freezes_ok (m : nat) (st : bst) (W : world) : forall args vs,
  Forall2 (fun t v => grounded m t (b_scope st) = Ok v) args vs ->
  m_freezes m args [] (st, W) = (Ok vs, (st, W)).
Proof.
  induction 1 as [|t v args vs E H IH]; [reflexivity|]. cbn [m_freezes]. unfold mbind at 1, m_freeze. cbn [fst snd].
  rewrite (freeze_grounded _ _ _ _ (([] : memo), w_nv W) eq_refl E). rewrite set_nv_same.
  unfold mbind at 1. cbn [snd]. rewrite IH. reflexivity.
Qed.
Theorem print_prints : exists ac, (forall k, actions_lookup ext_actions (s2p ".print") k = Ok ac) /\
  forall (FR : Front) a i st W args vs annots d,
    Forall2 (fun t v => grounded d t (b_scope st) = Ok v) args vs ->
    exists n0, forall n, (n0 <= n)%nat -> forall g, g = GQ (QAct ac (TLit (s2p ".print") args annots)) ->
      resume n a i g (st, W) =
        (Ok (Some GStop), (st, set_out W ((a_name (get_agent W a), joins (s2p " ") (map asl_str vs)) :: w_out W))).
Proof.
  exists APrint. split; [exact lookup_print|]. intros FR a i st W args vs annots d HF. exists (S d). intros n Hn g ->.
  assert (E : resume (S d) a i (GQ (QAct APrint (TLit (s2p ".print") args annots))) (st, W) =
    (Ok (Some GStop), (st, set_out W ((a_name (get_agent W a), joins (s2p " ") (map asl_str vs)) :: w_out W)))).
  { change (start_act (engine d) d a i APrint (TLit (s2p ".print") args annots) (st, W) =
      (Ok (Some GStop), (st, set_out W ((a_name (get_agent W a), joins (s2p " ") (map asl_str vs)) :: w_out W)))).
    unfold start_act, mbind at 1, lift at 1. cbn [lit_args]. unfold act_print, mbind at 1. rewrite (m_freezes_ok d st W args vs HF). reflexivity. }
  rewrite (resume_more (S d) n); [exact E|exact Hn|]. rewrite E. discriminate.
Qed.

(** ** .wait *)
Section Wait.
Context {FR : Front}.
Variables (a i : nat) (st : bst) (W : world) (annots : list term).
Lemma wait_step d args r : start_act (engine d) d a i AWait (TLit (s2p ".wait") args annots) (st, W) = r -> fst r <> Err ERecursion ->
  forall n, (S d <= n)%nat -> resume n a i (GQ (QAct AWait (TLit (s2p ".wait") args annots))) (st, W) = r.
Proof.
  intros E Hr n Hn. rewrite (resume_more (S d) n); [exact E|exact Hn|].
  change (resume (S d) a i (GQ (QAct AWait (TLit (s2p ".wait") args annots))) (st, W)) with (start_act (engine d) d a i AWait (TLit (s2p ".wait") args annots) (st, W)).
  now rewrite E.
Qed.

Lemma dotted_eq text full : dotted text full -> (if ends_with_dot text then text else text ++ [46%N]) = full.
Proof.
  intros [(x & -> & ->)|(H & ->)].
  - unfold ends_with_dot. rewrite rev_app_distr. reflexivity.
  - unfold ends_with_dot. destruct (rev text) as [|c r] eqn:E; [reflexivity|]. destruct (N.eqb_spec c 46) as [->|]; [|reflexivity].
    exfalso. apply (H (rev r)). rewrite <- (rev_involutive text), E. reflexivity.
Qed.

Theorem wait_time d t x u : grounded d t (b_scope st) = Ok (TNum x) ->
  rbind (num_op fpow NTruediv x (NInt 1000)) (num_op fpow NAdd (py_time (w_reads W))) = Ok u ->
  exists n0, forall n, (n0 <= n)%nat ->
    resume n a i (GQ (QAct AWait (TLit (s2p ".wait") [t] annots))) (st, W) =
      (Ok (Some GStop), (st, wait_state i None (Some u) (set_reads W (N.succ (w_reads W))))).
Proof.
  intros E Eu. exists (S d). apply wait_step; [|discriminate].
  unfold start_act, mbind at 1, lift at 1. cbn [lit_args]. unfold act_wait, mbind at 1.
  rewrite (m_groundeds_ok d st W [t] [TNum x]) by (constructor; [exact E|constructor]).
  cbv beta iota delta [mbind mret is_number]. cbv beta iota delta [m_time on_world]. cbn [fst snd]. unfold lift.
  destruct (num_op fpow NTruediv x (NInt 1000)) as [y|]; [|discriminate Eu]. cbn [rbind] in Eu. rewrite Eu. reflexivity.
Qed.

Theorem wait_event d t text full ev k : grounded d t (b_scope st) = Ok (TStr text) -> dotted text full ->
  fr_event full (w_nv W) = Ok (ev, k) ->
  exists n0, forall n, (n0 <= n)%nat ->
    resume n a i (GQ (QAct AWait (TLit (s2p ".wait") [t] annots))) (st, W) =
      (Ok (Some GStop), (st, wait_state i (Some ev) None (set_nv W k))).
Proof.
  intros E Ed Ee. exists (S d). apply wait_step; [|discriminate].
  unfold start_act, mbind at 1, lift at 1. cbn [lit_args]. unfold act_wait, mbind at 1.
  rewrite (m_groundeds_ok d st W [t] [TStr text]) by (constructor; [exact E|constructor]).
  cbv beta iota delta [mbind mret is_number m_world lift]. cbn [fst snd]. rewrite (dotted_eq _ _ Ed), Ee. reflexivity.
Qed.

Theorem wait_event_time d t t2 text full ev k x u : grounded d t (b_scope st) = Ok (TStr text) -> dotted text full ->
  fr_event full (w_nv W) = Ok (ev, k) -> grounded d t2 (b_scope st) = Ok (TNum x) ->
  rbind (num_op fpow NTruediv x (NInt 1000)) (num_op fpow NAdd (py_time (w_reads W))) = Ok u ->
  exists n0, forall n, (n0 <= n)%nat ->
    resume n a i (GQ (QAct AWait (TLit (s2p ".wait") [t; t2] annots))) (st, W) =
      (Ok (Some GStop), (st, wait_state i (Some ev) (Some u) (set_reads (set_nv W k) (N.succ (w_reads W))))).
Proof.
  intros E Ed Ee Ex Eu. exists (S d). apply wait_step; [|discriminate].
  unfold start_act, mbind at 1, lift at 1. cbn [lit_args]. unfold act_wait, mbind at 1.
  rewrite (m_groundeds_ok d st W [t; t2] [TStr text; TNum x]) by (constructor; [exact E|constructor; [exact Ex|constructor]]).
  cbv beta iota delta [mbind mret is_number m_world lift put_world m_time on_world]. cbn [fst snd]. rewrite (dotted_eq _ _ Ed), Ee. cbn [fst snd].
  change (w_reads (set_nv W k)) with (w_reads W).
  destruct (num_op fpow NTruediv x (NInt 1000)) as [y|]; [|discriminate Eu]. cbn [rbind] in Eu. rewrite Eu. reflexivity.
Qed.

(** Anything else is refused. *)
Theorem wait_refused d t v : grounded d t (b_scope st) = Ok v ->
  match v with TNum _ | TStr _ => False | _ => True end ->
  exists n0, forall n, (n0 <= n)%nat ->
    resume n a i (GQ (QAct AWait (TLit (s2p ".wait") [t] annots))) (st, W) = (Err EAsl, (st, W)).
Proof.
  intros E Hv. exists (S d). apply wait_step; [|discriminate].
  unfold start_act, mbind at 1, lift at 1. cbn [lit_args]. unfold act_wait, mbind at 1.
  rewrite (m_groundeds_ok d st W [t] [v]) by (constructor; [exact E|constructor]).
  destruct v; try contradiction; reflexivity.
Qed.
End Wait.
End WithPy.
