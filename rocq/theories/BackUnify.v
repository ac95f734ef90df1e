(** Returning from a subgoal: unifying the calling term with the frozen head
    cannot fail. *)
From Verif Require Import Base Num Term Unify TrailFacts FuelFacts ChainFacts TermSpec WildSpec InstSpec.
From Verif Require Import PyEq SetFacts UnifySem UnifyTerm UnifyCor UnifyWild FreezeFacts.

Section WithPy.
Context {PY : Py}.

Definition th0 : N -> val := fun _ => VConst KNil.

Lemma evals_det s e v1 v2 : evals s e v1 -> evals s e v2 -> v1 = v2.
Proof.
  intros [n1 H1] [n2 H2].
  apply (evaluate_more n1 (Nat.max n1 n2)) in H1; [|lia].
  apply (evaluate_more n2 (Nat.max n1 n2)) in H2; [|lia]. congruence.
Qed.

Lemma evals_scalar s e v : match e with TUn _ _ | TBin _ _ _ => True | _ => False end -> evals s e v -> is_scalar_const v.
Proof. intros He [n H]. eapply evaluate_expr_const; eassumption. Qed.

Lemma value_tup_map ex ex' th ts ts' th' : map (value ex th) ts = map (value ex' th') ts' ->
  value ex th (TTup ts) = value ex' th' (TTup ts').
Proof.
  revert ts'. induction ts as [|x ts IH]; intros [|y ts'] H; cbn in H; try discriminate H; [reflexivity|].
  injection H as H1 H2. specialize (IH _ H2).
  change (VCons (value ex th x) (value ex th (TTup ts)) = VCons (value ex' th' y) (value ex' th' (TTup ts'))). now rewrite H1, IH.
Qed.

Lemma Forall2_map_eq {A B C} (f : A -> C) (g : B -> C) l l' : Forall2 (fun x y => f x = g y) l l' -> map f l = map g l'.
Proof. induction 1; cbn; congruence. Qed.

(** Instances of a term have the same value, whatever the names of their
    variables. *)
Lemma inst_fun ex s r1 r2 t a : inst s r1 t a -> forall b, inst s r2 t b -> value ex th0 a = value ex th0 b.
Proof.
  intro H. induction H using @inst_ind'; intros y Hy; inversion Hy; subst; try reflexivity; try congruence.
  - replace t0 with t in * by congruence. auto.
  - match goal with E : evals s _ y |- _ => now rewrite (evals_det _ _ _ _ H E) end.
  - match goal with E : evals s _ y |- _ => now rewrite (evals_det _ _ _ _ H E) end.
  - cbn. f_equal. match goal with HX : Forall2 (inst s r2) args ?x |- _ => rename HX into HA end.
    clear - H0 HA. revert args'0 HA. induction H0 as [|x y l l' Hxy Hl IH]; intros ys Hys; inversion Hys; subst; [reflexivity|].
    cbn. f_equal; [now apply Hxy|now apply IH].
  - match goal with HX : Forall2 (inst s r2) ts ?x |- _ => rename HX into HA end.
    apply value_tup_map. clear - H0 HA. revert ts'0 HA.
    induction H0 as [|x y l l' Hxy Hl IH]; intros ys Hys; inversion Hys; subst; [reflexivity|].
    cbn. f_equal; [now apply Hxy|now apply IH].
  - cbn. f_equal; [now apply IHinst1|now apply IHinst2].
Qed.

(** The value which the callee's scope gives to a variable. *)
Definition sval (n : nat) (s : scope) (x : N) : val :=
  match fst (freeze n (TVar x) s ([], 0%N)) with
  | Ok u => value (fun t => t) th0 u
  | Err _ => VConst KNil
  end.

Lemma inst_exprless s rho t t' : inst s rho t t' -> exprless t'.
Proof.
  intro H. induction H using @inst_ind'; try (constructor; fail); auto.
  - apply evals_scalar in H; [|exact I]. destruct v; try contradiction H; constructor.
  - apply evals_scalar in H; [|exact I]. destruct v; try contradiction H; constructor.
  - assert (HF : forall l l' : list term, Forall2 (fun _ x => exprless x) l l' -> Forall exprless l') by (induction 1; constructor; auto).
    constructor; [eapply HF; eassumption|]. apply Forall_forall. intros x Hx. apply H3 in Hx.
    apply HF in H2. rewrite Forall_forall in H2. auto.
  - constructor. clear - H0. induction H0; constructor; auto.
  - constructor; assumption.
Qed.

Lemma value_exprless ex ex' th t : exprless t -> value ex th t = value ex' th t.
Proof.
  induction t using term_ind'; intro He; inversion He; subst; try reflexivity.
  - cbn. f_equal. apply map_ext_in. intros x Hx. rewrite Forall_forall in *. apply H; auto.
  - apply value_tup_map. apply map_ext_in. intros x Hx. rewrite Forall_forall in *. apply H; auto.
  - cbn. f_equal; [now apply IHt1|now apply IHt2].
Qed.

Lemma inst_sval (L : PyLawful PY) ex s rho t t' : chain_ok s -> inst s rho t t' -> exprless t ->
  exists n0, forall n, (n0 <= n)%nat -> value ex (sval n s) t = value ex th0 t'.
Proof.
  intros Hc H.
  assert (HV : forall v t', inst s rho (TVar v) t' -> exists n0, forall n, (n0 <= n)%nat -> sval n s v = value ex th0 t').
  { intros v u Hv. destruct (freeze_total s rho _ _ Hc Hv) as [n0 Hn]. exists n0. intros n Hnn.
    destruct (Hn n ([], 0%N) Hnn) as (r & [m' k'] & E). unfold sval. rewrite E. cbn [fst].
    apply (freeze_copy L) in E as (E & _). pose proof (inst_exprless _ _ _ _ E) as He.
    rewrite (value_exprless _ ex _ _ He). eapply inst_fun; eassumption. }
  assert (HL : forall l l' : list term, Forall2 (fun t t' => exprless t -> exists n0, forall n, (n0 <= n)%nat -> value ex (sval n s) t = value ex th0 t') l l' ->
    Forall exprless l -> exists n0, forall n, (n0 <= n)%nat -> map (value ex (sval n s)) l = map (value ex th0) l').
  { intros l l' HF. induction HF as [|x y l l' Hxy Hl IH]; intro HE; [now exists 0%nat|].
    inversion HE as [|? ? He1 He2]; subst. destruct (Hxy He1) as [n1 H1], (IH He2) as [n2 H2].
    exists (Nat.max n1 n2). intros n Hn. cbn. rewrite H1, H2; [reflexivity|lia|lia]. }
  induction H using @inst_ind'; intro He; try (exists 0%nat; intros; reflexivity); try (inversion He; fail).
  - apply HV. eapply in_bound; eassumption.
  - apply HV. now apply in_free.
  - inversion He; subst. destruct (HL _ _ H0) as [n0 Hn]; [assumption|]. exists n0. intros n Hnn.
    cbn. f_equal. now apply Hn.
  - inversion He; subst. destruct (HL _ _ H0) as [n0 Hn]; [assumption|]. exists n0. intros n Hnn.
    apply value_tup_map. now apply Hn.
  - inversion He; subst. destruct IHinst1 as [n1 H1]; [assumption|]. destruct IHinst2 as [n2 H2]; [assumption|].
    exists (Nat.max n1 n2). intros n Hn. cbn. f_equal; [apply H1|apply H2]; lia.
Qed.

(** * Extending an assignment over an acyclic scope *)
Section Ext.
Variable ex : term -> term.
Variable s : scope.
Variable base : N -> val.

Fixpoint ext (n : nat) (v : N) : val :=
  match lookup s v with
  | None => base v
  | Some t => match n with O => base v | S n' => value ex (ext n') t end
  end.

Lemma value_occurs th th' t : (forall v, occurs v t -> th v = th' v) -> value ex th t = value ex th' t.
Proof.
  induction t using term_ind'; intro He; try reflexivity.
  - apply He. constructor.
  - cbn. f_equal. apply map_ext_in. intros x Hx. rewrite Forall_forall in *. apply H; [assumption|].
    intros v Hv. apply He. constructor. apply Exists_exists. eauto.
  - apply value_tup_map. apply map_ext_in. intros x Hx. rewrite Forall_forall in *. apply H; [assumption|].
    intros v Hv. apply He. constructor. apply Exists_exists. eauto.
  - cbn. f_equal; [apply IHt1|apply IHt2]; intros v Hv; apply He; constructor; auto.
Qed.

Variable rank : N -> nat.
Hypothesis Hrank : forall v t w, lookup s v = Some t -> occurs w t -> (rank w < rank v)%nat.

Lemma ext_stable : forall n m v, (rank v < n)%nat -> (rank v < m)%nat -> ext n v = ext m v.
Proof.
  induction n as [|n IH]; intros m v Hn Hm; [lia|]. destruct m as [|m]; [lia|]. cbn.
  destruct (lookup s v) as [t|] eqn:E; [|reflexivity]. apply value_occurs. intros w Hw.
  pose proof (Hrank _ _ _ E Hw). apply IH; lia.
Qed.

Definition extth (v : N) : val := ext (S (rank v)) v.

Lemma extth_bound v t : lookup s v = Some t -> extth v = value ex extth t.
Proof.
  intro E. unfold extth at 1. cbn. rewrite E. apply value_occurs. intros w Hw.
  pose proof (Hrank _ _ _ E Hw). apply ext_stable; lia.
Qed.

Lemma extth_free v : lookup s v = None -> extth v = base v.
Proof. intro E. unfold extth. cbn. now rewrite E. Qed.
End Ext.

Lemma vmatch_value ex th t : vmatch ex th t (value ex th t).
Proof.
  induction t using term_ind'; try (constructor; fail).
  - cbn. constructor. induction H; cbn; constructor; auto.
  - induction ts as [|x ts IH]; [constructor|]. inversion H; subst.
    change (value ex th (TTup (x :: ts))) with (VCons (value ex th x) (value ex th (TTup ts))). constructor; auto.
  - cbn. constructor; assumption.
Qed.

(** The instance of a term has the value of the term. *)
Lemma inst_value ex s F th rho t t' :
  wplain s ex t -> wplain_scope s ex s ->
  (forall v u, lookup s v = Some u -> th v = value ex th u) ->
  (forall v x, lookup s v = None -> rho v = Some x -> th v = F x) ->
  inst s rho t t' -> value ex th t = value ex F t'.
Proof.
  intros Hp Hs Hb Hf H. revert Hp. induction H using @inst_ind'; intro Hp; try reflexivity.
  - cbn. rewrite (Hb _ _ H). apply IHinst. eapply Hs; eassumption.
  - cbn. now apply Hf.
  - inversion Hp as [| | | | |? ? E1 E2| | | |]; subst.
    rewrite (evals_det _ _ _ _ H E1). cbn. apply evals_scalar in E1; [|exact I].
    destruct (ex (TUn op a)); try contradiction E1; reflexivity.
  - inversion Hp as [| | | | | |? ? ? E1 E2| | |]; subst.
    rewrite (evals_det _ _ _ _ H E1). cbn. apply evals_scalar in E1; [|exact I].
    destruct (ex (TBin op a b)); try contradiction E1; reflexivity.
  - inversion Hp; subst. cbn. f_equal. apply Forall2_map_eq.
    match goal with HX : Forall (wplain s ex) args |- _ => rename HX into HA end.
    clear - H0 HA. induction H0; inversion HA; subst; constructor; auto.
  - inversion Hp; subst. apply value_tup_map. apply Forall2_map_eq.
    match goal with HX : Forall (wplain s ex) ts |- _ => rename HX into HA end.
    clear - H0 HA. induction H0; inversion HA; subst; constructor; auto.
  - inversion Hp; subst. cbn. f_equal; [now apply IHinst1|now apply IHinst2].
Qed.


Definition cut (k : N) (rho : N -> option N) (v : N) : option N := if (v <? k)%N then rho v else None.

Lemma inst_cut k s rho t t' : older k t -> older_scope k s -> inst s rho t t' -> inst s (cut k rho) t t'.
Proof.
  intros Ht Hs H. revert Ht. induction H using @inst_ind'; intro Ht; try (constructor; assumption).
  - eapply in_bound; [eassumption|]. apply IHinst. eapply Hs; eassumption.
  - apply in_free; [assumption|]. unfold cut. specialize (Ht v (mn_var v)). apply N.ltb_lt in Ht. now rewrite Ht.
  - eapply in_lit; [| |eassumption].
    + assert (HA : Forall (older k) args).
      { apply Forall_forall. intros x Hx v Hv. apply Ht. constructor. left. apply Exists_exists. eauto. }
      clear - H0 HA. induction H0; inversion HA; subst; constructor; auto.
    + assert (HA : Forall (older k) annots).
      { apply Forall_forall. intros x Hx v Hv. apply Ht. constructor. right. apply Exists_exists. eauto. }
      clear - H2 HA. induction H2; inversion HA; subst; constructor; auto.
  - constructor. assert (HA : Forall (older k) ts).
    { apply Forall_forall. intros x Hx v Hv. apply Ht. constructor. apply Exists_exists. eauto. }
    clear - H0 HA. induction H0; inversion HA; subst; constructor; auto.
  - constructor; [apply IHinst1|apply IHinst2]; intros v Hv; apply Ht; constructor; auto.
Qed.

Lemma occurs_mentions v t : occurs v t -> mentions v t.
Proof.
  induction t using term_ind'; intro Ho; inversion Ho; subst; constructor; auto.
  - left. match goal with HE : Exists _ _ |- _ => apply Exists_exists in HE as (x & Hx & E) end.
    rewrite Forall_forall in *. apply Exists_exists. eauto.
  - match goal with HE : Exists _ _ |- _ => apply Exists_exists in HE as (x & Hx & E) end.
    rewrite Forall_forall in *. apply Exists_exists. eauto.
  - destruct H0; auto.
Qed.

Lemma exprless_wplain s ex t : exprless t -> nonan t -> wplain s ex t.
Proof.
  induction t using term_ind'; intros He Hn; inversion He; inversion Hn; subst; try (constructor; auto; fail).
  - constructor. rewrite Forall_forall in *. auto.
  - constructor. rewrite Forall_forall in *. auto.
Qed.

Theorem back_unify (L : PyLawful PY) ex n1 n2 t st k frozen m1 k1 sk k2 R m2 k3 :
  wplain (b_scope st) ex t -> wplain_scope (b_scope st) ex (b_scope st) ->
  chain_ok (b_scope st) -> acyclic (b_scope st) -> older k t -> older_scope k (b_scope st) ->
  freeze n1 t (b_scope st) ([], k) = (Ok frozen, (m1, k1)) ->
  chain_ok sk -> (k <= k2)%N ->
  freeze n2 frozen sk ([], k2) = (Ok R, (m2, k3)) -> nonan R ->
  exists n0 st', forall n, (n0 <= n)%nat -> unify n t R st = (Ok true, st').
Proof.
  intros Hp Hps Hc [rank Hr] Ht Hs F1 Hck Hk F2 HR.
  apply (freeze_copy L) in F1 as (I1 & D1 & _ & _). apply (freeze_copy L) in F2 as (I2 & _ & _ & M2).
  pose proof (inst_exprless _ _ _ _ I1) as E1. pose proof (inst_exprless _ _ _ _ I2) as E2.
  destruct (inst_sval L ex _ _ _ _ Hck I2 E1) as [n0 Hn].
  specialize (Hn n0 (le_n _)). set (F := sval n0 sk) in *.
  apply (inst_cut k) in I1; [|assumption|assumption].
  set (base := fun v => match cut k (memo_get m1) v with Some x => F x | None => VConst KNil end).
  set (th := extth ex (b_scope st) base rank).
  assert (Hb : forall v u, lookup (b_scope st) v = Some u -> th v = value ex th u)
    by (intros v u; now apply extth_bound).
  assert (Hv : value ex th t = value ex F frozen).
  { eapply inst_value with (s := b_scope st) (rho := cut k (memo_get m1)); try eassumption.
    intros v x Hv Hx. unfold th. rewrite extth_free by assumption. unfold base. now rewrite Hx. }
  assert (HvR : value ex th R = value ex th0 R).
  { apply value_occurs. intros v Hv'. apply occurs_mentions in Hv'. apply M2 in Hv'.
    assert (lookup (b_scope st) v = None).
    { destruct (lookup (b_scope st) v) as [u|] eqn:E; [|reflexivity]. apply Hs in E as [E _]. lia. }
    unfold th. rewrite extth_free by assumption. unfold base, cut.
    destruct (N.ltb_spec v k); [lia|reflexivity]. }
  destruct (unify_wcomplete (b_scope st) ex th (value ex th R) t R st) as (m0 & st' & HU & _).
  - split; [assumption|]. split; [now apply exprless_wplain|]. split; [split; [assumption|split; [assumption|easy]]|].
    split; [intros v u E; rewrite (Hb v u E); apply vmatch_value|].
    split; [|apply vmatch_value]. rewrite HvR, <- Hn, <- Hv. apply vmatch_value.
  - eauto.
Qed.

End WithPy.
