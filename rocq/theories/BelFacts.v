(** The belief base: what all reachable states have in common. *)
From Verif Require Import Base Num Term Unify TrailFacts FuelFacts TermSpec InstSpec ChainFacts PyEq SetFacts AnnotSpec FreezeFacts GroundFacts Str World Engine Effects EffFacts Step Ast Names Build QuerySpec Reach ReachFacts.

Lemma FOP_app_remove {A} (R : A -> A -> Prop) l : forall k, ForallOrdPairs R l -> ForallOrdPairs R (firstn k l ++ skipn (S k) l).
Proof.
  induction l as [|x l IH]; intros [|k] H; try (cbn; constructor; fail); inversion H; subst; [assumption|].
  change (ForallOrdPairs R (x :: (firstn k l ++ skipn (S k) l))). constructor; [|auto].
  apply Forall_forall. rewrite Forall_forall in H2. intros y Hy. apply H2. apply in_app_iff in Hy as [Hy|Hy].
  - rewrite <- (firstn_skipn k l). apply in_app_iff. now left.
  - destruct l as [|z l]; [destruct k; destruct Hy|]. change (skipn (S k) (z :: l)) with (skipn k l) in Hy.
    right. rewrite <- (firstn_skipn k l). apply in_app_iff. now right.
Qed.
Lemma in_remove_at {A} (l : list A) k x : In x (firstn k l ++ skipn (S k) l) -> In x l.
Proof.
  intro H. apply in_app_iff in H as [H|H].
  - rewrite <- (firstn_skipn k l). apply in_app_iff. now left.
  - rewrite <- (firstn_skipn (S k) l). apply in_app_iff. now right.
Qed.

Section WithPy.
Context {PY : Py} {FR : Front}.

(** A sublist, as produced by the loop of .abolish. *)
Lemma abolish_keeps n pat : forall bs r l, abolish_loop n pat bs = (r, l) ->
  incl l bs /\ forall R : term -> term -> Prop, ForallOrdPairs R bs -> ForallOrdPairs R l.
Proof.
  induction bs as [|b bs IH]; intros r l E; cbn in E.
  - inversion E; subst. split; [intro; auto|auto].
  - destruct (unifies_annotated n b pat) as [[]|e].
    + destruct (IH _ _ E) as [H1 H2]. split; [intros x Hx; right; auto|]. intros R HR. inversion HR; subst. auto.
    + destruct (abolish_loop n pat bs) as [r' l'] eqn:E'. inversion E; subst. destruct (IH _ _ eq_refl) as [H1 H2]. split.
      * intros x [->|Hx]; [left; auto|right; auto].
      * intros R HR. inversion HR; subst. constructor; [|auto]. apply Forall_forall. rewrite Forall_forall in H3. auto.
    + inversion E; subst. split; [intro; auto|auto].
Qed.

(** A belief that may be stored in the group [g]. *)
Definition okb (g : group) (b : term) : Prop := fits g b /\ ground b /\ distinct (lit_annots b).

(** [ty r] is the group for which the set [r] was created. *)
Definition bel_inv (ty : nat -> group) (W : world) : Prop :=
  (forall a g r, assoc group_eqb g (a_bel (get_agent W a)) = Some r -> (r < List.length (w_sets W))%nat /\ ty r = g) /\
  (forall r, Forall (okb (ty r)) (s_elems (get_set W r)) /\ distinct (s_elems (get_set W r))).

Lemma group_eqb_eq g h : group_eqb g h = true <-> g = h.
Proof.
  destruct g as [f k], h as [f' k']. unfold group_eqb. cbn. rewrite Bool.andb_true_iff, Nat.eqb_eq.
  destruct (pystr_eqb_spec f f'); split; intuition congruence.
Qed.
Lemma assoc_in {V} g (l : list (group * V)) r : assoc group_eqb g l = Some r -> In (g, r) l.
Proof.
  induction l as [|[k v] l IH]; cbn; [discriminate|]. destruct (group_eqb g k) eqn:E.
  - intro H. inversion H; subst. apply group_eqb_eq in E as ->. now left.
  - intro H. right. auto.
Qed.
Lemma assoc_app {V} g (l : list (group * V)) h v r : assoc group_eqb g (l ++ [(h, v)]) = Some r ->
  assoc group_eqb g l = Some r \/ (g = h /\ r = v).
Proof.
  induction l as [|[k w] l IH]; cbn.
  - destruct (group_eqb g h) eqn:E; [|discriminate]. intro H. inversion H; subst. apply group_eqb_eq in E. auto.
  - destruct (group_eqb g k); auto.
Qed.

Lemma get_agent_put W a x b : get_agent (put_agent W a x) b = get_agent W b \/ (b = a /\ get_agent (put_agent W a x) b = x).
Proof.
  unfold get_agent, put_agent. cbn. destruct (Nat.eq_dec b a) as [->|Hn].
  - destruct (Nat.lt_ge_cases a (List.length (w_agents W))).
    + right. split; [reflexivity|]. now apply upd_same.
    + left. now rewrite upd_beyond.
  - left. apply upd_other. congruence.
Qed.
Lemma get_agent_snoc W x b : get_agent (set_agents W (w_agents W ++ [x])) b = get_agent W b \/ get_agent (set_agents W (w_agents W ++ [x])) b = x.
Proof.
  unfold get_agent. cbn. destruct (Nat.lt_ge_cases b (List.length (w_agents W))).
  - left. now rewrite app_nth1.
  - rewrite app_nth2 by assumption. destruct (b - List.length (w_agents W))%nat eqn:E; [right; reflexivity|].
    left. cbn. rewrite nth_overflow by assumption. now destruct n.
Qed.

(** Only the sets and the maps to them matter. *)
Lemma bel_inv_same ty W W' : (forall a, a_bel (get_agent W' a) = a_bel (get_agent W a)) -> w_sets W' = w_sets W ->
  bel_inv ty W -> bel_inv ty W'.
Proof. intros H1 H2 [I1 I2]. unfold bel_inv, get_set in *. rewrite H2. split; [intros a g r; rewrite H1; eauto|exact I2]. Qed.

Lemma bel_inv_set ty W r s : bel_inv ty W ->
  (Forall (okb (ty r)) (s_elems s) /\ distinct (s_elems s)) ->
  bel_inv ty (set_sets W (upd (w_sets W) r s)).
Proof.
  intros [I1 I2] Hs. split.
  - intros a g k H. cbn. rewrite upd_length. exact (I1 a g k H).
  - intro k. unfold get_set. cbn. destruct (Nat.eq_dec k r) as [->|Hn].
    + destruct (Nat.lt_ge_cases r (List.length (w_sets W))) as [Hl|Hl].
      * now rewrite upd_same.
      * rewrite upd_beyond by assumption. exact (I2 r).
    + rewrite upd_other by congruence. exact (I2 k).
Qed.

Lemma put_agent_bel W a x : a_bel x = a_bel (get_agent W a) -> forall b, a_bel (get_agent (put_agent W a x) b) = a_bel (get_agent W b).
Proof. intros H b. destruct (get_agent_put W a x b) as [-> | [-> ->]]; auto. Qed.

Lemma distinct_perm l l' : Permutation.Permutation l l' -> distinct l -> distinct l'.
Proof. intros HP. apply FOP_perm; [|assumption]. intros x y H. now rewrite py_eqb_sym. Qed.

Hypothesis L : PyLawful PY.

Lemma bel_inv_belref ty W a g : bel_inv ty W -> exists ty', bel_inv ty' (snd (bel_ref a g W)).
Proof.
  intros [I1 I2]. unfold bel_ref. destruct (assoc group_eqb g (a_bel (get_agent W a))) as [r|] eqn:E; [exists ty; now split|].
  set (r := List.length (w_sets W)). exists (fun k => if Nat.eqb k r then g else ty k). cbn [snd]. split.
  - intros b h k H. cbn. rewrite app_length. cbn [List.length].
    assert (Hold : forall b, assoc group_eqb h (a_bel (get_agent W b)) = Some k ->
      (k < List.length (w_sets W) + 1)%nat /\ (if Nat.eqb k r then g else ty k) = h).
    { intros c Hc. destruct (I1 c h k Hc) as [A B]. split; [lia|]. destruct (Nat.eqb_spec k r); [subst r; lia|exact B]. }
    match type of H with context [put_agent ?W1 a ?x] => destruct (get_agent_put W1 a x b) as [E1|[-> E1]] end; rewrite E1 in H.
    + exact (Hold b H).
    + cbn in H. apply assoc_app in H as [H|[-> ->]]; [exact (Hold a H)|]. rewrite Nat.eqb_refl. split; [subst r; lia|reflexivity].
  - intro k. unfold get_set. cbn. destruct (Nat.lt_ge_cases k r) as [Hl|Hl].
    + rewrite app_nth1 by assumption. destruct (Nat.eqb_spec k r); [lia|]. exact (I2 k).
    + rewrite app_nth2 by assumption. fold r. destruct (k - r)%nat as [|j]; [|destruct j]; cbn; repeat constructor.
Qed.

Lemma grounded_fits n t s f args annots : grounded n t s = Ok (TLit f args annots) -> ground (TLit f args annots).
Proof. intro H. eapply grounded_inst in H as [_ H]; auto. Qed.

Lemma grounded_distinct n t s : forall b, grounded n t s = Ok b -> distinct (lit_annots b).
Proof.
  intros b E. apply grounded_inst in E as [E _]; [|assumption]. remember (fun _ : N => None) as rho. revert Heqrho.
  induction E; intro; try (constructor; fail); auto.
  - destruct H as [k Hk]. apply evaluate_expr_const in Hk; [|exact I]. destruct v; try contradiction Hk; constructor.
  - destruct H as [k Hk]. apply evaluate_expr_const in Hk; [|exact I]. destruct v; try contradiction Hk; constructor.
  - apply H1.
Qed.

Lemma geff_bel W W' : geff (fun _ => True) true W W' -> (exists ty, bel_inv ty W) -> exists ty, bel_inv ty W'.
Proof.
  intros H [ty HI].
  assert (Same : (forall a, a_bel (get_agent W' a) = a_bel (get_agent W a)) -> w_sets W' = w_sets W -> exists ty, bel_inv ty W')
    by (intros; exists ty; eapply bel_inv_same; eassumption).
  destruct H as [lo cur W' H|name|name p Hp|a l|name a Ha|i x|a l].
  2:{ exists ty. destruct HI as [I1 I2]. split; [|exact I2]. intros b g r Hb.
      destruct (get_agent_snoc W (empty_agent name) b) as [E|E]; rewrite E in Hb; [eauto|discriminate Hb]. }
  2:{ exists ty. destruct HI as [I1 I2]. split; [|exact I2]. intros b g r Hb.
      match type of Hb with context [set_agents W (_ ++ [?x])] => destruct (get_agent_snoc W x b) as [E|E] end;
        rewrite E in Hb; [eauto|exact (I1 p g r Hb)]. }
  2,5: apply Same; [apply put_agent_bel; reflexivity|reflexivity].
  2,3: now apply Same.
  destruct H; try (now apply Same); try (apply Same; [apply put_agent_bel; reflexivity|reflexivity]).
  - eapply bel_inv_belref; eassumption.
  - apply Same; unfold plan_ref; destruct (assoc _ _ _); try reflexivity. cbn [snd]. intro b.
    change (get_agent W b) with (get_agent (set_plists W (w_plists W ++ [[]])) b).
    apply put_agent_bel. reflexivity.
  - (* add *)
    exists ty. apply bel_inv_set; [exact HI|]. destruct HI as [I1 I2]. unfold set_add.
    destruct (py_in _ _) eqn:Ei; [exact (I2 r)|]. cbn [s_elems]. destruct (I2 r) as [J1 J2].
    destruct (I1 _ _ _ H0) as [_ Ht].
    assert (HP := L (TLit f args annots :: s_elems (get_set W r))).
    apply Permutation.Permutation_sym in HP. split.
    + eapply Permutation.Permutation_Forall; [exact HP|]. constructor; [|assumption]. split.
      * rewrite Ht. exists args, annots. now split.
      * split; [eapply grounded_fits; eassumption|eapply grounded_distinct; eassumption].
    + eapply distinct_perm; [exact HP|]. constructor; [|assumption]. apply Forall_forall. intros y Hy.
      destruct (py_eqb (TLit f args annots) y) eqn:E; [|reflexivity]. exfalso.
      rewrite py_eqb_sym in E. enough (py_in (TLit f args annots) (s_elems (get_set W r)) = true) by congruence.
      apply py_in_true. eauto.
  - (* remove *)
    exists ty. apply bel_inv_set; [exact HI|]. destruct HI as [I1 I2]. destruct (I2 r) as [J1 J2]. cbn. split.
    + rewrite Forall_forall in *. intros x Hx. apply J1. eapply in_remove_at; exact Hx.
    + now apply FOP_app_remove.
  - (* abolish *)
    exists ty. apply bel_inv_set; [exact HI|]. destruct HI as [I1 I2]. destruct (I2 r) as [J1 J2]. cbn.
    destruct (abolish_keeps _ _ _ _ _ H0) as [A1 A2]. split.
    + rewrite Forall_forall in *. auto.
    + now apply A2.
  - apply Same; [|reflexivity]. intro b. change (get_agent W b) with (get_agent (put_int W ni
      (mkint (p_code p) (Some 0%nat) (Some frozen) (Some t) st [] [] (i_wait (get_int W ni)))) b).
    apply put_agent_bel. reflexivity.
Qed.

Lemma bel_inv0 : bel_inv (fun _ => ([], 0%nat)) world0.
Proof.
  split.
  - intros [|a] g r H; discriminate H.
  - intro r. unfold get_set. cbn. destruct r; repeat constructor.
Qed.

Theorem reach_bel_inv W : reach W -> exists ty, bel_inv ty W.
Proof.
  intro H. apply (reach_geffs (fun _ => True)) in H; auto.
  apply (geffs_ind_inv _ _ (fun W => exists ty, bel_inv ty W) _ _ geff_bel H). eexists. apply bel_inv0.
Qed.

Theorem beliefs_wf W a g : reach W ->
  Forall (okb g) (beliefs a g W) /\ distinct (beliefs a g W).
Proof.
  intro H. destruct (reach_bel_inv W H) as (ty & I1 & I2). unfold beliefs.
  destruct (assoc group_eqb g _) as [r|] eqn:E; [|repeat constructor].
  destruct (I1 _ _ _ E) as [_ Ht]. rewrite <- Ht. exact (I2 r).
Qed.
End WithPy.
