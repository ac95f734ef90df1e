(** Handling events. *)
From Verif Require Import Base Num Term Unify TrailSpec TrailFacts TrailHist FuelFacts AnnotFlat AnnotFacts Str World Engine FuelEngine NamesFacts QuerySpec QueryBase QueryFacts QueryComplete BelSpec SolsMono PlanSpec PlanFacts.

Section WithPy.
Context {PY : Py} {FR : Front}.

Lemma ua_more n m l r b : (n <= m)%nat -> unifies_annotated n l r = Ok b -> unifies_annotated m l r = Ok b.
Proof.
  unfold unifies_annotated, unifies_annotated_in. intros Hn.
  destruct (uann n l r (mkbst [] [] 0)) as [[[cp|]|e] st] eqn:E; cbn; intro H; inversion H; subst; now rewrite (uann_more n m _ _ _ _ _ Hn E).
Qed.
Lemma ua_finds l r s' : finds [] l r s' -> exists n, unifies_annotated n l r = Ok true.
Proof. intros (n & cp & st & E & _). exists n. unfold unifies_annotated, unifies_annotated_in. now rewrite E. Qed.
Lemma ua_misses l r : misses [] l r -> exists n, unifies_annotated n l r = Ok false.
Proof. intros (n & st & E). exists n. unfold unifies_annotated, unifies_annotated_in. now rewrite E. Qed.
Lemma ua_true n l r : unifies_annotated n l r = Ok true -> exists s', finds [] l r s'.
Proof.
  unfold unifies_annotated, unifies_annotated_in. destruct (uann n l r (mkbst [] [] 0)) as [[[cp|]|e] st] eqn:E; cbn; intro H; inversion H.
  exists (b_scope st), n, cp, st. auto.
Qed.
Lemma ua_false n l r : unifies_annotated n l r = Ok false -> misses [] l r.
Proof.
  unfold unifies_annotated, unifies_annotated_in. destruct (uann n l r (mkbst [] [] 0)) as [[[cp|]|e] st] eqn:E; cbn; intro H; inversion H.
  exists n, st. auto.
Qed.

Lemma trig_eqb_eq x y : trig_eqb x y = true <-> x = y.
Proof. destruct x, y; cbn; split; congruence. Qed.
Lemma gtype_eqb_eq x y : gtype_eqb x y = true <-> x = y.
Proof. destruct x, y; cbn; split; congruence. Qed.

(** Whether one intention wakes up. *)
Lemma wakes_dec tr gt frozen it : wait_decided tr gt frozen it ->
  exists b n0, (forall n, (n0 <= n)%nat -> wakes n tr gt frozen it = Ok b) /\ (b = true <-> awaits tr gt frozen it).
Proof.
  intro H. unfold wakes. destruct (i_wait it) as [[[e|] u]|] eqn:Ew.
  - destruct (trig_eqb (ev_trig e) tr && gtype_eqb (ev_gt e) gt) eqn:Et.
    + apply andb_true_iff in Et. destruct Et as [E1 E2]. apply trig_eqb_eq in E1. apply gtype_eqb_eq in E2.
      destruct (H e u Ew E1 E2) as [[s' Hf]|Hm].
      * destruct (ua_finds _ _ _ Hf) as [n0 En]. exists true, n0. split; [intros n Hn; eapply ua_more; eassumption|].
        split; [|reflexivity]. intros _. exists e, u, s'. auto.
      * destruct (ua_misses _ _ Hm) as [n0 En]. exists false, n0. split; [intros n Hn; eapply ua_more; eassumption|].
        split; [discriminate|]. intros (e' & u' & s' & A & B & C & Hf). rewrite Ew in A. inversion A; subst e' u'.
        destruct (ua_finds _ _ _ Hf) as [n1 En1]. 
        pose proof (ua_more n0 (Nat.max n0 n1) _ _ _ ltac:(lia) En) as X1. pose proof (ua_more n1 (Nat.max n0 n1) _ _ _ ltac:(lia) En1) as X2. congruence.
    + exists false, 0%nat. split; [reflexivity|]. split; [discriminate|].
      intros (e' & u' & s' & A & B & C & Hf). rewrite Ew in A. inversion A; subst e' u'.
      apply trig_eqb_eq in B. apply gtype_eqb_eq in C. rewrite B, C in Et. discriminate Et.
  - exists false, 0%nat. split; [reflexivity|]. split; [discriminate|]. intros (e' & u' & s' & A & _). rewrite Ew in A. discriminate A.
  - exists false, 0%nat. split; [reflexivity|]. split; [discriminate|]. intros (e' & u' & s' & A & _). rewrite Ew in A. discriminate A.
Qed.

Lemma get_put_int W i j x : get_int (put_int W i x) j = if Nat.eqb i j then (if Nat.ltb i (List.length (w_ints W)) then x else int0) else get_int W j.
Proof.
  unfold get_int, put_int. cbn [w_ints set_ints]. destruct (Nat.eqb_spec i j) as [->|N].
  - destruct (Nat.ltb_spec j (List.length (w_ints W))).
    + now apply upd_nth_same.
    + rewrite upd_over by assumption. now apply nth_overflow.
  - now apply upd_nth_other.
Qed.

Lemma upd_len {A} (l : list A) k x : List.length (upd l k x) = List.length l.
Proof. revert k; induction l; intros [|k]; cbn; auto. Qed.

Lemma awaits_bound tr gt frozen W i : awaits tr gt frozen (get_int W i) -> (i < List.length (w_ints W))%nat.
Proof.
  intros (e & u & s' & A & _). destruct (Nat.lt_ge_cases i (List.length (w_ints W))); [assumption|].
  unfold get_int in A. rewrite nth_overflow in A by assumption. discriminate A.
Qed.

Lemma not_awaits_none tr gt frozen it : i_wait it = None -> ~ awaits tr gt frozen it.
Proof. intros H (e & u & s' & A & _). congruence. Qed.

Lemma wake_total tr gt frozen stacks : forall W st,
  (forall i, on_top i stacks -> wait_decided tr gt frozen (get_int W i)) ->
  exists n0 ints, (forall n, (n0 <= n)%nat -> wake n tr gt frozen stacks (st, W) = (Ok tt, (st, set_ints W ints))) /\
    List.length ints = List.length (w_ints W) /\ wakened tr gt frozen stacks W (set_ints W ints).
Proof.
  induction stacks as [|[|i rest] stacks IH]; intros W st Hd.
  - exists 0%nat, (w_ints W). split; [|split; [reflexivity|]].
    + intros n _. cbn [wake]. unfold mret. now destruct W.
    + split; [reflexivity|]. intros i _. split; [intros [[r []] _]|reflexivity].
  - destruct (IH W st) as (n0 & ints & H1 & H2 & H3 & H4).
    { intros i [r Hr]. apply Hd. exists r. now right. }
    exists n0, ints. split; [exact H1|]. split; [exact H2|]. split; [exact H3|]. intros i Hi. destruct (H4 i Hi) as [A B].
    split; intro H.
    + apply A. destruct H as [[r [E|Hr]] Ha]; [discriminate E|]. split; [now exists r|assumption].
    + apply B. intros [[r Hr] Ha]. apply H. split; [exists r; now right|assumption].
  - destruct (wakes_dec tr gt frozen (get_int W i)) as (b & n1 & E1 & Hb).
    { apply Hd. exists rest. now left. }
    destruct b.
    + set (W1 := put_int W i (set_i_wait (get_int W i) None)).
      assert (HA : awaits tr gt frozen (get_int W i)) by now apply Hb.
      pose proof (awaits_bound _ _ _ _ _ HA) as Hi.
      assert (G1 : forall j, get_int W1 j = if Nat.eqb i j then set_i_wait (get_int W i) None else get_int W j).
      { intro j. unfold W1. rewrite get_put_int. destruct (Nat.ltb_spec i (List.length (w_ints W))); [reflexivity|lia]. }
      destruct (IH W1 st) as (n0 & ints & H1 & H2 & H3 & H4).
      { intros j [r Hr]. rewrite G1. destruct (Nat.eqb_spec i j); [intros ev0 u E; discriminate E|]. apply Hd. exists r. now right. }
      assert (Hlen : List.length (w_ints W1) = List.length (w_ints W)) by apply upd_len.
      exists (Nat.max n0 n1), ints. split; [|split; [congruence|]].
      * intros n Hn. cbn [wake]. unfold mbind at 1, m_world. cbn [fst snd]. unfold mbind at 1, lift. rewrite E1 by lia.
        unfold mbind at 1, put_world. cbn [fst snd]. rewrite H1 by lia. reflexivity.
      * split; [cbn in H3 |- *; lia|]. intros j Hj. destruct (H4 j ltac:(lia)) as [A B]. cbn [get_int] in *.
        rewrite G1 in A, B.
        destruct (Nat.eqb_spec i j) as [<-|Nij].
        -- split; intro H.
           ++ change (get_int (set_ints W1 ints) i) with (get_int (set_ints W ints) i) in B. rewrite B; [reflexivity|].
              intros [_ H']. revert H'. now apply not_awaits_none.
           ++ exfalso. apply H. split; [exists rest; now left|assumption].
        -- change (get_int (set_ints W1 ints) j) with (get_int (set_ints W ints) j) in A, B. split; intro H.
           ++ apply A. destruct H as [[r [E|Hr]] Ha]; [inversion E; congruence|]. split; [now exists r|assumption].
           ++ apply B. intros [[r Hr] Ha]. apply H. split; [exists r; now right|assumption].
    + destruct (IH W st) as (n0 & ints & H1 & H2 & H3 & H4).
      { intros j [r Hr]. apply Hd. exists r. now right. }
      assert (HA : ~ awaits tr gt frozen (get_int W i)) by (intro H; apply Hb in H; discriminate H).
      exists (Nat.max n0 n1), ints. split; [|split; [assumption|]].
      * intros n Hn. cbn [wake]. unfold mbind at 1, m_world. cbn [fst snd]. unfold mbind at 1, lift. rewrite E1 by lia.
        unfold mbind at 1, mret. rewrite H1 by lia. reflexivity.
      * split; [exact H3|]. intros j Hj. destruct (H4 j Hj) as [A B]. split; intro H.
        -- apply A. destruct H as [[r [E|Hr]] Ha]; [inversion E; subst; contradiction|]. split; [now exists r|assumption].
        -- apply B. intros [[r Hr] Ha]. apply H. split; [exists r; now right|assumption].
Qed.

(** ** The new intention's place *)
Lemma push_placed ci new l : (forall s, In s l -> s <> []) ->
  exists o, push_on ci new l = Ok o /\ (match o with Some l' => l' | None => l ++ [[new]] end) = placed ci new l.
Proof.
  induction l as [|[|i rest] l IH]; intro H; cbn.
  - exists None. auto.
  - exfalso. apply (H []); [now left|reflexivity].
  - destruct (Nat.eqb i ci); [eexists; split; reflexivity|].
    destruct IH as (o & E & P). { intros s Hs. apply H. now right. }
    rewrite E. destruct o as [l'|]; (eexists; split; [reflexivity|]); cbn; now rewrite <- P.
Qed.

(** ** Preparing *)
Definition prepared (n : nat) (a : nat) (tr : trig) (gt : gtype) (frozen t : term) (ci : nat) (delayed : bool) (ref : nat) (st : bst) (W4 : world) : res bool * ST :=
  match e_plans (engine n) a ref (frozen, t, ci, delayed, List.length (w_ints W4) - 1)%nat 0%nat (bst0, W4) with
  | (Ok true, s) => (Ok true, (st, snd s))
  | (Ok false, s) => match gt with
                     | GtAchieve => (Err EAsl, (st, snd s))
                     | GtTest => test_belief (engine n) n a ci t (st, snd s)
                     | _ => (Ok true, (st, snd s))
                     end
  | (Err e, s) => (Err e, (st, snd s))
  end.

Record ready_for (a : nat) (tr : trig) (gt : gtype) (g : group) (frozen : term) (k : N) (ref : nat) (W W4 : world) : Prop := mkready {
  rf_minds : same_minds W W4;
  rf_ints : List.length (w_ints W4) = S (List.length (w_ints W));
  rf_new : get_int W4 (List.length (w_ints W)) = int0;
  rf_wake : wakened tr gt frozen (a_ints (get_agent W a)) W W4;
  rf_stacks : forall b, a_ints (get_agent W4 b) = a_ints (get_agent W b);
  rf_nv : w_nv W4 = k;
  rf_ref : get_plist W4 ref = plans_of a (tr, gt, g) W;
  rf_count : List.length (w_agents W4) = List.length (w_agents W);
  rf_name : forall b, a_name (get_agent W4 b) = a_name (get_agent W b);
  rf_db : get_plist W4 ref = [] \/ db_of a W4 = db_of a W
}.

Lemma same_minds_refl W : same_minds W W.
Proof. now constructor. Qed.

Lemma wakened_more tr gt frozen l W W' x : wakened tr gt frozen l W W' -> wakened tr gt frozen l W (set_ints W' (w_ints W' ++ [x])).
Proof.
  intros [H1 H2]. split; [cbn; rewrite app_length; lia|]. intros i Hi. destruct (H2 i Hi) as [A B].
  assert (E : get_int (set_ints W' (w_ints W' ++ [x])) i = get_int W' i) by (unfold get_int; cbn; apply app_nth1; lia).
  rewrite E. auto.
Qed.

Lemma plan_assoc_app {V} g h (v : V) l : assoc pgroup_eqb g (l ++ [(h, v)]) =
  match assoc pgroup_eqb g l with Some r => Some r | None => if pgroup_eqb g h then Some v else None end.
Proof. induction l as [|[h' v'] l IH]; cbn; [reflexivity|]. now destruct (pgroup_eqb g h'). Qed.

Lemma plists_app W r ps : get_plist (set_plists W (ps ++ [[]])) r = get_plist (set_plists W ps) r.
Proof.
  unfold get_plist. cbn. destruct (Nat.lt_ge_cases r (List.length ps)) as [H|H]; [now apply app_nth1|].
  rewrite app_nth2 by assumption. rewrite (nth_overflow ps) by assumption. now destruct (r - List.length ps)%nat as [|[|]].
Qed.

Lemma event_ready n1 a tr gt t ci delayed st W frozen f args ann m k :
  freeze n1 t (b_scope st) ([], w_nv W) = (Ok frozen, (m, k)) -> frozen = TLit f args ann ->
  plan_event tr gt = true -> (a < List.length (w_agents W))%nat ->
  (forall i, on_top i (a_ints (get_agent W a)) -> wait_decided tr gt frozen (get_int W i)) ->
  exists n0 ref W4, ready_for a tr gt (f, List.length args) frozen k ref W W4 /\
    forall n, (n0 <= n)%nat -> call_event (engine n) n a tr gt t ci delayed (st, W) = prepared n a tr gt frozen t ci delayed ref st W4.
Proof.
  intros HF -> HE Ha Hd.
  destruct (wake_total tr gt (TLit f args ann) (a_ints (get_agent W a)) (set_nv W k) st Hd) as (n2 & ints & H1 & H2 & H3).
  set (W2 := set_ints (set_nv W k) ints) in *.
  set (R := plan_ref a (tr, gt, (f, List.length args)) W2).
  set (W3 := snd R).
  set (W4 := set_ints W3 (w_ints W3 ++ [int0])).
  assert (EI : w_ints W3 = ints).
  { unfold W3, R, plan_ref. destruct (assoc _ _ _); reflexivity. }
  exists (Nat.max n1 n2), (fst R), W4. split.
  - assert (HP : forall b g, a_ints (get_agent W3 b) = a_ints (get_agent W b) /\ a_bel (get_agent W3 b) = a_bel (get_agent W b) /\ a_rules (get_agent W3 b) = a_rules (get_agent W b)
       /\ plans_of b g W3 = plans_of b g W /\ w_env W3 = w_env W /\ (forall r, get_set W3 r = get_set W r)).
    { intros b g. unfold W3, R, plan_ref. destruct (assoc pgroup_eqb (tr, gt, (f, List.length args)) (a_plans (get_agent W2 a))) as [r|] eqn:Er; cbn [snd]; [now repeat split|].
      change (a_plans (get_agent W2 a)) with (a_plans (get_agent W a)) in *.
      unfold plans_of. rewrite !get_put_agent.
      destruct (Nat.eqb_spec a b) as [<-|N].
      - destruct (Nat.ltb_spec a (List.length (w_agents (set_plists W2 (w_plists W2 ++ [[]]))))) as [_|Hge]; [|change (w_agents (set_plists W2 (w_plists W2 ++ [[]]))) with (w_agents W) in Hge; lia].
        repeat split; try reflexivity. cbn [a_plans set_a_plans]. change (a_plans (get_agent W2 a)) with (a_plans (get_agent W a)).
        rewrite plan_assoc_app. destruct (assoc pgroup_eqb g (a_plans (get_agent W a))) as [r|]; [apply plists_app|].
        destruct (pgroup_eqb g _); [|reflexivity]. cbn [get_plist]. unfold get_plist. cbn. rewrite app_nth2 by lia. now rewrite Nat.sub_diag.
      - repeat split; try reflexivity. change (get_agent (set_plists W2 (w_plists W2 ++ [[]])) b) with (get_agent W b).
        destruct (assoc pgroup_eqb g (a_plans (get_agent W b))) as [r|]; [apply plists_app|reflexivity]. }
    constructor.
    + constructor.
      * intros b g. destruct (HP b (tr, gt, (f, 0%nat))) as (_ & P2 & _ & _ & _ & P6). unfold beliefs. change (get_agent W4 b) with (get_agent W3 b). rewrite P2.
        destruct (assoc group_eqb g (a_bel (get_agent W b))) as [r|]; [|reflexivity]. change (get_set W4 r) with (get_set W3 r). now rewrite P6.
      * intro b. exact (proj1 (proj2 (proj2 (HP b (tr, gt, (f, 0%nat)))))).
      * intros b g. exact (proj1 (proj2 (proj2 (proj2 (HP b g))))).
      * exact (proj1 (proj2 (proj2 (proj2 (proj2 (HP 0%nat (tr, gt, (f, 0%nat)))))))).
    + unfold W4. cbn. rewrite app_length, EI, H2. cbn. lia.
    + unfold W4, get_int. cbn. rewrite EI, app_nth2 by (rewrite H2; cbn; lia). rewrite H2. cbn. now rewrite Nat.sub_diag.
    + apply wakened_more. destruct H3 as [A B]. split; [rewrite EI; exact A|]. intros i Hi. assert (EG : get_int W3 i = get_int W2 i) by (unfold get_int; rewrite EI; reflexivity). rewrite EG. exact (B i Hi).
    + intro b. exact (proj1 (HP b (tr, gt, (f, 0%nat)))).
    + unfold W4, W3, R, plan_ref. destruct (assoc _ _ _); reflexivity.
    + unfold W4, W3, R, plan_ref. change (a_plans (get_agent W2 a)) with (a_plans (get_agent W a)).
      change (plans_of a (tr, gt, (f, List.length args)) W) with 
        (match assoc pgroup_eqb (tr, gt, (f, List.length args)) (a_plans (get_agent W a)) with Some r => get_plist W r | None => [] end).
      destruct (assoc pgroup_eqb (tr, gt, (f, List.length args)) (a_plans (get_agent W a))) as [r|]; [reflexivity|].
      cbn [fst snd]. unfold get_plist. cbn. rewrite app_nth2 by lia. now rewrite Nat.sub_diag.
    + unfold W4, W3, R, plan_ref. destruct (assoc _ _ _); [reflexivity|]. cbn. apply upd_length.
    + intro b. unfold W4, W3, R, plan_ref. destruct (assoc _ _ _); [reflexivity|]. cbn [snd].
      match goal with |- a_name (get_agent (set_ints ?x _) b) = _ => change (a_name (get_agent x b) = a_name (get_agent W b)) end.
      rewrite get_put_agent. destruct (Nat.eqb_spec a b) as [<-|]; [|reflexivity].
      destruct (Nat.ltb_spec a (List.length (w_agents (set_plists W2 (w_plists W2 ++ [[]]))))) as [_|Hge]; [reflexivity|].
      change (w_agents (set_plists W2 (w_plists W2 ++ [[]]))) with (w_agents W) in Hge; lia.
    + unfold W4, W3, R, plan_ref. change (a_plans (get_agent W2 a)) with (a_plans (get_agent W a)).
      destruct (assoc pgroup_eqb (tr, gt, (f, List.length args)) (a_plans (get_agent W a))) as [r|]; [right; reflexivity|left].
      cbn [fst snd]. unfold get_plist. cbn. rewrite app_nth2 by lia. now rewrite Nat.sub_diag.
  - intros n Hn. unfold call_event, prepared. unfold mbind at 1, m_freeze. cbn [fst snd].
    pose proof (freeze_more n1 n _ _ _ _ _ ltac:(lia) HF) as HF'. 
    match type of HF' with ?x = _ => match goal with |- context [freeze n t ?s ?f] => change (freeze n t s f) with x end end. rewrite HF'.
    cbn [fst snd]. unfold mbind at 1, m_world. cbn [fst snd]. unfold mbind at 1.
    change (get_agent (set_nv W k) a) with (get_agent W a). rewrite H1 by lia. fold W2.
    assert (EN : (List.length (w_ints W4) - 1 = List.length (w_ints W3))%nat) by (unfold W4; cbn [w_ints set_ints]; rewrite app_length; apply Nat.add_sub).
    rewrite EN.
    assert (EC : (ref <- on_world (plan_ref a (tr, gt, (f, List.length args))) ;;
           found <- with_new (fun ni => e_plans (engine n) a ref (TLit f args ann, t, ci, delayed, ni) 0%nat) ;;
           if found : bool then mret true
           else match gt with
                | GtAchieve => mfail EAsl
                | GtTest => test_belief (engine n) n a ci t
                | _ => mret true
                end)%M (st, W2) =
      match e_plans (engine n) a (fst R) (TLit f args ann, t, ci, delayed, List.length (w_ints W3)) 0%nat (bst0, W4) with
  | (Ok true, s) => (Ok true, (st, snd s))
  | (Ok false, s) => match gt with
                     | GtAchieve => (Err EAsl, (st, snd s))
                     | GtTest => test_belief (engine n) n a ci t (st, snd s)
                     | _ => (Ok true, (st, snd s))
                     end
  | (Err e, s) => (Err e, (st, snd s))
  end).
    { unfold mbind at 1, on_world. cbn [fst snd]. fold R. unfold W4, W3. destruct R as [ref W3']. cbn [fst snd].
      unfold mbind at 1, with_new, new_int. cbn [fst snd].
      destruct (e_plans (engine n) a ref _ 0%nat (bst0, _)) as [[[|]|e] [c5 W5]]; cbn [fst snd]; [reflexivity| |reflexivity].
      destruct gt; reflexivity. }
    destruct gt, tr; try discriminate HE; exact EC.
Qed.

(** ** Selection *)
Lemma select_up d d' D D' l e nv c : same_db D D' -> (d < d')%nat -> select d D l e nv = c -> c <> CutOff -> select d' D' l e nv = c.
Proof.
  intros HD Hd. revert nv. induction l as [|p l IH]; intros nv H Hc; cbn [select] in *; [assumption|].
  pose proof (sols_up d d' D D' (QAnd (QUnify (p_head p) e) (p_ctx p)) [] nv HD Hd) as HT.
  destruct (sols d D _ [] nv); inversion HT; subst; auto; congruence.
Qed.

Lemma same_minds_db a W W' : same_minds W W' -> a_name (get_agent W' a) = a_name (get_agent W a) -> same_db (db_of a W) (db_of a W').
Proof.
  intros H Hn. split; [symmetry; exact Hn|]. split; intro g; cbn; [symmetry; apply (sm_bel _ _ H)|].
  unfold rules_of. now rewrite (sm_rules _ _ H).
Qed.

Lemma unchanged_minds W W' : unchanged W W' -> same_minds W W'.
Proof.
  intro H. constructor; try apply H. intros a g. unfold plans_of. rewrite (un_aplans _ _ H).
  destruct (assoc _ _ _); [|reflexivity]. unfold get_plist. now rewrite (un_plists _ _ H).
Qed.
Lemma minds_trans W W' W'' : same_minds W W' -> same_minds W' W'' -> same_minds W W''.
Proof.
  intros H H'. constructor; intros; [rewrite (sm_bel _ _ H')|rewrite (sm_rules _ _ H')|rewrite (sm_plans _ _ H')|rewrite (sm_env _ _ H')]; apply H.
Qed.
Lemma wakened_unchanged tr gt e l W W4 Wc : wakened tr gt e l W W4 -> w_ints Wc = w_ints W4 -> wakened tr gt e l W Wc.
Proof.
  intros [A B] E. split; [now rewrite E|]. intros i Hi. destruct (B i Hi) as [B1 B2].
  assert (EG : get_int Wc i = get_int W4 i) by (unfold get_int; now rewrite E). rewrite EG. auto.
Qed.

Lemma launch_ok a p frozen t ci delayed ni cur W : delayed = true \/ (forall s, In s (a_ints (get_agent W a)) -> s <> []) ->
  launch a p frozen t ci delayed ni (cur, W) =
  (Ok true, (cur, put_agent (put_int W ni (mkint (p_code p) (Some 0%nat) (Some frozen) (Some t) cur [] [] (i_wait (get_int W ni)))) a
     (set_a_ints (get_agent W a) (if delayed then a_ints (get_agent W a) ++ [[ni]] else placed ci ni (a_ints (get_agent W a)))))).
Proof.
  intro H. unfold launch, mbind, m_st, on_world, m_world, mret, lift, put_world. cbn [fst snd].
  destruct delayed; [reflexivity|]. destruct H as [H|H]; [discriminate H|].
  change (a_ints (get_agent (put_int W ni ?x) a)) with (a_ints (get_agent W a)).
  destruct (push_placed ci ni (a_ints (get_agent W a)) H) as (o & E & P).
  match goal with |- context [push_on ci ni ?l] => change l with (a_ints (get_agent W a)) end. rewrite E.
  destruct o; rewrite <- P; reflexivity.
Qed.

(** The event is handled as selection says. *)
Section Handled.
Variables (a : nat) (tr : trig) (gt : gtype) (t : term) (ci : nat) (delayed : bool) (st : bst) (W : world).
Variables (n1 : nat) (frozen : term) (f : pystr) (args ann : list term) (m : memo) (k : N) (d : nat).
Hypothesis HF : freeze n1 t (b_scope st) ([], w_nv W) = (Ok frozen, (m, k)).
Hypothesis HL : frozen = TLit f args ann.
Hypothesis HE : plan_event tr gt = true.
Hypothesis Ha : (a < List.length (w_agents W))%nat.
Hypothesis Hd : forall i, on_top i (a_ints (get_agent W a)) -> wait_decided tr gt frozen (get_int W i).
Let g : group := (f, List.length args).
Hypothesis HD : proper_db false (db_of a W).
Hypothesis HP : Forall (fun p => proper false (p_ctx p) = true) (plans_of a (tr, gt, g) W).

Lemma plans_decided c : select d (db_of a W) (plans_of a (tr, gt, g) W) frozen k = c -> c <> CutOff ->
  exists n0 ref W4 Wc o, ready_for a tr gt g frozen k ref W W4 /\ unchanged W4 Wc /\
    outcome_of a (List.length (w_ints W)) c frozen t ci delayed Wc o /\
    (forall n, (n0 <= n)%nat -> e_plans (engine n) a ref (frozen, t, ci, delayed, List.length (w_ints W)) 0%nat (bst0, W4) = o) /\
    (forall n, (n0 <= n)%nat -> call_event (engine n) n a tr gt t ci delayed (st, W) = prepared n a tr gt frozen t ci delayed ref st W4).
Proof.
  intros HS Hc.
  destruct (event_ready n1 a tr gt t ci delayed st W frozen f args ann m k HF HL HE Ha Hd) as (n0 & ref & W4 & R & HC). fold g in R.
  pose proof (rf_ref _ _ _ _ _ _ _ _ _ R) as ER.
  assert (HL' : is_literal frozen = true) by now rewrite HL.
  destruct (rf_db _ _ _ _ _ _ _ _ _ R) as [E0|ED].
  - rewrite <- ER, E0 in HS. cbn in HS. subst c.
    exists (S n0), ref, W4, W4, (Ok false, (bst0, W4)). split; [exact R|]. split; [apply unchanged_refl|]. split; [cbn; split; [reflexivity|]; split; [reflexivity|apply R]|]. split.
    + intros [|n] Hn; [lia|]. cbn [engine e_plans]. unfold plans_body, mbind, m_world. cbn [fst snd]. now rewrite E0.
    + intros n Hn. apply HC. lia.
  - assert (HD4 : proper_db false (db_of a W4)) by now rewrite ED.
    assert (HP4 : Forall (fun p => proper false (p_ctx p) = true) (get_plist W4 ref)) by now rewrite ER.
    destruct (plans_complete a (List.length (w_ints W)) W4 HD4 d (get_plist W4 ref) ref frozen t ci delayed 0%nat bst0 W4 (unchanged_refl _) eq_refl HL' HP4 eq_refl) as [n2 H2].
    { rewrite ER, ED, (rf_nv _ _ _ _ _ _ _ _ _ R), HS. exact Hc. }
    pose proof (plans_sound a (List.length (w_ints W)) W4 HD4 n2 ref frozen t ci delayed 0%nat bst0 W4 (unchanged_refl _) eq_refl HL' HP4) as H3.
    destruct H3 as [H3|(Wc & c' & HU & [d0 H3] & HO)]; [contradiction|].
    assert (c' = c).
    { specialize (H3 (S (Nat.max d d0)) ltac:(lia)). cbn [skipn] in H3. rewrite ER, ED, (rf_nv _ _ _ _ _ _ _ _ _ R) in H3.
      rewrite (select_up d (S (Nat.max d d0)) _ (db_of a W) _ _ _ c (same_refl _) ltac:(lia) HS Hc) in H3. congruence. }
    subst c'.
    eexists (Nat.max n0 n2), ref, W4, Wc, _. split; [exact R|]. split; [exact HU|]. split; [exact HO|]. split.
    + intros n Hn. apply plans_more; [lia|exact H2].
    + intros n Hn. apply HC. lia.
Qed.

Lemma prepared_ni W4 ref : ready_for a tr gt g frozen k ref W W4 -> (List.length (w_ints W4) - 1 = List.length (w_ints W))%nat.
Proof. intro R. rewrite (rf_ints _ _ _ _ _ _ _ _ _ R). cbn. apply Nat.sub_0_r. Qed.

Lemma event_chosen p s nv : select d (db_of a W) (plans_of a (tr, gt, g) W) frozen k = Chosen p s nv ->
  delayed = true \/ (forall l, In l (a_ints (get_agent W a)) -> l <> []) ->
  exists n0 W', (forall n, (n0 <= n)%nat -> call_event (engine n) n a tr gt t ci delayed (st, W) = (Ok true, (st, W'))) /\
    same_minds W W' /\ wakened tr gt frozen (a_ints (get_agent W a)) W W' /\ started a p s frozen t ci delayed W W'.
Proof.
  intros HS Hst. destruct (plans_decided _ HS ltac:(discriminate)) as (n0 & ref & W4 & Wc & [r [cur W']] & R & HU & (E1 & E2 & E3) & HPn & HCn).
  assert (EA : a_ints (get_agent Wc a) = a_ints (get_agent W a)) by (rewrite (un_aints _ _ HU); apply R).
  rewrite launch_ok in E3 by (rewrite EA; exact Hst). inversion E3; subst r. clear E3.
  rewrite EA in H1. 
  set (it := mkint (p_code p) (Some 0%nat) (Some frozen) (Some t) cur [] [] (i_wait (get_int Wc (List.length (w_ints W))))) in H1.
  set (W5 := put_int Wc (List.length (w_ints W)) it) in H1.
  set (stk := if delayed then a_ints (get_agent W a) ++ [[List.length (w_ints W)]] else placed ci (List.length (w_ints W)) (a_ints (get_agent W a))) in H1.
  assert (ELen : List.length (w_ints Wc) = S (List.length (w_ints W))) by (rewrite (un_ints _ _ HU); apply R).
  assert (EW : i_wait (get_int Wc (List.length (w_ints W))) = None).
  { unfold get_int. rewrite (un_ints _ _ HU). fold (get_int W4 (List.length (w_ints W))). now rewrite (rf_new _ _ _ _ _ _ _ _ _ R). }
  assert (Hac : (a < List.length (w_agents Wc))%nat) by (rewrite (un_count _ _ HU), (rf_count _ _ _ _ _ _ _ _ _ R); exact Ha).
  assert (HM : same_minds W Wc) by (eapply minds_trans; [apply R|now apply unchanged_minds]).
  assert (HW : wakened tr gt frozen (a_ints (get_agent W a)) W Wc) by (eapply wakened_unchanged; [apply R|apply HU]).
  assert (HAg : forall b, get_agent W' b = if Nat.eqb a b then set_a_ints (get_agent Wc a) stk else get_agent Wc b).
  { intro b. rewrite <- H1, get_put_agent. change (w_agents W5) with (w_agents Wc). destruct (Nat.ltb_spec a (List.length (w_agents Wc))); [reflexivity|lia]. }
  assert (HIn : forall i, get_int W' i = if Nat.eqb (List.length (w_ints W)) i then it else get_int Wc i).
  { intro i. rewrite <- H1. change (get_int (put_agent W5 a _) i) with (get_int W5 i). unfold W5. rewrite get_put_int.
    destruct (Nat.ltb_spec (List.length (w_ints W)) (List.length (w_ints Wc))); [reflexivity|lia]. }
  exists n0, W'. split; [|split; [|split]].
  - intros n Hn. rewrite HCn by assumption. unfold prepared. rewrite (prepared_ni _ _ R), HPn by assumption. reflexivity.
  - assert (HB : forall b, a_bel (get_agent W' b) = a_bel (get_agent Wc b) /\ a_rules (get_agent W' b) = a_rules (get_agent Wc b) /\ a_plans (get_agent W' b) = a_plans (get_agent Wc b)).
    { intro b. rewrite HAg. destruct (Nat.eqb_spec a b) as [<-|]; now repeat split. }
    assert (HX : w_sets W' = w_sets Wc /\ w_plists W' = w_plists Wc /\ w_env W' = w_env Wc) by (rewrite <- H1; now repeat split).
    destruct HX as (X1 & X2 & X3).
    eapply minds_trans; [exact HM|]. constructor.
    + intros b h. destruct (HB b) as (B1 & _). unfold beliefs, get_set. now rewrite B1, X1.
    + intro b. apply HB.
    + intros b h. destruct (HB b) as (_ & _ & B3). unfold plans_of, get_plist. now rewrite B3, X2.
    + exact X3.
  - destruct HW as [A B]. split.
    + rewrite <- H1. cbn. rewrite upd_length. exact A.
    + intros i Hi. rewrite HIn. destruct (Nat.eqb_spec (List.length (w_ints W)) i); [lia|]. now apply B.
  - constructor.
    + rewrite <- H1. cbn. rewrite upd_length. exact ELen.
    + exists cur. split; [exact E1|]. rewrite HIn, Nat.eqb_refl. unfold it. now rewrite EW.
    + rewrite HAg, Nat.eqb_refl. reflexivity.
    + intros b Hb. rewrite HAg. destruct (Nat.eqb_spec a b); [congruence|]. rewrite (un_aints _ _ HU). apply R.
Qed.

(** No applicable plan. *)
Definition kept (W W' : world) : Prop :=
  same_minds W W' /\ wakened tr gt frozen (a_ints (get_agent W a)) W W' /\ (forall b, a_ints (get_agent W' b) = a_ints (get_agent W b)).

Lemma event_kept W4 Wc ref : ready_for a tr gt g frozen k ref W W4 -> unchanged W4 Wc -> kept W Wc.
Proof.
  intros R HU. split; [eapply minds_trans; [apply R|now apply unchanged_minds]|]. split; [eapply wakened_unchanged; [apply R|apply HU]|].
  intro b. rewrite (un_aints _ _ HU). apply R.
Qed.

Lemma event_none nv : select d (db_of a W) (plans_of a (tr, gt, g) W) frozen k = NoPlan nv -> gt <> GtTest ->
  exists n0 W', kept W W' /\ forall n, (n0 <= n)%nat -> call_event (engine n) n a tr gt t ci delayed (st, W) =
    (match gt with GtAchieve => Err EAsl | _ => Ok true end, (st, W')).
Proof.
  intros HS Hg. destruct (plans_decided _ HS ltac:(discriminate)) as (n0 & ref & W4 & Wc & [r [cur W']] & R & HU & (-> & -> & E3) & HPn & HCn).
  exists n0, Wc. split; [eapply event_kept; eassumption|]. intros n Hn. rewrite HCn by assumption. unfold prepared. rewrite (prepared_ni _ _ R), HPn by assumption. cbn [snd].
  destruct gt; try reflexivity. now contradiction Hg.
Qed.

Lemma event_fails e : select d (db_of a W) (plans_of a (tr, gt, g) W) frozen k = Fails e ->
  exists n0 W', kept W W' /\ forall n, (n0 <= n)%nat -> call_event (engine n) n a tr gt t ci delayed (st, W) = (Err e, (st, W')).
Proof.
  intros HS. destruct (plans_decided _ HS ltac:(discriminate)) as (n0 & ref & W4 & Wc & [r [cur W']] & R & HU & (-> & ->) & HPn & HCn).
  exists n0, Wc. split; [eapply event_kept; eassumption|]. intros n Hn. rewrite HCn by assumption. unfold prepared. rewrite (prepared_ni _ _ R), HPn by assumption. reflexivity.
Qed.

(** A test goal is then a query. *)
Lemma event_test nv n2 v d' : select d (db_of a W) (plans_of a (tr, gt, g) W) frozen k = NoPlan nv -> gt = GtTest ->
  evaluate n2 t (b_scope st) = Ok v -> is_literal v = true ->
  sols d' (db_of a W) (QTerm v) (b_scope st) nv <> TCut ->
  exists n0 r st' W', kept W W' /\ (forall n, (n0 <= n)%nat -> call_event (engine n) n a tr gt t ci delayed (st, W) = (r, (st', W'))) /\
    match sols d' (db_of a W) (QTerm v) (b_scope st) nv with
    | TSol s _ _ => r = Ok true /\ b_scope st' = s
    | TEnd _ => r = Ok false /\ b_scope st' = b_scope st /\ b_stack st' = b_stack st
    | TErr e => r = Err e
    | TCut => False
    end.
Proof.
  intros HS Hg Hv Hlit HT. destruct (plans_decided _ HS ltac:(discriminate)) as (n0 & ref & W4 & Wc & [r [cur W']] & R & HU & (-> & -> & E3) & HPn & HCn).
  assert (HSD : same_db (db_of a W) (db_of a Wc)).
  { apply same_minds_db; [eapply minds_trans; [apply R|now apply unchanged_minds]|]. rewrite (un_name _ _ HU). apply R. }
  assert (HDc : proper_db false (db_of a Wc)).
  { destruct HSD as (_ & Q1 & Q2). intro h. rewrite <- Q1, <- Q2. apply HD. }
  pose proof (sols_up d' (S d') _ (db_of a Wc) (QTerm v) (b_scope st) nv HSD ltac:(lia)) as HT'.
  pose proof (engine_complete a ci false Wc HDc (S d') (QTerm v) st st Wc eq_refl (okst_refl _ _) (unchanged_refl _)) as HA.
  destruct (alive_uncut a ci false _ _ _ _ HA) as [n3 H3]. { rewrite E3. intro X. rewrite X in HT'. inversion HT'. congruence. }
  destruct (engine_sound a ci false Wc HDc n3) as [HR _].
  specialize (HR _ st (GQ (QTerm v)) st true _ (r_q a false Wc st st (QTerm v) eq_refl (okst_refl _ _)) st Wc (okst_refl _ _) (unchanged_refl _)).
  fold (resume n3 a ci (GQ (QTerm v)) (st, Wc)) in HR. unfold uncut in H3.
  assert (HM : forall n, (n3 <= n)%nat -> e_resume (engine n) a ci (GQ (QTerm v)) (st, Wc) = resume n3 a ci (GQ (QTerm v)) (st, Wc)).
  { intros n Hn. exact (resume_more n3 n a ci _ _ Hn H3). }
  destruct (resume n3 a ci (GQ (QTerm v)) (st, Wc)) as [o [c1 W1]]. cbn [post] in HR.
  destruct HR as [H|[HU1 H]]; [apply cutr_true in H; subst o; now contradiction H3|].
  exists (Nat.max n0 (Nat.max n2 n3)), (match o with Ok (Some _) => Ok true | Ok None => Ok false | Err e => Err e end), c1, W1.
  split; [eapply event_kept; [exact R|eapply unchanged_trans; eassumption]|]. split.
  - intros n Hn. rewrite HCn by lia. unfold prepared. rewrite (prepared_ni _ _ R), HPn by lia. cbn [snd]. rewrite Hg.
    unfold test_belief, mbind at 1, m_evaluate. cbn [fst snd]. rewrite (evaluate_more n2 n _ _ _ ltac:(lia) Hv).
    destruct v; try discriminate Hlit. unfold mbind. rewrite HM by lia. destruct o as [[|]|]; reflexivity.
  - assert (HX : forall G, ev (fun d0 => sols d0 (db_of a Wc) (QTerm v) (b_scope st) (w_nv Wc)) G ->
      exists d0, forall d1, (d0 <= d1)%nat -> exists T, tle (sols d' (db_of a W) (QTerm v) (b_scope st) nv) T /\ teq T (G d1)).
    { intros G [d0 HG]. exists (S (Nat.max d0 d')). intros d1 Hd1. exists (sols d1 (db_of a Wc) (QTerm v) (b_scope st) nv).
      split; [apply sols_up; [exact HSD|lia]|]. destruct (HG d1) as [X|[X _]]; [rewrite E3 in X; exact X|lia]. }
    destruct o as [[g'|]|e].
    + destruct H as (F' & _ & HE'). destruct (HX _ HE') as [d0 HX']. destruct (HX' d0 (Nat.le_refl _)) as (T & T1 & T2). inversion T2; subst.
      destruct (sols d' _ _ _ _); inversion T1; subst; auto; now contradiction HT.
    + destruct H as (HO & HE'). destruct (HX _ HE') as [d0 HX']. destruct (HX' d0 (Nat.le_refl _)) as (T & T1 & T2). inversion T2; subst.
      destruct (sols d' _ _ _ _); inversion T1; subst; [|now contradiction HT].
      split; [reflexivity|]. cbn [restoring] in HO. rewrite Hlit in HO. unfold okst in HO; cbn [orb] in HO. destruct HO as (kk & _ & ->). now split.
    + destruct (HX _ H) as [d0 HX']. destruct (HX' d0 (Nat.le_refl _)) as (T & T1 & T2). inversion T2; subst.
      destruct (sols d' _ _ _ _); inversion T1; subst; [reflexivity|now contradiction HT].
Qed.
End Handled.
End WithPy.
