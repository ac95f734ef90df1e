(** If all programs leave beliefs of a kind alone, nothing changes them. *)
From Verif Require Import Base Num Term Unify TrailFacts FuelFacts Str World Engine Step Ast Names Build QuerySpec Reach
  BelSpec PlanSpec QueryBase EventFacts NamesFacts MildSpec MildFacts KeepSpec.

Section Group.
Variable g : group.

Definition message_quiet (force msg : term) : Prop :=
  match force with
  | TLit f [] _ =>
      In f [s2p "achieve"; s2p "unachieve"] \/ In f [s2p "tell"; s2p "untell"] /\ other_term g msg
  | _ => False
  end.
Definition act_quiet (ac : act) (t : term) : Prop :=
  match ac with
  | ASend => match t with TLit _ [_; force; msg] _ => message_quiet force msg | _ => False end
  | ABroadcast => match t with TLit _ [force; msg] _ => message_quiet force msg | _ => False end
  | AAbolish => match t with TLit _ [x] _ => other_term g x | _ => False end
  | _ => True
  end.
Fixpoint quiet (q : query) : Prop :=
  match q with
  | QTrue | QFalse | QTerm _ | QUnify _ _ => True
  | QAct ac t => act_quiet ac t
  | QAnd l r | QOr l r => quiet l /\ quiet r
  | QNot q => quiet q
  end.
Definition quiet_op (op : iop) : Prop :=
  match op with
  | ICall _ GtBelief t _ => other_term g t
  | ICall _ GtAchieve _ _ | ICall _ GtTest _ _ => True
  | ICall _ _ _ _ => False
  | IPushQ q => quiet q
  | _ => True
  end.
Definition quiet_code (l : list instr) : Prop := Forall (fun i => quiet_op (in_op i)) l.
Definition quiet_plan (p : plan) : Prop := quiet (p_ctx p) /\ quiet_code (p_code p).
Definition quiet_rule (r : rule) : Prop := quiet (r_query r).
Fixpoint quiet_gen (k : gen) : Prop :=
  match k with
  | GQ q => quiet q
  | GStop | GAnn _ | GBel _ _ _ _ _ _ | GCand _ _ _ _ _ => True
  | GRule _ _ sub rest => match sub with Some k => quiet_gen k | None => True end /\ Forall quiet_rule rest
  | GAnd gl gr r => quiet_gen gl /\ match gr with Some k => quiet_gen k | None => True end /\ quiet r
  | GOr k r => quiet_gen k /\ match r with Some q => quiet q | None => True end
  end.
Definition quiet_opt (o : option gen) : Prop := match o with Some k => quiet_gen k | None => True end.
Definition quiet_int (x : intention) : Prop := quiet_code (i_code x) /\ Forall quiet_gen (i_qs x).

Record inv (W : world) : Prop := mkinv {
  iv_typed : forall a b h h' r, assoc group_eqb h (a_bel (get_agent W a)) = Some r ->
    assoc group_eqb h' (a_bel (get_agent W b)) = Some r -> h = h';
  iv_range : forall a h r, assoc group_eqb h (a_bel (get_agent W a)) = Some r -> (r < List.length (w_sets W))%nat;
  iv_rules : forall a, Forall (fun e => Forall quiet_rule (snd e)) (a_rules (get_agent W a));
  iv_plans : forall r, Forall quiet_plan (get_plist W r);
  iv_ints : forall i, quiet_int (get_int W i)
}.
Record same (W W' : world) : Prop := mksame {
  sa_bel : forall b, beliefs b g W' = beliefs b g W;
  sa_plans : forall b h, plans_of b h W' = plans_of b h W;
  sa_rules : forall b h, rules_of b h W' = rules_of b h W
}.
Definition good (W W' : world) : Prop := inv W' /\ same W W'.

Lemma same_refl W : same W W.
Proof. now constructor. Qed.
Lemma same_trans A B C : same A B -> same B C -> same A C.
Proof. intros [H1 H2 H3] [K1 K2 K3]. constructor; intros; [rewrite K1|rewrite K2|rewrite K3]; auto. Qed.
Lemma good_refl W : inv W -> good W W.
Proof. intro H. split; [exact H|apply same_refl]. Qed.
Lemma good_trans A B C : good A B -> good B C -> good A C.
Proof. intros [_ H1] [H2 H3]. split; [exact H2|eapply same_trans; eassumption]. Qed.
Lemma quiet_int0 : quiet_int int0.
Proof. split; constructor. Qed.

Lemma good_core W W' : inv W -> w_agents W' = w_agents W -> w_sets W' = w_sets W -> w_plists W' = w_plists W ->
  (forall i, quiet_int (get_int W' i)) -> good W W'.
Proof.
  intros [I1 I2 I3 I4 I5] E1 E2 E3 HI.
  assert (EA : forall b, get_agent W' b = get_agent W b) by (intro b; unfold get_agent; now rewrite E1).
  assert (EP : forall r, get_plist W' r = get_plist W r) by (intro r; unfold get_plist; now rewrite E3).
  assert (ES : forall r, get_set W' r = get_set W r) by (intro r; unfold get_set; now rewrite E2).
  split; constructor.
  - intros a b h h' r. rewrite !EA. apply I1.
  - intros a h r. rewrite EA, E2. apply I2.
  - intro a. rewrite EA. apply I3.
  - intro r. rewrite EP. apply I4.
  - exact HI.
  - intro b. unfold beliefs. rewrite EA. destruct (assoc _ _ _); [|reflexivity]. now rewrite ES.
  - intros b h. unfold plans_of. rewrite EA. destruct (assoc _ _ _); [|reflexivity]. now rewrite EP.
  - intros b h. unfold rules_of. now rewrite EA.
Qed.
Lemma quiet_put W i x : (forall j, quiet_int (get_int W j)) -> quiet_int x -> forall j, quiet_int (get_int (put_int W i x) j).
Proof.
  intros H Hx j. rewrite get_put_int. destruct (Nat.eqb i j); [|apply H]. destruct (Nat.ltb _ _); [exact Hx|apply quiet_int0].
Qed.
Lemma quiet_new W : (forall j, quiet_int (get_int W j)) -> forall j, quiet_int (get_int (set_ints W (w_ints W ++ [int0])) j).
Proof.
  intros H j. unfold get_int. cbn. destruct (Nat.lt_ge_cases j (List.length (w_ints W))).
  - rewrite app_nth1 by assumption. apply H.
  - rewrite app_nth2 by assumption. destruct (j - List.length (w_ints W))%nat as [|[|]]; apply quiet_int0.
Qed.
Lemma good_put W i x : inv W -> quiet_int x -> good W (put_int W i x).
Proof. intros H Hx. apply good_core; auto. apply quiet_put; [apply H|exact Hx]. Qed.
Lemma good_stacks W a l : inv W -> good W (put_agent W a (set_a_ints (get_agent W a) l)).
Proof.
  intros [I1 I2 I3 I4 I5]. set (W' := put_agent _ _ _).
  assert (EA : forall b, a_bel (get_agent W' b) = a_bel (get_agent W b) /\ a_rules (get_agent W' b) = a_rules (get_agent W b) /\
    a_plans (get_agent W' b) = a_plans (get_agent W b)).
  { intro b. unfold W'. rewrite get_put_agent. destruct (Nat.eqb_spec a b) as [<-|]; [|now auto].
    destruct (Nat.ltb_spec a (List.length (w_agents W))); [now auto|]. rewrite get_agent_over by assumption. auto. }
  split; constructor.
  - intros c b h h' r. destruct (EA c) as (-> & _), (EA b) as (-> & _). apply I1.
  - intros c h r. destruct (EA c) as (-> & _). apply I2.
  - intro c. destruct (EA c) as (_ & -> & _). apply I3.
  - exact I4.
  - exact I5.
  - intro b. unfold beliefs. now destruct (EA b) as (-> & _).
  - intros b h. unfold plans_of. now destruct (EA b) as (_ & _ & ->).
  - intros b h. unfold rules_of. now destruct (EA b) as (_ & -> & _).
Qed.

Lemma assoc_last (h k : group) (l : list (group * nat)) v : assoc group_eqb h (l ++ [(k, v)]) =
  match assoc group_eqb h l with Some r => Some r | None => if group_eqb h k then Some v else None end.
Proof. induction l as [|[k' v'] l IH]; cbn; [reflexivity|]. destruct (group_eqb h k'); auto. Qed.
(** Nobody stores beliefs of another kind than [h] at [r]. *)
Definition owns (h : group) (r : nat) (W : world) : Prop :=
  forall b h', assoc group_eqb h' (a_bel (get_agent W b)) = Some r -> h' = h.
Lemma good_ref a h W r W' : inv W -> bel_ref a h W = (r, W') -> good W W' /\ owns h r W'.
Proof.
  intros [I1 I2 I3 I4 I5] E. pose proof (bel_ref_spec _ _ _ _ _ E) as (U & _). unfold bel_ref in E. cbv zeta in E.
  destruct (assoc group_eqb h (a_bel (get_agent W a))) as [r'|] eqn:Ea.
  { inversion E; subst. split; [apply good_refl; now constructor|]. intros b h' Hb. eapply I1; [exact Hb|exact Ea]. }
  inversion E; subst. clear E. set (r := List.length (w_sets W)). set (x := set_a_bel _ _). set (W' := put_agent _ a x).
  assert (EA : forall b, get_agent W' b = get_agent W b \/ b = a /\ get_agent W' b = x).
  { intro b. unfold W'. rewrite get_put_agent. destruct (Nat.eqb_spec a b) as [<-|]; [|now left].
    cbn [w_agents set_sets]. destruct (Nat.ltb_spec a (List.length (w_agents W))); [now right|]. left. now rewrite get_agent_over. }
  assert (EB : forall b h' r', assoc group_eqb h' (a_bel (get_agent W' b)) = Some r' ->
    assoc group_eqb h' (a_bel (get_agent W b)) = Some r' \/ b = a /\ h' = h /\ r' = r).
  { intros b h' r'. destruct (EA b) as [-> |[-> ->]]; [now left|]. unfold x. cbn [a_bel set_a_bel]. rewrite assoc_last.
    destruct (assoc group_eqb h' (a_bel (get_agent W a))) as [r2|]; [now left|]. destruct (group_eqb h' h) eqn:Eh; [|discriminate].
    intros [= <-]. right. split; [reflexivity|]. split; [now apply group_eqb_eq|reflexivity]. }
  assert (ES : forall r', get_set W' r' = get_set W r') by (intro r'; apply (get_set_app W)).
  split; [split; constructor|].
  - intros c b h1 h2 r' H1 H2. apply EB in H1, H2. destruct H1 as [H1|(-> & -> & ->)], H2 as [H2|(-> & -> & Hr)]; auto.
    + eapply I1; eassumption.
    + apply I2 in H1. unfold r in *. lia.
    + apply I2 in H2. unfold r in *. lia.
  - intros c h1 r' H1. cbn. rewrite app_length. apply EB in H1 as [H1|(_ & _ & ->)]; [apply I2 in H1; lia|unfold r; cbn; lia].
  - intro c. destruct (EA c) as [-> |[-> ->]]; apply I3.
  - exact I4.
  - exact I5.
  - intro b. apply U.
  - intros b k. unfold plans_of. destruct (EA b) as [-> |[-> ->]]; reflexivity.
  - intros b k. unfold rules_of. destruct (EA b) as [-> |[-> ->]]; reflexivity.
  - intros b h' Hb. apply EB in Hb as [Hb|(_ & Hh & _)]; [|exact Hh]. apply I2 in Hb. unfold r in *. lia.
Qed.
Lemma inv_set W r s : inv W -> inv (set_sets W (upd (w_sets W) r s)).
Proof.
  intros [I1 I2 I3 I4 I5]. constructor; auto. intros a h r' H. cbn. rewrite upd_length. eapply I2. exact H.
Qed.
Lemma good_set h r s W : inv W -> owns h r W -> h <> g -> good W (set_sets W (upd (w_sets W) r s)).
Proof.
  intros HI HO N. split; [now apply inv_set|]. constructor; try reflexivity.
  intro b. unfold beliefs. change (get_agent (set_sets W (upd (w_sets W) r s)) b) with (get_agent W b).
  destruct (assoc group_eqb g (a_bel (get_agent W b))) as [r'|] eqn:E; [|reflexivity].
  unfold get_set. cbn. rewrite upd_nth_other; [reflexivity|]. intros ->. apply HO in E. congruence.
Qed.
Lemma good_planref a h W : inv W -> good W (snd (plan_ref a h W)).
Proof.
  intro HI. pose proof (calm_planref a a h W) as K. split.
  2:{ destruct (kp_minds _ _ _ K) as [M1 M2 M3]. constructor.
      - intro b. apply M1.
      - intros b k. now rewrite M3.
      - intros b k. unfold rules_of. now rewrite M2. }
  destruct HI as [I1 I2 I3 I4 I5].
  assert (EB : (forall b, a_bel (get_agent (snd (plan_ref a h W)) b) = a_bel (get_agent W b)) /\ w_sets (snd (plan_ref a h W)) = w_sets W /\ w_ints (snd (plan_ref a h W)) = w_ints W).
  { unfold plan_ref. destruct (assoc _ _ _); [auto|]. cbn [snd]. split; [|split; reflexivity]. intro b. rewrite get_put_agent.
    destruct (Nat.eqb_spec a b) as [<-|]; [|reflexivity]. cbn [w_agents set_plists].
    destruct (Nat.ltb_spec a (List.length (w_agents W))); [reflexivity|]. now rewrite get_agent_over. }
  destruct EB as (EB & ES & EI). constructor.
  - intros c b k k' r. rewrite !EB. apply I1.
  - intros c k r. rewrite EB, ES. apply I2.
  - intro c. rewrite (sm_rules _ _ (kp_minds _ _ _ K)). apply I3.
  - intro r. rewrite (kp_plist _ _ _ K). apply I4.
  - intro i. unfold get_int. rewrite EI. apply I5.
Qed.

Section WithPy.
Context {PY : Py} {FR : Front}.

(** ** Terms keep their functor and arity *)
Lemma rmapl_count {A B} (f : A -> res B) l : forall l', rmapl f l = Ok l' -> List.length l' = List.length l.
Proof.
  induction l as [|x l IH]; intros l' H; cbn in H; [now inversion H|]. destruct (f x); [|discriminate].
  destruct (rmapl f l) eqn:E; [|discriminate]. inversion H; subst. cbn. f_equal. now apply IH.
Qed.
Lemma smapl_count {A B X} (f : A -> X -> res B * X) l : forall s l' s', smapl f l s = (Ok l', s') -> List.length l' = List.length l.
Proof.
  induction l as [|x l IH]; intros s l' s' H; cbn in H; [now inversion H|]. destruct (f x s) as [[y|] s1]; [|discriminate].
  destruct (smapl f l s1) as [[ys|] s2] eqn:E; [|discriminate]. inversion H; subst. cbn. f_equal. eapply IH, E.
Qed.
Lemma evaluate_lit n f args annots s v : evaluate n (TLit f args annots) s = Ok v -> v = TLit f args annots.
Proof. destruct n as [|n]; [discriminate|]. rewrite evaluate_S. congruence. Qed.
Lemma grounded_lit n f args annots s v : grounded n (TLit f args annots) s = Ok v ->
  exists args' annots', v = TLit f args' annots' /\ List.length args' = List.length args.
Proof.
  destruct n as [|n]; [discriminate|]. rewrite grounded_S. destruct (rmapl _ args) as [args'|] eqn:E; [|discriminate].
  destruct (rmapl _ annots) as [annots'|]; [|discriminate]. intro H. exists args', (mk_set annots'). split; [congruence|]. eapply rmapl_count, E.
Qed.
Lemma freeze_lit n f args annots s m v m' : freeze n (TLit f args annots) s m = (Ok v, m') ->
  exists args' annots', v = TLit f args' annots' /\ List.length args' = List.length args.
Proof.
  destruct n as [|n]; [discriminate|]. rewrite freeze_S. destruct (smapl _ args m) as [[args'|] m1] eqn:E; [|discriminate].
  destruct (smapl _ annots m1) as [[annots'|] m2]; [|discriminate]. intro H. exists args', (mk_set annots'). split; [congruence|]. eapply smapl_count, E.
Qed.
Lemma other_grounded n t s v : other_term g t -> grounded n t s = Ok v -> other_term g v.
Proof. intros H E. destruct t; try contradiction. apply grounded_lit in E as (x & y & -> & El). cbn in *. now rewrite El. Qed.
Lemma other_evaluate n t s v : other_term g t -> evaluate n t s = Ok v -> other_term g v.
Proof. intros H E. destruct t; try contradiction. apply evaluate_lit in E. now subst. Qed.
Lemma other_freeze n t s m v m' : other_term g t -> freeze n t s m = (Ok v, m') -> other_term g v.
Proof. intros H E. destruct t; try contradiction. apply freeze_lit in E as (x & y & -> & El). cbn in *. now rewrite El. Qed.
Lemma other_annot t a v : other_term g t -> with_annotation t a = Ok v -> other_term g v.
Proof. intros H E. destruct t; try contradiction. cbn in E. inversion E; subst. exact H. Qed.
Lemma other_rename m t : other_term g t -> other_term g (rename m t).
Proof. destruct t; cbn; auto. now rewrite map_length. Qed.
Lemma message_rename m force msg : message_quiet force msg -> message_quiet (rename m force) (rename m msg).
Proof. destruct force as [| | | | | | |f [|]| |]; cbn; try contradiction. intros [H|[H H']]; [now left|right; split; [exact H|now apply other_rename]]. Qed.
Lemma quiet_rename m q : quiet q -> quiet (qrename m q).
Proof.
  induction q as [| |ac t|t|l IHl r IHr|l IHl r IHr|q IH|l r]; cbn; auto.
  - destruct ac; cbn; auto.
    + destruct t as [| | | | | | |f [|x [|y [|]]]| |]; cbn; try contradiction. apply message_rename.
    + destruct t as [| | | | | | |f [|x [|y [|z [|]]]]| |]; cbn; try contradiction. apply message_rename.
    + destruct t as [| | | | | | |f [|x [|]]| |]; cbn; try contradiction. apply other_rename.
  - intros [H1 H2]. auto.
  - intros [H1 H2]. auto.
Qed.

(** ** Logic *)
Definition qkeeps {A} (Q : A -> Prop) (m : M A) : Prop := forall s r s',
  inv (snd s) -> m s = (r, s') -> good (snd s) (snd s') /\ forall x, r = Ok x -> Q x.
Notation Any := (fun _ => True).

Lemma qk_on {A} (m : M A) : (forall s, inv (snd s) -> good (snd s) (snd (snd (m s)))) -> qkeeps Any m.
Proof. intros H s r s' HI E. specialize (H s HI). rewrite E in H. now split. Qed.
Lemma qk_pure {A} (m : M A) : (forall s, snd (snd (m s)) = snd s) -> qkeeps Any m.
Proof. intro H. apply qk_on. intros s HI. rewrite H. now apply good_refl. Qed.
Lemma qk_bind {A B} P Q (m : M A) (k : A -> M B) : qkeeps P m -> (forall x, P x -> qkeeps Q (k x)) -> qkeeps Q (mbind m k).
Proof.
  intros H1 H2 s r s' HR E. unfold mbind in E. destruct (m s) as [[x|e] s1] eqn:Em.
  - destruct (H1 _ _ _ HR Em) as [K1 P1]. destruct (H2 x (P1 x eq_refl) s1 r s' (proj1 K1) E) as [K2 P2].
    split; [eapply good_trans; eassumption|exact P2].
  - inversion E; subst. split; [exact (proj1 (H1 _ _ _ HR Em))|discriminate].
Qed.
Lemma qk_any {A B} Q (m : M A) (k : A -> M B) : qkeeps Any m -> (forall x, qkeeps Q (k x)) -> qkeeps Q (mbind m k).
Proof. intros H1 H2. eapply qk_bind; [exact H1|]. intros x _. apply H2. Qed.
Lemma qk_weaken {A} (P Q : A -> Prop) m : (forall x, P x -> Q x) -> qkeeps P m -> qkeeps Q m.
Proof. intros H HM s r s' HR E. destruct (HM s r s' HR E). auto. Qed.
Lemma qk_ret {A} (Q : A -> Prop) x : Q x -> qkeeps Q (mret x).
Proof. intros H s r s' HI E. inversion E; subst. split; [now apply good_refl|]. intros y Ey. inversion Ey; now subst. Qed.
Lemma qk_fail {A} (Q : A -> Prop) e : qkeeps Q (mfail (A := A) e).
Proof. intros s r s' HI E. inversion E; subst. split; [now apply good_refl|discriminate]. Qed.
Lemma qk_lift {A} (x : res A) : qkeeps Any (lift x).
Proof. now apply qk_pure. Qed.
Lemma qk_lifted {A} (Q : A -> Prop) (x : res A) : (forall y, x = Ok y -> Q y) -> qkeeps Q (lift x).
Proof. intros H s r s' HI E. inversion E; subst. split; [now apply good_refl|exact H]. Qed.
Lemma qk_mworld : qkeeps inv m_world.
Proof. intros s r s' HR E. inversion E; subst. split; [now apply good_refl|]. intros x Ex. inversion Ex; now subst. Qed.
Lemma qk_worlds : qkeeps Any m_world.
Proof. now apply qk_pure. Qed.
Lemma qk_onw {A} (f : world -> A * world) : (forall W, inv W -> good W (snd (f W))) -> qkeeps Any (on_world f).
Proof. intro H. apply qk_on. intros s HI. unfold on_world. specialize (H (snd s) HI). destruct (f (snd s)); exact H. Qed.
Lemma qk_onst {A} (f : bst -> res A * bst) : qkeeps Any (on_st f).
Proof. apply qk_pure. intro s. unfold on_st. destruct (f (fst s)); reflexivity. Qed.
Lemma qk_freeze n t mm : qkeeps Any (m_freeze n t mm).
Proof. apply qk_on. intros s HI. unfold m_freeze. destruct (freeze _ _ _ _) as [[f|e] [m k]]; (apply good_core; auto; apply HI). Qed.
Lemma qk_frozen n t mm : other_term g t -> qkeeps (fun fm => other_term g (fst fm)) (m_freeze n t mm).
Proof.
  intros Ho s r s' HI E. pose proof (qk_freeze n t mm s r s' HI E) as [K _]. split; [exact K|]. intros x ->. unfold m_freeze in E.
  destruct (freeze _ _ _ _) as [[f|e] [m k]] eqn:Ef; [|discriminate]. inversion E; subst. cbn. eapply other_freeze; eassumption.
Qed.
Lemma qk_zip n sp args : qkeeps Any (m_zip n sp args).
Proof. apply qk_on. intros s HI. unfold m_zip. destruct (zip_specs _ _ _ _ _) as [x [m k]]; (apply good_core; auto; apply HI). Qed.
Lemma qk_evaluate n t : qkeeps Any (m_evaluate n t).
Proof. now apply qk_pure. Qed.
Lemma qk_grounded n t : qkeeps Any (m_grounded n t).
Proof. now apply qk_pure. Qed.
Lemma qk_is_ground n t : qkeeps Any (m_is_ground n t).
Proof. now apply qk_pure. Qed.
Lemma qk_groundeds n args : qkeeps Any (m_groundeds n args).
Proof.
  induction args as [|t args IH]; cbn; [now apply qk_pure|].
  apply qk_any; [apply qk_grounded|intro]. apply qk_any; [exact IH|intro; now apply qk_pure].
Qed.
Lemma qk_freezes n args : forall mm, qkeeps Any (m_freezes n args mm).
Proof.
  induction args as [|t args IH]; intro mm; cbn; [now apply qk_pure|].
  apply qk_any; [apply qk_freeze|intro]. apply qk_any; [apply IH|intro; now apply qk_pure].
Qed.
Lemma qk_arg args k : qkeeps Any (arg args k).
Proof. unfold arg. destruct (nth_error _ _); [now apply qk_ret|apply qk_fail]. Qed.
Lemma qk_last_arg args : qkeeps Any (last_arg args).
Proof. unfold last_arg. destruct (rev _); [apply qk_fail|now apply qk_ret]. Qed.
Lemma qk_tick : qkeeps Any m_tick.
Proof. apply qk_onw. intros W HI. apply good_core; auto; apply HI. Qed.
Lemma qk_time : qkeeps Any m_time.
Proof. apply qk_onw. intros W HI. apply good_core; auto; apply HI. Qed.
Lemma qk_for {A} (l : list A) f : (forall x, qkeeps Any (f x)) -> qkeeps Any (mfor l f).
Proof. intro H. induction l as [|x l IH]; cbn; [now apply qk_ret|]. apply qk_any; auto. Qed.
Lemma qk_new {A} (Q : A -> Prop) (k : nat -> M A) : (forall ci, qkeeps Q (k ci)) -> qkeeps Q (with_new k).
Proof.
  intros H s r s' HI E. unfold with_new in E. cbn in E.
  destruct (k _ (bst0, set_ints (snd s) (w_ints (snd s) ++ [int0]))) as [x s2] eqn:Ek. inversion E; subst. cbn.
  assert (K : good (snd s) (set_ints (snd s) (w_ints (snd s) ++ [int0]))) by (apply good_core; auto; apply quiet_new, HI).
  destruct (H _ (bst0, _) _ _ (proj1 K) Ek) as [K2 P2]. split; [eapply good_trans; eassumption|exact P2].
Qed.

(** ** Updates *)
Lemma qk_add n a t : other_term g t -> qkeeps Any (add_belief n a t).
Proof.
  intro Ho. unfold add_belief. destruct (has_grounded t); [|apply qk_fail].
  apply qk_bind with (P := other_term g).
  { intros s r s' HI E. unfold m_grounded in E. inversion E; subst. split; [now apply good_refl|]. intros x Ex. eapply other_grounded; eassumption. }
  intros v Hv. destruct v; try apply qk_fail. intros s r s' HI E. unfold mbind, on_world in E.
  destruct (bel_ref a _ (snd s)) as [ref W1] eqn:Er. apply good_ref in Er as [K O]; [|exact HI]. cbn [fst snd] in E. inversion E; subst. cbn [snd].
  split; [|auto]. eapply good_trans; [exact K|]. eapply good_set; [apply K|exact O|exact Hv].
Qed.
Lemma inv_add n a t s r s' : inv (snd s) -> add_belief n a t s = (r, s') -> inv (snd s').
Proof.
  intros HI E. unfold add_belief in E. destruct (has_grounded t); [|inversion E; now subst].
  unfold mbind at 1, m_grounded in E. cbn [fst snd] in E. destruct (grounded n t _) as [v|e]; [|inversion E; now subst].
  destruct v; try (inversion E; now subst). unfold mbind, on_world in E.
  destruct (bel_ref a _ (snd s)) as [ref W1] eqn:Er. apply good_ref in Er as [K O]; [|exact HI]. cbn [fst snd] in E. inversion E; subst. cbn [snd].
  apply inv_set, K.
Qed.
Lemma remove_gen n a t s r s' : inv (snd s) -> remove_belief n a t s = (r, s') ->
  inv (snd s') /\ (other_term g t -> same (snd s) (snd s')).
Proof.
  intros HI E. unfold remove_belief in E. unfold mbind at 1, m_evaluate in E. cbn [fst snd] in E.
  destruct (evaluate n t _) as [v|e] eqn:Ev; [|inversion E; subst; split; [exact HI|intros; apply same_refl]].
  assert (Ho : other_term g t -> other_term g v) by (intro H; eapply other_evaluate; eassumption). clear Ev.
  destruct v; try (inversion E; subst; split; [exact HI|intros; apply same_refl]).
  unfold mbind at 1, m_new_cp, on_st in E. destruct (new_cp (fst s)) as [c st1]. unfold mbind at 1, on_world in E. cbn [fst snd] in E.
  destruct (bel_ref a _ (snd s)) as [ref W1] eqn:Er. apply good_ref in Er as [K O]; [|exact HI].
  unfold mbind at 1 in E. cbn [m_world fst snd] in E. unfold mbind at 1 in E. cbn [fst snd] in E.
  destruct (rem_loop _ _ _ _ _ _) as [[[k|]|e] st2]; cbn [fst snd] in E.
  - unfold mbind, mret in E. cbn [fst snd] in E. inversion E; subst. cbn [snd]. split; [apply inv_set, K|]. intro H.
    eapply same_trans; [apply K|]. eapply good_set; [apply K|exact O|]. apply Ho, H.
  - inversion E; subst. cbn [snd]. split; [apply K|intros; apply K].
  - inversion E; subst. cbn [snd]. split; [apply K|intros; apply K].
Qed.
Lemma qk_remove n a t : other_term g t -> qkeeps Any (remove_belief n a t).
Proof. intros Ho s r s' HI E. apply remove_gen in E as [H1 H2]; [|exact HI]. split; [split; auto|auto]. Qed.
Lemma qk_abolish n a t : other_term g t -> qkeeps Any (abolish n a t).
Proof.
  intro Ho. unfold abolish. eapply qk_bind; [apply qk_frozen, Ho|]. intros fm Hf. cbv beta in Hf. destruct (fst fm) as [| | | | | | |f args an| |]; try contradiction.
  intros s r s' HI E. unfold mbind at 1, on_world in E. destruct (bel_ref a _ (snd s)) as [ref W1] eqn:Er.
  apply good_ref in Er as [K O]; [|exact HI]. unfold mbind at 1 in E. cbn [m_world fst snd] in E. cbv zeta in E.
  destruct (abolish_loop n _ _) as [x l]. destruct (Nat.eqb _ _); unfold mbind, mret, put_world, lift in E; inversion E; subst; cbn [snd].
  - now split.
  - split; [|auto]. eapply good_trans; [exact K|]. eapply good_set; [apply K|exact O|exact Hf].
Qed.
Lemma qk_wake n tr gt fz stacks : qkeeps Any (wake n tr gt fz stacks).
Proof.
  induction stacks as [|[|i rest] ss IH]; cbn [wake]; [now apply qk_ret|exact IH|].
  intros s r s' HI E. unfold mbind in E. cbn [m_world] in E. unfold lift in E.
  destruct (wakes n tr gt fz (get_int (snd s) i)) as [[]|e] eqn:Ew.
  - unfold put_world in E. assert (K : good (snd s) (put_int (snd s) i (set_i_wait (get_int (snd s) i) None))).
    { apply good_put; [exact HI|]. apply (iv_ints _ HI i). }
    destruct (IH _ _ _ (proj1 K : inv (snd (fst s, _))) E) as [K2 _]. split; [eapply good_trans; eassumption|auto].
  - unfold mret in E. eapply IH; eassumption.
  - inversion E; subst. split; [now apply good_refl|discriminate].
Qed.
Lemma qk_unachieve n a t : qkeeps Any (unachieve n a t).
Proof.
  unfold unachieve. destruct t; try apply qk_fail. intros s r s' HI E. unfold mbind at 1 in E. cbn [m_world] in E.
  destruct (unachieve_loop _ _ _ _ _) as [x l]. unfold mbind, put_world, lift in E. inversion E; subst. cbn [snd].
  split; [now apply good_stacks|auto].
Qed.

Section Body.
Variables (E : eng) (n : nat).
Hypothesis HR : forall a i k, quiet_gen k -> qkeeps quiet_opt (e_resume E a i k).
Hypothesis HL : forall a i k c, quiet_gen k -> qkeeps Any (e_collect E a i k c).
Hypothesis HP : forall a ref x j, qkeeps Any (e_plans E a ref x j).
Hypothesis HC : forall a tr gt t ci d, quiet_op (ICall tr gt t d) -> qkeeps Any (e_call E a tr gt t ci d).

Ltac go := repeat first
  [ apply qk_ret; exact I | apply qk_fail | apply qk_lift | apply qk_worlds | apply qk_arg | apply qk_last_arg
  | apply qk_tick | apply qk_time
  | apply HL; exact I
  | apply qk_evaluate | apply qk_grounded | apply qk_is_ground | apply qk_freeze
  | apply qk_zip | apply qk_groundeds | apply qk_freezes
  | apply qk_onst
  | apply qk_any; [|intro]
  | match goal with |- qkeeps _ (match ?x with _ => _ end) => destruct x end
  | progress cbn zeta
  | match goal with |- qkeeps _ (let '(_, _) := ?x in _) => destruct x end ].

Lemma qk_yield l r : qkeeps quiet_opt (unify_yield n l r).
Proof. unfold unify_yield. go. apply qk_ret. now destruct x. Qed.
Lemma qk_collect_one c : qkeeps Any (collect_one n c).
Proof. unfold collect_one. go. Qed.
Lemma qk_wait i args : qkeeps quiet_opt (act_wait n i args).
Proof.
  unfold act_wait. apply qk_any; [go|intro vs]. apply qk_any; [go|intro em]. destruct em as [e m].
  apply qk_any; [go|intro millis]. apply qk_any.
  - destruct e as [e|]; [|go]. destruct e; try apply qk_fail.
    intros st r s' HI Ex. cbv zeta in Ex. unfold mbind, lift in Ex. cbn [m_world] in Ex.
    destruct (fr_event _ _) as [[ev k]|e]; inversion Ex; subst; split; auto; (apply good_core; auto; apply HI).
  - intro ev. apply qk_any; [go|intro until]. apply qk_any; [|intro; now apply qk_ret].
    apply qk_onw. intros W HI. apply good_put; [exact HI|]. apply (iv_ints _ HI i).
Qed.
Lemma qk_print b args : qkeeps quiet_opt (act_print n b args).
Proof. unfold act_print. go. apply qk_onw. intros W HI. apply good_core; auto; apply HI. Qed.
Lemma qk_deliver rs tr gt msg : quiet_op (ICall tr gt msg false) -> qkeeps Any (deliver E rs tr gt msg).
Proof.
  intro H. unfold deliver. apply qk_for. intro r. apply qk_any; [|intro; go]. apply qk_new. intro ci. now apply HC.
Qed.
(** What a force on the list stands for. *)
Lemma broadcast_force f tr gt msg d : In f [s2p "achieve"; s2p "unachieve"] \/ In f [s2p "tell"; s2p "untell"] /\ other_term g msg ->
  ilf_broadcast f = Some (tr, gt) -> (gt = GtAchieve \/ gt = GtBelief /\ other_term g msg) /\ forall m, other_term g m -> quiet_op (ICall tr gt m d).
Proof.
  intros [[<-|[<-|[]]]|[[<-|[<-|[]]] Ho]] H; vm_compute in H; inversion H; subst; cbn; auto.
Qed.
Lemma send_force f tr gt msg d : In f [s2p "achieve"; s2p "unachieve"] \/ In f [s2p "tell"; s2p "untell"] /\ other_term g msg ->
  ilf_send f = Some (tr, gt) -> (gt = GtAchieve \/ gt = GtBelief /\ other_term g msg) /\ forall m, other_term g m -> quiet_op (ICall tr gt m d).
Proof.
  intros [[<-|[<-|[]]]|[[<-|[<-|[]]] Ho]] H; vm_compute in H; inversion H; subst; cbn; auto.
Qed.
Lemma qk_ground_lit f annots : qkeeps (fun v => exists an, v = TLit f [] an) (m_grounded n (TLit f [] annots)).
Proof.
  intros s r s' HI Ex. unfold m_grounded in Ex. inversion Ex; subst. split; [now apply good_refl|]. intros x Hx.
  apply grounded_lit in Hx as (args' & an & -> & El). destruct args'; [|discriminate]. now exists an.
Qed.
Lemma qk_broadcast a force msg : message_quiet force msg -> qkeeps quiet_opt (act_broadcast E n a [force; msg]).
Proof.
  intro H. destruct force as [| | | | | | |f [|] annots| |]; try contradiction. cbn in H.
  unfold act_broadcast. apply qk_bind with (P := fun t => t = TLit f [] annots); [now apply qk_ret|intros ? ->].
  eapply qk_bind; [apply qk_ground_lit|intros ilf (an & ->)]. destruct an; [|go].
  destruct (ilf_broadcast f) as [[tr gt]|] eqn:Ef; [|go]. destruct (broadcast_force _ _ _ _ false H Ef) as [Hg Hq].
  apply qk_bind with (P := fun t => t = msg); [now apply qk_ret|intros ? ->].
  destruct Hg as [-> |[-> Ho]].
  - apply qk_any; [go|intro fm]. go. apply qk_deliver. exact I.
  - eapply qk_bind; [apply qk_frozen, Ho|intros fm Hf]. apply qk_any; [go|intro W].
    eapply qk_bind; [apply (qk_lifted (other_term g)); intros y; now apply other_annot|intros m Hm].
    apply qk_any; [|intro; go]. apply qk_deliver. now apply Hq.
Qed.
Lemma qk_send a rcv force msg : message_quiet force msg -> qkeeps quiet_opt (act_send E n a [rcv; force; msg]).
Proof.
  intro H. destruct force as [| | | | | | |f [|] annots| |]; try contradiction. cbn in H.
  unfold act_send. apply qk_any; [go|intro t0]. apply qk_any; [go|intro rv]. apply qk_any; [go|intro W0].
  destruct (if is_list rv then iter_items rv else ([rv], None)) as [items fin]. apply qk_any; [go|intro rs]. destruct fin; [go|].
  apply qk_bind with (P := fun t => t = TLit f [] annots); [now apply qk_ret|intros ? ->].
  eapply qk_bind; [apply qk_ground_lit|intros ilf (an & ->)]. destruct an; [|go].
  destruct (ilf_send f) as [[tr gt]|] eqn:Ef; [|go]. destruct (send_force _ _ _ _ false H Ef) as [Hg Hq].
  apply qk_bind with (P := fun t => t = msg); [now apply qk_ret|intros ? ->].
  destruct Hg as [-> |[-> Ho]].
  - apply qk_any; [go|intro fm]. go. apply qk_deliver. exact I.
  - apply qk_bind with (P := other_term g).
    { eapply qk_bind; [apply qk_frozen, Ho|intros fm Hf]. now apply qk_ret. }
    intros m0 Hm0. apply qk_any; [go|intro W].
    eapply qk_bind; [apply (qk_lifted (other_term g)); intros y; now apply other_annot|intros m Hm].
    apply qk_any; [|intro; go]. apply qk_deliver. now apply Hq.
Qed.
Lemma qk_start a i ac t : act_quiet ac t -> qkeeps quiet_opt (start_act E n a i ac t).
Proof.
  intro Hm. unfold start_act. destruct t as [| | | | | | |f args annots| |]; try apply qk_fail.
  unfold mbind at 1, lift at 1, lit_args.
  change (qkeeps quiet_opt (match ac with
   | ABroadcast => act_broadcast E n a args
   | _ => start_act E n a i ac (TLit f args annots) end)) || idtac.
  destruct ac; try apply qk_wait; try apply qk_print;
    unfold act_concat, act_substring, act_member, act_findall, act_count,
    act_sum, act_clock, act_range, act_fun, act_pred, act_proc.
  1: { destruct args as [|x [|y [|]]]; try contradiction. now apply qk_broadcast. }
  1: { destruct args as [|x [|y [|z [|]]]]; try contradiction. now apply qk_send. }
  9: { destruct args as [|x [|]]; try contradiction. cbn in Hm.
       apply qk_bind with (P := fun t => t = x); [now apply qk_ret|intros ? ->].
       apply qk_any; [now apply qk_abolish|intro; go]. }
  all: repeat (go; first [apply qk_yield|apply HR; exact I|apply qk_ret; match goal with |- quiet_opt (if ?b then _ else _) => destruct b; exact I end|idtac]).
Qed.

Lemma qk_belref a h : qkeeps Any (on_world (bel_ref a h)).
Proof. apply qk_onw. intros W HI. destruct (bel_ref a h W) as [r W'] eqn:Eb. apply good_ref in Eb as [K _]; [exact K|exact HI]. Qed.
Lemma rules_quiet a h W : inv W -> Forall quiet_rule (rules_of a h W).
Proof.
  intro HI. unfold rules_of. pose proof (iv_rules _ HI a) as H. induction (a_rules (get_agent W a)) as [|[k l] rs IH]; cbn; [constructor|].
  inversion H; subst. destruct (group_eqb h k); auto.
Qed.
Lemma qk_resume_body a i k : quiet_gen k -> qkeeps quiet_opt (resume_body E n a i k).
Proof.
  intro Hm. destruct k as [q| |cp|[cp|] t ref ver sz rest|cp t [sub|] rest|gl [gr|] r|k r|[] cp tgt cs fin]; cbn [resume_body].
  1: destruct q; [| |now apply qk_start|..].
  all: cbn in Hm; try (go; fail).
  all: repeat match goal with H : _ /\ _ |- _ => destruct H end.
  - (* a belief query *) apply qk_any; [go|intro v]. destruct v; try apply qk_fail; [go|].
    apply qk_any; [apply qk_belref|intro r]. apply qk_any; [go|intro W]. apply HR. exact I.
  - apply HR. cbn. auto.
  - apply HR. cbn. auto.
  - apply qk_any; [go|intro cp]. apply qk_any; [go|intro]. eapply qk_bind; [apply HR; exact Hm|intros o Ho].
    apply qk_any; [go|intro]. apply qk_ret. destruct o; exact I.
  - apply qk_any; [go|intro o]. apply qk_ret. destruct o; exact I.
  - apply qk_any; [go|intro]. apply HR. exact I.
  - eapply qk_bind; [apply qk_mworld|intros W HW]. apply qk_any; [go|intro]. destruct rest as [|b rest].
    + apply qk_any; [go|intro]. apply HR. cbn. split; [exact I|]. now apply rules_quiet.
    + apply qk_any; [go|intro o]. destruct o; [apply qk_ret; exact I|apply HR; exact I].
  - eapply qk_bind; [apply HR; eassumption|intros o Ho]. destruct o; [apply qk_ret; now split|].
    apply qk_any; [go|intro]. apply HR. now split.
  - destruct rest as [|r rest]; [go|]. match goal with H : Forall _ (_ :: _) |- _ => inversion H; subst end.
    apply qk_bind with (P := quiet_rule).
    { intros s x s' HI Ex. unfold on_world in Ex. unfold copy_rule in Ex. destruct (number _ _ _) as [m k]. inversion Ex; subst.
      split; [apply good_core; auto; apply HI|]. intros c Ec. inversion Ec; subst. now apply quiet_rename. }
    intros c Hc. apply qk_any; [go|intro]. apply qk_any; [go|intro b]. destruct b.
    + apply HR. now split.
    + apply qk_any; [go|intro]. apply HR. now split.
  - eapply qk_bind; [apply HR; eassumption|intros o Ho]. destruct o; [apply qk_ret; cbn; auto|]. apply HR. cbn. auto.
  - eapply qk_bind; [apply HR; eassumption|intros o Ho]. destruct o; [|now apply qk_ret]. apply HR. cbn. auto.
  - eapply qk_bind; [apply HR; eassumption|intros o Ho]. destruct o; [apply qk_ret; cbn; auto|].
    destruct r; [apply HR; cbn; auto|now apply qk_ret].
  - apply qk_any; [go|intro]. apply HR. exact I.
  - destruct cs; [go|]. apply qk_any; [go|intro]. apply qk_any; [go|intro b]. destruct b; [now apply qk_ret|apply HR; exact I].
Qed.
Lemma qk_collect_body a i k c : quiet_gen k -> qkeeps Any (collect_body E n a i k c).
Proof.
  intro Hm. unfold collect_body. eapply qk_bind; [apply HR; exact Hm|intros o Ho]. destruct o; [|go].
  apply qk_any; [apply qk_collect_one|intro]. now apply HL.
Qed.
Lemma qk_launch a p fz t ci d ni : quiet_plan p -> qkeeps Any (launch a p fz t ci d ni).
Proof.
  intros [_ Hp] s r s' HI Ex. unfold launch, mbind, m_st, on_world in Ex. cbn [m_world fst snd] in Ex. set (X := mkint _ _ _ _ _ _ _ _) in *.
  assert (K : good (snd s) (put_int (snd s) ni X)) by (apply good_put; [exact HI|split; [exact Hp|constructor]]).
  assert (H : forall l, good (snd s) (put_agent (put_int (snd s) ni X) a (set_a_ints (get_agent (put_int (snd s) ni X) a) l))).
  { intro l. eapply good_trans; [exact K|apply good_stacks, K]. }
  split; [|auto]. destruct d.
  - unfold mret in Ex. inversion Ex; subst. apply H.
  - unfold lift in Ex. destruct (push_on ci ni _) as [o|e]; inversion Ex; subst; [apply H|exact K].
Qed.
Lemma qk_plans_body a ref x j : qkeeps Any (plans_body E n a ref x j).
Proof.
  destruct x as [[[[fz t] ci] d] ni]. unfold plans_body. eapply qk_bind; [apply qk_mworld|intros W HW].
  destruct (nth_error (get_plist W ref) j) as [p|] eqn:Ep; [|go].
  assert (Hp : quiet_plan p). { apply nth_error_In in Ep. pose proof (iv_plans _ HW ref) as HF. rewrite Forall_forall in HF. auto. }
  apply qk_any; [go|intro o]. destruct o as [cp|]; [|apply HP].
  apply qk_bind with (P := quiet_opt); [apply HR, Hp|intros o _]. destruct o; [now apply qk_launch|].
  apply qk_any; [go|intro; apply HP].
Qed.
Lemma qk_event a tr gt t ci d : In gt [GtAchieve; GtTest; GtBelief] -> qkeeps Any (call_event E n a tr gt t ci d).
Proof.
  intro Hg. unfold call_event. apply qk_any; [go|intro fm]. destruct (fst fm); try apply qk_fail. cbn zeta.
  apply qk_any; [go|intro W]. apply qk_any; [apply qk_wake|intro].
  assert (HB : forall h y, qkeeps Any (ref <- on_world (plan_ref a h) ;;
           found <- with_new (fun ni => e_plans E a ref (y ni) 0%nat) ;;
           if found : bool then mret true
           else match gt with
                | GtAchieve => mfail EAsl
                | GtTest => test_belief E n a ci t
                | _ => mret true
                end)%M).
  { intros h y. apply qk_any; [apply qk_onw; intros; now apply good_planref|intro ref].
    apply qk_any; [apply qk_new; intro; apply HP|intro b]. destruct b; [go|].
    destruct gt; try (go; fail). unfold test_belief. apply qk_any; [go|intro v]. destruct v; try apply qk_fail.
    eapply qk_bind; [apply HR; exact I|intros]. now apply qk_ret. }
  destruct Hg as [<-|[<-|[<-|[]]]]; destruct tr; try apply HB.
  apply qk_any; [apply qk_unachieve|intro; go].
Qed.
Lemma qk_call_body a tr gt t ci d : quiet_op (ICall tr gt t d) -> qkeeps Any (call_body E n a tr gt t ci d).
Proof.
  intro H. unfold call_body. destruct gt; try contradiction; try (apply qk_event; cbn; auto; fail). cbn in H. destruct tr.
  - apply qk_any; [now apply qk_add|intro]. apply qk_event. cbn. auto.
  - apply qk_any; [now apply qk_remove|intro b]. destruct b; [apply qk_event; cbn; auto|go].
Qed.
Lemma inv_call_body a tr gt t ci d s r s' : In gt [GtAchieve; GtTest; GtBelief] -> inv (snd s) -> call_body E n a tr gt t ci d s = (r, s') -> inv (snd s').
Proof.
  intros Hg HI Ex. unfold call_body in Ex. pose proof (qk_event a tr gt t ci d Hg) as HE.
  destruct gt; try (exact (proj1 (proj1 (HE _ _ _ HI Ex)))). destruct tr; unfold mbind in Ex.
  - destruct (add_belief n a t s) as [[u|e] s1] eqn:Ea; apply inv_add in Ea; auto; [|inversion Ex; now subst].
    exact (proj1 (proj1 (HE _ _ _ Ea Ex))).
  - destruct (remove_belief n a t s) as [[b|e] s1] eqn:Ea; apply remove_gen in Ea as [Ea _]; auto; [|inversion Ex; now subst].
    destruct b; [exact (proj1 (proj1 (HE _ _ _ Ea Ex)))|inversion Ex; now subst].
Qed.
End Body.

Lemma engine_quiet n :
  (forall a i k, quiet_gen k -> qkeeps quiet_opt (resume n a i k)) /\
  (forall a i k c, quiet_gen k -> qkeeps Any (collect n a i k c)) /\
  (forall a ref x j, qkeeps Any (plans n a ref x j)) /\
  (forall a tr gt t ci d, quiet_op (ICall tr gt t d) -> qkeeps Any (call n a tr gt t ci d)).
Proof.
  induction n as [|n (IH1 & IH2 & IH3 & IH4)].
  - refine (conj _ (conj _ (conj _ _))); intros; apply qk_fail.
  - refine (conj _ (conj _ (conj _ _))); intros.
    + now apply (qk_resume_body (engine n) n IH1 IH2 IH4).
    + now apply (qk_collect_body (engine n) n IH1 IH2).
    + now apply (qk_plans_body (engine n) n IH1 IH3).
    + now apply (qk_call_body (engine n) n IH1 IH3).
Qed.
Lemma inv_call n a tr gt t ci d s r s' : In gt [GtAchieve; GtTest; GtBelief] -> inv (snd s) -> call n a tr gt t ci d s = (r, s') -> inv (snd s').
Proof.
  intros Hg HI Ex. destruct n as [|n]; [inversion Ex; now subst|]. destruct (engine_quiet n) as (H1 & H2 & H3 & H4).
  eapply (inv_call_body (engine n) n H1 H3); [exact Hg|exact HI|exact Ex].
Qed.

(** ** Steps *)
Lemma qk_next n a i : qkeeps Any (next_or_fail n a i).
Proof.
  intros s r s' HI Ex. split; [|auto]. unfold next_or_fail in Ex. destruct (i_qs (get_int (snd s) i)) as [|k gs] eqn:Eq.
  { inversion Ex; subst. now apply good_refl. }
  destruct (iv_ints _ HI i) as [Hc Hq]. rewrite Eq in Hq. inversion Hq; subst. cbv zeta in Ex.
  assert (HT : forall (s2 : ST) k', good (snd s) (snd s2) -> quiet_gen k' ->
    good (snd s) (put_int (snd s2) i (set_i_qs (get_int (snd s2) i) (k' :: gs)))).
  { intros s2 k' K Hk. eapply good_trans; [exact K|]. apply good_put; [apply K|]. split; [apply (iv_ints _ (proj1 K))|now constructor]. }
  destruct (resume n a i k s) as [x s2] eqn:Er. apply (proj1 (engine_quiet n)) in Er as [K P]; [|assumption|exact HI].
  destruct x as [[k'|]|e]; inversion Ex; subst; cbn [snd]; apply HT; auto; try exact I. exact (P _ eq_refl).
Qed.
Lemma qk_exec n a i op : quiet_op op -> qkeeps Any (exec_op n a i op).
Proof.
  intro Ho. destruct op; cbn [exec_op].
  - now apply qk_ret.
  - apply (proj2 (proj2 (proj2 (engine_quiet n)))). exact Ho.
  - apply qk_any; [|intro; now apply qk_ret]. apply qk_onw. intros W HI. apply good_put; [exact HI|].
    destruct (iv_ints _ HI i). split; [assumption|now constructor].
  - apply qk_next.
  - intros s r s' HI Ex. split; [|auto]. unfold mbind at 1 in Ex. cbn [m_world] in Ex. destruct (iv_ints _ HI i) as [Hc Hq].
    destruct (i_qs (get_int (snd s) i)) as [|k gs]; [inversion Ex; subst; now apply good_refl|].
    unfold mbind, put_world, mret in Ex. inversion Ex; subst. apply good_put; [exact HI|]. inversion Hq; subst. now split.
  - apply qk_any; [apply qk_onst|intro cp]. apply qk_any; [|intro; apply qk_any; [apply qk_onst|intro; now apply qk_ret]].
    apply qk_onw. intros W HI. apply good_put; [exact HI|]. apply (iv_ints _ HI i).
  - intros s r s' HI Ex. split; [|auto]. unfold mbind at 1 in Ex. cbn [m_world] in Ex.
    destruct (i_cps (get_int (snd s) i)) as [|k gs]; [inversion Ex; subst; now apply good_refl|].
    unfold mbind, put_world, mret, m_reroll, on_st in Ex. cbn [fst snd] in Ex. inversion Ex; subst. cbn [snd].
    apply good_put; [exact HI|]. apply (iv_ints _ HI i).
Qed.
Lemma good_pick stacks : forall pos W o W', inv W -> pick stacks pos W = (o, W') -> good W W'.
Proof.
  induction stacks as [|[|i st] stacks IH]; intros pos W o W' HI E; cbn [pick] in E.
  - inversion E; subst. now apply good_refl.
  - eapply IH; eassumption.
  - destruct (i_wait (get_int W i)) as [w|]; [|inversion E; subst; now apply good_refl].
    destruct (poll w W) as [due W1] eqn:Ep. assert (K : good W W1).
    { unfold poll in Ep. destruct (wt_until w); inversion Ep; subst; [apply good_core; auto; apply HI|now apply good_refl]. }
    eapply good_trans; [exact K|]. destruct due; [|eapply IH; [apply K|exact E]]. inversion E; subst.
    apply good_put; [apply K|]. apply (iv_ints _ (proj1 K) i).
Qed.
Lemma good_finish n a pos i W r W' : inv W -> finish n a pos i W = (r, W') -> good W W'.
Proof.
  intros HI E. unfold finish in E. cbv zeta in E. destruct (List.tl _) as [|c rest] eqn:Et.
  { inversion E; subst. now apply good_stacks. }
  set (W1 := put_agent _ _ _) in *. assert (K : good W W1) by now apply good_stacks.
  destruct (i_call (get_int W1 i)); [|inversion E; subst; exact K]. destruct (i_head (get_int W1 i)); [|inversion E; subst; exact K].
  destruct (freeze _ _ _ _) as [[fz|e] [m k]].
  2:{ inversion E; subst. eapply good_trans; [exact K|]. apply good_core; try reflexivity; apply K. }
  destruct (unify _ _ _ _) as [b st']. set (W2 := set_nv W1 k) in *.
  assert (K2 : good W W2) by (eapply good_trans; [exact K|]; apply good_core; try reflexivity; apply K).
  assert (K3 : good W (put_int W2 c (set_i_bst (get_int W2 c) st'))).
  { eapply good_trans; [exact K2|]. apply good_put; [apply K2|]. apply (iv_ints _ (proj1 K2) c). }
  destruct b as [[]|]; inversion E; subst; exact K3.
Qed.
Lemma good_instr n a i W r W' : inv W -> run_instr n a i W = (r, W') -> good W W'.
Proof.
  intros HI E. unfold run_instr in E. cbv zeta in E. destruct (i_pc (get_int W i)); [|inversion E; subst; now apply good_refl].
  destruct (nth_error _ _) as [ins|] eqn:En; [|inversion E; subst; now apply good_refl].
  assert (Ho : quiet_op (in_op ins)).
  { apply nth_error_In in En. destruct (iv_ints _ HI i) as [Hc _]. unfold quiet_code in Hc. rewrite Forall_forall in Hc. now apply Hc. }
  destruct (exec_op n a i (in_op ins) (i_bst (get_int W i), W)) as [x [st' W1]] eqn:Ee.
  apply (qk_exec n a i _ Ho) in Ee as [K _]; [|exact HI]. cbn [snd] in K.
  set (W2 := put_int W1 i (set_i_bst (get_int W1 i) st')) in *.
  assert (K2 : good W W2). { eapply good_trans; [exact K|]. apply good_put; [apply K|]. apply (iv_ints _ (proj1 K) i). }
  assert (K3 : forall p, good W (put_int W2 i (set_i_pc (get_int W2 i) p))).
  { intro p. eapply good_trans; [exact K2|]. apply good_put; [apply K2|]. apply (iv_ints _ (proj1 K2) i). }
  destruct x as [[]|e].
  - inversion E; subst. apply K3.
  - destruct (in_fail ins) eqn:Ei; inversion E; subst; apply K3.
  - inversion E; subst. exact K2.
Qed.
Lemma good_step n a W r W' : inv W -> step n a W = (r, W') -> good W W'.
Proof.
  intros HI E. unfold step in E. cbv zeta in E. set (W0 := put_agent _ _ _) in *.
  assert (K : good W W0) by now apply good_stacks. destruct (pick _ 0 W0) as [o W1] eqn:Ep.
  apply good_pick in Ep; [|apply K]. assert (K1 : good W W1) by (eapply good_trans; eassumption).
  destruct o as [[pos i]|]; [|inversion E; subst; exact K1].
  destruct (i_pc (get_int W1 i)); eapply good_trans; try exact K1; [eapply good_instr|eapply good_finish]; try exact E; apply K1.
Qed.
Lemma good_outside n a tr gt t d W r W' : inv W -> In gt [GtAchieve; GtTest; GtBelief] -> (gt = GtBelief -> other_term g t) ->
  outside_call n a tr gt t d W = (r, W') -> good W W'.
Proof.
  intros HI Hg Ho E. unfold outside_call in E. destruct (with_new _ _) as [x s] eqn:En. inversion E; subst.
  apply (qk_new Any) in En; [exact (proj1 En)| |exact HI]. intro ci. apply (proj2 (proj2 (proj2 (engine_quiet n)))).
  destruct Hg as [<-|[<-|[<-|[]]]]; cbn; auto.
Qed.
Lemma inv_new {A} (k : nat -> M A) s r s' : inv (snd s) ->
  (forall ci s1 r1 s2, inv (snd s1) -> k ci s1 = (r1, s2) -> inv (snd s2)) -> with_new k s = (r, s') -> inv (snd s').
Proof.
  intros HI H E. unfold with_new in E. cbn in E.
  destruct (k _ (bst0, set_ints (snd s) (w_ints (snd s) ++ [int0]))) as [x s2] eqn:Ek. inversion E; subst. cbn.
  assert (K : good (snd s) (set_ints (snd s) (w_ints (snd s) ++ [int0]))) by (apply good_core; auto; apply quiet_new, HI).
  eapply (H _ (bst0, _)); [|exact Ek]. apply K.
Qed.
Lemma inv_outside n a tr gt t d W r W' : inv W -> In gt [GtAchieve; GtTest; GtBelief] ->
  outside_call n a tr gt t d W = (r, W') -> inv W'.
Proof.
  intros HI Hg E. unfold outside_call in E. destruct (with_new _ _) as [x s] eqn:En. inversion E; subst.
  eapply inv_new in En; [exact En|exact HI|]. intros ci s1 r1 s2 H1 E1. eapply inv_call; eassumption.
Qed.
End WithPy.
End Group.
