(** Who owns the belief sets and plan lists: without build_agents, no two agents
    share one. *)
From Verif Require Import Base Num Term Unify TermSpec Str World Engine Effects EffFacts Step Ast Names Build QuerySpec PlanSpec EventCor Reach ReachFacts StepFacts BelFacts BelAdd.

(** A map from groups to references for every agent: the references are below
    [len], and none occurs twice. *)
Section Map.
Context {K : Type} (eqb : K -> K -> bool) (eqb_eq : forall x y, eqb x y = true <-> x = y).

Definition in_range (m : nat -> list (K * nat)) (len : nat) : Prop :=
  forall a g r, In (g, r) (m a) -> (r < len)%nat.
Definition no_share (m : nat -> list (K * nat)) : Prop :=
  forall a b g h r, In (g, r) (m a) -> In (h, r) (m b) -> a = b /\ g = h.
Lemma assoc_in g (l : list (K * nat)) r : assoc eqb g l = Some r -> In (g, r) l.
Proof.
  induction l as [|[k v] l IH]; cbn; [discriminate|]. destruct (eqb g k) eqn:E; [|auto].
  intro H. inversion H; subst. apply eqb_eq in E. subst. auto.
Qed.
Lemma in_snoc (g h : K) (l : list (K * nat)) v r : In (g, r) (l ++ [(h, v)]) -> In (g, r) l \/ (g = h /\ r = v).
Proof. intro H. apply in_app_iff in H as [H|[H|[]]]; [auto|inversion H; auto]. Qed.

Lemma assoc_snoc (g h : K) (l : list (K * nat)) v r : assoc eqb g (l ++ [(h, v)]) = Some r ->
  assoc eqb g l = Some r \/ (assoc eqb g l = None /\ g = h /\ r = v).
Proof.
  induction l as [|[k w] l IH]; cbn.
  - destruct (eqb g h) eqn:E; [|discriminate]. intro H. inversion H; subst. apply eqb_eq in E. auto.
  - destruct (eqb g k); auto.
Qed.
Lemma assoc_snoc_new (g : K) (l : list (K * nat)) v : assoc eqb g l = None -> assoc eqb g (l ++ [(g, v)]) = Some v.
Proof.
  induction l as [|[k w] l IH]; cbn; [|destruct (eqb g k); [discriminate|auto]].
  replace (eqb g g) with true; [reflexivity|]. symmetry. now apply eqb_eq.
Qed.
Lemma assoc_snoc_old (g h : K) (l : list (K * nat)) v r : assoc eqb g l = Some r -> assoc eqb g (l ++ [(h, v)]) = Some r.
Proof. induction l as [|[k w] l IH]; cbn; [discriminate|]. destruct (eqb g k); auto. Qed.
Lemma assoc_snoc_other (g h : K) (l : list (K * nat)) v : g <> h -> assoc eqb g (l ++ [(h, v)]) = assoc eqb g l.
Proof.
  intro N. induction l as [|[k w] l IH]; cbn; [|destruct (eqb g k); auto].
  destruct (eqb g h) eqn:E; [|reflexivity]. apply eqb_eq in E. contradiction.
Qed.

Lemma range_le m len len' : (len <= len')%nat -> in_range m len -> in_range m len'.
Proof. intros HL H a g r E. apply H in E. lia. Qed.
Lemma range_same m m' len : (forall b, m' b = m b \/ m' b = []) -> in_range m len -> in_range m' len.
Proof. intros HS H b g r E. destruct (HS b) as [X|X]; rewrite X in E; [eauto|destruct E]. Qed.
Lemma share_same m m' : (forall b, m' b = m b \/ m' b = []) -> no_share m -> no_share m'.
Proof.
  intros HS H a b g h r E1 E2. destruct (HS a) as [X|X], (HS b) as [Y|Y]; rewrite X in E1; rewrite Y in E2; try contradiction. eauto.
Qed.
Lemma range_new m m' a g len : (forall b, m' b = m b \/ (b = a /\ m' b = m a ++ [(g, len)])) -> in_range m len -> in_range m' (S len).
Proof.
  intros HS H b h r E. destruct (HS b) as [X|[-> X]]; rewrite X in E; [apply H in E; lia|].
  apply in_snoc in E as [E|(_ & ->)]; [apply H in E; lia|lia].
Qed.
Lemma share_new m m' a g len : (forall b, m' b = m b \/ (b = a /\ m' b = m a ++ [(g, len)])) -> in_range m len -> no_share m -> no_share m'.
Proof.
  intros HS HR H b c h i r E1 E2. destruct (HS b) as [X|[-> X]], (HS c) as [Y|[-> Y]]; rewrite X in E1; rewrite Y in E2.
  - eauto.
  - apply in_snoc in E2 as [E2|(_ & ->)]; [eauto|]. apply HR in E1. lia.
  - apply in_snoc in E1 as [E1|(_ & ->)]; [eauto|]. apply HR in E2. lia.
  - split; [reflexivity|]. apply in_snoc in E1 as [E1|(-> & ->)]; apply in_snoc in E2 as [E2|(-> & E2)].
    + apply (H a a h i r E1 E2).
    + subst. apply HR in E1. lia.
    + apply HR in E2. lia.
    + reflexivity.
Qed.
End Map.

Lemma trig_eqb_eq x y : trig_eqb x y = true <-> x = y.
Proof. destruct x, y; cbn; split; congruence. Qed.
Lemma gtype_eqb_eq x y : gtype_eqb x y = true <-> x = y.
Proof. destruct x, y; cbn; split; congruence. Qed.
Lemma pgroup_eqb_eq x y : pgroup_eqb x y = true <-> x = y.
Proof.
  destruct x as [[t g] h], y as [[t' g'] h']. unfold pgroup_eqb. cbn [fst snd]. rewrite !Bool.andb_true_iff, trig_eqb_eq, gtype_eqb_eq, group_eqb_eq.
  split; [intros [[-> ->] ->]; reflexivity|intro H; inversion H; auto].
Qed.

Section WithPy.
Context {PY : Py} {FR : Front}.

Definition bmap (W : world) (a : nat) : list (group * nat) := a_bel (get_agent W a).
Definition pmap (W : world) (a : nat) : list (pgroup * nat) := a_plans (get_agent W a).

Definition ranged (W : world) : Prop :=
  in_range (bmap W) (List.length (w_sets W)) /\ in_range (pmap W) (List.length (w_plists W)).
Definition own (W : world) : Prop :=
  ranged W /\ no_share (bmap W) /\ no_share (pmap W).

(** Changes that keep the maps. *)
Definition maps_kept (W W' : world) : Prop :=
  (forall b, bmap W' b = bmap W b \/ bmap W' b = []) /\ (forall b, pmap W' b = pmap W b \/ pmap W' b = []) /\
  (List.length (w_sets W) <= List.length (w_sets W'))%nat /\ (List.length (w_plists W) <= List.length (w_plists W'))%nat.
Lemma kept_ranged W W' : maps_kept W W' -> ranged W -> ranged W'.
Proof.
  intros (H1 & H2 & H3 & H4) [R1 R2]. split.
  - eapply range_le; [exact H3|]. now apply (range_same (bmap W)).
  - eapply range_le; [exact H4|]. now apply (range_same (pmap W)).
Qed.
Lemma kept_own W W' : maps_kept W W' -> own W -> own W'.
Proof.
  intros HK (R & S1 & S2). split; [eapply kept_ranged; eauto|]. destruct HK as (H1 & H2 & _). split.
  - now apply (share_same (bmap W)).
  - now apply (share_same (pmap W)).
Qed.
Lemma put_kept W a x : a_bel x = a_bel (get_agent W a) -> a_plans x = a_plans (get_agent W a) -> maps_kept W (put_agent W a x).
Proof.
  intros H1 H2. repeat split; [| |cbn; lia|cbn; lia]; intro b; left; unfold bmap, pmap; destruct (get_agent_put W a x b) as [-> |[-> ->]]; auto.
Qed.
Lemma id_kept W W' : w_agents W' = w_agents W -> (List.length (w_sets W) <= List.length (w_sets W'))%nat -> (List.length (w_plists W) <= List.length (w_plists W'))%nat -> maps_kept W W'.
Proof. intros H1 H2 H3. unfold maps_kept, bmap, pmap, get_agent. rewrite H1. auto. Qed.
Lemma kept_trans W1 W2 W3 : maps_kept W1 W2 -> maps_kept W2 W3 -> maps_kept W1 W3.
Proof.
  intros (A & B & C & D) (A' & B' & C' & D'). repeat split; [| |lia|lia]; intro b.
  - destruct (A' b) as [-> | ->]; auto.
  - destruct (B' b) as [-> | ->]; auto.
Qed.

(** The maps after looking up a group. *)
Lemma belref_maps a g W : own W -> own (snd (bel_ref a g W)).
Proof.
  intros [[R1 R2] [S1 S2]]. unfold bel_ref. destruct (assoc _ _ _) as [r|] eqn:E; [split; [split|split]; assumption|]. cbn [snd].
  set (W' := put_agent _ _ _).
  assert (HB : forall b, bmap W' b = bmap W b \/ (b = a /\ bmap W' b = bmap W a ++ [(g, List.length (w_sets W))])).
  { intro b. unfold bmap, W'. match goal with |- context [put_agent ?V a ?x] => destruct (get_agent_put V a x b) as [-> |[-> ->]] end; auto. }
  assert (HP : forall b, pmap W' b = pmap W b \/ pmap W' b = []).
  { intro b. left. unfold pmap, W'. match goal with |- context [put_agent ?V a ?x] => destruct (get_agent_put V a x b) as [-> |[-> ->]] end; auto. }
  assert (HL : List.length (w_sets W') = S (List.length (w_sets W))) by (unfold W'; cbn; rewrite app_length; cbn; lia).
  split; [split|split].
  - rewrite HL. eapply range_new; [exact HB|exact R1].
  - apply (range_same (pmap W)); assumption.
  - eapply share_new; [exact HB|exact R1|exact S1].
  - eapply (share_same (pmap W)); eassumption.
Qed.
Lemma planref_maps a g W : own W -> own (snd (plan_ref a g W)).
Proof.
  intros [[R1 R2] [S1 S2]]. unfold plan_ref. destruct (assoc _ _ _) as [r|] eqn:E; [split; [split|split]; assumption|]. cbn [snd].
  set (W' := put_agent _ _ _).
  assert (HP : forall b, pmap W' b = pmap W b \/ (b = a /\ pmap W' b = pmap W a ++ [(g, List.length (w_plists W))])).
  { intro b. unfold pmap, W'. match goal with |- context [put_agent ?V a ?x] => destruct (get_agent_put V a x b) as [-> |[-> ->]] end; auto. }
  assert (HB : forall b, bmap W' b = bmap W b \/ bmap W' b = []).
  { intro b. left. unfold bmap, W'. match goal with |- context [put_agent ?V a ?x] => destruct (get_agent_put V a x b) as [-> |[-> ->]] end; auto. }
  assert (HL : List.length (w_plists W') = S (List.length (w_plists W))) by (unfold W'; cbn; rewrite app_length; cbn; lia).
  split; [split|split].
  - apply (range_same (bmap W)); assumption.
  - rewrite HL. eapply range_new; [exact HP|exact R2].
  - eapply (share_same (bmap W)); eassumption.
  - eapply share_new; [exact HP|exact R2|exact S2].
Qed.

Lemma eff_own Pp lo cur W W' : eff Pp lo cur W W' -> own W -> own W'.
Proof.
  intros H HO. destruct H; try (apply belref_maps; assumption); try (apply planref_maps; assumption);
    try (apply (kept_own W); [apply id_kept; cbn; rewrite ?upd_length; auto|exact HO]; fail);
    try (apply (kept_own W); [apply put_kept; reflexivity|exact HO]; fail).
  apply (kept_own W); [|exact HO]. eapply kept_trans; [|apply put_kept; reflexivity]. apply id_kept; cbn; rewrite ?upd_length; auto.
Qed.

Lemma geff_own Pp W W' : geff Pp false W W' -> own W -> own W'.
Proof.
  intros H HO. destruct H.
  - eapply eff_own; eassumption.
  - apply (kept_own W); [|exact HO]. repeat split; [| |cbn; lia|cbn; lia]; intro b; unfold bmap, pmap;
      destruct (get_agent_snoc W (empty_agent name) b) as [-> | ->]; auto.
  - discriminate.
  - apply (kept_own W); [apply put_kept; reflexivity|exact HO].
  - apply (kept_own W); [apply id_kept; cbn; auto|exact HO].
  - apply (kept_own W); [apply id_kept; cbn; auto|exact HO].
  - apply (kept_own W); [apply put_kept; reflexivity|exact HO].
Qed.
Lemma own0 : own world0.
Proof.
  assert (HB : forall a, bmap world0 a = [] /\ pmap world0 a = []) by (intros [|a]; now split).
  split; [split|split].
  - intros a g r H. now rewrite (proj1 (HB a)) in H.
  - intros a g r H. now rewrite (proj2 (HB a)) in H.
  - intros a b g h r H. now rewrite (proj1 (HB a)) in H.
  - intros a b g h r H. now rewrite (proj2 (HB a)) in H.
Qed.
Theorem single_own W : single W -> own W.
Proof.
  intro H. apply (single_geffs (fun _ => True)) in H; auto.
  apply (geffs_ind_inv _ _ own _ _ (geff_own _) H). apply own0.
Qed.

(** ** Beliefs of the others *)
Definition others (a : nat) (W W' : world) : Prop := forall b g, b <> a -> beliefs b g W' = beliefs b g W.
Lemma others_trans a W1 W2 W3 : others a W1 W2 -> others a W2 W3 -> others a W1 W3.
Proof. intros H1 H2 b g N. rewrite (H2 b g N). auto. Qed.

Lemma others_belref a g W : own W -> others a W (snd (bel_ref a g W)).
Proof.
  intros [[R1 _] _] b h N. unfold bel_ref. destruct (assoc _ _ _) as [r|] eqn:E; [reflexivity|]. cbn [snd].
  unfold beliefs. rewrite get_agent_other by congruence. change (get_agent (set_sets W (w_sets W ++ [mkbset 0 []])) b) with (get_agent W b).
  destruct (assoc group_eqb h (a_bel (get_agent W b))) as [r'|] eqn:E'; [|reflexivity].
  unfold get_set. cbn. rewrite app_nth1; [reflexivity|]. eapply R1, (assoc_in _ group_eqb_eq), E'.
Qed.
Lemma belref_has a g W : (a < List.length (w_agents W))%nat ->
  assoc group_eqb g (bmap (snd (bel_ref a g W)) a) = Some (fst (bel_ref a g W)).
Proof.
  intro Ha. unfold bel_ref. destruct (assoc group_eqb g (a_bel (get_agent W a))) as [r|] eqn:E; [exact E|]. cbn [fst snd]. unfold bmap.
  rewrite get_agent_same by exact Ha. cbn. apply assoc_snoc_new; [apply group_eqb_eq|exact E].
Qed.
Lemma others_upd a g W r s : own W -> assoc group_eqb g (bmap W a) = Some r ->
  others a W (set_sets W (upd (w_sets W) r s)).
Proof.
  intros [_ [S1 _]] E b h N. unfold beliefs. change (get_agent (set_sets W (upd (w_sets W) r s)) b) with (get_agent W b).
  destruct (assoc group_eqb h (a_bel (get_agent W b))) as [r'|] eqn:E'; [|reflexivity].
  unfold get_set. cbn. rewrite upd_other; [reflexivity|]. intro X. rewrite <- X in *. destruct (S1 a b g h _ (assoc_in _ group_eqb_eq _ _ _ E) (assoc_in _ group_eqb_eq _ _ _ E')) as [-> _]. now apply N.
Qed.

Lemma add_others_own n a t st W r st' W' : own W -> (a < List.length (w_agents W))%nat ->
  add_belief n a t (st, W) = (r, (st', W')) -> others a W W'.
Proof.
  intros HS Ha E. unfold add_belief in E. destruct (has_grounded t); [|inversion E; subst; now intros ? ? ?].
  unfold mbind, m_grounded in E. cbn [fst snd] in E. destruct (grounded n t (b_scope st)) as [v|]; [|inversion E; subst; now intros ? ? ?].
  destruct v as [| | | | | | |f args annots| |]; try (inversion E; subst; now intros ? ? ?).
  unfold on_world in E. cbn [fst snd] in E. pose proof (others_belref a (f, List.length args) W HS) as H1.
  pose proof (belref_has a (f, List.length args) W Ha) as H2. pose proof (belref_maps a (f, List.length args) W HS) as H3.
  destruct (bel_ref a (f, List.length args) W) as [r0 W1]. cbn [fst snd] in *. inversion E; subst.
  eapply others_trans; [exact H1|]. eapply others_upd; eassumption.
Qed.
Lemma remove_others_own n a t st W r st' W' : own W -> (a < List.length (w_agents W))%nat ->
  remove_belief n a t (st, W) = (r, (st', W')) -> others a W W'.
Proof.
  intros HS Ha E. unfold remove_belief in E.
  unfold mbind at 1, m_evaluate in E. cbn [fst snd] in E. destruct (evaluate n t (b_scope st)) as [v|]; [|inversion E; subst; now intros ? ? ?].
  destruct v as [| | | | | | |f args annots| |]; try (inversion E; subst; now intros ? ? ?).
  unfold mbind, m_new_cp, on_world, on_st, m_world in E. cbn [new_cp fst snd] in E. pose proof (others_belref a (f, List.length args) W HS) as H1.
  pose proof (belref_has a (f, List.length args) W Ha) as H2. pose proof (belref_maps a (f, List.length args) W HS) as H3.
  destruct (bel_ref a (f, List.length args) W) as [r0 W1]. cbn [fst snd] in *.
  destruct (rem_loop _ _ _ _ _ _) as [[[k|]|e] st2]; cbn [fst snd] in E; inversion E; subst; try exact H1.
  eapply others_trans; [exact H1|]. eapply others_upd; eassumption.
Qed.
Lemma abolish_others_own n a t st W r st' W' : own W -> (a < List.length (w_agents W))%nat ->
  abolish n a t (st, W) = (r, (st', W')) -> others a W W'.
Proof.
  intros HS Ha E. unfold abolish in E.
  unfold mbind at 1, m_freeze in E. cbn [fst snd] in E. destruct (freeze n t (b_scope st) _) as [v [mm kk]]. cbn [fst snd] in E.
  assert (HN : own (set_nv W kk) /\ others a W (set_nv W kk) /\ (a < List.length (w_agents (set_nv W kk)))%nat).
  { split; [exact HS|]. split; [now intros ? ? ?|exact Ha]. }
  remember (set_nv W kk) as W0 eqn:EW. clear EW. destruct HN as (HO & HW & Ha0).
  destruct v as [v|]; cbn [rmap fst snd] in E; [|inversion E; subst; exact HW].
  destruct v as [| | | | | | |f args annots| |]; cbn [fst snd] in E; try (inversion E; subst; exact HW).
  unfold mbind, on_world, m_world in E. cbn [fst snd] in E. pose proof (others_belref a (f, List.length args) W0 HO) as H1.
  pose proof (belref_has a (f, List.length args) W0 Ha0) as H2. pose proof (belref_maps a (f, List.length args) W0 HO) as H3.
  destruct (bel_ref a (f, List.length args) W0) as [r0 W1]. cbn [fst snd] in *. assert (H4 := others_trans _ _ _ _ HW H1).
  destruct (abolish_loop _ _ _) as [x l]. cbn [fst snd] in E. destruct (Nat.eqb _ _).
  - cbn in E. inversion E; subst. exact H4.
  - unfold put_world in E. cbn in E. inversion E; subst. eapply others_trans; [exact H4|]. eapply others_upd; eassumption.
Qed.

Lemma add_others n a t st W r st' W' : single W -> (a < List.length (w_agents W))%nat ->
  add_belief n a t (st, W) = (r, (st', W')) -> others a W W'.
Proof. intro H. apply add_others_own. now apply single_own. Qed.
Lemma remove_others n a t st W r st' W' : single W -> (a < List.length (w_agents W))%nat ->
  remove_belief n a t (st, W) = (r, (st', W')) -> others a W W'.
Proof. intro H. apply remove_others_own. now apply single_own. Qed.
Lemma abolish_others n a t st W r st' W' : single W -> (a < List.length (w_agents W))%nat ->
  abolish n a t (st, W) = (r, (st', W')) -> others a W W'.
Proof. intro H. apply abolish_others_own. now apply single_own. Qed.

(** The whole event, if the contexts leave the belief base alone. *)
Lemma updated_others n a tr gt t st W st' W' : single W -> (a < List.length (w_agents W))%nat ->
  updated n a tr gt t (st, W) (st', W') -> others a W W'.
Proof.
  intros HS Ha HU. unfold updated in HU. destruct gt; try (destruct tr; inversion HU; subst; now intros ? ? ?).
  destruct tr; [eapply add_others|eapply remove_others]; eassumption.
Qed.
Lemma event_others n1 a tr gt t ci delayed st W st1 W1 event k d r : single W -> (a < List.length (w_agents W))%nat ->
  updated n1 a tr gt t (st, W) (st1, W1) -> poised a tr gt t (b_scope st1) W1 event k ->
  chosen d a tr gt W1 event k = r -> r <> CutOff -> gt <> GtTest ->
  delayed = true \/ (forall l, In l (a_ints (get_agent W1 a)) -> l <> []) ->
  exists n0 x st' W', (forall n, (n0 <= n)%nat -> call n a tr gt t ci delayed (st, W) = (x, (st', W'))) /\ others a W W'.
Proof.
  intros HS Ha HU HP HC HN HG HD. assert (HO := updated_others _ _ _ _ _ _ _ _ _ HS Ha HU). destruct r as [p s nv|nv|e|]; [| | |contradiction].
  - destruct (call_chosen n1 a tr gt t ci delayed (st, W) st1 W1 event k d HU HP p s nv HC HD) as (n0 & W' & HR & [HB _ _ _] & _).
    exists n0, (Ok true), st1, W'. split; [exact HR|]. intros b g N. rewrite HB. auto.
  - destruct (call_none n1 a tr gt t ci delayed (st, W) st1 W1 event k d HU HP nv HC HG) as (n0 & W' & [[HB _ _ _] _] & HR).
    eexists n0, _, st1, W'. split; [exact HR|]. intros b g N. rewrite HB. auto.
  - destruct (call_fails n1 a tr gt t ci delayed (st, W) st1 W1 event k d HU HP e HC) as (n0 & W' & [[HB _ _ _] _] & HR).
    exists n0, (Err e), st1, W'. split; [exact HR|]. intros b g N. rewrite HB. auto.
Qed.
End WithPy.
