(** What building an agent does: proofs. *)
From Verif Require Import Base Num Term Unify TermSpec Str World Engine Effects EffFacts Step Ast Names Build QuerySpec PlanSpec LoadSpec Reach ReachFacts StepFacts BelFacts BelAdd OwnFacts.

Lemma filter_snoc {A} (f : A -> bool) l x : filter f (l ++ [x]) = filter f l ++ (if f x then [x] else []).
Proof. rewrite filter_app. cbn. now destruct (f x). Qed.

Lemma upd_nth_id {A} (d : A) (l : list A) : forall a, upd l a (nth a l d) = l.
Proof. induction l as [|y l IH]; intros [|a]; cbn; congruence. Qed.

Lemma upd_twice {A} (x y : A) (l : list A) : forall a, upd (upd l a x) a y = upd l a y.
Proof. induction l as [|z l IH]; intros [|a]; cbn; congruence. Qed.

Section WithPy.
Context {PY : Py} {FR : Front}.
Notation Any := (fun _ : plan => True).

(** ** References are in range in every reachable state *)
Lemma belref_ranged a g W : ranged W -> ranged (snd (bel_ref a g W)).
Proof.
  intros [R1 R2]. unfold bel_ref. destruct (assoc _ _ _) as [r|] eqn:E; [split; assumption|]. cbn [snd].
  set (W' := put_agent _ _ _).
  assert (HB : forall b, bmap W' b = bmap W b \/ (b = a /\ bmap W' b = bmap W a ++ [(g, List.length (w_sets W))])).
  { intro b. unfold bmap, W'. match goal with |- context [put_agent ?V a ?x] => destruct (get_agent_put V a x b) as [-> |[-> ->]] end; auto. }
  assert (HP : forall b, pmap W' b = pmap W b \/ pmap W' b = []).
  { intro b. left. unfold pmap, W'. match goal with |- context [put_agent ?V a ?x] => destruct (get_agent_put V a x b) as [-> |[-> ->]] end; auto. }
  assert (HL : List.length (w_sets W') = S (List.length (w_sets W))) by (unfold W'; cbn; rewrite app_length; cbn; lia).
  split.
  - rewrite HL. eapply range_new; [exact HB|exact R1].
  - apply (range_same (pmap W)); assumption.
Qed.
Lemma planref_ranged a g W : ranged W -> ranged (snd (plan_ref a g W)).
Proof.
  intros [R1 R2]. unfold plan_ref. destruct (assoc _ _ _) as [r|] eqn:E; [split; assumption|]. cbn [snd].
  set (W' := put_agent _ _ _).
  assert (HP : forall b, pmap W' b = pmap W b \/ (b = a /\ pmap W' b = pmap W a ++ [(g, List.length (w_plists W))])).
  { intro b. unfold pmap, W'. match goal with |- context [put_agent ?V a ?x] => destruct (get_agent_put V a x b) as [-> |[-> ->]] end; auto. }
  assert (HB : forall b, bmap W' b = bmap W b \/ bmap W' b = []).
  { intro b. left. unfold bmap, W'. match goal with |- context [put_agent ?V a ?x] => destruct (get_agent_put V a x b) as [-> |[-> ->]] end; auto. }
  assert (HL : List.length (w_plists W') = S (List.length (w_plists W))) by (unfold W'; cbn; rewrite app_length; cbn; lia).
  split.
  - apply (range_same (bmap W)); assumption.
  - rewrite HL. eapply range_new; [exact HP|exact R2].
Qed.
Lemma eff_ranged Pp lo cur W W' : eff Pp lo cur W W' -> ranged W -> ranged W'.
Proof.
  intros H HO. destruct H; try (apply belref_ranged; assumption); try (apply planref_ranged; assumption);
    try (apply (kept_ranged W); [apply id_kept; cbn; rewrite ?upd_length; auto|exact HO]; fail);
    try (apply (kept_ranged W); [apply put_kept; reflexivity|exact HO]; fail).
  apply (kept_ranged W); [|exact HO]. eapply kept_trans; [|apply put_kept; reflexivity]. apply id_kept; cbn; rewrite ?upd_length; auto.
Qed.
Lemma geff_ranged Pp cp W W' : geff Pp cp W W' -> ranged W -> ranged W'.
Proof.
  intros H HO. destruct H.
  - eapply eff_ranged; eassumption.
  - apply (kept_ranged W); [|exact HO]. repeat split; [| |cbn; lia|cbn; lia]; intro b; unfold bmap, pmap;
      destruct (get_agent_snoc W (empty_agent name) b) as [-> | ->]; auto.
  - destruct HO as [R1 R2]. split; intros b g r; unfold bmap, pmap; cbn [w_sets w_plists set_agents];
      match goal with |- context [set_agents W (w_agents W ++ [?x])] => destruct (get_agent_snoc W x b) as [-> | ->] end; cbn; [apply R1|apply R1|apply R2|apply R2].
  - apply (kept_ranged W); [apply put_kept; reflexivity|exact HO].
  - apply (kept_ranged W); [apply id_kept; cbn; auto|exact HO].
  - apply (kept_ranged W); [apply id_kept; cbn; auto|exact HO].
  - apply (kept_ranged W); [apply put_kept; reflexivity|exact HO].
Qed.
Theorem reach_ranged W : reach W -> ranged W.
Proof.
  intro H. apply (reach_geffs (fun _ => True)) in H; auto.
  apply (geffs_ind_inv _ _ ranged _ _ (geff_ranged _ _) H). apply own0.
Qed.

(** ** Rules *)
Lemma rules_add_spec g r l : forall h,
  match assoc group_eqb h (rules_add g r l) with Some x => x | None => [] end =
  match assoc group_eqb h l with Some x => x | None => [] end ++ (if group_eqb h g then [r] else []).
Proof.
  intro h. induction l as [|[g' rs] l IH]; cbn.
  - now destruct (group_eqb h g).
  - destruct (group_eqb g g') eqn:E; cbn.
    + apply group_eqb_eq in E as ->. destruct (group_eqb h g') eqn:E'; [reflexivity|]. now rewrite app_nil_r.
    + destruct (group_eqb h g') eqn:E'; [|exact IH]. destruct (group_eqb h g) eqn:E2; [|now rewrite app_nil_r].
      apply group_eqb_eq in E' as ->. apply group_eqb_eq in E2 as ->. now rewrite group_eqb_refl in E.
Qed.

(** Only the rules of [a] and the variable counter change. *)
Definition but_rules (a : nat) (W W' : world) : Prop :=
  exists k l, W' = put_agent (set_nv W k) a (set_a_rules (get_agent W a) l).
Lemma set_rules_same ag : set_a_rules ag (a_rules ag) = ag.
Proof. now destruct ag. Qed.
Lemma put_same W a : put_agent W a (get_agent W a) = W.
Proof.
  unfold put_agent, get_agent. rewrite upd_nth_id. now destruct W.
Qed.

Lemma install_rules acts a items : forall l W r l' W' rs, (a < List.length (w_agents W))%nat ->
  (forall h, rules_of a h W = filter (fun r => group_eqb h (lit_group (r_head r))) rs) ->
  wfor (install_rule acts a) items l W = (r, l', W') ->
  List.length (w_agents W') = List.length (w_agents W) /\
  (exists nv rl, W' = put_agent (set_nv W nv) a (set_a_rules (get_agent W a) rl)) /\
  (r = Ok tt -> exists rs', Forall2 (made_rule acts) items rs' /\ forall h, rules_of a h W' = filter (fun r => group_eqb h (lit_group (r_head r))) (rs ++ rs')).
Proof.
  assert (HID : forall W k, set_nv W k = put_agent (set_nv W k) a (set_a_rules (get_agent W a) (a_rules (get_agent W a)))).
  { intros W k. rewrite set_rules_same. symmetry. apply (put_same (set_nv W k)). }
  induction items as [|x items IH]; intros l W r l' W' rs Ha HR E; cbn in E.
  - inversion E; subst. split; [reflexivity|]. split.
    + exists (w_nv W'), (a_rules (get_agent W' a)). transitivity (set_nv W' (w_nv W')); [now destruct W'|apply HID].
    + intros _. exists []. split; [constructor|]. intro h. now rewrite app_nil_r.
  - destruct (install_rule acts a x l W) as [[[u|e] l1] W1] eqn:E1; unfold install_rule in E1;
      destruct (clause (build_rule acts x) l (w_nv W)) as [[[y|e'] l2] k] eqn:Ec; inversion E1; subst.
    + assert (Ha1 : (a < List.length (w_agents (put_agent (set_nv W k) a (set_a_rules (get_agent W a) (rules_add (lit_group (r_head y)) y (a_rules (get_agent W a)))))))%nat)
        by (cbn; now rewrite upd_length).
      assert (HA : get_agent (put_agent (set_nv W k) a (set_a_rules (get_agent W a) (rules_add (lit_group (r_head y)) y (a_rules (get_agent W a))))) a =
        set_a_rules (get_agent W a) (rules_add (lit_group (r_head y)) y (a_rules (get_agent W a)))) by now apply get_agent_same.
      edestruct (fun H => IH _ _ _ _ _ (rs ++ [y]) Ha1 H E) as (HL & (nv & rl & HW) & HO).
      { intro h. unfold rules_of. rewrite HA. cbn [a_rules set_a_rules]. rewrite rules_add_spec, filter_snoc. f_equal. exact (HR h). }
      split; [rewrite HL; cbn; now rewrite upd_length|]. split.
      * exists nv, rl. rewrite HW, HA. unfold put_agent, set_agents, set_nv. cbn. f_equal. rewrite upd_twice. now destruct (get_agent W a).
      * intro Hr. destruct (HO Hr) as (rs' & HF & HH). exists (y :: rs'). split.
        -- constructor; [now exists l, (w_nv W), l1, k|exact HF].
        -- intro h. rewrite HH, <- app_assoc. reflexivity.
    + inversion E; subst. split; [reflexivity|]. split; [|discriminate]. exists k, (a_rules (get_agent W a)). apply HID.
Qed.

(** ** Plans *)

(** The plan lists of [a] are its own; nothing else has changed since [W]. *)
Record laid (a : nat) (ps : list plan) (W W' : world) : Prop := mklaid {
  la_agents : List.length (w_agents W') = List.length (w_agents W);
  la_a : exists l, get_agent W' a = set_a_plans (get_agent W a) l;
  la_b : forall b, b <> a -> get_agent W' b = get_agent W b;
  la_sets : w_sets W' = w_sets W;
  la_env : w_env W' = w_env W;
  la_ints : w_ints W' = w_ints W;
  la_old : forall r, (r < List.length (w_plists W))%nat -> get_plist W' r = get_plist W r;
  la_len : (List.length (w_plists W) <= List.length (w_plists W'))%nat;
  la_new : forall g r, assoc pgroup_eqb g (pmap W' a) = Some r -> (List.length (w_plists W) <= r < List.length (w_plists W'))%nat;
  la_inj : forall g h r, assoc pgroup_eqb g (pmap W' a) = Some r -> assoc pgroup_eqb h (pmap W' a) = Some r -> g = h;
  la_plans : forall h, plans_of a h W' = filter (fun p => pgroup_eqb h (plan_group p)) ps
}.

Lemma laid_add a p ps W V st r st' W' : (a < List.length (w_agents W))%nat -> laid a ps W V ->
  add_plan a p (st, V) = (r, (st', W')) -> r = Ok tt /\ laid a (ps ++ [p]) W W'.
Proof.
  intros Ha [L1 L2 L3 L4 L5 L6 L7 L8 L9 L10 L11] E. unfold add_plan, mbind, on_world in E. cbn [fst snd] in E.
  change (p_trig p, p_gt p, (p_functor p, List.length (p_hargs p))) with (plan_group p) in E.
  destruct L2 as [l0 L2]. assert (HaV : (a < List.length (w_agents V))%nat) by (rewrite L1; exact Ha).
  unfold plan_ref in E. destruct (assoc pgroup_eqb (plan_group p) (a_plans (get_agent V a))) as [r0|] eqn:Er; cbn [fst snd] in E; inversion E; subst; clear E; (split; [reflexivity|]).
  - (* the group exists *)
    pose proof (L9 _ _ Er) as [H1 H2].
    assert (HG : forall b, get_agent (set_plists V (upd (w_plists V) r0 (get_plist V r0 ++ [p]))) b = get_agent V b) by reflexivity.
    constructor; auto.
    + exists l0. rewrite HG. exact L2.
    + intros r Hr. unfold get_plist. cbn. rewrite upd_other by lia. now apply L7.
    + cbn. now rewrite upd_length.
    + intros g r H. cbn. rewrite upd_length. eapply L9, H.
    + intro h. unfold plans_of. rewrite HG. specialize (L11 h). unfold plans_of in L11. rewrite filter_snoc.
      destruct (assoc pgroup_eqb h (a_plans (get_agent V a))) as [r|] eqn:E'.
      * destruct (pgroup_eqb h (plan_group p)) eqn:Eh.
        -- apply pgroup_eqb_eq in Eh. subst h. assert (r = r0) by congruence. subst r. unfold get_plist at 1. cbn. rewrite upd_same by exact H2. now rewrite L11.
        -- unfold get_plist. cbn. rewrite upd_other; [now rewrite app_nil_r|]. intros ->. assert (h = plan_group p) by (eapply L10; eassumption).
           subst h. apply Bool.diff_true_false. rewrite <- Eh. symmetry. now apply pgroup_eqb_eq.
      * destruct (pgroup_eqb h (plan_group p)) eqn:Eh; [apply pgroup_eqb_eq in Eh; congruence|]. now rewrite app_nil_r.
  - (* a new group *)
    set (new := List.length (w_plists V)). set (x := set_a_plans (get_agent V a) (a_plans (get_agent V a) ++ [(plan_group p, new)])).
    set (V1 := put_agent (set_plists V (w_plists V ++ [[]])) a x).
    change (laid a (ps ++ [p]) W (set_plists V1 (upd (w_plists V1) new (get_plist V1 new ++ [p])))).
    assert (HG : forall b, get_agent (set_plists V1 (upd (w_plists V1) new (get_plist V1 new ++ [p]))) b = get_agent V1 b) by reflexivity.
    assert (HA : get_agent V1 a = x) by (apply get_agent_same; exact HaV).
    assert (HB : forall b, b <> a -> get_agent V1 b = get_agent V b) by (intros b Hb; unfold V1; now rewrite get_agent_other by congruence).
    assert (HPL : w_plists V1 = w_plists V ++ [[]]) by reflexivity.
    assert (HLen : List.length (w_plists V1) = S new) by (rewrite HPL, app_length; cbn; unfold new; lia).
    assert (HN : get_plist V1 new = []) by (unfold get_plist; rewrite HPL; unfold new; now rewrite nth_middle).
    assert (HM : forall g r, assoc pgroup_eqb g (pmap V1 a) = Some r -> assoc pgroup_eqb g (a_plans (get_agent V a)) = Some r \/ (g = plan_group p /\ r = new)).
    { intros g r H. unfold pmap in H. rewrite HA in H. apply assoc_snoc in H; [|apply pgroup_eqb_eq]. destruct H as [H|(_ & H)]; auto. }
    constructor; auto.
    + cbn. now rewrite upd_length.
    + exists (a_plans (get_agent V a) ++ [(plan_group p, new)]). rewrite HG, HA. unfold x. rewrite L2. reflexivity.
    + intros b Hb. rewrite HG, HB by exact Hb. auto.
    + intros r Hr. unfold get_plist. cbn [w_plists set_plists]. rewrite upd_other by (unfold new; lia). rewrite HPL, app_nth1 by lia. now apply L7.
    + cbn [w_plists set_plists]. rewrite upd_length, HLen. unfold new. lia.
    + intros g r H. cbn [w_plists set_plists]. rewrite upd_length, HLen. apply HM in H as [H|[_ ->]]; [apply L9 in H; unfold new; lia|unfold new; lia].
    + intros g h r H H'. apply HM in H as [H|[-> ->]]; apply HM in H' as [H'|[-> H']]; eauto.
      * subst. apply L9 in H. unfold new in H. lia.
      * apply L9 in H'. unfold new in H'. lia.
    + intro h. unfold plans_of. rewrite HG. specialize (L11 h). unfold plans_of in L11. rewrite filter_snoc, HA. unfold x. cbn [a_plans set_a_plans].
      destruct (pgroup_eqb h (plan_group p)) eqn:Eh.
      * apply pgroup_eqb_eq in Eh. subst h. rewrite (assoc_snoc_new _ pgroup_eqb_eq) by exact Er. rewrite Er in L11. rewrite <- L11.
        unfold get_plist at 1. cbn [w_plists set_plists]. rewrite upd_same by lia. now rewrite HN.
      * rewrite (assoc_snoc_other _ pgroup_eqb_eq) by (intros ->; rewrite (proj2 (pgroup_eqb_eq _ _) eq_refl) in Eh; discriminate).
        rewrite app_nil_r, <- L11. destruct (assoc pgroup_eqb h (a_plans (get_agent V a))) as [r|] eqn:E'; [|reflexivity].
        apply L9 in E'. unfold get_plist. cbn [w_plists set_plists]. rewrite upd_other by (unfold new; lia). rewrite HPL, app_nth1 by lia. reflexivity.
Qed.

Lemma laid_nv a ps W V k : laid a ps W V -> laid a ps W (set_nv V k).
Proof. intros [L1 L2 L3 L4 L5 L6 L7 L8 L9 L10 L11]. constructor; auto. Qed.

Lemma install_plans acts a items : forall l V r l' W' ps W, (a < List.length (w_agents W))%nat -> laid a ps W V ->
  wfor (install_plan acts a) items l V = (r, l', W') ->
  exists ps', laid a (ps ++ ps') W W' /\ (r = Ok tt -> Forall2 (made_plan acts) items ps').
Proof.
  induction items as [|x items IH]; intros l V r l' W' ps W Ha HL E; cbn in E.
  - inversion E; subst. exists []. rewrite app_nil_r. split; [exact HL|constructor].
  - unfold install_plan in E at 1. destruct (clause (build_plan acts x) l (w_nv V)) as [[[y|e'] l2] k] eqn:Ec.
    + destruct (add_plan a y (bst0, set_nv V k)) as [r1 [st1 W1]] eqn:Ea.
      destruct (laid_add a y ps W (set_nv V k) _ _ _ _ Ha (laid_nv _ _ _ _ _ HL) Ea) as [-> HL1].
      destruct (IH _ _ _ _ _ _ _ Ha HL1 E) as (ps' & HL2 & HF). exists (y :: ps'). rewrite <- app_assoc in HL2. split; [exact HL2|].
      intro Hr. constructor; [now exists l, (w_nv V), l2, k|auto].
    + inversion E; subst. exists []. rewrite app_nil_r. split; [now apply laid_nv|discriminate].
Qed.

(** ** Initial beliefs and goals *)
Lemma install_events n a gt items : forall l W l' W',
  wfor (install_event n a gt) items l W = (Ok tt, l', W') -> raised n a (map (pair gt) items) W W'.
Proof.
  induction items as [|x items IH]; intros l W l' W' E; cbn in E; [inversion E; subst; constructor|].
  unfold install_event in E at 1. destruct (clause (build_lit x) l (w_nv W)) as [[[[[f args] annots]|e'] l2] k] eqn:Ec; [|discriminate E].
  destruct (with_new _ _) as [[r1|e] [st1 W1]] eqn:Ea; cbn [rmap] in E; [|discriminate E].
  cbn [map]. eapply rz_cons; [exact Ec| |eapply IH, E]. unfold outside_call. now rewrite Ea.
Qed.
Lemma raised_app n a e1 : forall e2 W1 W2 W3, raised n a e1 W1 W2 -> raised n a e2 W2 W3 -> raised n a (e1 ++ e2) W1 W3.
Proof. intros e2 W1 W2 W3 H. revert e2 W3. induction H; intros e2 W3 H2; [exact H2|]. cbn. econstructor; eauto. Qed.

(** Calls do not register or create agents. *)
Lemma outside_env n a tr gt t d W r W' : sane Any W -> (a < List.length (w_agents W))%nat ->
  outside_call n a tr gt t d W = (r, W') -> w_env W' = w_env W /\ List.length (w_agents W') = List.length (w_agents W) /\ sane Any W'.
Proof.
  intros HS Ha E. assert (HG := g_outside Any false any_args any_front _ _ _ _ _ _ _ _ _ HS Ha E).
  assert (HX : exists lo, effs Any lo (List.length (w_ints W)) (set_ints W (w_ints W ++ [int0])) W').
  { unfold outside_call, with_new in E. cbn in E. destruct (call n a tr gt t (List.length (w_ints W)) d _) as [x s2] eqn:Ec. inversion E; subst. cbn.
    set (W1 := set_ints W (w_ints W ++ [int0])) in *.
    destruct (engine_does Any any_args any_front (List.length (w_agents W1)) n (List.length (w_ints W1))) as (_ & HC & _).
    assert (HS1 : sane Any W1) by (eapply geff_sane; [exact any_args|apply (g_eff _ false _ 0%nat 0%nat), ef_new|exact HS]).
    eexists. eapply (HC a _ _ _ _ _ Ha) in Ec; [exact Ec|]. now apply sane_ready. }
  destruct HX as [lo HX]. split; [exact (effs_env Any _ _ _ _ HX)|]. split; [exact (effs_agents Any _ _ _ _ HX)|].
  eapply geffs_sane; [|exact HG|exact HS]; exact any_args.
Qed.
Lemma install_events_env n a gt items : forall l W r l' W', sane Any W -> (a < List.length (w_agents W))%nat ->
  wfor (install_event n a gt) items l W = (r, l', W') ->
  w_env W' = w_env W /\ List.length (w_agents W') = List.length (w_agents W) /\ sane Any W'.
Proof.
  induction items as [|x items IH]; intros l W r l' W' HS Ha E; cbn in E; [inversion E; subst; auto|].
  unfold install_event in E at 1. destruct (clause (build_lit x) l (w_nv W)) as [[[[[f args] annots]|e'] l2] k] eqn:Ec; [|inversion E; subst; auto].
  pose proof (outside_env n a TrAdd gt (TLit f args annots) true (set_nv W k)) as HO. unfold outside_call in HO.
  destruct (with_new _ _) as [r1 [st1 W1]] eqn:Ea. cbn [snd] in HO. destruct (HO _ _ HS Ha eq_refl) as (H1 & H2 & H3). cbn [w_env w_agents set_nv] in H1, H2.
  destruct r1 as [b|e]; cbn [rmap] in E; [|inversion E; subst; auto].
  destruct (IH _ _ _ _ _ H3 ltac:(rewrite H2; exact Ha) E) as (H4 & H5 & H6). split; [congruence|]. split; [congruence|exact H6].
Qed.

(** ** All of it *)
Lemma new_agent_get W x b : b <> List.length (w_agents W) -> get_agent (set_agents W (w_agents W ++ [x])) b = get_agent W b.
Proof.
  intro Hb. unfold get_agent. cbn. destruct (Nat.lt_ge_cases b (List.length (w_agents W))) as [H|H].
  - now rewrite app_nth1.
  - rewrite app_nth2 by exact H. rewrite (nth_overflow (w_agents W)) by exact H. destruct (b - List.length (w_agents W))%nat as [|[|]] eqn:E; [lia|reflexivity|reflexivity].
Qed.

Lemma load acts g W name r1 l1 W1 r2 l2 W2 : ranged W ->
  let a := List.length (w_agents W) in
  wfor (install_rule acts a) (ag_rules g) (log_new (Some 3%nat)) (set_agents W (w_agents W ++ [empty_agent name])) = (r1, l1, W1) ->
  wfor (install_plan acts a) (ag_plans g) l1 W1 = (r2, l2, W2) ->
  w_env W1 = w_env W /\ w_env W2 = w_env W /\ (r1 = Ok tt -> r2 = Ok tt -> loaded acts g a name W W2).
Proof.
  intros [R1 R2] a E1 E2. set (W0 := set_agents W _) in E1.
  assert (HA0 : get_agent W0 a = empty_agent name) by (unfold get_agent, W0, a; cbn; now rewrite nth_middle).
  assert (Ha0 : (a < List.length (w_agents W0))%nat) by (unfold W0, a; cbn; rewrite app_length; cbn; lia).
  edestruct (fun H => install_rules _ _ _ _ _ _ _ _ [] Ha0 H E1) as (HL & (nv & rl & HW1) & HO).
  { intro h. unfold rules_of. now rewrite HA0. }
  rewrite HA0 in HW1. assert (Ha1 : (a < List.length (w_agents W1))%nat) by (rewrite HL; exact Ha0).
  assert (HA1 : get_agent W1 a = mkagent name [] rl [] []) by (rewrite HW1; now apply get_agent_same).
  assert (HB1 : forall b, b <> a -> get_agent W1 b = get_agent W b).
  { intros b Hb. rewrite HW1, get_agent_other by congruence. change (get_agent (set_nv W0 nv) b) with (get_agent W0 b). now apply new_agent_get. }
  assert (HX : w_sets W1 = w_sets W /\ w_plists W1 = w_plists W /\ w_ints W1 = w_ints W /\ w_env W1 = w_env W) by (rewrite HW1; auto).
  clear HW1. destruct HX as (X1 & X2 & X3 & X4).
  edestruct (fun H => install_plans _ _ _ _ _ _ _ _ [] W1 Ha1 H E2) as (ps & [L1 L2 L3 L4 L5 L6 L7 L8 L9 L10 L11] & HF).
  { constructor; auto; unfold pmap; try rewrite HA1; cbn; try discriminate. now exists []. unfold plans_of. now rewrite HA1. }
  split; [exact X4|]. split; [congruence|]. intros O1 O2. destruct (HO O1) as (rs & HFr & HRr). specialize (HF O2). cbn [app] in *.
  destruct L2 as [pl L2]. rewrite HA1 in L2. cbn in L2.
  assert (HB2 : forall b, b <> a -> get_agent W2 b = get_agent W b) by (intros b Hb; rewrite L3, HB1 by exact Hb; reflexivity).
  constructor.
  - split; [reflexivity|]. rewrite L1, HL. unfold W0. cbn. rewrite app_length. cbn. unfold a. lia.
  - now rewrite L2.
  - exists rs. split; [exact HFr|]. intro h. rewrite <- HRr. unfold rules_of. now rewrite L2, HA1.
  - exists ps. split; assumption.
  - intro h. unfold beliefs. now rewrite L2.
  - now rewrite L2.
  - intros b Hb. rewrite HB2 by exact Hb. split; [reflexivity|]. split; [intro h; unfold rules_of; now rewrite HB2|]. split; intro h.
    + unfold beliefs. rewrite HB2 by exact Hb. unfold get_set. now rewrite L4, X1.
    + unfold plans_of. rewrite HB2 by exact Hb. destruct (assoc pgroup_eqb h (a_plans (get_agent W b))) as [r|] eqn:E; [|reflexivity].
      apply (assoc_in _ pgroup_eqb_eq) in E; apply R2 in E. rewrite L7 by (rewrite X2; exact E). unfold get_plist. now rewrite X2.
  - congruence.
  - congruence.
Qed.

(** What a successful build does. *)
Lemma build_spec_sane n acts path g W a W' : reach W -> build_agent_from_ast n acts path g W = (Ok a, W') ->
  exists name W2 W3, make_name path (map fst (w_env W)) = Ok name /\ loaded acts g a name W W2 /\
    raised n a (map (pair GtBelief) (ag_beliefs g) ++ map (pair GtAchieve) (ag_goals g)) W2 W3 /\
    W' = set_env W3 (w_env W ++ [(name, a)]) /\ w_env W3 = w_env W /\ sane Any W2.
Proof.
  intros HR E. assert (HR' := reach_ranged _ HR). assert (HS : sane Any W) by (apply reach_sane; [exact any_args|exact any_front|now intros|exact HR]).
  unfold build_agent_from_ast in E. destruct (make_name path (map fst (w_env W))) as [name|] eqn:En; [|discriminate E].
  cbv zeta in E. set (b := List.length (w_agents W)) in *. set (W0 := set_agents W _) in *.
  destruct (wfor (install_rule acts b) _ _ W0) as [[[[]|] l1] W1] eqn:E1; [|discriminate E].
  destruct (wfor (install_plan acts b) _ _ W1) as [[[[]|] l2] W2] eqn:E2; [|discriminate E].
  destruct (wfor (install_event n b GtBelief) _ _ W2) as [[[[]|] l3] W3] eqn:E3; [|discriminate E].
  destruct (wfor (install_event n b GtAchieve) _ _ W3) as [[[[]|] l4] W4] eqn:E4; [|discriminate E].
  destruct (log_throw l4); inversion E; subst a W'; clear E.
  destruct (load acts g W name _ _ _ _ _ _ HR' E1 E2) as (H1 & H2 & H3). specialize (H3 eq_refl eq_refl).
  assert (Hb0 : (b < List.length (w_agents W0))%nat) by (unfold W0, b; cbn; rewrite app_length; cbn; lia).
  assert (HS0 : sane Any W0) by (eapply geff_sane; [exact any_args|apply (g_agent _ false)|exact HS]).
  assert (G1 := g_wfor Any false any_args b _ _ (g_install_rule Any false acts b) _ _ _ _ _ HS0 Hb0 E1).
  assert (HS1 := geffs_sane Any false any_args _ _ G1 HS0). assert (Hb1 := geffs_agents Any false _ _ G1).
  assert (G2 := g_wfor Any false any_args b _ _ (g_install_plan Any false any_args ltac:(now intros) acts b) _ _ _ _ _ HS1 (Nat.lt_le_trans _ _ _ Hb0 Hb1) E2).
  assert (HS2 := geffs_sane Any false any_args _ _ G2 HS1). assert (Hb2 := geffs_agents Any false _ _ G2).
  destruct (install_events_env _ _ _ _ _ _ _ _ _ HS2 (Nat.lt_le_trans _ _ _ Hb0 (Nat.le_trans _ _ _ Hb1 Hb2)) E3) as (V1 & V2 & HS3).
  destruct (install_events_env _ _ _ _ _ _ _ _ _ HS3 (eq_ind_r (fun x => (b < x)%nat) (Nat.lt_le_trans _ _ _ Hb0 (Nat.le_trans _ _ _ Hb1 Hb2)) V2) E4) as (V3 & V4 & _).
  exists name, W2, W4. split; [reflexivity|]. split; [exact H3|]. split; [|split; [|split; [congruence|exact HS2]]].
  - eapply raised_app; eapply install_events; eassumption.
  - f_equal. congruence.
Qed.
Theorem build_spec n acts path g W a W' : reach W -> build_agent_from_ast n acts path g W = (Ok a, W') ->
  exists name W2 W3, make_name path (map fst (w_env W)) = Ok name /\ loaded acts g a name W W2 /\
    raised n a (map (pair GtBelief) (ag_beliefs g) ++ map (pair GtAchieve) (ag_goals g)) W2 W3 /\
    W' = set_env W3 (w_env W ++ [(name, a)]) /\ w_env W3 = w_env W.
Proof.
  intros HR E. destruct (build_spec_sane _ _ _ _ _ _ _ HR E) as (name & W2 & W3 & H1 & H2 & H3 & H4 & H5 & _).
  exists name, W2, W3. auto.
Qed.

(** A build that fails registers nobody. *)
Theorem build_fails n acts path g W e W' : reach W -> build_agent_from_ast n acts path g W = (Err e, W') -> w_env W' = w_env W.
Proof.
  intros HR E. assert (HR' := reach_ranged _ HR). assert (HS : sane Any W) by (apply reach_sane; [exact any_args|exact any_front|now intros|exact HR]).
  unfold build_agent_from_ast in E. destruct (make_name path (map fst (w_env W))) as [name|] eqn:En; [|inversion E; reflexivity].
  cbv zeta in E. set (b := List.length (w_agents W)) in *. set (W0 := set_agents W _) in *.
  assert (Hb0 : (b < List.length (w_agents W0))%nat) by (unfold W0, b; cbn; rewrite app_length; cbn; lia).
  assert (HS0 : sane Any W0) by (eapply geff_sane; [exact any_args|apply (g_agent _ false)|exact HS]).
  destruct (wfor (install_rule acts b) _ _ W0) as [[r1 l1] W1] eqn:E1.
  assert (G1 := g_wfor Any false any_args b _ _ (g_install_rule Any false acts b) _ _ _ _ _ HS0 Hb0 E1).
  assert (HS1 := geffs_sane Any false any_args _ _ G1 HS0). assert (Hb1 := geffs_agents Any false _ _ G1).
  destruct (wfor (install_plan acts b) (ag_plans g) l1 W1) as [[r2 l2] W2] eqn:E2.
  destruct (load acts g W name _ _ _ _ _ _ HR' E1 E2) as (H1 & H2 & _).
  destruct r1 as [u1|]; [|inversion E; subst; exact H1]. destruct r2 as [u2|]; [|inversion E; subst; exact H2].
  assert (G2 := g_wfor Any false any_args b _ _ (g_install_plan Any false any_args ltac:(now intros) acts b) _ _ _ _ _ HS1 (Nat.lt_le_trans _ _ _ Hb0 Hb1) E2).
  assert (HS2 := geffs_sane Any false any_args _ _ G2 HS1). assert (Hb2 := geffs_agents Any false _ _ G2).
  destruct (wfor (install_event n b GtBelief) _ _ W2) as [[r3 l3] W3] eqn:E3.
  destruct (install_events_env _ _ _ _ _ _ _ _ _ HS2 (Nat.lt_le_trans _ _ _ Hb0 (Nat.le_trans _ _ _ Hb1 Hb2)) E3) as (V1 & V2 & HS3).
  destruct r3 as [u3|]; [|inversion E; subst; congruence].
  destruct (wfor (install_event n b GtAchieve) _ _ W3) as [[r4 l4] W4] eqn:E4.
  destruct (install_events_env _ _ _ _ _ _ _ _ _ HS3 (eq_ind_r (fun x => (b < x)%nat) (Nat.lt_le_trans _ _ _ Hb0 (Nat.le_trans _ _ _ Hb1 Hb2)) V2) E4) as (V3 & V4 & _).
  destruct r4 as [u4|]; [|inversion E; subst; congruence].
  destruct (log_throw l4); inversion E; subst; congruence.
Qed.
End WithPy.
