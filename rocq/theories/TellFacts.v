(** Being told a plan as text. *)
From Verif Require Import Base Num Term Unify TermSpec Str World Engine Step Ast Names Build Lex LexSpec Parse Fold Front QuerySpec BelSpec PlanSpec Reach StepSpec MildSpec LoadSpec HowSpec FlowSpec TellSpec.
From Verif Require Import FuelFacts Effects EffFacts ReachFacts BelFacts BelAdd OwnFacts LoadFacts MsgFacts HowFacts FlowFacts FlowReach.
From Verif Require Import RoundSpec RoundLex RoundTok RoundText RoundParse RoundCor ParseTotal ParseInv.

Section WithPy.
Context {PY : Py}.

Theorem text_compiles n : front_compiles (FrontText n).
Proof.
  intros s k p k' E. cbn in E. unfold text_plan in E. destruct (read_plan n s) as [ap|]; [|discriminate].
  destruct (clause _ _ _) as [[[x|e] lg] k1] eqn:Ec; [|discriminate]. injection E as -> ->.
  apply plan_follows in Ec as (l & _ & H). now exists l.
Qed.

(** ** What is printed is what is told *)
Lemma keep_tokens toks : filter is_token (map ITok toks) = map ITok toks.
Proof. induction toks as [|t l IH]; cbn; [reflexivity|now rewrite IH]. Qed.

Lemma plan_first p : exists w ws, plan_toks p = w :: ws /\ (w = wd KAt "@" \/ w = wd KPlus "+" \/ w = wd KMinus "-").
Proof.
  unfold plan_toks, event_toks. destruct (ap_annot p); [eexists; eexists; split; [reflexivity|auto]|].
  destruct (ae_trig (ap_event p)); (eexists; eexists; split; [reflexivity|auto]).
Qed.
Theorem told_printed p : readable_plan p -> exists N, forall n, (N <= n)%nat -> read_plan n (aplan_str p ++ s2p ".") = Ok p.
Proof.
  intro H. destruct (plan_back p H) as (first & rest & dot & E1 & E2 & E3).
  exists (List.length rest + 3)%nat. intros n Hn. unfold read_plan. rewrite E1.
  assert (S1 : sp (aplan_str p) (s2p "." ++ []) (plan_toks p)) by (apply sp_plan; [assumption|apply stop_dot]).
  apply dot_items in S1 as (toks & a & b & c & E4 & E5). rewrite E1 in E4. injection E4 as E4.
  destruct (plan_first p) as (w & ws & Ew & Hw). rewrite Ew in E5. destruct toks as [|t toks]; [discriminate|]. cbn in E4, E5.
  injection E4 as -> ->. injection E5 as E5 _. cbn [filter is_token]. rewrite keep_tokens.
  replace (is_lex t "@" || is_lex t "+" || is_lex t "-") with true.
  - unfold told_plan, pbind. rewrite E3 by exact Hn. rewrite E2. reflexivity.
  - unfold is_lex. destruct t as [k lx ? ? ?]. unfold tw in E5. cbn in E5. cbn [t_lex]. subst w.
    destruct Hw as [X|[X|X]]; injection X as -> ->; reflexivity.
Qed.

(** ** Adding a plan *)
Context {FR : Front}.

Lemma gains_refl a W : gains a [] W W.
Proof. repeat split; auto; intros; now rewrite ?app_nil_r. Qed.
Lemma gains_nudged a W W' : nudged W W' -> gains a [] W W'.
Proof.
  intro H. assert (G : forall b, get_agent W' b = get_agent W b) by (intro; now apply nudged_get).
  assert (P : forall b h, plans_of b h W' = plans_of b h W).
  { intros b h. unfold plans_of. rewrite G. destruct (assoc _ _ _); [now apply nudged_plist|reflexivity]. }
  split; [intro h; cbn; rewrite app_nil_r; apply P|]. split; [auto|]. split.
  { intros b g. unfold beliefs. rewrite G. destruct (assoc _ _ _); [|reflexivity]. unfold get_set. now rewrite (nd_sets _ _ H). }
  split; [intro; now rewrite G|]. split; [intro; now rewrite G|]. split; apply H.
Qed.
Lemma gains_trans a xs ys W1 W2 W3 : gains a xs W1 W2 -> gains a ys W2 W3 -> gains a (xs ++ ys) W1 W3.
Proof.
  intros (A1 & A2 & A3 & A4 & A5 & A6 & A7) (B1 & B2 & B3 & B4 & B5 & B6 & B7).
  split; [intro h; rewrite B1, A1, filter_app; now rewrite app_assoc|].
  split; [intros; rewrite B2 by assumption; now apply A2|]. split; [intros; now rewrite B3|]. split; [intros; now rewrite B4|].
  split; [intros; now rewrite B5|]. split; [congruence|]. eapply waits_trans; eassumption.
Qed.

Lemma add_plan_gains a p st W r st' W' : own W -> (a < List.length (w_agents W))%nat ->
  add_plan a p (st, W) = (r, (st', W')) -> r = Ok tt /\ st' = st /\ gains a [p] W W' /\ own W' /\
  (forall b, b <> a -> pmap W' b = pmap W b) /\ List.length (w_agents W') = List.length (w_agents W).
Proof.
  intros HO Ha E. pose proof (planref_maps a (plan_group p) W HO) as HO1. destruct HO as [[_ R2] [_ S2]].
  unfold add_plan, mbind, on_world in E. cbn [fst snd] in E.
  change (p_trig p, p_gt p, (p_functor p, List.length (p_hargs p))) with (plan_group p) in E.
  destruct (plan_ref a (plan_group p) W) as [r0 V] eqn:Er. cbn [fst snd] in E. inversion E; subst; clear E.
  split; [reflexivity|]. split; [reflexivity|].
  assert (HV : own (set_plists V (upd (w_plists V) r0 (get_plist V r0 ++ [p])))).
  { apply (kept_own V); [|exact HO1]. apply id_kept; cbn; rewrite ?upd_length; auto. }
  split; [|split; [exact HV|]].
  2:{ clear - Er. unfold plan_ref in Er. destruct (assoc _ _ _) as [r1|]; inversion Er; subst; [split; auto|]. split; [|cbn; now rewrite upd_length].
      intros b N. unfold pmap. match goal with |- a_plans (get_agent (set_plists ?U _) b) = _ => change (a_plans (get_agent U b) = a_plans (get_agent W b)) end.
      now rewrite get_agent_other by congruence. }
  cbn [snd] in HO1. unfold plan_ref in Er.
  set (V' := set_plists V _) in *.
  assert (G' : forall b, get_agent V' b = get_agent V b) by reflexivity.
  assert (K : (r0 < List.length (w_plists V))%nat /\ assoc pgroup_eqb (plan_group p) (pmap V a) = Some r0 /\
    (forall b h, plans_of b h V = plans_of b h W) /\ (forall b g, beliefs b g V = beliefs b g W) /\
    (forall b, a_rules (get_agent V b) = a_rules (get_agent W b)) /\ (forall b, a_ints (get_agent V b) = a_ints (get_agent W b)) /\
    w_env V = w_env W /\ waits_aside W V).
  { destruct (assoc pgroup_eqb (plan_group p) (a_plans (get_agent W a))) as [r1|] eqn:Ea; inversion Er; subst; clear Er.
    - split; [eapply R2, (assoc_in _ pgroup_eqb_eq), Ea|]. split; [exact Ea|]. repeat split; auto.
    - set (x := set_a_plans _ _) in *. set (U := set_plists W _) in *.
      assert (HA : get_agent (put_agent U a x) a = x) by (now apply get_agent_same).
      assert (HB : forall b, b <> a -> get_agent (put_agent U a x) b = get_agent W b) by (intros b N; now rewrite get_agent_other by congruence).
      split; [cbn; rewrite app_length; cbn; lia|]. split; [unfold pmap; rewrite HA; cbn [a_plans set_a_plans x]; now apply (assoc_snoc_new _ pgroup_eqb_eq)|].
      split.
      { intros b h. unfold plans_of. destruct (Nat.eq_dec b a) as [->|N].
        - rewrite HA. unfold x. cbn [a_plans set_a_plans]. destruct (pgroup_eqb h (plan_group p)) eqn:Eh.
          + apply pgroup_eqb_eq in Eh. subst h. rewrite (assoc_snoc_new _ pgroup_eqb_eq), Ea by assumption.
            unfold get_plist. cbn. now rewrite nth_middle.
          + rewrite (assoc_snoc_other _ pgroup_eqb_eq) by (intros ->; rewrite (proj2 (pgroup_eqb_eq _ _) eq_refl) in Eh; discriminate).
            destruct (assoc pgroup_eqb h (a_plans (get_agent W a))) as [r1|] eqn:E1; [|reflexivity]. apply (assoc_in _ pgroup_eqb_eq), R2 in E1.
            unfold get_plist. cbn. now rewrite app_nth1.
        - rewrite HB by assumption. destruct (assoc pgroup_eqb h (a_plans (get_agent W b))) as [r1|] eqn:E1; [|reflexivity]. apply (assoc_in _ pgroup_eqb_eq), R2 in E1.
          unfold get_plist. cbn. now rewrite app_nth1. }
      assert (HC : forall b, a_bel (get_agent (put_agent U a x) b) = a_bel (get_agent W b) /\ a_rules (get_agent (put_agent U a x) b) = a_rules (get_agent W b) /\ a_ints (get_agent (put_agent U a x) b) = a_ints (get_agent W b)).
      { intro b. destruct (Nat.eq_dec b a) as [->|N]; [rewrite HA; auto|rewrite HB by assumption; auto]. }
      split; [intros b g; unfold beliefs; now rewrite (proj1 (HC b))|]. split; [intro b; apply HC|]. split; [intro b; apply HC|].
      split; [reflexivity|]. now apply waits_refl. }
  destruct K as (K1 & K2 & K3 & K4 & K5 & K6 & K7 & K8). destruct HO1 as [_ [_ S3]].
  split; [|split; [|split; [|split; [|split; [|split]]]]].
  - intro h. rewrite <- K3. unfold plans_of. rewrite G'. cbn [filter].
    destruct (pgroup_eqb h (plan_group p)) eqn:Eh.
    + apply pgroup_eqb_eq in Eh. subst h. unfold pmap in K2. rewrite K2. unfold get_plist at 1, V'. cbn [w_plists set_plists]. now rewrite upd_same.
    + rewrite app_nil_r. destruct (assoc pgroup_eqb h (a_plans (get_agent V a))) as [r1|] eqn:E1; [|reflexivity]. unfold get_plist, V'. cbn [w_plists set_plists].
      rewrite upd_other; [reflexivity|]. intros ->. apply (assoc_in _ pgroup_eqb_eq) in E1, K2. destruct (S3 a a _ _ _ E1 K2) as [_ ->].
      rewrite (proj2 (pgroup_eqb_eq _ _) eq_refl) in Eh. discriminate.
  - intros b h N. rewrite <- K3. unfold plans_of. rewrite G'. destruct (assoc pgroup_eqb h (a_plans (get_agent V b))) as [r1|] eqn:E1; [|reflexivity]. unfold get_plist, V'. cbn [w_plists set_plists].
    rewrite upd_other; [reflexivity|]. intros ->. apply (assoc_in _ pgroup_eqb_eq) in E1, K2. destruct (S3 _ _ _ _ _ E1 K2). contradiction.
  - intros b g. rewrite <- K4. reflexivity.
  - intro b. now rewrite <- K5.
  - intro b. now rewrite <- K6.
  - exact K7.
  - exact K8.
Qed.
End WithPy.

Section Told.
Context {PY : Py}.
Variable m : nat.

Lemma tell_step a f s more annots st W r st' W' : own W -> (a < List.length (w_agents W))%nat ->
  (tell_how (FR := FrontText m) a (TLit f (TStr s :: more) annots) ;; mret true)%M (st, W) = (r, (st', W')) ->
  (exists p x, r = Ok true /\ read_plan m s = Ok p /\ built_from p x /\ gains a [x] W W' /\ own W' /\ st' = st /\ (forall b, b <> a -> pmap W' b = pmap W b) /\ List.length (w_agents W') = List.length (w_agents W)) \/
  (exists e, r = Err e /\ (st', W') = (st, W) /\ forall p, read_plan m s = Ok p -> exists k lg k', clause (build_plan stdlib_actions p) (log_new None) k = (Err e, lg, k')).
Proof.
  intros HO Ha Ex. unfold tell_how in Ex. unfold mbind at 1 in Ex. unfold mbind at 1 in Ex. cbn [lit_args] in Ex. unfold lift at 1 in Ex.
  unfold mbind at 1 in Ex. unfold arg at 1 in Ex. cbn [nth_error] in Ex. unfold mret at 1 in Ex. unfold mbind at 1 in Ex. unfold m_world at 1 in Ex.
  unfold mbind at 1 in Ex. cbn [snd fr_plan FrontText] in Ex. unfold lift at 1 in Ex. unfold text_plan in Ex.
  destruct (read_plan m s) as [p|e] eqn:Er.
  - destruct (clause (build_plan stdlib_actions p) (log_new None) (w_nv W)) as [[[x|e] lg] k'] eqn:Ec.
    + left. unfold mbind at 1 in Ex. unfold put_world, on_world in Ex. cbn [fst snd] in Ex.
      destruct (add_plan a x (st, set_nv W k')) as [r1 [st1 W1]] eqn:Ea.
      apply add_plan_gains in Ea as (-> & -> & HG & HO' & HM & HL); [| |exact Ha].
      * inversion Ex; subst. exists p, x. split; [reflexivity|]. split; [reflexivity|]. split; [now exists (w_nv W), lg, k'|]. split; [exact HG|]. split; [exact HO'|]. split; [reflexivity|]. split; [exact HM|exact HL].
      * destruct HO as [HO1 HO2]. split; assumption.
    + right. inversion Ex; subst. exists e. split; [reflexivity|]. split; [reflexivity|]. intros q [= <-]. now exists (w_nv W'), lg, k'.
  - right. inversion Ex; subst. exists e. split; [reflexivity|]. split; [reflexivity|]. discriminate.
Qed.

Lemma nudged_own W W' : nudged W W' -> own W -> own W'.
Proof. intros HN HO. eapply kept_own; [|exact HO]. apply id_kept; [apply HN|rewrite (nd_sets _ _ HN); lia|rewrite (nd_plists _ _ HN); lia]. Qed.

Theorem tell_call n a f s more annots ci d st W r st' W' : own W -> (a < List.length (w_agents W))%nat ->
  call (FR := FrontText m) n a TrAdd GtTellHow (TLit f (TStr s :: more) annots) ci d (st, W) = (r, (st', W')) ->
  (exists p x, r = Ok true /\ read_plan m s = Ok p /\ built_from p x /\ gains a [x] W W' /\ own W' /\ (forall b, b <> a -> pmap W' b = pmap W b) /\ List.length (w_agents W') = List.length (w_agents W)) \/
  (exists e, r = Err e /\ gains a [] W W' /\ own W').
Proof.
  intros HO Ha Ex. apply meta_call in Ex as (n' & [st1 W1] & HN & [(e & He & X)|Ex]); [| |reflexivity].
  - right. exists e. split; [assumption|]. injection X as -> ->. split; [now apply gains_nudged|now apply (nudged_own W)].
  - assert (Ha1 : (a < List.length (w_agents W1))%nat) by (cbn in HN; now rewrite (nd_agents _ _ HN)).
    apply tell_step in Ex; [|now apply (nudged_own W)|exact Ha1].
    destruct Ex as [(p & x & -> & H1 & H2 & H3 & H4 & _ & H5 & H6)|(e & -> & X & _)].
    + left. exists p, x. split; [reflexivity|]. split; [assumption|]. split; [assumption|]. cbn [snd] in HN. split.
      2:{ split; [assumption|]. split; [|now rewrite H6, (nd_agents _ _ HN)]. intros b N. rewrite H5 by exact N. unfold pmap. now rewrite (nudged_get _ _ b HN). }
      apply (gains_trans a [] [x] W W1 W'); [now apply gains_nudged|assumption].
    + right. exists e. injection X as -> ->. split; [reflexivity|]. split; [now apply gains_nudged|now apply (nudged_own W)].
Qed.

(** Being told a plan works, whatever is going on. *)
Lemma quiet_wakes n tr gt fz stacks : (gt = GtTellHow \/ gt = GtAskHow) -> forall st W, no_how_waits W ->
  wake n tr gt fz stacks (st, W) = (Ok tt, (st, W)).
Proof.
  intros Hg st W HW. induction stacks as [|[|i rest] ss IH]; [reflexivity|exact IH|]. cbn [wake]. unfold mbind at 1, m_world at 1. cbn [snd].
  unfold mbind at 1, lift at 1. replace (wakes n tr gt fz (get_int W i)) with (@Ok bool false); [exact IH|].
  unfold wakes. destruct (i_wait (get_int W i)) as [[[ev|] u]|] eqn:E; try reflexivity.
  destruct (HW i _ ev E eq_refl) as [H1 H2]. destruct (ev_gt ev), Hg; subst gt; try contradiction; now rewrite ?andb_false_r.
Qed.
Lemma freeze_message n s from sc mm : from = [] \/ (exists name, from = [source name]) ->
  exists from', freeze (S (S (S n))) (how_message s from) sc mm = (Ok (how_message s from'), mm).
Proof.
  intros Hf. unfold how_message. rewrite freeze_S. cbn [smapl]. rewrite freeze_S. cbn [smapl].
  destruct Hf as [->|[name ->]]; [cbn [smapl]; eexists; reflexivity|]. unfold source. cbn [smapl]. rewrite freeze_S. cbn [smapl]. rewrite freeze_S. cbn [smapl].
  eexists. reflexivity.
Qed.

Theorem tell_works n a s from p ci d st W : own W -> (a < List.length (w_agents W))%nat -> no_how_waits W ->
  from = [] \/ (exists name, from = [source name]) -> (4 <= n)%nat ->
  read_plan m s = Ok p -> buildable p ->
  exists x W', call (FR := FrontText m) n a TrAdd GtTellHow (how_message s from) ci d (st, W) = (Ok true, (st, W')) /\
    built_from p x /\ gains a [x] W W'.
Proof.
  intros HO Ha HW Hf Hn Hr Hb. destruct n as [|[|[|[|n]]]]; try lia.
  destruct (freeze_message n s from (b_scope st) (([] : memo), w_nv W) Hf) as (from' & Ef).
  destruct (call (FR := FrontText m) (S (S (S (S n)))) a TrAdd GtTellHow (how_message s from) ci d (st, W)) as [r [st' W']] eqn:Ex.
  assert (Ex' := Ex). change (call_body (FR := FrontText m) (engine (FR := FrontText m) (S (S (S n)))) (S (S (S n))) a TrAdd GtTellHow (how_message s from) ci d (st, W) = (r, (st', W'))) in Ex'.
  unfold call_body, call_event in Ex'. unfold mbind at 1, m_freeze at 1 in Ex'. cbn [fst snd] in Ex'. rewrite Ef in Ex'. cbn [fst snd] in Ex'.
  replace (set_nv W (w_nv W)) with W in Ex' by now destruct W. unfold how_message at 1 in Ex'.
  unfold mbind at 1, m_world at 1 in Ex'. cbn [snd] in Ex'. unfold mbind at 1 in Ex'.
  rewrite quiet_wakes in Ex' by auto.
  apply tell_step in Ex' as [(p' & x & -> & H1 & H2 & H3 & _ & -> & _)|(e & -> & _ & H)]; [| |exact HO|exact Ha].
  - assert (p' = p) by congruence. subst p'. exists x, W'. auto.
  - destruct (H p Hr) as (k & lg & k' & E). destruct (Hb k) as (x & lg' & k1 & E'). congruence.
Qed.
End Told.
