(** Reachable states are reached by elementary effects. *)
From Verif Require Import Base Num Term Unify TrailFacts FuelFacts Str World Engine FuelEngine Effects NvFacts EffFacts Step Ast Names Build QuerySpec Reach.

(** Elements left out. *)
Inductive sub_list {A} : list A -> list A -> Prop :=
| sub_nil : sub_list [] []
| sub_skip x l l' : sub_list l l' -> sub_list l (x :: l')
| sub_keep x l l' : sub_list l l' -> sub_list (x :: l) (x :: l').
Lemma sub_refl {A} (l : list A) : sub_list l l.
Proof. induction l; [apply sub_nil|now apply sub_keep]. Qed.
Lemma sub_in {A} (l l' : list A) x : sub_list l l' -> In x l -> In x l'.
Proof. induction 1; cbn; intro H'; auto. destruct H'; auto. Qed.
Lemma sub_nodup {A} (l l' : list A) : sub_list l l' -> NoDup l' -> NoDup l.
Proof.
  induction 1; intro H'; [constructor|inversion H'; auto|]. inversion H'; subst. constructor; auto. intro. apply H2. eapply sub_in; eassumption.
Qed.
Lemma sub_app {A} (a b c d : list A) : sub_list a b -> sub_list c d -> sub_list (a ++ c) (b ++ d).
Proof. induction 1; intro H'; cbn; [exact H'|apply sub_skip; auto|apply sub_keep; auto]. Qed.
Lemma sub_drop {A} (a l : list A) : sub_list l (a ++ l).
Proof. induction a; cbn; [apply sub_refl|now constructor]. Qed.

Section WithPy.
Context {PY : Py} {FR : Front}.
Variable Pp : plan -> Prop.

(** Whether agents may be copies of others (only build_agents makes them). *)
Variable cp : bool.

(** Effects of building and stepping. *)
Inductive geff (W : world) : world -> Prop :=
| g_eff lo cur W' : eff Pp lo cur W W' -> geff W W'
| g_agent name : geff W (set_agents W (w_agents W ++ [empty_agent name]))
| g_copy name p : cp = true -> (p < List.length (w_agents W))%nat ->
    geff W (set_agents W (w_agents W ++
      [mkagent name (a_bel (get_agent W p)) (a_rules (get_agent W p)) (a_plans (get_agent W p)) []]))
| g_rules a l : geff W (put_agent W a (set_a_rules (get_agent W a) l))
| g_env name a : (a < List.length (w_agents W))%nat -> geff W (set_env W (w_env W ++ [(name, a)]))
| g_int i x : geff W (put_int W i x)
| g_ints a l : sub_list (List.concat l) (List.concat (a_ints (get_agent W a))) ->
    geff W (put_agent W a (set_a_ints (get_agent W a) l)).

Inductive geffs (W : world) : world -> Prop :=
| geffs_nil : geffs W W
| geffs_cons W1 W2 : geff W W1 -> geffs W1 W2 -> geffs W W2.

Lemma geffs_app W1 W2 W3 : geffs W1 W2 -> geffs W2 W3 -> geffs W1 W3.
Proof. intros H1 H2. induction H1; [exact H2|]. econstructor; eauto. Qed.
Lemma geffs_one W1 W2 : geff W1 W2 -> geffs W1 W2.
Proof. intro. econstructor; [eassumption|constructor]. Qed.
Lemma geffs_snoc W1 W2 W3 : geffs W1 W2 -> geff W2 W3 -> geffs W1 W3.
Proof. intros H1 H2. eapply geffs_app; [exact H1|]. now apply geffs_one. Qed.
Lemma effs_geffs lo cur W W' : effs Pp lo cur W W' -> geffs W W'.
Proof. intro H. induction H; [constructor|]. econstructor; [eapply g_eff; eassumption|assumption]. Qed.
Lemma geffs_ind_inv (P : world -> Prop) W W' : (forall A B, geff A B -> P A -> P B) -> geffs W W' -> P W -> P W'.
Proof. intros H HG. induction HG; eauto. Qed.

Hypothesis Pargs : forall p names, Pp p -> Pp (set_p_args p names).
Hypothesis Pfront : forall s k p k', fr_plan s k = Ok (p, k') -> Pp p.

(** What holds in all reachable states and is needed to run. *)
Definition sane (W : world) : Prop := plans_ok Pp W /\ env_ok (List.length (w_agents W)) W /\ bounded W.

Lemma sane_ready W : sane W -> ready Pp (List.length (w_agents W)) (List.length (w_ints W)) W.
Proof. intros (H1 & H2 & H3). split; [lia|]. now split. Qed.

Lemma geff_bounded W W' : geff W W' -> bounded W -> bounded W'.
Proof.
  intros H HB. destruct H.
  - eapply eff_bounded; eassumption.
  - intros b i. unfold get_agent. cbn. destruct (Nat.lt_ge_cases b (List.length (w_agents W))) as [L|L].
    + rewrite app_nth1 by exact L. apply HB.
    + rewrite app_nth2 by exact L. destruct (b - List.length (w_agents W))%nat as [|[|]]; intros [].
  - intros b i. unfold get_agent. cbn. destruct (Nat.lt_ge_cases b (List.length (w_agents W))) as [L|L].
    + rewrite app_nth1 by exact L. apply HB.
    + rewrite app_nth2 by exact L. destruct (b - List.length (w_agents W))%nat as [|[|]]; intros [].
  - intros b i. rewrite get_put. destruct (Nat.eqb_spec a b) as [<-|]; [|apply HB]. destruct (Nat.ltb _ _); [apply HB|intros []].
  - exact HB.
  - intros b j Hj. cbn. rewrite upd_length. now apply (HB b).
  - intros b i. rewrite get_put. destruct (Nat.eqb_spec a b) as [<-|]; [|apply HB]. destruct (Nat.ltb _ _); [|intros []].
    intro Hi. apply (HB a). eapply sub_in; [exact H|exact Hi].
Qed.

Lemma geff_sane W W' : geff W W' -> sane W -> sane W'.
Proof.
  intros H (H1 & [H2 H3] & H4). unfold sane. enough (plans_ok Pp W' /\ env_ok (List.length (w_agents W')) W') by (split; [tauto|]; split; [tauto|]; eapply geff_bounded; eassumption). clear H4. unfold env_ok. destruct H; cbn.
  - rewrite (eff_env _ _ _ _ _ H), (eff_agents _ _ _ _ _ H). split; [eapply eff_plans; eauto|]. now split.
  - split; [exact H1|]. split; [reflexivity|]. intros x Hx. apply H3 in Hx. rewrite app_length. lia.
  - split; [exact H1|]. split; [reflexivity|]. intros x Hx. apply H3 in Hx. rewrite app_length. lia.
  - split; [exact H1|]. split; [reflexivity|]. rewrite upd_length. exact H3.
  - split; [exact H1|]. split; [reflexivity|]. intros x Hx. apply in_app_iff in Hx as [Hx|[<-|[]]]; auto.
  - split; [exact H1|]. split; [reflexivity|]. exact H3.
  - split; [exact H1|]. split; [reflexivity|]. rewrite upd_length. exact H3.
Qed.
Lemma geffs_sane W W' : geffs W W' -> sane W -> sane W'.
Proof. apply geffs_ind_inv. intros A B. apply geff_sane. Qed.
Lemma sane0 : sane world0.
Proof. split; [intros [|[]]; constructor|]. split; [split; [reflexivity|intros x []]|]. intros [|[]] i []. Qed.

Lemma geffs_agents W W' : geffs W W' -> (List.length (w_agents W) <= List.length (w_agents W'))%nat.
Proof.
  intro H. induction H; [lia|]. enough (List.length (w_agents W) <= List.length (w_agents W1))%nat by lia. clear - H.
  destruct H; cbn; rewrite ?upd_length, ?app_length; try lia. rewrite (eff_agents _ _ _ _ _ H). auto.
Qed.

(** ** Steps *)
Lemma g_call n a tr gt t ci d s r s' : sane (snd s) -> (a < List.length (w_agents (snd s)))%nat ->
  call n a tr gt t ci d s = (r, s') -> geffs (snd s) (snd s').
Proof.
  intros HS Ha E. destruct (engine_does Pp Pargs Pfront (List.length (w_agents (snd s))) n (List.length (w_ints (snd s)))) as (_ & HC & _).
  eapply effs_geffs. eapply HC; [exact Ha| |exact E]. now apply sane_ready.
Qed.
Lemma g_resume n a i g s r s' : sane (snd s) -> (a < List.length (w_agents (snd s)))%nat ->
  resume n a i g s = (r, s') -> geffs (snd s) (snd s').
Proof.
  intros HS Ha E. destruct (engine_does Pp Pargs Pfront (List.length (w_agents (snd s))) n (List.length (w_ints (snd s)))) as (HC & _).
  eapply effs_geffs. eapply HC; [exact Ha| |exact E]. now apply sane_ready.
Qed.

Lemma g_outside n a tr gt t d W r W' : sane W -> (a < List.length (w_agents W))%nat ->
  outside_call n a tr gt t d W = (r, W') -> geffs W W'.
Proof.
  intros HS Ha E. unfold outside_call, with_new in E. cbn in E.
  destruct (call n a tr gt t (List.length (w_ints W)) d _) as [x s2] eqn:Ec. inversion E; subst. cbn.
  eapply geffs_cons; [eapply (g_eff _ 0%nat 0%nat), ef_new|]. apply g_call in Ec; [exact Ec| |exact Ha]. eapply geff_sane; [eapply (g_eff _ 0%nat 0%nat), ef_new|exact HS].
Qed.

Lemma g_exec n a i op st W r s' : sane W -> (a < List.length (w_agents W))%nat ->
  exec_op n a i op (st, W) = (r, s') -> geffs W (snd s').
Proof.
  intros HS Ha E. destruct op; cbn [exec_op] in E.
  - inversion E; subst. constructor.
  - apply g_call in E; auto.
  - inversion E; subst. apply geffs_one. apply g_int.
  - unfold next_or_fail in E. cbn [snd fst] in E. destruct (i_qs (get_int W i)) as [|g gs]; [inversion E; subst; constructor|].
    destruct (resume n a i g (st, W)) as [x s2] eqn:Er. apply g_resume in Er; auto. cbn in Er.
    destruct x as [[g'|]|e]; inversion E; subst; cbn; (eapply geffs_snoc; [exact Er|apply g_int]).
  - unfold mbind in E. cbn [m_world snd] in E. destruct (i_qs (get_int W i)) as [|g gs]; inversion E; subst; [constructor|apply geffs_one, g_int].
  - inversion E; subst. apply geffs_one. apply g_int.
  - unfold mbind in E. cbn [m_world snd] in E. destruct (i_cps (get_int W i)) as [|g gs]; inversion E; subst; [constructor|apply geffs_one, g_int].
Qed.

Lemma g_pick stacks : forall pos W x W', pick stacks pos W = (x, W') -> geffs W W'.
Proof.
  induction stacks as [|[|i rest] stacks IH]; intros pos W x W' E; cbn in E.
  - inversion E; subst. constructor.
  - eauto.
  - destruct (i_wait (get_int W i)) as [w|]; [|inversion E; subst; constructor].
    destruct (poll w W) as [due W1] eqn:Ep.
    assert (HP : geffs W W1).
    { unfold poll in Ep. destruct (wt_until w); inversion Ep; subst; [|constructor]. apply geffs_one. eapply (g_eff _ 0%nat 0%nat), ef_reads. lia. }
    destruct due; [inversion E; subst; eapply geffs_snoc; [exact HP|apply g_int]|].
    eapply geffs_app; [exact HP|eauto].
Qed.
Lemma drop_empty_concat l : List.concat (drop_empty l) = List.concat l.
Proof. induction l as [|[|] l IH]; cbn; auto. Qed.
Lemma remove_empty_concat l : List.concat (remove_empty l) = List.concat l.
Proof. induction l as [|[|x s] l IH]; cbn; auto. cbn. now rewrite IH. Qed.
Lemma tl_sub l : forall pos, sub_list (List.concat (upd l pos (List.tl (nth pos l [])))) (List.concat (l : list (list nat))).
Proof.
  induction l as [|s l IH]; intros [|pos]; cbn; try apply sub_nil.
  - apply sub_app; [|apply sub_refl]. destruct s; cbn; [apply sub_nil|]. apply sub_skip, sub_refl.
  - apply sub_app; [apply sub_refl|apply IH].
Qed.
Lemma g_finish n a pos i W x W' : finish n a pos i W = (x, W') -> geffs W W'.
Proof.
  unfold finish. intro E. pose proof (tl_sub (a_ints (get_agent W a)) pos) as HT. destruct (List.tl _) as [|c rest].
  - inversion E; subst. apply geffs_one, g_ints. now rewrite remove_empty_concat.
  - cbv zeta in E. set (W1 := put_agent W a _) in *.
    assert (H1 : geffs W W1) by (apply geffs_one, g_ints; exact HT).
    destruct (i_call (get_int W1 i)); [|inversion E; subst; exact H1].
    destruct (i_head (get_int W1 i)); [|inversion E; subst; exact H1].
    destruct (freeze n _ _ _) as [[fz|e] [mm k]] eqn:Ez; apply nv_freeze in Ez; cbn [fst snd] in E.
    + set (W2 := set_nv W1 k) in *. assert (H2 : geffs W W2) by (eapply geffs_snoc; [exact H1|eapply (g_eff _ 0%nat 0%nat), ef_nv; intros _; exact Ez]).
      destruct (unify n _ fz _) as [r st']. assert (H3 := geffs_snoc _ _ _ H2 (g_int _ c (set_i_bst (get_int W2 c) st'))).
      destruct r as [[]|]; inversion E; subst; exact H3.
    + inversion E; subst. eapply geffs_snoc; [exact H1|]. eapply (g_eff _ 0%nat 0%nat), ef_nv. intros _. exact Ez.
Qed.
Lemma g_run_instr n a i W x W' : sane W -> (a < List.length (w_agents W))%nat -> run_instr n a i W = (x, W') -> geffs W W'.
Proof.
  intros HS Ha E. unfold run_instr in E. destruct (i_pc _) as [pc|]; [|inversion E; subst; constructor].
  destruct (nth_error _ pc) as [ins|]; [|inversion E; subst; constructor].
  destruct (exec_op n a i (in_op ins) _) as [r [st' W1]] eqn:Ex. apply g_exec in Ex; auto. cbn in Ex.
  assert (H2 := geffs_snoc _ _ _ Ex (g_int _ i (set_i_bst (get_int W1 i) st'))).
  destruct r as [[]|e]; [| |inversion E; subst; exact H2].
  - inversion E; subst. eapply geffs_snoc; [exact H2|apply g_int].
  - destruct (in_fail ins); inversion E; subst; (eapply geffs_snoc; [exact H2|apply g_int]).
Qed.
Lemma g_step n a W x W' : sane W -> (a < List.length (w_agents W))%nat -> step n a W = (x, W') -> geffs W W'.
Proof.
  intros HS Ha E. unfold step in E. cbv zeta in E. set (W0 := put_agent W a _) in *.
  assert (H0 : geffs W W0) by (apply geffs_one, g_ints; rewrite drop_empty_concat; apply sub_refl).
  destruct (pick _ 0 W0) as [o W1] eqn:Ep. apply g_pick in Ep. assert (H1 := geffs_app _ _ _ H0 Ep).
  destruct o as [[pos i]|]; [|inversion E; subst; exact H1].
  destruct (i_pc (get_int W1 i)).
  - assert (HS1 := geffs_sane _ _ H1 HS). apply g_run_instr in E; auto; [eapply geffs_app; eassumption|].
    apply geffs_agents in H1. lia.
  - apply g_finish in E. eapply geffs_app; eassumption.
Qed.

(** ** Building *)
Hypothesis Pbuild : forall acts p l k x l' k', clause (build_plan acts p) l k = (Ok x, l', k') -> Pp x.

Lemma g_nv W k : (w_nv W <= k)%N -> geffs W (set_nv W k).
Proof. intro H. apply geffs_one. eapply (g_eff _ 0%nat 0%nat), ef_nv. auto. Qed.

Definition item_ok {A} (a : nat) (f : A -> log -> world -> res unit * log * world) : Prop :=
  forall x l W r l' W', sane W -> (a < List.length (w_agents W))%nat -> f x l W = (r, l', W') -> geffs W W'.
Lemma g_wfor {A} a (f : A -> log -> world -> res unit * log * world) items : item_ok a f ->
  forall l W r l' W', sane W -> (a < List.length (w_agents W))%nat -> wfor f items l W = (r, l', W') -> geffs W W'.
Proof.
  intro H. induction items as [|x items IH]; intros l W r l' W' HS Ha E; cbn in E.
  - inversion E; subst. constructor.
  - destruct (f x l W) as [[[u|e] l1] W1] eqn:Ef; apply H in Ef; auto; [|inversion E; subst; exact Ef].
    eapply geffs_app; [exact Ef|]. eapply IH; [| |exact E].
    + eapply geffs_sane; eauto.
    + apply geffs_agents in Ef. lia.
Qed.
Lemma g_install_rule acts a : item_ok a (install_rule acts a).
Proof.
  intros x l W r l' W' HS Ha E. unfold install_rule in E. destruct (clause _ l _) as [[[y|e] l1] k] eqn:Ec; assert (HK := ngrows_clause _ _ _ _ _ _ (ngrows_rule _ _) Ec); inversion E; subst.
  - eapply geffs_app; [apply g_nv, HK|]. apply geffs_one. apply (g_rules (set_nv W k) a).
  - apply g_nv, HK.
Qed.
Lemma g_install_plan acts a : item_ok a (install_plan acts a).
Proof.
  intros x l W r l' W' HS Ha E. unfold install_plan in E. destruct (clause _ l _) as [[[y|e] l1] k] eqn:Ec; assert (HK := ngrows_clause _ _ _ _ _ _ (ngrows_plan _ _) Ec).
  - destruct (add_plan a y (bst0, set_nv W k)) as [r1 [st W1]] eqn:Ep. inversion E; subst.
    eapply geffs_app; [apply g_nv, HK|]. eapply effs_geffs.
    eapply (does_add_plan Pp Pargs (List.length (w_agents W)) 0 0) in Ep; [exact Ep| |].
    + eapply Pbuild, Ec.
    + destruct HS as (H1 & H2 & H3). split; [cbn; lia|]. split; [exact H1|]. split; [exact H2|exact H3].
  - inversion E; subst. apply g_nv, HK.
Qed.
Lemma g_install_event n a gt : item_ok a (install_event n a gt).
Proof.
  intros x l W r l' W' HS Ha E. unfold install_event in E. destruct (clause _ l _) as [[[[[f args] annots]|e] l1] k] eqn:Ec; assert (HK := ngrows_clause _ _ _ _ _ _ (ngrows_lit _) Ec).
  - pose proof (g_outside n a TrAdd gt (TLit f args annots) true (set_nv W k)) as HO. unfold outside_call in HO.
    destruct (with_new _ (bst0, set_nv W k)) as [r1 [st W1]] eqn:Ep. inversion E; subst.
    eapply geffs_app; [apply g_nv, HK|]. eapply HO; [exact HS|exact Ha|reflexivity].
  - inversion E; subst. apply g_nv, HK.
Qed.

Lemma g_build n acts path g W r W' : sane W -> build_agent_from_ast n acts path g W = (r, W') -> geffs W W'.
Proof.
  intros HS E. unfold build_agent_from_ast in E. destruct (make_name _ _) as [name|e]; [|inversion E; subst; constructor].
  cbv zeta in E. set (W0 := set_agents W _) in *. set (a := List.length (w_agents W)) in *.
  assert (H0 : geffs W W0) by apply geffs_one, g_agent.
  assert (HA : forall V, geffs W0 V -> (a < List.length (w_agents V))%nat).
  { intros V HV. apply geffs_agents in HV. unfold W0 in HV. cbn in HV. rewrite app_length in HV. cbn in HV. unfold a. lia. }
  assert (HSV : forall V, geffs W V -> sane V) by (intros V HV; eapply geffs_sane; eauto).
  assert (HB : forall V, geffs W0 V -> geffs W V) by (intros; eapply geffs_app; eauto).
  assert (HN : geffs W0 W0) by constructor.
  destruct (wfor (install_rule acts a) _ _ W0) as [[[u1|e] l1] W1] eqn:E1; apply (g_wfor a) in E1; auto using g_install_rule;
    [|inversion E; subst; auto].
  destruct (wfor (install_plan acts a) _ _ W1) as [[[u2|e] l2] W2] eqn:E2; apply (g_wfor a) in E2; auto using g_install_plan;
    [|inversion E; subst; eauto using geffs_app]. assert (H2 := geffs_app _ _ _ E1 E2).
  destruct (wfor (install_event n a GtBelief) _ _ W2) as [[[u3|e] l3] W3] eqn:E3; apply (g_wfor a) in E3; auto using g_install_event;
    [|inversion E; subst; eauto using geffs_app]. assert (H3 := geffs_app _ _ _ H2 E3).
  destruct (wfor (install_event n a GtAchieve) _ _ W3) as [[[u4|e] l4] W4] eqn:E4; apply (g_wfor a) in E4; auto using g_install_event;
    [|inversion E; subst; eauto using geffs_app]. assert (H4 := geffs_app _ _ _ H3 E4).
  destruct (log_throw l4); inversion E; subst; auto. eapply geffs_snoc; [apply HB, H4|]. apply g_env. auto.
Qed.
Lemma build_agent_range n acts path g W a W' : sane W -> build_agent_from_ast n acts path g W = (Ok a, W') ->
  a = List.length (w_agents W) /\ (a < List.length (w_agents W'))%nat.
Proof.
  intros HS E. unfold build_agent_from_ast in E. destruct (make_name _ _) as [name|e]; [|inversion E; subst; constructor].
  cbv zeta in E. set (W0 := set_agents W _) in *. set (b := List.length (w_agents W)) in *.
  assert (H0 : geffs W W0) by apply geffs_one, g_agent.
  assert (HA : forall V, geffs W0 V -> (b < List.length (w_agents V))%nat).
  { intros V HV. apply geffs_agents in HV. unfold W0 in HV. cbn in HV. rewrite app_length in HV. cbn in HV. unfold b. lia. }
  assert (HSV : forall V, geffs W V -> sane V) by (intros V HV; eapply geffs_sane; eauto).
  assert (HB : forall V, geffs W0 V -> geffs W V) by (intros; eapply geffs_app; eauto).
  assert (HN : geffs W0 W0) by constructor.
  destruct (wfor (install_rule acts b) _ _ W0) as [[[u1|e] l1] W1] eqn:E1; apply (g_wfor b) in E1; auto using g_install_rule; [|discriminate].
  destruct (wfor (install_plan acts b) _ _ W1) as [[[u2|e] l2] W2] eqn:E2; apply (g_wfor b) in E2; auto using g_install_plan; [|discriminate].
  assert (H2 := geffs_app _ _ _ E1 E2).
  destruct (wfor (install_event n b GtBelief) _ _ W2) as [[[u3|e] l3] W3] eqn:E3; apply (g_wfor b) in E3; auto using g_install_event; [|discriminate].
  assert (H3 := geffs_app _ _ _ H2 E3).
  destruct (wfor (install_event n b GtAchieve) _ _ W3) as [[[u4|e] l4] W4] eqn:E4; apply (g_wfor b) in E4; auto using g_install_event; [|discriminate].
  assert (H4 := geffs_app _ _ _ H3 E4).
  destruct (log_throw l4); inversion E; subst. split; [reflexivity|]. cbn. auto.
Qed.
Lemma g_copies n count path proto g : cp = true -> forall W r W', sane W -> (proto < List.length (w_agents W))%nat ->
  build_copies n count path proto g W = (r, W') -> geffs W W'.
Proof.
  intro Hcp. induction count as [|count IH]; intros W r W' HS Hp E; cbn in E; [inversion E; subst; constructor|].
  destruct (make_name _ _) as [name|e]; [|inversion E; subst; constructor].
  set (a := List.length (w_agents W)) in *. set (W0 := set_agents W _) in *.
  assert (H0 : geffs W W0) by (now apply geffs_one, g_copy).
  assert (HS0 := geffs_sane _ _ H0 HS).
  assert (Ha : (a < List.length (w_agents W0))%nat). { unfold W0. cbn. rewrite app_length. cbn. unfold a. lia. }
  destruct (wfor (install_event n a GtAchieve) _ _ W0) as [[[u|e] l1] W1] eqn:E1; apply (g_wfor a) in E1; auto using g_install_event;
    [|inversion E; subst; eauto using geffs_app].
  assert (H1 := geffs_app _ _ _ H0 E1).
  assert (Ha1 : (a < List.length (w_agents W1))%nat) by (apply geffs_agents in E1; lia).
  assert (H2 := geffs_snoc _ _ _ H1 (g_env _ name a Ha1)).
  destruct (build_copies n count path proto g _) as [[as_|e] W2] eqn:E2; apply IH in E2;
    try (inversion E; subst; eapply geffs_app; eassumption); try (eapply geffs_sane; eassumption);
    apply geffs_agents in H2; cbn in *; lia.
Qed.
Lemma g_builds n acts src name count g W r W' : cp = true -> sane W -> build_agents n acts src name count g W = (r, W') -> geffs W W'.
Proof.
  intros Hcp HS E. destruct count as [|count]; cbn in E; [inversion E; subst; constructor|].
  destruct (build_agent_from_ast _ _ _ _ _) as [[p|e] W1] eqn:E1; [|inversion E; subst; eapply g_build; eassumption].
  pose proof (build_agent_range _ _ _ _ _ _ _ HS E1) as [_ Hp]. apply g_build in E1; auto.
  destruct (build_copies _ _ _ _ _ _) as [[as_|e] W2] eqn:E2; apply g_copies in E2; auto;
    try (inversion E; subst; eapply geffs_app; eassumption); eapply geffs_sane; eassumption.
Qed.

End WithPy.

Section Reachable.
Context {PY : Py} {FR : Front}.
Variable Pp : plan -> Prop.
Hypothesis Pargs : forall p names, Pp p -> Pp (set_p_args p names).
Hypothesis Pfront : forall s k p k', fr_plan s k = Ok (p, k') -> Pp p.
Hypothesis Pbuild : forall acts p l k x l' k', clause (build_plan acts p) l k = (Ok x, l', k') -> Pp x.

Theorem reach_geffs W : reach W -> geffs Pp true world0 W.
Proof.
  intro H. induction H.
  - constructor.
  - eapply geffs_app; [exact IHreach|]. eapply g_build; eauto. eapply geffs_sane; [|exact IHreach|apply sane0]; auto.
  - eapply geffs_app; [exact IHreach|]. eapply g_builds; eauto. eapply geffs_sane; [|exact IHreach|apply sane0]; auto.
  - eapply geffs_app; [exact IHreach|]. eapply g_step; eauto. eapply geffs_sane; [|exact IHreach|apply sane0]; auto.
  - eapply geffs_app; [exact IHreach|]. eapply g_outside; eauto. eapply geffs_sane; [|exact IHreach|apply sane0]; auto.
Qed.
Theorem reach_sane W : reach W -> sane Pp W.
Proof. intro H. eapply geffs_sane; [|apply reach_geffs, H|apply sane0]; auto. Qed.

Lemma single_reach W : single W -> reach W.
Proof. intro H. induction H; [apply rc_env|eapply rc_build; eauto|eapply rc_step; eauto|eapply rc_call; eauto]. Qed.
Theorem single_geffs W : single W -> geffs Pp false world0 W.
Proof.
  intro H. induction H.
  - constructor.
  - eapply geffs_app; [exact IHsingle|]. eapply g_build; eauto. apply reach_sane, single_reach, H.
  - eapply geffs_app; [exact IHsingle|]. eapply g_step; eauto. apply reach_sane, single_reach, H.
  - eapply geffs_app; [exact IHsingle|]. eapply g_outside; eauto. apply reach_sane, single_reach, H.
Qed.
End Reachable.
