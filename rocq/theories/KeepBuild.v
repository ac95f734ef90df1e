(** Programs that leave beliefs of a kind alone build agents that do. *)
From Verif Require Import Base Num Term Unify Str World Engine Step Ast Names Build QuerySpec Reach
  BelSpec PlanSpec QueryBase EventFacts NamesFacts KeepSpec KeepFacts.

Section Group.
Variable g : group.

Section WithPy.
Context {PY : Py} {FR : Front}.

(** ** Terms, queries, bodies *)
Definition bpost {A} (Q : A -> Prop) (m : B A) : Prop := forall s x s', m s = (Ok x, s') -> Q x.
Lemma bp_bind {A C} P Q (m : B A) (k : A -> B C) : bpost P m -> (forall x, P x -> bpost Q (k x)) -> bpost Q (bbind m k).
Proof. intros H1 H2 s x s' E. unfold bbind in E. destruct (m s) as [[y|e] s1] eqn:Em; [|discriminate]. eapply H2; [eapply H1, Em|exact E]. Qed.
Lemma bp_any {A C} Q (m : B A) (k : A -> B C) : (forall x, bpost Q (k x)) -> bpost Q (bbind m k).
Proof. intro H. apply bp_bind with (P := fun _ => True); [now intros|]. intros x _. apply H. Qed.
Lemma bp_ret {A} (Q : A -> Prop) x : Q x -> bpost Q (bret x).
Proof. intros H s y s' E. inversion E; now subst. Qed.
Lemma bp_fail {A} (Q : A -> Prop) e : bpost Q (bfail e).
Proof. intros s y s' E. inversion E. Qed.
Lemma bp_raise {A} (Q : A -> Prop) : bpost Q b_raise.
Proof. intros s y s' E. unfold b_raise in E. destruct (log_error _). inversion E. Qed.
Lemma Forall2_len {A C} (R : A -> C -> Prop) l l' : Forall2 R l l' -> List.length l = List.length l'.
Proof. induction 1; cbn; auto. Qed.
Definition built (pat : bool) (t : ast) (x : term) : Prop := exists s s', build_term pat t s = (Ok x, s').
Lemma bp_built pat t : bpost (built pat t) (build_term pat t).
Proof. intros s x s' E. now exists s, s'. Qed.
Lemma bp_mapl pat l : bpost (Forall2 (built pat) l) (bmapl (build_term pat) l).
Proof.
  induction l as [|x l IH]; cbn; [now apply bp_ret|]. eapply bp_bind; [apply bp_built|intros y Hy].
  eapply bp_bind; [exact IH|]. intros ys H. apply bp_ret. now constructor.
Qed.
Lemma built_lit pat f ts an x : built pat (ALit f ts an) x -> exists args annots, x = TLit f args annots /\ Forall2 (built pat) ts args.
Proof.
  intros (s & s' & E). revert E. cbn [build_term]. revert s x s'. eapply bp_bind; [apply bp_mapl|intros args H].
  apply bp_any; intro annots. apply bp_ret. eauto.
Qed.
Lemma built_other pat t x : other g t -> built pat t x -> other_term g x.
Proof.
  destruct t; try contradiction. intros H Hb. apply built_lit in Hb as (args & an & -> & HF). cbn in *. now rewrite <- (Forall2_len _ _ _ HF).
Qed.
Lemma bp_other pat t : other g t -> bpost (other_term g) (build_term pat t).
Proof. intros H s x s' E. apply (built_other pat t); [exact H|now exists s, s']. Qed.
Lemma bp_pattern t : other g t -> bpost (other_term g) (build_pattern t).
Proof.
  intros H s x s' E. unfold build_pattern in E. destruct (build_term true t _) as [r s1] eqn:Eb. inversion E; subst. eapply bp_other; eassumption.
Qed.
Lemma built_message force msg x y : message_spares g force msg -> built false force x -> built false msg y -> message_quiet g x y.
Proof.
  intros H Hx Hy. destruct force as [| | | |f [|]| | | |]; try contradiction. apply built_lit in Hx as (args & an & -> & HF). inversion HF; subst.
  destruct H as [H|[H H']]; [now left|right]. split; [exact H|]. eapply built_other; eassumption.
Qed.
Lemma built_act f ts an ac x : action_spares g ac ts -> built false (ALit f ts an) x -> act_quiet g ac x.
Proof.
  intros H Hx. destruct ac; try exact I; apply built_lit in Hx as (args & an' & -> & HF); cbn in H |- *.
  - destruct ts as [|t1 [|t2 [|]]]; try contradiction. inversion HF as [|? ? ? ? H1 HF1]; subst. inversion HF1 as [|? ? ? ? H2 HF2]; subst.
    inversion HF2; subst. eapply built_message; eassumption.
  - destruct ts as [|t1 [|t2 [|t3 [|]]]]; try contradiction. inversion HF as [|? ? ? ? H1 HF1]; subst. inversion HF1 as [|? ? ? ? H2 HF2]; subst.
    inversion HF2 as [|? ? ? ? H3 HF3]; subst. inversion HF3; subst. eapply built_message; eassumption.
  - destruct ts as [|t1 [|]]; try contradiction. inversion HF as [|? ? ? ? H1 HF1]; subst. inversion HF1; subst. eapply built_other; eassumption.
Qed.
Lemma bp_query acts t : condition_spares g acts t -> bpost (quiet g) (build_query acts t).
Proof.
  induction t as [b|x|x|x|f ts an IH1 IH2|ts IH|h t IH1 IH2|op a IH|op l r IHl IHr] using ast_ind'; intro H; cbn [build_query].
  - destruct b; now apply bp_ret.
  - apply bp_raise.
  - apply bp_raise.
  - apply bp_any; intro. now apply bp_ret.
  - eapply bp_bind; [apply bp_built|intros x Hx]. cbn in H. destruct (actions_lookup _ _ _); [apply bp_ret; eapply built_act; eassumption|].
    apply bp_any; intro. now apply bp_ret.
  - apply bp_fail.
  - apply bp_fail.
  - destruct op; try apply bp_fail. eapply bp_bind; [apply IH, H|intros x Hx]. now apply bp_ret.
  - destruct op; try (apply bp_any; intro; apply bp_any; intro; now apply bp_ret).
    + destruct H as [H1 H2]. eapply bp_bind; [apply IHl, H1|intros x Hx]. eapply bp_bind; [apply IHr, H2|intros y Hy]. now apply bp_ret.
    + destruct H as [H1 H2]. eapply bp_bind; [apply IHl, H1|intros x Hx]. eapply bp_bind; [apply IHr, H2|intros y Hy]. now apply bp_ret.
Qed.

Lemma Forall_upd {A} (P : A -> Prop) l k x : Forall P l -> P x -> Forall P (upd l k x).
Proof. intros H Hx. revert k. induction H; intros [|k]; cbn; constructor; auto. Qed.
Lemma quiet_succ k x l : quiet_code g l -> quiet_code g (set_succ k x l).
Proof.
  intro H. unfold set_succ. destruct (nth_error l k) eqn:E; [|exact H]. apply Forall_upd; [exact H|].
  apply nth_error_In in E. unfold quiet_code in H. rewrite Forall_forall in H. exact (H _ E).
Qed.
Lemma quiet_fail k x l : quiet_code g l -> quiet_code g (set_fail k x l).
Proof.
  intro H. unfold set_fail. destruct (nth_error l k) eqn:E; [|exact H]. apply Forall_upd; [exact H|].
  apply nth_error_In in E. unfold quiet_code in H. rewrite Forall_forall in H. exact (H _ E).
Qed.
Definition cquiet (c : cs) : Prop := quiet_code g (c_code c).
Lemma quiet_snoc l op : quiet_code g l -> quiet_op g op -> quiet_code g (l ++ [mkinstr op None None]).
Proof. intros H Ho. apply Forall_app. split; [exact H|]. now constructor. Qed.
Lemma quiet_instr op c : cquiet c -> quiet_op g op -> cquiet (add_instr op c).
Proof. intros H Ho. unfold add_instr, new_instr, cquiet. cbn. now apply quiet_succ, quiet_snoc. Qed.
Lemma bp_fold acts l : Forall (fun f => form_spares g acts f -> forall c, cquiet c -> bpost cquiet (compile acts f c)) l ->
  Forall (form_spares g acts) l -> forall c, cquiet c -> bpost cquiet (bfold (compile acts) l c).
Proof.
  intro H. induction H as [|f l Hf H IH]; intros HS c Hc; cbn; [now apply bp_ret|]. inversion HS; subst.
  eapply bp_bind; [now apply Hf|]. intros c1 H1. now apply IH.
Qed.
Lemma all_spares acts l : (fix all (l : list form) : Prop :=
    match l with [] => True | f :: l' => form_spares g acts f /\ all l' end) l -> Forall (form_spares g acts) l.
Proof. induction l as [|f l IH]; intro H; constructor; [apply H|apply IH, H]. Qed.
Ltac code := repeat first [exact I | assumption | apply quiet_succ | apply quiet_fail | apply quiet_snoc | apply quiet_instr].
Lemma bp_compile acts f : form_spares g acts f -> forall c, cquiet c -> bpost cquiet (compile acts f c).
Proof.
  induction f as [ft t|cd b IH|cd ib eb IHi IHe|cd b IH] using form_ind'; intros H c Hc; cbn [compile form_spares] in *.
  - destruct ft.
    all: try (eapply bp_bind; [apply bp_built|intros x Hx; apply bp_ret; code; cbn; try exact I; eapply built_other; eassumption]).
    + eapply bp_bind; [apply bp_query, H|intros q Hq]. apply bp_ret. code.
    + eapply bp_bind; [apply bp_pattern, H|intros p Hp]. cbn zeta. eapply bp_bind; [apply bp_other, H|intros x Hx]. apply bp_ret. code.
  - destruct H as [H1 H2]. apply all_spares in H2. eapply bp_bind; [apply bp_query, H1|intros q Hq]. cbn zeta.
    eapply bp_bind; [apply bp_fold; [exact IH|exact H2|]; code|intros c2 Hc2]. apply bp_ret. unfold cquiet. cbn. code.
  - destruct H as (H1 & H2 & H3). apply all_spares in H2. eapply bp_bind; [apply bp_query, H1|intros q Hq].
    set (c1 := add_instr INext (add_instr (IPushQ q) c)). assert (Hc1 : cquiet c1) by (unfold c1; code). cbn [new_instr]. cbv zeta. cbn [fst snd].
    eapply bp_bind; [apply bp_fold; [exact IHi|exact H2|]; unfold cquiet; cbn; code|intros c3 Hc3]. destruct eb as [eb|].
    + apply all_spares in H3. cbn [new_instr].
      eapply bp_bind; [apply bp_fold; [exact IHe|exact H3|]; unfold cquiet; cbn; code|intros c6 Hc6]. apply bp_ret. unfold cquiet. cbn. code.
    + apply bp_ret. unfold cquiet. cbn. code.
  - destruct H as [H1 H2]. apply all_spares in H2. cbn [new_instr]. eapply bp_bind; [apply bp_query, H1|intros q Hq]. cbn zeta.
    eapply bp_bind; [apply bp_fold; [exact IH|exact H2|]|intros c4 Hc4].
    + unfold cquiet in *. code; cbn [c_code]; code.
    + apply bp_ret. unfold cquiet in *. code; cbn [c_code]; code.
Qed.
Lemma bp_rule acts r : condition_spares g acts (ar_cons r) -> bpost (quiet_rule g) (build_rule acts r).
Proof.
  intro H. unfold build_rule. apply bp_any; intros [[f args] an]. eapply bp_bind; [apply bp_query, H|intros q Hq]. now apply bp_ret.
Qed.
Lemma bp_plan acts p : plan_spares g acts p -> bpost (quiet_plan g) (build_plan acts p).
Proof.
  intros [H1 H2]. unfold build_plan. apply bp_any; intros [[f args] an].
  eapply bp_bind with (P := quiet g). { destruct (ap_ctx p); [now apply bp_query|now apply bp_ret]. }
  intros q Hq. cbn zeta. assert (H0 : cquiet (mkcs [mkinstr INoop None None] 0)) by (repeat constructor).
  eapply bp_bind with (P := cquiet).
  { destruct (ap_body p); [|now apply bp_ret]. apply bp_fold; auto. apply Forall_forall. intros f0 _. intros. now apply bp_compile. }
  intros c Hc. apply bp_any; intro texts. apply bp_ret. now split.
Qed.
Lemma bp_head l : bpost (fun h => forall an, other g (lit_ast l) -> other_term g (TLit (fst (fst h)) (snd (fst h)) an)) (build_lit l).
Proof.
  unfold build_lit. eapply bp_bind; [apply bp_mapl|intros args H]. apply bp_any; intro an. apply bp_ret. intros an'. cbn.
  now rewrite <- (Forall2_len _ _ _ H).
Qed.

(** ** Agents *)
Definition kept (free : bool) (W W' : world) : Prop :=
  inv g W' /\ (free = false -> forall b, beliefs b g W' = beliefs b g W).
Lemma kept_good free W W' : good g W W' -> kept free W W'.
Proof. intros [H1 H2]. split; [exact H1|intros _; apply H2]. Qed.
Lemma kept_trans free A B C : kept free A B -> kept free B C -> kept free A C.
Proof. intros [_ H1] [H2 H3]. split; [exact H2|]. intros Hf b. rewrite (H3 Hf b). now apply H1. Qed.
Lemma kept_refl free W : inv g W -> kept free W W.
Proof. now split. Qed.
Lemma kept_nv free W k : inv g W -> kept free W (set_nv W k).
Proof. intro H. apply kept_good, good_core; auto. apply H. Qed.

Definition item_kept {A} (free : bool) (f : A -> log -> world -> res unit * log * world) (x : A) : Prop :=
  forall l W r l' W', inv g W -> f x l W = (r, l', W') -> kept free W W'.
Lemma kept_for {A} free (f : A -> log -> world -> res unit * log * world) items : Forall (item_kept free f) items ->
  forall l W r l' W', inv g W -> wfor f items l W = (r, l', W') -> kept free W W'.
Proof.
  intro H. induction H as [|x items Hx H IH]; intros l W r l' W' HI E; cbn in E; [inversion E; subst; now apply kept_refl|].
  destruct (f x l W) as [[[u|e] l1] W1] eqn:Ef; apply Hx in Ef; auto.
  - eapply kept_trans; [exact Ef|]. eapply IH; [apply Ef|exact E].
  - inversion E; now subst.
Qed.
Lemma quiet_add h x l : Forall (fun e => Forall (quiet_rule g) (snd e)) l -> quiet_rule g x ->
  Forall (fun e => Forall (quiet_rule g) (snd e)) (rules_add h x l).
Proof.
  intros H Hx. induction H as [|[k rs] l Hk H IH]; cbn; [repeat constructor; exact Hx|]. destruct (group_eqb h k); constructor; auto.
  cbn in *. apply Forall_app. split; [exact Hk|now constructor].
Qed.
Lemma kept_rule free acts a r : condition_spares g acts (ar_cons r) -> item_kept free (install_rule acts a) r.
Proof.
  intros H l W x l' W' HI E. unfold install_rule, clause in E. destruct (build_rule acts r _) as [[y|e] s] eqn:Eb; inversion E; subst; [|now apply kept_nv].
  apply bp_rule in Eb; [|exact H]. pose proof HI as [I1 I2 I3 I4 I5]. set (X := set_a_rules _ _). set (W' := put_agent _ _ _).
  assert (EA : forall b, a_bel (get_agent W' b) = a_bel (get_agent W b)).
  { intro b. unfold W'. rewrite get_put_agent. cbn [w_agents set_nv]. destruct (Nat.eqb_spec a b) as [<-|]; [|reflexivity].
    destruct (Nat.ltb_spec a (List.length (w_agents W))); [reflexivity|]. now rewrite get_agent_over. }
  split; [constructor|].
  - intros c b h h' r'. rewrite !EA. apply I1.
  - intros c h r'. rewrite EA. apply I2.
  - intro b. unfold W'. rewrite get_put_agent. cbn [w_agents set_nv]. destruct (Nat.eqb_spec a b) as [<-|]; [|apply I3].
    destruct (Nat.ltb _ _); [|constructor]. apply quiet_add; [apply I3|exact Eb].
  - exact I4.
  - exact I5.
  - intros _ b. unfold beliefs. now rewrite EA.
Qed.
Lemma kept_plan free acts a p : plan_spares g acts p -> item_kept free (install_plan acts a) p.
Proof.
  intros H l W x l' W' HI E. unfold install_plan, clause in E. destruct (build_plan acts p _) as [[y|e] s] eqn:Eb; [|inversion E; subst; now apply kept_nv].
  apply bp_plan in Eb; [|exact H]. unfold add_plan, mbind, on_world in E. cbn [fst snd] in E.
  destruct (plan_ref a _ (set_nv W (v_nv s))) as [ref W1] eqn:Er. inversion E; subst. clear E.
  assert (K : good g W W1).
  { eapply good_trans; [apply (good_core g W (set_nv W (v_nv s))); auto; apply HI|]. change W1 with (snd (ref, W1)). rewrite <- Er.
    apply good_planref. apply (good_core g W (set_nv W (v_nv s))); auto; apply HI. }
  eapply kept_trans; [apply kept_good, K|]. destruct (proj1 K) as [I1 I2 I3 I4 I5]. split; [constructor; auto|reflexivity].
  intro r. unfold get_plist at 1. cbn. destruct (Nat.eqb_spec ref r) as [<-|N]; [|rewrite upd_nth_other by exact N; apply I4].
  destruct (Nat.lt_ge_cases ref (List.length (w_plists W1))).
  - rewrite upd_nth_same by assumption. apply Forall_app. split; [apply I4|now constructor].
  - rewrite upd_over by assumption. apply I4.
Qed.
Lemma kept_event free n a gt t : In gt [GtAchieve; GtTest; GtBelief] -> (gt = GtBelief -> free = true \/ other g (lit_ast t)) ->
  item_kept free (install_event n a gt) t.
Proof.
  intros Hg Ho l W x l' W' HI E. unfold install_event, clause in E. destruct (build_lit t _) as [[[[f args] an]|e] s] eqn:Eb; [|inversion E; subst; now apply kept_nv].
  apply bp_head in Eb. cbn [fst snd] in Eb. destruct (with_new _ _) as [r [st W1]] eqn:En. inversion E; subst. clear E.
  pose proof (kept_nv free W (v_nv s) HI) as K. eapply kept_trans; [exact K|]. destruct K as [HI2 _].
  assert (EO : outside_call n a TrAdd gt (TLit f args an) true (set_nv W (v_nv s)) = (r, W')) by (unfold outside_call; now rewrite En).
  split; [eapply inv_outside; eassumption|]. intros Hf. eapply good_outside in EO; [apply EO|exact HI2|exact Hg|].
  intro Eg. apply Eb. destruct (Ho Eg) as [Hc|Hc]; [congruence|exact Hc].
Qed.
Lemma kept_agent free W X : inv g W -> (forall h r, assoc group_eqb h (a_bel X) = Some r -> exists b, assoc group_eqb h (a_bel (get_agent W b)) = Some r) ->
  Forall (fun e => Forall (quiet_rule g) (snd e)) (a_rules X) ->
  (free = false -> match assoc group_eqb g (a_bel X) with Some r => s_elems (get_set W r) | None => [] end = []) ->
  kept free W (set_agents W (w_agents W ++ [X])).
Proof.
  intros [I1 I2 I3 I4 I5] H1 H2 H3. set (W' := set_agents _ _).
  assert (EA : forall b, get_agent W' b = get_agent W b \/ b = List.length (w_agents W) /\ get_agent W' b = X).
  { intro b. unfold W', get_agent. cbn [w_agents set_agents]. destruct (Nat.lt_ge_cases b (List.length (w_agents W))).
    - left. now apply app_nth1.
    - rewrite app_nth2 by assumption. destruct (b - List.length (w_agents W))%nat as [|k] eqn:E; [right; split; [lia|reflexivity]|left].
      rewrite (nth_overflow (w_agents W)) by assumption. destruct k; reflexivity. }
  assert (EB : forall b h r, assoc group_eqb h (a_bel (get_agent W' b)) = Some r -> exists c, assoc group_eqb h (a_bel (get_agent W c)) = Some r).
  { intros b h r. destruct (EA b) as [-> |[_ ->]]; [eauto|apply H1]. }
  split; [constructor|].
  - intros a b h h' r Ha Hb. apply EB in Ha as [a' Ha], Hb as [b' Hb]. eapply I1; eassumption.
  - intros a h r Ha. apply EB in Ha as [a' Ha]. eapply I2; exact Ha.
  - intro a. destruct (EA a) as [-> |[_ ->]]; [apply I3|exact H2].
  - exact I4.
  - exact I5.
  - intros Hf b. unfold beliefs. destruct (EA b) as [-> |[-> ->]]; [reflexivity|].
    rewrite get_agent_over by lia. cbn. exact (H3 Hf).
Qed.
Lemma kept_env free W e : inv g W -> kept free W (set_env W e).
Proof. intro H. apply kept_good, good_core; auto. apply H. Qed.
Lemma kept_build free n acts path p W r W' : inv g W -> program_spares g acts p -> (free = true \/ begins_without g p) ->
  build_agent_from_ast n acts path p W = (r, W') -> kept free W W' /\ forall a, r = Ok a -> a = List.length (w_agents W).
Proof.
  intros HI [HR HP] HB E. unfold build_agent_from_ast in E. destruct (make_name _ _) as [name|e]; [|inversion E; subst; split; [now apply kept_refl|discriminate]].
  set (a := List.length (w_agents W)) in *. cbv zeta in E.
  set (W0 := set_agents _ _) in *. assert (K : kept free W W0) by (apply kept_agent; [exact HI|discriminate|constructor|reflexivity]).
  destruct (wfor (install_rule acts a) _ _ W0) as [[[u1|e] l1] W1] eqn:E1; (apply (kept_for free) in E1;
    [|eapply Forall_impl; [|exact HR]; intros; now apply kept_rule|apply K]); (apply (kept_trans _ _ _ _ K) in E1; clear K); [|inversion E; subst; split; [exact E1|discriminate]].
  destruct (wfor (install_plan acts a) _ _ W1) as [[[u2|e] l2] W2] eqn:E2; (apply (kept_for free) in E2;
    [|eapply Forall_impl; [|exact HP]; intros; now apply kept_plan|apply E1]); (apply (kept_trans _ _ _ _ E1) in E2; clear E1); [|inversion E; subst; split; [exact E2|discriminate]].
  destruct (wfor (install_event n a GtBelief) _ _ W2) as [[[u3|e] l3] W3] eqn:E3; (apply (kept_for free) in E3;
    [|apply Forall_forall; intros x Hx; apply kept_event; [cbn; auto|intros _; destruct HB as [HB|HB]; [now left|right; unfold begins_without in HB; rewrite Forall_forall in HB; now apply HB]]
     |apply E2]); (apply (kept_trans _ _ _ _ E2) in E3; clear E2); [|inversion E; subst; split; [exact E3|discriminate]].
  destruct (wfor (install_event n a GtAchieve) _ _ W3) as [[[u4|e] l4] W4] eqn:E4; (apply (kept_for free) in E4;
    [|apply Forall_forall; intros x Hx; apply kept_event; [cbn; auto|discriminate]
     |apply E3]); (apply (kept_trans _ _ _ _ E3) in E4; clear E3); [|inversion E; subst; split; [exact E4|discriminate]].
  destruct (log_throw l4); inversion E; subst; (split; [|congruence]); [|exact E4].
  eapply kept_trans; [exact E4|]. apply kept_env, E4.
Qed.
Lemma kept_copies free n count path proto p : forall W r W', inv g W -> (free = false -> beliefs proto g W = []) ->
  build_copies n count path proto p W = (r, W') -> kept free W W'.
Proof.
  induction count as [|count IH]; intros W r W' HI HB E; cbn [build_copies] in E; [inversion E; subst; now apply kept_refl|].
  destruct (make_name _ _) as [name|e]; [|inversion E; subst; now apply kept_refl]. cbv zeta in E. set (W0 := set_agents _ _) in *.
  assert (K : kept free W W0).
  { apply kept_agent; [exact HI|intros h r0 H; exists proto; exact H|apply HI|exact HB]. }
  destruct (wfor _ _ _ W0) as [[[u4|e] l4] W4] eqn:E4; (apply (kept_for free) in E4;
    [|apply Forall_forall; intros x Hx; apply kept_event; [cbn; auto|discriminate]
     |apply K]); (apply (kept_trans _ _ _ _ K) in E4; clear K); [|inversion E; now subst].
  pose proof (kept_env free W4 (w_env W4 ++ [(name, List.length (w_agents W))]) (proj1 E4)) as K5.
  assert (K6 := kept_trans _ _ _ _ E4 K5).
  destruct (build_copies _ _ _ _ _ _) as [[as_|e] W6] eqn:E6; inversion E; subst; (eapply kept_trans; [exact K6|]);
    (eapply IH; [apply K6| |exact E6]); intro Hf; rewrite (proj2 K6 Hf); auto.
Qed.
Lemma kept_builds free n acts source name count p W r W' : inv g W -> program_spares g acts p -> (free = true \/ begins_without g p) ->
  build_agents n acts source name count p W = (r, W') -> kept free W W'.
Proof.
  intros HI HS HB E. unfold build_agents in E. destruct count as [|count]; [inversion E; subst; now apply kept_refl|].
  destruct (build_agent_from_ast _ _ _ _ _) as [[a|e] W1] eqn:E1; (apply (kept_build free) in E1 as [K Ha]; auto); [|inversion E; now subst].
  specialize (Ha a eq_refl). cbv zeta in E. destruct (build_copies _ _ _ _ _ _) as [[as_|e] W2] eqn:E2; inversion E; subst; (eapply kept_trans; [exact K|]);
    (eapply kept_copies; [apply K| |exact E2]); intro Hf; rewrite (proj2 K Hf); unfold beliefs; rewrite get_agent_over by lia; reflexivity.
Qed.
Lemma inv_world0 : inv g world0.
Proof.
  constructor; unfold get_agent, get_plist, get_int; cbn.
  - intros [|a] b h h' r H; discriminate.
  - intros [|a] h r H; discriminate.
  - intros [|a]; constructor.
  - intros [|r]; constructor.
  - intros [|i]; apply quiet_int0.
Qed.
Lemma kept_happens free W W' : inv g W -> happens g free W W' -> kept free W W'.
Proof.
  intros HI H. destruct H as [W n a r W' E|W n a tr gt t d r W' Hg Ho E|W n acts path p r W' HS HB E|W n acts source name count p r W' HS HB E].
  - apply kept_good. eapply good_step; eassumption.
  - split; [eapply inv_outside; eassumption|]. intros Hf b. eapply good_outside in E; [apply E|exact HI|exact Hg|].
    intro Eg. destruct (Ho Eg); [congruence|assumption].
  - eapply kept_build in E; [exact (proj1 E)|eassumption..].
  - eapply kept_builds in E; [exact E|eassumption..].
Qed.
Lemma kept_history free W W' : inv g W -> history g free W W' -> kept free W W'.
Proof.
  intros HI H. induction H as [|W1 W2 H IH HH]; [now apply kept_refl|]. eapply kept_trans; [exact IH|]. apply kept_happens; [apply IH|exact HH].
Qed.
Lemma good_ongoing W W' : inv g W -> ongoing g W W' -> good g W W'.
Proof.
  intros HI H. induction H as [|W1 n a r W2 H IH E|W1 n a tr gt t d r W2 H IH Hg Ho E]; [now apply good_refl| |];
    (eapply good_trans; [exact IH|]); [eapply good_step|eapply good_outside]; try exact E; auto; apply IH.
Qed.

(** ** Schedulers *)
Lemma good_sleep u W r W' : inv g W -> sleep_until u W = (r, W') -> good g W W'.
Proof.
  intros HI E. assert (W' = set_reads W (N.succ (w_reads W))) as ->.
  { unfold sleep_until in E. destruct (num_op _ _ _ _) as [d|e]; [|congruence]. destruct (is_nan d || _); [congruence|]. destruct (num_val d); congruence. }
  apply good_core; auto; apply HI.
Qed.
Lemma good_agent_run k n a : forall W r W', inv g W -> agent_run k n a W = (r, W') -> good g W W'.
Proof.
  induction k as [|k IH]; intros W r W' HI E; cbn [agent_run] in E; [inversion E; subst; now apply good_refl|].
  destruct (step n a W) as [[[]|e] W1] eqn:Es; apply (good_step g) in Es; auto; try (inversion E; now subst).
  eapply good_trans; [exact Es|]. eapply IH; [apply Es|exact E].
Qed.
Lemma good_run_agent k n a : forall W r W', inv g W -> run_agent k n a W = (r, W') -> good g W W'.
Proof.
  induction k as [|k IH]; intros W r W' HI E; cbn [run_agent] in E; [inversion E; subst; now apply good_refl|].
  destruct (step n a W) as [[[]|e] W1] eqn:Es; apply (good_step g) in Es; auto; try (inversion E; now subst).
  - eapply good_trans; [exact Es|]. eapply IH; [apply Es|exact E].
  - destruct (shortest_deadline W1 a); [|inversion E; now subst]. destruct (num_eqb _ _); [inversion E; now subst|].
    destruct (sleep_until _ W1) as [[d|e] W2] eqn:Ew; (apply good_sleep in Ew; [|apply Es]); (apply (good_trans g _ _ _ Es) in Ew); [|inversion E; now subst].
    eapply good_trans; [exact Ew|]. destruct (run_agent k n a W2) as [[ds|e] W3] eqn:Er; inversion E; subst; (eapply IH; [apply Ew|exact Er]).
Qed.
Lemma good_round n agents : forall W r W', inv g W -> round n agents W = (r, W') -> good g W W'.
Proof.
  induction agents as [|a agents IH]; intros W r W' HI E; cbn [round] in E; [inversion E; subst; now apply good_refl|].
  destruct (step n a W) as [[b|e] W1] eqn:Es; apply (good_step g) in Es; auto; [|inversion E; now subst].
  eapply good_trans; [exact Es|]. destruct (round n agents W1) as [[b'|e] W2] eqn:Er; inversion E; subst; (eapply IH; [apply Es|exact Er]).
Qed.
Lemma good_run k n : forall W r W', inv g W -> run k n W = (r, W') -> good g W W'.
Proof.
  induction k as [|k IH]; intros W r W' HI E; cbn [run] in E; [inversion E; subst; now apply good_refl|].
  destruct (round n _ W) as [[[]|e] W1] eqn:Es; apply good_round in Es; auto; try (inversion E; now subst).
  - eapply good_trans; [exact Es|]. eapply IH; [apply Es|exact E].
  - destruct (all_deadlines _ _); [inversion E; now subst|].
    destruct (sleep_until _ W1) as [[d|e] W2] eqn:Ew; (apply good_sleep in Ew; [|apply Es]); (apply (good_trans g _ _ _ Es) in Ew); [|inversion E; now subst].
    eapply good_trans; [exact Ew|]. destruct (run k n W2) as [[ds|e] W3] eqn:Er; inversion E; subst; (eapply IH; [apply Ew|exact Er]).
Qed.
Lemma history_inv free W : history g free world0 W -> inv g W.
Proof. intro H. exact (proj1 (kept_history free world0 W inv_world0 H)). Qed.
End WithPy.
End Group.
