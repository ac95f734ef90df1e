(** Everything the engine does is a sequence of the effects in Effects.v. *)
From Verif Require Import Base Num Term Unify TrailFacts FuelFacts Str World Engine FuelEngine Effects NvFacts.

Lemma upd_length {A} (l : list A) k x : List.length (upd l k x) = List.length l.
Proof. revert k. induction l as [|y l IH]; intros [|k]; cbn; auto. Qed.
Lemma upd_same {A} (l : list A) k x d : (k < List.length l)%nat -> nth k (upd l k x) d = x.
Proof. revert k. induction l as [|y l IH]; intros [|k] H; cbn in *; try lia; auto. apply IH. lia. Qed.
Lemma upd_other {A} (l : list A) k j x d : j <> k -> nth j (upd l k x) d = nth j l d.
Proof. revert k j. induction l as [|y l IH]; intros [|k] [|j] H; cbn; auto; try congruence. Qed.
Lemma upd_beyond {A} (l : list A) k x : (List.length l <= k)%nat -> upd l k x = l.
Proof. revert k. induction l as [|y l IH]; intros [|k] H; cbn in *; try lia; auto. f_equal. apply IH. lia. Qed.
Lemma upd_in {A} (l : list A) k x y : In y (upd l k x) -> y = x \/ In y l.
Proof.
  revert k. induction l as [|z l IH]; intros [|k] H; cbn in *; auto.
  - destruct H; auto.
  - destruct H as [H|H]; [auto|]. destruct (IH _ H); auto.
Qed.

Section WithPy.
Context {PY : Py} {FR : Front}.
Variable Pp : plan -> Prop.
Hypothesis Pargs : forall p names, Pp p -> Pp (set_p_args p names).
Hypothesis Pfront : forall s k p k', fr_plan s k = Ok (p, k') -> Pp p.

Definition plans_ok (W : world) : Prop := forall r, Forall Pp (get_plist W r).

Lemma effs_app lo cur W1 W2 W3 : effs Pp lo cur W1 W2 -> effs Pp lo cur W2 W3 -> effs Pp lo cur W1 W3.
Proof. intros H1 H2. induction H1; [exact H2|]. econstructor; eauto. Qed.
Lemma effs_one lo cur W1 W2 : eff Pp lo cur W1 W2 -> effs Pp lo cur W1 W2.
Proof. intro. econstructor; [eassumption|constructor]. Qed.

Lemma eff_weaken lo lo' cur cur' W W' : (lo' <= lo)%nat -> cur = cur' \/ (lo' <= cur)%nat ->
  eff Pp lo cur W W' -> eff Pp lo' cur' W W'.
Proof.
  intros H1 H2 H. destruct H.
  - now constructor.
  - constructor.
  - now constructor.
  - constructor.
  - constructor.
  - constructor.
  - econstructor; eassumption.
  - econstructor; eassumption.
  - econstructor; eassumption.
  - constructor; assumption.
  - constructor.
  - econstructor; eassumption.
  - constructor.
  - apply ef_launch; auto. lia.
  - apply ef_prep; auto. lia.
  - apply ef_wait. destruct H as [-> | H]; [destruct H2; auto|right; lia].
  - econstructor; eassumption.
  - constructor; assumption.
Qed.
Lemma effs_weaken lo lo' cur cur' W W' : (lo' <= lo)%nat -> cur = cur' \/ (lo' <= cur)%nat ->
  effs Pp lo cur W W' -> effs Pp lo' cur' W W'.
Proof. intros H1 H2 H. induction H; [constructor|]. econstructor; [eapply eff_weaken; eassumption|assumption]. Qed.

Lemma bel_ref_ints a g W : w_ints (snd (bel_ref a g W)) = w_ints W.
Proof. unfold bel_ref. destruct (assoc _ _ _); reflexivity. Qed.
Lemma plan_ref_ints a g W : w_ints (snd (plan_ref a g W)) = w_ints W.
Proof. unfold plan_ref. destruct (assoc _ _ _); reflexivity. Qed.
Lemma bel_ref_plists a g W : w_plists (snd (bel_ref a g W)) = w_plists W.
Proof. unfold bel_ref. destruct (assoc _ _ _); reflexivity. Qed.

Lemma eff_len lo cur W W' : eff Pp lo cur W W' -> (List.length (w_ints W) <= List.length (w_ints W'))%nat.
Proof.
  intro H. destruct H; cbn; rewrite ?upd_length, ?bel_ref_ints, ?plan_ref_ints, ?app_length; lia.
Qed.
Lemma effs_len lo cur W W' : effs Pp lo cur W W' -> (List.length (w_ints W) <= List.length (w_ints W'))%nat.
Proof. intro H. induction H; [lia|]. apply eff_len in H. lia. Qed.

Lemma get_plist_upd W r l r' : get_plist (set_plists W (upd (w_plists W) r l)) r' =
  if Nat.eqb r r' && Nat.ltb r (List.length (w_plists W)) then l else get_plist W r'.
Proof.
  unfold get_plist. cbn [set_plists w_plists]. destruct (Nat.eqb_spec r r') as [<-|E]; cbn [andb].
  - destruct (Nat.ltb_spec r (List.length (w_plists W))).
    + now apply upd_same.
    + now rewrite upd_beyond.
  - apply upd_other. congruence.
Qed.

Lemma eff_plans lo cur W W' : eff Pp lo cur W W' -> plans_ok W -> plans_ok W'.
Proof.
  intros H HP. destruct H; try exact HP.
  - intro r. unfold get_plist. rewrite bel_ref_plists. apply HP.
  - intro r. unfold plan_ref. destruct (assoc _ _ _); [apply HP|]. unfold get_plist. cbn.
    destruct (Nat.lt_ge_cases r (List.length (w_plists W))) as [L|L].
    + rewrite app_nth1 by exact L. apply HP.
    + rewrite app_nth2 by exact L. destruct (r - List.length (w_plists W))%nat as [|[|k]]; constructor.
  - intro r'. rewrite get_plist_upd. destruct (_ && _); [|apply HP]. apply Forall_app. split; [apply HP|]. constructor; auto.
  - intro r'. rewrite get_plist_upd. destruct (_ && _); [|apply HP].
    apply Forall_forall. intros p Hp. apply filter_In in Hp as [Hp _]. generalize (HP r). rewrite Forall_forall. auto.
  - intro r'. rewrite get_plist_upd. destruct (_ && _); [|apply HP].
    apply Forall_forall. intros q Hq. generalize (HP r). rewrite Forall_forall. intro HF.
    apply upd_in in Hq as [-> | Hq]; auto. apply Pargs, HF. eapply nth_error_In, H.
Qed.
Lemma effs_plans lo cur W W' : effs Pp lo cur W W' -> plans_ok W -> plans_ok W'.
Proof. intro H. induction H; auto. intro. apply IHeffs. eapply eff_plans; eauto. Qed.

Variable na : nat.
(** Every agent that can be addressed exists. *)
Definition env_ok (W : world) : Prop :=
  List.length (w_agents W) = na /\ (forall x, In x (w_env W) -> (snd x < na)%nat).

Lemma bel_ref_agents a g W : List.length (w_agents (snd (bel_ref a g W))) = List.length (w_agents W).
Proof. unfold bel_ref. destruct (assoc _ _ _); cbn; rewrite ?upd_length; reflexivity. Qed.
Lemma plan_ref_agents a g W : List.length (w_agents (snd (plan_ref a g W))) = List.length (w_agents W).
Proof. unfold plan_ref. destruct (assoc _ _ _); cbn; rewrite ?upd_length; reflexivity. Qed.
Lemma bel_ref_env a g W : w_env (snd (bel_ref a g W)) = w_env W.
Proof. unfold bel_ref. destruct (assoc _ _ _); reflexivity. Qed.
Lemma plan_ref_env a g W : w_env (snd (plan_ref a g W)) = w_env W.
Proof. unfold plan_ref. destruct (assoc _ _ _); reflexivity. Qed.
Lemma eff_agents lo cur W W' : eff Pp lo cur W W' -> List.length (w_agents W') = List.length (w_agents W).
Proof. intro H. destruct H; cbn; rewrite ?upd_length, ?bel_ref_agents, ?plan_ref_agents; reflexivity. Qed.
Lemma eff_env lo cur W W' : eff Pp lo cur W W' -> w_env W' = w_env W.
Proof. intro H. destruct H; cbn; rewrite ?bel_ref_env, ?plan_ref_env; reflexivity. Qed.
Lemma effs_agents lo cur W W' : effs Pp lo cur W W' -> List.length (w_agents W') = List.length (w_agents W).
Proof. intro H. induction H; [reflexivity|]. rewrite IHeffs. eapply eff_agents; eassumption. Qed.
Lemma effs_env lo cur W W' : effs Pp lo cur W W' -> w_env W' = w_env W.
Proof. intro H. induction H; [reflexivity|]. rewrite IHeffs. eapply eff_env; eassumption. Qed.

(** Stacks hold existing intentions. *)
Definition bounded (W : world) : Prop :=
  forall b i, In i (List.concat (a_ints (get_agent W b))) -> (i < List.length (w_ints W))%nat.

Lemma get_put W a b x : get_agent (put_agent W a x) b =
  if Nat.eqb a b then (if Nat.ltb a (List.length (w_agents W)) then x else agent0) else get_agent W b.
Proof.
  unfold get_agent, put_agent. cbn [w_agents set_agents]. destruct (Nat.eqb_spec a b) as [->|N].
  - destruct (Nat.ltb_spec b (List.length (w_agents W))).
    + now apply upd_same.
    + rewrite upd_beyond by assumption. now apply nth_overflow.
  - apply upd_other. congruence.
Qed.

Lemma push_on_concat ci ni stacks : forall l, push_on ci ni stacks = Ok (Some l) ->
  Permutation.Permutation (List.concat l) (ni :: List.concat stacks).
Proof.
  induction stacks as [|[|i rest] stacks IH]; intros l H; cbn in H; try discriminate H.
  destruct (Nat.eqb i ci); [inversion H; subst; apply Permutation.Permutation_refl|].
  destruct (push_on ci ni stacks) as [[l'|]|e]; inversion H; subst. cbn.
  eapply Permutation.perm_trans; [apply Permutation.perm_skip, Permutation.Permutation_app_head, IH; reflexivity|].
  change (i :: rest ++ ni :: List.concat stacks) with ((i :: rest) ++ ni :: List.concat stacks).
  apply Permutation.Permutation_sym, (Permutation.Permutation_middle (i :: rest)).
Qed.
Lemma unach_sub old new : Forall2 (fun o n => n = o \/ exists i : nat, o = i :: n) old new ->
  forall i, In i (List.concat new) -> In i (List.concat old).
Proof.
  induction 1 as [|o n os ns H H2 IH]; intros i Hi; cbn in *; [assumption|]. apply in_app_iff in Hi. apply in_app_iff.
  destruct Hi as [Hi|Hi]; [left|right; auto]. destruct H as [-> | [j ->]]; [assumption|now right].
Qed.

Lemma eff_stack lo cur W W' : eff Pp lo cur W W' -> forall b i, In i (List.concat (a_ints (get_agent W' b))) ->
  In i (List.concat (a_ints (get_agent W b))) \/ (lo <= i < List.length (w_ints W))%nat /\ idle i W.
Proof.
  intros H b i. destruct H; try (intro Hi; now left).
  - unfold bel_ref. destruct (assoc _ _ _); [now left|]. cbn [snd]. rewrite get_put.
    destruct (Nat.eqb_spec a b) as [<-|]; [|now left]. destruct (Nat.ltb _ _); [now left|intros []].
  - unfold plan_ref. destruct (assoc _ _ _); [now left|]. cbn [snd]. rewrite get_put.
    destruct (Nat.eqb_spec a b) as [<-|]; [|now left]. destruct (Nat.ltb _ _); [now left|intros []].
  - rewrite get_put. destruct (Nat.eqb_spec a b) as [<-|]; [|now left]. destruct (Nat.ltb _ _); [|intros []].
    cbn [a_ints set_a_ints]. intro Hi.
    assert (i = ni \/ In i (List.concat (a_ints (get_agent W a)))).
    { destruct H2 as [-> | [ci E]].
      - rewrite concat_app in Hi. apply in_app_iff in Hi as [Hi|[<-|[]]]; auto.
      - apply push_on_concat in E. eapply Permutation.Permutation_in in E; [|exact Hi]. destruct E; auto. }
    destruct H3 as [-> | H3]; [right|left]; auto.
  - rewrite get_put. destruct (Nat.eqb_spec a b) as [<-|]; [|now left]. destruct (Nat.ltb _ _); [|intros []].
    intro Hi. left. eapply unach_sub; eassumption.
Qed.
Lemma eff_bounded lo cur W W' : eff Pp lo cur W W' -> bounded W -> bounded W'.
Proof.
  intros H HB b i Hi. pose proof (eff_len _ _ _ _ H). destruct (eff_stack _ _ _ _ H _ _ Hi) as [Hi'|[Hi' _]]; [apply HB in Hi'|]; lia.
Qed.
Lemma effs_bounded lo cur W W' : effs Pp lo cur W W' -> bounded W -> bounded W'.
Proof. intro H. induction H; auto. intro. apply IHeffs. eapply eff_bounded; eauto. Qed.
Lemma eff_reads_le lo cur W W' : eff Pp lo cur W W' -> (w_reads W <= w_reads W')%N.
Proof.
  intro H. destruct H; cbn; try lia.
  - unfold bel_ref. destruct (assoc _ _ _); cbn; lia.
  - unfold plan_ref. destruct (assoc _ _ _); cbn; lia.
Qed.
Lemma effs_reads_le lo cur W W' : effs Pp lo cur W W' -> (w_reads W <= w_reads W')%N.
Proof. intro H. induction H; [lia|]. apply eff_reads_le in H. lia. Qed.
(** Older intentions are not put on stacks. *)
Lemma effs_idle lo cur W W' i : effs Pp lo cur W W' -> (i < lo)%nat -> idle i W -> idle i W'.
Proof.
  intros H Hi. induction H; auto. intro HI. apply IHeffs. intros b Hb. destruct (eff_stack _ _ _ _ H _ _ Hb) as [Hi'|[Hi' _]]; [now apply HI in Hi'|lia].
Qed.

(** What is assumed of the system when code starts to run. *)
Definition ready (lo : nat) (W : world) : Prop :=
  (lo <= List.length (w_ints W))%nat /\ plans_ok W /\ env_ok W /\ bounded W.
Lemma effs_ready lo cur W W' : effs Pp lo cur W W' -> ready lo W -> ready lo W'.
Proof.
  intros H (H1 & H2 & (H3 & H4) & H5). refine (conj _ (conj _ (conj (conj _ _) _))).
  5: eapply effs_bounded; eassumption.
  - apply effs_len in H. lia.
  - eapply effs_plans; eassumption.
  - rewrite (effs_agents _ _ _ _ H). exact H3.
  - rewrite (effs_env _ _ _ _ H). exact H4.
Qed.

(** [m], run on behalf of [cur], has only such effects. *)
Definition does {A} (lo cur : nat) (m : M A) : Prop := forall s r s',
  ready lo (snd s) -> m s = (r, s') -> effs Pp lo cur (snd s) (snd s').

Lemma does_pure {A} lo cur (m : M A) : (forall s, snd (snd (m s)) = snd s) -> does lo cur m.
Proof. intros H s r s' _ E. specialize (H s). rewrite E in H. cbn in H. rewrite H. constructor. Qed.
Lemma does_one {A} lo cur (m : M A) : (forall s, eff Pp lo cur (snd s) (snd (snd (m s)))) -> does lo cur m.
Proof. intros H s r s' _ E. specialize (H s). rewrite E in H. cbn in H. now apply effs_one. Qed.
Lemma does_bind {A B} lo cur (m : M A) (k : A -> M B) : does lo cur m -> (forall x, does lo cur (k x)) -> does lo cur (mbind m k).
Proof.
  intros H1 H2 s r s' HR E. unfold mbind in E. destruct (m s) as [[x|e] s1] eqn:Em.
  - pose proof (H1 _ _ _ HR Em) as HE. eapply effs_app; [exact HE|]. apply (H2 x _ _ _) in E; auto.
    eapply effs_ready; eauto.
  - inversion E; subst. exact (H1 _ _ _ HR Em).
Qed.
Lemma does_on_world {A} lo cur (f : world -> A * world) : (forall W, eff Pp lo cur W (snd (f W))) -> does lo cur (on_world f).
Proof. intro H. apply does_one. intro s. unfold on_world. specialize (H (snd s)). destruct (f (snd s)); exact H. Qed.
Lemma does_on_st {A} lo cur (f : bst -> res A * bst) : does lo cur (on_st f).
Proof. apply does_pure. intro s. unfold on_st. destruct (f (fst s)); reflexivity. Qed.
Lemma does_for {A} lo cur (l : list A) (f : A -> M unit) : (forall x, does lo cur (f x)) -> does lo cur (mfor l f).
Proof.
  intro H. induction l as [|x l IH]; cbn; [apply does_pure; reflexivity|]. now apply does_bind.
Qed.
Lemma does_new {A} lo cur (k : nat -> M A) :
  (forall i, (lo <= i)%nat -> forall s r s', (i < List.length (w_ints (snd s)))%nat -> ready lo (snd s) -> idle i (snd s) -> k i s = (r, s') -> effs Pp lo i (snd s) (snd s')) ->
  does lo cur (with_new k).
Proof.
  intros H s r s' HR E. unfold with_new in E. cbn in E.
  destruct (k (List.length (w_ints (snd s))) (bst0, set_ints (snd s) (w_ints (snd s) ++ [int0]))) as [x s2] eqn:Ek.
  inversion E; subst. cbn. eapply effs_cons; [apply ef_new|].
  pose proof HR as (HL & HP).
  apply H in Ek; auto.
  - cbn in Ek. eapply effs_weaken; [| |exact Ek]; auto.
  - cbn. rewrite app_length. cbn. lia.
  - eapply effs_ready; [|exact HR]. eapply (effs_one lo cur). apply ef_new.
  - intros b Hb. apply HR in Hb. lia.
Qed.
(** Reading the world and then acting on what was read. *)
Lemma does_world {A} lo cur (k : world -> M A) :
  (forall s r s', ready lo (snd s) -> k (snd s) s = (r, s') -> effs Pp lo cur (snd s) (snd s')) ->
  does lo cur (mbind m_world k).
Proof. intros H s r s' HR E. exact (H s r s' HR E). Qed.

Lemma does_evaluate lo cur n t : does lo cur (m_evaluate n t).
Proof. now apply does_pure. Qed.
Lemma does_grounded lo cur n t : does lo cur (m_grounded n t).
Proof. now apply does_pure. Qed.
Lemma does_is_ground lo cur n t : does lo cur (m_is_ground n t).
Proof. now apply does_pure. Qed.
Lemma does_freeze lo cur n t mm : does lo cur (m_freeze n t mm).
Proof. apply does_one. intro s. unfold m_freeze. destruct (freeze _ _ _ _) as [[f|e] [m k]] eqn:E; apply nv_freeze in E; apply ef_nv; intros _; exact E. Qed.
Lemma does_zip lo cur n sp args : does lo cur (m_zip n sp args).
Proof. apply does_one. intro s. unfold m_zip. destruct (zip_specs _ _ _ _ _) as [x [m k]] eqn:E; apply nv_zip in E; apply ef_nv; intros _; exact E. Qed.
Lemma does_groundeds lo cur n args : does lo cur (m_groundeds n args).
Proof.
  induction args as [|t args IH]; cbn; [now apply does_pure|].
  apply does_bind; [apply does_grounded|intro]. apply does_bind; [exact IH|intro; now apply does_pure].
Qed.
Lemma does_freezes lo cur n args : forall mm, does lo cur (m_freezes n args mm).
Proof.
  induction args as [|t args IH]; intro mm; cbn; [now apply does_pure|].
  apply does_bind; [apply does_freeze|intro]. apply does_bind; [apply IH|intro; now apply does_pure].
Qed.
Lemma does_yield lo cur n l r : does lo cur (unify_yield n l r).
Proof. unfold unify_yield. apply does_bind; [apply does_on_st|intro; now apply does_pure]. Qed.

Lemma pystr_eqb_refl s : pystr_eqb s s = true.
Proof. now apply pystr_eqb_eq. Qed.
Lemma group_eqb_refl g : group_eqb g g = true.
Proof. unfold group_eqb. now rewrite pystr_eqb_refl, Nat.eqb_refl. Qed.
Lemma assoc_app_new {V} g (l : list (group * V)) v : assoc group_eqb g l = None -> assoc group_eqb g (l ++ [(g, v)]) = Some v.
Proof.
  induction l as [|[g' v'] l IH]; cbn; [now rewrite group_eqb_refl|]. destruct (group_eqb g g'); [discriminate|exact IH].
Qed.

Lemma bel_ref_assoc a g W : (a < List.length (w_agents W))%nat ->
  assoc group_eqb g (a_bel (get_agent (snd (bel_ref a g W)) a)) = Some (fst (bel_ref a g W)).
Proof.
  intro HA. unfold bel_ref. destruct (assoc group_eqb g (a_bel (get_agent W a))) as [r|] eqn:E; [exact E|].
  cbn. unfold get_agent, put_agent. cbn. rewrite upd_same by exact HA. cbn. now apply assoc_app_new.
Qed.

Lemma does_add lo cur n a t : (a < na)%nat -> does lo cur (add_belief n a t).
Proof.
  intros Ha s r s' HR E. unfold add_belief in E. destruct (has_grounded t); [|inversion E; subst; constructor].
  unfold mbind, m_grounded in E. destruct (grounded n t (b_scope (fst s))) as [v|e] eqn:Eg; [|inversion E; subst; constructor].
  destruct v; try (inversion E; subst; constructor). unfold on_world in E.
  destruct (bel_ref a (f, List.length args) (snd s)) as [r0 W1] eqn:Eb. inversion E; subst. cbn.
  eapply effs_cons; [apply (ef_belref _ _ _ _ a (f, List.length args))|]. rewrite Eb. apply effs_one. eapply ef_add; [exact Eg|].
  change W1 with (snd (r0, W1)). rewrite <- Eb, bel_ref_assoc; [now rewrite Eb|]. destruct HR as (_ & _ & (HR & _) & _). lia.
Qed.

Lemma rem_loop_bound n cp t bs : forall k st j st', rem_loop n cp t bs k st = (Ok (Some j), st') -> (k <= j < k + List.length bs)%nat.
Proof.
  induction bs as [|b bs IH]; intros k st j st' E; cbn [rem_loop] in E; [discriminate|].
  destruct (unifies_annotated_in _ _ _ _) as [[[]|] st1].
  - inversion E; subst. cbn. lia.
  - apply IH in E. cbn. lia.
  - discriminate.
Qed.
Lemma does_remove lo cur n a t : (a < na)%nat -> does lo cur (remove_belief n a t).
Proof.
  intros Ha s r s' HR E. unfold remove_belief, mbind, m_evaluate in E.
  destruct (evaluate n t (b_scope (fst s))) as [v|e] eqn:Eg; [|inversion E; subst; constructor].
  destruct v; try (inversion E; subst; constructor).
  unfold m_new_cp, on_st in E. destruct (new_cp (fst s)) as [cp st1]. unfold on_world in E. cbn [fst snd] in E.
  destruct (bel_ref a (f, List.length args) (snd s)) as [r0 W1] eqn:Eb. cbn [m_world fst snd] in E.
  eapply effs_cons; [apply (ef_belref _ _ _ _ a (f, List.length args))|]. rewrite Eb. cbn [snd].
  destruct (rem_loop n cp _ _ _ _) as [[[k|]|e] st2] eqn:El; inversion E; subst; cbn; try constructor.
  apply effs_one. apply rem_loop_bound in El. eapply (ef_rem _ _ _ _ a (f, List.length args)); [|lia].
  change W1 with (snd (r0, W1)). rewrite <- Eb, bel_ref_assoc; [now rewrite Eb|]. destruct HR as (_ & _ & (HR & _) & _). lia.
Qed.
Lemma does_abolish lo cur n a t : (a < na)%nat -> does lo cur (abolish n a t).
Proof.
  intros Ha s r s' HR E. unfold abolish in E. unfold mbind at 1 in E.
  destruct (m_freeze n t [] s) as [[fm|e] s1] eqn:Ef.
  2:{ inversion E; subst. eapply (does_freeze lo cur n t []); eassumption. }
  assert (H1 := does_freeze lo cur n t [] _ _ _ HR Ef). assert (HR1 := effs_ready _ _ _ _ H1 HR).
  eapply effs_app; [exact H1|].
  destruct (fst fm); try (inversion E; subst; constructor).
  unfold mbind, on_world in E. destruct (bel_ref a (f, List.length args) (snd s1)) as [r0 W1] eqn:Eb. cbn [m_world fst snd] in E.
  eapply effs_cons; [apply (ef_belref _ _ _ _ a (f, List.length args))|]. rewrite Eb. cbn [snd].
  destruct (abolish_loop n _ _) as [x l] eqn:El.
  destruct (Nat.eqb (List.length l) _); inversion E; subst; cbn; [constructor|].
  apply effs_one. eapply (ef_abol _ _ _ _ a (f, List.length args)); [|exact El].
  change W1 with (snd (r0, W1)). rewrite <- Eb, bel_ref_assoc; [now rewrite Eb|]. destruct HR1 as (_ & _ & (HR1 & _) & _). lia.
Qed.
Lemma does_planref lo cur a g : does lo cur (on_world (plan_ref a g)).
Proof. apply does_on_world. intro. apply ef_planref. Qed.
Lemma does_add_plan lo cur a p : Pp p -> does lo cur (add_plan a p).
Proof.
  intro H. unfold add_plan. apply does_bind; [apply does_planref|intro r]. apply does_on_world. intro. now apply ef_plan_add.
Qed.
Lemma does_untell lo cur a t : does lo cur (untell_how a t).
Proof.
  unfold untell_how. apply does_bind; [now apply does_pure|intro args].
  apply does_bind; [apply does_pure; intro; unfold arg; destruct (nth_error _ _); reflexivity|intro label].
  apply does_bind; [now apply does_pure|intro W]. apply does_for. intro x. apply does_on_world. intro. apply ef_plan_del.
Qed.
Lemma does_unachieve lo cur n a t : does lo cur (unachieve n a t).
Proof.
  destruct t; try (now apply does_pure). unfold unachieve. intros s r s' HR E. unfold mbind in E. cbn [m_world] in E.
  assert (HL : forall W ss r l, unachieve_loop n W f args ss = (r, l) -> Forall2 (fun old new => new = old \/ exists i, old = i :: new) ss l).
  { clear. intros W ss. induction ss as [|[|i rest] ss IH]; intros r l E; cbn in E.
    - inversion E; subst. constructor.
    - destruct (unachieve_loop n W f args ss) as [x l'] eqn:El. inversion E; subst. constructor; eauto.
    - assert (HI : forall l : list (list nat), Forall2 (fun old new => new = old \/ exists i, old = i :: new) l l).
      { intro l0. induction l0; constructor; auto. }
      destruct (i_head (get_int W i)) as [[]|]; try (inversion E; subst; apply HI).
      destruct (pystr_eqb _ f).
      + match type of E with context[unifies n ?x ?y] => destruct (unifies n x y) as [b|e] end; [|inversion E; subst; apply HI].
        destruct (unachieve_loop n W f args ss) as [x l'] eqn:El. inversion E; subst. constructor; eauto. destruct b; eauto.
      + destruct (unachieve_loop n W f args ss) as [x l'] eqn:El. inversion E; subst. constructor; eauto. }
  destruct (unachieve_loop n (snd s) f args _) as [x l] eqn:El. inversion E; subst. cbn. apply effs_one. apply ef_unach. eauto.
Qed.
Lemma does_wake lo cur n a tr gt fz s r s' : ready lo (snd s) ->
  wake n tr gt fz (a_ints (get_agent (snd s) a)) s = (r, s') -> effs Pp lo cur (snd s) (snd s').
Proof.
  intros _. assert (HI : incl (a_ints (get_agent (snd s) a)) (a_ints (get_agent (snd s) a))) by apply incl_refl.
  revert HI. generalize (a_ints (get_agent (snd s) a)) at 1 3. intro ss.
  revert s. induction ss as [|[|i rest] ss IH]; intros s HI E; cbn [wake] in E.
  - inversion E; subst. constructor.
  - apply IH in E; auto. intros x Hx. apply HI. now right.
  - unfold mbind in E. cbn [m_world] in E. unfold lift in E.
    destruct (wakes n tr gt fz (get_int (snd s) i)) as [[]|e] eqn:Ew.
    + unfold put_world in E. eapply effs_cons; [eapply ef_wake; [apply HI; left; reflexivity|exact Ew]|].
      apply IH in E; auto. intros x Hx. apply HI. now right.
    + unfold mret in E. apply IH in E; auto. intros x Hx. apply HI. now right.
    + inversion E; subst. constructor.
Qed.
Lemma does_launch lo cur a p fz t ci d ni : (lo <= ni)%nat -> Pp p ->
  forall s r s', (ni < List.length (w_ints (snd s)))%nat -> idle ni (snd s) -> launch a p fz t ci d ni s = (r, s') ->
  effs Pp lo cur (snd s) (snd s').
Proof.
  intros Hni HP s r s' Hl HI E. unfold launch, mbind, m_st, on_world in E. cbn [m_world fst snd] in E.
  set (X := mkint _ _ _ _ _ _ _ _) in *. destruct d.
  - unfold mret in E. inversion E; subst. cbn. apply effs_one. apply ef_launch; auto.
  - unfold lift in E. destruct (push_on ci ni _) as [o|e] eqn:Eo.
    + inversion E; subst. cbn. apply effs_one. apply ef_launch; auto. destruct o; [right; eauto|now left].
    + inversion E; subst. apply effs_one. now apply ef_prep.
Qed.

Definition eng_does (E : eng) : Prop := forall lo,
  (forall a i g, (a < na)%nat -> does lo i (e_resume E a i g)) /\
  (forall a tr gt t ci d, (a < na)%nat -> does lo ci (e_call E a tr gt t ci d)) /\
  (forall a r fz t ci d ni j, (a < na)%nat -> (lo <= ni)%nat -> forall s x s',
     (ni < List.length (w_ints (snd s)))%nat -> ready lo (snd s) -> idle ni (snd s) ->
     e_plans E a r (fz, t, ci, d, ni) j s = (x, s') -> effs Pp lo ni (snd s) (snd s')) /\
  (forall a i g c, (a < na)%nat -> does lo i (e_collect E a i g c)).

Section Body.
Variables (E : eng) (n : nat).
Hypothesis HE : eng_does E.
Variable lo : nat.
Let HR := proj1 (HE lo).
Let HC := proj1 (proj2 (HE lo)).
Let HP := proj1 (proj2 (proj2 (HE lo))).
Let HL := proj2 (proj2 (proj2 (HE lo))).

Lemma does_ret {A} cur (x : A) : does lo cur (mret x).
Proof. now apply does_pure. Qed.
Lemma does_fail {A} cur e : does lo cur (@mfail A e).
Proof. now apply does_pure. Qed.
Lemma does_lift {A} cur (r : res A) : does lo cur (lift r).
Proof. now apply does_pure. Qed.
Lemma does_mworld cur : does lo cur m_world.
Proof. now apply does_pure. Qed.
Lemma does_arg cur args k : does lo cur (arg args k).
Proof. unfold arg. destruct (nth_error _ _); [apply does_ret|apply does_fail]. Qed.
Lemma does_last_arg cur args : does lo cur (last_arg args).
Proof. unfold last_arg. destruct (rev _); [apply does_fail|apply does_ret]. Qed.
Lemma does_tick cur : does lo cur m_tick.
Proof. apply does_on_world. intro. apply ef_tick. Qed.
Lemma does_time cur : does lo cur m_time.
Proof. apply does_on_world. intro. apply ef_reads. lia. Qed.

Ltac go := repeat first
  [ apply does_ret | apply does_fail | apply does_lift | apply does_mworld | apply does_arg | apply does_last_arg
  | apply does_tick | apply does_time
  | apply HR; assumption | apply HC; assumption | apply HL; assumption
  | apply does_evaluate | apply does_grounded | apply does_is_ground | apply does_freeze
  | apply does_zip | apply does_groundeds | apply does_freezes | apply does_unachieve | apply does_abolish; assumption
  | apply does_yield | apply does_on_st
  | apply does_bind; [|intro]
  | match goal with |- does _ _ (match ?x with _ => _ end) => destruct x end
  | progress cbn zeta
  | match goal with |- does _ _ (let '(_, _) := ?x in _) => destruct x end ].

Lemma does_collect_one cur c : does lo cur (collect_one n c).
Proof. unfold collect_one. go. Qed.
Lemma does_deliver cur rs tr gt msg : Forall (fun r => (r < na)%nat) rs -> does lo cur (deliver E rs tr gt msg).
Proof.
  intro H. unfold deliver. induction H; cbn [mfor]; [apply does_ret|].
  apply does_bind; [|intro; exact IHForall]. apply does_bind; [|intro; apply does_ret].
  apply does_new. intros i Hi s r s' _ HR' _ Ex. eapply HC; eauto.
Qed.
Lemma rmapl_Forall {A B} (f : A -> res B) (P : B -> Prop) l l' : (forall x y, f x = Ok y -> P y) -> rmapl f l = Ok l' -> Forall P l'.
Proof.
  intro H. revert l'. induction l as [|x l IH]; intros l' Ex; cbn in Ex; [inversion Ex; constructor|].
  destruct (f x) eqn:Ef; [|discriminate]. destruct (rmapl f l); [|discriminate]. inversion Ex; subst. constructor; eauto.
Qed.
Lemma find_receiver_in env t r : find_receiver env t = Ok r -> exists k, In (k, r) env.
Proof.
  assert (HA : forall f, assoc pystr_eqb f env = Some r -> exists k, In (k, r) env).
  { clear. induction env as [|[k v] env IH]; intros f E; cbn in E; [discriminate|].
    destruct (pystr_eqb f k); [inversion E; subst; exists k; now left|]. destruct (IH _ E) as [k' Hk']. exists k'. now right. }
  destruct t; cbn; try discriminate.
  - intro Ex. destruct (assoc _ _ _) eqn:Ea; [|discriminate]. inversion Ex; subst. eauto.
  - destruct args; try discriminate. destruct annots; try discriminate. intro Ex. destruct (assoc _ _ _) eqn:Ea; [|discriminate]. inversion Ex; subst. eauto.
Qed.
Lemma does_broadcast cur a args : does lo cur (act_broadcast E n a args).
Proof.
  unfold act_broadcast. apply does_bind; [go|intro t0]. apply does_bind; [go|intro ilf].
  destruct ilf; try apply does_ret. destruct args0; [|apply does_ret]. destruct annots; [|apply does_ret].
  destruct (ilf_broadcast f) as [[tr gt]|]; [|apply does_fail].
  apply does_bind; [go|intro t1]. apply does_bind; [go|intro fm]. apply does_world. intros s r s' HR' Ex.
  revert Ex. match goal with |- ?m s = _ -> _ => enough (HD : does lo cur m) by (intro Ex; eapply HD; eauto) end.
  apply does_bind; [apply does_lift|intro msg]. apply does_bind; [|intro; apply does_ret]. apply does_deliver.
  apply Forall_forall. intros x Hx. apply filter_In in Hx as [Hx _]. apply in_map_iff in Hx as (y & <- & Hy). now apply (proj2 (proj2 HR')).
Qed.
Lemma does_send cur a args : does lo cur (act_send E n a args).
Proof.
  unfold act_send. apply does_bind; [go|intro t0]. apply does_bind; [go|intro rcv].
  apply does_world. intros s r s' HR' Ex.
  destruct (if is_list rcv then iter_items rcv else ([rcv], None)) as [items fin].
  unfold mbind at 1, lift in Ex. destruct (rmapl (find_receiver (w_env (snd s))) items) as [rs|e] eqn:Er; [|inversion Ex; subst; constructor].
  assert (HF : Forall (fun r => (r < na)%nat) rs).
  { eapply rmapl_Forall; [|exact Er]. intros x y Hx. apply find_receiver_in in Hx as [k Hk]. apply (proj2 (proj2 HR')) in Hk. exact Hk. }
  revert Ex. match goal with |- ?m s = _ -> _ => enough (HD : does lo cur m) by (intro Ex; eapply HD; eauto) end.
  go; apply does_deliver; exact HF.
Qed.

Lemma does_wait i args : does lo i (act_wait n i args).
Proof.
  unfold act_wait. apply does_bind; [go|intro vs]. apply does_bind; [go|intro em]. destruct em as [e m].
  apply does_bind; [go|intro millis]. apply does_bind.
  - destruct e as [e|]; [|apply does_ret]. destruct e; try apply does_fail.
    apply does_world. intros st r s' HR' Ex. cbv zeta in Ex. unfold mbind, lift in Ex.
    destruct (fr_event _ _) as [[ev k]|e] eqn:Ef; inversion Ex; subst; [apply effs_one, ef_nv; intros [_ HF]; eapply HF, Ef|constructor].
  - intro ev. apply does_bind; [go|intro until]. apply does_bind; [|intro; apply does_ret].
    apply does_on_world. intro. apply ef_wait. now left.
Qed.
Lemma does_print cur a args : does lo cur (act_print n a args).
Proof. unfold act_print. go. apply does_on_world. intro. apply ef_out. Qed.

Lemma does_start a i ac t : (a < na)%nat -> does lo i (start_act E n a i ac t).
Proof.
  intro Ha. unfold start_act. apply does_bind; [go|intro args].
  destruct ac; try apply does_broadcast; try apply does_send; try apply does_wait; try apply does_print;
    unfold act_concat, act_substring, act_member, act_findall, act_count,
    act_sum, act_clock, act_range, act_fun, act_pred, act_proc; go.
Qed.

Lemma does_resume_body a i g : (a < na)%nat -> does lo i (resume_body E n a i g).
Proof.
  intro Ha. destruct g as [q| |cp|[cp|] t ref ver sz rest|cp t [sub|] rest|gl [gr|] r|g r|[] cp tgt cs fin]; cbn [resume_body].
  1: destruct q; [| |now apply does_start|..].
  all: try (go; fail).
  - go. apply does_on_world. intro. apply ef_belref.
  - destruct rest as [|r rest]; [go|]. apply does_bind; [|intro c; go].
    apply does_on_world. intro W. destruct (copy_rule r (w_nv W)) as [c k] eqn:Ec. apply ef_nv. intros _. eapply nv_copy, Ec.
Qed.

Lemma does_tell a cur t : does lo cur (tell_how a t).
Proof.
  unfold tell_how. apply does_bind; [go|intro args]. apply does_bind; [go|intro x]. destruct x; try apply does_fail.
  apply does_world. intros st r s' HR' Ex. unfold mbind at 1, lift in Ex.
  destruct (fr_plan s (w_nv (snd st))) as [[p k]|e] eqn:Ef; [|inversion Ex; subst; constructor].
  revert Ex. match goal with |- ?m st = _ -> _ => enough (HD : effs Pp lo cur (snd st) (set_nv (snd st) k) /\ does lo cur (add_plan a p)) end.
  - intro Ex. cbn [fst snd] in Ex. unfold mbind at 1, put_world in Ex. eapply effs_app; [exact (proj1 HD)|].
    eapply (proj2 HD) in Ex; [exact Ex|]. eapply effs_ready; [exact (proj1 HD)|exact HR'].
  - split; [apply effs_one, ef_nv; intros [HF _]; eapply HF, Ef|]. apply does_add_plan. eapply Pfront, Ef.
Qed.
Lemma does_group_text cur r ks : forall last, does lo cur (group_text r ks last).
Proof.
  induction ks as [|k ks IH]; intro last; cbn [group_text]; [apply does_ret|].
  apply does_world. intros s x s' HR' Ex. destruct (nth_error (get_plist (snd s) r) k) as [p|] eqn:Ep; [|inversion Ex; subst; constructor].
  destruct (plan_to_str p) as [text names]. unfold mbind at 1, put_world in Ex.
  eapply effs_cons; [eapply ef_plan_args; exact Ep|].
  revert Ex. match goal with |- ?m ?s1 = _ -> _ => enough (HD : does lo cur m) end.
  - intro Ex. eapply HD in Ex; [exact Ex|]. eapply (effs_ready lo cur); [|exact HR']. apply effs_one. eapply ef_plan_args; exact Ep.
  - apply does_bind; [go|intro]. apply IH.
Qed.
Lemma does_ask a cur t : (a < na)%nat -> does lo cur (ask_how E a t).
Proof.
  intro Ha. unfold ask_how. destruct t; try apply does_fail. apply does_bind; [go|intro src].
  destruct src; [|apply does_fail]. apply does_bind; [go|intro x]. apply does_world. intros s r s' HR' Ex.
  unfold mbind at 1, lift in Ex. destruct (wanted_groups x (snd s) _) as [gs|e]; [|inversion Ex; subst; constructor].
  destruct gs as [|g0 gs]; [destruct (nth_error args 2); inversion Ex; subst; constructor|].
  unfold mbind at 1, lift in Ex. destruct (find_receiver _ _) as [rcv|e] eqn:Er; [|inversion Ex; subst; constructor].
  apply find_receiver_in in Er as [k Hk]. apply (proj2 (proj2 HR')) in Hk.
  revert Ex. match goal with |- ?m s = _ -> _ => enough (HD : does lo cur m) by (intro Ex; eapply HD; eauto) end.
  apply does_bind; [|intro; apply does_ret]. apply does_new. intros ci Hci s1 r1 s1' Hl HR1 _ Ex.
  revert Ex. match goal with |- ?m s1 = _ -> _ => enough (HD : does lo ci m) by (intro Ex; eapply HD; eauto) end.
  apply does_for. intro g. apply does_bind; [apply does_group_text|intro msg]. go.
Qed.
Lemma does_test a i t : (a < na)%nat -> does lo i (test_belief E n a i t).
Proof. intro Ha. unfold test_belief. go. Qed.
Lemma does_event a tr gt t ci d : (a < na)%nat -> does lo ci (call_event E n a tr gt t ci d).
Proof.
  intro Ha. unfold call_event. apply does_bind; [go|intro fm]. destruct (fst fm); try apply does_fail. cbv zeta.
  apply does_world. intros s r s' HR' Ex. unfold mbind at 1 in Ex.
  destruct (wake n tr gt _ _ s) as [[u|e] s1] eqn:Ew; apply (does_wake lo ci) in Ew; auto; [|inversion Ex; subst; exact Ew].
  eapply effs_app; [exact Ew|]. assert (HR1 := effs_ready _ _ _ _ Ew HR').
  revert Ex. match goal with |- ?m s1 = _ -> _ => enough (HD : does lo ci m) by (intro Ex; eapply HD; eauto) end.
  assert (HPL : forall (g : pgroup) (k : bool -> M bool) fz, (forall b, does lo ci (k b)) -> does lo ci
    (mbind (on_world (plan_ref a g)) (fun ref => mbind (with_new (fun ni => e_plans E a ref (fz, t, ci, d, ni) 0%nat)) k))).
  { intros g k fz Hk. apply does_bind; [apply does_planref|intro ref]. apply does_bind; [|exact Hk].
    apply does_new. intros ni Hni s2 r2 s2' Hl HR2 HI Ex. eapply HP in Ex; eauto. }
  destruct gt, tr; first
    [ now apply does_ask
    | apply HPL; intros []; [apply does_ret|first [apply does_ret|apply does_fail|now apply does_test]]
    | apply does_bind; [first [apply does_tell|apply does_untell|apply does_unachieve]|intro; apply does_ret] ].
Qed.
Lemma does_call_body a tr gt t ci d : (a < na)%nat -> does lo ci (call_body E n a tr gt t ci d).
Proof.
  intro Ha. unfold call_body. destruct gt; try (now apply does_event). destruct tr.
  - apply does_bind; [now apply does_add|intro; now apply does_event].
  - apply does_bind; [now apply does_remove|intro b]. destruct b; [now apply does_event|apply does_ret].
Qed.
Lemma does_plans_body a ref fz t ci d ni j : (a < na)%nat -> (lo <= ni)%nat -> forall s x s',
  (ni < List.length (w_ints (snd s)))%nat -> ready lo (snd s) -> idle ni (snd s) ->
  plans_body E n a ref (fz, t, ci, d, ni) j s = (x, s') -> effs Pp lo ni (snd s) (snd s').
Proof.
  intros Ha Hni s x s' Hl HR' HI Ex. unfold plans_body in Ex. unfold mbind at 1 in Ex. cbn [m_world] in Ex.
  destruct (nth_error (get_plist (snd s) ref) j) as [p|] eqn:Ep; [|inversion Ex; subst; constructor].
  assert (HPp : Pp p). { apply nth_error_In in Ep. generalize (proj1 (proj2 HR') ref). rewrite Forall_forall. auto. }
  unfold mbind at 1, m_uann, on_st in Ex. destruct (uann n (p_head p) fz (fst s)) as [[o|e] st1]; [|inversion Ex; subst; constructor].
  destruct o as [cp|]; [|eapply HP in Ex; eauto].
  unfold mbind at 1 in Ex. destruct (e_resume E a ni (GQ (p_ctx p)) (st1, snd s)) as [[g|e] s2] eqn:Eg.
  2:{ inversion Ex; subst. eapply HR in Eg; eauto. }
  assert (HRs : ready (S ni) (snd s)) by (destruct HR' as (_ & HR2 & HR3 & HR4); split; [lia|auto]).
  assert (H0 := proj1 (HE (S ni)) a ni _ Ha (st1, snd s) _ _ HRs Eg).
  assert (HI2 := effs_idle _ _ _ _ ni H0 (Nat.lt_succ_diag_r ni) HI). clear H0.
  assert (H1 := HR a ni _ Ha (st1, snd s) _ _ HR' Eg). cbn in H1. eapply effs_app; [exact H1|].
  assert (HR2 := effs_ready _ _ _ _ H1 HR'). assert (HLn := effs_len _ _ _ _ H1).
  destruct g as [g|].
  - eapply does_launch in Ex; eauto. lia.
  - unfold mbind, m_reroll, on_st in Ex. eapply HP in Ex; eauto. cbn. lia.
Qed.
Lemma does_collect_body a i g c : (a < na)%nat -> does lo i (collect_body E n a i g c).
Proof. intro Ha. unfold collect_body. go. apply does_collect_one. Qed.
End Body.

Theorem engine_does n : eng_does (engine n).
Proof.
  induction n as [|n IH]; intro lo.
  - refine (conj _ (conj _ (conj _ _))); cbn; intros; try apply does_fail. match goal with HX : mfail _ _ = _ |- _ => inversion HX; subst end. constructor.
  - cbn [engine]. refine (conj _ (conj _ (conj _ _))); intros; cbn [e_resume e_call e_plans e_collect] in *.
    + now apply does_resume_body.
    + now apply does_call_body.
    + eapply does_plans_body; eassumption.
    + now apply does_collect_body.
Qed.
End WithPy.
