(** Stacks and steps. *)
From Coq Require Import Permutation.
From Verif Require Import Base Num Term Unify TrailFacts FuelFacts Str World Engine FuelEngine Effects EffFacts Step Ast Names Build QuerySpec Reach ReachFacts BelSpec PlanSpec EventFacts StepSpec.

Section WithPy.
Context {PY : Py} {FR : Front}.

(** ** No intention is on two stacks *)
Section Tidy.
Variable Pp : plan -> Prop.

Lemma tidy_sub W W' : (forall b, sub_list (List.concat (a_ints (get_agent W' b))) (List.concat (a_ints (get_agent W b)))) -> tidy W -> tidy W'.
Proof.
  intros H [H1 H2]. split.
  - intro b. eapply sub_nodup; [apply H|apply H1].
  - intros b c i Hb Hc. eapply (H2 b c i); eapply sub_in; eauto.
Qed.
Lemma tidy_same W W' : (forall b, a_ints (get_agent W' b) = a_ints (get_agent W b)) -> tidy W -> tidy W'.
Proof. intro H. apply tidy_sub. intro b. rewrite H. apply sub_refl. Qed.

Lemma unach_sublist old new : Forall2 (fun o n => n = o \/ exists i : nat, o = i :: n) old new ->
  sub_list (List.concat new) (List.concat old).
Proof.
  induction 1 as [|o n os ns H H2 IH]; cbn; [apply sub_refl|]. apply sub_app; [|exact IH].
  destruct H as [-> | [j ->]]; [apply sub_refl|apply sub_skip, sub_refl].
Qed.

Lemma sub_nil_l {A} (l : list A) : sub_list [] l.
Proof. induction l; [apply sub_nil|now apply sub_skip]. Qed.

Lemma put_sub W a x : sub_list (List.concat (a_ints x)) (List.concat (a_ints (get_agent W a))) ->
  forall b, sub_list (List.concat (a_ints (get_agent (put_agent W a x) b))) (List.concat (a_ints (get_agent W b))).
Proof.
  intros H b. rewrite get_put. destruct (Nat.eqb_spec a b) as [<-|]; [|apply sub_refl]. destruct (Nat.ltb _ _); [exact H|apply sub_nil_l].
Qed.

Lemma eff_tidy lo cur W W' : eff Pp lo cur W W' -> tidy W -> tidy W'.
Proof.
  intros H HT. destruct H; try (apply (tidy_same W); [reflexivity|assumption]).
  - unfold bel_ref. destruct (assoc _ _ _); [exact HT|]. cbn [snd]. apply (tidy_sub W); [|exact HT].
    apply (put_sub (set_sets W (w_sets W ++ [mkbset 0 []]))). apply sub_refl.
  - unfold plan_ref. destruct (assoc _ _ _); [exact HT|]. cbn [snd]. apply (tidy_sub W); [|exact HT].
    apply (put_sub (set_plists W (w_plists W ++ [[]]))). apply sub_refl.
  - assert (HPm : Permutation (List.concat l) (ni :: List.concat (a_ints (get_agent W a)))).
    { destruct H2 as [-> | [ci E]]; [|now apply push_on_concat in E].
      rewrite concat_app. cbn. apply Permutation_sym, Permutation_cons_append. }
    destruct HT as [T1 T2].
    match goal with |- tidy (put_agent ?w _ _) => set (W1 := w) end.
    assert (EA : forall b, get_agent W1 b = get_agent W b) by reflexivity.
    destruct (Nat.ltb a (List.length (w_agents W1))) eqn:El.
    2:{ apply (tidy_sub W); [|now split]. intro b. rewrite get_put, El. destruct (Nat.eqb_spec a b) as [<-|]; [apply sub_nil_l|apply sub_refl]. }
    split.
    + intro b. rewrite get_put, El. destruct (Nat.eqb_spec a b) as [<-|]; [|apply T1]. cbn [a_ints set_a_ints].
      eapply Permutation_NoDup; [apply Permutation_sym, HPm|]. constructor; [apply H1|apply T1].
    + assert (HB : forall b i, In i (List.concat (a_ints (get_agent (put_agent W1 a (set_a_ints (get_agent W a) l)) b))) ->
        In i (List.concat (a_ints (get_agent W b))) \/ i = ni /\ b = a).
      { intros b i. rewrite get_put, El. destruct (Nat.eqb_spec a b) as [<-|]; [|now left]. cbn [a_ints set_a_ints]. intro Hi.
        eapply Permutation_in in Hi; [|exact HPm]. destruct Hi as [<-|Hi]; auto. }
      intros b c i Hb Hc. apply HB in Hb. apply HB in Hc. destruct Hb as [Hb|[Eb1 Eb2]], Hc as [Hc|[Ec1 Ec2]]; subst; try reflexivity.
      * eapply T2; eassumption.
      * exfalso. eapply H1; eassumption.
      * exfalso. eapply H1; eassumption.
  - apply (tidy_sub W); [|exact HT]. apply put_sub. cbn. now apply unach_sublist.
Qed.

Lemma geff_tidy cp W W' : geff Pp cp W W' -> tidy W -> tidy W'.
Proof.
  intros H HT. destruct H; try (apply (tidy_same W); [reflexivity|assumption]).
  - eapply eff_tidy; eassumption.
  - apply (tidy_sub W); [|exact HT]. intro b. unfold get_agent. cbn. destruct (Nat.lt_ge_cases b (List.length (w_agents W))) as [L|L].
    + rewrite app_nth1 by exact L. apply sub_refl.
    + rewrite app_nth2 by exact L. destruct (b - List.length (w_agents W))%nat as [|[|]]; apply sub_nil_l.
  - apply (tidy_sub W); [|exact HT]. intro b. unfold get_agent. cbn. destruct (Nat.lt_ge_cases b (List.length (w_agents W))) as [L|L].
    + rewrite app_nth1 by exact L. apply sub_refl.
    + rewrite app_nth2 by exact L. destruct (b - List.length (w_agents W))%nat as [|[|]]; apply sub_nil_l.
  - apply (tidy_sub W); [|exact HT]. apply put_sub. apply sub_refl.
  - apply (tidy_sub W); [|exact HT]. apply put_sub. exact H.
Qed.
End Tidy.

Theorem reach_tidy W : reach W -> tidy W.
Proof.
  intro H. assert (HG : geffs (fun _ => True) true world0 W) by (apply reach_geffs; auto).
  apply (geffs_ind_inv _ _ (fun W => tidy W) _ _ (geff_tidy _ _) HG). split.
  - intros [|[]]; constructor.
  - intros [|[]] c i [].
Qed.

(** ** What running code does to other intentions *)
Lemma wakes_awaits n tr gt frozen it : wakes n tr gt frozen it = Ok true -> awaits tr gt frozen it.
Proof.
  unfold wakes. destruct (i_wait it) as [[[e|] u]|] eqn:Ew; try discriminate.
  destruct (trig_eqb (ev_trig e) tr && gtype_eqb (ev_gt e) gt) eqn:Et; [|discriminate]. intro H.
  apply andb_true_iff in Et. destruct Et as [E1 E2]. apply trig_eqb_eq in E1. apply gtype_eqb_eq in E2.
  apply ua_true in H. destruct H as [s' Hf]. exists e, u, s'. auto.
Qed.

Lemma untouched_refl it : untouched it it.
Proof. now left. Qed.
Lemma untouched_trans x y z : untouched x y -> untouched y z -> untouched x z.
Proof.
  intros [-> | [-> H]] [-> | [-> H']]; [now left|now right|now right|]. right. split; [reflexivity|exact H].
Qed.
Lemma same_run_trans x y z : same_run x y -> same_run y z -> same_run x z.
Proof. unfold same_run. congruence. Qed.
Lemma untouched_same x y : untouched x y -> same_run x y.
Proof. intros [-> | [-> _]]; reflexivity. Qed.

Section Eff.
Variable Pp : plan -> Prop.

Lemma eff_other lo cur W W' j : eff Pp lo cur W W' -> (j < lo)%nat -> (j < List.length (w_ints W))%nat -> j <> cur -> untouched (get_int W j) (get_int W' j).
Proof.
  intros H Hj Hl Hc. destruct H; try (left; reflexivity).
  - left. unfold get_int. now rewrite bel_ref_ints.
  - left. unfold get_int. now rewrite plan_ref_ints.
  - left. unfold get_int. cbn. now apply app_nth1.
  - left. match goal with |- get_int (put_agent (put_int _ _ ?x) _ _) _ = _ => transitivity (get_int (put_int W ni x) j); [reflexivity|] end.
    rewrite get_put_int. destruct (Nat.eqb_spec ni j); [lia|reflexivity].
  - left. rewrite get_put_int. destruct (Nat.eqb_spec ni j); [lia|reflexivity].
  - left. rewrite get_put_int. destruct (Nat.eqb_spec i j); [subst; destruct H; lia|reflexivity].
  - rewrite get_put_int. destruct (Nat.eqb_spec i j) as [->|]; [|left; reflexivity].
    destruct (Nat.ltb_spec j (List.length (w_ints W))); [|lia]. right. split; [reflexivity|]. exists tr, gt, frozen. now apply wakes_awaits in H0.
Qed.
Lemma effs_other lo cur W W' j : effs Pp lo cur W W' -> (j < lo)%nat -> (j < List.length (w_ints W))%nat -> j <> cur -> untouched (get_int W j) (get_int W' j).
Proof.
  intros H Hj Hl Hc. induction H; [apply untouched_refl|]. eapply untouched_trans; [eapply eff_other; eassumption|]. apply IHeffs.
  apply eff_len in H. lia.
Qed.
Lemma eff_run lo cur W W' j : eff Pp lo cur W W' -> (j < lo)%nat -> (j < List.length (w_ints W))%nat -> same_run (get_int W j) (get_int W' j).
Proof.
  intros H Hj Hl. destruct (Nat.eq_dec j cur) as [->|N]; [|eapply untouched_same, eff_other; eassumption].
  destruct H; try reflexivity.
  - unfold get_int. now rewrite bel_ref_ints.
  - unfold get_int. now rewrite plan_ref_ints.
  - unfold get_int. cbn. now rewrite app_nth1.
  - match goal with |- same_run _ (get_int (put_agent (put_int _ _ ?x) _ _) _) => change (same_run (get_int W cur) (get_int (put_int W ni x) cur)) end.
    rewrite get_put_int. destruct (Nat.eqb_spec ni cur); [lia|reflexivity].
  - rewrite get_put_int. destruct (Nat.eqb_spec ni cur); [lia|reflexivity].
  - rewrite get_put_int. destruct (Nat.eqb_spec i cur) as [->|]; [|reflexivity].
    destruct (Nat.ltb_spec cur (List.length (w_ints W))); [reflexivity|lia].
  - rewrite get_put_int. destruct (Nat.eqb_spec i cur) as [->|]; [|reflexivity].
    destruct (Nat.ltb_spec cur (List.length (w_ints W))); [reflexivity|lia].
Qed.
Lemma effs_run lo cur W W' j : effs Pp lo cur W W' -> (j < lo)%nat -> (j < List.length (w_ints W))%nat -> same_run (get_int W j) (get_int W' j).
Proof.
  intros H Hj Hl. induction H; [reflexivity|]. eapply same_run_trans; [eapply eff_run; eassumption|]. apply IHeffs.
  apply eff_len in H. lia.
Qed.
End Eff.

(** ** Choosing *)
Lemma blocked_more W W1 W' s : blocked W W1 s -> (w_reads W1 <= w_reads W')%N -> blocked W W' s.
Proof.
  destruct s as [|i s]; [auto|]. intros (w & k & H1 & H2 & H3) Hr. exists w, k. split; [exact H1|]. split; [exact H2|].
  intro Hu. specialize (H3 Hu). lia.
Qed.

Lemma pick_spec stacks : forall pos W x W1, pick stacks pos W = (x, W1) ->
  exists r, (w_reads W <= r)%N /\
  match x with
  | None => W1 = set_reads W r /\ Forall (blocked W W1) stacks
  | Some (p, i) => exists before rest after, stacks = before ++ (i :: rest) :: after /\ p = (pos + List.length before)%nat /\
      Forall (blocked W W1) before /\ runnable W W1 i /\
      W1 = (if i_wait (get_int W i) then put_int (set_reads W r) i (set_i_wait (get_int W i) None) else set_reads W r)
  end.
Proof.
  induction stacks as [|[|i rest] stacks IH]; intros pos W x W1 E; cbn in E.
  - inversion E; subst. exists (w_reads W1). split; [lia|]. split; [now destruct W1|constructor].
  - destruct (IH _ _ _ _ E) as (r & Hr & H). exists r. split; [exact Hr|]. destruct x as [[p i]|].
    + destruct H as (before & rest & after & -> & -> & H1 & H2 & H3). exists ([] :: before), rest, after. split; [reflexivity|].
      split; [cbn; lia|]. split; [constructor; [exact I|exact H1]|]. auto.
    + destruct H as [H1 H2]. split; [exact H1|]. constructor; [exact I|exact H2].
  - destruct (i_wait (get_int W i)) as [w|] eqn:Ew.
    + unfold poll in E. destruct (wt_until w) as [u|] eqn:Eu.
      * destruct (num_ord CLt u (py_time (w_reads W))) eqn:Ed.
        -- inversion E; subst. exists (N.succ (w_reads W)). split; [lia|]. exists [], rest, stacks. split; [reflexivity|]. split; [cbn; lia|].
           split; [constructor|]. rewrite Ew. split; [|reflexivity]. right. exists w, (w_reads W). split; [exact Ew|]. split; [now exists u|]. cbn. lia.
        -- destruct (IH _ _ _ _ E) as (r & Hr & H). cbn in Hr. exists r. split; [lia|].
           assert (HB : forall W2, (w_reads W2 = r) -> blocked W W2 (i :: rest)).
           { intros W2 E2. exists w, (w_reads W). split; [exact Ew|]. split; [right; now exists u|]. lia. }
           assert (HX : forall s, blocked (set_reads W (N.succ (w_reads W))) W1 s -> blocked W W1 s).
           { intros [|j s]; [auto|]. intros (w' & k & H1 & H2 & H3). exists w', k. split; [exact H1|]. split; [exact H2|]. intro Hu. specialize (H3 Hu). cbn in H3. lia. }
           destruct x as [[p i']|].
           ++ destruct H as (before & rest' & after & -> & -> & H1 & H2 & H3). exists ((i :: rest) :: before), rest', after. split; [reflexivity|].
              split; [cbn; lia|].
              assert (E1 : w_reads W1 = r) by (rewrite H3; match goal with |- context [if ?b then _ else _] => destruct b end; reflexivity).
              split; [constructor; [now apply HB|]; eapply Forall_impl; [exact HX|exact H1]|]. split; [|exact H3].
              destruct H2 as [H2|(w' & k & H2 & H4 & H5)]; [now left|]. right. exists w', k. split; [exact H2|]. split; [exact H4|]. cbn in H5. lia.
           ++ destruct H as [H1 H2]. split; [exact H1|]. constructor; [apply HB; rewrite H1; reflexivity|]. eapply Forall_impl; [exact HX|exact H2].
      * destruct (IH _ _ _ _ E) as (r & Hr & H). exists r. split; [exact Hr|].
        assert (HB : forall W2, blocked W W2 (i :: rest)).
        { intros W2. exists w, (w_reads W). split; [exact Ew|]. split; [now left|]. congruence. }
        destruct x as [[p i']|].
        -- destruct H as (before & rest' & after & -> & -> & H1 & H2 & H3). exists ((i :: rest) :: before), rest', after. split; [reflexivity|].
           split; [cbn; lia|]. split; [constructor; [apply HB|exact H1]|]. auto.
        -- destruct H as [H1 H2]. split; [exact H1|]. constructor; [apply HB|exact H2].
    + inversion E; subst. exists (w_reads W1). split; [lia|]. exists [], rest, stacks. split; [reflexivity|]. split; [cbn; lia|]. split; [constructor|].
      rewrite Ew. split; [now left|]. now destruct W1.
Qed.

(** ** Steps *)
Definition otherwise (W W' : world) (i : nat) : Prop :=
  (List.length (w_ints W) <= List.length (w_ints W'))%nat /\ (w_reads W <= w_reads W')%N /\
  forall j, (j < List.length (w_ints W))%nat -> j <> i -> untouched (get_int W j) (get_int W' j).
Lemma otherwise_refl W i : otherwise W W i.
Proof. split; [lia|]. split; [lia|]. intros. apply untouched_refl. Qed.
Lemma otherwise_trans W1 W2 W3 i : otherwise W1 W2 i -> otherwise W2 W3 i -> otherwise W1 W3 i.
Proof.
  intros (H1 & H0 & H2) (H3 & H5 & H4). split; [lia|]. split; [lia|]. intros j Hj N. eapply untouched_trans; [now apply H2|]. apply H4; [lia|assumption].
Qed.
Lemma otherwise_put W i x : otherwise W (put_int W i x) i.
Proof.
  split; [cbn; rewrite upd_length; lia|]. split; [cbn; lia|]. intros j Hj N. rewrite get_put_int. destruct (Nat.eqb_spec i j); [congruence|apply untouched_refl].
Qed.
Lemma otherwise_effs Pp W W' i : effs Pp (List.length (w_ints W)) i W W' -> otherwise W W' i.
Proof. intro H. split; [now apply effs_len in H|]. split; [now apply effs_reads_le in H|]. intros j Hj N. eapply effs_other; eassumption. Qed.

Notation Any := (fun _ : plan => True).
Lemma any_args : forall p names, Any p -> Any (set_p_args p names).
Proof. auto. Qed.
Lemma any_front : forall s k p k', fr_plan s k = Ok (p, k') -> Any p.
Proof. intros. exact I. Qed.

Lemma call_effs n a tr gt t ci d st W r st' W' : sane Any W -> (a < List.length (w_agents W))%nat ->
  call n a tr gt t ci d (st, W) = (r, (st', W')) -> effs Any (List.length (w_ints W)) ci W W'.
Proof.
  intros HS Ha E. destruct (engine_does Any any_args any_front (List.length (w_agents W)) n (List.length (w_ints W))) as (_ & HC & _).
  exact (HC a tr gt t ci d Ha (st, W) _ _ (sane_ready _ _ HS) E).
Qed.
Lemma resume_effs n a i g st W r st' W' : sane Any W -> (a < List.length (w_agents W))%nat ->
  resume n a i g (st, W) = (r, (st', W')) -> effs Any (List.length (w_ints W)) i W W'.
Proof.
  intros HS Ha E. destruct (engine_does Any any_args any_front (List.length (w_agents W)) n (List.length (w_ints W))) as (HC & _).
  exact (HC a i g Ha (st, W) _ _ (sane_ready _ _ HS) E).
Qed.

Lemma exec_other n a i op st W r st' W' : sane Any W -> (a < List.length (w_agents W))%nat ->
  exec_op n a i op (st, W) = (r, (st', W')) -> otherwise W W' i.
Proof.
  intros HS Ha E. destruct op; cbn [exec_op] in E.
  - inversion E; subst. apply otherwise_refl.
  - apply call_effs in E; auto. now apply otherwise_effs in E.
  - inversion E; subst. apply otherwise_put.
  - unfold next_or_fail in E. cbn [snd fst] in E. destruct (i_qs (get_int W i)) as [|g gs]; [inversion E; subst; apply otherwise_refl|].
    destruct (resume n a i g (st, W)) as [x [st2 W2]] eqn:Er. apply resume_effs in Er; auto. apply otherwise_effs in Er.
    destruct x as [[g'|]|e]; inversion E; subst; (eapply otherwise_trans; [exact Er|apply otherwise_put]).
  - unfold mbind in E. cbn [m_world snd] in E. destruct (i_qs (get_int W i)) as [|g gs]; inversion E; subst; [apply otherwise_refl|apply otherwise_put].
  - inversion E; subst. apply otherwise_put.
  - unfold mbind in E. cbn [m_world snd] in E. destruct (i_cps (get_int W i)) as [|g gs]; inversion E; subst; [apply otherwise_refl|apply otherwise_put].
Qed.

Lemma run_other n a i W r W' : sane Any W -> (a < List.length (w_agents W))%nat -> run_instr n a i W = (r, W') -> otherwise W W' i.
Proof.
  intros HS Ha E. unfold run_instr in E. destruct (i_pc _) as [pc|]; [|inversion E; subst; apply otherwise_refl].
  destruct (nth_error _ pc) as [ins|]; [|inversion E; subst; apply otherwise_refl].
  destruct (exec_op n a i (in_op ins) _) as [x [st' W1]] eqn:Ex. apply exec_other in Ex; auto.
  assert (H2 := otherwise_trans _ _ _ _ Ex (otherwise_put W1 i (set_i_bst (get_int W1 i) st'))).
  destruct x as [[]|e]; [| |inversion E; subst; exact H2].
  - inversion E; subst. eapply otherwise_trans; [exact H2|apply otherwise_put].
  - destruct (in_fail ins); inversion E; subst; (eapply otherwise_trans; [exact H2|apply otherwise_put]).
Qed.

Lemma nodup_app_r {A} (l l' : list A) : NoDup (l ++ l') -> NoDup l'.
Proof. induction l; cbn; [auto|]. intro H. inversion H; auto. Qed.

Lemma drop_empty_split l : exists k, l = repeat [] k ++ drop_empty l.
Proof.
  induction l as [|[|x s] l [k IH]]; [now exists 0%nat|exists (S k); cbn; now rewrite <- IH|now exists 0%nat].
Qed.

Lemma run_result n a i W r W' : run_instr n a i W = (r, W') -> r <> Ok false.
Proof.
  unfold run_instr. intro E. destruct (i_pc _) as [pc|]; [|inversion E; discriminate].
  destruct (nth_error _ pc) as [ins|]; [|inversion E; discriminate].
  destruct (exec_op n a i (in_op ins) _) as [x [st' W1]]. destruct x as [[]|e]; [inversion E; discriminate| |inversion E; discriminate].
  destruct (in_fail ins); inversion E; discriminate.
Qed.
Lemma upd_mid {A} (l : list A) x y r : upd (l ++ x :: r) (List.length l) y = l ++ y :: r.
Proof. induction l; cbn; [reflexivity|]. now rewrite IHl. Qed.

Theorem step_spec n a W r W' : sane Any W -> tidy W -> (a < List.length (w_agents W))%nat -> step n a W = (r, W') ->
  (r = Ok false /\ Forall (blocked W W') (a_ints (get_agent W a)) /\ w_ints W' = w_ints W) \/
  exists before i rest after, a_ints (get_agent W a) = before ++ (i :: rest) :: after /\ Forall (blocked W W') before /\ runnable W W' i /\
    r <> Ok false /\ (i_pc (get_int W i) = None -> List.concat (a_ints (get_agent W' a)) = List.concat before ++ rest ++ List.concat after) /\
    forall j, (j < List.length (w_ints W))%nat -> j <> i ->
      match i_pc (get_int W i) with
      | Some _ => untouched (get_int W j) (get_int W' j)
      | None => get_int W' j = get_int W j \/ (exists below, rest = j :: below) /\ exists st, get_int W' j = set_i_bst (get_int W j) st
      end.
Proof.
  intros HS HT Ha E. unfold step in E. cbv zeta in E.
  set (W0 := put_agent W a _) in *.
  assert (HA0 : get_agent W0 a = set_a_ints (get_agent W a) (drop_empty (a_ints (get_agent W a)))).
  { unfold W0. rewrite get_put, Nat.eqb_refl. destruct (Nat.ltb_spec a (List.length (w_agents W))); [reflexivity|lia]. }
  assert (HS0 : sane Any W0).
  { eapply geff_sane; [exact any_args| |exact HS]. apply (g_ints _ false). rewrite drop_empty_concat. apply sub_refl. }
  rewrite HA0 in E. cbn [a_ints set_a_ints] in E.
  destruct (drop_empty_split (a_ints (get_agent W a))) as [ne Hne].
  set (stacks := drop_empty (a_ints (get_agent W a))) in *.
  assert (HNE : forall W2, Forall (blocked W W2) (repeat [] ne)).
  { intro W2. apply Forall_forall. intros s Hs. apply repeat_spec in Hs. subst s. exact I. }
  destruct (pick stacks 0 W0) as [o W1] eqn:Ep. destruct (pick_spec _ _ _ _ _ Ep) as (rd & Hrd & HPk).
  change (w_reads W0) with (w_reads W) in Hrd.
  assert (HB1 : forall s, blocked W0 W1 s <-> blocked W W1 s) by (intros [|]; reflexivity).
  destruct o as [[pos i]|].
  2:{ left. inversion E; subst. destruct HPk as [-> HF]. split; [reflexivity|]. split; [|reflexivity]. rewrite Hne. apply Forall_app. split; [apply HNE|].
      eapply Forall_impl; [|exact HF]. intro s. apply HB1. }
  right. destruct HPk as (before & rest & after & Est & Hpos & HF & HRn & EW1). cbn in Hpos. subst pos.
  exists (repeat [] ne ++ before), i, rest, after. split; [rewrite Hne, Est; now rewrite app_assoc|].
  assert (HI1 : w_ints W1 = w_ints W \/ w_ints W1 = upd (w_ints W) i (set_i_wait (get_int W i) None)).
  { rewrite EW1. destruct (i_wait (get_int W0 i)); [right|left]; reflexivity. }
  assert (HG1 : forall j, j <> i -> get_int W1 j = get_int W j).
  { intros j Hj. unfold get_int. destruct HI1 as [-> | ->]; [reflexivity|]. apply upd_other. congruence. }
  assert (HL1 : List.length (w_ints W1) = List.length (w_ints W)) by (destruct HI1 as [-> | ->]; rewrite ?upd_length; reflexivity).
  assert (HS1 : sane Any W1).
  { rewrite EW1. assert (HSr : sane Any (set_reads W0 rd)) by (eapply geff_sane; [exact any_args| |exact HS0]; apply (g_eff _ false _ 0 0), ef_reads; exact Hrd).
    destruct (i_wait (get_int W0 i)); [|exact HSr]. eapply geff_sane; [exact any_args| |exact HSr]. apply (g_int _ false). }
  assert (HAn : List.length (w_agents W1) = List.length (w_agents W)).
  { rewrite EW1. unfold W0. destruct (i_wait _); cbn; rewrite upd_length; reflexivity. }
  assert (HPc : i_pc (get_int W1 i) = i_pc (get_int W i)).
  { unfold get_int. destruct HI1 as [-> | ->]; [reflexivity|]. destruct (Nat.lt_ge_cases i (List.length (w_ints W))) as [L|L].
    - rewrite upd_same by assumption. reflexivity.
    - rewrite upd_beyond by assumption. reflexivity. }
  assert (HFW : (w_reads W1 <= w_reads W')%N -> Forall (blocked W W') (repeat [] ne ++ before) /\ runnable W W' i).
  { intro Hle. split.
    - apply Forall_app. split; [apply HNE|]. eapply Forall_impl; [|exact HF]. intros s Hs. apply HB1 in Hs. eapply blocked_more; eassumption.
    - destruct HRn as [H|(w & k & H1 & H2 & H3)]; [now left|]. right. exists w, k. split; [exact H1|]. split; [exact H2|]. cbn in H3. change (w_reads W0) with (w_reads W) in H3. lia. }
  rewrite HPc in E. destruct (i_pc (get_int W i)) as [pc|] eqn:Epc.
  - pose proof (run_result _ _ _ _ _ _ E) as HR. apply run_other in E; [|exact HS1|lia]. destruct E as (E1 & E2 & E3). destruct (HFW E2) as [F1 F2]. split; [exact F1|]. split; [exact F2|].
    split; [exact HR|]. split; [discriminate|].
    intros j Hj N. rewrite <- (HG1 j N). apply E3; [lia|exact N].
  - assert (HAg1 : a_ints (get_agent W1 a) = stacks).
    { rewrite EW1. destruct (i_wait _); [change (get_agent (put_int (set_reads W0 rd) i ?x) a) with (get_agent W0 a)|change (get_agent (set_reads W0 rd) a) with (get_agent W0 a)]; now rewrite HA0. }
    unfold finish in E. rewrite HAg1 in E.
    assert (Hnth : nth (List.length before) stacks [] = i :: rest) by (rewrite Est, app_nth2, Nat.sub_diag by lia; reflexivity).
    rewrite Hnth in E. cbn [List.tl] in E. cbv zeta in E.
    assert (Hupd : upd stacks (List.length before) rest = before ++ rest :: after) by (rewrite Est; apply upd_mid).
    assert (HCn : forall W2, a_ints (get_agent W2 a) = before ++ rest :: after -> @None nat = None -> List.concat (a_ints (get_agent W2 a)) = List.concat (repeat [] ne ++ before) ++ rest ++ List.concat after).
    { intros W2 -> _. rewrite !concat_app. cbn. replace (List.concat (repeat [] ne)) with (@nil nat) by (clear; induction ne; auto). reflexivity. }
    assert (Hax : forall x, get_agent (put_agent W1 a x) a = x).
    { intro x. rewrite get_put, Nat.eqb_refl. destruct (Nat.ltb_spec a (List.length (w_agents W1))); [reflexivity|lia]. }
    destruct rest as [|c below].
    + inversion E; subst W'. destruct HFW as [F1 F2]; [cbn; lia|]. split; [exact F1|]. split; [exact F2|]. split; [discriminate|].
      split; [intros _; rewrite Hax; cbn [a_ints set_a_ints]; rewrite remove_empty_concat, Hupd; rewrite !concat_app; cbn; replace (List.concat (repeat [] ne)) with (@nil nat) by (clear; induction ne; auto); reflexivity|].
      intros j Hj N. left. now apply HG1.
    + set (W2 := put_agent W1 a _) in E.
      assert (HG2 : forall j, j <> i -> get_int W2 j = get_int W j) by (intros j N; now apply HG1).
      change (w_reads W1) with (w_reads W2) in HFW.
      assert (HA2 : a_ints (get_agent W2 a) = before ++ (c :: below) :: after) by (unfold W2; rewrite Hax; exact Hupd).
      assert (Hc : c <> i).
      { intros ->. destruct HT as [T1 _]. specialize (T1 a). rewrite Hne, Est in T1. rewrite !concat_app in T1. cbn in T1.
        apply nodup_app_r in T1. apply nodup_app_r in T1. inversion T1; subst. apply H1. now left. }
      destruct (i_call (get_int W2 i)) as [ct|].
      2:{ inversion E; subst W'. destruct HFW as [F1 F2]; [lia|]. split; [exact F1|]. split; [exact F2|]. split; [discriminate|]. split; [now apply HCn|]. intros j Hj N. left. now apply HG2. }
      destruct (i_head (get_int W2 i)) as [h|].
      2:{ inversion E; subst W'. destruct HFW as [F1 F2]; [lia|]. split; [exact F1|]. split; [exact F2|]. split; [discriminate|]. split; [now apply HCn|]. intros j Hj N. left. now apply HG2. }
      destruct (freeze n h _ _) as [[fz|e] [mm k]].
      2:{ inversion E; subst W'. destruct HFW as [F1 F2]; [cbn; lia|]. split; [exact F1|]. split; [exact F2|]. split; [discriminate|]. split; [now apply HCn|]. intros j Hj N. left. now apply HG2. }
      destruct (unify n ct fz _) as [x st'].
      assert (EW' : W' = put_int (set_nv W2 k) c (set_i_bst (get_int (set_nv W2 k) c) st')) by (destruct x as [[]|]; inversion E; reflexivity).
      assert (Hr : r <> Ok false) by (destruct x as [[]|]; inversion E; discriminate).
      rewrite EW' in *. destruct HFW as [F1 F2]; [cbn; lia|]. split; [exact F1|]. split; [exact F2|]. split; [exact Hr|]. split; [now apply HCn|]. intros j Hj N.
      rewrite get_put_int. destruct (Nat.eqb_spec c j) as [<-|]; [|left; now apply HG2].
      right. split; [now exists below|]. exists st'. destruct (Nat.ltb_spec c (List.length (w_ints (set_nv W2 k)))); [|exfalso; cbn in *; lia].
      f_equal. now apply HG2.
Qed.
End WithPy.
