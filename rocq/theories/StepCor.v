(** Consequences for subgoals and .wait. *)
From Verif Require Import Base Num Term Unify FuelFacts Str World Engine Step FuelEngine Ast Build Reach QuerySpec QueryBase BelSpec PlanSpec EventFacts Effects EffFacts ReachFacts StepSpec StepFacts NestFacts.

Section WithPy.
Context {PY : Py} {FR : Front}.
Notation Any := (fun _ : plan => True).

Lemma reach_any W : reach W -> sane Any W /\ tidy W.
Proof. intro H. split; [apply reach_sane; auto|now apply reach_tidy]. Qed.

Theorem reach_step n a W r W' : reach W -> (a < List.length (w_agents W))%nat -> step n a W = (r, W') ->
  (r = Ok false /\ Forall (blocked W W') (a_ints (get_agent W a)) /\ w_ints W' = w_ints W) \/
  exists before i rest after, a_ints (get_agent W a) = before ++ (i :: rest) :: after /\ Forall (blocked W W') before /\ runnable W W' i /\
    r <> Ok false /\ (i_pc (get_int W i) = None -> List.concat (a_ints (get_agent W' a)) = List.concat before ++ rest ++ List.concat after) /\
    forall j, (j < List.length (w_ints W))%nat -> j <> i ->
      match i_pc (get_int W i) with
      | Some _ => untouched (get_int W j) (get_int W' j)
      | None => get_int W' j = get_int W j \/ (exists below, rest = j :: below) /\ exists st, get_int W' j = set_i_bst (get_int W j) st
      end.
Proof. intros H Ha E. destruct (reach_any _ H) as [HS HT]. eapply step_spec; eassumption. Qed.

Lemma nodup_concat_in (l : list (list nat)) s : NoDup (List.concat l) -> In s l -> NoDup s.
Proof.
  induction l; cbn; intros H []; [subst; eapply nodup_app_l; eassumption|]. apply IHl; [eapply nodup_app_r; eassumption|assumption].
Qed.
Lemma nodup_same_stack (l : list (list nat)) s s' x : NoDup (List.concat l) -> In s l -> In s' l -> In x s -> In x s' -> s = s'.
Proof.
  induction l as [|z l IH]; cbn; intros H Hs Hs' Hx Hx'; [destruct Hs|]. destruct Hs as [->|Hs], Hs' as [->|Hs']; auto.
  - exfalso. eapply nodup_disj; [exact H|exact Hx|]. apply in_concat. now exists s'.
  - exfalso. eapply nodup_disj; [exact H|exact Hx'|]. apply in_concat. now exists s.
  - eapply IH; eauto. eapply nodup_app_r; eassumption.
Qed.

(** What is below another intention is not on top of a stack. *)
Lemma above_not_top W a b x y rest : tidy W -> above x y (a_ints (get_agent W b)) -> In (y :: rest) (a_ints (get_agent W a)) -> False.
Proof.
  intros [T1 T2] (l1 & l2 & l3 & H) Hy.
  assert (b = a) as ->.
  { apply (T2 b a y); apply in_concat; eexists; [split; [exact H|]|split; [exact Hy|now left]]. apply in_app_iff. right. right. apply in_app_iff. right. now left. }
  assert (E : l1 ++ x :: l2 ++ y :: l3 = y :: rest).
  { eapply nodup_same_stack with (x := y); [apply T1|exact H|exact Hy| |now left]. apply in_app_iff. right. right. apply in_app_iff. right. now left. }
  pose proof (nodup_concat_in _ _ (T1 a) H) as HN. rewrite E in HN. apply NoDup_cons_iff in HN. destruct HN as [HN _]. apply HN.
  destruct l1 as [|z l1]; cbn in E; inversion E; subst; apply in_app_iff; right; [now left|]. right. apply in_app_iff. right. now left.
Qed.

Theorem beneath_waits n a W r W' : reach W -> (a < List.length (w_agents W))%nat -> step n a W = (r, W') ->
  forall b x y, above x y (a_ints (get_agent W b)) ->
  (above x y (a_ints (get_agent W' b)) \/ ~ In x (List.concat (a_ints (get_agent W' b)))) /\
  (untouched (get_int W y) (get_int W' y) \/
   exists z below, In (z :: y :: below) (a_ints (get_agent W b)) /\ i_pc (get_int W z) = None /\
     ~ In z (List.concat (a_ints (get_agent W' b))) /\ exists st, get_int W' y = set_i_bst (get_int W y) st).
Proof.
  intros H Ha E b x y HA. destruct (reach_any _ H) as [HS HT]. split; [eapply step_nest; eassumption|].
  assert (Hy : (y < List.length (w_ints W))%nat).
  { destruct HS as (_ & _ & HB). apply (HB b). destruct HA as (l1 & l2 & l3 & HA). apply in_concat. eexists. split; [exact HA|]. apply in_app_iff. right. right. apply in_app_iff. right. now left. }
  destruct (step_spec _ _ _ _ _ HS HT Ha E) as [(_ & _ & EI)|(before & i & rest & after & Est & _ & _ & _ & HC & HJ)].
  - left. unfold get_int. rewrite EI. apply untouched_refl.
  - assert (Hyi : y <> i).
    { intros ->. eapply (above_not_top W a b); [exact HT|exact HA|]. rewrite Est. apply in_app_iff. right. now left. }
    specialize (HJ y Hy Hyi). destruct (i_pc (get_int W i)) eqn:Epc; [left; exact HJ|]. destruct HJ as [->|[[below ->] Hst]]; [left; apply untouched_refl|].
    assert (Hin : In (i :: y :: below) (a_ints (get_agent W a))) by (rewrite Est; apply in_app_iff; right; now left).
    assert (b = a) as ->.
    { destruct HT as [_ T2]. destruct HA as (l1 & l2 & l3 & HA). apply (T2 b a y); apply in_concat; eexists; [split; [exact HA|]|split; [exact Hin|right; now left]]. apply in_app_iff. right. right. apply in_app_iff. right. now left. }
    right. exists i, below. split; [exact Hin|]. split; [exact Epc|]. split; [|exact Hst].
    rewrite (HC eq_refl). destruct HT as [T1 _]. specialize (T1 a). rewrite Est, concat_app in T1. cbn [List.concat] in T1. cbn [app] in T1.
    apply NoDup_remove_2 in T1. exact T1.
Qed.

Lemma outside_run n a tr gt t delayed W r W' : reach W -> (a < List.length (w_agents W))%nat -> outside_call n a tr gt t delayed W = (r, W') ->
  (forall y, (y < List.length (w_ints W))%nat -> untouched (get_int W y) (get_int W' y)) /\
  forall b x y, above x y (a_ints (get_agent W b)) -> above x y (a_ints (get_agent W' b)) \/ ~ In x (List.concat (a_ints (get_agent W' b))).
Proof.
  intros H Ha E. destruct (reach_any _ H) as [HS HT]. unfold outside_call, with_new in E. cbn in E.
  set (W1 := set_ints W (w_ints W ++ [int0])) in E.
  destruct (call n a tr gt t (List.length (w_ints W)) delayed (bst0, W1)) as [r0 [st0 W2]] eqn:Ec. inversion E; subst. cbn [snd].
  assert (HS1 : sane Any W1) by (eapply geff_sane; [exact any_args|apply (g_eff _ false _ 0%nat 0%nat), ef_new|exact HS]).
  assert (Hgi : forall j, (j < List.length (w_ints W))%nat -> get_int W1 j = get_int W j) by (intros j Hj; unfold get_int, W1; cbn; now apply app_nth1).
  assert (HL : List.length (w_ints W1) = S (List.length (w_ints W))) by (unfold W1; cbn; rewrite app_length; cbn; lia).
  apply call_effs in Ec; [|exact HS1|exact Ha]. split.
  - intros y Hy. rewrite <- (Hgi y Hy). eapply effs_other; [exact Ec|lia|lia|lia].
  - intros b x y HA. eapply effs_nest; [exact Ec|exact HT| |exact HA]. rewrite HL.
    destruct HS as (_ & _ & HB). apply above_in in HA. specialize (HB b x HA). lia.
Qed.

(** ** .wait *)
Lemma pick_free stacks : forall pos W before i rest after, stacks = before ++ (i :: rest) :: after -> Forall (stuck W) before -> free W i ->
  fst (pick stacks pos W) = Some ((pos + List.length before)%nat, i).
Proof.
  induction stacks as [|s stacks IH]; intros pos W before i rest after E HF HI; [now destruct before|].
  destruct before as [|s' before]; cbn in E; inversion E; subst; clear E.
  - cbn. destruct (i_wait (get_int W i)) as [w|] eqn:Ew; [|cbn; now rewrite Nat.add_0_r].
    destruct (HI w Ew (w_reads W) (N.le_refl _)) as (u & E1 & E2). unfold poll. rewrite E1, E2. cbn. now rewrite Nat.add_0_r.
  - inversion HF; subst. destruct s' as [|j s'].
    + cbn. rewrite (IH (S pos) W before i rest after eq_refl H2 HI). cbn. do 2 f_equal. lia.
    + cbn. destruct H1 as (w & -> & Hk). unfold poll. destruct (wt_until w) as [u|] eqn:Eu.
      * destruct (Hk (w_reads W) (N.le_refl _)) as [X|(u' & E1 & E2)]; [congruence|]. rewrite E1 in Eu. inversion Eu; subst. rewrite E2.
        rewrite (IH (S pos) _ before i rest after eq_refl); [do 2 f_equal; cbn; lia| |].
        -- eapply Forall_impl; [|exact H2]. intros [|j' s'']; cbn; [auto|]. intros (w' & A1 & A2). exists w'. split; [exact A1|]. intros k Hkk. apply A2. lia.
        -- intros w' A1 k Hkk. apply (HI w' A1). cbn in Hkk. lia.
      * rewrite (IH (S pos) _ before i rest after eq_refl H2 HI). do 2 f_equal. cbn. lia.
Qed.

Theorem free_runs n a W r W' before i rest after : (a < List.length (w_agents W))%nat -> step n a W = (r, W') ->
  a_ints (get_agent W a) = before ++ (i :: rest) :: after -> Forall (stuck W) before -> free W i ->
  exists pos, nth_error (drop_empty (a_ints (get_agent W a))) pos = Some (i :: rest) /\ executes n a pos i W r W'.
Proof.
  intros Ha E Est HF HI.
  assert (HB : exists before', drop_empty (a_ints (get_agent W a)) = before' ++ (i :: rest) :: after /\ Forall (stuck W) before').
  { rewrite Est. clear Est. induction before as [|[|j s] before IH]; cbn.
    - exists []. now split.
    - inversion HF; subst. destruct (IH H2) as (b' & A1 & A2). exists b'. now split.
    - now exists ((j :: s) :: before). }
  destruct HB as (before' & Ed & HF'). exists (List.length before'). split; [rewrite Ed, nth_error_app2, Nat.sub_diag by lia; reflexivity|].
  unfold step in E. cbv zeta in E. set (W0 := put_agent W a _) in *.
  assert (HA0 : get_agent W0 a = set_a_ints (get_agent W a) (drop_empty (a_ints (get_agent W a)))).
  { unfold W0. rewrite get_put, Nat.eqb_refl. destruct (Nat.ltb_spec a (List.length (w_agents W))); [reflexivity|lia]. }
  rewrite HA0 in E. cbn [a_ints set_a_ints] in E.
  pose proof (pick_free _ 0%nat W0 before' i rest after Ed HF' HI) as HP.
  destruct (pick (drop_empty (a_ints (get_agent W a))) 0 W0) as [o W1] eqn:Ep. cbn in HP. subst o. destruct (pick_spec _ _ _ _ _ Ep) as (rd & Hrd & HPk).
  destruct HPk as (before2 & rest2 & after2 & _ & _ & _ & _ & EW1).
  exists W1. split; [now exists rd|].
  assert (HPc : i_pc (get_int W1 i) = i_pc (get_int W i)).
  { rewrite EW1. change (get_int W0 i) with (get_int W i). destruct (i_wait (get_int W i)); [|reflexivity]. rewrite get_put_int, Nat.eqb_refl. destruct (Nat.ltb_spec i (List.length (w_ints (set_reads W0 rd)))) as [L|L]; [reflexivity|].
    unfold get_int. rewrite nth_overflow by exact L. reflexivity. }
  rewrite HPc in E. destruct (i_pc (get_int W i)); exact E.
Qed.

(** A finished subgoal passes its results on. *)
Theorem results_passed n a W r W' before i c below after ct h fz m k b st' : (a < List.length (w_agents W))%nat -> step n a W = (r, W') ->
  tidy W -> (c < List.length (w_ints W))%nat ->
  a_ints (get_agent W a) = before ++ (i :: c :: below) :: after -> Forall (stuck W) before -> free W i -> i_pc (get_int W i) = None ->
  i_call (get_int W i) = Some ct -> i_head (get_int W i) = Some h ->
  freeze n h (b_scope (i_bst (get_int W i))) ([], w_nv W) = (Ok fz, (m, k)) -> unify n ct fz (i_bst (get_int W c)) = (Ok b, st') ->
  r = (if b then Ok true else Err ERuntime) /\ get_int W' c = set_i_bst (get_int W c) st' /\
  a_ints (get_agent W' a) = drop_empty before ++ (c :: below) :: after.
Proof.
  intros Ha E HT Hc Est HF HI Hpc Hct Hh Hfz Hu.
  destruct (free_runs _ _ _ _ _ _ _ _ _ Ha E Est HF HI) as (pos & Hpos & W1 & HFe & HX). rewrite Hpc in HX.
  assert (Ed : drop_empty (a_ints (get_agent W a)) = drop_empty before ++ (i :: c :: below) :: after).
  { rewrite Est. clear. induction before as [|[|] before IH]; cbn; auto. }
  assert (ND : NoDup (List.concat (drop_empty before ++ (i :: c :: below) :: after))) by (rewrite <- Ed, drop_empty_concat; apply HT).
  assert (Hci : c <> i).
  { intros ->. rewrite concat_app in ND. apply nodup_app_r in ND. cbn in ND. apply NoDup_cons_iff in ND. apply (proj1 ND). now left. }
  assert (Ep : pos = List.length (drop_empty before)).
  { rewrite Ed in Hpos. clear - Hpos ND. revert pos Hpos ND. induction (drop_empty before) as [|s l IH]; intros [|pos] Hp ND; cbn in *; auto.
    - exfalso. apply nth_error_In in Hp. cbn in ND. apply NoDup_cons_iff in ND. apply (proj1 ND). right. apply in_app_iff. right. apply in_concat. eexists. split; [exact Hp|]. now left.
    - exfalso. inversion Hp; subst. eapply nodup_disj; [exact ND|now left|]. apply in_concat. exists (i :: c :: below). split; [apply in_app_iff; right; now left|now left].
    - f_equal. apply IH; [exact Hp|]. eapply nodup_app_r; eassumption. }
  subst pos. destruct (fetched_ok _ _ _ _ Ha HFe) as (F1 & F2 & F3 & _ & _ & F6).
  assert (G1 : i_call (get_int W1 i) = Some ct /\ i_head (get_int W1 i) = Some h /\ i_bst (get_int W1 i) = i_bst (get_int W i)).
  { specialize (F6 i). unfold same_run in F6. destruct (get_int W1 i), (get_int W i). cbn in *. inversion F6; subst. auto. }
  destruct HFe as (rd & _ & EW1). cbv zeta in EW1.
  assert (G2 : get_int W1 c = get_int W c).
  { rewrite EW1. destruct (i_wait (get_int W i)); [|reflexivity]. rewrite get_put_int. destruct (Nat.eqb_spec i c); [congruence|reflexivity]. }
  assert (G3 : w_nv W1 = w_nv W) by (rewrite EW1; destruct (i_wait (get_int W i)); reflexivity).
  specialize (F3 a). rewrite Nat.eqb_refl, Ed in F3. destruct G1 as (C1 & C2 & C3).
  unfold finish in HX. rewrite F3 in HX. rewrite app_nth2, Nat.sub_diag in HX by lia. cbn [nth List.tl] in HX. cbv zeta in HX. rewrite upd_mid in HX.
  set (W2 := put_agent W1 a _) in HX.
  change (get_int W2 i) with (get_int W1 i) in HX. rewrite C1, C2, C3 in HX. change (w_nv W2) with (w_nv W1) in HX. rewrite G3, Hfz in HX.
  change (get_int (set_nv W2 k) c) with (get_int W1 c) in HX. rewrite G2, Hu in HX.
  assert (EW' : W' = put_int (set_nv W2 k) c (set_i_bst (get_int W c) st')) by (destruct b; inversion HX; reflexivity).
  split; [destruct b; inversion HX; reflexivity|]. rewrite EW'. split.
  - rewrite get_put_int, Nat.eqb_refl. destruct (Nat.ltb_spec c (List.length (w_ints (set_nv W2 k)))) as [L|L]; [reflexivity|]. exfalso. cbn in L. rewrite F1 in L. lia.
  - change (get_agent (put_int (set_nv W2 k) c ?x) a) with (get_agent W2 a). unfold W2. rewrite get_put, Nat.eqb_refl.
    destruct (Nat.ltb_spec a (List.length (w_agents W1))); [reflexivity|lia].
Qed.

(** An intention whose time has not come and for which nothing has happened. *)
Theorem waiting_stays n a W r W' i w : reach W -> (a < List.length (w_agents W))%nat -> step n a W = (r, W') ->
  (i < List.length (w_ints W))%nat -> i_wait (get_int W i) = Some w -> (forall k, (w_reads W <= k < w_reads W')%N -> ~ overdue w k) ->
  untouched (get_int W i) (get_int W' i) \/
  exists z below b st, In (z :: i :: below) (a_ints (get_agent W b)) /\ get_int W' i = set_i_bst (get_int W i) st.
Proof.
  intros H Ha E Hi Hw Hk. destruct (reach_step _ _ _ _ _ H Ha E) as [(_ & _ & EI)|(before & x & rest & after & Est & _ & HR & _ & _ & HJ)].
  - left. unfold get_int. rewrite EI. apply untouched_refl.
  - assert (N : i <> x).
    { intros <-. destruct HR as [HR|(w' & k & E1 & E2 & E3)]; [congruence|]. rewrite Hw in E1. inversion E1; subst. eapply Hk; eassumption. }
    specialize (HJ i Hi N). destruct (i_pc (get_int W x)); [now left|]. destruct HJ as [->|[[below ->] [st Hst]]]; [left; apply untouched_refl|].
    right. exists x, below, a, st. split; [rewrite Est; apply in_app_iff; right; now left|exact Hst].
Qed.
Fixpoint groundeds (n : nat) (s : scope) (ts : list term) : res (list term) :=
  match ts with
  | [] => Ok []
  | t :: ts' => match grounded n t s with
                | Err e => Err e
                | Ok v => match groundeds n s ts' with Ok vs => Ok (v :: vs) | Err e => Err e end
                end
  end.
Lemma m_groundeds_eq n args st W : m_groundeds n args (st, W) = (groundeds n (b_scope st) args, (st, W)).
Proof.
  induction args as [|t args IH]; cbn; [reflexivity|]. unfold mbind, m_grounded. cbn [fst snd].
  destruct (grounded n t (b_scope st)); [|reflexivity]. rewrite IH. destruct (groundeds n (b_scope st) args); reflexivity.
Qed.

Lemma groundeds_all n s args : forall vs, groundeds n s args = Ok vs -> Forall2 (fun t v => grounded n t s = Ok v) args vs.
Proof.
  induction args as [|t args IH]; cbn; intros vs H; [inversion H; constructor|]. destruct (grounded n t s) eqn:E; [|discriminate H].
  destruct (groundeds n s args); inversion H; subst. constructor; auto.
Qed.

Theorem wait_waits n a i f args annots st W g st' W' : (i < List.length (w_ints W))%nat ->
  resume n a i (GQ (QAct AWait (TLit f args annots))) (st, W) = (Ok (Some g), (st', W')) ->
  exists m vs w, Forall2 (fun t v => grounded m t (b_scope st) = Ok v) args vs /\ waits_for (w_reads W) (w_nv W) vs w /\
    get_int W' i = set_i_wait (get_int W i) (Some w) /\ st' = st /\ (forall j, j <> i -> get_int W' j = get_int W j) /\
    w_agents W' = w_agents W /\ w_sets W' = w_sets W.
Proof.
  intros Hi E. destruct n as [|n]; [discriminate E|]. change (act_wait n i args (st, W) = (Ok (Some g), (st', W'))) in E.
  unfold act_wait in E. unfold mbind at 1 in E. rewrite m_groundeds_eq in E.
  destruct (groundeds n (b_scope st) args) as [vs|e] eqn:Eg; [|discriminate E].
  assert (Fin : forall ev u W1, w_ints W1 = w_ints W -> w_agents W1 = w_agents W -> w_sets W1 = w_sets W ->
    (on_world (fun W0 => (tt, put_int W0 i (set_i_wait (get_int W0 i) (Some (mkwaiter ev u))))) ;; mret (Some GStop))%M (st, W1) = (Ok (Some g), (st', W')) ->
    waits_for (w_reads W) (w_nv W) vs (mkwaiter ev u) ->
    exists m vs0 w, Forall2 (fun t v => grounded m t (b_scope st) = Ok v) args vs0 /\ waits_for (w_reads W) (w_nv W) vs0 w /\
      get_int W' i = set_i_wait (get_int W i) (Some w) /\ st' = st /\ (forall j, j <> i -> get_int W' j = get_int W j) /\
      w_agents W' = w_agents W /\ w_sets W' = w_sets W).
  { intros ev u W1 E1 E2 E3 EX HW. cbn in EX. inversion EX; subst st' W'. exists n, vs, (mkwaiter ev u).
    assert (HG : forall j, get_int W1 j = get_int W j) by (intro j; unfold get_int; now rewrite E1).
    split; [now apply groundeds_all|]. split; [exact HW|]. split; [rewrite get_put_int, Nat.eqb_refl, E1|].
    { destruct (Nat.ltb_spec i (List.length (w_ints W))); [now rewrite HG|lia]. }
    split; [reflexivity|]. split; [|split; [exact E2|exact E3]].
    intros j Hj. rewrite get_put_int. destruct (Nat.eqb_spec i j); [congruence|apply HG]. }
  destruct vs as [|v1 [|v2 [|v3 vs]]]; try discriminate E.
  - unfold mbind at 1 in E. cbn [mret] in E. destruct v1; cbn [is_number] in E; try discriminate E.
    + unfold mbind at 1, mret at 1 in E. unfold mbind at 1, mret at 1 in E.
      unfold mbind at 1 in E. unfold mbind at 1, m_time, on_world in E. cbn [fst snd] in E. unfold mbind at 1, lift in E. cbn [fst snd] in E.
      destruct (num_op fpow NTruediv x (NInt 1000)) as [secs|] eqn:E1; [|discriminate E]. unfold mbind at 1, lift in E. cbn [fst snd] in E.
      destruct (num_op fpow NAdd (py_time (w_reads W)) secs) as [u|] eqn:E2; [|discriminate E]. cbn [mret fst snd] in E.
      eapply Fin; [| | |exact E|]; try reflexivity. apply wf_time. now exists secs.
    + unfold mbind at 1, mret at 1 in E. unfold mbind at 1 in E. unfold mbind at 1, m_world in E. cbn [fst snd] in E. unfold mbind at 1, lift in E. cbn [fst snd] in E.
      destruct (fr_event _ (w_nv W)) as [[e nv']|] eqn:E1; [|discriminate E]. cbn [fst snd] in E. unfold mbind at 1, put_world, on_world in E. cbn [fst snd mret] in E.
      unfold mbind at 1, mret at 1 in E. eapply Fin; [| | |exact E|]; try reflexivity. apply wf_event. now exists nv'.
  - unfold mbind at 1 in E. cbn [mret] in E. destruct v2; try discriminate E. unfold mbind at 1, mret at 1 in E. destruct v1; try discriminate E.
    unfold mbind at 1 in E. unfold mbind at 1, m_world in E. cbn [fst snd] in E. unfold mbind at 1, lift in E. cbn [fst snd] in E.
    destruct (fr_event _ (w_nv W)) as [[e nv']|] eqn:E0; [|discriminate E]. cbn [fst snd] in E. unfold mbind at 1, put_world, on_world in E. cbn [fst snd mret] in E.
    unfold mbind at 1 in E. unfold mbind at 1, m_time, on_world in E. cbn [fst snd] in E. unfold mbind at 1, lift in E. cbn [fst snd] in E.
    destruct (num_op fpow NTruediv x (NInt 1000)) as [secs|] eqn:E1; [|discriminate E]. unfold mbind at 1, lift in E. cbn [fst snd] in E.
    change (w_reads (set_nv W nv')) with (w_reads W) in E.
    destruct (num_op fpow NAdd (py_time (w_reads W)) secs) as [u|] eqn:E2; [|discriminate E]. cbn [mret fst snd] in E.
    eapply Fin; [| | |exact E|]; try reflexivity. apply wf_both; [now exists nv'|now exists secs].
Qed.
End WithPy.
