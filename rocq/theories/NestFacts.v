(** Intention stacks nest. *)
From Verif Require Import Base Num Term Unify Str World Engine Step FuelEngine Ast Build Reach QuerySpec QueryBase BelSpec PlanSpec EventFacts Effects EffFacts ReachFacts StepSpec StepFacts.
From Coq Require Import Permutation.

Section WithPy.
Context {PY : Py} {FR : Front}.

(** Above, or gone. *)
Definition nested (x y : nat) (old new : list (list nat)) : Prop :=
  above x y old -> above x y new \/ ~ In x (List.concat new).

Lemma above_in x y stacks : above x y stacks -> In x (List.concat stacks).
Proof. intros (l1 & l2 & l3 & H). apply in_concat. eexists. split; [exact H|]. apply in_app_iff. right. now left. Qed.
Lemma above_cons x y s stacks : above x y stacks -> above x y (s :: stacks).
Proof. intros (l1 & l2 & l3 & H). exists l1, l2, l3. now right. Qed.
Lemma above_app x y l stacks : above x y stacks -> above x y (stacks ++ l).
Proof. intros (l1 & l2 & l3 & H). exists l1, l2, l3. apply in_app_iff. now left. Qed.

Lemma above_push x y ci ni stacks : forall l, push_on ci ni stacks = Ok (Some l) -> above x y stacks -> above x y l.
Proof.
  induction stacks as [|[|i rest] stacks IH]; intros l E H; cbn in E; try discriminate E.
  destruct H as (l1 & l2 & l3 & [H|H]).
  - destruct (Nat.eqb i ci).
    + inversion E; subst. exists (ni :: l1), l2, l3. left. cbn. now rewrite <- H.
    + destruct (push_on ci ni stacks) as [[l'|]|e]; inversion E; subst. exists l1, l2, l3. left. now rewrite <- H.
  - destruct (Nat.eqb i ci).
    + inversion E; subst. exists l1, l2, l3. now right.
    + destruct (push_on ci ni stacks) as [[l'|]|e]; inversion E; subst. apply above_cons, IH; [reflexivity|]. now exists l1, l2, l3.
Qed.

Lemma nodup_app_l {A} (l l' : list A) : NoDup (l ++ l') -> NoDup l.
Proof. induction l; cbn; intro H; [constructor|]. apply NoDup_cons_iff in H. destruct H as [H1 H2]. constructor; [|auto]. intro Hx. apply H1, in_app_iff. now left. Qed.
Lemma nodup_disj {A} (l l' : list A) x : NoDup (l ++ l') -> In x l -> In x l' -> False.
Proof.
  induction l; cbn; intros H Hl Hx; [assumption|]. apply NoDup_cons_iff in H. destruct H as [H1 H2]. destruct Hl as [->|Hl]; [apply H1, in_app_iff; now right|auto].
Qed.

(** Taking some tops away. *)
Lemma above_tops x y old new : Forall2 (fun o n => n = o \/ exists i : nat, o = i :: n) old new -> NoDup (List.concat old) -> nested x y old new.
Proof.
  induction 1 as [|o n os ns H H2 IH]; intros HN HA; [now left|]. cbn in HN.
  destruct HA as (l1 & l2 & l3 & [HA|HA]).
  - destruct H as [-> | [i ->]]; [left; exists l1, l2, l3; now left|].
    destruct l1 as [|j l1]; cbn in HA; inversion HA; subst.
    + right. cbn. intro Hx. cbn in HN. apply in_app_iff in Hx. apply NoDup_cons_iff in HN; destruct HN as [HN _]; apply HN, in_app_iff. destruct Hx as [Hx|Hx]; [now left|right]. eapply unach_sub; eassumption.
    + left. exists l1, l2, l3. now left.
  - assert (HX : above x y os) by now exists l1, l2, l3.
    destruct (IH (nodup_app_r _ _ HN) HX) as [HI|HI]; [left; now apply above_cons|right]. cbn. intro Hx. apply in_app_iff in Hx. destruct Hx as [Hx|Hx]; [|auto].
    eapply nodup_disj; [exact HN| |exact (above_in _ _ _ HX)]. destruct H as [-> | [i ->]]; [exact Hx|now right].
Qed.

Lemma above_drop x y stacks : above x y (drop_empty stacks) <-> above x y stacks.
Proof.
  induction stacks as [|[|i s] stacks IH]; cbn; try tauto. rewrite IH. split; intros (l1 & l2 & l3 & H); exists l1, l2, l3; [now right|].
  destruct H as [H|H]; [now destruct l1|exact H].
Qed.
Lemma above_remove x y stacks : above x y (remove_empty stacks) <-> above x y stacks.
Proof.
  induction stacks as [|[|i s] stacks IH]; cbn; [tauto| |].
  - split; intros (l1 & l2 & l3 & H); exists l1, l2, l3; [now right|]. destruct H as [H|H]; [now destruct l1|exact H].
  - split; intros (l1 & l2 & l3 & [H|H]); try (exists l1, l2, l3; now left); apply above_cons, IH; now exists l1, l2, l3.
Qed.

Section Eff.
Variable Pp : plan -> Prop.

Lemma eff_nest lo cur W W' a x y : eff Pp lo cur W W' -> tidy W -> nested x y (a_ints (get_agent W a)) (a_ints (get_agent W' a)).
Proof.
  intros H [HT _]. assert (Same : forall W2, a_ints (get_agent W2 a) = a_ints (get_agent W a) -> nested x y (a_ints (get_agent W a)) (a_ints (get_agent W2 a))).
  { intros W2 -> HA. now left. }
  assert (Put : forall W1 b ag, get_agent W1 a = get_agent W a -> (a = b -> nested x y (a_ints (get_agent W a)) (a_ints ag)) -> nested x y (a_ints (get_agent W a)) (a_ints (get_agent (put_agent W1 b ag) a))).
  { intros W1 b ag E1 E2. rewrite get_put. destruct (Nat.eqb_spec b a) as [->|]; [|rewrite E1; intro HA; now left].
    destruct (Nat.ltb _ _); [now apply E2|]. intro HA. right. intros []. }
  destruct H; try (apply Same; reflexivity).
  - unfold bel_ref. destruct (assoc _ _ _); [intro HA; now left|]. cbn [snd]. apply Put; [reflexivity|]. intros <- HA. now left.
  - unfold plan_ref. destruct (assoc _ _ _); [intro HA; now left|]. cbn [snd]. apply Put; [reflexivity|]. intros <- HA. now left.
  - apply Put; [reflexivity|]. intros <- HA. left. cbn [a_ints set_a_ints]. destruct H2 as [-> | [ci E]]; [now apply above_app|eapply above_push; eassumption].
  - apply Put; [reflexivity|]. intros <-. cbn [a_ints set_a_ints]. apply above_tops; [exact H|apply HT].
Qed.

Lemma effs_nest lo cur W W' a x y : effs Pp lo cur W W' -> tidy W -> (x < lo)%nat -> nested x y (a_ints (get_agent W a)) (a_ints (get_agent W' a)).
Proof.
  intros H HT Hx. induction H; [intro HA; now left|]. intro HA.
  destruct (eff_nest _ _ _ _ a x y H HT HA) as [HA1|HA1]; [now apply IHeffs; [eapply eff_tidy; eassumption|]|].
  right. clear - H0 HA1 Hx. induction H0; [assumption|]. apply IHeffs. intro Hin. destruct (eff_stack _ _ _ _ _ H _ _ Hin) as [H1|[H1 _]]; [auto|lia].
Qed.
End Eff.

(** ** The shape of a step *)
Notation Any := (fun _ : plan => True).

Lemma step_shape n a W r W' : (a < List.length (w_agents W))%nat -> step n a W = (r, W') ->
  (r = Ok false /\ exists rd, (w_reads W <= rd)%N /\ W' = set_reads (put_agent W a (set_a_ints (get_agent W a) (drop_empty (a_ints (get_agent W a))))) rd) \/
  exists before i rest after W1, drop_empty (a_ints (get_agent W a)) = before ++ (i :: rest) :: after /\ fetched a i W W1 /\
    match i_pc (get_int W i) with
    | Some _ => run_instr n a i W1 = (r, W')
    | None => finish n a (List.length before) i W1 = (r, W')
    end.
Proof.
  intros Ha E. unfold step in E. cbv zeta in E. set (W0 := put_agent W a _) in *.
  assert (HA0 : get_agent W0 a = set_a_ints (get_agent W a) (drop_empty (a_ints (get_agent W a)))).
  { unfold W0. rewrite get_put, Nat.eqb_refl. destruct (Nat.ltb_spec a (List.length (w_agents W))); [reflexivity|lia]. }
  rewrite HA0 in E. cbn [a_ints set_a_ints] in E.
  destruct (pick (drop_empty (a_ints (get_agent W a))) 0 W0) as [o W1] eqn:Ep. destruct (pick_spec _ _ _ _ _ Ep) as (rd & Hrd & HPk).
  destruct o as [[pos i]|].
  2:{ left. inversion E; subst. destruct HPk as [-> _]. split; [reflexivity|]. now exists rd. }
  right. destruct HPk as (before & rest & after & Est & Hpos & _ & _ & EW1). cbn in Hpos. subst pos. exists before, i, rest, after, W1.
  split; [exact Est|]. split; [now exists rd|].
  assert (HPc : i_pc (get_int W1 i) = i_pc (get_int W i)).
  { rewrite EW1. change (get_int W0 i) with (get_int W i). destruct (i_wait (get_int W i)); [|reflexivity]. rewrite get_put_int, Nat.eqb_refl. destruct (Nat.ltb_spec i (List.length (w_ints (set_reads W0 rd)))) as [L|L]; [reflexivity|].
    unfold get_int. rewrite nth_overflow by exact L. reflexivity. }
  rewrite HPc in E. destruct (i_pc (get_int W i)); exact E.
Qed.

Lemma fetched_ok a i W W1 : (a < List.length (w_agents W))%nat -> fetched a i W W1 ->
  List.length (w_ints W1) = List.length (w_ints W) /\ List.length (w_agents W1) = List.length (w_agents W) /\
  (forall b, a_ints (get_agent W1 b) = if Nat.eqb a b then drop_empty (a_ints (get_agent W a)) else a_ints (get_agent W b)) /\
  (tidy W -> tidy W1) /\ (sane Any W -> sane Any W1) /\ (forall j, same_run (get_int W j) (get_int W1 j)).
Proof.
  intros Ha (rd & Hrd & E). cbv zeta in E. set (W0 := put_agent W a _) in *.
  assert (HA : forall b, a_ints (get_agent W0 b) = if Nat.eqb a b then drop_empty (a_ints (get_agent W a)) else a_ints (get_agent W b)).
  { intro b. unfold W0. rewrite get_put. destruct (Nat.eqb_spec a b) as [<-|]; [|reflexivity]. destruct (Nat.ltb_spec a (List.length (w_agents W))); [reflexivity|lia]. }
  assert (HG : geffs Any false W W1).
  { eapply geffs_cons; [apply g_ints; rewrite drop_empty_concat; apply sub_refl|]. fold W0.
    eapply geffs_cons; [apply (g_eff _ _ _ 0%nat 0%nat), ef_reads; exact Hrd|]. rewrite E. destruct (i_wait (get_int W i)); [|constructor].
    eapply geffs_one, g_int. }
  split; [rewrite E; destruct (i_wait _); cbn; rewrite ?upd_length; reflexivity|].
  split; [rewrite E; destruct (i_wait _); cbn; rewrite ?upd_length; reflexivity|].
  split; [intro b; rewrite E; destruct (i_wait _); apply HA|].
  split; [apply (geffs_ind_inv _ _ tidy _ _ (geff_tidy _ _) HG)|].
  split; [apply (geffs_ind_inv _ _ (sane Any) _ _ (geff_sane _ _ any_args) HG)|].
  intro j. rewrite E. destruct (i_wait (get_int W i)); [|reflexivity]. rewrite get_put_int. destruct (Nat.eqb_spec i j) as [->|]; [|reflexivity].
  destruct (Nat.ltb_spec j (List.length (w_ints (set_reads W0 rd)))) as [L|L]; [reflexivity|].
  unfold same_run, get_int. rewrite nth_overflow by (cbn in L; exact L). reflexivity.
Qed.

Lemma exec_effs n a i op st W r st' W' : sane Any W -> tidy W -> (a < List.length (w_agents W))%nat ->
  exec_op n a i op (st, W) = (r, (st', W')) ->
  forall b x y, (x < List.length (w_ints W))%nat -> nested x y (a_ints (get_agent W b)) (a_ints (get_agent W' b)).
Proof.
  intros HS HT Ha E b x y Hx.
  assert (Put : forall W2 it, nested x y (a_ints (get_agent W b)) (a_ints (get_agent W2 b)) -> nested x y (a_ints (get_agent W b)) (a_ints (get_agent (put_int W2 i it) b))) by auto.
  assert (Same : nested x y (a_ints (get_agent W b)) (a_ints (get_agent W b))) by (intro; now left).
  destruct op; cbn [exec_op] in E.
  - inversion E; subst. exact Same.
  - apply call_effs in E; auto. eapply effs_nest; eassumption.
  - inversion E; subst. now apply Put.
  - unfold next_or_fail in E. cbn [snd fst] in E. destruct (i_qs (get_int W i)) as [|g gs]; [inversion E; subst; exact Same|].
    destruct (resume n a i g (st, W)) as [z [st2 W2]] eqn:Er. apply resume_effs in Er; auto.
    destruct z as [[g'|]|e]; inversion E; subst; apply Put; eapply effs_nest; eassumption.
  - unfold mbind in E. cbn [m_world snd] in E. destruct (i_qs (get_int W i)) as [|g gs]; inversion E; subst; [exact Same|now apply Put].
  - inversion E; subst. now apply Put.
  - unfold mbind in E. cbn [m_world snd] in E. destruct (i_cps (get_int W i)) as [|g gs]; inversion E; subst; [exact Same|now apply Put].
Qed.

Lemma run_nest n a i W r W' : sane Any W -> tidy W -> (a < List.length (w_agents W))%nat -> run_instr n a i W = (r, W') ->
  forall b x y, (x < List.length (w_ints W))%nat -> nested x y (a_ints (get_agent W b)) (a_ints (get_agent W' b)).
Proof.
  intros HS HT Ha E b x y Hx. unfold run_instr in E. destruct (i_pc _) as [pc|]; [|inversion E; subst; now left].
  destruct (nth_error _ pc) as [ins|]; [|inversion E; subst; now left].
  destruct (exec_op n a i (in_op ins) _) as [z [st' W1]] eqn:Ex. pose proof (exec_effs _ _ _ _ _ _ _ _ _ HS HT Ha Ex b x y Hx) as HN.
  destruct z as [[]|e]; [inversion E; subst; exact HN| |inversion E; subst; exact HN].
  destruct (in_fail ins); inversion E; subst; exact HN.
Qed.

Lemma finish_nest n a pos i W r W' : tidy W -> finish n a pos i W = (r, W') -> forall b x y, nested x y (a_ints (get_agent W b)) (a_ints (get_agent W' b)).
Proof.
  intros [HT _] E b x y. unfold finish in E. set (stacks := upd (a_ints (get_agent W a)) pos (List.tl (nth pos (a_ints (get_agent W a)) []))) in E.
  assert (HN : nested x y (a_ints (get_agent W a)) stacks).
  { apply above_tops; [|apply HT]. unfold stacks. clear. generalize (a_ints (get_agent W a)) as l. assert (HR : forall l : list (list nat), Forall2 (fun o n => n = o \/ exists i : nat, o = i :: n) l l) by (induction l; constructor; auto).
    induction pos as [|pos IH]; intros [|s l]; cbn.
    - constructor.
    - constructor; [|apply HR]. destruct s as [|i s]; cbn; [now left|right; now exists i].
    - constructor.
    - constructor; [now left|apply IH]. }
  assert (Put : forall l, nested x y (a_ints (get_agent W a)) l -> nested x y (a_ints (get_agent W b)) (a_ints (get_agent (put_agent W a (set_a_ints (get_agent W a) l)) b))).
  { intros l Hl. rewrite get_put. destruct (Nat.eqb_spec a b) as [<-|]; [|now left]. destruct (Nat.ltb _ _); [exact Hl|intro; right; intros []]. }
  cbv zeta in E. fold stacks in E. destruct (List.tl _) as [|c below].
  - inversion E; subst. apply Put. intro HA. destruct (HN HA) as [H|H]; [left; now apply above_remove|right]. now rewrite remove_empty_concat.
  - specialize (Put _ HN). set (W1 := put_agent W a _) in *. destruct (i_call _); [|inversion E; subst; exact Put]. destruct (i_head _); [|inversion E; subst; exact Put].
    destruct (freeze _ _ _ _) as [[fz|e] [mm k]]; [|inversion E; subst; exact Put].
    destruct (unify _ _ _ _) as [[[]|] st']; inversion E; subst; exact Put.
Qed.

(** Whatever a step of some agent does: if [x] was above [y], it still is, or it
    has left the stacks. *)
Lemma step_nest n a W r W' : sane Any W -> tidy W -> (a < List.length (w_agents W))%nat -> step n a W = (r, W') ->
  forall b x y, above x y (a_ints (get_agent W b)) -> above x y (a_ints (get_agent W' b)) \/ ~ In x (List.concat (a_ints (get_agent W' b))).
Proof.
  intros HS HT Ha E b x y HA. assert (HX : (x < List.length (w_ints W))%nat).
  { destruct HS as (_ & _ & HB). apply (HB b). now apply above_in in HA. }
  destruct (step_shape _ _ _ _ _ Ha E) as [(-> & rd & Hrd & ->)|(before & i & rest & after & W1 & Est & HF & HE)].
  - left. change (get_agent (set_reads ?w rd) b) with (get_agent w b). rewrite get_put. destruct (Nat.eqb_spec a b) as [<-|]; [|exact HA].
    destruct (Nat.ltb_spec a (List.length (w_agents W))); [now apply above_drop|lia].
  - destruct (fetched_ok _ _ _ _ Ha HF) as (F1 & F2 & F3 & F4 & F5 & _).
    assert (HA1 : above x y (a_ints (get_agent W1 b))).
    { rewrite F3. destruct (Nat.eqb_spec a b) as [<-|]; [now apply above_drop|exact HA]. }
    destruct (i_pc _).
    + eapply run_nest; [exact (F5 HS)|exact (F4 HT)|rewrite F2; exact Ha|exact HE|rewrite F1; exact HX|exact HA1].
    + eapply finish_nest; [exact (F4 HT)|exact HE|exact HA1].
Qed.

Lemma tidy_new W it : tidy W -> tidy (set_ints W (w_ints W ++ [it])).
Proof. auto. Qed.
End WithPy.
