(** .send and .broadcast *)
From Coq Require Import Permutation.
From Verif Require Import Base Num Term Unify TermSpec InstSpec Str World Engine Step Ast Names Build QuerySpec BelSpec PlanSpec Reach StepSpec MildSpec MsgSpec.
From Verif Require Import PyEq FuelFacts FreezeFacts Effects NvFacts EffFacts ReachFacts BelFacts BelAdd OwnFacts QueryBase EventFacts MildFacts MsgFacts.

Lemma find_receiver_names W t r : find_receiver (w_env W) t = Ok r <-> names_agent W t r.
Proof.
  unfold names_agent. split.
  - destruct t; cbn; try discriminate.
    + destruct (assoc _ _ _) eqn:E; [|discriminate]. intro H. inversion H; subst. eauto.
    + destruct args; [|discriminate]. destruct annots; [|discriminate]. destruct (assoc _ _ _) eqn:E; [|discriminate]. intro H. inversion H; subst. eauto.
  - intros (f & [-> | ->] & E); cbn; now rewrite E.
Qed.
Lemma receivers_names W ts rs : rmapl (find_receiver (w_env W)) ts = Ok rs <-> Forall2 (names_agent W) ts rs.
Proof.
  revert rs. induction ts as [|t ts IH]; intro rs; cbn.
  - split; intro H; [inversion H; constructor|inversion H; reflexivity].
  - split.
    + destruct (find_receiver _ t) as [r|] eqn:E; [|discriminate]. destruct (rmapl _ ts) as [rs'|]; [|discriminate].
      intro H. inversion H; subst. constructor; [now apply find_receiver_names|]. now apply IH.
    + intro H. inversion H as [|? r ? rs' H1 H2]; subst. apply find_receiver_names in H1. rewrite H1. apply IH in H2. now rewrite H2.
Qed.

Section WithPy.
Context {PY : Py} {FR : Front}.

Lemma value_det s t v1 v2 : has_value s t v1 -> has_value s t v2 -> v1 = v2.
Proof.
  intros [n1 H1] [n2 H2]. apply (grounded_more n1 (n1 + n2)) in H1; [|lia]. apply (grounded_more n2 (n1 + n2)) in H2; [|lia]. congruence.
Qed.

Definition items_of (rcv : term) : list term * option exc := if is_list rcv then iter_items rcv else ([rcv], None).
Lemma items_addressed W rcv rs : addressed W rcv rs <-> exists ts, items_of rcv = (ts, None) /\ rmapl (find_receiver (w_env W)) ts = Ok rs.
Proof.
  unfold addressed, items_of. destruct (is_list rcv).
  - split; intros (ts & H1 & H2); exists ts; (split; [exact H1|]); now apply receivers_names.
  - split.
    + intros (r & -> & H). exists [rcv]. split; [reflexivity|]. apply receivers_names. now repeat constructor.
    + intros (ts & H1 & H2). inversion H1; subst. apply receivers_names in H2. inversion H2 as [|? r ? ? H3 H4]; subst. inversion H4; subst. eauto.
Qed.

(** The message that is delivered. *)
Definition message (n : nat) (gt : gtype) (t : term) (s : scope) (k : N) : res term * N :=
  match gt with
  | GtTellHow | GtAskHow => (Ok (TLit (s2p "plain_text") [t] []), k)
  | _ => match freeze n t s ([], k) with (r, (_, k')) => (r, k') end
  end.

Lemma send_shape n a i f t0 t1 t2 more an st W r st' W' :
  resume (S n) a i (GQ (QAct ASend (TLit f (t0 :: t1 :: t2 :: more) an))) (st, W) = (r, (st', W')) ->
  (st' = st /\ W' = W /\ (forall g, r <> Ok (Some g)) /\
    (forall v, has_value (b_scope st) t0 v -> (forall ts, items_of v = (ts, None) -> rmapl (find_receiver (w_env W)) ts = Err EKey -> exists e, r = Err e))) \/
  exists rcv rs ilf tr gt,
    grounded n t0 (b_scope st) = Ok rcv /\ addressed W rcv rs /\ grounded n t1 (b_scope st) = Ok (TLit ilf [] []) /\
    ilf_send ilf = Some (tr, gt) /\
    let '(m, k) := message n gt t2 (b_scope st) (w_nv W) in
    match m with
    | Err e => r = Err e /\ st' = st /\ W' = set_nv W k
    | Ok m =>
        match with_annotation m (source (a_name (get_agent W a))) with
        | Err e => r = Err e /\ st' = st /\ W' = set_nv W k
        | Ok msg => exists x, deliver (engine n) rs tr gt msg (st, set_nv W k) = (x, (st', W')) /\
            r = match x with Ok _ => Ok (Some GStop) | Err e => Err e end
        end
    end.
Proof.
  intro Ex. change (act_send (engine n) n a (t0 :: t1 :: t2 :: more) (st, W) = (r, (st', W'))) in Ex. unfold act_send in Ex.
  unfold mbind at 1, arg in Ex. cbn [nth_error mret] in Ex. unfold mret at 1 in Ex. unfold mbind at 1, m_grounded in Ex. cbn [fst snd] in Ex.
  destruct (grounded n t0 (b_scope st)) as [rcv|e] eqn:E0; [|inversion Ex; subst; left; repeat split; [discriminate|eauto]].
  unfold mbind at 1, m_world at 1 in Ex. cbn [fst snd] in Ex. fold (items_of rcv) in Ex. destruct (items_of rcv) as [items fin] eqn:Ei.
  unfold mbind at 1, lift at 1 in Ex. destruct (rmapl (find_receiver (w_env W)) items) as [rs|e] eqn:Er; [|inversion Ex; subst; left; repeat split; [discriminate|eauto]].
  assert (HNone : forall v ts, has_value (b_scope st) t0 v -> items_of v = (ts, None) -> rmapl (find_receiver (w_env W)) ts = Err EKey -> False).
  { intros v ts Hv H1 H2. assert (v = rcv) by (eapply value_det; [exact Hv|now exists n]). subst v. rewrite Ei in H1. inversion H1; subst. congruence. }
  destruct fin as [e|]; [inversion Ex; subst; left; repeat split; [discriminate|eauto]|].
  unfold mbind at 1, mret at 1 in Ex. unfold mbind at 1 in Ex. cbn [fst snd] in Ex.
  destruct (grounded n t1 (b_scope st)) as [ilf|e] eqn:E1; [|inversion Ex; subst; left; repeat split; [discriminate|eauto]].
  destruct ilf as [| | | | | | |f' [|] [|]| |]; cbn [fst snd] in Ex; try (inversion Ex; subst; left; repeat split; [discriminate|]; intros v0 Hv ts0 H1 H2; destruct (HNone v0 ts0 Hv H1 H2)).
  destruct (ilf_send f') as [[tr gt]|] eqn:Ef; [|inversion Ex; subst; left; repeat split; [discriminate|eauto]].
  right. exists rcv, rs, f', tr, gt. split; [reflexivity|]. split; [apply items_addressed; eauto|]. split; [reflexivity|]. split; [exact Ef|].
  assert (EX : forall mk, (msg0 <- mk ;; W1 <- m_world ;;
               msg <- lift (with_annotation msg0 (source (a_name (get_agent W1 a)))) ;;
               deliver (engine n) rs tr gt msg ;;
               mret (Some GStop))%M (st, W) = (r, (st', W')) ->
    forall x k, mk (st, W) = (x, (st, set_nv W k)) ->
    match x with
    | Err e => r = Err e /\ st' = st /\ W' = set_nv W k
    | Ok m =>
        match with_annotation m (source (a_name (get_agent W a))) with
        | Err e => r = Err e /\ st' = st /\ W' = set_nv W k
        | Ok msg => exists x, deliver (engine n) rs tr gt msg (st, set_nv W k) = (x, (st', W')) /\
            r = match x with Ok _ => Ok (Some GStop) | Err e => Err e end
        end
    end).
  { intros mk H x k Hk. unfold mbind at 1 in H. rewrite Hk in H. destruct x as [m|e]; [|inversion H; subst; auto].
    unfold mbind at 1, m_world at 1 in H. cbn [fst snd] in H. unfold mbind at 1, lift at 1 in H. cbn [fst snd] in H.
    change (get_agent (set_nv W k) a) with (get_agent W a) in H.
    destruct (with_annotation m _) as [msg|e]; [|inversion H; subst; auto].
    unfold mbind in H. destruct (deliver _ _ _ _ _ _) as [[u|e] [st2 W2]]; inversion H; subst; eauto. }
  unfold mbind at 1, mret at 1 in Ex. cbn [fst snd] in Ex.
  assert (HF : forall x m' k, freeze n t2 (b_scope st) ([], w_nv W) = (x, (m', k)) ->
    (fm <- m_freeze n t2 [] ;; mret (fst fm))%M (st, W) = (x, (st, set_nv W k))).
  { intros x m' k H. unfold mbind, m_freeze. match goal with |- context[freeze ?u1 ?u2 ?u3 ?u4] => replace (freeze u1 u2 u3 u4) with (x, (m', k)) by (symmetry; exact H) end. destruct x; reflexivity. }
  destruct gt; unfold message.
  1-3: destruct (freeze n t2 (b_scope st) ([], w_nv W)) as [x [m' k]] eqn:Ez; eapply (EX _ Ex); eapply HF; reflexivity.
  all: refine (EX _ Ex (Ok (TLit (s2p "plain_text") [t2] [])) (w_nv W) _); unfold mret; destruct W; reflexivity.
Qed.

Lemma addressed_in W rcv rs : gw W -> addressed W rcv rs -> Forall (fun c => (c < List.length (w_agents W))%nat) rs.
Proof.
  intros HG H. apply items_addressed in H as (ts & _ & H). apply gw_sane in HG as (_ & (_ & HE) & _).
  eapply rmapl_Forall; [|exact H]. intros x y Hx. apply find_receiver_in in Hx as [k Hk]. apply HE in Hk. exact Hk.
Qed.
Lemma gw_nv W k : (w_nv W <= k)%N -> gw W -> gw (set_nv W k).
Proof. intros HK H. eapply geffs_snoc; [exact H|]. eapply (g_eff _ _ _ 0%nat 0%nat). apply ef_nv. auto. Qed.

Lemma with_annotated t a msg : with_annotation t a = Ok msg <-> annotated t a msg.
Proof.
  unfold annotated. split.
  - destruct t; try discriminate. cbn [with_annotation]. intros H. inversion H. eauto.
  - intros (f & args & an & -> & ->). reflexivity.
Qed.
(** .send with tell *)
Theorem send_tell (L : PyLawful PY) n a i f t0 t1 t2 more an st W g st' W' :
  at_work W -> mild_world W ->
  resume n a i (GQ (QAct ASend (TLit f (t0 :: t1 :: t2 :: more) an))) (st, W) = (Ok (Some g), (st', W')) ->
  has_value (b_scope st) t1 (atom (s2p "tell")) ->
  exists rcv rs b, has_value (b_scope st) t0 rcv /\ addressed W rcv rs /\
    (rs <> [] -> sent_as (a_name (get_agent W a)) (b_scope st) t2 b) /\ spread b rs W W' /\
    (forall c, a_rules (get_agent W' c) = a_rules (get_agent W c)) /\ (forall c h, plans_of c h W' = plans_of c h W) /\
    (forall c, ~ In c rs -> alone c W W').
Proof.
  intros HA HM Ex Hi. apply at_work_gw in HA. destruct n as [|n]; [discriminate Ex|].
  apply send_shape in Ex as [(_ & _ & H & _)|(rcv & rs & ilf & tr & gt & E0 & HAd & E1 & Ef & Ex)]; [now destruct (H g)|].
  assert (ilf = s2p "tell"). { assert (X := value_det _ _ _ _ Hi (ex_intro _ n E1)). unfold atom in X. congruence. }
  subst ilf. cbv in Ef. inversion Ef; subst tr gt. clear Ef. cbn [message] in Ex.
  destruct (freeze n t2 (b_scope st) ([], w_nv W)) as [[m|e] [mm k]] eqn:Ez; [|destruct Ex as [Ex _]; discriminate Ex].
  destruct (with_annotation m _) as [msg|e] eqn:Ew; [|destruct Ex as [Ex _]; discriminate Ex].
  destruct Ex as (x & Ex & Er). destruct x as [x|]; [|discriminate Er]. clear Er.
  assert (HG1 := gw_nv _ k (nv_freeze _ _ _ _ _ _ Ez) HA). assert (HM1 : mild_world (set_nv W k)) by exact HM.
  assert (HF : Forall (fun c => (c < List.length (w_agents (set_nv W k)))%nat) rs) by exact (addressed_in _ _ _ HA HAd).
  destruct (deliver_steady _ _ TrAdd GtBelief _ eq_refl _ _ _ _ _ HG1 HM1 HF Ex) as (R & P & A).
  assert (HAl : forall c, ~ In c rs -> alone c W W').
  { intros c Hc. apply (alone_trans c W (set_nv W k) W'); [now constructor|auto]. }
  exists rcv, rs. destruct n as [|n].
  { destruct rs as [|c rs]; [|apply deliver_steps in Ex as (y & ? & ? & E2 & Ex); inversion E2; subst; destruct Ex; discriminate].
    exists m. split; [now exists 0%nat|]. split; [exact HAd|]. split; [congruence|]. split; [|auto]. apply spread_nil. intros c h. apply (HAl c (fun X => X)). }
  apply (deliver_tell L) in Ex; auto. destruct rs as [|c rs].
  - exists m. split; [now exists (S n)|]. split; [exact HAd|]. split; [congruence|]. split; [|auto]. apply spread_nil. intros c h. apply (HAl c (fun X => X)).
  - destruct Ex as (b & B1 & B2 & B3). exists b. split; [now exists (S n)|]. split; [exact HAd|]. split; [|split; [exact B3|auto]].
    intros _. exists (memo_get mm), m, msg. destruct (freeze_copy L _ _ _ _ _ _ _ Ez) as (C1 & _). destruct (grounded_inst L _ _ _ _ B1) as [D1 D2]. apply with_annotated in Ew. auto.
Qed.

(** If a receiver does not exist, nothing is delivered. *)
Theorem send_unknown n a i f t0 t1 t2 more an st W r st' W' rcv ts :
  resume n a i (GQ (QAct ASend (TLit f (t0 :: t1 :: t2 :: more) an))) (st, W) = (r, (st', W')) ->
  has_value (b_scope st) t0 rcv -> items_of rcv = (ts, None) -> (exists t, In t ts /\ forall c, ~ names_agent W t c) ->
  (exists e, r = Err e) /\ st' = st /\ W' = W.
Proof.
  intros Ex Hv Hi (t & Ht & Hn).
  assert (HK : forall l, In t l -> rmapl (find_receiver (w_env W)) l = Err EKey).
  { induction l as [|y l IH]; [intros []|]. intros Hy. cbn.
    assert (HX : (exists c, find_receiver (w_env W) y = Ok c) \/ find_receiver (w_env W) y = Err EKey).
    { destruct y; cbn; auto; try (destruct args; auto; destruct annots; auto); destruct (assoc _ _ _); eauto. }
    destruct HX as [[c Hc]| ->]; [|reflexivity]. rewrite Hc. destruct Hy as [-> |Hy].
    - apply find_receiver_names in Hc. destruct (Hn c Hc).
    - now rewrite IH. }
  destruct n as [|n]; [inversion Ex; subst; eauto|].
  apply send_shape in Ex as [(-> & -> & _ & H)|(rcv' & rs & ilf & tr & gt & E0 & HAd & _)]; [split; [eauto|auto]|]. exfalso.
  assert (rcv' = rcv) by (eapply value_det; [exists n; exact E0|exact Hv]). subst rcv'.
  apply items_addressed in HAd as (ts' & H1 & H2). rewrite Hi in H1. inversion H1; subst. rewrite HK in H2 by exact Ht. discriminate.
Qed.

(** .broadcast *)
Lemma broadcast_shape n a i f t0 t1 more an st W r st' W' :
  resume (S n) a i (GQ (QAct ABroadcast (TLit f (t0 :: t1 :: more) an))) (st, W) = (r, (st', W')) ->
  (st' = st /\ W' = W /\ forall g, r <> Ok (Some g)) \/
  exists ilf tr gt, grounded n t0 (b_scope st) = Ok (TLit ilf [] []) /\ ilf_broadcast ilf = Some (tr, gt) /\
    let '(m, (_, k)) := freeze n t1 (b_scope st) ([], w_nv W) in
    match m with
    | Err e => r = Err e /\ st' = st /\ W' = set_nv W k
    | Ok m =>
        match with_annotation m (source (a_name (get_agent W a))) with
        | Err e => r = Err e /\ st' = st /\ W' = set_nv W k
        | Ok msg => exists x, deliver (engine n) (filter (fun r => negb (Nat.eqb r a)) (map snd (w_env W))) tr gt msg (st, set_nv W k) = (x, (st', W')) /\
            r = match x with Ok _ => Ok (Some GStop) | Err e => Err e end
        end
    end.
Proof.
  intro Ex. change (act_broadcast (engine n) n a (t0 :: t1 :: more) (st, W) = (r, (st', W'))) in Ex. unfold act_broadcast in Ex.
  unfold mbind at 1, arg in Ex. cbn [nth_error mret] in Ex. unfold mret at 1 in Ex. unfold mbind at 1, m_grounded in Ex. cbn [fst snd] in Ex.
  destruct (grounded n t0 (b_scope st)) as [ilf|e] eqn:E0; [|inversion Ex; subst; left; repeat split; discriminate].
  destruct ilf as [| | | | | | |f' [|] [|]| |]; cbn [fst snd] in Ex; try (inversion Ex; subst; left; repeat split; discriminate).
  destruct (ilf_broadcast f') as [[tr gt]|] eqn:Ef; [|inversion Ex; subst; left; repeat split; discriminate].
  right. exists f', tr, gt. split; [reflexivity|]. split; [exact Ef|].
  unfold mbind at 1, mret at 1 in Ex. unfold mbind at 1, m_freeze in Ex. cbn [fst snd] in Ex.
  match type of Ex with context[freeze ?u1 ?u2 ?u3 ?u4] => change (freeze u1 u2 u3 u4) with (freeze n t1 (b_scope st) ([], w_nv W)) in Ex end.
  destruct (freeze n t1 (b_scope st) ([], w_nv W)) as [[m|e] [mm k]]; cbn [rmap fst snd] in Ex; [|inversion Ex; subst; auto].
  unfold mbind at 1, m_world at 1 in Ex. cbn [fst snd] in Ex. unfold mbind at 1, lift at 1 in Ex. cbn [fst snd] in Ex.
  change (get_agent (set_nv W k) a) with (get_agent W a) in Ex. change (w_env (set_nv W k)) with (w_env W) in Ex.
  destruct (with_annotation m _) as [msg|e]; [|inversion Ex; subst; auto].
  unfold mbind in Ex. destruct (deliver _ _ _ _ _ _) as [[u|e] [st2 W2]] eqn:Ed; inversion Ex; subst; eexists; (split; [first [eassumption|reflexivity]|reflexivity]).
Qed.

Lemma env_in W : gw W -> Forall (fun c => (c < List.length (w_agents W))%nat) (map snd (w_env W)).
Proof.
  intro HG. apply gw_sane in HG as (_ & (_ & HE) & _). apply Forall_forall. intros x Hx. apply in_map_iff in Hx as (y & <- & Hy). now apply HE.
Qed.
Theorem broadcast_tell (L : PyLawful PY) n a i f t0 t1 more an st W g st' W' :
  at_work W -> mild_world W ->
  resume n a i (GQ (QAct ABroadcast (TLit f (t0 :: t1 :: more) an))) (st, W) = (Ok (Some g), (st', W')) ->
  has_value (b_scope st) t0 (atom (s2p "tell")) ->
  exists b, let rs := filter (fun r => negb (Nat.eqb r a)) (map snd (w_env W)) in
    (rs <> [] -> sent_as (a_name (get_agent W a)) (b_scope st) t1 b) /\ spread b rs W W' /\
    (forall c, a_rules (get_agent W' c) = a_rules (get_agent W c)) /\ (forall c h, plans_of c h W' = plans_of c h W) /\
    (forall c, ~ In c rs -> alone c W W').
Proof.
  intros HA HM Ex Hi. apply at_work_gw in HA. destruct n as [|n]; [discriminate Ex|].
  apply broadcast_shape in Ex as [(_ & _ & H)|(ilf & tr & gt & E0 & Ef & Ex)]; [now destruct (H g)|].
  assert (ilf = s2p "tell"). { assert (X := value_det _ _ _ _ Hi (ex_intro _ n E0)). unfold atom in X. congruence. }
  subst ilf. cbv in Ef. inversion Ef; subst tr gt. clear Ef.
  destruct (freeze n t1 (b_scope st) ([], w_nv W)) as [[m|e] [mm k]] eqn:Ez; [|destruct Ex as [Ex _]; discriminate Ex].
  destruct (with_annotation m _) as [msg|e] eqn:Ew; [|destruct Ex as [Ex _]; discriminate Ex].
  destruct Ex as (x & Ex & Er). destruct x as [x|]; [|discriminate Er]. clear Er.
  set (rs := filter _ _) in *.
  assert (HG1 := gw_nv _ k (nv_freeze _ _ _ _ _ _ Ez) HA). assert (HM1 : mild_world (set_nv W k)) by exact HM.
  assert (HF : Forall (fun c => (c < List.length (w_agents (set_nv W k)))%nat) rs).
  { apply Forall_forall. intros y Hy. apply filter_In in Hy as [Hy _]. generalize (env_in _ HA). rewrite Forall_forall. auto. }
  destruct (deliver_steady _ _ TrAdd GtBelief _ eq_refl _ _ _ _ _ HG1 HM1 HF Ex) as (R & P & A).
  assert (HAl : forall c, ~ In c rs -> alone c W W').
  { intros c Hc. apply (alone_trans c W (set_nv W k) W'); [now constructor|auto]. }
  destruct n as [|n].
  { destruct rs as [|c rs]; [|apply deliver_steps in Ex as (y & ? & ? & E2 & Ex); inversion E2; subst; destruct Ex; discriminate].
    exists m. cbv zeta. split; [congruence|]. split; [|auto]. apply spread_nil. intros c h. apply (HAl c (fun X => X)). }
  apply (deliver_tell L) in Ex; auto. destruct rs as [|c rs].
  - exists m. cbv zeta. split; [congruence|]. split; [|auto]. apply spread_nil. intros c h. apply (HAl c (fun X => X)).
  - destruct Ex as (b & B1 & B2 & B3). exists b. cbv zeta. split; [|split; [exact B3|auto]].
    intros _. exists (memo_get mm), m, msg. destruct (freeze_copy L _ _ _ _ _ _ _ Ez) as (C1 & _). destruct (grounded_inst L _ _ _ _ B1) as [D1 D2]. apply with_annotated in Ew. auto.
Qed.
End WithPy.
