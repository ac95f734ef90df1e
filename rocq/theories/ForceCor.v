(** .send and .broadcast raise the events of ForceSpec.v. *)
From Verif Require Import Base Num Term Unify TermSpec InstSpec Str World Engine Step Ast Names Build QuerySpec BelSpec PlanSpec Reach StepSpec MildSpec MsgSpec ForceSpec.
From Verif Require Import QueryBase MsgCor.

Lemma forces_send f tr gt : ilf_send f = Some (tr, gt) <-> exists s, f = s2p s /\ In (s, (tr, gt)) forces.
Proof.
  unfold ilf_send, forces, broadcast_forces. cbn [In app]. split.
  - repeat match goal with |- (if pystr_eqb f (s2p ?s) then _ else _) = _ -> _ =>
      let E := fresh in destruct (pystr_eqb f (s2p s)) eqn:E; [apply pystr_eqb_eq in E; intros [= <- <-]; exists s; tauto|] end. discriminate.
  - intros (s & -> & H). repeat (destruct H as [H|H]; [injection H as <- <- <-; reflexivity|]). destruct H.
Qed.
Lemma forces_broadcast f tr gt : ilf_broadcast f = Some (tr, gt) <-> exists s, f = s2p s /\ In (s, (tr, gt)) broadcast_forces.
Proof.
  unfold ilf_broadcast, broadcast_forces. cbn [In app]. split.
  - repeat match goal with |- (if pystr_eqb f (s2p ?s) then _ else _) = _ -> _ =>
      let E := fresh in destruct (pystr_eqb f (s2p s)) eqn:E; [apply pystr_eqb_eq in E; intros [= <- <-]; exists s; tauto|] end. discriminate.
  - intros (s & -> & H). repeat (destruct H as [H|H]; [injection H as <- <- <-; reflexivity|]). destruct H.
Qed.

Section WithPy.
Context {PY : Py} {FR : Front}.

Lemma deliver_called n tr gt msg rs : forall st W st' W', deliver (engine n) rs tr gt msg (st, W) = (Ok tt, (st', W')) <->
  st' = st /\ called n tr gt msg rs W W'.
Proof.
  induction rs as [|c rs IH]; intros st W st' W'.
  - unfold deliver. cbn [mfor]. unfold mret. split; [intros H; inversion H; subst; split; [reflexivity|constructor]|].
    intros [-> H]. inversion H; subst. reflexivity.
  - change (deliver (engine n) (c :: rs) tr gt msg) with
      ((with_new (fun ci => call n c tr gt msg ci false) ;; mret tt) ;; deliver (engine n) rs tr gt msg)%M.
    unfold mbind at 1. unfold mbind at 1. unfold with_new. cbn [fst snd]. destruct (new_int W) as [ci W1] eqn:En.
    destruct (call n c tr gt msg ci false (bst0, W1)) as [[r|e] [st2 W2]] eqn:Ec; cbn [fst snd].
    + unfold mret at 1. rewrite IH. split.
      * intros [-> H]. split; [reflexivity|]. econstructor; eassumption.
      * intros [-> H]. split; [reflexivity|]. inversion H; subst. congruence.
    + split; [discriminate|]. intros [_ H]. inversion H; subst. congruence.
Qed.

Lemma message_content n gt t s k m k' name msg : message n gt t s k = (Ok m, k') -> with_annotation m (source name) = Ok msg ->
  content n name s t gt k msg k'.
Proof.
  unfold message. intros E Ew. apply with_annotated in Ew. destruct gt.
  1-3: destruct (freeze n t s ([], k)) as [[x|e] [mm k2]] eqn:Ez; inversion E; subst; eapply k_copy; [|exact Ez|exact Ew]; cbn; intuition discriminate.
  all: inversion E; subst; apply k_text; [cbn; tauto|exact Ew].
Qed.
Lemma content_message n gt t s k name msg k' : content n name s t gt k msg k' ->
  exists m, message n gt t s k = (Ok m, k') /\ with_annotation m (source name) = Ok msg.
Proof.
  intros [g msg1 k1 Hg Ew|g mm copied msg1 k1 k2 Hg Ef Ew]; unfold message; apply with_annotated in Ew.
  - exists (TLit (s2p "plain_text") [t] []). split; [|exact Ew]. cbn in Hg. destruct Hg as [<-|[<-|[]]]; reflexivity.
  - exists copied. split; [|exact Ew]. rewrite Ef. cbn in Hg. destruct g; try reflexivity; tauto.
Qed.

Theorem send_calls n a i f t0 t1 t2 more an st W g st' W' :
  resume (S n) a i (GQ (QAct ASend (TLit f (t0 :: t1 :: t2 :: more) an))) (st, W) = (Ok (Some g), (st', W')) ->
  st' = st /\ g = GStop /\ sends n a (b_scope st) t0 t1 t2 W W'.
Proof.
  intros H. apply send_shape in H as [(_ & _ & H & _)|(rcv & rs & ilf & tr & gt & E0 & Ha & E1 & Ef & H)]; [now destruct (H g)|].
  destruct (message n gt t2 (b_scope st) (w_nv W)) as [[m|e] k] eqn:Em; [|destruct H; discriminate].
  destruct (with_annotation m (source (a_name (get_agent W a)))) as [msg|e] eqn:Ew; [|destruct H; discriminate].
  destruct H as (x & Ed & Er). destruct x as [[]|e]; [|discriminate]. apply deliver_called in Ed as [-> Hc].
  split; [reflexivity|]. split; [congruence|]. apply forces_send in Ef as (force & -> & Hf).
  exists rcv, rs, force, tr, gt, msg, k. do 4 (split; [assumption|]). split; [eapply message_content; eassumption|assumption].
Qed.

Lemma send_equation n a i f t0 t1 t2 more an st W rcv rs ilf tr gt m k msg :
  grounded n t0 (b_scope st) = Ok rcv -> addressed W rcv rs -> grounded n t1 (b_scope st) = Ok (atom ilf) -> ilf_send ilf = Some (tr, gt) ->
  message n gt t2 (b_scope st) (w_nv W) = (Ok m, k) -> with_annotation m (source (a_name (get_agent W a))) = Ok msg ->
  resume (S n) a i (GQ (QAct ASend (TLit f (t0 :: t1 :: t2 :: more) an))) (st, W) =
  match deliver (engine n) rs tr gt msg (st, set_nv W k) with (Ok _, s) => (Ok (Some GStop), s) | (Err e, s) => (Err e, s) end.
Proof.
  intros E0 Ha E1 Ef Em Ew.
  change (resume (S n) a i (GQ (QAct ASend (TLit f (t0 :: t1 :: t2 :: more) an))) (st, W)) with (act_send (engine n) n a (t0 :: t1 :: t2 :: more) (st, W)).
  apply items_addressed in Ha as (ts & Hi & Hr). unfold act_send.
  unfold mbind at 1, arg. cbn [nth_error mret]. unfold mret at 1. unfold mbind at 1, m_grounded. cbn [fst snd]. rewrite E0.
  unfold mbind at 1, m_world at 1. cbn [fst snd]. fold (items_of rcv). rewrite Hi.
  unfold mbind at 1, lift at 1. rewrite Hr. unfold mbind at 1, mret at 1. unfold mbind at 1. cbn [fst snd]. rewrite E1. unfold atom. cbn [fst snd]. rewrite Ef.
  unfold mbind at 1, mret at 1. cbn [fst snd].
  assert (X : forall mk, mk (st, W) = (Ok m, (st, set_nv W k)) -> (msg0 <- mk ;; W1 <- m_world ;;
               msg <- lift (with_annotation msg0 (source (a_name (get_agent W1 a)))) ;;
               deliver (engine n) rs tr gt msg ;;
               mret (Some GStop))%M (st, W) =
    match deliver (engine n) rs tr gt msg (st, set_nv W k) with (Ok _, s) => (Ok (Some GStop), s) | (Err e, s) => (Err e, s) end).
  { intros mk H. unfold mbind at 1. rewrite H. unfold mbind at 1, m_world at 1. cbn [fst snd]. unfold mbind at 1, lift at 1. cbn [fst snd].
    change (get_agent (set_nv W k) a) with (get_agent W a). rewrite Ew. unfold mbind, mret.
    destruct (deliver _ _ _ _ _ _) as [[u|e] s]; reflexivity. }
  unfold message in Em. destruct gt.
  1-3: destruct (freeze n t2 (b_scope st) ([], w_nv W)) as [x [m' k2]] eqn:Ez; inversion Em; subst x k2; apply X; unfold mbind, m_freeze;
    match goal with |- context[freeze ?u1 ?u2 ?u3 ?u4] => replace (freeze u1 u2 u3 u4) with (Ok m, (m', k)) by (symmetry; exact Ez) end; reflexivity.
  all: inversion Em; subst; apply X; unfold mret; destruct W; reflexivity.
Qed.

Theorem calls_send n a i f t0 t1 t2 more an st W W' : sends n a (b_scope st) t0 t1 t2 W W' ->
  resume (S n) a i (GQ (QAct ASend (TLit f (t0 :: t1 :: t2 :: more) an))) (st, W) = (Ok (Some GStop), (st, W')).
Proof.
  intros (rcv & rs & force & tr & gt & msg & k & E0 & Ha & E1 & Hf & Hc & Hd).
  apply content_message in Hc as (m & Em & Ew). assert (Ef : ilf_send (s2p force) = Some (tr, gt)) by (apply forces_send; eauto).
  rewrite (send_equation n a i f t0 t1 t2 more an st W rcv rs (s2p force) tr gt m k msg E0 Ha E1 Ef Em Ew).
  assert (X : deliver (engine n) rs tr gt msg (st, set_nv W k) = (Ok tt, (st, W'))) by (now apply deliver_called). now rewrite X.
Qed.

(** Other forces *)
Theorem send_refused n a i f t0 t1 t2 more an st W rcv rs ilf :
  grounded n t0 (b_scope st) = Ok rcv -> addressed W rcv rs -> grounded n t1 (b_scope st) = Ok (atom ilf) ->
  (forall s x, ilf = s2p s -> ~ In (s, x) forces) ->
  resume (S n) a i (GQ (QAct ASend (TLit f (t0 :: t1 :: t2 :: more) an))) (st, W) = (Err EAsl, (st, W)).
Proof.
  intros E0 Ha E1 Hn. assert (Ef : ilf_send ilf = None).
  { destruct (ilf_send ilf) as [[tr gt]|] eqn:E; [|reflexivity]. apply forces_send in E as (s & Es & Hin). now destruct (Hn s (tr, gt) Es). }
  change (resume (S n) a i (GQ (QAct ASend (TLit f (t0 :: t1 :: t2 :: more) an))) (st, W)) with (act_send (engine n) n a (t0 :: t1 :: t2 :: more) (st, W)).
  apply items_addressed in Ha as (ts & Hi & Hr). unfold act_send.
  unfold mbind at 1, arg. cbn [nth_error mret]. unfold mret at 1. unfold mbind at 1, m_grounded. cbn [fst snd]. rewrite E0.
  unfold mbind at 1, m_world at 1. cbn [fst snd]. fold (items_of rcv). rewrite Hi.
  unfold mbind at 1, lift at 1. rewrite Hr. unfold mbind at 1, mret at 1. unfold mbind at 1. cbn [fst snd]. rewrite E1. unfold atom. cbn [fst snd]. rewrite Ef.
  reflexivity.
Qed.

Theorem broadcast_calls n a i f t0 t1 more an st W g st' W' :
  resume (S n) a i (GQ (QAct ABroadcast (TLit f (t0 :: t1 :: more) an))) (st, W) = (Ok (Some g), (st', W')) ->
  st' = st /\ g = GStop /\ broadcasts n a (b_scope st) t0 t1 W W'.
Proof.
  intros H. apply broadcast_shape in H as [(_ & _ & H)|(ilf & tr & gt & E0 & Ef & H)]; [now destruct (H g)|].
  destruct (freeze n t1 (b_scope st) ([], w_nv W)) as [[m|e] [mm k]] eqn:Em; [|destruct H; discriminate].
  destruct (with_annotation m (source (a_name (get_agent W a)))) as [msg|e] eqn:Ew; [|destruct H; discriminate].
  destruct H as (x & Ed & Er). destruct x as [[]|e]; [|discriminate]. apply deliver_called in Ed as [-> Hc].
  split; [reflexivity|]. split; [congruence|]. apply forces_broadcast in Ef as (force & -> & Hf).
  exists force, tr, gt, msg, k. split; [assumption|]. split; [assumption|]. split; [|assumption].
  eapply k_copy; [|exact Em|apply with_annotated; exact Ew]. intros Hg. unfold broadcast_forces in Hf. cbn in Hf, Hg. intuition congruence.
Qed.
Theorem calls_broadcast n a i f t0 t1 more an st W W' : broadcasts n a (b_scope st) t0 t1 W W' ->
  resume (S n) a i (GQ (QAct ABroadcast (TLit f (t0 :: t1 :: more) an))) (st, W) = (Ok (Some GStop), (st, W')).
Proof.
  intros (force & tr & gt & msg & k & E0 & Hf & Hc & Hd).
  assert (Ef : ilf_broadcast (s2p force) = Some (tr, gt)) by (apply forces_broadcast; eauto).
  assert (X : exists m mm, freeze n t1 (b_scope st) ([], w_nv W) = (Ok m, (mm, k)) /\ with_annotation m (source (a_name (get_agent W a))) = Ok msg).
  { destruct Hc as [gt msg k1 Hg _|gt mm m msg k1 k2 Hg Em Ew]; [|apply with_annotated in Ew; eauto]. exfalso. unfold broadcast_forces in Hf. cbn in Hf, Hg. intuition congruence. }
  destruct X as (m & mm & Em & Ew).
  change (resume (S n) a i (GQ (QAct ABroadcast (TLit f (t0 :: t1 :: more) an))) (st, W)) with (act_broadcast (engine n) n a (t0 :: t1 :: more) (st, W)).
  unfold act_broadcast. unfold mbind at 1, arg. cbn [nth_error mret]. unfold mret at 1. unfold mbind at 1, m_grounded. cbn [fst snd].
  rewrite E0. unfold atom. rewrite Ef. unfold mbind at 1, mret at 1. unfold mbind at 1, m_freeze. cbn [fst snd].
  match goal with |- context[freeze ?u1 ?u2 ?u3 ?u4] => replace (freeze u1 u2 u3 u4) with (Ok m, (mm, k)) by (symmetry; exact Em) end.
  cbn [rmap fst snd]. unfold mbind at 1, m_world at 1. cbn [fst snd]. unfold mbind at 1, lift at 1. cbn [fst snd].
  change (get_agent (set_nv W k) a) with (get_agent W a). rewrite Ew. change (w_env (set_nv W k)) with (w_env W).
  assert (Y : deliver (engine n) (filter (fun r => negb (Nat.eqb r a)) (map snd (w_env W))) tr gt msg (st, set_nv W k) = (Ok tt, (st, W'))) by (now apply deliver_called).
  unfold mbind, mret. now rewrite Y.
Qed.

Theorem broadcast_refused n a i f t0 t1 more an st W ilf : grounded n t0 (b_scope st) = Ok (atom ilf) ->
  (forall s x, ilf = s2p s -> ~ In (s, x) broadcast_forces) ->
  resume (S n) a i (GQ (QAct ABroadcast (TLit f (t0 :: t1 :: more) an))) (st, W) = (Err EAsl, (st, W)).
Proof.
  intros E0 Hn. assert (Ef : ilf_broadcast ilf = None).
  { destruct (ilf_broadcast ilf) as [[tr gt]|] eqn:E; [|reflexivity]. apply forces_broadcast in E as (s & Es & Hin). now destruct (Hn s (tr, gt) Es). }
  change (resume (S n) a i (GQ (QAct ABroadcast (TLit f (t0 :: t1 :: more) an))) (st, W)) with (act_broadcast (engine n) n a (t0 :: t1 :: more) (st, W)).
  unfold act_broadcast. unfold mbind at 1, arg. cbn [nth_error mret]. unfold mret at 1. unfold mbind at 1, m_grounded. cbn [fst snd].
  rewrite E0. unfold atom. rewrite Ef. reflexivity.
Qed.
Theorem annotated_set (L : PyLawful PY) t a msg : annotated t a msg ->
  exists f args an an', t = TLit f args an /\ msg = TLit f args an' /\ set_of (an ++ [a]) an'.
Proof. intros (f & args & an & -> & ->). exists f, args, an, (mk_set (an ++ [a])). split; [reflexivity|]. split; [reflexivity|]. now apply SetFacts.mk_set_of. Qed.
End WithPy.
