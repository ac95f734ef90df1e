(** Events as plans and the outside see them. *)
From Verif Require Import Base Num Term Unify FuelFacts Str World Engine FuelEngine QuerySpec QueryBase BelSpec PlanSpec PlanFacts EventFacts.

Section WithPy.
Context {PY : Py} {FR : Front}.

Lemma add_more n m a t s s1 : (n <= m)%nat -> add_belief n a t s = (Ok tt, s1) -> add_belief m a t s = (Ok tt, s1).
Proof.
  intros Hn E. rewrite (more (fun k => add_belief k a t)) with (n := n); auto.
  - intro k. apply mle_add.
  - rewrite E. discriminate.
Qed.
Lemma remove_more n m a t s b s1 : (n <= m)%nat -> remove_belief n a t s = (Ok b, s1) -> remove_belief m a t s = (Ok b, s1).
Proof.
  intros Hn E. rewrite (more (fun k => remove_belief k a t)) with (n := n); auto.
  - intro k. apply mle_remove.
  - rewrite E. discriminate.
Qed.

Lemma updated_call n1 a tr gt t ci delayed s s1 : plan_event tr gt = true -> updated n1 a tr gt t s s1 ->
  forall n, (n1 <= n)%nat -> call (S n) a tr gt t ci delayed s = call_event (engine n) n a tr gt t ci delayed s1.
Proof.
  intros HE HU n Hn. change (call (S n)) with (call_body (engine n) n). unfold call_body, updated in *.
  destruct gt; try (destruct tr; subst; reflexivity).
  destruct tr.
  - unfold mbind. now rewrite (add_more n1 n _ _ _ _ Hn HU).
  - unfold mbind. now rewrite (remove_more n1 n _ _ _ _ _ Hn HU).
Qed.

Section Poised.
Variables (n1 a : nat) (tr : trig) (gt : gtype) (t : term) (ci : nat) (delayed : bool) (s : ST) (st : bst) (W : world) (event : term) (k : N) (d : nat).
Hypothesis HU : updated n1 a tr gt t s (st, W).
Hypothesis HP : poised a tr gt t (b_scope st) W event k.

Lemma poised_lit : exists f args ann, event = TLit f args ann.
Proof. pose proof (po_lit _ _ _ _ _ _ _ _ HP) as H. destruct event; try discriminate H. eauto. Qed.

Lemma call_chosen p s' nv : chosen d a tr gt W event k = Chosen p s' nv ->
  delayed = true \/ (forall l, In l (a_ints (get_agent W a)) -> l <> []) ->
  exists n0 W', (forall n, (n0 <= n)%nat -> call n a tr gt t ci delayed s = (Ok true, (st, W'))) /\
    same_minds W W' /\ wakened tr gt event (a_ints (get_agent W a)) W W' /\ started a p s' event t ci delayed W W'.
Proof.
  intros HC HD. destruct poised_lit as (f & args & ann & E). destruct HP as [(nf & m & HF) _ H1 H2 H3 H4 H5]. unfold chosen in HC. rewrite E in HC, H5. cbn [lit_group] in HC, H5. rewrite <- E in HC.
  destruct (event_chosen a tr gt t ci delayed st W nf event f args ann m k d HF E H1 H2 H3 H4 H5 p s' nv HC HD) as (n0 & W' & HR & HX).
  exists (S (Nat.max n1 n0)), W'. split; [|exact HX]. intros [|n] Hn; [lia|]. rewrite (updated_call n1 _ _ _ _ _ _ _ _ H1 HU n) by lia. apply HR. lia.
Qed.

Lemma call_none nv : chosen d a tr gt W event k = NoPlan nv -> gt <> GtTest ->
  exists n0 W', only_wakens a tr gt event W W' /\ forall n, (n0 <= n)%nat -> call n a tr gt t ci delayed s =
    (match gt with GtAchieve => Err EAsl | _ => Ok true end, (st, W')).
Proof.
  intros HC HG. destruct poised_lit as (f & args & ann & E). destruct HP as [(nf & m & HF) _ H1 H2 H3 H4 H5]. unfold chosen in HC. rewrite E in HC, H5. cbn [lit_group] in HC, H5. rewrite <- E in HC.
  destruct (event_none a tr gt t ci delayed st W nf event f args ann m k d HF E H1 H2 H3 H4 H5 nv HC HG) as (n0 & W' & HK & HR).
  exists (S (Nat.max n1 n0)), W'. split; [exact HK|]. intros [|n] Hn; [lia|]. rewrite (updated_call n1 _ _ _ _ _ _ _ _ H1 HU n) by lia. apply HR. lia.
Qed.

Lemma call_fails e : chosen d a tr gt W event k = Fails e ->
  exists n0 W', only_wakens a tr gt event W W' /\ forall n, (n0 <= n)%nat -> call n a tr gt t ci delayed s = (Err e, (st, W')).
Proof.
  intros HC. destruct poised_lit as (f & args & ann & E). destruct HP as [(nf & m & HF) _ H1 H2 H3 H4 H5]. unfold chosen in HC. rewrite E in HC, H5. cbn [lit_group] in HC, H5. rewrite <- E in HC.
  destruct (event_fails a tr gt t ci delayed st W nf event f args ann m k d HF E H1 H2 H3 H4 H5 e HC) as (n0 & W' & HK & HR).
  exists (S (Nat.max n1 n0)), W'. split; [exact HK|]. intros [|n] Hn; [lia|]. rewrite (updated_call n1 _ _ _ _ _ _ _ _ H1 HU n) by lia. apply HR. lia.
Qed.

Lemma call_test nv n2 v d' : chosen d a tr gt W event k = NoPlan nv -> gt = GtTest ->
  evaluate n2 t (b_scope st) = Ok v -> is_literal v = true ->
  sols d' (db_of a W) (QTerm v) (b_scope st) nv <> TCut ->
  exists n0 r st' W', only_wakens a tr gt event W W' /\ (forall n, (n0 <= n)%nat -> call n a tr gt t ci delayed s = (r, (st', W'))) /\
    match sols d' (db_of a W) (QTerm v) (b_scope st) nv with
    | TSol s' _ _ => r = Ok true /\ b_scope st' = s'
    | TEnd _ => r = Ok false /\ b_scope st' = b_scope st /\ b_stack st' = b_stack st
    | TErr e => r = Err e
    | TCut => False
    end.
Proof.
  intros HC HG Hv Hl HT. destruct poised_lit as (f & args & ann & E). destruct HP as [(nf & m & HF) _ H1 H2 H3 H4 H5]. unfold chosen in HC. rewrite E in HC, H5. cbn [lit_group] in HC, H5. rewrite <- E in HC.
  destruct (event_test a tr gt t ci delayed st W nf event f args ann m k d HF E H1 H2 H3 H4 H5 nv n2 v d' HC HG Hv Hl HT) as (n0 & r & st' & W' & HK & HR & HX).
  exists (S (Nat.max n1 n0)), r, st', W'. split; [exact HK|]. split; [|exact HX]. intros [|n] Hn; [lia|]. rewrite (updated_call n1 _ _ _ _ _ _ _ _ H1 HU n) by lia. apply HR. lia.
Qed.
End Poised.

(** ** Selection *)
Lemma select_first d D event ps : forall nv p s nv', select d D ps event nv = Chosen p s nv' ->
  exists before after nv0 others, ps = before ++ p :: after /\
    Forall (fun q => exists m m', applicable d D q event m = TEnd m') before /\
    applicable d D p event nv0 = TSol s nv' others.
Proof.
  induction ps as [|q ps IH]; intros nv p s nv' H; cbn in H; [discriminate H|]. fold (applicable d D q event nv) in H.
  destruct (applicable d D q event nv) as [n0|e| |s0 n0 T] eqn:E; try discriminate H.
  - destruct (IH _ _ _ _ H) as (before & after & nv0 & others & -> & HF & HS). exists (q :: before), after, nv0, others.
    split; [reflexivity|]. split; [|exact HS]. constructor; [now exists nv, n0|exact HF].
  - inversion H; subst. exists [], ps, nv, T. split; [reflexivity|]. split; [constructor|exact E].
Qed.
Lemma select_none d D event ps : forall nv nv', select d D ps event nv = NoPlan nv' ->
  Forall (fun q => exists m m', applicable d D q event m = TEnd m') ps.
Proof.
  induction ps as [|q ps IH]; intros nv nv' H; cbn in H; [constructor|]. fold (applicable d D q event nv) in H.
  destruct (applicable d D q event nv) as [n0|e| |s0 n0 T] eqn:E; try discriminate H. constructor; [now exists nv, n0|eauto].
Qed.

(** ** Where the new intention goes *)
Lemma placed_on caller new before rest after : ~ on_top caller before ->
  placed caller new (before ++ (caller :: rest) :: after) = before ++ (new :: caller :: rest) :: after.
Proof.
  induction before as [|[|i s] before IH]; intro H; cbn.
  - now rewrite Nat.eqb_refl.
  - rewrite IH; [reflexivity|]. intros [r Hr]. apply H. exists r. now right.
  - destruct (Nat.eqb_spec i caller) as [->|]; [exfalso; apply H; exists s; now left|]. rewrite IH; [reflexivity|]. intros [r Hr]. apply H. exists r. now right.
Qed.
Lemma placed_end caller new stacks : ~ on_top caller stacks -> placed caller new stacks = stacks ++ [[new]].
Proof.
  induction stacks as [|[|i s] stacks IH]; intro H; cbn; [reflexivity| |].
  - rewrite IH; [reflexivity|]. intros [r Hr]. apply H. exists r. now right.
  - destruct (Nat.eqb_spec i caller) as [->|]; [exfalso; apply H; exists s; now left|]. rewrite IH; [reflexivity|]. intros [r Hr]. apply H. exists r. now right.
Qed.
End WithPy.
