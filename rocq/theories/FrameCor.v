(** What FrameFacts.v means for unification, for reachable systems and for the
    first solution of a query. *)
From Verif Require Import Base Num Term Unify TrailSpec TrailFacts InstSpec AnnotFacts Str World Engine QuerySpec QueryFacts Step Ast Names Build Reach BelFacts LogicFacts FrameSpec FrameFacts.

Lemma ground_tvars t : ground t -> tvars t = [].
Proof.
  assert (HL : forall ts, Forall (fun t => ground t -> tvars t = []) ts -> Forall ground ts -> flat_map tvars ts = []).
  { intros ts H G. induction G; cbn; [reflexivity|]. inversion H as [|? ? Hx Hl]; subst. now rewrite Hx, IHG. }
  induction t using term_ind'; intro G; inversion G; subst; cbn [tvars]; try reflexivity.
  - now rewrite !HL.
  - now apply HL.
  - now rewrite IHt1, IHt2.
Qed.

Section WithPy.
Context {PY : Py} {FR : Front}.
Hypothesis L : PyLawful PY.

Lemma reach_closed W a : reach W -> closed_beliefs (db_of a W).
Proof.
  intros R g b Hb. cbn in Hb. destruct (beliefs_wf L W a g R) as [H _]. rewrite Forall_forall in H. apply ground_tvars. now apply H.
Qed.

Lemma involved_cl s vs : cl (involved s vs) s.
Proof. intros v t Ev Hv. apply Forall_forall. intros w Hw. eapply in_value; eassumption. Qed.

(** Unification creates no variables. *)
Theorem unify_binds_only n l r st x st' : unify n l r st = (x, st') ->
  (forall v t, lookup (b_scope st) v = Some t -> lookup (b_scope st') v = Some t) /\
  (forall v t, lookup (b_scope st) v = None -> lookup (b_scope st') v = Some t -> involved (b_scope st) (tvars l ++ tvars r) v).
Proof.
  intros E. apply (unify_frames (involved (b_scope st) (tvars l ++ tvars r))) in E.
  - destruct E as [[A B] _]. split; [exact A|]. intros v t N Ev. destruct (B v t Ev) as [H|H]; [congruence|exact H].
  - split; [|split; [|apply involved_cl]]; apply Forall_forall; intros v Hv; apply in_here, in_or_app; auto.
Qed.
Theorem match_binds_only n l r st o st' : uann n l r st = (Ok o, st') ->
  (forall v t, lookup (b_scope st) v = Some t -> lookup (b_scope st') v = Some t) /\
  (forall v t, lookup (b_scope st) v = None -> lookup (b_scope st') v = Some t -> involved (b_scope st) (tvars l ++ tvars r) v).
Proof.
  intros E. apply (uann_frames (involved (b_scope st) (tvars l ++ tvars r))) in E.
  - destruct E as [[A B] _]. split; [exact A|]. intros v t N Ev. destruct (B v t Ev) as [H|H]; [congruence|exact H].
  - split; [|split; [|apply involved_cl]]; apply Forall_forall; intros v Hv; apply in_here, in_or_app; auto.
Qed.

Theorem solutions_bind_only b a i q c n st W l o s2 :
  reach W -> proper b q = true -> proper_db b (db_of a W) -> none_after (w_nv W) (b_scope st) ->
  (b = true -> Forall (fun p => fst p = []) c) ->
  drive c n a i (GQ q) (st, W) = (l, o, s2) -> o <> Raised ERecursion ->
  Forall (binds_only (b_scope st) (qvars q) (w_nv W)) l.
Proof. intros R Hp HD Hs Hc E Ho. eapply query_binds_only; try eassumption. now apply reach_closed. Qed.

Theorem first_binds_only b a i q n st W g st' W' :
  reach W -> proper b q = true -> proper_db b (db_of a W) -> none_after (w_nv W) (b_scope st) ->
  resume n a i (GQ q) (st, W) = (Ok (Some g), (st', W')) ->
  binds_only (b_scope st) (qvars q) (w_nv W) (b_scope st').
Proof.
  intros R Hp HD Hs E.
  assert (H : Forall (binds_only (b_scope st) (qvars q) (w_nv W)) [b_scope st']).
  { eapply (solutions_bind_only b a i q [([], 0%N)]); try eassumption.
    - intros _. repeat constructor.
    - cbn. rewrite E. reflexivity.
    - discriminate. }
  now inversion H.
Qed.
End WithPy.
