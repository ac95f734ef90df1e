(** Proofs for C66: in every state of a session the names are sound. *)
From Coq Require Import Lia.
From Verif Require Import Base Num Term Unify Str World Engine Effects NvFacts EffFacts Step Ast Names Build Lex Parse Fold Program Front QuerySpec Reach ReachFacts InstSpec FlowSpec ScopeSpec ScopeFacts Repl ReplExec SessSpec SessFacts.

Section WithPy.
Context {PY : Py} {FR : Front}.
Notation Any := (fun _ : plan => True).
Lemma eff_nv (U : fresh_texts) lo cur W W' : eff Any lo cur W W' -> (w_nv W <= w_nv W')%N.
Proof.
  intro H. destruct H; cbn; try lia; [now apply H| |].
  - unfold bel_ref. destruct (assoc _ _ _); cbn; lia.
  - unfold plan_ref. destruct (assoc _ _ _); cbn; lia.
Qed.
Lemma geffs_nv (U : fresh_texts) W W' : geffs Any true W W' -> (w_nv W <= w_nv W')%N.
Proof.
  intro H. induction H as [W|W W1 W2 H _ IH]; [lia|]. enough (w_nv W <= w_nv W1)%N by lia. destruct H; cbn; try lia. eapply eff_nv; eassumption.
Qed.
Lemma geffs_ints W W' : geffs Any true W W' -> (List.length (w_ints W) <= List.length (w_ints W'))%nat.
Proof.
  intro H. induction H as [W|W W1 W2 H _ IH]; [lia|]. enough (List.length (w_ints W) <= List.length (w_ints W1))%nat by lia.
  destruct H; cbn; rewrite ?upd_length; try lia. eapply eff_len; eassumption.
Qed.
Lemma step_geffs n a W r W' : sane Any W -> (a < List.length (w_agents W))%nat -> step n a W = (r, W') -> geffs Any true W W'.
Proof. intros HS Ha E. eapply g_step; eauto. Qed.
Lemma geffs_sane_any W W' : geffs Any true W W' -> sane Any W -> sane Any W'.
Proof. intros H. eapply geffs_sane; eauto. Qed.
Lemma run_geffs k n a : forall W r W', sane Any W -> (a < List.length (w_agents W))%nat -> run_agent k n a W = (r, W') -> geffs Any true W W'.
Proof.
  induction k as [|k IH]; intros W r W' HS Ha E; cbn [run_agent] in E; [injection E as _ <-; constructor|].
  destruct (step n a W) as [rs W1] eqn:Es. apply step_geffs in Es; [|exact HS|exact Ha].
  pose proof (geffs_sane_any _ _ Es HS) as HS1. pose proof (geffs_agents _ _ _ _ Es) as HA1. assert (Ha1 : (a < List.length (w_agents W1))%nat) by lia.
  destruct rs as [[]|e].
  - eapply geffs_app; [exact Es|]. eapply IH; [exact HS1|exact Ha1|exact E].
  - destruct (shortest_deadline W1 a) as [u|]; [|injection E as _ <-; exact Es].
    destruct (num_eqb u (NInt 0)); [injection E as _ <-; exact Es|].
    assert (Hs : forall d W2, sleep_until u W1 = (d, W2) -> W2 = set_reads W1 (N.succ (w_reads W1))).
    { unfold sleep_until. cbv zeta. intros d W2. destruct (num_op _ _ _ _) as [x|]; [|intro X; injection X as _ <-; reflexivity].
      destruct (is_nan x || _); [intro X; injection X as _ <-; reflexivity|]. destruct (num_val x); intro X; injection X as _ <-; reflexivity. }
    destruct (sleep_until u W1) as [[d|e] W2] eqn:Ed; specialize (Hs _ _ eq_refl).
    + assert (G : geffs Any true W W2). { rewrite Hs. eapply geffs_snoc; [exact Es|]. apply (g_eff _ _ _ 0%nat 0%nat), ef_reads. lia. }
      destruct (run_agent k n a W2) as [r3 W3] eqn:E3. apply IH in E3; [|eapply geffs_sane_any; [exact G|exact HS]|apply geffs_agents in G; lia].
      destruct r3; injection E as _ <-; eapply geffs_app; eassumption.
    + injection E as _ <-. rewrite Hs. eapply geffs_snoc; [exact Es|]. apply (g_eff _ _ _ 0%nat 0%nat), ef_reads. lia.
  - injection E as _ <-. exact Es.
Qed.

(** What holds in every state. *)
Definition going (a i : nat) (x : session) : Prop :=
  sound x /\ sane Any (s_world x) /\ (a < List.length (w_agents (s_world x)))%nat /\ (i < List.length (w_ints (s_world x)))%nat.

Lemma begun_sane a i code k W : sane Any W -> (a < List.length (w_agents W))%nat -> (i < List.length (w_ints W))%nat -> sane Any (begun a i code k W).
Proof.
  intros (P & [E1 E2] & Bd) Ha Hi. unfold begun. cbv zeta. set (W2 := put_int _ _ _).
  assert (L2 : List.length (w_ints W2) = List.length (w_ints W)) by (unfold W2; cbn; apply upd_length).
  split; [exact P|]. split.
  - split; cbn; rewrite upd_length; [reflexivity|exact E2].
  - intros b j Hj. cbn [w_ints put_agent set_agents]. rewrite L2. destruct (Nat.eq_dec b a) as [->|Hb].
    + rewrite get_agent_same in Hj by exact Ha. cbn [set_a_ints a_ints] in Hj. change (a_ints (get_agent W2 a)) with (a_ints (get_agent W a)) in Hj.
      rewrite concat_app in Hj. apply in_app_or in Hj as [Hj|[<-|[]]]; [exact (Bd a j Hj)|exact Hi].
    + rewrite get_agent_diff in Hj by exact Hb. exact (Bd b j Hj).
Qed.
Lemma statement_going (U : fresh_texts) acts k n a i b x r x' : going a i x -> exec_statement acts k n a i b x = (r, x') -> going a i x'.
Proof.
  intros (S & HS & Ha & Hi) E. pose proof (proj1 (sound_good x) S) as G.
  enough (Z : exists s, s_vars x' = v_vars s /\ (v_nv s <= w_nv (s_world x'))%N /\ good s /\ sane Any (s_world x') /\
    (a < List.length (w_agents (s_world x')))%nat /\ (i < List.length (w_ints (s_world x')))%nat).
  { destruct Z as (s & Ev & K & [(I1 & I2 & I3) ND] & Z). split; [|exact Z]. apply sound_good. split; [|cbn; now rewrite Ev]. split; [apply N.le_0_l|]. split.
    - intros y t Ey. cbn [start v_vars] in Ey. rewrite Ev in Ey. destruct (I2 y t Ey) as (j & Ht & Hj). exists j. split; [exact Ht|cbn; lia].
    - intros y z j. unfold env_of. cbn [start v_vars]. rewrite Ev. apply I3. }
  unfold exec_statement in E.
  destruct (compile_all acts b _ (mkbs (s_vars x) (w_nv (s_world x)) log3)) as [rc s] eqn:Ec.
  destruct (grows_body acts b _ _ _ _ Ec G) as (G' & K & _). exists s.
  assert (Z0 : sane Any (set_nv (s_world x) (v_nv s))) by (destruct HS as (P & Ee & Bd); split; [exact P|split; [exact Ee|exact Bd]]).
  destruct rc as [c|e]; [|injection E as _ <-; cbn; repeat split; try lia; try apply G'; apply Z0].
  destruct (log_throw (v_log s)); [|injection E as _ <-; cbn; repeat split; try lia; try apply G'; apply Z0]. cbv zeta in E.
  match type of E with context [run_agent k n a ?V] => change V with (begun a i (c_code c) (v_nv s) (s_world x)) in E end.
  set (V := begun a i (c_code c) (v_nv s) (s_world x)) in *.
  assert (SV : sane Any V) by (apply begun_sane; assumption).
  assert (AV : List.length (w_agents V) = List.length (w_agents (s_world x))) by (unfold V, begun; cbn; now rewrite upd_length).
  assert (IV : List.length (w_ints V) = List.length (w_ints (s_world x))) by (unfold V, begun; cbn; now rewrite upd_length).
  assert (NV : w_nv V = v_nv s) by reflexivity.
  destruct (run_agent k n a V) as [rr W4] eqn:Er. apply run_geffs in Er; [|exact SV|lia].
  assert (Ex : s_vars x' = v_vars s /\ s_world x' = W4).
  { destruct rr; [|injection E as _ <-; auto]. destruct (dump_variables _ _); injection E as _ <-; auto. }
  destruct Ex as [Ev ->]. split; [exact Ev|]. split; [apply (geffs_nv U) in Er; lia|]. split; [exact G'|].
  split; [eapply geffs_sane_any; eassumption|]. split; [apply geffs_agents in Er; lia|apply geffs_ints in Er; lia].
Qed.
Theorem state_going (U : fresh_texts) acts k n a i x : session_state acts k n a i x -> going a i x.
Proof.
  induction 1 as [W R Ha ->|x b r x' _ IH E]; [|eapply statement_going; eassumption].
  split; [|split; [|split; [exact Ha|cbn; rewrite app_length; cbn; lia]]].
  - constructor; [split; [discriminate|]|discriminate|constructor]. intros y z j X. discriminate.
  - cbn [s_world]. eapply (geff_sane Any true); [auto|apply (g_eff _ _ _ 0%nat 0%nat), ef_new|]. apply reach_sane; auto.
Qed.
End WithPy.

Theorem text_fresh {PY : Py} n : @fresh_texts (FrontText n).
Proof.
  split; intros s k p k'; cbn [fr_plan fr_event FrontText].
  - unfold text_plan. destruct (read_plan n s); [|discriminate]. destruct (clause _ _ k) as [[[x|e] l] k1] eqn:E; [|discriminate].
    apply ngrows_clause in E; [|apply ngrows_plan]. intro X. injection X as _ <-. exact E.
  - unfold text_event. destruct (tokenize _ _) as [ts|]; [|discriminate]. destruct (awaited n _) as [[e|e] s']; [|destruct e; discriminate].
    destruct (clause _ _ k) as [[[x|e'] l] k1] eqn:E; [|discriminate].
    apply ngrows_clause in E; [|apply ngrows_event]. intro X. injection X as _ <-. exact E.
Qed.

(** * Whole sessions *)
Section Run.
Context {S0 : Type} (exec : list form -> S0 -> res unit * S0) (P : S0 -> Prop).
Hypothesis HP : forall b x r x', P x -> exec b x = (r, x') -> P x'.
Lemma loop_keeps k n : forall ts lg x r x', P x -> repl_loop S0 exec k n ts lg x = (r, x') -> P x'.
Proof.
  induction k as [|k IH]; intros [|t ts] lg x r x' Hx E; cbn [repl_loop] in E; try (injection E as _ <-; exact Hx).
  destruct (statement n _) as [[b|e] s].
  - destruct (log_throw _); [|injection E as _ <-; exact Hx]. destruct (exec b x) as [[u|e] x1] eqn:Ee; apply HP in Ee; auto.
    + eapply IH; [exact Ee|exact E].
    + injection E as _ <-. exact Ee.
  - destruct e; try (injection E as _ <-; exact Hx). destruct (log_throw _); injection E as _ <-; exact Hx.
Qed.
Lemma line_keeps n no line ts x r x' : P x -> repl_line S0 exec n no line ts x = (r, x') -> P x'.
Proof.
  intros Hx E. unfold repl_line in E. destruct (tokenize _ _) as [items|]; [|injection E as _ <-; exact Hx].
  destruct (line_tokens items log3) as [[new|e] lg].
  - destruct (repl_loop _ _ _ _ _ _ _) as [r1 x1] eqn:El. apply loop_keeps in El; [|exact Hx].
    destruct r1 as [l|e]; [|destruct (caught e)]; injection E as _ <-; exact El.
  - destruct (caught e); injection E as _ <-; exact Hx.
Qed.
Lemma repl_keeps n input : forall no ts x r x', P x -> repl S0 exec n no input ts x = (r, x') -> P x'.
Proof.
  induction input as [|line input IH]; intros no ts x r x' Hx E; cbn [repl] in E; [injection E as _ <-; exact Hx|].
  destruct (repl_line _ _ _ _ _ _ _) as [[l|e] x1] eqn:El; apply line_keeps in El; auto.
  - eapply IH; [exact El|exact E].
  - injection E as _ <-. exact El.
Qed.
End Run.
Theorem session_states {PY : Py} {FR : Front} acts k n m a input W r x' : reach W -> (a < List.length (w_agents W))%nat ->
  session_run acts k n m a input W = (r, x') -> session_state acts k n a (List.length (w_ints W)) x'.
Proof.
  intros R Ha E. unfold session_run, new_int in E. eapply (repl_keeps _ (session_state acts k n a (List.length (w_ints W)))) in E; [exact E| |].
  - intros b x r0 x0 Hx Ex. eapply ss_next; eassumption.
  - now apply ss_begin.
Qed.
