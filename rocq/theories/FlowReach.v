(** Running compiled code, in all reachable states. *)
From Verif Require Import Base Num Term Unify Str World Engine Step Ast Names Build QuerySpec Reach Effects EffFacts ReachFacts StepSpec StepFacts LoadSpec FlowSpec FlowFacts.
Notation Any := (fun _ : plan => True).
Open Scope nat_scope.

Section WithPy.
Context {PY : Py} {FR : Front}.

Lemma plan_follows acts p lg k x lg' k' : clause (build_plan acts p) lg k = (Ok x, lg', k') ->
  exists l, body_of acts p x l /\ follows (p_code x) (Some 0) (begin l).
Proof.
  unfold clause, body_of. intros E. destruct (build_plan acts p (mkbs [] k lg)) as [r s] eqn:E1. injection E as -> <- <-.
  enough (exists l, clause_parts acts p (mkbs [] k lg) = (Ok (p_functor x, p_hargs x, p_hannots x, p_ctx x, l), s) /\ follows (p_code x) (Some 0) (begin l)) as (l & H1 & H2).
  { exists l. split; [|exact H2]. exists lg, k, (v_log s), (v_nv s). unfold clause. rewrite H1. reflexivity. }
  unfold build_plan in E1. unfold clause_parts. unfold bbind at 1 in E1. unfold bbind at 1.
  destruct (build_lit (ae_head (ap_event p)) _) as [[[[f args] annots]|e] s1]; [|discriminate].
  unfold bbind at 1 in E1. unfold bbind at 1.
  destruct (match ap_ctx p with Some t => build_query acts t | None => bret QTrue end s1) as [[ctx|e] s2]; [|discriminate].
  unfold bbind at 1 in E1. unfold bbind at 1. destruct (ap_body p) as [b|].
  - destruct (compile_all acts b _ s2) as [[c|e] s3] eqn:Ec; [|discriminate]. apply compiled_follows in Ec. destruct Ec as (l & -> & Hf).
    unfold bbind at 1 in E1. destruct (annot_texts _) as [texts|e]; [|discriminate]. cbn [bret] in E1. injection E1 as <- <-.
    exists l. split; [reflexivity|exact Hf].
  - cbn [bret] in *. unfold bbind in E1. destruct (annot_texts _) as [texts|e]; [|discriminate]. cbn [bret] in E1. injection E1 as <- <-.
    exists []. split; [reflexivity|]. exists (conts [mkinstr INoop None None]). split; [|apply conts_does].
    apply (ct_seq _ (Some 0) [SNop] None []); [|constructor]. econstructor; [reflexivity|constructor].
Qed.

(** ** One instruction *)
Lemma queries_app k k' : queries (k ++ k') = queries k + queries k'.
Proof. unfold queries. now rewrite map_app, list_sum_app. Qed.
Lemma marks_app k k' : marks (k ++ k') = marks k + marks k'.
Proof. unfold marks. now rewrite map_app, list_sum_app. Qed.
Lemma queries_dos l : queries (dos l) = 0.
Proof. unfold queries, dos. induction l; cbn; auto. Qed.
Lemma marks_dos l : marks (dos l) = 0.
Proof. unfold marks, dos. induction l; cbn; auto. Qed.

Lemma queries_cons t k : queries (t :: k) = open1 t + queries k.
Proof. reflexivity. Qed.
Lemma marks_cons t k : marks (t :: k) = set1 t + marks k.
Proof. reflexivity. Qed.
Lemma queries_nil : queries [] = 0.
Proof. reflexivity. Qed.
Lemma marks_nil : marks [] = 0.
Proof. reflexivity. Qed.
Lemma first_counts k o yes no : first k = Some (o, yes, no) ->
  match o with
  | INoop | ICall _ _ _ _ => queries yes = queries k /\ marks yes = marks k
  | IPushQ _ => queries yes = S (queries k) /\ marks yes = marks k
  | INext => queries k <> 0 /\ queries yes = queries k /\ marks yes = marks k
  | IPopQ => queries k = S (queries yes) /\ marks yes = marks k
  | IPushCP => queries yes = queries k /\ marks yes = S (marks k)
  | IPopCP => queries yes = queries k /\ marks k = S (marks yes)
  end /\ (forall k', no = Some k' -> o = INext /\ queries k' = queries k /\ marks k' = marks k).
Proof.
  destruct k as [|[s| | | | | | |] k]; cbn [first]; [discriminate|destruct s|..]; intros [= <- <- <-]; (split; [|intros k' [= <-] || discriminate]);
    repeat match goal with |- context [match ?n with Some _ => _ | None => _ end] => destruct n end;
    repeat (rewrite ?queries_app, ?marks_app, ?queries_dos, ?marks_dos, ?queries_cons, ?marks_cons, ?queries_nil, ?marks_nil; cbn [open1 set1 app]);
    repeat split; lia.
Qed.

Lemma follows_next code j k : follows code (Some j) k -> exists ins o yes no, nth_error code j = Some ins /\ in_op ins = o /\ first k = Some (o, yes, no) /\
  follows code (in_succ ins) yes /\
  match no with None => in_fail ins = None | Some k' => in_fail ins <> None /\ follows code (in_fail ins) k' end.
Proof.
  intros (R & HR & HD). pose proof (HD _ _ HR) as H. destruct (first k) as [[[o yes] no]|]; [|contradiction]. destruct H as (ins & E & Eo & Hy & Hn).
  exists ins, o, yes, no. repeat split; try assumption.
  - exists R. split; assumption.
  - destruct no as [k'|]; [|exact Hn]. destruct Hn as [N Hk]. split; [exact N|]. exists R. split; assumption.
Qed.

(** What has happened when an operation of intention [i] is done: its own
    program, and the open queries and marks. *)
Lemma exec_keeps n a i op st W r st' W' : sane Any W -> a < List.length (w_agents W) -> i < List.length (w_ints W) ->
  exec_op n a i op (st, W) = (r, (st', W')) ->
  i < List.length (w_ints W') /\
  let it := get_int W i in let it' := get_int W' i in
  i_code it' = i_code it /\ i_pc it' = i_pc it /\
  match op with
  | INoop | ICall _ _ _ _ => List.length (i_qs it') = List.length (i_qs it) /\ List.length (i_cps it') = List.length (i_cps it)
  | IPushQ q => r = Ok true /\ List.length (i_qs it') = S (List.length (i_qs it)) /\ List.length (i_cps it') = List.length (i_cps it)
  | INext => List.length (i_qs it') = List.length (i_qs it) /\ List.length (i_cps it') = List.length (i_cps it)
  | IPopQ => (i_qs it <> [] -> r = Ok true /\ List.length (i_qs it) = S (List.length (i_qs it'))) /\ List.length (i_cps it') = List.length (i_cps it)
  | IPushCP => r = Ok true /\ List.length (i_qs it') = List.length (i_qs it) /\ List.length (i_cps it') = S (List.length (i_cps it))
  | IPopCP => List.length (i_qs it') = List.length (i_qs it) /\ (i_cps it <> [] -> r = Ok true /\ List.length (i_cps it) = S (List.length (i_cps it')))
  end.
Proof.
  intros HS Ha Hi E.
  assert (forall W1, effs Any (List.length (w_ints W)) i W W1 -> same_run (get_int W i) (get_int W1 i)) as HR by (intros W1 H; eapply effs_run; [exact H|exact Hi|exact Hi]).
  assert (forall V x, i < List.length (w_ints V) -> get_int (put_int V i x) i = x) as GP.
  { intros V x HV. unfold get_int, put_int. cbn. now apply upd_same. }
  assert (forall V x, List.length (w_ints (put_int V i x)) = List.length (w_ints V)) as LP. { intros V x. unfold put_int. cbn. apply upd_length. }
  destruct op; cbn [exec_op] in E.
  - inversion E; subst. split; [exact Hi|]. repeat split; reflexivity.
  - apply call_effs in E; auto. split; [apply effs_len in E; lia|]. apply HR in E. unfold same_run in E.
    destruct (get_int W i), (get_int W' i); cbn in *. inversion E; subst. repeat split; reflexivity.
  - inversion E; subst. split; [cbn; rewrite upd_length; exact Hi|]. cbn [snd]. cbv zeta. rewrite (GP W _ Hi). cbn. repeat split; reflexivity.
  - unfold next_or_fail in E. cbn [snd fst] in E. destruct (i_qs (get_int W i)) as [|g gs] eqn:Eq.
    + inversion E; subst. split; [exact Hi|]. cbv zeta. rewrite Eq. repeat split; reflexivity.
    + destruct (resume n a i g (st, W)) as [x [st2 W2]] eqn:Er. apply resume_effs in Er; auto.
      assert (i < List.length (w_ints W2)) as Hi2 by (apply effs_len in Er; lia). apply HR in Er. unfold same_run in Er. cbn [fst snd] in E.
      assert (exists g', W' = put_int W2 i (set_i_qs (get_int W2 i) (g' :: gs))) as (g' & ->). { destruct x as [[g'|]|e]; inversion E; subst; eexists; reflexivity. }
      split; [rewrite LP; exact Hi2|]. cbv zeta. rewrite (GP W2 _ Hi2). clear E GP LP HR. destruct (get_int W i), (get_int W2 i); cbn in *. inversion Er; subst. repeat split; reflexivity.
  - unfold mbind in E. cbn [m_world snd] in E. destruct (i_qs (get_int W i)) as [|g gs] eqn:Eq; inversion E; subst.
    + split; [exact Hi|]. cbv zeta. rewrite Eq. repeat split; try reflexivity; congruence.
    + split; [rewrite LP; exact Hi|]. cbv zeta. rewrite (GP W _ Hi). cbn. rewrite Eq. repeat split; try reflexivity.
  - inversion E; subst. split; [cbn; rewrite upd_length; exact Hi|]. cbn [snd]. cbv zeta. rewrite (GP W _ Hi). cbn. repeat split; reflexivity.
  - unfold mbind in E. cbn [m_world snd] in E. destruct (i_cps (get_int W i)) as [|g gs] eqn:Eq; inversion E; subst.
    + split; [exact Hi|]. cbv zeta. rewrite Eq. repeat split; try reflexivity; congruence.
    + split; [rewrite LP; exact Hi|]. cbv zeta. rewrite (GP W _ Hi). cbn. rewrite Eq. repeat split; try reflexivity.
Qed.

Theorem run_follows n a i W r W' j k : sane Any W -> a < List.length (w_agents W) ->
  i_pc (get_int W i) = Some j -> follows (i_code (get_int W i)) (Some j) k -> run_instr n a i W = (r, W') ->
  let it := get_int W i in let it' := get_int W' i in
  exists o yes no, first k = Some (o, yes, no) /\ i_code it' = i_code it /\
  exists x st1 W1, exec_op n a i o (i_bst it, W) = (x, (st1, W1)) /\
    match x with
    | Ok true => r = Ok true /\ follows (i_code it) (i_pc it') yes
    | Ok false => match no with
      | Some k' => r = Ok true /\ i_pc it' <> None /\ follows (i_code it) (i_pc it') k'
      | None => r = Err EAggregated /\ i_pc it' = None
      end
    | Err e => r = Err (wrap e) /\ i_pc it' = Some j
    end.
Proof.
  intros HS Ha Ej Hk E. cbv zeta. destruct (follows_next _ _ _ Hk) as (ins & o & yes & no & En & Eo & Ef & Hy & Hn).
  exists o, yes, no. split; [exact Ef|]. unfold run_instr in E. rewrite Ej, En, Eo in E.
  assert (i < List.length (w_ints W)) as Hi.
  { destruct (Nat.lt_ge_cases i (List.length (w_ints W))) as [|L]; [assumption|]. unfold get_int in Ej. rewrite nth_overflow in Ej by exact L. discriminate. }
  destruct (exec_op n a i o _) as [x [st1 W1]] eqn:Ex. destruct (exec_keeps _ _ _ _ _ _ _ _ _ HS Ha Hi Ex) as (Hi1 & K1 & K2 & _).
  assert (forall V x, i < List.length (w_ints V) -> get_int (put_int V i x) i = x) as GP.
  { intros V y HV. unfold get_int, put_int. cbn. now apply upd_same. }
  assert (forall V x, List.length (w_ints (put_int V i x)) = List.length (w_ints V)) as LP. { intros V y. unfold put_int. cbn. apply upd_length. }
  assert (i < List.length (w_ints (put_int W1 i (set_i_bst (get_int W1 i) st1)))) as Hi2 by (rewrite LP; exact Hi1).
  destruct x as [[]|e].
  - injection E as <- <-. rewrite (GP _ _ Hi2), (GP _ _ Hi1). cbn. split; [exact K1|]. exists (Ok true), st1, W1. repeat split. exact Hy.
  - destruct no as [k'|].
    + destruct Hn as [Hn1 Hn2]. destruct (in_fail ins) as [jf|] eqn:Efl; [|congruence]. injection E as <- <-. rewrite (GP _ _ Hi2), (GP _ _ Hi1). cbn.
      split; [exact K1|]. exists (Ok false), st1, W1. repeat split; [discriminate|exact Hn2].
    + rewrite Hn in E. injection E as <- <-. rewrite (GP _ _ Hi2), (GP _ _ Hi1). cbn. split; [exact K1|]. exists (Ok false), st1, W1. repeat split.
  - injection E as <- <-. rewrite (GP _ _ Hi1). cbn. split; [exact K1|]. exists (Err e), st1, W1. repeat split. congruence.
Qed.

(** ** The invariant *)
Definition bal (W : world) : Prop := forall i, balanced (get_int W i).
Definition Pc (p : plan) : Prop := compiled (p_code p).

Lemma bal_ints W W' : w_ints W' = w_ints W -> bal W -> bal W'.
Proof. intros E H i. unfold get_int. rewrite E. apply H. Qed.
Lemma bal_put W i x : balanced x -> bal W -> bal (put_int W i x).
Proof.
  intros Hx H j. unfold get_int, put_int. cbn. destruct (Nat.eq_dec j i) as [->|N].
  - destruct (Nat.lt_ge_cases i (List.length (w_ints W))) as [L|L]; [rewrite upd_same by exact L; exact Hx|]. rewrite upd_beyond by exact L. apply H.
  - rewrite upd_other by exact N. apply H.
Qed.
Lemma balanced_same x y : i_code y = i_code x -> i_pc y = i_pc x -> i_qs y = i_qs x -> i_cps y = i_cps x -> balanced x -> balanced y.
Proof. unfold balanced. intros -> -> -> ->. auto. Qed.
Lemma balanced_start code fz t st w : compiled code -> balanced (mkint code (Some 0) fz t st [] [] w).
Proof.
  intros [l Hl] _. exists l, (begin l). cbn [i_code i_pc i_qs i_cps List.length]. split; [exact Hl|]. split; [constructor|]. split; [exact Hl|]. unfold begin. now rewrite queries_dos, marks_dos.
Qed.
Lemma balanced0 : balanced int0.
Proof. intros H. cbn in H. congruence. Qed.

Lemma eff_bal lo cur W W' : eff Pc lo cur W W' -> bal W -> bal W'.
Proof.
  intros H HB. destruct H; try (apply (bal_ints W); [reflexivity|exact HB]).
  - apply (bal_ints W); [apply bel_ref_ints|exact HB].
  - apply (bal_ints W); [apply plan_ref_ints|exact HB].
  - intros i. unfold get_int. cbn. destruct (Nat.lt_ge_cases i (List.length (w_ints W))) as [L|L].
    + rewrite app_nth1 by exact L. apply HB.
    + rewrite app_nth2 by exact L. destruct (i - _) as [|[|]]; apply balanced0.
  - apply (bal_ints (put_int W ni (mkint (p_code p) (Some 0) (Some frozen) (Some t) st [] [] (i_wait (get_int W ni))))); [reflexivity|].
    apply bal_put; [now apply balanced_start|exact HB].
  - apply bal_put; [now apply balanced_start|exact HB].
  - apply bal_put; [|exact HB]. apply (balanced_same (get_int W i)); auto.
  - apply bal_put; [|exact HB]. apply (balanced_same (get_int W i)); auto.
Qed.
Lemma effs_bal lo cur W W' : effs Pc lo cur W W' -> bal W -> bal W'.
Proof. induction 1; eauto using eff_bal. Qed.

Hypothesis Hfront : front_compiles FR.
Lemma pc_args p names : Pc p -> Pc (set_p_args p names).
Proof. exact (fun H => H). Qed.
Lemma pc_front s k p k' : fr_plan s k = Ok (p, k') -> Pc p.
Proof. apply Hfront. Qed.
Lemma pc_build acts p l k x l' k' : clause (build_plan acts p) l k = (Ok x, l', k') -> Pc x.
Proof. intros H. apply plan_follows in H. destruct H as (b & _ & H). now exists b. Qed.
Lemma sane_any W : sane Pc W -> sane Any W.
Proof. intros (H1 & H2 & H3). split; [|split; assumption]. intros r. apply Forall_forall. auto. Qed.

Lemma call_bal n a tr gt t ci d s r s' : sane Pc (snd s) -> a < List.length (w_agents (snd s)) ->
  call n a tr gt t ci d s = (r, s') -> bal (snd s) -> bal (snd s').
Proof.
  intros HS Ha E. destruct (engine_does Pc pc_args pc_front (List.length (w_agents (snd s))) n (List.length (w_ints (snd s)))) as (_ & HC & _).
  apply effs_bal with (lo := List.length (w_ints (snd s))) (cur := ci). eapply HC; [exact Ha| |exact E]. now apply sane_ready.
Qed.
Lemma outside_bal n a tr gt t d W r W' : sane Pc W -> a < List.length (w_agents W) ->
  outside_call n a tr gt t d W = (r, W') -> bal W -> bal W'.
Proof.
  intros HS Ha E HB. unfold outside_call, with_new in E. cbn in E.
  destruct (call n a tr gt t (List.length (w_ints W)) d _) as [x s2] eqn:Ec. inversion E; subst. cbn.
  apply call_bal in Ec; [exact Ec| |exact Ha|].
  - cbn. eapply geff_sane; [exact pc_args|eapply (g_eff Pc true _ 0 0), ef_new|exact HS].
  - cbn. eapply (eff_bal 0 0); [apply ef_new|exact HB].
Qed.

Lemma pick_bal stacks : forall pos W x W', pick stacks pos W = (x, W') -> bal W -> bal W'.
Proof.
  induction stacks as [|[|i rest] stacks IH]; intros pos W x W' E HB; cbn in E.
  - inversion E; subst. exact HB.
  - eauto.
  - destruct (i_wait (get_int W i)) as [w|]; [|inversion E; subst; exact HB].
    destruct (poll w W) as [due W1] eqn:Ep.
    assert (HP : bal W1). { unfold poll in Ep. destruct (wt_until w); inversion Ep; subst; [|exact HB]. now apply (bal_ints W). }
    destruct due; [|eauto]. inversion E; subst. apply bal_put; [|exact HP]. apply (balanced_same (get_int W1 i)); auto.
Qed.
Lemma finish_bal n a pos i W x W' : finish n a pos i W = (x, W') -> bal W -> bal W'.
Proof.
  unfold finish. intros E HB. destruct (List.tl _) as [|c rest].
  - inversion E; subst. now apply (bal_ints W).
  - cbv zeta in E. set (W1 := put_agent W a _) in *. assert (bal W1) as H1 by now apply (bal_ints W).
    destruct (i_call (get_int W1 i)); [|inversion E; subst; exact H1].
    destruct (i_head (get_int W1 i)); [|inversion E; subst; exact H1].
    destruct (freeze n _ _ _) as [[fz|e] [mm k]]; cbn [fst snd] in E.
    + destruct (unify n _ fz _) as [r st'].
      assert (bal (put_int (set_nv W1 k) c (set_i_bst (get_int (set_nv W1 k) c) st'))) as H3.
      { apply bal_put; [|now apply (bal_ints W1)]. apply (balanced_same (get_int W1 c)); auto. }
      destruct r as [[]|]; inversion E; subst; exact H3.
    + inversion E; subst. now apply (bal_ints W1).
Qed.

Lemma exec_bal n a i op st W r st' W' : sane Pc W -> a < List.length (w_agents W) ->
  exec_op n a i op (st, W) = (r, (st', W')) -> bal W -> forall j, j <> i -> balanced (get_int W' j).
Proof.
  intros HS Ha E HB j Hj.
  assert (forall V x, bal V -> balanced (get_int (put_int V i x) j)) as GP.
  { intros V x HV. unfold get_int, put_int. cbn. rewrite upd_other by congruence. apply HV. }
  destruct op; cbn [exec_op] in E.
  - inversion E; subst. apply HB.
  - exact (call_bal n a tr gt t i delayed (st, W) r (st', W') HS Ha E HB j).
  - inversion E; subst. now apply GP.
  - unfold next_or_fail in E. cbn [snd fst] in E. destruct (i_qs (get_int W i)) as [|g gs]; [inversion E; subst; apply HB|].
    destruct (resume n a i g (st, W)) as [x [st2 W2]] eqn:Er.
    assert (bal W2) as H2.
    { destruct (engine_does Pc pc_args pc_front (List.length (w_agents W)) n (List.length (w_ints W))) as (HC & _).
      specialize (HC a i g Ha (st, W) _ _ (sane_ready _ _ HS) Er). eapply effs_bal; [exact HC|exact HB]. }
    destruct x as [[g'|]|e]; inversion E; subst; now apply GP.
  - unfold mbind in E. cbn [m_world snd] in E. destruct (i_qs (get_int W i)) as [|g gs]; inversion E; subst; [apply HB|now apply GP].
  - inversion E; subst. now apply GP.
  - unfold mbind in E. cbn [m_world snd] in E. destruct (i_cps (get_int W i)) as [|g gs]; inversion E; subst; [apply HB|now apply GP].
Qed.

Lemma run_bal n a i W r W' : sane Pc W -> a < List.length (w_agents W) -> run_instr n a i W = (r, W') -> bal W -> bal W'.
Proof.
  intros HS Ha E HB. unfold run_instr in E. destruct (i_pc (get_int W i)) as [pc|] eqn:Ej; [|inversion E; subst; exact HB].
  destruct (HB i) as (l & k & Hl & Hlk & Hk & Lq & Lc); [congruence|]. rewrite Ej in Hk.
  destruct (follows_next _ _ _ Hk) as (ins & o & yes & no & En & Eo & Ef & Hy & Hn). rewrite En, Eo in E.
  assert (i < List.length (w_ints W)) as Hi.
  { destruct (Nat.lt_ge_cases i (List.length (w_ints W))) as [|L]; [assumption|]. unfold get_int in Ej. rewrite nth_overflow in Ej by exact L. discriminate. }
  destruct (exec_op n a i o _) as [x [st1 W1]] eqn:Ex.
  destruct (exec_keeps _ _ _ _ _ _ _ _ _ (sane_any _ HS) Ha Hi Ex) as (Hi1 & K1 & K2 & K3). pose proof (exec_bal _ _ _ _ _ _ _ _ _ HS Ha Ex HB) as KO.
  destruct (first_counts _ _ _ _ Ef) as (C1 & C2).
  assert (forall V x, i < List.length (w_ints V) -> get_int (put_int V i x) i = x) as GP.
  { intros V y HV. unfold get_int, put_int. cbn. now apply upd_same. }
  assert (forall V x, List.length (w_ints (put_int V i x)) = List.length (w_ints V)) as LP. { intros V y. unfold put_int. cbn. apply upd_length. }
  assert (forall V x j, j <> i -> get_int (put_int V i x) j = get_int V j) as GO. { intros V y j Hj. unfold get_int, put_int. cbn. apply upd_other. congruence. }
  set (W2 := put_int W1 i (set_i_bst (get_int W1 i) st1)) in *.
  assert (i < List.length (w_ints W2)) as Hi2 by (unfold W2; rewrite LP; exact Hi1).
  assert (forall y, balanced (set_i_pc (get_int W2 i) y) -> bal (put_int W2 i (set_i_pc (get_int W2 i) y))) as HF.
  { intros y Hb j. destruct (Nat.eq_dec j i) as [->|N]; [rewrite (GP _ _ Hi2); exact Hb|]. rewrite (GO _ _ _ N). unfold W2. rewrite (GO _ _ _ N). now apply KO. }
  assert (get_int W2 i = set_i_bst (get_int W1 i) st1) as G2 by (unfold W2; apply GP; exact Hi1).
  assert (i_qs (get_int W i) <> [] \/ queries k = 0) as Q0. { destruct (i_qs (get_int W i)); [right; cbn in Lq; lia|left; discriminate]. }
  assert (i_cps (get_int W i) <> [] \/ marks k = 0) as M0. { destruct (i_cps (get_int W i)); [right; cbn in Lc; lia|left; discriminate]. }
  destruct x as [[]|e].
  - injection E as <- <-. apply HF. rewrite G2. intros _. exists l, yes. cbn. rewrite K1.
    split; [exact Hl|]. split; [eapply ld_yes; eassumption|]. split; [exact Hy|].
    destruct o; [lia|lia|lia|lia| |lia|].
    + destruct Q0 as [Q0|Q0]; [|lia]. destruct K3 as [K3 K4]. destruct (K3 Q0). lia.
    + destruct M0 as [M0|M0]; [|lia]. destruct K3 as [K3 K4]. destruct (K4 M0). lia.
  - destruct no as [k'|].
    + destruct Hn as [Hn1 Hn2]. destruct (in_fail ins) as [jf|] eqn:Efl; [|congruence]. injection E as <- <-. apply HF. rewrite G2. intros _. exists l, k'. cbn. rewrite K1.
      split; [exact Hl|]. split; [eapply ld_no; eassumption|]. split; [exact Hn2|].
      destruct (C2 k' eq_refl) as (-> & C3 & C4). lia.
    + rewrite Hn in E. injection E as <- <-. apply HF. intros Hp. cbn in Hp. congruence.
  - injection E as <- <-. intros j. destruct (Nat.eq_dec j i) as [->|N]; [|unfold W2; rewrite (GO _ _ _ N); now apply KO].
    rewrite G2. intros _. exists l, k. cbn. rewrite K1, K2, Ej. split; [exact Hl|]. split; [exact Hlk|]. split; [exact Hk|].
    destruct o; try lia; try (destruct K3 as [K3 _]; discriminate).
    + destruct Q0 as [Q0|Q0]; [|lia]. destruct K3 as [K3 K4]. destruct (K3 Q0). discriminate.
    + destruct M0 as [M0|M0]; [|lia]. destruct K3 as [K3 K4]. destruct (K4 M0). discriminate.
Qed.

Lemma step_bal n a W r W' : sane Pc W -> a < List.length (w_agents W) -> step n a W = (r, W') -> bal W -> bal W'.
Proof.
  intros HS Ha E HB. unfold step in E. cbv zeta in E. set (W0 := put_agent W a _) in *.
  assert (H0 : geffs Pc true W W0) by (apply geffs_one, g_ints; rewrite drop_empty_concat; apply sub_refl).
  assert (HB0 : bal W0) by now apply (bal_ints W).
  destruct (pick _ 0 W0) as [o W1] eqn:Ep. pose proof (pick_bal _ _ _ _ _ Ep HB0) as HB1.
  apply (g_pick Pc true) in Ep. assert (H1 := geffs_app _ _ _ _ _ H0 Ep).
  destruct o as [[pos i]|]; [|inversion E; subst; exact HB1].
  destruct (i_pc (get_int W1 i)).
  - eapply run_bal; [| |exact E|exact HB1]; [eapply geffs_sane; [exact pc_args|exact H1|exact HS]|]. apply geffs_agents in H1. lia.
  - eapply finish_bal; eassumption.
Qed.

(** Building *)
Definition item_bal {A} (a : nat) (f : A -> log -> world -> res unit * log * world) : Prop :=
  forall x l W r l' W', sane Pc W -> a < List.length (w_agents W) -> f x l W = (r, l', W') -> bal W -> bal W'.
Lemma wfor_bal {A} a (f : A -> log -> world -> res unit * log * world) items : item_ok Pc true a f -> item_bal a f ->
  forall l W r l' W', sane Pc W -> a < List.length (w_agents W) -> wfor f items l W = (r, l', W') -> bal W -> bal W'.
Proof.
  intros Hg H. induction items as [|x items IH]; intros l W r l' W' HS Ha E HB; cbn in E.
  - inversion E; subst. exact HB.
  - destruct (f x l W) as [[[u|e] l1] W1] eqn:Ef; [|inversion E; subst; eapply H; eassumption].
    pose proof (H _ _ _ _ _ _ HS Ha Ef HB) as HB1. apply Hg in Ef; auto. eapply IH; [| |exact E|exact HB1].
    + eapply geffs_sane; [exact pc_args|exact Ef|exact HS].
    + apply geffs_agents in Ef. lia.
Qed.
Lemma rule_bal acts a : item_bal a (install_rule acts a).
Proof.
  intros x l W r l' W' HS Ha E HB. unfold install_rule in E. destruct (clause _ l _) as [[[y|e] l1] k]; inversion E; subst; now apply (bal_ints W).
Qed.
Lemma plan_bal acts a : item_bal a (install_plan acts a).
Proof.
  intros x l W r l' W' HS Ha E HB. unfold install_plan in E. destruct (clause _ l _) as [[[y|e] l1] k] eqn:Ec.
  - destruct (add_plan a y (bst0, set_nv W k)) as [r1 [st W1]] eqn:Ep. inversion E; subst.
    eapply (does_add_plan Pc pc_args (List.length (w_agents W)) 0 0) in Ep; [eapply effs_bal; [exact Ep|now apply (bal_ints W)]|eapply pc_build, Ec|].
    destruct HS as (H1 & H2 & H3). split; [cbn; lia|]. split; [exact H1|]. split; [exact H2|exact H3].
  - inversion E; subst. now apply (bal_ints W).
Qed.
Lemma event_bal n a gt : item_bal a (install_event n a gt).
Proof.
  intros x l W r l' W' HS Ha E HB. unfold install_event in E. destruct (clause _ l _) as [[[[[f args] annots]|e] l1] k] eqn:Ec.
  - pose proof (outside_bal n a TrAdd gt (TLit f args annots) true (set_nv W k)) as HO. unfold outside_call in HO.
    destruct (with_new _ (bst0, set_nv W k)) as [r1 [st W1]] eqn:Ep. inversion E; subst.
    eapply HO; [exact HS|exact Ha|reflexivity|now apply (bal_ints W)].
  - inversion E; subst. now apply (bal_ints W).
Qed.

Lemma build_bal n acts path g W r W' : sane Pc W -> build_agent_from_ast n acts path g W = (r, W') -> bal W -> bal W'.
Proof.
  intros HS E HB. unfold build_agent_from_ast in E. destruct (make_name _ _) as [name|e]; [|inversion E; subst; exact HB].
  cbv zeta in E. set (W0 := set_agents W _) in *. set (a := List.length (w_agents W)) in *.
  assert (H0 : geffs Pc true W W0) by apply geffs_one, g_agent.
  assert (HA : forall V, geffs Pc true W0 V -> a < List.length (w_agents V)).
  { intros V HV. apply geffs_agents in HV. unfold W0 in HV. cbn in HV. rewrite app_length in HV. cbn in HV. unfold a. lia. }
  assert (HSV : forall V, geffs Pc true W0 V -> sane Pc V) by (intros V HV; eapply geffs_sane; [exact pc_args| |exact HS]; eapply geffs_app; eauto).
  assert (HN : geffs Pc true W0 W0) by constructor.
  assert (HB0 : bal W0) by now apply (bal_ints W).
  pose proof (g_install_rule Pc true acts a) as I1. pose proof (g_install_plan Pc true pc_args pc_build acts a) as I2.
  pose proof (fun gt => g_install_event Pc true pc_args pc_front n a gt) as I3.
  destruct (wfor (install_rule acts a) _ _ W0) as [[x1 l1] W1] eqn:E1.
  assert (B1 : bal W1) by (exact (wfor_bal a _ _ I1 (rule_bal acts a) _ _ _ _ _ (HSV _ HN) (HA _ HN) E1 HB0)). apply (g_wfor Pc true pc_args a) in E1; auto.
  destruct x1; [|inversion E; subst; exact B1].
  destruct (wfor (install_plan acts a) _ _ W1) as [[x2 l2] W2] eqn:E2.
  assert (B2 : bal W2) by (exact (wfor_bal a _ _ I2 (plan_bal acts a) _ _ _ _ _ (HSV _ E1) (HA _ E1) E2 B1)). apply (g_wfor Pc true pc_args a) in E2; auto. assert (H2 := geffs_app _ _ _ _ _ E1 E2).
  destruct x2; [|inversion E; subst; exact B2].
  destruct (wfor (install_event n a GtBelief) _ _ W2) as [[x3 l3] W3] eqn:E3.
  assert (B3 : bal W3) by (exact (wfor_bal a _ _ (I3 _) (event_bal n a _) _ _ _ _ _ (HSV _ H2) (HA _ H2) E3 B2)). apply (g_wfor Pc true pc_args a) in E3; auto. assert (H3 := geffs_app _ _ _ _ _ H2 E3).
  destruct x3; [|inversion E; subst; exact B3].
  destruct (wfor (install_event n a GtAchieve) _ _ W3) as [[x4 l4] W4] eqn:E4.
  assert (B4 : bal W4) by (exact (wfor_bal a _ _ (I3 _) (event_bal n a _) _ _ _ _ _ (HSV _ H3) (HA _ H3) E4 B3)).
  destruct x4; [|inversion E; subst; exact B4].
  destruct (log_throw l4); inversion E; subst; first [exact B4|exact (bal_ints _ _ eq_refl B4)].
Qed.
Lemma copies_bal n count path proto g : forall W r W', sane Pc W -> proto < List.length (w_agents W) ->
  build_copies n count path proto g W = (r, W') -> bal W -> bal W'.
Proof.
  induction count as [|count IH]; intros W r W' HS Hp E HB; cbn in E; [inversion E; subst; exact HB|].
  destruct (make_name _ _) as [name|e]; [|inversion E; subst; exact HB].
  set (a := List.length (w_agents W)) in *. set (W0 := set_agents W _) in *.
  assert (H0 : geffs Pc true W W0) by (now apply geffs_one, g_copy).
  assert (HS0 : sane Pc W0) by (eapply geffs_sane; [exact pc_args|exact H0|exact HS]).
  assert (Ha : a < List.length (w_agents W0)). { unfold W0. cbn. rewrite app_length. cbn. unfold a. lia. }
  assert (HB0 : bal W0) by now apply (bal_ints W).
  pose proof (fun gt => g_install_event Pc true pc_args pc_front n a gt) as I3.
  destruct (wfor (install_event n a GtAchieve) _ _ W0) as [[x1 l1] W1] eqn:E1.
  assert (B1 : bal W1) by (exact (wfor_bal a _ _ (I3 _) (event_bal n a _) _ _ _ _ _ HS0 Ha E1 HB0)). apply (g_wfor Pc true pc_args a) in E1; auto.
  destruct x1; [|inversion E; subst; exact B1].
  assert (H1 := geffs_app _ _ _ _ _ H0 E1).
  assert (Ha1 : a < List.length (w_agents W1)) by (apply geffs_agents in E1; lia).
  assert (H2 := geffs_snoc _ _ _ _ _ H1 (g_env Pc true _ name a Ha1)).
  destruct (build_copies n count path proto g _) as [x2 W2] eqn:E2. apply IH in E2.
  - destruct x2; inversion E; subst; exact E2.
  - eapply geffs_sane; [exact pc_args|exact H2|exact HS].
  - apply geffs_agents in H2. cbn in *. lia.
  - now apply (bal_ints W1).
Qed.
Lemma builds_bal n acts src name count g W r W' : sane Pc W -> build_agents n acts src name count g W = (r, W') -> bal W -> bal W'.
Proof.
  intros HS E HB. destruct count as [|count]; cbn in E; [inversion E; subst; exact HB|].
  destruct (build_agent_from_ast _ _ _ _ _) as [x W1] eqn:E1. pose proof (build_bal _ _ _ _ _ _ _ HS E1 HB) as B1.
  destruct x as [p|e]; [|inversion E; subst; exact B1].
  pose proof (build_agent_range Pc true pc_args pc_front pc_build _ _ _ _ _ _ _ HS E1) as [_ Hp]. apply (g_build Pc true pc_args pc_front pc_build) in E1; auto.
  destruct (build_copies _ _ _ _ _ _) as [x2 W2] eqn:E2. apply copies_bal in E2; auto.
  - destruct x2; inversion E; subst; exact E2.
  - eapply geffs_sane; [exact pc_args|exact E1|exact HS].
Qed.

Theorem reach_balanced W : reach W -> forall i, balanced (get_int W i).
Proof.
  intros H. change (bal W). induction H.
  - intros i. unfold get_int. cbn. destruct i; apply balanced0.
  - eapply build_bal; eauto. eapply reach_sane; eauto using pc_args, pc_front, pc_build.
  - eapply builds_bal; eauto. eapply reach_sane; eauto using pc_args, pc_front, pc_build.
  - eapply step_bal; eauto. eapply reach_sane; eauto using pc_args, pc_front, pc_build.
  - eapply outside_bal; eauto. eapply reach_sane; eauto using pc_args, pc_front, pc_build.
Qed.
End WithPy.
