(** Clocks for examples. *)
From Coq Require Import Floats.SpecFloat.
From Verif Require Import Base Num Term Unify Str World Engine Step Ast Names Build Reach QuerySpec QueryCor BelCor PlanSpec SchedSpec ExPlan ExMsg ExPy.

Definition clock (f : N -> num) : Py := {|
  horder := fun l => l; fpow := fun _ _ => Err EUnmodelled;
  py_call := fun _ _ _ => Err EUnmodelled; py_time := f;
  frepr := fun _ => []; vname := fun v => s2p "_X_";
  u_alnum := fun _ => true; u_lower := fun c => [c] |}.
Definition flt (m e : Z) : spec_float := binary_normalize prec emax m e false.
(** A quarter of a second passes between two readings; sleeping is not noticed. *)
Definition PyQuarter : Py := clock (fun k => NFlt (flt (Z.of_N k) (-2))).
(** The clock stands at 0. *)
Definition PyZero : Py := clock (fun _ => NFlt (S754_zero false)).

Lemma run_example : exists ds W', @run PyQuarter FrontEx 100 20 waiting_world = (Ok ds, W') /\
  ds = [NFlt (flt 1 (-1)); NFlt (flt 0 0)] /\
  beliefs 0 (s2p "seen", 1%nat) W' = [TLit (s2p "seen") [TNum (NInt 2)] []] /\ a_ints (get_agent W' 0) = [].
Proof. eexists _, _. split; [vm_compute; reflexivity|]. vm; vm_compute; reflexivity. Qed.
Lemma run_agent_example : exists ds W', @run_agent PyQuarter FrontEx 100 20 0 waiting_world = (Ok ds, W') /\ List.length ds = 2%nat /\
  beliefs 0 (s2p "seen", 1%nat) W' = [TLit (s2p "seen") [TNum (NInt 2)] []].
Proof. eexists _, _. split; [vm_compute; reflexivity|]. vm; vm_compute; reflexivity. Qed.

(** The deadline is 1; the clock is read at 1 and at 2. *)
Lemma run_too_late : fst (@run PyEx FrontEx 100 20 waiting_world) = Err EValue /\ fst (@run_agent PyEx FrontEx 100 20 0 waiting_world) = Err EValue.
Proof. vm; vm_compute; reflexivity. Qed.

(** +!g(X) <- .wait(0); +done(X). *)
Definition zero_ast : aagent := mkaagent [] [] []
  [on_goal "g" "X" None (Some [FForm FtTerm (al ".wait" [num1 0]); FForm FtAdd (al "done" [av "X"])])].
Definition zero_world0 : world := snd (@build_agent_from_ast PyZero FrontEx 20 stdlib_actions (s2p "bob") zero_ast world0).
Definition zero_world : world := snd (@outside_call PyZero FrontEx 20 0 TrAdd GtAchieve (TLit (s2p "g") [TNum (NInt 1)] []) true zero_world0).
Lemma zero_world_reach : @reach PyZero FrontEx zero_world.
Proof.
  unfold zero_world, zero_world0. destruct (@build_agent_from_ast PyZero FrontEx 20 stdlib_actions (s2p "bob") zero_ast world0) as [r W] eqn:E.
  assert (R : @reach PyZero FrontEx W) by (eapply rc_build; [apply rc_env|exact E]). cbn [snd].
  destruct (@outside_call PyZero FrontEx 20 0 TrAdd GtAchieve (TLit (s2p "g") [TNum (NInt 1)] []) true W) as [r' W'] eqn:E'.
  eapply rc_call; [exact R| |exact E'].
  assert (X : (0 < List.length (w_agents (snd (@build_agent_from_ast PyZero FrontEx 20 stdlib_actions (s2p "bob") zero_ast world0))))%nat) by (vm_compute; auto).
  rewrite E in X. exact X.
Qed.
Lemma zero_stops : exists W', @run_agent PyZero FrontEx 100 20 0 zero_world = (Ok [], W') /\
  beliefs 0 (s2p "done", 1%nat) W' = [] /\ List.length (a_ints (get_agent W' 0)) = 1%nat /\ ~ at_rest W' 0.
Proof.
  destruct (@run_agent PyZero FrontEx 100 20 0 zero_world) as [r W'] eqn:E. exists W'.
  assert (E1 : W' = snd (@run_agent PyZero FrontEx 100 20 0 zero_world)) by now rewrite E.
  assert (E2 : r = fst (@run_agent PyZero FrontEx 100 20 0 zero_world)) by now rewrite E.
  split; [f_equal; rewrite E2; vm_compute; reflexivity|]. split; [rewrite E1; vm_compute; reflexivity|]. split; [rewrite E1; vm_compute; reflexivity|].
  intro H. assert (E3 : exists i, a_ints (get_agent W' 0) = [[i]] /\ exists w, i_wait (get_int W' i) = Some w /\ wt_until w <> None).
  { rewrite E1. eexists. split; [vm_compute; reflexivity|]. eexists. split; [vm_compute; reflexivity|]. discriminate. }
  destruct E3 as (i & Ei & w & Ew & Eu). destruct (H [i]) as [X|(j & rest & w' & X & Hw & Hu)]; [rewrite Ei; now left|discriminate X|].
  inversion X; subst. rewrite Ew in Hw. inversion Hw; subst. congruence.
Qed.
