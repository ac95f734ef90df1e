From Verif Require Import Base Num Term Unify Str World Engine Step Ast Names Build QuerySpec Reach Effects EffFacts ReachFacts StepSpec StepFacts StepCor LoadSpec FlowSpec FlowFacts FlowReach.

Section WithPy.
Context {PY : Py}.
Theorem made_follows acts p x : made_plan acts p x -> exists l, body_of acts p x l /\ follows (p_code x) (Some 0%nat) (begin l).
Proof. intros (l & k & l' & k' & E). eapply plan_follows, E. Qed.
End WithPy.

Theorem follows_end code pc k : follows code pc k -> (pc = None <-> k = []).
Proof.
  intros (R & HR & HD). specialize (HD _ _ HR). destruct pc as [j|].
  - split; [discriminate|]. intros ->. contradiction.
  - split; [|reflexivity]. intros _. destruct k as [|[[]| | | | | | |]]; cbn in HD; try contradiction. reflexivity.
Qed.

Section WithPy.
Context {PY : Py} {FR : Front}.
Theorem instruction_follows n a i W r W' j k : reach W -> (a < List.length (w_agents W))%nat ->
  i_pc (get_int W i) = Some j -> follows (i_code (get_int W i)) (Some j) k -> run_instr n a i W = (r, W') ->
  let it := get_int W i in let it' := get_int W' i in
  exists o yes no, first k = Some (o, yes, no) /\ i_code it' = i_code it /\
  exists x st1 W1, exec_op n a i o (i_bst it, W) = (x, (st1, W1)) /\
    match x with
    | Ok true => r = Ok true /\ follows (i_code it) (i_pc it') yes
    | Ok false => match no with
      | Some k' => r = Ok true /\ i_pc it' <> None /\ follows (i_code it) (i_pc it') k'
      | None => r = Err EAggregated /\ i_pc it' = None
      end
    | Err e => r = Err (match e with ERecursion | EDiverge | EUnmodelled => e | _ => EAggregated end) /\ i_pc it' = Some j
    end.
Proof.
  intros H Ha Hj Hf E. destruct (run_follows n a i W r W' j k (proj1 (reach_any _ H)) Ha Hj Hf E) as (o & yes & no & H1 & H2 & x & st1 & W1 & H3 & H4).
  exists o, yes, no. split; [exact H1|]. split; [exact H2|]. exists x, st1, W1. split; [exact H3|]. destruct x as [b|e]; [exact H4|].
  destruct H4 as [-> H4]. split; [|exact H4]. destruct e; reflexivity.
Qed.

Theorem stacks_full : front_compiles FR -> forall W i j ins, reach W ->
  i_pc (get_int W i) = Some j -> nth_error (i_code (get_int W i)) j = Some ins ->
  match in_op ins with
  | INext | IPopQ => i_qs (get_int W i) <> []
  | IPopCP => i_cps (get_int W i) <> []
  | _ => True
  end.
Proof.
  intros HF W i j ins HW Ej Ei. destruct (reach_balanced HF W HW i) as (l & k & _ & _ & Hk & Lq & Lc); [congruence|].
  rewrite Ej in Hk. destruct (follows_next _ _ _ Hk) as (ins' & o & yes & no & E1 & E2 & E3 & _). rewrite E1 in Ei. injection Ei as <-. rewrite E2.
  destruct (first_counts _ _ _ _ E3) as [C _].
  destruct o; auto; intros E; rewrite E in *; cbn in Lq, Lc; lia.
Qed.
End WithPy.
