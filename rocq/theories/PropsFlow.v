(** C23: plan bodies run as structured programs. *)
From Verif Require Import Base Num Term Unify Str World Engine Step Ast Names Build Reach ReachFacts StepSpec LoadSpec QuerySpec QueryCor ExPlan ExPy StepCor FlowSpec FlowFacts FlowReach FlowCor ExFlow.

(** The code of a plan does what its body says: [first] says what that is. *)
Theorem C23_compiled : forall (PY : Py) acts p x, made_plan acts p x ->
  exists l, body_of acts p x l /\ follows (p_code x) (Some 0%nat) (begin l).
Proof. exact @made_follows. Qed.
Print Assumptions C23_compiled.

(** One instruction of an intention whose code does the tasks [k]: the first of
    them is done, and the rest remains.  If it fails, what remains is what is to
    be done then; if nothing is, the plan fails, and nothing remains.  If an
    exception is raised, the intention is where it was. *)
Theorem C23_instruction : forall (PY : Py) (FR : Front) n a i W r W' j k, reach W -> (a < List.length (w_agents W))%nat ->
  i_pc (get_int W i) = Some j -> follows (i_code (get_int W i)) (Some j) k -> run_instr n a i W = (r, W') ->
  let it := get_int W i in let it' := get_int W' i in
  exists o yes no, first k = Some (o, yes, no) /\ i_code it' = i_code it /\
  exists x st1 W1, exec_op n a i o (i_bst it, W) = (x, (st1, W1)) /\
    match x with
    | Ok true => r = Ok true /\ follows (i_code it) (i_pc it') yes
    | Ok false => match no with
      | Some k' => r = Ok true /\ i_pc it' <> None /\ follows (i_code it) (i_pc it') k'
      | None => r = Err EAggregated /\ i_pc it' = None
      end
    | Err e => r = Err (match e with ERecursion | EDiverge | EUnmodelled => e | _ => EAggregated end) /\ i_pc it' = Some j
    end.
Proof. exact @instruction_follows. Qed.
Print Assumptions C23_instruction.

(** Nothing remains exactly if there are no more instructions. *)
Theorem C23_end : forall code pc k, follows code pc k -> (pc = None <-> k = []).
Proof. exact follows_end. Qed.
Print Assumptions C23_end.

(** In all reachable states, what an intention still has to do is what remains of
    the body of a plan, and its open queries and marks are those that are needed
    for that. *)
Theorem C23_balanced : forall (PY : Py) (FR : Front), front_compiles FR -> forall W, reach W -> forall i, balanced (get_int W i).
Proof. exact @reach_balanced. Qed.
Print Assumptions C23_balanced.

(** So no instruction takes something from an empty stack. *)
Theorem C23_stacks : forall (PY : Py) (FR : Front), front_compiles FR -> forall W i j ins, reach W ->
  i_pc (get_int W i) = Some j -> nth_error (i_code (get_int W i)) j = Some ins ->
  match in_op ins with
  | INext | IPopQ => i_qs (get_int W i) <> []
  | IPopCP => i_cps (get_int W i) <> []
  | _ => True
  end.
Proof. exact @stacks_full. Qed.
Print Assumptions C23_stacks.

(** A plan with a loop over answers, a choice in it, and a loop with a condition.
    In the middle, two queries are open; at the end, all has been done. *)
Example C23_example : (exists x, @made_plan PyEx stdlib_actions (on_goal "g" "X" None (Some flow_body)) x /\ List.length (p_code x) = 19%nat) /\
  front_compiles FrontEx /\ @reach PyEx FrontEx (steps 6 20 0 flow_world) /\ a_ints (get_agent (steps 6 20 0 flow_world) 0) = [[7%nat]] /\
  i_pc (get_int (steps 6 20 0 flow_world) 7) = Some 8%nat /\ List.length (i_qs (get_int (steps 6 20 0 flow_world) 7)) = 2%nat.
Proof. exact (conj flow_plan (conj flow_front flow_middle)). Qed.
Example C23_example_done :
  map (fun f => beliefs 0 (s2p f, 1%nat) (steps 70 20 0 flow_world)) ["p"; "two"; "other"; "done"]%string =
  [[]; [TLit (s2p "two") [TNum (NInt 2)] []]; [TLit (s2p "other") [TNum (NInt 1)] []; TLit (s2p "other") [TNum (NInt 3)] []]; [TLit (s2p "done") [TNum (NInt 7)] []]] /\
  a_ints (get_agent (steps 70 20 0 flow_world) 0) = [].
Proof. exact flow_done. Qed.
