(** Instructions and [Agent.step] (agentspeak/runtime.py:666-728, 902-954), the
    scheduler [Environment.run] and [run_agent] (868-896). *)
From Verif Require Import Base Num Term Unify Str World Engine.

Section WithPy.
Context {PY : Py} {FR : Front}.

(** * Instructions (902-954) *)

(** next_or_fail (934-939).  After StopIteration or an exception the generator
    is finished: further [next] calls give StopIteration. *)
Definition next_or_fail (n a i : nat) : M bool := fun s =>
  match i_qs (get_int (snd s) i) with
  | [] => (Err EIndex, s)
  | g :: gs =>
      let upd_top g' (s' : ST) := (fst s', put_int (snd s') i (set_i_qs (get_int (snd s') i) (g' :: gs))) in
      match resume n a i g s with
      | (Ok (Some g'), s') => (Ok true, upd_top g' s')
      | (Ok None, s') => (Ok false, upd_top GStop s')
      | (Err e, s') => (Err e, upd_top GStop s')
      end
  end.

Definition exec_op (n a i : nat) (op : iop) : M bool :=
  match op with
  | INoop => mret true
  | ICall tr gt t delayed => call n a tr gt t i delayed
  | IPushQ q =>
      (on_world (fun W => (tt, put_int W i (set_i_qs (get_int W i) (GQ q :: i_qs (get_int W i))))) ;;
       mret true)%M
  | INext => next_or_fail n a i
  | IPopQ =>
      (W <- m_world ;;
       match i_qs (get_int W i) with
       | [] => mfail EIndex
       | _ :: gs => put_world (put_int W i (set_i_qs (get_int W i) gs)) ;; mret true
       end)%M
  | IPushCP =>
      (cp <- m_new_cp ;;
       on_world (fun W => (tt, put_int W i (set_i_cps (get_int W i) (cp :: i_cps (get_int W i))))) ;;
       m_push_cp cp ;;
       mret true)%M
  | IPopCP =>
      (W <- m_world ;;
       match i_cps (get_int W i) with
       | [] => mfail EIndex
       | cp :: cps =>
           put_world (put_int W i (set_i_cps (get_int W i) cps)) ;;
           m_reroll cp ;;
           mret true
       end)%M
  end.

(** * Agent.step (676-724) *)

(** 677-678: popleft *)
Fixpoint drop_empty (stacks : list (list nat)) : list (list nat) :=
  match stacks with
  | [] :: stacks' => drop_empty stacks'
  | _ => stacks
  end.

(** Waiter.poll (328-329): the clock is only read if there is a deadline. *)
Definition poll (w : waiter) (W : world) : bool * world :=
  match wt_until w with
  | None => (false, W)
  | Some u =>
      (num_ord CLt u (py_time (w_reads W)), set_reads W (N.succ (w_reads W)))
  end.

(** 680-696: the position of the first stack that can run. *)
Fixpoint pick (stacks : list (list nat)) (pos : nat) (W : world) : option (nat * nat) * world :=
  match stacks with
  | [] => (None, W)
  | [] :: stacks' => pick stacks' (S pos) W
  | (i :: _) :: stacks' =>
      match i_wait (get_int W i) with
      | None => (Some (pos, i), W)
      | Some w =>
          let '(due, W1) := poll w W in
          if due then (Some (pos, i), put_int W1 i (set_i_wait (get_int W1 i) None))
          else pick stacks' (S pos) W1
      end
  end.

(** [self.intentions.remove(intention_stack)] with an empty stack: deques are
    compared by value, so this removes the first empty one. *)
Fixpoint remove_empty (stacks : list (list nat)) : list (list nat) :=
  match stacks with
  | [] => []
  | [] :: stacks' => stacks'
  | s :: stacks' => s :: remove_empty stacks'
  end.

(** 704-713: the intention [i] on top of stack [pos] is finished. *)
Definition finish (n a pos i : nat) (W : world) : res bool * world :=
  let ag := get_agent W a in
  let rest := List.tl (nth pos (a_ints ag) []) in
  let stacks := upd (a_ints ag) pos rest in
  match rest with
  | [] => (Ok true, put_agent W a (set_a_ints ag (remove_empty stacks)))
  | c :: _ =>
      let W1 := put_agent W a (set_a_ints ag stacks) in
      let it := get_int W1 i in
      match i_call it, i_head it with
      | None, _ => (Ok true, W1)
      | Some _, None => (Err EAttr, W1)
      | Some ct, Some h =>
          match freeze n h (b_scope (i_bst it)) ([], w_nv W1) with
          | (Err e, (_, k)) => (Err e, set_nv W1 k)
          | (Ok frozen, (_, k)) =>
              let W2 := set_nv W1 k in
              match unify n ct frozen (i_bst (get_int W2 c)) with
              | (r, st') =>
                  let W3 := put_int W2 c (set_i_bst (get_int W2 c) st') in
                  match r with
                  | Err e => (Err e, W3)
                  | Ok true => (Ok true, W3)
                  | Ok false => (Err ERuntime, W3)
                  end
              end
          end
      end
  end.

(** The exceptions that are artefacts of the model are not caught. *)
Definition wrap (e : exc) : exc :=
  match e with ERecursion => ERecursion | EDiverge => EDiverge | EUnmodelled => EUnmodelled | _ => EAggregated end.

(** 700-728: one step of intention [i]; afterwards its scope and stack are
    stored back.  Every exception is reported as AggregatedError. *)
Definition run_instr (n a i : nat) (W : world) : res bool * world :=
  let it := get_int W i in
  match i_pc it with
  | None => (Err EUnmodelled, W)
  | Some pc =>
      match nth_error (i_code it) pc with
      | None => (Err EUnmodelled, W)
      | Some ins =>
          let '(r, (st', W1)) := exec_op n a i (in_op ins) (i_bst it, W) in
          let W2 := put_int W1 i (set_i_bst (get_int W1 i) st') in
          match r with
          | Err e => (Err (wrap e), W2)
          | Ok true => (Ok true, put_int W2 i (set_i_pc (get_int W2 i) (in_succ ins)))
          | Ok false =>
              let W3 := put_int W2 i (set_i_pc (get_int W2 i) (in_fail ins)) in
              match in_fail ins with
              | Some _ => (Ok true, W3)
              | None => (Err EAggregated, W3)
              end
          end
      end
  end.

Definition step (n a : nat) (W : world) : res bool * world :=
  let ag := get_agent W a in
  let W0 := put_agent W a (set_a_ints ag (drop_empty (a_ints ag))) in
  match pick (a_ints (get_agent W0 a)) 0 W0 with
  | (None, W1) => (Ok false, W1)
  | (Some (pos, i), W1) =>
      match i_pc (get_int W1 i) with
      | None => finish n a pos i W1
      | Some _ => run_instr n a i W1
      end
  end.

(** * Scheduling *)

(** Agent.waiters, Agent.shortest_deadline (666-674) *)
Fixpoint deadlines (W : world) (stacks : list (list nat)) : list num :=
  match stacks with
  | [] => []
  | [] :: stacks' => deadlines W stacks'
  | (i :: _) :: stacks' =>
      match i_wait (get_int W i) with
      | Some {| wt_until := Some u |} => u :: deadlines W stacks'
      | _ => deadlines W stacks'
      end
  end.

(** [min(l)] of a non-empty list of numbers *)
Fixpoint min_num (x : num) (l : list num) : num :=
  match l with
  | [] => x
  | y :: l' => min_num (if num_ord CLt y x then y else x) l'
  end.
Definition shortest_deadline (W : world) (a : nat) : option num :=
  match deadlines W (a_ints (get_agent W a)) with
  | [] => None
  | x :: l => Some (min_num x l)
  end.

(** [time.sleep(until - time())]: ValueError if negative or NaN,
    OverflowError if infinite.  The result is the
    duration slept. *)
Definition sleep_until (u : num) (W : world) : res num * world :=
  let W1 := set_reads W (N.succ (w_reads W)) in
  match num_op fpow NSub u (py_time (w_reads W)) with
  | Err e => (Err e, W1)
  | Ok d =>
      if is_nan d || num_ord CLt d (NInt 0) then (Err EValue, W1)
      else match num_val d with XPInf => (Err EOverflow, W1) | _ => (Ok d, W1) end
  end.

(** Agent.run (726-728) *)
Fixpoint agent_run (k n a : nat) (W : world) : res unit * world :=
  match k with
  | O => (Err ERecursion, W)
  | S k' =>
      match step n a W with
      | (Err e, W1) => (Err e, W1)
      | (Ok true, W1) => agent_run k' n a W1
      | (Ok false, W1) => (Ok tt, W1)
      end
  end.

(** Environment.run_agent (871-881), with the list of sleeps. *)
Fixpoint run_agent (k n a : nat) (W : world) : res (list num) * world :=
  match k with
  | O => (Err ERecursion, W)
  | S k' =>
      match step n a W with
      | (Err e, W1) => (Err e, W1)
      | (Ok true, W1) => run_agent k' n a W1
      | (Ok false, W1) =>
          match shortest_deadline W1 a with
          | Some u =>
              if num_eqb u (NInt 0) then (Ok [], W1)   (* [if wait_until:] is false for 0.0 *)
              else
                match sleep_until u W1 with
                | (Err e, W2) => (Err e, W2)
                | (Ok d, W2) =>
                    match run_agent k' n a W2 with
                    | (Ok ds, W3) => (Ok (d :: ds), W3)
                    | x => x
                    end
                end
          | None => (Ok [], W1)
          end
      end
  end.

(** One round of Environment.run: step every agent (887-889). *)
Fixpoint round (n : nat) (agents : list nat) (W : world) : res bool * world :=
  match agents with
  | [] => (Ok false, W)
  | a :: agents' =>
      match step n a W with
      | (Err e, W1) => (Err e, W1)
      | (Ok b, W1) =>
          match round n agents' W1 with
          | (Ok b', W2) => (Ok (b || b'), W2)
          | x => x
          end
      end
  end.

(** 892-893 *)
Fixpoint all_deadlines (W : world) (agents : list nat) : list num :=
  match agents with
  | [] => []
  | a :: agents' =>
      match shortest_deadline W a with
      | Some u => u :: all_deadlines W agents'
      | None => all_deadlines W agents'
      end
  end.

(** Environment.run (883-896), with the list of sleeps. *)
Fixpoint run (k n : nat) (W : world) : res (list num) * world :=
  match k with
  | O => (Err ERecursion, W)
  | S k' =>
      match round n (map snd (w_env W)) W with
      | (Err e, W1) => (Err e, W1)
      | (Ok true, W1) => run k' n W1
      | (Ok false, W1) =>
          match all_deadlines W1 (map snd (w_env W1)) with
          | [] => (Ok [], W1)
          | x :: l =>
              match sleep_until (min_num x l) W1 with
              | (Err e, W2) => (Err e, W2)
              | (Ok d, W2) =>
                  match run k' n W2 with
                  | (Ok ds, W3) => (Ok (d :: ds), W3)
                  | y => y
                  end
              end
          end
      end
  end.

End WithPy.
