(** Structured control flow of plan bodies. *)
From Verif Require Import Base Num Term Unify Str World Engine Ast Names Build.

(** The formulas of a body, with terms and queries in place of syntax trees. *)
Inductive stm : Type :=
| SNop
| SCall (tr : trig) (gt : gtype) (t : term) (delayed : bool)
| SAsk (q : query)
| SFor (q : query) (body : list stm)
| SIf (q : query) (yes : list stm) (no : option (list stm))
| SWhile (q : query) (body : list stm).

(** What remains to be done: a list of tasks.  Formulas that have been started:
    a query has been asked and may be answered; a loop may go round again. *)
Inductive task : Type :=
| Do (s : stm)
| Answer
| Each (body : list stm)
| Choose (yes : list stm) (no : option (list stm))
| Mark (q : query) (body : list stm)
| Again (q : query) (body : list stm)
| Forget      (* the query is no longer needed *)
| Undo.       (* undo the bindings since the last mark *)

Definition dos (l : list stm) : list task := map Do l.

(** What is done first, and what remains if it succeeds, or fails.  Where the
    last is [None], the plan fails. *)
Definition first (k : list task) : option (iop * list task * option (list task)) :=
  match k with
  | [] => None
  | Do SNop :: k => Some (INoop, k, None)
  | Do (SCall tr gt t d) :: k => Some (ICall tr gt t d, k, None)
  (* ask the query, which must have an answer; then forget it *)
  | Do (SAsk q) :: k => Some (IPushQ q, Answer :: k, None)
  | Answer :: k => Some (INext, Forget :: k, None)
  (* ask the query; for each answer, do the body *)
  | Do (SFor q b) :: k => Some (IPushQ q, Each b :: k, None)
  | Each b :: k => Some (INext, dos b ++ Each b :: k, Some (Forget :: k))
  (* ask the query; if it has an answer, do one thing, otherwise the other *)
  | Do (SIf q y n) :: k => Some (IPushQ q, Choose y n :: k, None)
  | Choose y n :: k => Some (INext, dos y ++ Forget :: k,
      Some (match n with Some l => dos (SNop :: l) | None => [] end ++ Forget :: k))
  (* ask the query; if it has an answer, do the body, undo its bindings, and start
     again *)
  | Do (SWhile q b) :: k => Some (IPushQ q, Mark q b :: k, None)
  | Mark q b :: k => Some (IPushCP, Again q b :: k, None)
  | Again q b :: k => Some (INext, Forget :: dos b ++ Undo :: Do (SWhile q b) :: k, Some (Undo :: Forget :: k))
  | Forget :: k => Some (IPopQ, k, None)
  | Undo :: k => Some (IPopCP, k, None)
  end.

(** How many queries are open, and how many marks set, when [k] remains. *)
Definition open1 (t : task) : nat :=
  match t with Do _ | Undo => 0 | _ => 1 end.
Definition set1 (t : task) : nat :=
  match t with Again _ _ | Undo => 1 | _ => 0 end.
Definition queries (k : list task) : nat := list_sum (map open1 k).
Definition marks (k : list task) : nat := list_sum (map set1 k).

(** From this instruction on, the code does the tasks [k]: there is a relation
    between instructions and tasks that holds here and stays true whether
    instructions succeed or fail. *)
Definition does_tasks (code : list instr) (R : option nat -> list task -> Prop) : Prop :=
  forall pc k, R pc k ->
    match pc, first k with
    | None, None => True
    | Some j, Some (o, yes, no) =>
        exists ins, nth_error code j = Some ins /\ in_op ins = o /\ R (in_succ ins) yes /\
          match no with
          | None => in_fail ins = None
          | Some k' => in_fail ins <> None /\ R (in_fail ins) k'
          end
    | _, _ => False
    end.
Definition follows (code : list instr) (pc : option nat) (k : list task) : Prop :=
  exists R, R pc k /\ does_tasks code R.

Section WithPy.
Context {PY : Py}.

(** One after the other. *)
Definition bconcat {A} (f : A -> B (list stm)) : list A -> B (list stm) :=
  fix go (l : list A) : B (list stm) :=
    match l with
    | [] => bret []
    | x :: l' => (y <- f x ;; z <- go l' ;; bret (y ++ z))%B
    end.

(** The meaning of formulas.  Terms and queries are built with the variables of
    the clause. *)
Fixpoint meaning (acts : actions act) (f : form) : B (list stm) :=
  let meanings := bconcat (meaning acts) in
  match f with
  | FForm FtAdd t => (x <- build_term false t ;; bret [SCall TrAdd GtBelief x false])%B
  | FForm FtRemove t => (x <- build_term false t ;; bret [SCall TrRem GtBelief x false])%B
  | FForm FtTest t => (x <- build_term false t ;; bret [SCall TrAdd GtTest x false])%B
  | FForm FtReplace t =>
      (p <- build_pattern t ;; x <- build_term false t ;;
       bret [SCall TrRem GtBelief p false; SCall TrAdd GtBelief x false])%B
  | FForm FtAchieve t => (x <- build_term false t ;; bret [SCall TrAdd GtAchieve x false])%B
  | FForm FtAchieveLater t => (x <- build_term false t ;; bret [SCall TrAdd GtAchieve x true])%B
  | FForm FtTerm t => (q <- build_query acts t ;; bret [SAsk q])%B
  | FFor g body => (q <- build_query acts g ;; b <- meanings body ;; bret [SFor q b])%B
  | FIf c yes no =>
      (q <- build_query acts c ;; y <- meanings yes ;;
       n <- match no with Some l => (x <- meanings l ;; bret (Some x)) | None => bret None end ;;
       bret [SIf q y n])%B
  | FWhile c body => (q <- build_query acts c ;; b <- meanings body ;; bret [SWhile q b])%B
  end.
Definition meanings (acts : actions act) : list form -> B (list stm) := bconcat (meaning acts).

(** A plan body. *)
Definition begin (l : list stm) : list task := dos (SNop :: l).

(** The formulas [l] are the body of the plan [p]; the head and the context of
    [x] are its head and context, with the same variables. *)
Definition clause_parts (acts : actions act) (p : aplan) : B (pystr * list term * list term * query * list stm) :=
  (h <- build_lit (ae_head (ap_event p)) ;;
   let '(f, args, annots) := h in
   c <- match ap_ctx p with Some t => build_query acts t | None => bret QTrue end ;;
   l <- match ap_body p with Some b => meanings acts b | None => bret [] end ;;
   bret (f, args, annots, c, l))%B.
Definition body_of (acts : actions act) (p : aplan) (x : plan) (l : list stm) : Prop :=
  exists lg k lg' k', clause (clause_parts acts p) lg k = (Ok (p_functor x, p_hargs x, p_hannots x, p_ctx x, l), lg', k').

(** What may remain after some instructions. *)
Inductive leads (k : list task) : list task -> Prop :=
| ld_start : leads k k
| ld_yes k1 o yes no : leads k k1 -> first k1 = Some (o, yes, no) -> leads k yes
| ld_no k1 o yes no : leads k k1 -> first k1 = Some (o, yes, Some no) -> leads k no.

(** All plans that tellHow makes from text are compiled. *)
Definition compiled (code : list instr) : Prop := exists l, follows code (Some 0%nat) (begin l).
Definition front_compiles (FR : Front) : Prop := forall s k p k', fr_plan s k = Ok (p, k') -> compiled (p_code p).

(** Between two instructions of an intention: something remains of a body, and
    the open queries and the marks are those that what remains is about. *)
Definition balanced (it : intention) : Prop :=
  i_pc it <> None -> exists l k, follows (i_code it) (Some 0%nat) (begin l) /\ leads (begin l) k /\ follows (i_code it) (i_pc it) k /\
    List.length (i_qs it) = queries k /\ List.length (i_cps it) = marks k.
End WithPy.
