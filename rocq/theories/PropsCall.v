(** C55: functions, predicates and procedures written in Python and registered
    as actions.  Specification: CallSpec.v. *)
From Verif Require Import Base Num Term Unify Str World Engine QuerySpec QueryCor Names CallSpec CallCor StemSpec StemFacts ExCall.
From Coq Require Import QArith SpecFloat.

(** A function is called once, with the converted values of its arguments.  Its
    result is unified with the last argument of the action. *)
Theorem C55_function : forall (PY : Py) (FR : Front) p d a i f ins x an st W specs ws v b st1,
  handed d (b_scope st) specs ins ws -> py_call p (w_tick W) ws = Ok v -> unify d x v (mkbst (b_scope st) [] 0) = (Ok b, st1) ->
  forall n, (d < n)%nat -> exists st', b_scope st' = b_scope st1 /\
    resume n a i (GQ (QAct (AFun specs (FOpaque p)) (TLit f (ins ++ [x]) an))) (st, W) = (Ok (if b then Some GStop else None), (st', ticked W)).
Proof. exact @function_called. Qed.
Print Assumptions C55_function.

Theorem C55_function_raises : forall (PY : Py) (FR : Front) p d a i f ins x an st W specs ws e,
  handed d (b_scope st) specs ins ws -> py_call p (w_tick W) ws = Err e ->
  forall n, (d < n)%nat ->
    resume n a i (GQ (QAct (AFun specs (FOpaque p)) (TLit f (ins ++ [x]) an))) (st, W) = (Err e, (st, ticked W)).
Proof. exact @function_raises. Qed.
Print Assumptions C55_function_raises.

(** A predicate holds if its result is true in the sense of Python. *)
Theorem C55_predicate : forall (PY : Py) (FR : Front) p d a i f ins an st W specs ws r,
  handed d (b_scope st) specs ins ws -> py_call p (w_tick W) ws = r ->
  forall n, (d < n)%nat ->
    (forall v, r = Ok v -> untrue v -> resume n a i (GQ (QAct (APred specs (POpaque p)) (TLit f ins an))) (st, W) = (Ok None, (st, ticked W))) /\
    (forall v, r = Ok v -> ~ untrue v -> resume n a i (GQ (QAct (APred specs (POpaque p)) (TLit f ins an))) (st, W) = (Ok (Some GStop), (st, ticked W))) /\
    (forall e, r = Err e -> resume n a i (GQ (QAct (APred specs (POpaque p)) (TLit f ins an))) (st, W) = (Err e, (st, ticked W))).
Proof. exact @predicate_called. Qed.
Print Assumptions C55_predicate.

(** A procedure succeeds whatever it returns. *)
Theorem C55_procedure : forall (PY : Py) (FR : Front) p d a i f ins an st W specs ws r,
  handed d (b_scope st) specs ins ws -> py_call p (w_tick W) ws = r ->
  forall n, (d < n)%nat ->
    resume n a i (GQ (QAct (AProc specs p) (TLit f ins an))) (st, W) = (match r with Ok _ => Ok (Some GStop) | Err e => Err e end, (st, ticked W)).
Proof. exact @procedure_called. Qed.
Print Assumptions C55_procedure.

(** They are found by the number of arguments that they are called with: a
    function has one more, for its result.  Other actions stay as they are. *)
Theorem C55_function_found : forall (PY : Py) d s t f specs impl t' ins ws, add_function t f specs impl = Ok t' -> handed d s specs ins ws ->
  registers t f (S (List.length ins)) (AFun specs impl) t'.
Proof. exact @function_found. Qed.
Print Assumptions C55_function_found.
Theorem C55_predicate_found : forall (PY : Py) d s t f specs impl t' ins ws, add_predicate t f specs impl = Ok t' -> handed d s specs ins ws ->
  registers t f (List.length ins) (APred specs impl) t'.
Proof. exact @predicate_found. Qed.
Print Assumptions C55_predicate_found.
Theorem C55_procedure_found : forall (PY : Py) d s t f specs impl t' ins ws, add_procedure t f specs impl = Ok t' -> handed d s specs ins ws ->
  registers t f (List.length ins) (AProc specs impl) t'.
Proof. exact @procedure_found. Qed.
Print Assumptions C55_procedure_found.

(** If an argument cannot be converted, nothing is called. *)
Theorem C55_misfit : forall (PY : Py) (FR : Front) d a i f ins rest an st W specs e ac,
  misfit d (b_scope st) specs ins e ->
  (exists fn, ac = AFun specs fn) \/ (exists p, ac = APred specs p) \/ (exists p, ac = AProc specs p) ->
  forall n, (d < n)%nat -> resume n a i (GQ (QAct ac (TLit f (ins ++ rest) an))) (st, W) = (Err e, (st, W)).
Proof. exact @misfit_raises. Qed.
Print Assumptions C55_misfit.

(** Each value of an argument can be converted, in one way, or cannot. *)
Theorem C55_convert : forall (PY : Py) sp v, sp <> SAgent -> sp <> SEnv -> ~ (In sp [SInt; SFloat] /\ exists x, v = TStr x) ->
  (exists w, converts sp v w /\ forall w', converts sp v w' -> w' = w) \/ (exists e, unfit sp v e /\ forall w, ~ converts sp v w).
Proof. exact @converts_or_not. Qed.
Print Assumptions C55_convert.

(** A function declared with (Agent, int, float, asl_str, tuple), called with
    -5/2, true, [a, "b"] and [1 | [X]] where X is 2; and what it is handed. *)
Example C55_case : @handed PyCall 4 call_scope [SAgent; SInt; SFloat; SStr; STuple] call_args call_values /\
  @py_call PyCall sum_up 0 call_values = Ok (TNum (NInt 5)) /\
  @misfit PyCall 4 call_scope [SStr; SInt] [TTup []; TLit (s2p "a") [] []] EType.
Proof. exact call_case. Qed.
