(** C54: the forces of a message.  Specification: ForceSpec.v. *)
From Verif Require Import Base Num Term Unify Str InstSpec World Engine Step QuerySpec MsgSpec ForceSpec ForceCor.
From Verif Require Import ExPy ExPlan ExLoad ExMsg QueryCor ExForce.

(** If agent [a] runs .send(t0, t1, t2), the receivers get the events of
    ForceSpec.v, and nothing else has happened. *)
Theorem C54_send : forall (PY : Py) (FR : Front) n a i f t0 t1 t2 more an st W g st' W',
  resume (S n) a i (GQ (QAct ASend (TLit f (t0 :: t1 :: t2 :: more) an))) (st, W) = (Ok (Some g), (st', W')) ->
  st' = st /\ g = GStop /\ sends n a (b_scope st) t0 t1 t2 W W'.
Proof. exact @send_calls. Qed.
Print Assumptions C54_send.

(** If the receivers exist and can handle the message, the action succeeds. *)
Theorem C54_sent : forall (PY : Py) (FR : Front) n a i f t0 t1 t2 more an st W W',
  sends n a (b_scope st) t0 t1 t2 W W' ->
  resume (S n) a i (GQ (QAct ASend (TLit f (t0 :: t1 :: t2 :: more) an))) (st, W) = (Ok (Some GStop), (st, W')).
Proof. exact @calls_send. Qed.
Print Assumptions C54_sent.

(** Another force is refused; nobody gets anything. *)
Theorem C54_other : forall (PY : Py) (FR : Front) n a i f t0 t1 t2 more an st W rcv rs force,
  grounded n t0 (b_scope st) = Ok rcv -> addressed W rcv rs -> grounded n t1 (b_scope st) = Ok (atom force) ->
  (forall s x, force = s2p s -> ~ In (s, x) forces) ->
  resume (S n) a i (GQ (QAct ASend (TLit f (t0 :: t1 :: t2 :: more) an))) (st, W) = (Err EAsl, (st, W)).
Proof. exact @send_refused. Qed.
Print Assumptions C54_other.

(** .broadcast(t0, t1) *)
Theorem C54_broadcast : forall (PY : Py) (FR : Front) n a i f t0 t1 more an st W g st' W',
  resume (S n) a i (GQ (QAct ABroadcast (TLit f (t0 :: t1 :: more) an))) (st, W) = (Ok (Some g), (st', W')) ->
  st' = st /\ g = GStop /\ broadcasts n a (b_scope st) t0 t1 W W'.
Proof. exact @broadcast_calls. Qed.
Print Assumptions C54_broadcast.

Theorem C54_broadcasted : forall (PY : Py) (FR : Front) n a i f t0 t1 more an st W W',
  broadcasts n a (b_scope st) t0 t1 W W' ->
  resume (S n) a i (GQ (QAct ABroadcast (TLit f (t0 :: t1 :: more) an))) (st, W) = (Ok (Some GStop), (st, W')).
Proof. exact @calls_broadcast. Qed.
Print Assumptions C54_broadcasted.

(** .broadcast knows three of the forces only. *)
Theorem C54_broadcast_other : forall (PY : Py) (FR : Front) n a i f t0 t1 more an st W force,
  grounded n t0 (b_scope st) = Ok (atom force) -> (forall s x, force = s2p s -> ~ In (s, x) broadcast_forces) ->
  resume (S n) a i (GQ (QAct ABroadcast (TLit f (t0 :: t1 :: more) an))) (st, W) = (Err EAsl, (st, W)).
Proof. exact @broadcast_refused. Qed.
Print Assumptions C54_broadcast_other.

(** The annotations of a message: those of the literal, and the sender. *)
Theorem C54_annotated : forall (PY : Py), PyLawful PY -> forall t a msg, annotated t a msg ->
  exists f args an an', t = TLit f args an /\ msg = TLit f args an' /\ set_of (an ++ [a]) an'.
Proof. exact @annotated_set. Qed.
Print Assumptions C54_annotated.
Example C54_annotated_case : @annotated PyRev (TLit (s2p "p") [] [atom (s2p "old")]) (source (s2p "bob"))
  (TLit (s2p "p") [] [source (s2p "bob"); atom (s2p "old")]).
Proof. do 3 eexists. split; reflexivity. Qed.

(** bob tells carol and themself hello(5) and takes it back from carol. *)
Example C54_case : @sends PyEx FrontEx 20 0 (b_scope st5) (plist [nm "carol"; nm "bob"]) (nm "tell") (hello (TVar 3)) two_world told_both /\
  @sends PyEx FrontEx 20 0 (b_scope st5) (nm "carol") (nm "untell") (hello (TVar 3)) told_both untold_carol /\
  beliefs 0 (s2p "hello", 1%nat) told_both = [heard] /\ beliefs 1 (s2p "hello", 1%nat) told_both = [heard] /\
  beliefs 0 (s2p "hello", 1%nat) untold_carol = [heard] /\ beliefs 1 (s2p "hello", 1%nat) untold_carol = [] /\
  @resume PyEx FrontEx 21 0 0 (GQ (with_force "ask" (nm "carol"))) (st5, two_world) = (Err EAsl, (st5, two_world)).
Proof. exact (conj told_sends (conj untold_sends force_values)). Qed.
