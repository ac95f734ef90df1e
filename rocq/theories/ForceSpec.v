(** What the illocutionary forces of .send and .broadcast mean. *)
From Verif Require Import Base Num Term Unify Str World Engine Step QuerySpec MsgSpec.

Definition broadcast_forces : list (string * (trig * gtype)) :=
  [("tell", (TrAdd, GtBelief)); ("untell", (TrRem, GtBelief)); ("achieve", (TrAdd, GtAchieve))]%string.
Definition forces : list (string * (trig * gtype)) :=
  broadcast_forces ++
  [("unachieve", (TrRem, GtAchieve)); ("tellHow", (TrAdd, GtTellHow)); ("untellHow", (TrRem, GtTellHow)); ("askHow", (TrAdd, GtAskHow))]%string.

Section WithPy.
Context {PY : Py}.

(** The message that the agent called [name] sends: a copy of the term, except
    that texts about plans are not looked at; with the source as annotation.
    [k] and [k'] number the variables. *)
Inductive content (n : nat) (name : pystr) (s : scope) (t : term) : gtype -> N -> term -> N -> Prop :=
| k_text gt msg k : In gt [GtTellHow; GtAskHow] ->
    annotated (TLit (s2p "plain_text") [t] []) (source name) msg -> content n name s t gt k msg k
| k_copy gt m copied msg k k' : ~ In gt [GtTellHow; GtAskHow] -> freeze n t s ([], k) = (Ok copied, (m, k')) ->
    annotated copied (source name) msg -> content n name s t gt k msg k'.

Context {FR : Front}.

(** The event is raised at each agent in turn, each time for a new intention. *)
Inductive called (n : nat) (tr : trig) (gt : gtype) (msg : term) : list nat -> world -> world -> Prop :=
| k_none W : called n tr gt msg [] W W
| k_one c cs W ci W1 r st W2 W3 : new_int W = (ci, W1) -> call n c tr gt msg ci false (bst0, W1) = (Ok r, (st, W2)) ->
    called n tr gt msg cs W2 W3 -> called n tr gt msg (c :: cs) W W3.

(** .send(t0, t1, t2) by [a] with the bindings [s] raises these events. *)
Definition sends (n a : nat) (s : scope) (t0 t1 t2 : term) (W W' : world) : Prop := exists rcv rs force tr gt msg k,
  grounded n t0 s = Ok rcv /\ addressed W rcv rs /\ grounded n t1 s = Ok (atom (s2p force)) /\ In (force, (tr, gt)) forces /\
  content n (a_name (get_agent W a)) s t2 gt (w_nv W) msg k /\ called n tr gt msg rs (set_nv W k) W'.

(** .broadcast(t0, t1) *)
Definition broadcasts (n a : nat) (s : scope) (t0 t1 : term) (W W' : world) : Prop := exists force tr gt msg k,
  grounded n t0 s = Ok (atom (s2p force)) /\ In (force, (tr, gt)) broadcast_forces /\
  content n (a_name (get_agent W a)) s t1 gt (w_nv W) msg k /\
  called n tr gt msg (filter (fun c => negb (Nat.eqb c a)) (map snd (w_env W))) (set_nv W k) W'.
End WithPy.
