(** Messages. *)
From Coq Require Import Permutation.
From Verif Require Import Base Num Term Unify TermSpec InstSpec Str World Engine Step QuerySpec BelSpec PlanSpec Reach StepSpec MildSpec.

(** The term names the agent [r]: as an atom or as a string. *)
Definition names_agent (W : world) (t : term) (r : nat) : Prop :=
  exists f, (t = TLit f [] [] \/ t = TStr f) /\ assoc pystr_eqb f (w_env W) = Some r.

(** The receivers: one agent, or a list of agents. *)
Definition addressed (W : world) (t : term) (rs : list nat) : Prop :=
  if is_list t then exists ts, iter_items t = (ts, None) /\ Forall2 (names_agent W) ts rs
  else exists r, rs = [r] /\ names_agent W t r.

Section WithPy.
Context {PY : Py}.

(** Adding [b] to a set. *)
Definition adds (b : term) (old new : list term) : Prop :=
  if py_in b old then new = old else Permutation new (b :: old).
Fixpoint adds_times (k : nat) (b : term) (old new : list term) : Prop :=
  match k with
  | O => new = old
  | S k' => exists mid, adds b old mid /\ adds_times k' b mid new
  end.

(** Every occurrence of an agent in [rs] adds [b] to its beliefs; nothing else
    happens to anyone's beliefs. *)
Definition spread (b : term) (rs : list nat) (W W' : world) : Prop := forall c h,
  adds_times (if group_eqb h (lit_group b) then count_occ Nat.eq_dec rs c else 0) b (beliefs c h W) (beliefs c h W').

(** [msg] is the literal [t] with one more annotation [a]; the annotations are
    a set. *)
Definition annotated (t a msg : term) : Prop :=
  exists f args an, t = TLit f args an /\ msg = TLit f args (mk_set (an ++ [a])).

(** [b] is the belief that arises when the agent called [name] sends [m] with the
    bindings [s]: an instance of [m] with the source added. *)
Definition sent_as (name : pystr) (s : scope) (m b : term) : Prop :=
  exists rho frozen msg, inst s rho m frozen /\ annotated frozen (source name) msg /\
    inst [] (fun _ => None) msg b /\ ground b /\ is_literal b = true.

(** A state in which an agent may run an instruction: between two steps, or
    after the intention to be run has been fetched. *)
Definition at_work {FR : Front} (W : world) : Prop :=
  exists W0, single W0 /\ (W = W0 \/ exists a i, (a < List.length (w_agents W0))%nat /\ fetched a i W0 W).
End WithPy.

(** The value of a term. *)
Definition has_value {PY : Py} (s : scope) (t v : term) : Prop := exists n, grounded n t s = Ok v.
Definition atom (s : pystr) : term := TLit s [] [].
