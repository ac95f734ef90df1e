(** Basic vocabulary shared by all model files: Python exceptions as values,
    strings as lists of code points. *)
From Coq Require Export List ZArith NArith Bool Lia String Ascii.
Export ListNotations.
Open Scope list_scope.

(** Python strings: lists of Unicode code points. *)
Definition pystr := list N.

(** ASCII literals for use in the model. *)
Fixpoint s2p (s : string) : pystr :=
  match s with
  | EmptyString => []
  | String c s' => N_of_ascii c :: s2p s'
  end.

Fixpoint pystr_eqb (a b : pystr) : bool :=
  match a, b with
  | [], [] => true
  | x :: a', y :: b' => N.eqb x y && pystr_eqb a' b'
  | _, _ => false
  end.

(** Lexicographic comparison of code points: Python's ordering of [str]. *)
Fixpoint pystr_cmp (a b : pystr) : comparison :=
  match a, b with
  | [], [] => Eq
  | [], _ :: _ => Lt
  | _ :: _, [] => Gt
  | x :: a', y :: b' =>
      match N.compare x y with Eq => pystr_cmp a' b' | c => c end
  end.

(** The exceptions that the modelled code raises.  [ERecursion] is Python's
    [RecursionError]: it is what running out of fuel means.  [EDiverge] is a
    Python loop that never ends (a cyclic variable chain in [deref]). *)
Inductive exc : Type :=
| EAsl            (* agentspeak.AslError *)
| EAggregated     (* agentspeak.AggregatedError *)
| EType           (* TypeError *)
| EZeroDiv        (* ZeroDivisionError *)
| EOverflow       (* OverflowError *)
| EValue          (* ValueError *)
| EIndex          (* IndexError *)
| EKey            (* KeyError *)
| EAttr           (* AttributeError *)
| ERuntime        (* RuntimeError *)
| EAssert         (* AssertionError *)
| EUnicode        (* UnicodeDecodeError *)
| EIO             (* OSError *)
| EName           (* UnboundLocalError *)
| EStopIter       (* StopIteration escaping from next() *)
| ERecursion      (* RecursionError *)
| EDiverge        (* non-termination of a loop *)
| EUnmodelled.    (* a result outside the model, e.g. a complex number *)

Inductive res (A : Type) : Type :=
| Ok (a : A)
| Err (e : exc).
Arguments Ok {A} a.
Arguments Err {A} e.

Definition rbind {A B} (x : res A) (f : A -> res B) : res B :=
  match x with Ok a => f a | Err e => Err e end.

Definition rmap {A B} (f : A -> B) (x : res A) : res B :=
  match x with Ok a => Ok (f a) | Err e => Err e end.

(** Left-to-right evaluation of a list comprehension, stopping at the first
    exception. *)
Fixpoint rmapl {A B} (f : A -> res B) (l : list A) : res (list B) :=
  match l with
  | [] => Ok []
  | x :: l' =>
      match f x with
      | Err e => Err e
      | Ok y => match rmapl f l' with Err e => Err e | Ok ys => Ok (y :: ys) end
      end
  end.

(** Python's [all(f(x) for x in l)], stopping at the first [False]. *)
Fixpoint rall {A} (f : A -> res bool) (l : list A) : res bool :=
  match l with
  | [] => Ok true
  | x :: l' =>
      match f x with
      | Ok true => rall f l'
      | r => r
      end
  end.

Lemma pystr_eqb_eq a b : pystr_eqb a b = true <-> a = b.
Proof.
  revert b; induction a as [|x a IH]; intros [|y b]; cbn; split; intro H; try easy.
  - apply andb_true_iff in H as [H1 H2]. apply N.eqb_eq in H1. apply IH in H2. congruence.
  - inversion H; subst. rewrite N.eqb_refl. now apply IH.
Qed.

Lemma pystr_eqb_refl a : pystr_eqb a a = true.
Proof. now apply pystr_eqb_eq. Qed.

Lemma pystr_eqb_spec a b : reflect (a = b) (pystr_eqb a b).
Proof.
  destruct (pystr_eqb a b) eqn:E; constructor.
  - now apply pystr_eqb_eq.
  - intro H. apply pystr_eqb_eq in H. congruence.
Qed.

Lemma pystr_eq_dec (a b : pystr) : {a = b} + {a <> b}.
Proof. exact (list_eq_dec N.eq_dec a b). Defined.
