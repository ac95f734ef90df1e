(** Witnesses for claims of the term layer that the code does not meet. *)
From Verif Require Import Base Num Term Unify TermSpec InstSpec AnnotSpec TrailSpec ExPy.
From Coq Require Import SpecFloat.

(** X0 is NaN; the goal g(X0) is frozen, nothing is bound, and freezing the
    finished goal gives a term that does not unify with g(X0). *)
Definition nan_st : bst := mkbst [(0%N, TNum (NFlt S754_nan))] [EVar 0] 0.
Definition nan_goal : term := TLit (s2p "g") [TVar 0] [].

Theorem back_unify_nan :
  exists t st k n1 frozen m1 n2 R m2,
    @freeze PyEx n1 t (b_scope st) ([], k) = (Ok frozen, m1) /\
    @freeze PyEx n2 frozen [] ([], snd m1) = (Ok R, m2) /\
    forall n, exists st', @unify PyEx (3 + n) t R st = (Ok false, st').
Proof.
  set (R := TLit (s2p "g") [TNum (NFlt S754_nan)] []).
  exists nan_goal, nan_st, 5%N, 5%nat, R. eexists. exists 5%nat, R. eexists.
  split; [reflexivity|]. split; [reflexivity|].
  intro n. eexists. reflexivity.
Qed.

(** foo[X1, a] against foo[a, b]: taking X1 = a first, nothing is left for a. *)
Definition atom (s : string) : term := TLit (s2p s) [] [].
Theorem annotations_greedy :
  exists l r ex th, amatch [] ex th l r /\
    forall n, exists st', @uann PyEx (5 + n) l r (mkbst [] [] 0) = (Ok None, st').
Proof.
  exists (TLit (s2p "foo") [] [TVar 1; atom "a"]), (TLit (s2p "foo") [] [atom "a"; atom "b"]), (fun t => t), (fun _ => VLit (s2p "b") []).
  split.
  - apply am_lit with (ms := [atom "b"; atom "a"]); [reflexivity| | |].
    + constructor; [|constructor; [|constructor]].
      * now apply am_other.
      * apply am_lit with (ms := []); [reflexivity|constructor|easy|constructor].
    + intros x [<-|[<-|[]]]; cbn; auto.
    + constructor; [|constructor; [easy|constructor]]. intros [H|[]]. discriminate H.
  - intro n. eexists. reflexivity.
Qed.

(** The same literals, the annotation set of the first iterating the other way. *)
Theorem annotations_order :
  forall n, exists cp st', @uann PyEx (5 + n) (TLit (s2p "foo") [] [atom "a"; TVar 1])
    (TLit (s2p "foo") [] [atom "a"; atom "b"]) (mkbst [] [] 0) = (Ok (Some cp), st').
Proof. intro n. do 2 eexists. reflexivity. Qed.

(** p(X0) was matched under choicepoint 0, then foo = X1 is asked and resumed:
    the binding of X0 is lost too. *)
Theorem resume_clears :
  exists n l r st cp st1, @uann PyEx n l r st = (Ok (Some cp), st1) /\
    b_scope st <> [] /\ b_scope (uann_resume cp st1) = [] /\ b_stack (uann_resume cp st1) = [].
Proof.
  exists 5%nat, (atom "foo"), (TVar 1), (mkbst [(0%N, TNum (NInt 1))] [EVar 0; ECP 0] 1).
  do 2 eexists. split; [reflexivity|]. split; [discriminate|]. split; reflexivity.
Qed.
