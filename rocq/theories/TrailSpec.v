(** Histories of operations on scope and stack, used to state C04. *)
From Verif Require Import Base Num Term Unify.

Inductive bop : Type :=
| OUnify (n : nat) (l r : term)          (* agentspeak.unify *)
| OUnifyAnn (n : nat) (l r : term)       (* first next() of agentspeak.unify_annotated *)
| OPush                                  (* choicepoint = object(); stack.append(choicepoint) *)
| OTry (ops : list bop).                 (* push a choicepoint, run ops, reroll to it *)

Section WithPy.
Context {PY : Py}.

(** The state after an operation, whatever its outcome (an exception is taken to
    be caught; the bindings made before it stay). *)
Fixpoint run_bop (o : bop) (st : bst) : bst :=
  match o with
  | OUnify n l r => snd (unify n l r st)
  | OUnifyAnn n l r => snd (uann n l r st)
  | OPush => let '(cp, st0) := new_cp st in push_cp cp st0
  | OTry ops =>
      let '(cp, st0) := new_cp st in
      reroll ((fix go (os : list bop) (st : bst) : bst :=
                 match os with [] => st | o :: os' => go os' (run_bop o st) end) ops (push_cp cp st0)) cp
  end.

Definition run_bops (os : list bop) (st : bst) : bst := fold_left (fun st o => run_bop o st) os st.
End WithPy.
