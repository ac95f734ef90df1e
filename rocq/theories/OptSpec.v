(** What the optimizer accepts. *)
From Verif Require Import Base Num Term Str World Ast Names.

(** [t] occurs in [u]. *)
Inductive occurs (t : ast) : ast -> Prop :=
| oc_here : occurs t t
| oc_arg f ts an u : In u ts -> occurs t u -> occurs t (ALit f ts an)
| oc_ann f ts an u : In u an -> occurs t u -> occurs t (ALit f ts an)
| oc_item ts u : In u ts -> occurs t u -> occurs t (AList ts)
| oc_head h l : occurs t h -> occurs t (ALL h l)
| oc_tail h l : occurs t l -> occurs t (ALL h l)
| oc_un op a : occurs t a -> occurs t (AUn op a)
| oc_left op a b : occurs t a -> occurs t (ABin op a b)
| oc_right op a b : occurs t b -> occurs t (ABin op a b).

(** The terms of a program that has no plans. *)
Definition clauses (g : aagent) : list ast :=
  flat_map (fun r => [lit_ast (ar_head r); ar_cons r]) (ag_rules g) ++ map lit_ast (ag_beliefs g) ++ map lit_ast (ag_goals g).
Definition occurs_in (t : ast) (g : aagent) : Prop := exists u, In u (clauses g) /\ occurs t u.

(** A list with a tail, [[h|t]]. *)
Definition linked (g : aagent) : Prop := exists h t, occurs_in (ALL h t) g.
(** A part that folding rejected (there is an error message for it). *)
Definition missing (g : aagent) : Prop := occurs_in (AVar []) g.
(** The two directives to the optimizer, used as actions. *)
Definition directive (f : pystr) : Prop := f = s2p ".inf_mark_nosidef" \/ f = s2p ".inf_side_effect".
(** What [.inf_side_effect] accepts. *)
Definition affects : list string := ["AFFECT_PARAM_ALL"; "AFFECT_SCOPE"; "AFFECT_UNIVERSE"]%string.
Definition effects : list string :=
  ["EFFECT_CHANGE"; "EFFECT_DOBIND"; "EFFECT_BIND"; "EFFECT_REQUIRE_BOUND"; "EFFECT_UNBIND"; "EFFECT_ALL"]%string.
(** A program with one rule, with one action as its body. *)
Definition one_action (f act : pystr) (ts : list ast) : aagent := mkaagent [mkarule (mkalit f [] []) (ALit act ts [])] [] [] [].
