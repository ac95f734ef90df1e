(** Agents whose text can be read back: every number in them is written as a
    numeral, every name is a name (RoundSpec.v). *)
From Verif Require Import Base Num Term Str World Ast Names Quote QuoteSpec Lex Parse LexSpec RoundSpec.

Section WithPy.
Context {PY : Py}.
Definition readable_rule (r : arule) : Prop := readable_lit (ar_head r) /\ readable (ar_cons r).
Definition readable_agent (g : aagent) : Prop :=
  Forall readable_rule (ag_rules g) /\ Forall readable_lit (ag_beliefs g) /\
  Forall readable_lit (ag_goals g) /\ Forall readable_plan (ag_plans g).

(** What the parser does not guarantee of the agents it builds: that numbers are
    read back, and that no else branch is empty. *)
Definition exact_rule (r : arule) : Prop := exact (lit_ast (ar_head r)) /\ exact (ar_cons r).
Definition exact_agent (g : aagent) : Prop :=
  Forall exact_rule (ag_rules g) /\ Forall (fun l => exact (lit_ast l)) (ag_beliefs g) /\
  Forall (fun l => exact (lit_ast l)) (ag_goals g) /\ Forall exact_plan (ag_plans g).
End WithPy.

(** Agents with negative numbers, but not as the base of a power (nor as a formula
    in a body). *)
Section Signed.
Context {PY : Py}.
(** A number whose text is "-" and a numeral that is read as its opposite. *)
Definition negated (x : num) : Prop :=
  exists m e, num_asl x = 45%N :: m ++ e /\ mantissa m /\ exponent e /\ x = num_opp (NFlt (float_lit (m ++ e))).
Definition negative (t : ast) : Prop := match t with ANum x => negated x | _ => False end.
Fixpoint signed_readable (t : ast) : Prop :=
  match t with
  | ABool _ => True
  | ANum x => numeral x \/ negated x
  | AStr s => Forall code_point s
  | AVar v => variable_name v
  | ALit f ts an =>
      functor_name f /\ fold_right and True (map signed_readable ts) /\ fold_right and True (map signed_readable an)
  | AList ts => fold_right and True (map signed_readable ts)
  | ALL h t => signed_readable h /\ signed_readable t
  | AUn _ a => signed_readable a
  | ABin op l r => signed_readable l /\ signed_readable r /\ (op = BNum NPow -> ~ negative l)
  end.
Fixpoint signed_form (f : form) : Prop :=
  match f with
  | FForm _ t => signed_readable t /\ ~ negative t
  | FFor c b | FWhile c b => signed_readable c /\ fold_right and True (map signed_form b)
  | FIf c ib eb =>
      signed_readable c /\ fold_right and True (map signed_form ib) /\
      match eb with
      | Some b => b <> [] /\ fold_right and True (map signed_form b)
      | None => True
      end
  end.
Definition signed_plan (p : aplan) : Prop :=
  (forall l, ap_annot p = Some l -> signed_readable (lit_ast l)) /\
  ((ae_gt (ap_event p) = GtBelief \/ ae_gt (ap_event p) = GtAchieve \/ ae_gt (ap_event p) = GtTest) /\
   signed_readable (lit_ast (ae_head (ap_event p)))) /\
  (forall c, ap_ctx p = Some c -> signed_readable c) /\
  (forall b, ap_body p = Some b -> b <> [] /\ Forall signed_form b).
Definition signed_agent (g : aagent) : Prop :=
  Forall (fun r => signed_readable (lit_ast (ar_head r)) /\ signed_readable (ar_cons r)) (ag_rules g) /\
  Forall (fun l => signed_readable (lit_ast l)) (ag_beliefs g) /\
  Forall (fun l => signed_readable (lit_ast l)) (ag_goals g) /\ Forall signed_plan (ag_plans g).

(** What has to be asked of agents that come from a text, whose names are names:
    their numbers are numerals, with or without "-". *)
Fixpoint signed_exact (t : ast) : Prop :=
  match t with
  | ANum x => numeral x \/ negated x
  | ALit _ ts an => fold_right and True (map signed_exact ts) /\ fold_right and True (map signed_exact an)
  | AList ts => fold_right and True (map signed_exact ts)
  | ALL h t => signed_exact h /\ signed_exact t
  | AUn _ a => signed_exact a
  | ABin op l r => signed_exact l /\ signed_exact r /\ (op = BNum NPow -> ~ negative l)
  | _ => True
  end.
Fixpoint signed_exact_form (f : form) : Prop :=
  match f with
  | FForm _ t => signed_exact t /\ ~ negative t
  | FFor c b | FWhile c b => signed_exact c /\ fold_right and True (map signed_exact_form b)
  | FIf c ib eb =>
      signed_exact c /\ fold_right and True (map signed_exact_form ib) /\
      match eb with
      | Some b => b <> [] /\ fold_right and True (map signed_exact_form b)
      | None => True
      end
  end.
Definition signed_exact_plan (p : aplan) : Prop :=
  (forall l, ap_annot p = Some l -> signed_exact (lit_ast l)) /\
  signed_exact (lit_ast (ae_head (ap_event p))) /\
  (forall c, ap_ctx p = Some c -> signed_exact c) /\
  (forall b, ap_body p = Some b -> Forall signed_exact_form b).
Definition signed_exact_agent (g : aagent) : Prop :=
  Forall (fun r => signed_exact (lit_ast (ar_head r)) /\ signed_exact (ar_cons r)) (ag_rules g) /\
  Forall (fun l => signed_exact (lit_ast l)) (ag_beliefs g) /\
  Forall (fun l => signed_exact (lit_ast l)) (ag_goals g) /\ Forall signed_exact_plan (ag_plans g).
End Signed.
