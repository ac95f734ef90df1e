(** C33: what is printed is read back. *)
From Verif Require Import Base Num Term Str World Ast Names Quote QuoteSpec Lex LexSpec Parse RoundSpec RoundCor NumRead
  ParseTotal.
From Verif Require Import ExPy ExParse.
From Coq Require Import Floats.SpecFloat.

(** C33: every expression, event and plan that the parser built from some
    source is read back from its text, provided its numbers are (whole numbers
    are, see C33_whole) and it has no empty else branch. *)
Theorem C33_parsed_term : forall (PY : Py) t,
  came parse_term t -> exact t -> read_back parse_term (ast_str t ++ s2p ".") t.
Proof. exact (fun _ => parsed_term_back). Qed.
Print Assumptions C33_parsed_term.

Theorem C33_parsed_event : forall (PY : Py) e,
  came parse_event e -> exact (lit_ast (ae_head e)) -> read_back parse_event (event_str e ++ s2p ".") e.
Proof. exact (fun _ => parsed_event_back). Qed.
Print Assumptions C33_parsed_event.

Theorem C33_parsed_plan : forall (PY : Py) p,
  came parse_plan p -> exact_plan p -> read_back parse_plan (aplan_str p ++ s2p ".") p.
Proof. exact (fun _ => parsed_plan_back). Qed.
Print Assumptions C33_parsed_plan.

(** The same for trees from elsewhere, whose names are names. *)
Theorem C33_term : forall (PY : Py) t, readable t -> read_back parse_term (ast_str t ++ s2p ".") t.
Proof. exact (fun _ => term_back). Qed.
Print Assumptions C33_term.

Theorem C33_literal : forall (PY : Py) l, readable_lit l -> read_back parse_literal (lit_str l ++ s2p ".") l.
Proof. exact (fun _ => literal_back). Qed.
Print Assumptions C33_literal.

Theorem C33_event : forall (PY : Py) e, readable_event e -> read_back parse_event (event_str e ++ s2p ".") e.
Proof. exact (fun _ => event_back). Qed.
Print Assumptions C33_event.

Theorem C33_plan : forall (PY : Py) p, readable_plan p -> read_back parse_plan (aplan_str p ++ s2p ".") p.
Proof. exact (fun _ => plan_back). Qed.
Print Assumptions C33_plan.

(** Whole numbers, without sign as in all parsed constants, are read back. *)
Theorem C33_whole : forall (PY : Py) f z,
  valid_binary prec emax f = true -> flt_signbit f = false -> flt_int f = Some z -> numeral (NFlt f).
Proof. exact (fun _ => whole_numeral). Qed.
Print Assumptions C33_whole.

(** A text is read in one way only, so different trees have different texts. *)
Theorem C33_once : forall A (parse : nat -> tok -> P (tok * A)) s a b,
  read_back parse s a -> read_back parse s b -> a = b.
Proof. exact @read_back_once. Qed.
Print Assumptions C33_once.

(** Without the provisos it is false: an empty else branch is lost, ... *)
Theorem C33_else_refuted : forall PY : Py,
  exists p, came parse_plan p /\ ~ read_back parse_plan (aplan_str p ++ s2p ".") p.
Proof. exact else_refuted. Qed.
Print Assumptions C33_else_refuted.

(** ... and 1e999 comes back as the atom inf. *)
Theorem C33_inf_refuted : forall PY : Py, frepr (S754_infinity false) = s2p "inf" ->
  exists t, came parse_term t /\ ~ read_back parse_term (ast_str t ++ s2p ".") t.
Proof. exact inf_refuted. Qed.
Print Assumptions C33_inf_refuted.

Example C33_inf_case : @frepr PyInf (S754_infinity false) = s2p "inf".
Proof. reflexivity. Qed.
(** The plan of ExParse.plan_text meets the hypotheses. *)
Example C33_case : exists p, plan_tree = Some p /\ came parse_plan p /\ @exact_plan PyEx p.
Proof. exact plan_case. Qed.
Example C33_whole_case : exists f, f = float_lit (s2p "1e21") /\ valid_binary prec emax f = true /\
  flt_signbit f = false /\ flt_int f = Some (10 ^ 21)%Z.
Proof. eexists. repeat split; vm_compute; reflexivity. Qed.
