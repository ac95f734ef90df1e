(** Plans and events that are given as text at run time. *)
From Verif Require Import Base Num Term Unify Str World Engine Ast Names Lex Parse Fold GramSpec SrcSpec ScopeSpec.

(** The text of a plan: the tokens begin with a plan and a full stop.  Illegal
    characters are passed over, and what follows the full stop is not looked at. *)
Definition plan_text (s : pystr) (p : aplan) : Prop :=
  exists items ts d rest, tokenize 1 (string_source s) = Ok items /\ tokens_of items = ts ++ d :: rest /\ plan_of ts p /\ the "." d.

(** The arguments of annotations; each is a literal or a list. *)
Inductive annot_args : list ast -> list ast -> Prop :=
| aa_nil : annot_args [] []
| aa_lit f ts an l r : annot_args l r -> annot_args (ALit f ts an :: l) (ts ++ r)
| aa_list ts l r : annot_args l r -> annot_args (AList ts :: l) (ts ++ r).

Section WithPy.
Context {PY : Py}.

(** The text of an event: an event and a full stop, without illegal characters up
    to there.  Expressions of constants are computed; no others are left. *)
Definition event_text (s : pystr) (e' : aevent) : Prop :=
  exists ts d rest e, tokenize 1 (string_source s) = Ok (map ITok (ts ++ [d]) ++ rest) /\ event_of ts e /\ the "." d /\
    ae_trig e' = ae_trig e /\ ae_gt e' = ae_gt e /\ folded_lit (ae_head e) (ae_head e') /\ plain_lit (ae_head e').

(** [ev] is the event [e], its variables numbered from [k] on. *)
Definition names_event (k k' : N) (e : aevent) (ev : event) : Prop :=
  ev_trig ev = ae_trig e /\ ev_gt ev = ae_gt e /\ (k <= k')%N /\
  exists env, fresh_names k k' env /\ stands None env (lit_ast (ae_head e)) (ev_head ev).
End WithPy.
