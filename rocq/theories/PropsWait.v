(** Texts of plans and events: C50, C64.  Specification: WaitSpec.v ([plan_text],
    [event_text], [names_event]), the grammar of GramSpec.v ([plan_of], [event_of]) and
    [fresh_names], [stands] of ScopeSpec.v. *)
From Verif Require Import Base Num Term Unify Str World Engine Ast Names Quote Lex Parse Fold Build Front GramSpec SrcSpec ScopeSpec WaitSpec WaitFacts ActSpec WaitCor TellSpec ExHow.
Local Open Scope string_scope.

(** C50.  Only texts of plans are read, and all of them are. *)
Theorem C50_only : forall n s p, read_plan n s = Ok p -> plan_text s p.
Proof. exact read_only_plans. Qed.
Print Assumptions C50_only.
Theorem C50_all : forall s p, plan_text s p -> exists N, forall n, (N <= n)%nat -> read_plan n s = Ok p.
Proof. exact read_all_plans. Qed.
Print Assumptions C50_all.

(** C50.  A text without tokens and a text that begins with something else than
    "@", "+" and "-" are refused with these exceptions. *)
Theorem C50_errors : forall n s items, tokenize 1 (string_source s) = Ok items ->
  (tokens_of items = [] -> read_plan n s = Err EIndex) /\
  (forall t rest, tokens_of items = t :: rest -> ~ the "@" t -> ~ the "+" t -> ~ the "-" t -> read_plan n s = Err EName).
Proof. exact read_errors. Qed.
Print Assumptions C50_errors.
(** C50.  The end of the text is never mistaken for the end of the generator. *)
Theorem C50_stop : forall n s items, tokenize 1 (string_source s) = Ok items -> read_plan n s <> Err EStopIter.
Proof. exact plan_stop. Qed.
Print Assumptions C50_stop.
Example C50_error_cases : read_plan 100 (s2p "+!g") = Err ERuntime /\ read_plan 100 (s2p "") = Err EIndex /\ read_plan 100 (s2p "g.") = Err EName /\
  read_plan 100 (s2p "+!g ;") = Err EAggregated.
Proof. vm_compute. repeat split. Qed.

(** C39.  What a plan keeps for its text: the names of the arguments of the head and of its
    annotations, the label and the body, as they are written. *)
Theorem C39_kept : forall (PY : Py) acts p lg k x lg' k', clause (build_plan acts p) lg k = (Ok x, lg', k') ->
  (exists more, annot_args (l_annots (ae_head (ap_event p))) more /\ p_args x = map ast_str (l_terms (ae_head (ap_event p)) ++ more)) /\
  match ap_annot p with Some l => p_label x = Some (l_functor l) /\ p_ltext x = lit_str l | None => p_label x = None end /\
  p_btext x = match ap_body p with Some b => body_str b | None => s2p "None" end.
Proof. exact @plan_keeps. Qed.
Print Assumptions C39_kept.
Example C39_kept_case : exists x, loaded_from (PY := PyHow) (ptree "+!go(X)[from(Y)] <- .print(X, Y).") x /\
  sent_as (PY := PyHow) x (s2p "+!go(X)[from(Y)] : true <- .print(X, Y).").
Proof. apply loaded_text. eexists. split; [eexists _, _; vm_compute; reflexivity|vm_compute; reflexivity]. Qed.

(** C64.  If a text is read as an event, it is the text of that event... *)
Theorem C64_only : forall (PY : Py), PyLawful PY -> forall n s k ev k',
  text_event n s k = Ok (ev, k') -> exists e, event_text s e /\ names_event k k' e ev.
Proof. exact @event_only. Qed.
Print Assumptions C64_only.
(** ... every text of an event is read as that event... *)
Theorem C64_all : forall (PY : Py), PyLawful PY -> forall s e, event_text s e ->
  exists N, forall n k, (N <= n)%nat -> exists ev k', text_event n s k = Ok (ev, k') /\ names_event k k' e ev.
Proof. exact @event_all. Qed.
Print Assumptions C64_all.
(** ... and of no other. *)
Theorem C64_one : forall (PY : Py) s e e', event_text s e -> event_text s e' -> e = e'.
Proof. exact @event_once. Qed.
Print Assumptions C64_one.
(** C64.  The end of the text is never mistaken for the end of the generator. *)
Theorem C64_stop : forall (PY : Py) n s k items, tokenize 1 (string_source s) = Ok items -> text_event n s k <> Err EStopIter.
Proof. exact @event_stop. Qed.
Print Assumptions C64_stop.

(** C48.  .wait with a text suspends the intention until the event of that text (the final
    dot is optional), or until the event or the time, whichever comes first. *)
Theorem C48_text : forall (PY : Py), PyLawful PY -> forall a i st W annots d t text full e,
  grounded d t (b_scope st) = Ok (TStr text) -> dotted text full -> event_text full e ->
  exists N, forall N', (N <= N')%nat -> exists ev k, names_event (w_nv W) k e ev /\
    exists n0, forall n, (n0 <= n)%nat ->
      @resume PY (FrontText N') n a i (GQ (QAct AWait (TLit (s2p ".wait") [t] annots))) (st, W) =
        (Ok (Some GStop), (st, wait_state i (Some ev) None (set_nv W k))).
Proof. exact wait_text. Qed.
Print Assumptions C48_text.
Theorem C48_text_or_time : forall (PY : Py), PyLawful PY -> forall a i st W annots d t t2 text full e x u,
  grounded d t (b_scope st) = Ok (TStr text) -> dotted text full -> event_text full e ->
  grounded d t2 (b_scope st) = Ok (TNum x) ->
  rbind (num_op fpow NTruediv x (NInt 1000)) (num_op fpow NAdd (py_time (w_reads W))) = Ok u ->
  exists N, forall N', (N <= N')%nat -> exists ev k, names_event (w_nv W) k e ev /\
    exists n0, forall n, (n0 <= n)%nat ->
      @resume PY (FrontText N') n a i (GQ (QAct AWait (TLit (s2p ".wait") [t; t2] annots))) (st, W) =
        (Ok (Some GStop), (st, wait_state i (Some ev) (Some u) (set_reads (set_nv W k) (N.succ (w_reads W))))).
Proof. exact wait_text_time. Qed.
Print Assumptions C48_text_or_time.

(** The value of 1 + 1 is computed; the variable is numbered from 5 on. *)
Definition two : term := TNum (NFlt (SpecFloat.binary_normalize prec emax 2 0 false)).
Example C64_case : text_event (PY := PyHow) 100 (s2p "+done(1 + 1, X).") 5 =
  Ok (mkevent TrAdd GtBelief (TLit (s2p "done") [two; TVar 5] []), 6%N).
Proof. vm_compute. reflexivity. Qed.
Example C64_text : exists e, event_text (PY := PyHow) (s2p "+done(1 + 1, X).") e.
Proof. destruct (C64_only PyHow PyHow_lawful _ _ _ _ _ C64_case) as (e & H & _). now exists e. Qed.
Example C64_errors : text_event (PY := PyHow) 100 (s2p "+done") 5 = Err ERuntime /\ text_event (PY := PyHow) 100 (s2p "+done(X + 1).") 5 = Err EAggregated /\
  text_event (PY := PyHow) 100 (s2p "done.") 5 = Err EAggregated /\ text_event (PY := PyHow) 100 (s2p "+done$.") 5 = Err EAggregated.
Proof. vm_compute. repeat split. Qed.
(** .wait("+done(1 + 1, X)"): the final dot is added. *)
Example C48_text_case : exists e, event_text (PY := PyHow) (s2p "+done(1 + 1, X).") e /\ dotted (s2p "+done(1 + 1, X)") (s2p "+done(1 + 1, X).") /\
  grounded (PY := PyHow) 3 (TStr (s2p "+done(1 + 1, X)")) [] = Ok (TStr (s2p "+done(1 + 1, X)")).
Proof.
  destruct C64_text as (e & H). exists e. split; [exact H|]. split; [|reflexivity]. right. split; [|reflexivity].
  intros x E. apply (f_equal (@rev _)) in E. rewrite rev_app_distr in E. discriminate E.
Qed.
