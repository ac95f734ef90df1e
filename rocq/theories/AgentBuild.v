(** The agent built from the text of a program is the agent built from its source. *)
From Verif Require Import Base Num Term Unify Str World Ast Names Quote QuoteSpec Lex LexSpec Engine Parse Fold Build Program RoundSpec
  GramSpec SrcSpec SrcFacts SrcComp AgentSpec AgentFold AgentFacts AgentFormed AgentSign AgentUnsign.

Section WithPy.
Context {PY : Py} {FR : Front}.

Theorem built_back files n source_name lines g :
  (forall path lines', files path = File lines' -> Forall (Forall code_point) lines') -> Forall (Forall code_point) lines ->
  parse_source files n source_name lines = Ok g -> exact_agent g ->
  forall files', exists N, forall m, (N <= m)%nat -> forall acts name W,
    build_agent files' m acts source_name (string_source (aagent_str g)) name W = build_agent files m acts source_name lines name W.
Proof.
  intros Hf Hl H He files'.
  destruct (parsed_agent_back files n source_name lines g H (exact_agent_readable g (source_formed files n source_name lines g Hf Hl H) He)
    files' source_name) as (N & X).
  exists (N + n)%nat. intros m Hm acts name W. unfold build_agent.
  rewrite (X m) by lia. rewrite (source_bound files n m) by (lia || (rewrite H; discriminate)). now rewrite H.
Qed.

Theorem signed_built_back files n source_name lines g :
  (forall path lines', files path = File lines' -> Forall (Forall code_point) lines') -> Forall (Forall code_point) lines ->
  parse_source files n source_name lines = Ok g -> signed_exact_agent g ->
  forall files', exists N, forall m, (N <= m)%nat -> forall acts name W,
    build_agent files' m acts source_name (string_source (aagent_str g)) name W = build_agent files m acts source_name lines name W.
Proof.
  intros Hf Hl H He files'. destruct (signed_parsed_back files n source_name lines g Hf Hl H He files' source_name) as (N & X).
  exists (N + n)%nat. intros m Hm acts name W. unfold build_agent.
  rewrite (X m) by lia. rewrite (source_bound files n m) by (lia || (rewrite H; discriminate)). now rewrite H.
Qed.
End WithPy.
