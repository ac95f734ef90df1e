(** C53: what a program of several files says.  SrcSpec.v says it. *)
From Verif Require Import Base Num Term Str World Ast Names Quote Lex Parse Fold Program RoundSpec GramSpec SrcSpec SrcVal SrcFacts SrcComp ExPy.

(** C53: an agent is only built from a source whose text, with the texts of the
    files it includes, is a sequence of clauses and directives; the agent has
    the rules, beliefs, goals and plans of these clauses, in the order of the
    text, with the terms folded. *)
Theorem C53_only : forall (PY : Py) files n name lines g, parse_source files n name lines = Ok g -> says files name lines g.
Proof. exact @source_says. Qed.
Print Assumptions C53_only.

(** C53: and it is built from each of them, if there is enough stack. *)
Theorem C53_all : forall (PY : Py) files name lines g, says files name lines g ->
  exists N, forall n, (N <= n)%nat -> parse_source files n name lines = Ok g.
Proof. exact @says_source. Qed.
Print Assumptions C53_all.

(** C53: a text does not say two things. *)
Theorem C53_one : forall (PY : Py) files name lines g g', says files name lines g -> says files name lines g' -> g = g'.
Proof. exact @says_one. Qed.
Print Assumptions C53_one.

(** C53: validation accepts exactly the agents that SrcSpec.v says, and changes
    nothing but the terms. *)
Theorem C53_validate : forall (PY : Py) g g', validated g g' <-> forall items lg own, exists lg',
  validate g (mkpst items lg own) = (Ok g', mkpst items lg' own) /\ lg_errors lg' = lg_errors lg.
Proof. intros PY g g'. symmetry. exact (validated_runs g g'). Qed.
Print Assumptions C53_validate.

(** lib/main.asl includes lib/sub/b.asl between a belief and a plan, and has a
    block. *)
Definition b_asl : pystr := s2p "q(1 + 2). !start.".
Definition src_files (p : pystr) : file := if pystr_eqb p (s2p "lib/sub/b.asl") then File [b_asl] else NoFile.
Definition main_text : list pystr := [s2p "p(a). { include(""sub/b.asl"") }"; s2p "{ begin namespace(x) } r(b). { end } +!start <- .print(2 * 3). s :- not p(X)."].
Definition ann (s : string) : ast := lit_ast (mkalit (s2p s) [] []).
Definition lit (s : string) (ts : list ast) : alit := mkalit (s2p s) ts [].
Definition main_agent : aagent := mkaagent
  [mkarule (lit "s" []) (AUn UNot (lit_ast (lit "p" [AVar (s2p "X")])))]
  [lit "p" [ann "a"]; lit "q" [ANum (NFlt (float_lit (s2p "3")))]; lit "r" [ann "b"]]
  [lit "start" []]
  [mkaplan None (mkaevent TrAdd GtAchieve (lit "start" [])) None
     (Some [FForm FtTerm (lit_ast (lit ".print" [ANum (NFlt (float_lit (s2p "6")))]))])].
Example C53_case : @says PyEx src_files (s2p "lib/main.asl") main_text main_agent.
Proof. apply (source_says src_files 60). vm_compute. reflexivity. Qed.

(** A rule with an operator in its head is not accepted. *)
Example C53_rejected : forall n g, @parse_source PyEx src_files n (s2p "a.asl") [s2p "p(X + 1) :- q."] <> Ok g.
Proof.
  intros n g H. apply source_says in H as (l & h & Ht & Hp & Hv).
  assert (S : @says PyEx src_files (s2p "a.asl") [s2p "p(X + 1) :- q."] g) by (exists l, h; auto).
  apply says_source in S as (N & E). specialize (E (N + 40)%nat ltac:(lia)).
  assert (X : @parse_source PyEx src_files 40 (s2p "a.asl") [s2p "p(X + 1) :- q."] = Err EAggregated) by (vm_compute; reflexivity).
  rewrite (source_bound src_files 40 (N + 40)) in E by (lia || (rewrite X; discriminate)). congruence.
Qed.

(** In a belief such an operator, and any list with a tail, is not reported but
    raises AttributeError. *)
Theorem C53_belief_refuted : exists files name,
  @parse_source PyEx files 40 name [s2p "p(X + 1)."] = Err EAttr /\ @parse_source PyEx files 40 name [s2p "p([a | b])."] = Err EAttr.
Proof. exists src_files, (s2p "a.asl"). split; vm_compute; reflexivity. Qed.
Print Assumptions C53_belief_refuted.
