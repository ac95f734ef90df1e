(** C40, C41: programs of several files.  ProgSpec.v says which sets of files the
    theorems are about. *)
From Verif Require Import Base Num Term Str World Ast Names Quote Lex Parse Fold Program ProgSpec ProgCor.
From Verif Require Import Engine Build ExPy ExProg.

(** C40: if no include goes through ".", ".." or "//", parsing ends: a bound on
    the recursion given by the number and the size of the files is not reached. *)
Theorem C40_ends : forall PY : Py, sane_pow PY -> forall files main lines paths size items,
  plain_includes files main lines -> finitely_many files paths size -> tokenize 1 lines = Ok items ->
  forall n lg, (List.length paths * (size + 5) + List.length items + 5 <= n)%nat ->
  fst (parse_program files n main [] false (mkpst items lg true)) <> Err ERecursion.
Proof. exact @program_ends. Qed.
Print Assumptions C40_ends.

(** A bound that was not reached did not matter. *)
Theorem C40_bound : forall (PY : Py) files n n' main dir s,
  fst (parse_program files n main [] dir s) <> Err ERecursion -> (n <= n')%nat ->
  parse_program files n' main [] dir s = parse_program files n main [] dir s.
Proof. exact @program_bound. Qed.
Print Assumptions C40_bound.

(** C40: including a file that is being parsed is reported as an error, in every
    file and at every depth of includes ([included] are the files being parsed). *)
Theorem C40_reported : forall (PY : Py) files n filename included dir toks name rest lg own r s,
  directive toks name -> In (join_path (dirname filename) name) (normpath filename :: included) ->
  parse_program files (S (S n)) filename included dir (mkpst (map ITok toks ++ rest) lg own) = (r, s) ->
  (lg_errors lg < lg_errors (p_log s))%nat.
Proof. exact @include_reported. Qed.
Print Assumptions C40_reported.

(** C40: a file that begins by including itself is not accepted. *)
Theorem C40_self : forall (PY : Py) files n name lines toks incl rest,
  directive toks incl -> join_path (dirname name) incl = normpath name ->
  tokenize 1 lines = Ok (map ITok toks ++ rest) -> forall g, parse_source files (S (S n)) name lines <> Ok g.
Proof. exact @self_include. Qed.
Print Assumptions C40_self.

(** C40 is false of includes through ".": main.asl with {include("./main.asl")}
    reaches every bound. *)
Theorem C40_refuted : exists files main lines paths size, no_links files /\ finitely_many files paths size /\
  forall PY n lg items, tokenize 1 lines = Ok items ->
    fst (@parse_program PY files n main [] false (mkpst items lg true)) = Err ERecursion.
Proof. exact include_refuted. Qed.
Print Assumptions C40_refuted.

Example C40_case : sane_pow PyEx /\ plain_includes two_files (s2p "a.asl") [line_a] /\
  finitely_many two_files [s2p "a.asl"; s2p "b.asl"] 30 /\
  @parse_source PyEx two_files 100 (s2p "a.asl") [line_a] = Err EAggregated.
Proof. split; [discriminate|]. split; [exact two_plain|]. split; [exact two_finite|exact two_reported]. Qed.

(** C41: while a source is parsed at most three errors are reported, the third
    raises AggregatedError; if there was an error, no syntax tree is returned, and
    AggregatedError is raised unless something else was raised before; if there
    was none, the result is that of the parser. *)
Theorem C41_parse : forall (PY : Py) files n name lines items r s, tokenize 1 lines = Ok items ->
  parse_program files n name [] false (mkpst items (log_new (Some 3%nat)) true) = (r, s) ->
  (lg_errors (p_log s) <= 3)%nat /\ (lg_errors (p_log s) = 3%nat -> r = Err EAggregated) /\
  ((0 < lg_errors (p_log s))%nat ->
     exists e, parse_source files n name lines = Err e /\ (forall g, r = Ok g -> e = EAggregated)) /\
  (lg_errors (p_log s) = 0%nat -> parse_source files n name lines = r).
Proof. exact @parse_errors. Qed.
Print Assumptions C41_parse.

(** ... and no agent is built: the environment is unchanged. *)
Theorem C41_source : forall (PY : Py) (FR : Front) files n acts name lines arg W items r s, tokenize 1 lines = Ok items ->
  parse_program files n name [] false (mkpst items (log_new (Some 3%nat)) true) = (r, s) ->
  (0 < lg_errors (p_log s))%nat -> exists e, build_agent files n acts name lines arg W = (Err e, W).
Proof. exact @build_errors. Qed.
Print Assumptions C41_source.

(** Four errors (a sum in a belief, a zero division, a number as a condition, an
    illegal character): the third ends it. *)
Example C41_case : exists items s, tokenize 1 [s2p "p(X + 1). +!a : 1 / 0 < 1 & 3 <- b. ` "] = Ok items /\
  @parse_program PyEx (fun _ => NoFile) 50 (s2p "x.asl") [] false (mkpst items (log_new (Some 3%nat)) true) = (Err EAggregated, s) /\
  lg_errors (p_log s) = 3%nat.
Proof. eexists. eexists. split; [vm_compute; reflexivity|]. split; vm_compute; reflexivity. Qed.
