(** C56: the text of values. *)
From Verif Require Import Base Num Term Unify Str World Ast Names Quote QuoteSpec Lex LexSpec Parse RoundSpec GramSpec Build ShowSpec ShowNum ShowCor WriteSpec WriteCor ExPy ExShow ShowRepr.
From Coq Require Import Floats.SpecFloat.

(** C56: the text that shows a value, read as a term and evaluated, is that value. *)
Theorem C56_text : forall (PY : Py) t, PyLawful PY -> writable t -> means (asl_repr t) t.
Proof. exact @text_means. Qed.
Print Assumptions C56_text.

(** C56: values with the same text are equal. *)
Theorem C56_same : forall (PY : Py) t u, PyLawful PY -> writable t -> writable u -> asl_repr t = asl_repr u -> py_eqb t u = true.
Proof. exact @same_text. Qed.
Print Assumptions C56_same.

(** C56: which numbers are shown such that they can be read: integers of less
    than 54 bits, and other integers that are floats; floats that are whole
    numbers; other floats if [repr] is as Python documents it. *)
Theorem C56_ints : forall (PY : Py) z, (Z.abs z < 2 ^ 53)%Z -> writable_num (NInt z).
Proof. exact @int_ok. Qed.
Print Assumptions C56_ints.
Theorem C56_whole : forall (PY : Py) f z, valid_binary prec emax f = true -> flt_int f = Some z ->
  writable_num (NInt z) /\ writable_num (NFlt f).
Proof. exact (fun PY f z V I => conj (int_writable f z V I) (flt_writable f z V I)). Qed.
Print Assumptions C56_whole.
Theorem C56_fractions : forall (PY : Py) f, repr_exact -> valid_binary prec emax f = true -> flt_int f = None ->
  (exists s m e, f = S754_finite s m e) -> writable_num (NFlt f).
Proof. exact @fraction_writable. Qed.
Print Assumptions C56_fractions.

(** C56: the text of a term, character by character: WriteSpec.v.  The second
    text is the one that .print shows. *)
Theorem C56_written : forall (PY : Py) t, texts t -> written t (asl_repr t).
Proof. exact @repr_written. Qed.
Print Assumptions C56_written.
Theorem C56_printed : forall (PY : Py) t, texts t -> printed t (asl_str t).
Proof. exact @str_printed. Qed.
Print Assumptions C56_printed.
Example C56_case_written : texts shown_value /\ @asl_str PyRev (TTup [TStr (s2p "a b"); TLit (s2p "f") [TStr (s2p "c")] []; TNum (NInt (-12))]) = s2p "[a b, f(""c""), -12]".
Proof. split; [|reflexivity]. cbn. repeat split; repeat constructor. Qed.

(** The hypotheses can be met. *)
Example C56_case : @writable PyRev shown_value /\ PyLawful PyRev.
Proof. exact (conj shown_writable PyRev_lawful). Qed.
Example C56_case_text : @asl_repr PyRev shown_value =
    s2p "q(-3, ""say \""no\"""", [1, [x|~y]], true)[source(self), 7, 7]" /\
  @value_of PyRev (asl_repr (PY := PyRev) shown_value) =
    Ok (TLit (s2p "q") [TNum (num_opp (NFlt (float_lit (s2p "3")))); TStr (s2p "say ""no""");
        TTup [TNum (NFlt (float_lit (s2p "1"))); TLL (TLit (s2p "x") [] []) (TLit (s2p "~y") [] [])]; TBool true]
      [TLit (s2p "source") [TLit (s2p "self") [] []] []; TNum (NFlt (float_lit (s2p "7")))]).
Proof. vm_compute. split; reflexivity. Qed.
(** The bound on integers is needed: numerals are read as floats. *)
Example C56_limit : exists v, @value_of PyEx (asl_repr (PY := PyEx) (TNum (NInt 9007199254740993))) = Ok v /\
  py_eqb v (TNum (NInt 9007199254740993)) = false /\ py_eqb v (TNum (NInt 9007199254740992)) = true.
Proof. eexists. vm_compute. repeat split. Qed.
(** Writing floats exactly is possible: 0.1 in full. *)
Example C56_case_fraction : @repr_exact PyDec /\ PyLawful PyDec /\
  valid_binary prec emax (float_lit (s2p "0.1")) = true /\ flt_int (float_lit (s2p "0.1")) = None /\
  @asl_repr PyDec (TNum (NFlt (float_lit (s2p "0.25")))) = s2p "250000000000000000000000000000000000000000000000000000e-54" /\
  @value_of PyDec (s2p "250000000000000000000000000000000000000000000000000000e-54") = Ok (TNum (NFlt (float_lit (s2p "0.25")))).
Proof. split; [exact PyDec_repr|]. split; [exact PyDec_lawful|]. vm_compute. repeat split. Qed.
