(** C31, C32: string literals and the lexer. *)
From Verif Require Import Base Num Term Str Names Quote QuoteSpec QuoteFacts Lex LexSpec LexCor LexTok.
From Verif Require Import ExPy.

(** C31: printing a string and parsing the literal gives the string back. *)
Theorem C31_round_trip : forall (PY : Py) (s : pystr),
  Forall code_point s -> parse_string (asl_repr (TStr s)) = Ok s.
Proof. exact (fun _ => parse_str_repr). Qed.
Print Assumptions C31_round_trip.

(** C31: wherever a printed string stands in a source, the lexer takes exactly it
    as a string token. *)
Theorem C31_token : forall (PY : Py) (s rest : pystr),
  Forall code_point s -> exists t, picks (asl_repr (TStr s) ++ rest) KString t rest /\ t = asl_repr (TStr s).
Proof. exact (fun _ => str_repr_picks). Qed.
Print Assumptions C31_token.

Theorem C31_token_read : forall (PY : Py) (s rest : pystr),
  Forall code_point s -> first_token tokens (asl_repr (TStr s) ++ rest) = Some (KString, rest).
Proof. exact (fun _ => str_repr_token). Qed.
Print Assumptions C31_token_read.

(** C31: what a literal with escapes stands for. *)
Theorem C31_escapes : forall b s : pystr, denotes b s -> parse_string (literal b) = Ok s.
Proof. exact parse_denotes. Qed.
Print Assumptions C31_escapes.

(** C31: an ASCII literal without escapes stands for its own characters. *)
Theorem C31_plain : forall b : pystr,
  Forall ascii b -> Forall (fun c => c <> 92%N) b -> parse_string (literal b) = Ok b.
Proof. exact parse_plain_ascii. Qed.
Print Assumptions C31_plain.

(** Not so beyond ASCII: the literal "é" stands for two characters. *)
Theorem C31_plain_refuted : exists b : pystr,
  Forall code_point b /\ Forall (fun c => c <> 92%N) b /\ parse_string (literal b) <> Ok b.
Proof. exact plain_refuted. Qed.
Print Assumptions C31_plain_refuted.

(** Text that is not between quotes is refused. *)
Theorem C31_unquoted : forall s : pystr,
  (forall b, s <> literal b) -> s <> [34%N] -> parse_string s = Err EAssert.
Proof. exact parse_not_literal. Qed.
Print Assumptions C31_unquoted.

Example C31_case : parse_string (@asl_repr PyEx (TStr [97; 34; 92; 10; 233; 8364; 128512]%N))
  = Ok [97; 34; 92; 10; 233; 8364; 128512]%N.
Proof. vm_compute. reflexivity. Qed.
Example C31_denotes_case : denotes (s2p "a\tb\x41\101") [97; 9; 98; 65; 65]%N.
Proof. exact denotes_case. Qed.

(** C32: lexing terminates for every source and yields what the grammar of
    LexSpec prescribes, nothing else. *)
Theorem C32_total : forall firstline lines, exists items, tokenize firstline lines = Ok items.
Proof. exact tokenize_total. Qed.
Print Assumptions C32_total.

Theorem C32_cut : forall firstline lines items,
  tokenize firstline lines = Ok items <-> cut_lines firstline lines false items.
Proof. exact tokenize_cut. Qed.
Print Assumptions C32_cut.

(** C32: the lexeme of a token is the text at its columns, in a line with tabs
    expanded; an illegal character is the character at its column. *)
Theorem C32_columns : forall line s b items b',
  cut line 0 s b items b' -> Forall (at_place line s) items.
Proof. exact cut_places. Qed.
Print Assumptions C32_columns.

(** C32: in source order and without overlap. *)
Theorem C32_order : forall line col s b items b',
  cut line col s b items b' -> in_order col items.
Proof. exact cut_order. Qed.
Print Assumptions C32_order.

(** C32: a functor is never a keyword. *)
Theorem C32_keywords : forall s k w r,
  picks s k w r -> k = KFunctor -> ~ In w keywords.
Proof. exact functor_not_keyword. Qed.
Print Assumptions C32_keywords.

(** C32: what white space, letters, digits and keywords are. *)
Theorem C32_classes : forall c,
  (is_space c = true <-> In c white_space) /\ (is_lower c = true <-> In c small_letters) /\
  (is_upper c = true <-> In c capital_letters) /\ (is_digit c = true <-> In c digits) /\
  (is_word c = true <-> In c (small_letters ++ capital_letters ++ digits ++ [95%N])) /\
  (not_nl c = true <-> c <> 10%N).
Proof.
  exact (fun c => conj (space_class c) (conj (lower_class c) (conj (upper_class c) (conj (digit_class c) (conj (word_class c) (nl_class c)))))).
Qed.
Print Assumptions C32_classes.
Theorem C32_words : forall w, In w keywords <->
  exists k t c r, In (k, t) fixed_lexemes /\ w = s2p t /\ w = c :: r /\ is_lower c = true.
Proof. exact keyword_class. Qed.
Print Assumptions C32_words.

Example C32_case :
  tokenize 1 (string_source (s2p "+!go(X) <- .print(X, 1.5e3). // done"))
  = Ok [ITok (mktok KPlus (s2p "+") 1 0 1); ITok (mktok KExclam (s2p "!") 1 1 2);
        ITok (mktok KFunctor (s2p "go") 1 2 4); ITok (mktok KParenOpen (s2p "(") 1 4 5);
        ITok (mktok KVariable (s2p "X") 1 5 6); ITok (mktok KParenClose (s2p ")") 1 6 7);
        ITok (mktok KArrow (s2p "<-") 1 8 10); ITok (mktok KFunctor (s2p ".print") 1 11 17);
        ITok (mktok KParenOpen (s2p "(") 1 17 18); ITok (mktok KVariable (s2p "X") 1 18 19);
        ITok (mktok KComma (s2p ",") 1 19 20); ITok (mktok KNumeric (s2p "1.5e3") 1 21 26);
        ITok (mktok KParenClose (s2p ")") 1 26 27); ITok (mktok KFullstop (s2p ".") 1 27 28)].
Proof. vm_compute. reflexivity. Qed.
Example C32_illegal_case :
  tokenize 1 (string_source (s2p "a $ /* b" ++ [10%N] ++ s2p "c */ true"))
  = Ok [ITok (mktok KFunctor (s2p "a") 1 0 1); IBad 36 1 2; ITok (mktok KTrue (s2p "true") 2 5 9)].
Proof. vm_compute. reflexivity. Qed.
