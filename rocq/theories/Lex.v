(** The lexer (agentspeak/lexer.py:30-195). *)
From Verif Require Import Base Num Term Str Names.

(** ** Regular expressions

    The subset of Python's [re] used by the lexer.  [rmatch r s k] is
    [re.match] by backtracking: the first way, in the order in which Python
    tries them, to match a prefix of [s] such that [k] accepts the rest. *)
Inductive regex : Type :=
| RChr (p : N -> bool)         (* one character *)
| REps
| RSeq (a b : regex)
| RAlt (a b : regex)           (* a|b *)
| RStar (a : regex)            (* a*, greedy *)
| RLazy (a : regex)            (* a*? *)
| RNot (a : regex)             (* (?!a) *)
| REnd.                        (* $: at the end, or before a final newline *)

(** Greedy repetition of [m]: an iteration must consume something. *)
Fixpoint star (m : pystr -> (pystr -> option pystr) -> option pystr) (k : pystr -> option pystr)
  (n : nat) (s : pystr) : option pystr :=
  match n with
  | O => k s
  | S n' =>
      match m s (fun s' => if (List.length s' <? List.length s)%nat then star m k n' s' else None) with
      | Some x => Some x
      | None => k s
      end
  end.

(** Lazy repetition. *)
Fixpoint lazy (m : pystr -> (pystr -> option pystr) -> option pystr) (k : pystr -> option pystr)
  (n : nat) (s : pystr) : option pystr :=
  match k s with
  | Some x => Some x
  | None =>
      match n with
      | O => None
      | S n' => m s (fun s' => if (List.length s' <? List.length s)%nat then lazy m k n' s' else None)
      end
  end.

Fixpoint rmatch (r : regex) (s : pystr) (k : pystr -> option pystr) {struct r} : option pystr :=
  match r with
  | RChr p => match s with c :: s' => if p c then k s' else None | [] => None end
  | REps => k s
  | RSeq a b => rmatch a s (fun s' => rmatch b s' k)
  | RAlt a b => match rmatch a s k with Some x => Some x | None => rmatch b s k end
  | RStar a => star (rmatch a) k (List.length s) s
  | RLazy a => lazy (rmatch a) k (List.length s) s
  | RNot a => match rmatch a s Some with Some _ => None | None => k s end
  | REnd => match s with [] => k s | [c] => if (c =? 10)%N then k s else None | _ => None end
  end.

(** [regex.match(line, startcol)]: what follows the match. *)
Definition re_match (r : regex) (s : pystr) : option pystr := rmatch r s Some.

Definition RCh (c : N) : regex := RChr (N.eqb c).
Fixpoint rstr (s : pystr) : regex :=
  match s with [] => REps | [c] => RCh c | c :: s' => RSeq (RCh c) (rstr s') end.
Definition rlit (s : string) : regex := rstr (s2p s).
Definition ROpt (r : regex) : regex := RAlt r REps.        (* r? *)
Definition RPlus (r : regex) : regex := RSeq r (RStar r).  (* r+ *)
Fixpoint ralts (l : list regex) : regex :=
  match l with [] => RNot REps | [r] => r | r :: l' => RAlt r (ralts l') end.

(** [\s] of a str pattern: str.isspace *)
Definition is_space (c : N) : bool :=
  (((9 <=? c) && (c <=? 13)) || ((28 <=? c) && (c <=? 32)) || (c =? 133) || (c =? 160) || (c =? 5760)
   || ((8192 <=? c) && (c <=? 8202)) || (c =? 8232) || (c =? 8233) || (c =? 8239) || (c =? 8287) || (c =? 12288))%N.
(** [.]: anything but a newline *)
Definition not_nl (c : N) : bool := negb (c =? 10)%N.
(** [[a-zA-Z0-9_]] *)
Definition is_word (c : N) : bool := is_ascii_alnum c || (c =? 95)%N.

(** ** Tokens (66-148) *)

(** The members of TokenType, in the order in which they are tried. *)
Inductive kind : Type :=
| KSpace | KComment | KParenOpen | KParenClose | KBracketOpen | KBracketClose | KBraceOpen | KBraceClose
| KFunctor | KNumeric | KVariable | KString | KTrue | KFalse | KIf | KElse | KWhile | KFor
| KInclude | KBegin | KEnd | KArrow | KDefine | KColon | KForkAnd | KForkXor
| KDoubleExclam | KExclam | KQuestion | KMinusPlus
| KNot | KPlus | KMinus | KPower | KMult | KFdiv | KDiv | KMod | KAnd | KOr
| KLe | KGe | KNe | KEq | KDecompose | KUnify | KLt | KGt | KFullstop | KComma | KSemicolon | KAt.

(** Simplification: [\d] matches the ASCII digits; Python's also matches other
    Unicode decimal digits. *)
Definition re_functor : regex :=
  RSeq (ROpt (RCh 126))
  (RSeq (RNot (RSeq (ralts (map rstr keywords)) (RAlt REnd (RChr (fun c => negb (is_word c))))))
        (RPlus (RSeq (ROpt (RCh 46)) (RSeq (RChr is_lower) (RStar (RChr is_word)))))).
Definition re_numeric : regex :=
  RSeq (RAlt (RSeq (RStar (RChr is_digit)) (RSeq (RCh 46) (RPlus (RChr is_digit)))) (RPlus (RChr is_digit)))
       (ROpt (RSeq (RChr (fun c => (c =? 101) || (c =? 69))%N)
             (RSeq (ROpt (RChr (fun c => (c =? 43) || (c =? 45))%N)) (RPlus (RChr is_digit))))).
Definition re_variable : regex :=
  RAlt (RSeq (RStar (RCh 95)) (RSeq (RChr is_upper) (RStar (RChr is_word)))) (RPlus (RCh 95)).
Definition re_string : regex :=
  RSeq (RCh 34)
  (RSeq (RStar (RAlt (RChr (fun c => negb ((c =? 92) || (c =? 34)))%N) (RSeq (RCh 92) (RChr not_nl))))
        (RCh 34)).

Definition tokens : list (kind * regex) :=
  [(KSpace, RPlus (RChr is_space));
   (KComment, RSeq (RAlt (rlit "//") (rlit "#")) (RStar (RChr not_nl)));
   (KParenOpen, rlit "("); (KParenClose, rlit ")");
   (KBracketOpen, rlit "["); (KBracketClose, rlit "]");
   (KBraceOpen, rlit "{"); (KBraceClose, rlit "}");
   (KFunctor, re_functor); (KNumeric, re_numeric); (KVariable, re_variable); (KString, re_string);
   (KTrue, rlit "true"); (KFalse, rlit "false");
   (KIf, rlit "if"); (KElse, rlit "else"); (KWhile, rlit "while"); (KFor, rlit "for");
   (KInclude, rlit "include"); (KBegin, rlit "begin"); (KEnd, rlit "end");
   (KArrow, rlit "<-"); (KDefine, rlit ":-"); (KColon, rlit ":");
   (KForkAnd, rlit "|&|"); (KForkXor, rlit "|||");
   (KDoubleExclam, rlit "!!"); (KExclam, rlit "!"); (KQuestion, rlit "?"); (KMinusPlus, rlit "-+");
   (KNot, rlit "not"); (KPlus, rlit "+"); (KMinus, rlit "-"); (KPower, rlit "**"); (KMult, rlit "*");
   (KFdiv, rlit "/"); (KDiv, rlit "div"); (KMod, rlit "mod"); (KAnd, rlit "&"); (KOr, rlit "|");
   (KLe, rlit "<="); (KGe, rlit ">="); (KNe, rlit "\=="); (KEq, rlit "=="); (KDecompose, rlit "=..");
   (KUnify, rlit "="); (KLt, rlit "<"); (KGt, rlit ">");
   (KFullstop, rlit "."); (KComma, rlit ","); (KSemicolon, rlit ";"); (KAt, rlit "@")].

(** "for token_type in TokenType": the first that matches, and what follows. *)
Fixpoint first_token (l : list (kind * regex)) (s : pystr) : option (kind * pystr) :=
  match l with
  | [] => None
  | (k, r) :: l' => match re_match r s with Some s' => Some (k, s') | None => first_token l' s end
  end.

(** ** tokenize (154-195) *)

(** TokenInfo: the lexeme, its kind (for Token), and of the location the line
    number and columns. *)
Record tok : Type := mktok { t_kind : kind; t_lex : pystr; t_line : nat; t_start : nat; t_end : nat }.

(** What the generator does: yield a token, or log an illegal character. *)
Inductive item : Type :=
| ITok (t : tok)
| IBad (c : N) (line col : nat).

(** RE_START_COMMENT, RE_END_COMMENT (150-151) *)
Definition re_start_comment : regex := rlit "/*".
Definition re_end_comment : regex := RSeq (RLazy (RChr not_nl)) (rlit "*/").

(** [line.replace("\t", "    ")] *)
Fixpoint untab (s : pystr) : pystr :=
  match s with
  | [] => []
  | c :: s' => if (c =? 9)%N then 32 :: 32 :: 32 :: 32 :: untab s' else c :: untab s'
  end%N.

(** [token.space or token.comment] *)
Definition skipped (k : kind) : bool := match k with KSpace | KComment => true | _ => false end.

(** The while loop for one line (161-195): [s] is the line from column [col]
    on.  The result says whether a comment is still open. *)
Fixpoint lex_line (n : nat) (lineno col : nat) (s : pystr) (in_comment : bool) : res (list item * bool) :=
  match s with
  | [] => Ok ([], in_comment)
  | c :: s0 =>
      match n with
      | O => Err ERecursion
      | S n' =>
          let upto (r : pystr) := (List.length s - List.length r)%nat in
          if in_comment then
            match re_match re_end_comment s with
            | None => Ok ([], true)
            | Some s' => lex_line n' lineno (col + upto s')%nat s' false
            end
          else
            match re_match re_start_comment s with
            | Some s' => lex_line n' lineno (col + upto s')%nat s' true
            | None =>
                match first_token tokens s with
                | Some (k, s') =>
                    let stop := (col + upto s')%nat in
                    rbind (lex_line n' lineno stop s' false) (fun '(l, b) =>
                      Ok (if skipped k then l else ITok (mktok k (firstn (upto s') s) lineno col stop) :: l, b))
                | None =>
                    rbind (lex_line n' lineno (S col) s0 false) (fun '(l, b) => Ok (IBad c lineno col :: l, b))
                end
            end
      end
  end.

(** The lines of a source, numbered from [lineno]. *)
Fixpoint lex_lines (lineno : nat) (l : list pystr) (in_comment : bool) : res (list item) :=
  match l with
  | [] => Ok []
  | line :: l' =>
      let line' := untab line in
      rbind (lex_line (List.length line') lineno 0 line' in_comment) (fun '(items, b) =>
        rmap (app items) (lex_lines (S lineno) l' b))
  end.

Definition tokenize (firstline : nat) (l : list pystr) : res (list item) := lex_lines firstline l false.

(** The lines of a StringSource: split after each newline. *)
Fixpoint string_lines (s cur : pystr) : list pystr :=
  match s with
  | [] => match cur with [] => [] | _ => [rev cur] end
  | c :: s' => if (c =? 10)%N then rev (c :: cur) :: string_lines s' [] else string_lines s' (c :: cur)
  end.
Definition string_source (s : pystr) : list pystr := string_lines s [].
