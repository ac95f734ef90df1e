(** What the tokens of AgentSpeak look like and how a source line is cut into
    them.  Written without reference to the regular expressions of the lexer. *)
From Verif Require Import Base Names Lex.

Definition all (p : N -> bool) (s : pystr) : Prop := forallb p s = true.

(** The classes of characters: white space (Unicode), ASCII letters, digits. *)
Definition white_space : list N :=
  [9; 10; 11; 12; 13; 28; 29; 30; 31; 32; 133; 160; 5760;
   8192; 8193; 8194; 8195; 8196; 8197; 8198; 8199; 8200; 8201; 8202; 8232; 8233; 8239; 8287; 12288]%N.
Definition small_letters : pystr := s2p "abcdefghijklmnopqrstuvwxyz".
Definition capital_letters : pystr := s2p "ABCDEFGHIJKLMNOPQRSTUVWXYZ".
Definition digits : pystr := s2p "0123456789".

(** The fixed lexemes. *)
Definition fixed_lexemes : list (kind * string) :=
  [(KParenOpen, "("); (KParenClose, ")"); (KBracketOpen, "["); (KBracketClose, "]");
   (KBraceOpen, "{"); (KBraceClose, "}"); (KTrue, "true"); (KFalse, "false");
   (KIf, "if"); (KElse, "else"); (KWhile, "while"); (KFor, "for");
   (KInclude, "include"); (KBegin, "begin"); (KEnd, "end");
   (KArrow, "<-"); (KDefine, ":-"); (KColon, ":"); (KForkAnd, "|&|"); (KForkXor, "|||");
   (KDoubleExclam, "!!"); (KExclam, "!"); (KQuestion, "?"); (KMinusPlus, "-+");
   (KNot, "not"); (KPlus, "+"); (KMinus, "-"); (KPower, "**"); (KMult, "*"); (KFdiv, "/");
   (KDiv, "div"); (KMod, "mod"); (KAnd, "&"); (KOr, "|");
   (KLe, "<="); (KGe, ">="); (KNe, "\=="); (KEq, "=="); (KDecompose, "=.."); (KUnify, "=");
   (KLt, "<"); (KGt, ">"); (KFullstop, "."); (KComma, ","); (KSemicolon, ";"); (KAt, "@")]%string.

(** Names: a lower case letter, then letters, digits and underscores. *)
Inductive name : pystr -> Prop :=
| name_intro c s : is_lower c = true -> all is_word s -> name (c :: s).

(** Names joined by dots, possibly with a dot in front. *)
Inductive dotted : pystr -> Prop :=
| dotted_name w : name w -> dotted w
| dotted_dot w : name w -> dotted (46%N :: w)
| dotted_snoc u w : dotted u -> name w -> dotted (u ++ 46%N :: w).

(** A keyword that is not the beginning of a longer word. *)
Definition at_keyword (s : pystr) : Prop :=
  exists kw r, In kw keywords /\ s = kw ++ r /\ match r with [] => True | c :: _ => is_word c = false end.

Inductive mantissa : pystr -> Prop :=
| mant_int d : d <> [] -> all is_digit d -> mantissa d
| mant_frac d e : all is_digit d -> e <> [] -> all is_digit e -> mantissa (d ++ 46%N :: e).

Inductive exponent : pystr -> Prop :=
| exp_none : exponent []
| exp_some c sign d : In c [101; 69]%N -> In sign [[]; [43]; [45]]%N -> d <> [] -> all is_digit d ->
    exponent (c :: sign ++ d).

(** The inside of a string literal: no lone quote, no lone backslash. *)
Inductive string_body : pystr -> Prop :=
| sb_nil : string_body []
| sb_plain c b : c <> 92%N -> c <> 34%N -> string_body b -> string_body (c :: b)
| sb_escape c b : c <> 10%N -> string_body b -> string_body (92%N :: c :: b).

(** [shape k w r]: [w], if followed by [r], is a lexeme of kind [k]. *)
Inductive shape : kind -> pystr -> pystr -> Prop :=
| sh_space w r : w <> [] -> all is_space w -> shape KSpace w r
| sh_slashes w r : all not_nl w -> shape KComment (s2p "//" ++ w) r
| sh_hash w r : all not_nl w -> shape KComment (s2p "#" ++ w) r
| sh_functor w r : dotted w -> ~ at_keyword (w ++ r) -> shape KFunctor w r
| sh_negated w r : dotted w -> ~ at_keyword (w ++ r) -> shape KFunctor (126%N :: w) r
| sh_numeric m e r : mantissa m -> exponent e -> shape KNumeric (m ++ e) r
| sh_variable u c w r : all (N.eqb 95) u -> is_upper c = true -> all is_word w -> shape KVariable (u ++ c :: w) r
| sh_anonymous u r : u <> [] -> all (N.eqb 95) u -> shape KVariable u r
| sh_string b r : string_body b -> shape KString (34%N :: b ++ [34%N]) r
| sh_fixed k t r : In (k, t) fixed_lexemes -> shape k (s2p t) r.

(** The order in which kinds are preferred. *)
Definition kind_order : list kind :=
  [KSpace; KComment; KParenOpen; KParenClose; KBracketOpen; KBracketClose; KBraceOpen; KBraceClose;
   KFunctor; KNumeric; KVariable; KString; KTrue; KFalse; KIf; KElse; KWhile; KFor;
   KInclude; KBegin; KEnd; KArrow; KDefine; KColon; KForkAnd; KForkXor;
   KDoubleExclam; KExclam; KQuestion; KMinusPlus;
   KNot; KPlus; KMinus; KPower; KMult; KFdiv; KDiv; KMod; KAnd; KOr;
   KLe; KGe; KNe; KEq; KDecompose; KUnify; KLt; KGt; KFullstop; KComma; KSemicolon; KAt].

(** No lexeme of kind [k] begins [s]. *)
Definition absent (k : kind) (s : pystr) : Prop := forall w r, s = w ++ r -> ~ shape k w r.

(** [picks s k w r]: [w] is the longest lexeme of the first possible kind. *)
Definition picks (s : pystr) (k : kind) (w r : pystr) : Prop :=
  s = w ++ r /\ shape k w r /\
  (forall w' r', s = w' ++ r' -> shape k w' r' -> (List.length w' <= List.length w)%nat) /\
  (exists before after, kind_order = before ++ k :: after /\ Forall (fun k' => absent k' s) before).

Definition illegal (s : pystr) : Prop := Forall (fun k => absent k s) kind_order.

(** [ends_comment s w r]: [w] runs up to the first end of a block comment. *)
Definition ends_comment (s w r : pystr) : Prop :=
  s = w ++ r /\ (exists u, w = u ++ s2p "*/" /\ all not_nl u) /\
  (forall u' r', s = u' ++ s2p "*/" ++ r' -> all not_nl u' -> (List.length w <= List.length u' + 2)%nat).

(** [cut line col s open items open']: the text [s], which begins at column [col]
    of line [line], inside a block comment if [open], consists of the tokens and
    illegal characters [items], white space and comments. *)
Inductive cut (line : nat) : nat -> pystr -> bool -> list item -> bool -> Prop :=
| cut_end col b : cut line col [] b [] b
| cut_open col s : s <> [] -> (forall w r, ~ ends_comment s w r) -> cut line col s true [] true
| cut_close col s w r l b :
    ends_comment s w r -> cut line (col + List.length w) r false l b -> cut line col s true l b
| cut_start col s r l b :
    s = s2p "/*" ++ r -> cut line (col + 2) r true l b -> cut line col s false l b
| cut_skip col s k w r l b :
    (forall t, s <> s2p "/*" ++ t) -> picks s k w r -> (k = KSpace \/ k = KComment) ->
    cut line (col + List.length w) r false l b -> cut line col s false l b
| cut_token col s k w r l b :
    (forall t, s <> s2p "/*" ++ t) -> picks s k w r -> k <> KSpace -> k <> KComment ->
    cut line (col + List.length w) r false l b ->
    cut line col s false (ITok (mktok k w line col (col + List.length w)) :: l) b
| cut_illegal col c s l b :
    (forall t, c :: s <> s2p "/*" ++ t) -> illegal (c :: s) ->
    cut line (col + 1) s false l b -> cut line col (c :: s) false (IBad c line col :: l) b.

(** Tabs count as four blanks. *)
Inductive expands : pystr -> pystr -> Prop :=
| ex_nil : expands [] []
| ex_tab s t : expands s t -> expands (9%N :: s) (s2p "    " ++ t)
| ex_char c s t : c <> 9%N -> expands s t -> expands (c :: s) (c :: t).

(** A source: its lines one after the other; only block comments span lines. *)
Inductive cut_lines : nat -> list pystr -> bool -> list item -> Prop :=
| cl_nil n b : cut_lines n [] b []
| cl_cons n line line' rest b b' l l' :
    expands line line' -> cut n 0 line' b l b' -> cut_lines (S n) rest b' l' ->
    cut_lines n (line :: rest) b (l ++ l').

(** The item lies where it says. *)
Definition at_place (line : nat) (s : pystr) (i : item) : Prop :=
  match i with
  | ITok t => t_line t = line /\ (t_start t < t_end t)%nat /\
      exists before after, s = before ++ t_lex t ++ after /\ List.length before = t_start t /\
        (t_end t = t_start t + List.length (t_lex t))%nat
  | IBad c l col => l = line /\ nth_error s col = Some c
  end.

(** From [col] on, one after the other. *)
Fixpoint in_order (col : nat) (l : list item) : Prop :=
  match l with
  | [] => True
  | ITok t :: l' => (col <= t_start t < t_end t)%nat /\ in_order (t_end t) l'
  | IBad _ _ c :: l' => (col <= c)%nat /\ in_order (S c) l'
  end.
