(** The grammar of AgentSpeak: which sequences of tokens are which trees.
    Written without reference to the parser. *)
From Verif Require Import Base Num Term World Ast Names Quote Lex LexSpec Parse RoundSpec.

(** The token with the text [s]. *)
Definition the (s : string) (t : tok) : Prop := t_lex t = s2p s.

(** ** Terms *)

(** From loosest to tightest. *)
Inductive level : Type := LOr | LAnd | LNot | LComp | LSum | LProd | LFactor | LAtom.
Definition tighter (lv : level) : level :=
  match lv with
  | LOr => LAnd | LAnd => LNot | LNot => LComp | LComp => LSum | LSum => LProd | LProd => LFactor
  | LFactor | LAtom => LAtom
  end.

(** Operators that associate to the left. *)
Definition infixes : list (level * string * binop) :=
  [(LOr, "|", BOr); (LAnd, "&", BAnd); (LSum, "+", BNum NAdd); (LSum, "-", BNum NSub);
   (LProd, "*", BNum NMul); (LProd, "/", BNum NTruediv); (LProd, "div", BNum NFloordiv); (LProd, "mod", BNum NMod)]%string.
(** Comparisons, which can be chained. *)
Definition comparisons : list (string * binop) :=
  [("<", BCmp CLt); ("<=", BCmp CLe); (">", BCmp CGt); (">=", BCmp CGe);
   ("==", BEq); ("\==", BNe); ("=", BUnify); ("=..", BDecompose)]%string.
Definition signs : list (string * unop) := [("+", UPos); ("-", UNeg)]%string.

Inductive expr : level -> list tok -> ast -> Prop :=
| e_tighter lv a x : expr (tighter lv) a x -> expr lv a x
| e_infix lv s op o a x b y : In (lv, s, op) infixes -> the s o ->
    expr lv a x -> expr (tighter lv) b y -> expr lv (a ++ o :: b) (ABin op x y)
| e_not o a x : the "not" o -> expr LNot a x -> expr LNot (o :: a) (AUn UNot x)
| e_chain a x y : chain a x y -> expr LComp a x
| e_sign s op o a x : In (s, op) signs -> the s o -> expr LFactor a x -> expr LFactor (o :: a) (AUn op x)
| e_power o a x b y : the "**" o -> expr LAtom a x -> expr LFactor b y -> expr LFactor (a ++ o :: b) (ABin (BNum NPow) x y)
| e_parens o a x c : the "(" o -> expr LOr a x -> the ")" c -> expr LAtom (o :: a ++ [c]) x
| e_variable t : t_kind t = KVariable -> expr LAtom [t] (AVar (t_lex t))
| e_number t : t_kind t = KNumeric -> expr LAtom [t] (ANum (NFlt (float_lit (t_lex t))))
| e_true t : the "true" t -> expr LAtom [t] (ABool true)
| e_false t : the "false" t -> expr LAtom [t] (ABool false)
| e_string t s : t_kind t = KString -> parse_string (t_lex t) = Ok s -> expr LAtom [t] (AStr s)
| e_literal a l : literal a l -> expr LAtom a (lit_ast l)
| e_nil o c : the "[" o -> the "]" c -> expr LAtom [o; c] (AList [])
| e_list o a xs c : the "[" o -> listed LAnd a xs -> the "]" c -> expr LAtom (o :: a ++ [c]) (AList xs)
| e_list_comma o a xs k c : the "[" o -> listed LAnd a xs -> the "," k -> the "]" c -> expr LAtom (o :: a ++ [k; c]) (AList xs)
| e_linked o a x c : the "[" o -> linked a x -> the "]" c -> expr LAtom (o :: a ++ [c]) x

(** x < y <= z means x < y & y <= z.  [chain a x r]: [r] is the last operand. *)
with chain : list tok -> ast -> ast -> Prop :=
| c_two s op o a x b y : In (s, op) comparisons -> the s o ->
    expr LSum a x -> expr LSum b y -> chain (a ++ o :: b) (ABin op x y) y
| c_more s op o a x r b y : In (s, op) comparisons -> the s o ->
    chain a x r -> expr LSum b y -> chain (a ++ o :: b) (ABin BAnd x (ABin op r y)) y

(** One or more terms with commas between them. *)
with listed : level -> list tok -> list ast -> Prop :=
| l_one lv a x : expr lv a x -> listed lv a [x]
| l_more lv a x c b xs : expr lv a x -> the "," c -> listed lv b xs -> listed lv (a ++ c :: b) (x :: xs)

(** x | y | ... | z, to the right *)
with linked : list tok -> ast -> Prop :=
| k_two a x o b y : expr LAnd a x -> the "|" o -> expr LAnd b y -> linked (a ++ o :: b) (ALL x y)
| k_more a x o b y : expr LAnd a x -> the "|" o -> linked b y -> linked (a ++ o :: b) (ALL x y)

(** functor(terms)[annotations]; both are optional but not empty. *)
with literal : list tok -> alit -> Prop :=
| g_literal f a ts b an : t_kind f = KFunctor -> grouped "(" ")" a ts -> grouped "[" "]" b an ->
    literal (f :: a ++ b) (mkalit (t_lex f) ts an)
with grouped : string -> string -> list tok -> list ast -> Prop :=
| p_none o c : grouped o c [] []
| p_some o c t a xs u : the o t -> listed LOr a xs -> the c u -> grouped o c (t :: a ++ [u]) xs.

(** ** Bodies *)

Definition prefixes : list (string * ftype) :=
  [("!!", FtAchieveLater); ("!", FtAchieve); ("?", FtTest); ("-+", FtReplace); ("+", FtAdd); ("-", FtRemove)]%string.
Definition signed (l : list tok) : Prop := exists t l', l = t :: l' /\ (the "+" t \/ the "-" t).

Inductive condition_of : list tok -> ast -> Prop :=
| h_condition o a c e : the "(" o -> expr LOr a c -> the ")" e -> condition_of (o :: a ++ [e]) c.

Inductive formula : list tok -> form -> Prop :=
| f_prefix s ft o a t : In (s, ft) prefixes -> the s o -> expr LOr a t -> formula (o :: a) (FForm ft t)
| f_term a t : expr LOr a t -> ~ signed a -> formula a (FForm FtTerm t)
| f_while w a c b l : the "while" w -> condition_of a c -> block b l -> formula (w :: a ++ b) (FWhile c l)
| f_for w a c b l : the "for" w -> condition_of a c -> block b l -> formula (w :: a ++ b) (FFor c l)
| f_if w a c b l : the "if" w -> condition_of a c -> block b l -> formula (w :: a ++ b) (FIf c l None)
| f_if_else w a c b l e b' l' : the "if" w -> condition_of a c -> block b l -> the "else" e -> block b' l' ->
    formula (w :: a ++ b ++ e :: b') (FIf c l (Some l'))
with block : list tok -> list form -> Prop :=
| b_block o a l c : the "{" o -> body a l -> the "}" c -> block (o :: a ++ [c]) l
(** In braces: a semicolon after each formula; it may be missing after the last
    one and after a closing brace. *)
with body : list tok -> list form -> Prop :=
| b_none : body [] []
| b_last a f : formula a f -> body a [f]
| b_next a f o b l : formula a f -> the ";" o -> body b l -> body (a ++ o :: b) (f :: l)
| b_after_block a f b l : formula a f -> (forall ft t, f <> FForm ft t) -> body b l -> body (a ++ b) (f :: l).

(** The body of a plan: not empty, and no semicolon at the end. *)
Inductive plan_body : list tok -> list form -> Prop :=
| d_last a f : formula a f -> plan_body a [f]
| d_next a f o b l : formula a f -> the ";" o -> plan_body b l -> plan_body (a ++ o :: b) (f :: l)
| d_after_block a f b l : formula a f -> (forall ft t, f <> FForm ft t) -> plan_body b l -> plan_body (a ++ b) (f :: l).

(** ** Clauses *)

Definition triggers : list (string * trig) := [("+", TrAdd); ("-", TrRem)]%string.
Definition goal_signs : list (string * gtype) := [("!", GtAchieve); ("?", GtTest)]%string.

Inductive event_of : list tok -> aevent -> Prop :=
| v_belief s tr o a h : In (s, tr) triggers -> the s o -> literal a h -> event_of (o :: a) (mkaevent tr GtBelief h)
| v_goal s tr o s' gt g a h : In (s, tr) triggers -> the s o -> In (s', gt) goal_signs -> the s' g -> literal a h ->
    event_of (o :: g :: a) (mkaevent tr gt h).

(** An optional part, introduced by the token [s]. *)
Inductive optional {A} (s : string) (Q : list tok -> A -> Prop) : list tok -> option A -> Prop :=
| o_none : optional s Q [] None
| o_some t a x : the s t -> Q a x -> optional s Q (t :: a) (Some x).

Inductive plan_of : list tok -> aplan -> Prop :=
| q_plan a an b e c ctx d bd : optional "@" literal a an -> event_of b e ->
    optional ":" (expr LOr) c ctx -> optional "<-" plan_body d bd ->
    plan_of (a ++ b ++ c ++ d) (mkaplan an e ctx bd).
Inductive clause_of : list tok -> arule + alit -> Prop :=
| q_belief a l : literal a l -> clause_of a (inr l)
| q_rule a l o b c : literal a l -> the ":-" o -> expr LOr b c -> clause_of (a ++ o :: b) (inl (mkarule l c)).
Inductive goal_of : list tok -> alit -> Prop :=
| q_goal o a l : the "!" o -> literal a l -> goal_of (o :: a) l.

(** ** What may follow *)

(** Tokens that would make a phrase longer. *)
Definition extends (lv : level) : list string :=
  (match lv with
  | LOr => ["|"; "&"; "<"; "<="; ">"; ">="; "=="; "\=="; "="; "=.."; "+"; "-"; "*"; "/"; "div"; "mod"; "**"; "("; "["]
  | LAnd => ["&"; "<"; "<="; ">"; ">="; "=="; "\=="; "="; "=.."; "+"; "-"; "*"; "/"; "div"; "mod"; "**"; "("; "["]
  | LNot | LComp => ["<"; "<="; ">"; ">="; "=="; "\=="; "="; "=.."; "+"; "-"; "*"; "/"; "div"; "mod"; "**"; "("; "["]
  | LSum => ["+"; "-"; "*"; "/"; "div"; "mod"; "**"; "("; "["]
  | LProd => ["*"; "/"; "div"; "mod"; "**"; "("; "["]
  | LFactor => ["**"; "("; "["]
  | LAtom => ["("; "["]
  end)%string.
Definition stops (lv : level) (t : tok) : Prop := forall s, In s (extends lv) -> ~ the s t.

(** The tokens among the items of the lexer. *)
Definition tokens_of (l : list item) : list tok := flat_map (fun i => match i with ITok t => [t] | IBad _ _ _ => [] end) l.

(** A token as the lexer makes them. *)
Definition lexed (t : tok) : Prop := exists n source items, tokenize n source = Ok items /\ In (ITok t) items.

(** Given enough stack, [parse] reads [a], reports no error and stops at [f]. *)
Definition accepts {A} (parse : nat -> tok -> P (tok * A)) (a : list tok) (x : A) (f : tok) : Prop :=
  exists first l N, a = first :: l /\ forall n rest lg own, (N <= n)%nat -> exists lg',
    parse n first (mkpst (map ITok l ++ ITok f :: rest) lg own) = (Ok (f, x), mkpst rest lg' own) /\
    lg_errors lg' = lg_errors lg.

(** What [parse] reads is a phrase, and the token after it. *)
Definition reads_only {A} (parse : nat -> tok -> P (tok * A)) (phrase : list tok -> A -> Prop) : Prop :=
  forall n first s f x s', Forall lexed (first :: tokens_of (p_items s)) -> parse n first s = (Ok (f, x), s') ->
    exists a, first :: tokens_of (p_items s) = a ++ f :: tokens_of (p_items s') /\ phrase a x.
