(** Which syntax trees are the same after printing and parsing. *)
From Verif Require Import Base Num Term Str World Ast Names Quote QuoteSpec Lex LexSpec Parse.

(** Names and variables as the lexer reads them. *)
Definition functor_name (f : pystr) : Prop :=
  exists w, (f = w \/ f = 126%N :: w) /\ dotted w /\ ~ at_keyword w.
Definition variable_name (v : pystr) : Prop :=
  (exists u c w, v = u ++ c :: w /\ all (N.eqb 95) u /\ is_upper c = true /\ all is_word w)
  \/ (v <> [] /\ all (N.eqb 95) v).

Section WithPy.
Context {PY : Py}.

(** A number whose text is a numeral that is read as the same number. *)
Definition numeral (x : num) : Prop :=
  exists m e, num_asl x = m ++ e /\ mantissa m /\ exponent e /\ x = NFlt (float_lit (m ++ e)).

(** Expressions: names are names, numbers are numerals. *)
Fixpoint readable (t : ast) : Prop :=
  match t with
  | ABool _ => True
  | ANum x => numeral x
  | AStr s => Forall code_point s
  | AVar v => variable_name v
  | ALit f ts an =>
      functor_name f /\ fold_right and True (map readable ts) /\ fold_right and True (map readable an)
  | AList ts => fold_right and True (map readable ts)
  | ALL h t => readable h /\ readable t
  | AUn _ a => readable a
  | ABin _ l r => readable l /\ readable r
  end.

(** Formulas.  An empty else branch is not printed. *)
Fixpoint readable_form (f : form) : Prop :=
  match f with
  | FForm _ t => readable t
  | FFor c b | FWhile c b => readable c /\ fold_right and True (map readable_form b)
  | FIf c ib eb =>
      readable c /\ fold_right and True (map readable_form ib) /\
      match eb with
      | Some b => b <> [] /\ fold_right and True (map readable_form b)
      | None => True
      end
  end.

Definition readable_lit (l : alit) : Prop := readable (lit_ast l).
(** The events of plans: "+", "-" with nothing, "!" or "?". *)
Definition readable_event (e : aevent) : Prop :=
  (ae_gt e = GtBelief \/ ae_gt e = GtAchieve \/ ae_gt e = GtTest) /\ readable_lit (ae_head e).
Definition readable_plan (p : aplan) : Prop :=
  (forall l, ap_annot p = Some l -> readable_lit l) /\
  readable_event (ap_event p) /\
  (forall c, ap_ctx p = Some c -> readable c) /\
  (forall b, ap_body p = Some b -> b <> [] /\ Forall readable_form b).

(** [text_of s l]: the tokens of the text [s], ignoring positions, are [l]. *)
Definition text_of (s : pystr) (l : list (kind * pystr)) : Prop :=
  exists items, tokenize 1 (string_source s) = Ok items /\
    map (fun i => match i with ITok t => Some (t_kind t, t_lex t) | IBad _ _ _ => None end) items = map Some l.
End WithPy.

(** What the parser does not guarantee of the trees it builds: that numbers are
    read back ("1e999" is the infinity, printed as "inf"), and that there is no
    empty else branch. *)
Section Lossless.
Context {PY : Py}.
Fixpoint exact (t : ast) : Prop :=
  match t with
  | ANum x => numeral x
  | ALit _ ts an => fold_right and True (map exact ts) /\ fold_right and True (map exact an)
  | AList ts => fold_right and True (map exact ts)
  | ALL h t => exact h /\ exact t
  | AUn _ a => exact a
  | ABin _ l r => exact l /\ exact r
  | _ => True
  end.
Fixpoint exact_form (f : form) : Prop :=
  match f with
  | FForm _ t => exact t
  | FFor c b | FWhile c b => exact c /\ fold_right and True (map exact_form b)
  | FIf c ib eb =>
      exact c /\ fold_right and True (map exact_form ib) /\
      match eb with
      | Some b => b <> [] /\ fold_right and True (map exact_form b)
      | None => True
      end
  end.
Definition exact_plan (p : aplan) : Prop :=
  (forall l, ap_annot p = Some l -> exact (lit_ast l)) /\
  exact (lit_ast (ae_head (ap_event p))) /\
  (forall c, ap_ctx p = Some c -> exact c) /\
  (forall b, ap_body p = Some b -> Forall exact_form b).
End Lossless.

(** [came parse a]: [parse] gave [a] for the tokens of some source. *)
Definition came {A} (parse : nat -> tok -> P (tok * A)) (a : A) : Prop :=
  exists n source items before first rest lg own tk s,
    Forall (Forall code_point) source /\ tokenize 1 source = Ok items /\
    items = before ++ ITok first :: rest /\
    parse n first (mkpst rest lg own) = (Ok (tk, a), s).

(** [read_back parse s a]: the text [s] begins with a token, and from there
    [parse] reads all of it, up to a final full stop, as [a], and reports nothing.
    (The bound on the recursion only has to exceed the number of tokens; C40
    shows that it is then never reached.) *)
Definition read_back {A} (parse : nat -> tok -> P (tok * A)) (s : pystr) (a : A) : Prop :=
  exists first rest dot,
    tokenize 1 (string_source s) = Ok (ITok first :: rest) /\ is_lex dot "." = true /\
    forall n lg own, (List.length rest + 3 <= n)%nat ->
      parse n first (mkpst rest lg own) = (Ok (dot, a), mkpst [] lg own).
