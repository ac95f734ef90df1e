(** Printed text is read back. *)
From Verif Require Import Base Num Term Str World Ast Names Quote QuoteSpec QuoteFacts Lex LexSpec LexFacts LexCor LexTok
  Parse ParseTotal ParseInv RoundSpec RoundLex RoundTok RoundText RoundParse.

Local Notation len := List.length.

Section WithPy.
Context {PY : Py}.

Lemma spells items l : map spell items = map Some l -> exists toks, items = map ITok toks /\ map tw toks = l.
Proof.
  revert items. induction l as [|w l IH]; intros [|i items] E; try discriminate; [now exists []|].
  cbn in E. injection E as E1 E2. destruct (IH items E2) as (toks & -> & H). destruct i as [t|]; [|discriminate].
  exists (t :: toks). cbn in *. injection E1 as E1. split; [reflexivity|]. rewrite H. f_equal. exact E1.
Qed.

Lemma stop_dot : stop (s2p "." ++ []).
Proof. cbn. repeat split; discriminate. Qed.

Lemma dot_items s l : sp s (s2p "." ++ []) l -> exists toks a b c,
  tokenize 1 (string_source (s ++ s2p ".")) = Ok (map ITok (toks ++ [mktok KFullstop (s2p ".") a b c])) /\ map tw toks = l.
Proof.
  intros H. assert (S1 : sp (s ++ s2p ".") [] (l ++ [wd KFullstop "."])).
  { apply sp_app; [exact H|]. apply sp_one, tok_dot_end. }
  destruct (sp_tokens _ _ _ 1%nat (le_n _) S1) as (items & E & E2).
  apply spells in E2 as (toks & -> & E2). apply tok_app in E2 as (u & v & -> & E2 & E3).
  apply tok_cons in E3 as (a & b & c & v' & -> & E3). destruct v'; [|discriminate].
  exists u, a, b, c. split; [exact E|assumption].
Qed.

Lemma back {A} (parse : nat -> tok -> P (tok * A)) s l bound x :
  sp s (s2p "." ++ []) l -> l <> [] ->
  (forall n tk toks a b c lg own, (bound <= n)%nat -> map tw (tk :: toks) = l ->
     parse n tk (st (toks ++ [mktok KFullstop (s2p ".") a b c]) lg own) = (Ok (mktok KFullstop (s2p ".") a b c, x), st [] lg own)) ->
  (forall n n', (n <= n')%nat -> pl (parse n) (parse n')) ->
  (forall n j tk, (j + 3 <= n)%nat -> fine 1 j (parse n tk)) ->
  read_back parse (s ++ s2p ".") x.
Proof.
  intros Hs Hn Hp Hm Hf. destruct (dot_items s l Hs) as (toks & a & b & c & E1 & E2).
  destruct toks as [|tk toks]; [destruct l; [congruence|discriminate]|].
  exists tk, (map ITok (toks ++ [mktok KFullstop (s2p ".") a b c])), (mktok KFullstop (s2p ".") a b c).
  split; [exact E1|]. split; [reflexivity|]. intros n lg own Hb.
  rewrite (same_bound (fun n => parse n tk) _ (fun n n' H => Hm n n' H tk) (fun n H => Hf n _ tk H) n (n + bound)%nat
    (mkpst _ _ _) (le_n _) Hb ltac:(cbn in *; lia)).
  apply (Hp (n + bound)%nat tk toks a b c lg own); [lia|exact E2].
Qed.

Lemma dot_no_call a b c : no_call (mktok KFullstop (s2p ".") a b c).
Proof. split; reflexivity. Qed.

Lemma term_back t : readable t -> read_back parse_term (ast_str t ++ s2p ".") t.
Proof.
  intros H. apply (back _ _ (ast_toks t) (asize t)).
  - apply sp_ast; [assumption|apply stop_dot].
  - destruct (lead t H) as (k & w & ws & -> & _). discriminate.
  - intros n tk toks a b c lg own Hn E. apply (term_parse t n H Hn); [assumption|apply dot_no_or].
  - intros. now apply mle_parse_term.
  - intros. apply (fine_parse_term n j); lia.
Qed.

Lemma literal_back l : readable_lit l -> read_back parse_literal (lit_str l ++ s2p ".") l.
Proof.
  intros H. apply (back _ _ (lit_toks l) (asize (lit_ast l))).
  - apply sp_ast; [assumption|apply stop_dot].
  - destruct l. discriminate.
  - intros n tk toks a b c lg own Hn E. apply literal_parse; try assumption. apply dot_no_call.
  - intros. now apply mle_parse_literal.
  - intros. apply fine_parse_literal. lia.
Qed.

Lemma event_back e : readable_event e -> read_back parse_event (event_str e ++ s2p ".") e.
Proof.
  intros H. apply (back _ _ (event_toks e) (asize (lit_ast (ae_head e)))).
  - apply sp_event; [assumption|apply stop_dot].
  - discriminate.
  - intros n tk toks a b c lg own Hn E. apply event_ok; try assumption. apply dot_no_call.
  - intros. now apply mle_event.
  - intros. apply fine_event. lia.
Qed.

Lemma plan_back p : readable_plan p -> read_back parse_plan (aplan_str p ++ s2p ".") p.
Proof.
  intros H. apply (back _ _ (plan_toks p) (psize p)).
  - apply sp_plan; [assumption|apply stop_dot].
  - unfold plan_toks, event_toks. destruct (ap_annot p); discriminate.
  - intros n tk toks a b c lg own Hn E. apply plan_ok; assumption.
  - intros. now apply mle_plan.
  - intros. now apply fine_plan.
Qed.

(** What the parser built is read back if its numbers are, and its else branches are not empty. *)
Lemma parsed_term_back t : came parse_term t -> exact t -> read_back parse_term (ast_str t ++ s2p ".") t.
Proof. intros H E. apply term_back. apply exact_readable; [|assumption]. eapply came_keeps; [|exact H]. apply keeps_parse_term. Qed.
Lemma parsed_event_back e : came parse_event e -> exact (lit_ast (ae_head e)) -> read_back parse_event (event_str e ++ s2p ".") e.
Proof.
  intros H E. apply event_back. pose proof (came_keeps _ formed_event e keeps_event H) as [F1 F2]. split; [assumption|].
  now apply exact_readable.
Qed.
Lemma parsed_plan_back p : came parse_plan p -> exact_plan p -> read_back parse_plan (aplan_str p ++ s2p ".") p.
Proof. intros H E. apply plan_back, exact_plan_readable; [|assumption]. exact (came_keeps _ formed_plan p keeps_plan H). Qed.
End WithPy.

(** A text is read in one way only. *)
Lemma read_back_once {A} parse s (a b : A) : read_back parse s a -> read_back parse s b -> a = b.
Proof.
  intros (f1 & r1 & d1 & E1 & _ & H1) (f2 & r2 & d2 & E2 & _ & H2). rewrite E1 in E2. injection E2 as -> ->.
  specialize (H1 _ (log_new None) true (le_n _)). specialize (H2 _ (log_new None) true (le_n _)). congruence.
Qed.
