(** The parser reads everything that belongs to the grammar. *)
From Verif Require Import Base Num Term Str World Ast Names Quote Lex LexSpec LexFacts Parse RoundSpec GramSpec GramTok GramSound.

Scheme expr_mut := Minimality for expr Sort Prop
  with chain_mut := Minimality for chain Sort Prop
  with listed_mut := Minimality for listed Sort Prop
  with linked_mut := Minimality for linked Sort Prop
  with literal_mut := Minimality for literal Sort Prop
  with grouped_mut := Minimality for grouped Sort Prop.
Combined Scheme grammar_ind from expr_mut, chain_mut, listed_mut, linked_mut, literal_mut, grouped_mut.

Ltac inlex := unfold fixed_lexemes; cbn [In]; tauto.

Lemma the_kind k s t : In (k, s) fixed_lexemes -> fit t -> the s t -> t_kind t = k.
Proof. intros H F. apply (fit_kind k s t H F). Qed.
Lemma not_the k s t : In (k, s) fixed_lexemes -> fit t -> t_kind t <> k -> is_lex t s = false.
Proof. intros H F Hk. apply is_lex_false. intros Ht. apply Hk. now apply (the_kind k s). Qed.
Lemma the_other s s' t : the s t -> pystr_eqb (s2p s) (s2p s') = false -> is_lex t s' = false.
Proof. unfold the, is_lex. now intros ->. Qed.
Lemma the_other' s s' t : the s t -> pystr_eqb (s2p s) (s2p s') = false -> ~ the s' t.
Proof. intros. apply is_lex_false. eapply the_other; eassumption. Qed.

(** ** First tokens *)

Definition atom_start (t : tok) : Prop :=
  t_kind t = KVariable \/ t_kind t = KFunctor \/ t_kind t = KNumeric \/ t_kind t = KString \/
  the "[" t \/ the "(" t \/ the "true" t \/ the "false" t.
Definition sign (t : tok) : Prop := the "+" t \/ the "-" t.
Definition begins (lv : level) (t : tok) : Prop :=
  match lv with
  | LAtom => atom_start t
  | LFactor | LProd | LSum | LComp => atom_start t \/ sign t
  | LNot | LAnd | LOr => (atom_start t \/ sign t) \/ the "not" t
  end.
Definition starts (lv : level) (l : list tok) : Prop := exists t r, l = t :: r /\ begins lv t.

Lemma starts_up lv l : starts (tighter lv) l -> starts lv l.
Proof. intros (t & r & -> & H). exists t, r. split; [reflexivity|]. destruct lv; cbn in *; auto. Qed.
Lemma starts_app lv l m : starts lv l -> starts lv (l ++ m).
Proof. intros (t & r & -> & H). now exists t, (r ++ m). Qed.

Lemma grammar_starts :
  (forall lv l x, expr lv l x -> starts lv l) /\
  (forall l x r, chain l x r -> starts LComp l) /\
  (forall lv l xs, listed lv l xs -> starts lv l) /\
  (forall l x, linked l x -> starts LAnd l) /\
  (forall l x, literal l x -> starts LAtom l) /\
  (forall o c l xs, grouped o c l xs -> True).
Proof.
  apply grammar_ind; intros; try exact I; try (now apply starts_app); try (now apply starts_up); try assumption;
    try (eexists; eexists; split; [reflexivity|]; cbn; unfold atom_start; tauto).
  - exists o, a. split; [reflexivity|]. unfold signs in H. cbn [In] in H. cbn. right. unfold sign.
    destruct H as [[= <- <-]|[[= <- <-]|[]]]; tauto.
  - apply starts_up. now apply starts_app.
Qed.
Definition expr_starts := proj1 grammar_starts.
Lemma listed_starts lv l xs : listed lv l xs -> starts lv l.
Proof. exact (proj1 (proj2 (proj2 grammar_starts)) lv l xs). Qed.
Lemma linked_starts l x : linked l x -> starts LAnd l.
Proof. exact (proj1 (proj2 (proj2 (proj2 grammar_starts))) l x). Qed.

Definition first_kinds (lv : level) : list kind :=
  [KVariable; KFunctor; KNumeric; KString; KBracketOpen; KParenOpen; KTrue; KFalse] ++
  match lv with
  | LAtom => []
  | LFactor | LProd | LSum | LComp => [KPlus; KMinus]
  | LNot | LAnd | LOr => [KPlus; KMinus; KNot]
  end.
Lemma begins_kind lv t : fit t -> begins lv t -> In (t_kind t) (first_kinds lv).
Proof.
  intros F H.
  assert (A : atom_start t -> In (t_kind t) [KVariable; KFunctor; KNumeric; KString; KBracketOpen; KParenOpen; KTrue; KFalse]).
  { intros A. destruct A as [A|[A|[A|[A|[A|[A|[A|A]]]]]]]; try (rewrite A; cbn; tauto);
    [apply (the_kind KBracketOpen) in A|apply (the_kind KParenOpen) in A|apply (the_kind KTrue) in A|apply (the_kind KFalse) in A];
    try assumption; try inlex; rewrite A; cbn; tauto. }
  assert (B : sign t -> In (t_kind t) [KPlus; KMinus]).
  { intros [B|B]; [apply (the_kind KPlus) in B|apply (the_kind KMinus) in B]; try assumption; try inlex; rewrite B; cbn; tauto. }
  assert (C : the "not" t -> t_kind t = KNot) by (intros C; apply (the_kind KNot "not"); [inlex|assumption|assumption]).
  unfold first_kinds. apply in_or_app. cbn [In] in *.
  destruct lv; cbn [begins In] in *; try tauto; try (destruct H as [H|H]; tauto); try (destruct H as [[H|H]|H]; [tauto|tauto|]);
    right; right; right; left; symmetry; tauto.
Qed.
Lemma begins_not lv t k s : fit t -> begins lv t -> In (k, s) fixed_lexemes -> ~ In k (first_kinds lv) -> is_lex t s = false.
Proof. intros F H Hk K. apply (not_the k s); [assumption|assumption|]. intros <-. apply K. now apply begins_kind. Qed.

(** ** Operators *)

Ltac kind_of k := match goal with F : fit ?t, H : the ?s ?t |- _ => apply (the_kind k s t ltac:(inlex) F) in H end.

Lemma sel_complete lv s op t : In (lv, s, op) infixes -> the s t -> fit t -> sel lv t = Some op.
Proof.
  intros Hin H F. unfold infixes in Hin. cbn [In] in Hin.
  repeat (destruct Hin as [Hin|Hin]; [injection Hin as <- <- <-; cbn [sel]|]); [..|destruct Hin].
  - apply is_lex_the in H. now rewrite H.
  - apply is_lex_the in H. now rewrite H.
  - unfold tk_add. kind_of KPlus. now rewrite H.
  - unfold tk_add. kind_of KMinus. now rewrite H.
  - unfold tk_mult. kind_of KMult. now rewrite H.
  - unfold tk_mult. kind_of KFdiv. now rewrite H.
  - unfold tk_mult. kind_of KDiv. now rewrite H.
  - unfold tk_mult. kind_of KMod. now rewrite H.
Qed.
Lemma comp_complete s op t : In (s, op) comparisons -> the s t -> fit t -> tk_comp t = Some op.
Proof.
  intros Hin H F. unfold comparisons in Hin. cbn [In] in Hin. unfold tk_comp.
  repeat (destruct Hin as [Hin|Hin]; [injection Hin as <- <-|]); [..|destruct Hin].
  - kind_of KLt. now rewrite H.
  - kind_of KLe. now rewrite H.
  - kind_of KGt. now rewrite H.
  - kind_of KGe. now rewrite H.
  - kind_of KEq. now rewrite H.
  - kind_of KNe. now rewrite H.
  - kind_of KUnify. now rewrite H.
  - kind_of KDecompose. now rewrite H.
Qed.
Lemma unary_complete s op t : In (s, op) signs -> the s t -> fit t -> tk_unary t = Some op.
Proof.
  intros Hin H F. unfold signs in Hin. cbn [In] in Hin. unfold tk_unary.
  repeat (destruct Hin as [Hin|Hin]; [injection Hin as <- <-|]); [..|destruct Hin].
  - kind_of KPlus. now rewrite H.
  - kind_of KMinus. now rewrite H.
Qed.

Lemma stops_tighter lv f : stops lv f -> stops (tighter lv) f.
Proof. intros H s Hs. apply H. destruct lv; cbn [tighter extends] in *; cbn [In] in *; tauto. Qed.
Lemma stops_sel lv f : fit f -> stops lv f -> sel lv f = None.
Proof.
  intros F H. destruct (sel lv f) as [op|] eqn:E; [|reflexivity]. apply sel_sound in E as (s & Hin & Hs); [|assumption].
  exfalso. apply (H s); [|assumption]. unfold infixes in Hin. cbn [In] in Hin.
  repeat (destruct Hin as [Hin|Hin]; [injection Hin as <- <- <-; cbn; tauto|]). destruct Hin.
Qed.
Lemma stops_comp f : fit f -> stops LComp f -> tk_comp f = None.
Proof.
  intros F H. destruct (tk_comp f) as [op|] eqn:E; [|reflexivity]. apply comp_sound in E as (s & Hin & Hs); [|assumption].
  exfalso. apply (H s); [|assumption]. unfold comparisons in Hin. cbn [In] in Hin.
  repeat (destruct Hin as [Hin|Hin]; [injection Hin as <- <-; cbn; tauto|]). destruct Hin.
Qed.
Lemma stops_is lv f s : stops lv f -> In s (extends lv) -> is_lex f s = false.
Proof. intros H Hs. apply is_lex_false. now apply H. Qed.
Lemma the_stops s lv t : the s t -> forallb (fun s' => negb (pystr_eqb (s2p s) (s2p s'))) (extends lv) = true -> stops lv t.
Proof.
  intros H Hf s' Hs'. rewrite forallb_forall in Hf. specialize (Hf s' Hs'). apply (the_other' s); [assumption|].
  now destruct (pystr_eqb (s2p s) (s2p s')).
Qed.
Lemma infix_stops lv s op t : In (lv, s, op) infixes -> the s t -> stops (tighter lv) t.
Proof.
  intros Hin H. apply (the_stops s); [assumption|]. unfold infixes in Hin. cbn [In] in Hin.
  repeat (destruct Hin as [Hin|Hin]; [injection Hin as <- <- <-; reflexivity|]). destruct Hin.
Qed.
Lemma comp_stops s op t : In (s, op) comparisons -> the s t -> stops LSum t.
Proof.
  intros Hin H. apply (the_stops s); [assumption|]. unfold comparisons in Hin. cbn [In] in Hin.
  repeat (destruct Hin as [Hin|Hin]; [injection Hin as <- <-; reflexivity|]). destruct Hin.
Qed.

(** ** Reading *)

Definition reads {A} (p : tok -> P (tok * A)) (l : list tok) (x : A) (f : tok) : Prop := forall rest lg own,
  pbind next p (mkpst (map ITok l ++ ITok f :: rest) lg own) = (Ok (f, x), mkpst rest lg own).

Lemma then_reads {A C} (p : tok -> P (tok * A)) l x f (K : tok * A -> P C) rest lg own : reads p l x f ->
  pbind next (fun t => pbind (p t) K) (mkpst (map ITok l ++ ITok f :: rest) lg own) = K (f, x) (mkpst rest lg own).
Proof.
  intros H. specialize (H rest lg own). unfold pbind in *.
  destruct (next _) as [[t|e] s1]; [|discriminate]. destruct (p t s1) as [[y|e] s2]; [|discriminate]. now injection H as -> ->.
Qed.
Lemma first_reads {A C} (p : tok -> P (tok * A)) t l x f (K : tok * A -> P C) rest lg own : reads p (t :: l) x f ->
  pbind (p t) K (mkpst (map ITok l ++ ITok f :: rest) lg own) = K (f, x) (mkpst rest lg own).
Proof. intros H. exact (then_reads p (t :: l) x f K rest lg own H). Qed.
Lemma next_cons {C} t (K : tok -> P C) l lg own : pbind next K (mkpst (ITok t :: l) lg own) = K t (mkpst l lg own).
Proof. reflexivity. Qed.

(** The parser at each level; [j] counts the nots, [k] the operators, [n] the brackets. *)
Definition lvl (lv : level) (n k j : nat) : tok -> P (tok * ast) :=
  match lv with
  | LOr => term_lv (parse_atom n) k
  | LAnd => and_lv (parse_atom n) k
  | LNot => not_loop (parse_atom n) j k
  | LComp => comparison_lv (parse_atom n) k
  | LSum => arith_lv (parse_atom n) k
  | LProd => product_lv (parse_atom n) k
  | LFactor => factor_lv (parse_atom n) k
  | LAtom => parse_atom n
  end.
Definition left_assoc (lv : level) : bool := match lv with LOr | LAnd | LSum | LProd => true | _ => false end.

(** After [x] the parser is at [f] in the loop for operators of this level. *)
Definition loops (lv : level) (n k : nat) (bound : nat) (l : list tok) (x : ast) (f : tok) : Prop :=
  exists k', (k <= k' + bound)%nat /\ forall rest lg own,
  pbind next (lvl lv n k k) (mkpst (map ITok l ++ ITok f :: rest) lg own) =
    binloop k' (sel lv) (lvl (tighter lv) n k k) f x (mkpst rest lg own).
Definition chains (n k : nat) (bound : nat) (l : list tok) (x r : ast) (f : tok) : Prop :=
  exists k', (k <= k' + bound)%nat /\ forall rest lg own,
  pbind next (lvl LComp n k k) (mkpst (map ITok l ++ ITok f :: rest) lg own) =
    comp_loop k' (lvl LSum n k k) f (Some x) r (mkpst rest lg own).

Lemma loop_open lv n k l x f rest lg own : left_assoc lv = true -> reads (lvl (tighter lv) n k k) l x f ->
  pbind next (lvl lv n k k) (mkpst (map ITok l ++ ITok f :: rest) lg own) =
    binloop k (sel lv) (lvl (tighter lv) n k k) f x (mkpst rest lg own).
Proof.
  intros Hl H. destruct lv; try discriminate Hl; cbn [lvl tighter] in *.
  - exact (then_reads _ _ _ _ (fun '(tk1, e) => binloop k (sel LOr) (and_lv (parse_atom n) k) tk1 e) rest lg own H).
  - exact (then_reads _ _ _ _ (fun '(tk1, e) => binloop k (sel LAnd) (not_lv (parse_atom n) k) tk1 e) rest lg own H).
  - exact (then_reads _ _ _ _ (fun '(tk1, e) => binloop k (sel LSum) (product_lv (parse_atom n) k) tk1 e) rest lg own H).
  - exact (then_reads _ _ _ _ (fun '(tk1, e) => binloop k (sel LProd) (factor_lv (parse_atom n) k) tk1 e) rest lg own H).
Qed.
Lemma loop_end lv k operand f x s : sel lv f = None -> binloop k (sel lv) operand f x s = (Ok (f, x), s).
Proof. intros H. destruct k; cbn [binloop]; now rewrite H. Qed.
Lemma loop_step lv k operand o op x b y f rest lg own : sel lv o = Some op -> reads operand b y f ->
  binloop (S k) (sel lv) operand o x (mkpst (map ITok b ++ ITok f :: rest) lg own) =
    binloop k (sel lv) operand f (ABin op x y) (mkpst rest lg own).
Proof.
  intros H Hb. cbn [binloop]. rewrite H.
  exact (then_reads operand b y f (fun '(tk2, rhs) => binloop k (sel lv) operand tk2 (ABin op x rhs)) rest lg own Hb).
Qed.
Lemma comp_end k operand f x r s : tk_comp f = None -> comp_loop k operand f x r s =
  (Ok (f, match x with Some c => c | None => r end), s).
Proof. intros H. destruct k; cbn [comp_loop]; now rewrite H. Qed.
Lemma comp_step k operand o op x r b y f rest lg own : tk_comp o = Some op -> reads operand b y f ->
  comp_loop (S k) operand o x r (mkpst (map ITok b ++ ITok f :: rest) lg own) =
    comp_loop k operand f (Some (match x with None => ABin op r y | Some c => ABin BAnd c (ABin op r y) end)) y (mkpst rest lg own).
Proof.
  intros H Hb. cbn [comp_loop]. rewrite H.
  exact (then_reads operand b y f (fun '(tk2, rhs) => comp_loop k operand tk2
    (Some (match x with None => ABin op r rhs | Some c => ABin BAnd c (ABin op r rhs) end)) rhs) rest lg own Hb).
Qed.
Lemma comp_open n k l x f rest lg own : reads (lvl LSum n k k) l x f ->
  pbind next (lvl LComp n k k) (mkpst (map ITok l ++ ITok f :: rest) lg own) =
    comp_loop k (lvl LSum n k k) f None x (mkpst rest lg own).
Proof.
  intros H. exact (then_reads _ _ _ _ (fun '(tk1, e) => comp_loop k (arith_lv (parse_atom n) k) tk1 None e) rest lg own H).
Qed.
Lemma items_app (a : list tok) o b f rest :
  map ITok (a ++ o :: b) ++ ITok f :: rest = map ITok a ++ ITok o :: map ITok b ++ ITok f :: rest.
Proof. rewrite map_app, <- app_assoc. reflexivity. Qed.

(** ** One lemma for each rule *)

Definition PE (lv : level) (l : list tok) (x : ast) : Prop := Forall fit l -> exists N,
  (forall n k j f, N <= n -> N <= k -> N <= j -> fit f -> stops lv f -> reads (lvl lv n k j) l x f)%nat /\
  (left_assoc lv = true -> forall n k f, N <= n -> N <= k -> fit f -> stops (tighter lv) f -> loops lv n k N l x f)%nat.
Definition PC (l : list tok) (x r : ast) : Prop := Forall fit l -> exists N,
  (forall n k f, N <= n -> N <= k -> fit f -> stops LSum f -> chains n k N l x r f)%nat.
Definition PL (lv : level) (l : list tok) (xs : list ast) : Prop := Forall fit l ->
  match lv with
  | LOr => exists N, forall n k close cl f acc rest lg own, (N <= n)%nat -> (N <= k)%nat ->
      close = ")"%string \/ close = "]"%string -> the close cl -> fit cl ->
      terms_loop k close (lvl LOr n n n) acc (mkpst (map ITok l ++ ITok cl :: ITok f :: rest) lg own) =
        (Ok (f, acc ++ xs), mkpst rest lg own)
  | LAnd => exists N, forall n k cl f cs acc rest lg own, (N <= n)%nat -> (N <= k)%nat ->
      the "]" cl -> fit cl -> cs = [] \/ (exists cm, cs = [cm] /\ the "," cm /\ fit cm) ->
      pbind next (fun tk => list_loop k (lvl LAnd n n n) tk acc)
        (mkpst (map ITok l ++ map ITok cs ++ ITok cl :: ITok f :: rest) lg own) =
        (Ok (f, AList (acc ++ xs)), mkpst rest lg own)
  | _ => True
  end.
Definition PK (l : list tok) (x : ast) : Prop := Forall fit l -> exists N, forall n k cl f rest lg own,
  (N <= n)%nat -> (N <= k)%nat -> the "]" cl -> fit cl ->
  pbind next (fun tk => list_loop k (lvl LAnd n n n) tk []) (mkpst (map ITok l ++ ITok cl :: ITok f :: rest) lg own) =
    (Ok (f, x), mkpst rest lg own) /\
  tail_loop k (lvl LAnd n n n) (mkpst (map ITok l ++ ITok cl :: ITok f :: rest) lg own) =
    (Ok (f, x), mkpst rest lg own).
Definition PLit (l : list tok) (x : alit) : Prop := Forall fit l -> exists N, forall n k f,
  (N <= n)%nat -> (N <= k)%nat -> fit f -> stops LAtom f -> reads (literal_lv (lvl LOr n n n) k) l x f.
Definition group_of (o c : string) (n k : nat) (tk : tok) : P (tok * list ast) :=
  if is_lex tk o then terms_loop k c (lvl LOr n n n) [] else pret (tk, []).
Definition PG (o c : string) (l : list tok) (xs : list ast) : Prop := Forall fit l ->
  (c = ")"%string \/ c = "]"%string) -> exists N, forall n k f, (N <= n)%nat -> (N <= k)%nat ->
  is_lex f o = false -> reads (group_of o c n k) l xs f.

Lemma fit_cut (a : list tok) o b : Forall fit (a ++ o :: b) -> Forall fit a /\ fit o /\ Forall fit b.
Proof. intros H. apply Forall_app in H as [Ha H]. inversion H; auto. Qed.
Lemma fit_last o (a : list tok) c : Forall fit (o :: a ++ [c]) -> fit o /\ Forall fit a /\ fit c.
Proof. intros H. inversion H as [|? ? H1 H2]; subst. apply Forall_app in H2 as [Ha H2]. inversion H2; auto. Qed.

Lemma r_tighter lv a x : starts (tighter lv) a -> PE (tighter lv) a x -> PE lv a x.
Proof.
  intros Hs H F. destruct (H F) as (N & H1 & H2). destruct (left_assoc lv) eqn:El.
  - exists N. assert (L : forall n k f, (N <= n -> N <= k -> fit f -> stops (tighter lv) f -> loops lv n k N a x f)%nat).
    { intros n k f Hn Hk Ff Hf. exists k. split; [lia|]. intros rest lg own. apply loop_open; [assumption|]. now apply H1. }
    split; [|intros _; exact L]. intros n k j f Hn Hk Hj Ff Hf rest lg own.
    destruct (L n k f Hn Hk Ff (stops_tighter _ _ Hf)) as (k' & _ & E).
    assert (X : lvl lv n k j = lvl lv n k k) by (destruct lv; try discriminate El; reflexivity).
    rewrite X, E. apply loop_end. now apply stops_sel.
  - destruct Hs as (t & r & -> & Hb). assert (Ft : fit t) by now inversion F.
    exists (S N). split; [|intros; congruence]. intros n k j f Hn Hk Hj Ff Hf rest lg own.
    pose proof (stops_tighter _ _ Hf) as Hf'. destruct lv; try discriminate El; cbn [tighter] in *.
    + (* not *) assert (En : is_lex t "not" = false).
      { apply (begins_not LComp t KNot); [assumption|assumption|inlex|cbn; intuition discriminate]. }
      assert (X : lvl LNot n k j t = lvl LComp n k k t) by (cbn [lvl]; destruct j; cbn [not_loop]; now rewrite En).
      cbn [map app]. rewrite next_cons, X. apply (H1 n k k f); auto; lia.
    + (* comparison *) change (lvl LComp n k j) with (lvl LComp n k k). rewrite comp_open with (x := x).
      * apply comp_end. now apply stops_comp.
      * apply H1; auto; lia.
    + (* power *) destruct k as [|k]; [lia|]. cbn [lvl map app]. rewrite next_cons. cbn [factor_lv].
      assert (Eu : tk_unary t = None).
      { apply (begins_kind LAtom) in Hb; [|assumption]. unfold tk_unary. destruct (t_kind t); try reflexivity; cbn in Hb; intuition discriminate. }
      rewrite Eu. rewrite (first_reads (parse_atom n) t r x f); [|apply (H1 n k j f); auto; lia].
      cbv beta iota. destruct k; cbn [binloop]; rewrite (stops_is LFactor f "**"); auto; cbn; tauto.
    + (* atom *) apply (H1 n k j f); auto; lia.
Qed.

Lemma r_infix lv s op o a x b y : In (lv, s, op) infixes -> the s o -> PE lv a x -> PE (tighter lv) b y ->
  PE lv (a ++ o :: b) (ABin op x y).
Proof.
  intros Hin Ho Ha Hb F. apply fit_cut in F as (Fa & Fo & Fb). destruct (Ha Fa) as (N1 & _ & A). destruct (Hb Fb) as (N2 & B & _).
  assert (El : left_assoc lv = true).
  { unfold infixes in Hin. cbn [In] in Hin. repeat (destruct Hin as [Hin|Hin]; [injection Hin as <- <- <-; reflexivity|]). destruct Hin. }
  specialize (A El).
  assert (L : forall n k f, (S (N1 + N2) <= n -> S (N1 + N2) <= k -> fit f -> stops (tighter lv) f ->
     loops lv n k (S (N1 + N2)) (a ++ o :: b) (ABin op x y) f)%nat).
  { intros n k f Hn Hk Ff Hf. destruct (A n k o) as (k' & Hk' & E); [lia|lia|assumption|now apply (infix_stops lv s op)|].
    destruct k' as [|k']; [lia|]. exists k'. split; [lia|]. intros rest lg own. rewrite items_app, E.
    apply loop_step; [now apply (sel_complete lv s)|]. apply B; auto; lia. }
  exists (S (N1 + N2)). split; [|intros _; exact L]. intros n k j f Hn Hk Hj Ff Hf rest lg own.
  destruct (L n k f Hn Hk Ff (stops_tighter _ _ Hf)) as (k' & _ & E).
  assert (X : lvl lv n k j = lvl lv n k k) by (destruct lv; try discriminate El; reflexivity).
  rewrite X, E. apply loop_end. now apply stops_sel.
Qed.

Lemma r_not o a x : the "not" o -> PE LNot a x -> PE LNot (o :: a) (AUn UNot x).
Proof.
  intros Ho Ha F. inversion F as [|? ? F1 F2]; subst. destruct (Ha F2) as (N & A & _). exists (S N).
  split; [|discriminate]. intros n k j f Hn Hk Hj Ff Hf rest lg own. destruct j as [|j]; [lia|].
  cbn [lvl map app]. rewrite next_cons. cbn [not_loop]. apply is_lex_the in Ho. rewrite Ho.
  rewrite (then_reads (not_loop (parse_atom n) j k) a x f); [reflexivity|]. apply (A n k j f); auto; lia.
Qed.

Lemma r_chain a x y : PC a x y -> PE LComp a x.
Proof.
  intros H F. destruct (H F) as (N & A). exists N. split; [|discriminate]. intros n k j f Hn Hk Hj Ff Hf rest lg own.
  change (lvl LComp n k j) with (lvl LComp n k k).
  destruct (A n k f) as (k' & _ & E); [lia|lia|assumption|now apply (stops_tighter LComp)|].
  rewrite E. apply comp_end. now apply stops_comp.
Qed.

Lemma r_two s op o a x b y : In (s, op) comparisons -> the s o -> PE LSum a x -> PE LSum b y -> PC (a ++ o :: b) (ABin op x y) y.
Proof.
  intros Hin Ho Ha Hb F. apply fit_cut in F as (Fa & Fo & Fb). destruct (Ha Fa) as (N1 & A & _). destruct (Hb Fb) as (N2 & B & _).
  exists (S (N1 + N2)). intros n k f Hn Hk Ff Hf. destruct k as [|k]; [lia|]. exists k. split; [lia|]. intros rest lg own.
  rewrite items_app, (comp_open n (S k) a x o).
  - rewrite (comp_step k _ o op None x b y f); [reflexivity|now apply (comp_complete s)|]. apply B; auto; lia.
  - apply A; auto; try lia. now apply (comp_stops s op).
Qed.
Lemma r_more s op o a x r b y : In (s, op) comparisons -> the s o -> PC a x r -> PE LSum b y ->
  PC (a ++ o :: b) (ABin BAnd x (ABin op r y)) y.
Proof.
  intros Hin Ho Ha Hb F. apply fit_cut in F as (Fa & Fo & Fb). destruct (Ha Fa) as (N1 & A). destruct (Hb Fb) as (N2 & B & _).
  exists (S (N1 + N2)). intros n k f Hn Hk Ff Hf.
  destruct (A n k o) as (k' & Hk' & E); [lia|lia|assumption|now apply (comp_stops s op)|].
  destruct k' as [|k']; [lia|]. exists k'. split; [lia|]. intros rest lg own. rewrite items_app, E.
  rewrite (comp_step k' _ o op (Some x) r b y f); [reflexivity|now apply (comp_complete s)|]. apply B; auto; lia.
Qed.

Lemma r_sign s op o a x : In (s, op) signs -> the s o -> PE LFactor a x -> PE LFactor (o :: a) (AUn op x).
Proof.
  intros Hin Ho Ha F. inversion F as [|? ? F1 F2]; subst. destruct (Ha F2) as (N & A & _). exists (S N).
  split; [|discriminate]. intros n k j f Hn Hk Hj Ff Hf rest lg own. destruct k as [|k]; [lia|].
  cbn [lvl map app]. rewrite next_cons. cbn [factor_lv]. rewrite (unary_complete s op o) by assumption.
  rewrite (then_reads (factor_lv (parse_atom n) k) a x f); [reflexivity|]. apply (A n k j f); auto; lia.
Qed.

Lemma r_power o a x b y : the "**" o -> starts LAtom a -> PE LAtom a x -> PE LFactor b y ->
  PE LFactor (a ++ o :: b) (ABin (BNum NPow) x y).
Proof.
  intros Ho Hs Ha Hb F. apply fit_cut in F as (Fa & Fo & Fb). destruct (Ha Fa) as (N1 & A & _). destruct (Hb Fb) as (N2 & B & _).
  destruct Hs as (t & r & -> & Ht). assert (Ft : fit t) by now inversion Fa.
  exists (S (S (N1 + N2))). split; [|discriminate]. intros n k j f Hn Hk Hj Ff Hf rest lg own. destruct k as [|[|k]]; [lia|lia|].
  rewrite items_app. cbn [lvl map app]. rewrite next_cons. cbn [factor_lv].
  assert (Eu : tk_unary t = None).
  { apply (begins_kind LAtom) in Ht; [|assumption]. unfold tk_unary. destruct (t_kind t); try reflexivity; cbn in Ht; intuition discriminate. }
  rewrite Eu. rewrite (first_reads (parse_atom n) t r x o).
  - cbv beta iota. cbn [binloop]. pose proof (proj2 (is_lex_the o "**") Ho) as Eo. rewrite Eo. cbn [when].
    rewrite (then_reads (factor_lv (parse_atom n) (S k)) b y f); [|apply (B n (S k) j f); auto; lia].
    cbv beta iota. destruct k; cbn [binloop]; rewrite (stops_is LFactor f "**"); auto; cbn; tauto.
  - apply (A n k j o); auto; try lia. now apply (the_stops "**").
Qed.

(** ** Atoms *)

Ltac atom_case N := exists N; split; [|discriminate]; intros n k j f Hn Hk Hj Ff Hf rest lg own;
  destruct n as [|n]; [lia|]; cbn [lvl map app]; rewrite next_cons; cbn [parse_atom]; cbv zeta.
Ltac by_fit t k E := unfold tk_variable, tk_functor, tk_numeric, tk_boolean, tk_string; rewrite E;
  repeat match goal with |- context [is_lex t ?s] =>
    rewrite (not_the _ s t ltac:(inlex) ltac:(assumption)) by (rewrite E; discriminate) end.

Lemma not_the' s k k' t : fit t -> t_kind t = k -> In (k', s) fixed_lexemes -> k <> k' -> is_lex t s = false.
Proof. intros F E H K. apply (not_the k' s); [assumption|assumption|congruence]. Qed.

Lemma r_variable t : t_kind t = KVariable -> PE LAtom [t] (AVar (t_lex t)).
Proof. intros E F. atom_case 1%nat. unfold tk_variable. rewrite E. reflexivity. Qed.

Lemma r_literal a l : starts LAtom a -> PLit a l -> (exists f r, a = f :: r /\ t_kind f = KFunctor) -> PE LAtom a (lit_ast l).
Proof.
  intros _ H (g & r & -> & E) F. destruct (H F) as (N & A). atom_case (S N). unfold tk_variable, tk_functor. rewrite E.
  rewrite (first_reads (literal_lv (lvl LOr n n n) n) g r l f); [reflexivity|]. apply A; auto; lia.
Qed.

Lemma r_nil o c : the "[" o -> the "]" c -> PE LAtom [o; c] (AList []).
Proof.
  intros Ho Hc F. inversion F as [|? ? F1 F2]; subst. pose proof (the_kind KBracketOpen "[" o ltac:(inlex) F1 Ho) as E.
  atom_case 1%nat. unfold tk_variable, tk_functor. rewrite E. apply is_lex_the in Ho. rewrite Ho, next_cons.
  apply is_lex_the in Hc. destruct n; cbn [list_loop]; rewrite Hc; reflexivity.
Qed.

Lemma r_list o a xs cs c : the "[" o -> PL LAnd a xs -> cs = [] \/ (exists cm, cs = [cm] /\ the "," cm) -> the "]" c ->
  PE LAtom (o :: a ++ cs ++ [c]) (AList xs).
Proof.
  intros Ho H Hcs Hc F. inversion F as [|? ? F1 F2]; subst. apply Forall_app in F2 as [Fa F2]. apply Forall_app in F2 as [Fs F2].
  assert (Fc : fit c) by now inversion F2. pose proof (the_kind KBracketOpen "[" o ltac:(inlex) F1 Ho) as E.
  destruct (H Fa) as (N & A). atom_case (S N). unfold tk_variable, tk_functor. rewrite E. apply is_lex_the in Ho. rewrite Ho.
  rewrite map_app, map_app, <- !app_assoc. apply (A n n c f cs [] rest lg own); auto; try lia.
  destruct Hcs as [->|(cm & -> & Hm)]; [now left|right]. exists cm. split; [reflexivity|]. split; [assumption|now inversion Fs].
Qed.

Lemma r_linked o a x c : the "[" o -> PK a x -> the "]" c -> PE LAtom (o :: a ++ [c]) x.
Proof.
  intros Ho H Hc F. apply fit_last in F as (F1 & Fa & Fc). pose proof (the_kind KBracketOpen "[" o ltac:(inlex) F1 Ho) as E.
  destruct (H Fa) as (N & A). atom_case (S N). unfold tk_variable, tk_functor. rewrite E. apply is_lex_the in Ho. rewrite Ho.
  rewrite map_app, <- app_assoc. apply (A n n c f rest lg own); auto; lia.
Qed.

Lemma r_parens o a x c : the "(" o -> PE LOr a x -> the ")" c -> PE LAtom (o :: a ++ [c]) x.
Proof.
  intros Ho H Hc F. apply fit_last in F as (F1 & Fa & Fc). pose proof (the_kind KParenOpen "(" o ltac:(inlex) F1 Ho) as E.
  destruct (H Fa) as (N & A & _). atom_case (S N). unfold tk_variable, tk_functor. rewrite E.
  rewrite (the_other "(" "[" o Ho eq_refl). apply is_lex_the in Ho. rewrite Ho.
  rewrite map_app, <- app_assoc. cbn [map app].
  rewrite (then_reads (term_lv (parse_atom n) n) a x c).
  - pose proof (proj2 (is_lex_the c ")") Hc) as Ec. rewrite Ec. reflexivity.
  - apply (A n n n c); auto; try lia. now apply (the_stops ")").
Qed.

Lemma r_number t : t_kind t = KNumeric -> PE LAtom [t] (ANum (NFlt (float_lit (t_lex t)))).
Proof.
  intros E F. assert (F1 : fit t) by now inversion F. atom_case 1%nat. unfold tk_variable, tk_functor, tk_numeric. rewrite E.
  rewrite (not_the' "[" _ KBracketOpen t F1 E ltac:(inlex)) by discriminate.
  rewrite (not_the' "(" _ KParenOpen t F1 E ltac:(inlex)) by discriminate. reflexivity.
Qed.
Lemma r_bool (b : bool) t : the (if b then "true" else "false") t -> PE LAtom [t] (ABool b).
Proof.
  intros H F. assert (F1 : fit t) by now inversion F.
  assert (E : t_kind t = if b then KTrue else KFalse).
  { destruct b; [apply (the_kind KTrue "true")|apply (the_kind KFalse "false")]; auto; inlex. }
  atom_case 1%nat. unfold tk_variable, tk_functor, tk_numeric, tk_boolean. rewrite E.
  rewrite (not_the' "[" _ KBracketOpen t F1 E ltac:(inlex)) by (destruct b; discriminate).
  rewrite (not_the' "(" _ KParenOpen t F1 E ltac:(inlex)) by (destruct b; discriminate). now destruct b.
Qed.
Lemma r_string t s : t_kind t = KString -> parse_string (t_lex t) = Ok s -> PE LAtom [t] (AStr s).
Proof.
  intros E Es F. assert (F1 : fit t) by now inversion F. atom_case 1%nat.
  unfold tk_variable, tk_functor, tk_numeric, tk_boolean, tk_string. rewrite E.
  rewrite (not_the' "[" _ KBracketOpen t F1 E ltac:(inlex)) by discriminate.
  rewrite (not_the' "(" _ KParenOpen t F1 E ltac:(inlex)) by discriminate. rewrite Es. reflexivity.
Qed.

(** ** Lists of terms *)

Lemma r_one lv a x : starts lv a -> PE lv a x -> PL lv a [x].
Proof.
  intros Hs H F. destruct (H F) as (N & A & _). destruct lv; try exact I.
  - exists (S N). intros n k close cl f acc rest lg own Hn Hk Hc Ht Fc. destruct k as [|k]; [lia|]. cbn [terms_loop].
    rewrite (then_reads (lvl LOr n n n) a x cl).
    + cbv beta iota. pose proof (proj2 (is_lex_the cl close) Ht) as Ec. rewrite Ec. reflexivity.
    + apply A; auto; try lia. destruct Hc as [-> | ->]; [now apply (the_stops ")")|now apply (the_stops "]")].
  - exists (S (S N)). intros n k cl f cs acc rest lg own Hn Hk Hc Fc Hcs. destruct k as [|[|k]]; [lia|lia|].
    destruct Hs as (t & r & -> & Hb). assert (Ft : fit t) by now inversion F. cbn [map app]. rewrite next_cons.
    cbn [list_loop]. rewrite (begins_not LAnd t KBracketClose) by (try assumption; try inlex; cbn; intuition discriminate).
    pose proof (proj2 (is_lex_the cl "]") Hc) as Ec.
    destruct Hcs as [->|(cm & -> & Hm & Fm)]; cbn [map app].
    + rewrite (first_reads (lvl LAnd n n n) t r x cl).
      * cbv beta iota. rewrite (the_other "]" "|" cl Hc eq_refl), (the_other "]" "," cl Hc eq_refl), Ec. reflexivity.
      * apply A; auto; try lia. now apply (the_stops "]").
    + rewrite (first_reads (lvl LAnd n n n) t r x cm).
      * cbv beta iota. rewrite (the_other "," "|" cm Hm eq_refl). pose proof (proj2 (is_lex_the cm ",") Hm) as Em. rewrite Em.
        rewrite next_cons, Ec. reflexivity.
      * apply A; auto; try lia. now apply (the_stops ",").
Qed.

Lemma r_listed lv a x c b xs : starts lv a -> PE lv a x -> the "," c -> PL lv b xs -> PL lv (a ++ c :: b) (x :: xs).
Proof.
  intros Hs H Hc Hb F. apply fit_cut in F as (Fa & Fo & Fb). destruct (H Fa) as (N1 & A & _). specialize (Hb Fb).
  destruct lv; try exact I; destruct Hb as (N2 & B).
  - exists (S (N1 + N2)). intros n k close cl f acc rest lg own Hn Hk Hcl Ht Fc. destruct k as [|k]; [lia|]. cbn [terms_loop].
    rewrite items_app. rewrite (then_reads (lvl LOr n n n) a x c).
    + cbv beta iota. assert (Ec : is_lex c close = false) by (destruct Hcl as [-> | ->]; apply (the_other ","); auto).
      rewrite Ec. pose proof (proj2 (is_lex_the c ",") Hc) as Ek. rewrite Ek. rewrite (B n k close cl f) by (auto; lia).
      now rewrite <- app_assoc.
    + apply A; auto; try lia. now apply (the_stops ",").
  - exists (S (N1 + N2)). intros n k cl f cs acc rest lg own Hn Hk Hcl Fc Hcs. destruct k as [|k]; [lia|].
    rewrite map_app, <- app_assoc. cbn [map app].
    destruct Hs as (t & r & -> & Hbg). assert (Ft : fit t) by now inversion Fa. cbn [map app]. rewrite next_cons.
    cbn [list_loop]. rewrite (begins_not LAnd t KBracketClose) by (try assumption; try inlex; cbn; intuition discriminate).
    rewrite (first_reads (lvl LAnd n n n) t r x c).
    + cbv beta iota. rewrite (the_other "," "|" c Hc eq_refl). pose proof (proj2 (is_lex_the c ",") Hc) as Ek. rewrite Ek.
      rewrite (B n k cl f cs) by (auto; lia). now rewrite <- app_assoc.
    + apply A; auto; try lia. now apply (the_stops ",").
Qed.

Lemma r_bar a x o b y : starts LAnd a -> PE LAnd a x -> the "|" o ->
  (Forall fit b -> exists N, forall n k cl f rest lg own, (N <= n)%nat -> (N <= k)%nat -> the "]" cl -> fit cl ->
    tail_loop k (lvl LAnd n n n) (mkpst (map ITok b ++ ITok cl :: ITok f :: rest) lg own) = (Ok (f, y), mkpst rest lg own)) ->
  PK (a ++ o :: b) (ALL x y).
Proof.
  intros Hs H Ho Hb F. apply fit_cut in F as (Fa & Fo & Fb). destruct (H Fa) as (N1 & A & _). destruct (Hb Fb) as (N2 & B).
  pose proof (proj2 (is_lex_the o "|") Ho) as Eo.
  exists (S (N1 + N2)). intros n k cl f rest lg own Hn Hk Hcl Fc. rewrite items_app. destruct k as [|k]; [lia|].
  assert (R : reads (lvl LAnd n n n) a x o) by (apply A; auto; try lia; now apply (the_stops "|")). split.
  - destruct Hs as (t & r & -> & Hbg). assert (Ft : fit t) by now inversion Fa. cbn [map app]. rewrite next_cons.
    cbn [list_loop]. rewrite (begins_not LAnd t KBracketClose) by (try assumption; try inlex; cbn; intuition discriminate).
    rewrite (first_reads (lvl LAnd n n n) t r x o) by exact R. cbv beta iota. rewrite Eo. unfold pbind at 1.
    rewrite (B n k cl f) by (auto; lia). reflexivity.
  - cbn [tail_loop]. rewrite (then_reads (lvl LAnd n n n) a x o) by exact R. cbv beta iota. rewrite Eo. unfold pbind at 1.
    rewrite (B n k cl f) by (auto; lia). reflexivity.
Qed.
Lemma r_end b y : PE LAnd b y -> Forall fit b -> exists N, forall n k cl f rest lg own,
  (N <= n)%nat -> (N <= k)%nat -> the "]" cl -> fit cl ->
  tail_loop k (lvl LAnd n n n) (mkpst (map ITok b ++ ITok cl :: ITok f :: rest) lg own) = (Ok (f, y), mkpst rest lg own).
Proof.
  intros H F. destruct (H F) as (N & A & _). exists (S N). intros n k cl f rest lg own Hn Hk Hcl Fc. destruct k as [|k]; [lia|].
  cbn [tail_loop]. rewrite (then_reads (lvl LAnd n n n) b y cl).
  - cbv beta iota. rewrite (the_other "]" "|" cl Hcl eq_refl). pose proof (proj2 (is_lex_the cl "]") Hcl) as Ec. rewrite Ec. reflexivity.
  - apply A; auto; try lia. now apply (the_stops "]").
Qed.

Lemma r_none o c : PG o c [] [].
Proof. intros _ _. exists O. intros n k f _ _ Hf rest lg own. cbn [map app]. rewrite next_cons. unfold group_of. now rewrite Hf. Qed.
Lemma r_some o c t a xs u : the o t -> PL LOr a xs -> the c u -> PG o c (t :: a ++ [u]) xs.
Proof.
  intros Ho H Hu F Hc. apply fit_last in F as (Ft & Fa & Fu). destruct (H Fa) as (N & A). exists N.
  intros n k f Hn Hk _ rest lg own. rewrite app_comm_cons, items_app. cbn [map app]. rewrite next_cons. unfold group_of.
  apply is_lex_the in Ho. rewrite Ho. rewrite (A n k c u f []) by auto. reflexivity.
Qed.

Definition hd_or (f : tok) (b : list tok) : tok := match b with t :: _ => t | [] => f end.
Lemma seq_reads {A C D} (p1 : tok -> P (tok * A)) (p2 : tok -> P (tok * C)) a x b y f (K : A -> tok * C -> P D) rest lg own :
  reads p1 a x (hd_or f b) -> reads p2 b y f ->
  pbind next (fun t => pbind (p1 t) (fun '(t1, z) => pbind (p2 t1) (K z))) (mkpst (map ITok (a ++ b) ++ ITok f :: rest) lg own) =
    K x (f, y) (mkpst rest lg own).
Proof.
  intros H1 H2. rewrite map_app, <- app_assoc. destruct b as [|t b]; cbn [hd_or map app] in *.
  - rewrite (then_reads p1 a x f) by exact H1. exact (then_reads p2 [] y f (K x) rest lg own H2).
  - rewrite (then_reads p1 a x t) by exact H1. exact (then_reads p2 (t :: b) y f (K x) rest lg own H2).
Qed.

Lemma r_whole g a ts b an : t_kind g = KFunctor -> PG "(" ")" a ts -> PG "[" "]" b an ->
  (b = [] \/ exists t r, b = t :: r /\ the "[" t) -> PLit (g :: a ++ b) (mkalit (t_lex g) ts an).
Proof.
  intros Hg Ha Hb Hs F. inversion F as [|? ? F1 F2]; subst. apply Forall_app in F2 as [Fa Fb].
  destruct (Ha Fa) as (N1 & A); [now left|]. destruct (Hb Fb) as (N2 & B); [now right|]. exists (N1 + N2)%nat.
  intros n k f Hn Hk Ff Hf rest lg own. cbn [map app]. rewrite next_cons. unfold literal_lv, tk_functor. rewrite Hg. cbn [negb].
  rewrite (seq_reads (group_of "(" ")" n k) (group_of "[" "]" n k) a ts b an f
     (fun ts '(tk3, an) => pret (tk3, mkalit (t_lex g) ts an))); [reflexivity| |].
  - apply A; try lia. destruct Hs as [->|(t & r & -> & Ht)]; cbn [hd_or].
    + apply (stops_is LAtom f "("); [assumption|cbn; tauto].
    + apply (the_other "["); [assumption|reflexivity].
  - apply B; try lia. apply (stops_is LAtom f "["); [assumption|cbn; tauto].
Qed.

Lemma grouped_head o c l xs : grouped o c l xs -> l = [] \/ exists t r, l = t :: r /\ the o t.
Proof. intros [| ]; [now left|right; eauto]. Qed.
Lemma literal_head l x : literal l x -> exists f r, l = f :: r /\ t_kind f = KFunctor.
Proof. intros []. eauto. Qed.

Theorem grammar_read :
  (forall lv l x, expr lv l x -> expr lv l x /\ PE lv l x) /\
  (forall l x r, chain l x r -> PC l x r) /\
  (forall lv l xs, listed lv l xs -> PL lv l xs) /\
  (forall l x, linked l x -> PK l x) /\
  (forall l x, literal l x -> literal l x /\ PLit l x) /\
  (forall o c l xs, grouped o c l xs -> grouped o c l xs /\ PG o c l xs).
Proof.
  apply grammar_ind; intros;
    repeat match goal with H : _ /\ _ |- _ => destruct H end.
  - split; [now apply e_tighter|]. apply r_tighter; [now apply (expr_starts _ _ x)|assumption].
  - split; [eapply e_infix; eassumption|]. eapply r_infix; eassumption.
  - split; [now apply e_not|]. now apply r_not.
  - split; [eapply e_chain; eassumption|]. eapply r_chain; eassumption.
  - split; [eapply e_sign; eassumption|]. eapply r_sign; eassumption.
  - split; [now apply e_power|]. apply r_power; try assumption. now apply (expr_starts _ _ x).
  - split; [now apply e_parens|]. now apply r_parens.
  - split; [now apply e_variable|]. now apply r_variable.
  - split; [now apply e_number|]. now apply r_number.
  - split; [now apply e_true|]. now apply (r_bool true).
  - split; [now apply e_false|]. now apply (r_bool false).
  - split; [now apply e_string|]. now apply r_string.
  - split; [now apply e_literal|]. apply r_literal; [|assumption|now apply (literal_head a l)].
    now apply (expr_starts _ _ (lit_ast l)), e_literal.
  - split; [now apply e_nil|]. now apply r_nil.
  - split; [now apply e_list|]. change ([c]) with ([] ++ [c]). apply r_list; auto.
  - split; [now apply e_list_comma|]. change ([k; c]) with ([k] ++ [c]). apply r_list; auto. right. now exists k.
  - split; [now apply e_linked|]. now apply r_linked.
  - eapply r_two; eassumption.
  - eapply r_more; eassumption.
  - apply r_one; [now apply (expr_starts _ _ x)|assumption].
  - apply r_listed; try assumption. now apply (expr_starts _ _ x).
  - apply r_bar; try assumption; [now apply (expr_starts _ _ x)|]. now apply r_end.
  - apply r_bar; try assumption; [now apply (expr_starts _ _ x)|].
    intros F. match goal with H : PK b y |- _ => destruct (H F) as (N & A) end. exists N. intros. now apply A.
  - split; [now apply g_literal|]. apply r_whole; try assumption. now apply (grouped_head "[" "]" b an).
  - split; [apply p_none|apply r_none].
  - split; [eapply p_some; eassumption|]. now apply r_some.
Qed.

Lemma expr_read l x : expr LOr l x -> Forall fit l -> exists N, forall n f, (N <= n)%nat -> fit f -> stops LOr f ->
  reads (parse_term n) l x f.
Proof.
  intros H F. destruct (proj1 grammar_read LOr l x H) as [_ H']. destruct (H' F) as (N & A & _). exists N.
  intros n f Hn Ff Hf. apply (A n n n f); auto.
Qed.
Lemma literal_read l x : literal l x -> Forall fit l -> exists N, forall n f, (N <= n)%nat -> fit f -> stops LAtom f ->
  reads (parse_literal n) l x f.
Proof.
  intros H F. destruct (proj1 (proj2 (proj2 (proj2 (proj2 grammar_read)))) l x H) as [_ H']. destruct (H' F) as (N & A). exists N.
  intros n f Hn Ff Hf. apply (A n n f); auto.
Qed.

(** ** Bodies *)

Scheme formula_mut := Minimality for formula Sort Prop
  with block_mut := Minimality for block Sort Prop
  with body_mut := Minimality for body Sort Prop.
Combined Scheme body_grammar_ind from formula_mut, block_mut, body_mut.

Definition statement_start (t : tok) : Prop :=
  begins LOr t \/ the "!!" t \/ the "!" t \/ the "?" t \/ the "-+" t \/ the "while" t \/ the "for" t \/ the "if" t.
Lemma formula_starts l f : formula l f -> exists t r, l = t :: r /\ statement_start t.
Proof.
  intros H. destruct H as [s ft o a t Hin Ho _|a t H _|w a c b l Hw _ _|w a c b l Hw _ _|w a c b l Hw _ _|w a c b l e b' l' Hw _ _ _ _].
  - exists o, a. split; [reflexivity|]. unfold prefixes in Hin. cbn [In] in Hin. unfold statement_start. cbn [begins]. unfold sign.
    repeat (destruct Hin as [Hin|Hin]; [injection Hin as <- <-; tauto|]). destruct Hin.
  - apply expr_starts in H as (u & r & -> & Hb). exists u, r. split; [reflexivity|now left].
  - exists w, (a ++ b). split; [reflexivity|]. unfold statement_start. tauto.
  - exists w, (a ++ b). split; [reflexivity|]. unfold statement_start. tauto.
  - exists w, (a ++ b). split; [reflexivity|]. unfold statement_start. tauto.
  - exists w, (a ++ b ++ e :: b'). split; [reflexivity|]. unfold statement_start. tauto.
Qed.
Lemma statement_not t k s : fit t -> statement_start t -> In (k, s) fixed_lexemes ->
  In k [KSemicolon; KBraceClose; KElse; KFullstop] -> is_lex t s = false.
Proof.
  intros F H Hk K. apply (not_the k s); [assumption|assumption|]. intros E.
  unfold statement_start in H. destruct H as [H|H].
  - apply begins_kind in H; [|assumption]. rewrite E in H. cbn in K, H.
    destruct K as [<-|[<-|[<-|[<-|[]]]]]; intuition discriminate.
  - assert (X : forall k' s', In (k', s') fixed_lexemes -> ~ In k' [KSemicolon; KBraceClose; KElse; KFullstop] -> ~ the s' t).
    { intros k' s' Hin Hn Ht. apply (the_kind k' s' t Hin F) in Ht. apply Hn. rewrite <- Ht, E. exact K. }
    destruct H as [H|[H|[H|[H|[H|[H|H]]]]]]; revert H.
    + apply (X KDoubleExclam); [inlex|cbn; intuition discriminate].
    + apply (X KExclam); [inlex|cbn; intuition discriminate].
    + apply (X KQuestion); [inlex|cbn; intuition discriminate].
    + apply (X KMinusPlus); [inlex|cbn; intuition discriminate].
    + apply (X KWhile); [inlex|cbn; intuition discriminate].
    + apply (X KFor); [inlex|cbn; intuition discriminate].
    + apply (X KIf); [inlex|cbn; intuition discriminate].
Qed.

Lemma step_reads {A D} (p : tok -> P (tok * A)) a x b f (K : tok * A -> P D) rest lg own : reads p a x (hd_or f b) ->
  pbind next (fun t => pbind (p t) K) (mkpst (map ITok (a ++ b) ++ ITok f :: rest) lg own) =
  pbind next (fun t => K (t, x)) (mkpst (map ITok b ++ ITok f :: rest) lg own).
Proof.
  intros H. rewrite map_app, <- app_assoc. destruct b as [|t b]; cbn [hd_or map app] in *.
  - now rewrite (then_reads p a x f) by exact H.
  - now rewrite (then_reads p a x t) by exact H.
Qed.
Lemma expect_cons s t u l lg own : the s t -> expect t s (mkpst (ITok u :: l) lg own) = (Ok u, mkpst l lg own).
Proof. intros H. unfold expect. apply is_lex_the in H. now rewrite H. Qed.
Lemma bind_eq {A C} (m : P A) (K : A -> P C) s x s' : m s = (Ok x, s') -> pbind m K s = K x s'.
Proof. intros H. unfold pbind. now rewrite H. Qed.

Definition PF (l : list tok) (x : form) : Prop := Forall fit l -> exists N, forall n f, (N <= n)%nat -> fit f -> ~ the "else" f ->
  (is_formula x = true -> stops LOr f) -> reads (parse_formula n) l x f.
Definition blocks (n k : nat) : tok -> P (tok * list form) := block_lv (fun tk => body_loop k (parse_formula n) tk []).
Definition PB (l : list tok) (x : list form) : Prop := Forall fit l -> exists N, forall n k f, (N <= n)%nat -> (N <= k)%nat ->
  reads (blocks n k) l x f.
Definition PY (l : list tok) (x : list form) : Prop := Forall fit l -> exists N, forall n k c acc rest lg own,
  (N <= n)%nat -> (N <= k)%nat -> the "}" c -> fit c ->
  pbind next (fun tk => body_loop k (parse_formula n) tk acc) (mkpst (map ITok l ++ ITok c :: rest) lg own) =
    (Ok (c, acc ++ x), mkpst rest lg own).

Lemma condition_read l x : condition_of l x -> Forall fit l -> exists N, forall n f, (N <= n)%nat -> reads (condition n) l x f.
Proof.
  intros [o a c e Ho Ha He] F. apply fit_last in F as (Fo & Fa & Fe). destruct (expr_read _ _ Ha Fa) as (N & A). exists N.
  intros n f Hn rest lg own. rewrite app_comm_cons, items_app. cbn [map app]. rewrite next_cons. unfold condition.
  assert (Es : exists t r, a = t :: r) by (apply expr_starts in Ha as (t & r & -> & _); eauto). destruct Es as (t & r & ->).
  cbn [map app]. rewrite (bind_eq _ _ _ t (mkpst (map ITok r ++ ITok e :: ITok f :: rest) lg own)) by (now apply expect_cons).
  rewrite (first_reads (parse_term n) t r c e) by (apply A; auto; now apply (the_stops ")")). cbv beta iota.
  rewrite (bind_eq _ _ _ f (mkpst rest lg own)) by (now apply expect_cons). reflexivity.
Qed.

Lemma tk_formula_complete s ft t : In (s, ft) prefixes -> the s t -> fit t -> tk_formula t = Some ft.
Proof.
  intros Hin H F. unfold prefixes in Hin. cbn [In] in Hin. unfold tk_formula.
  repeat (destruct Hin as [Hin|Hin]; [injection Hin as <- <-|]); [..|destruct Hin].
  - kind_of KDoubleExclam. now rewrite H.
  - kind_of KExclam. now rewrite H.
  - kind_of KQuestion. now rewrite H.
  - kind_of KMinusPlus. now rewrite H.
  - kind_of KPlus. now rewrite H.
  - kind_of KMinus. now rewrite H.
Qed.
Lemma prefix_other s ft t s' : In (s, ft) prefixes -> the s t -> In s' ["while"; "if"; "for"]%string -> is_lex t s' = false.
Proof.
  intros Hin H Hs. apply (the_other s); [assumption|]. unfold prefixes in Hin. cbn [In] in Hin, Hs.
  repeat (destruct Hin as [Hin|Hin]; [injection Hin as <- <-; destruct Hs as [<-|[<-|[<-|[]]]]; reflexivity|]). destruct Hin.
Qed.

Lemma r_prefix s ft o a t : In (s, ft) prefixes -> the s o -> expr LOr a t -> PF (o :: a) (FForm ft t).
Proof.
  intros Hin Ho Ha F. inversion F as [|? ? F1 F2]; subst. destruct (expr_read _ _ Ha F2) as (N & A). exists (S N).
  intros n f Hn Ff _ Hf rest lg own. destruct n as [|n]; [lia|]. cbn [map app]. rewrite next_cons. cbn [parse_formula]. cbv zeta.
  rewrite !(prefix_other s ft o) by (try assumption; cbn; tauto). rewrite (tk_formula_complete s ft o) by assumption.
  rewrite (then_reads (parse_term n) a t f); [reflexivity|]. apply A; auto; lia.
Qed.

Lemma r_term a t : expr LOr a t -> ~ signed a -> PF a (FForm FtTerm t).
Proof.
  intros Ha Hs F. destruct (expr_starts _ _ _ Ha) as (u & r & -> & Hb). assert (Fu : fit u) by now inversion F.
  destruct (expr_read _ _ Ha F) as (N & A). exists (S N).
  intros n f Hn Ff _ Hf rest lg own. destruct n as [|n]; [lia|]. cbn [map app]. rewrite next_cons. cbn [parse_formula]. cbv zeta.
  rewrite (begins_not LOr u KWhile "while") by (try assumption; try inlex; cbn; intuition discriminate).
  rewrite (begins_not LOr u KIf "if") by (try assumption; try inlex; cbn; intuition discriminate).
  rewrite (begins_not LOr u KFor "for") by (try assumption; try inlex; cbn; intuition discriminate).
  assert (Et : tk_formula u = None).
  { destruct (tk_formula u) as [ft|] eqn:E; [|reflexivity]. exfalso. apply Hs. exists u, r. split; [reflexivity|].
    apply (begins_kind LOr) in Hb; [|assumption]. unfold tk_formula in E.
    destruct (t_kind u) eqn:Ek; try discriminate; cbn in Hb; try (exfalso; intuition discriminate).
    - left. by_kind Fu Ek.
    - right. by_kind Fu Ek. }
  rewrite Et. rewrite (first_reads (parse_term n) u r t f); [reflexivity|]. apply A; auto; lia.
Qed.

Lemma block_head l x : block l x -> exists t r, l = t :: r.
Proof. intros []. eauto. Qed.
Lemma r_while (isfor : bool) w a c b l : the (if isfor then "for" else "while") w -> condition_of a c -> block b l -> PB b l ->
  PF (w :: a ++ b) (if isfor then FFor c l else FWhile c l).
Proof.
  intros Hw Hc Hb H F. inversion F as [|? ? F1 F2]; subst. apply Forall_app in F2 as [Fa Fb].
  destruct (condition_read _ _ Hc Fa) as (N1 & A). destruct (H Fb) as (N2 & B). exists (S (N1 + N2)).
  intros n f Hn Ff _ _ rest lg own. destruct n as [|n]; [lia|]. cbn [map app]. rewrite next_cons. cbn [parse_formula]. cbv zeta.
  pose proof (proj2 (is_lex_the w _) Hw) as Ew.
  destruct isfor.
  - rewrite (the_other "for" "while" w), (the_other "for" "if" w), Ew by (try assumption; reflexivity).
    rewrite (step_reads (condition n) a c b f) by (apply A; lia). cbv beta iota.
    rewrite (then_reads (blocks n n) b l f); [reflexivity|]. apply B; lia.
  - rewrite Ew. rewrite (step_reads (condition n) a c b f) by (apply A; lia). cbv beta iota.
    rewrite (then_reads (blocks n n) b l f); [reflexivity|]. apply B; lia.
Qed.
Lemma r_if w a c b l : the "if" w -> condition_of a c -> PB b l -> PF (w :: a ++ b) (FIf c l None).
Proof.
  intros Hw Hc H F. inversion F as [|? ? F1 F2]; subst. apply Forall_app in F2 as [Fa Fb].
  destruct (condition_read _ _ Hc Fa) as (N1 & A). destruct (H Fb) as (N2 & B). exists (S (N1 + N2)).
  intros n f Hn Ff Hf _ rest lg own. destruct n as [|n]; [lia|]. cbn [map app]. rewrite next_cons. cbn [parse_formula]. cbv zeta.
  pose proof (proj2 (is_lex_the w _) Hw) as Ew. rewrite (the_other "if" "while" w), Ew by (try assumption; reflexivity).
  rewrite (step_reads (condition n) a c b f) by (apply A; lia). cbv beta iota.
  rewrite (then_reads (blocks n n) b l f) by (apply B; lia). cbv beta iota. apply is_lex_false in Hf. rewrite Hf. reflexivity.
Qed.
Lemma r_if_else w a c b l e b' l' : the "if" w -> condition_of a c -> PB b l -> the "else" e -> PB b' l' ->
  PF (w :: a ++ b ++ e :: b') (FIf c l (Some l')).
Proof.
  intros Hw Hc H He H' F. inversion F as [|? ? F1 F2]; subst. apply Forall_app in F2 as [Fa F2]. apply fit_cut in F2 as (Fb & Fe & Fb').
  destruct (condition_read _ _ Hc Fa) as (N1 & A). destruct (H Fb) as (N2 & B). destruct (H' Fb') as (N3 & C). exists (S (N1 + N2 + N3)).
  intros n f Hn Ff Hf _ rest lg own. destruct n as [|n]; [lia|]. cbn [map app]. rewrite next_cons. cbn [parse_formula]. cbv zeta.
  pose proof (proj2 (is_lex_the w _) Hw) as Ew. rewrite (the_other "if" "while" w), Ew by (try assumption; reflexivity).
  rewrite (step_reads (condition n) a c (b ++ e :: b') f) by (apply A; lia). cbv beta iota.
  rewrite items_app. rewrite (then_reads (blocks n n) b l e) by (apply B; lia). cbv beta iota.
  pose proof (proj2 (is_lex_the e _) He) as Ee. rewrite Ee.
  rewrite (then_reads (blocks n n) b' l' f) by (apply C; lia). reflexivity.
Qed.

Lemma r_block o a l c : the "{" o -> PY a l -> the "}" c -> PB (o :: a ++ [c]) l.
Proof.
  intros Ho H Hc F. apply fit_last in F as (Fo & Fa & Fc). destruct (H Fa) as (N & A). exists N.
  intros n k f Hn Hk rest lg own. rewrite app_comm_cons, items_app. cbn [map app]. rewrite next_cons. unfold blocks, block_lv.
  unfold expect at 1. apply is_lex_the in Ho. rewrite Ho.
  specialize (A n k c [] (ITok f :: rest) lg own Hn Hk Hc Fc). unfold pbind at 1. unfold pbind in A.
  destruct (next (mkpst (map ITok a ++ ITok c :: ITok f :: rest) lg own)) as [[t|] s1]; [|discriminate].
  rewrite (bind_eq _ _ _ _ _ A). cbv beta iota. rewrite (bind_eq _ _ _ f (mkpst rest lg own)) by (now apply expect_cons). reflexivity.
Qed.

Lemma body_at_end k n c acc s : the "}" c -> body_loop k (parse_formula n) c acc s = (Ok (c, acc), s).
Proof. intros H. apply is_lex_the in H. destruct k; cbn [body_loop]; now rewrite H. Qed.
Lemma r_empty : PY [] [].
Proof.
  intros _. exists O. intros n k c acc rest lg own _ _ Hc _. cbn [map app]. rewrite next_cons, body_at_end by assumption.
  now rewrite app_nil_r.
Qed.
Lemma form_stops (x : form) s f : the s f -> forallb (fun s' => negb (pystr_eqb (s2p s) (s2p s'))) (extends LOr) = true ->
  is_formula x = true -> stops LOr f.
Proof. intros H He _. now apply (the_stops s). Qed.
Lemma r_last a f : formula a f -> PF a f -> PY a [f].
Proof.
  intros Hf H F. destruct (H F) as (N & A). destruct (formula_starts _ _ Hf) as (t & r & -> & Ht). assert (Ft : fit t) by now inversion F.
  exists (S N). intros n k c acc rest lg own Hn Hk Hc Fc. destruct k as [|k]; [lia|]. cbn [map app]. rewrite next_cons. cbn [body_loop].
  rewrite (statement_not t KBraceClose) by (try assumption; try inlex; cbn; tauto).
  rewrite (first_reads (parse_formula n) t r f c).
  - cbv beta iota. rewrite (the_other "}" ";" c Hc eq_refl). pose proof (proj2 (is_lex_the c _) Hc) as Ec. rewrite Ec. reflexivity.
  - apply A; auto; [lia|now apply (the_other' "}")|now apply (form_stops f "}")].
Qed.
Lemma r_next a f o b l : formula a f -> PF a f -> the ";" o -> PY b l -> PY (a ++ o :: b) (f :: l).
Proof.
  intros Hf H Ho Hb F. apply fit_cut in F as (Fa & Fo & Fb). destruct (H Fa) as (N1 & A). destruct (Hb Fb) as (N2 & B).
  destruct (formula_starts _ _ Hf) as (t & r & -> & Ht). assert (Ft : fit t) by now inversion Fa.
  exists (S (N1 + N2)). intros n k c acc rest lg own Hn Hk Hc Fc. destruct k as [|k]; [lia|]. rewrite items_app. cbn [map app].
  rewrite next_cons. cbn [body_loop]. rewrite (statement_not t KBraceClose) by (try assumption; try inlex; cbn; tauto).
  rewrite (first_reads (parse_formula n) t r f o).
  - cbv beta iota. pose proof (proj2 (is_lex_the o _) Ho) as Eo. rewrite Eo.
    specialize (B n k c (acc ++ [f]) rest lg own ltac:(lia) ltac:(lia) Hc Fc). unfold pbind in B |- *.
    destruct (next (mkpst (map ITok b ++ ITok c :: rest) lg own)) as [[u|] s1]; [|discriminate].
    rewrite <- app_assoc in B. destruct (is_lex u "}") eqn:Eu; [|exact B].
    rewrite body_at_end in B by (now apply is_lex_the). exact B.
  - apply A; auto; [lia|now apply (the_other' ";")|now apply (form_stops f ";")].
Qed.
Lemma body_starts l x : body l x -> l = [] \/ exists t r, l = t :: r /\ statement_start t.
Proof.
  intros [|a f H|a f o b k H _ _|a f b k H _ _]; [now left|right; now apply formula_starts in H| |];
    right; apply formula_starts in H as (t & r & -> & Ht); [now exists t, (r ++ o :: b)|now exists t, (r ++ b)].
Qed.
Lemma r_after a f b l : formula a f -> PF a f -> (forall ft t, f <> FForm ft t) -> body b l -> PY b l -> PY (a ++ b) (f :: l).
Proof.
  intros Hf H Hn' Hbd Hb F. apply Forall_app in F as [Fa Fb]. destruct (H Fa) as (N1 & A). destruct (Hb Fb) as (N2 & B).
  assert (Ei : is_formula f = false) by (destruct f; try reflexivity; exfalso; eapply Hn'; reflexivity).
  destruct (formula_starts _ _ Hf) as (t & r & -> & Ht). assert (Ft : fit t) by now inversion Fa.
  exists (S (N1 + N2)). intros n k c acc rest lg own Hn Hk Hc Fc. destruct k as [|k]; [lia|].
  assert (U : exists u v, map ITok b ++ ITok c :: rest = ITok u :: v /\ hd_or c b = u /\ fit u /\ is_lex u ";" = false /\ ~ the "else" u).
  { destruct (body_starts _ _ Hbd) as [->|(u & v & -> & Hu)].
    - exists c, rest. split; [reflexivity|]. split; [reflexivity|]. split; [assumption|].
      split; [now apply (the_other "}")|now apply (the_other' "}")].
    - assert (Fu : fit u) by now inversion Fb. exists u, (map ITok v ++ ITok c :: rest). split; [reflexivity|]. split; [reflexivity|].
      split; [assumption|]. split; [apply (statement_not u KSemicolon); try assumption; [inlex|cbn; tauto]|].
      apply is_lex_false. apply (statement_not u KElse); try assumption; [inlex|cbn; tauto]. }
  destruct U as (u & v & Eu & Eh & Fu & Esemi & Eelse). rewrite map_app, <- app_assoc, Eu. cbn [map app]. rewrite next_cons. cbn [body_loop].
  rewrite (statement_not t KBraceClose) by (try assumption; try inlex; cbn; tauto).
  rewrite (first_reads (parse_formula n) t r f u).
  - cbv beta iota. rewrite Esemi. specialize (B n k c (acc ++ [f]) rest lg own ltac:(lia) ltac:(lia) Hc Fc).
    rewrite Eu, next_cons, <- app_assoc in B. destruct (is_lex u "}") eqn:Eb.
    + rewrite body_at_end in B by (now apply is_lex_the). exact B.
    + rewrite Ei. exact B.
  - apply A; auto; [lia|intros X; congruence].
Qed.

Theorem body_read :
  (forall l x, formula l x -> formula l x /\ PF l x) /\
  (forall l x, block l x -> block l x /\ PB l x) /\
  (forall l x, body l x -> body l x /\ PY l x).
Proof.
  apply body_grammar_ind; intros; repeat match goal with H : _ /\ _ |- _ => destruct H end.
  - split; [eapply f_prefix; eassumption|eapply r_prefix; eassumption].
  - split; [now apply f_term|now apply r_term].
  - split; [now apply f_while|now apply (r_while false)].
  - split; [now apply f_for|now apply (r_while true)].
  - split; [now apply f_if|now apply r_if].
  - split; [now apply f_if_else|now apply r_if_else].
  - split; [now apply b_block|now apply r_block].
  - split; [apply b_none|apply r_empty].
  - split; [now apply b_last|now apply r_last].
  - split; [now apply b_next|now apply r_next].
  - split; [now apply b_after_block|now apply r_after].
Qed.

(** ** Clauses *)

Lemma formula_read l x : formula l x -> PF l x.
Proof. intros H. now apply body_read in H. Qed.

Lemma dot_else f : the "." f -> ~ the "else" f.
Proof. intros H. now apply (the_other' "."). Qed.

Lemma plan_body_starts l x : plan_body l x -> exists t r, l = t :: r /\ statement_start t.
Proof.
  intros [a f H|a f o b k H _ _|a f b k H _ _]; apply formula_starts in H as (t & r & -> & Ht);
    [now exists t, r|now exists t, (r ++ o :: b)|now exists t, (r ++ b)].
Qed.

Lemma plan_body_loops l x : plan_body l x -> Forall fit l -> exists N, forall n k c acc rest lg own,
  (N <= n)%nat -> (N <= k)%nat -> the "." c -> fit c ->
  pbind next (fun tk => plan_body_loop k n tk acc) (mkpst (map ITok l ++ ITok c :: rest) lg own) =
    (Ok (c, acc ++ x), mkpst rest lg own).
Proof.
  induction 1 as [a f Hf|a f o b l Hf Ho Hb IH|a f b l Hf Hnf Hb IH]; intros F.
  - destruct (formula_read _ _ Hf F) as (N & A). destruct (formula_starts _ _ Hf) as (t & r & -> & Ht).
    exists (S N). intros n k c acc rest lg own Hn Hk Hc Fc. destruct k as [|k]; [lia|]. cbn [map app]. rewrite next_cons.
    cbn [plan_body_loop]. rewrite (first_reads (parse_formula n) t r f c).
    + cbv beta iota. rewrite (the_other "." ";" c Hc eq_refl). pose proof (proj2 (is_lex_the c _) Hc) as Ec. rewrite Ec. reflexivity.
    + apply A; auto; [lia|now apply dot_else|now apply (form_stops f ".")].
  - apply fit_cut in F as (Fa & Fo & Fb). destruct (formula_read _ _ Hf Fa) as (N1 & A). destruct (IH Fb) as (N2 & B).
    destruct (formula_starts _ _ Hf) as (t & r & -> & Ht).
    exists (S (N1 + N2)). intros n k c acc rest lg own Hn Hk Hc Fc. destruct k as [|k]; [lia|]. rewrite items_app. cbn [map app].
    rewrite next_cons. cbn [plan_body_loop]. rewrite (first_reads (parse_formula n) t r f o).
    + cbv beta iota. pose proof (proj2 (is_lex_the o _) Ho) as Eo. rewrite Eo. rewrite B by (try assumption; lia).
      now rewrite <- app_assoc.
    + apply A; auto; [lia|now apply (the_other' ";")|now apply (form_stops f ";")].
  - apply Forall_app in F as [Fa Fb]. destruct (formula_read _ _ Hf Fa) as (N1 & A). destruct (IH Fb) as (N2 & B).
    assert (Ei : is_formula f = false) by (destruct f; try reflexivity; exfalso; eapply Hnf; reflexivity).
    destruct (formula_starts _ _ Hf) as (t & r & -> & Ht). destruct (plan_body_starts _ _ Hb) as (u & v & -> & Hu).
    assert (Fu : fit u) by now inversion Fb.
    exists (S (N1 + N2)). intros n k c acc rest lg own Hn Hk Hc Fc. destruct k as [|k]; [lia|].
    rewrite map_app, <- app_assoc. cbn [map app]. rewrite next_cons. cbn [plan_body_loop].
    rewrite (first_reads (parse_formula n) t r f u).
    + cbv beta iota. rewrite (statement_not u KSemicolon) by (try assumption; try inlex; cbn; tauto).
      rewrite (statement_not u KFullstop) by (try assumption; try inlex; cbn; tauto). rewrite Ei.
      specialize (B n k c (acc ++ [f]) rest lg own ltac:(lia) ltac:(lia) Hc Fc). cbn [map app] in B.
      rewrite next_cons, <- app_assoc in B. exact B.
    + apply A; auto; [lia| |intros X; congruence]. apply is_lex_false.
      apply (statement_not u KElse); try assumption; [inlex|cbn; tauto].
Qed.
Lemma plan_body_read l x : plan_body l x -> Forall fit l -> exists N, forall n f, (N <= n)%nat -> the "." f -> fit f ->
  reads (parse_plan_body n) l x f.
Proof.
  intros H F. destruct (plan_body_loops _ _ H F) as (N & A). exists N. intros n f Hn Hf Ff rest lg own.
  exact (A n n f [] rest lg own Hn Hn Hf Ff).
Qed.

Lemma trigger_complete s x t : In (s, x) triggers -> the s t -> fit t -> tk_trigger t = Some x.
Proof.
  intros Hin H F. unfold triggers in Hin. cbn [In] in Hin. unfold tk_trigger.
  repeat (destruct Hin as [Hin|Hin]; [injection Hin as <- <-|]); [..|destruct Hin].
  - kind_of KPlus. now rewrite H.
  - kind_of KMinus. now rewrite H.
Qed.
Lemma goal_complete s x t : In (s, x) goal_signs -> the s t -> fit t -> tk_goal t = Some x.
Proof.
  intros Hin H F. unfold goal_signs in Hin. cbn [In] in Hin. unfold tk_goal.
  repeat (destruct Hin as [Hin|Hin]; [injection Hin as <- <-|]); [..|destruct Hin].
  - kind_of KExclam. now rewrite H.
  - kind_of KQuestion. now rewrite H.
Qed.

Lemma event_read l x : event_of l x -> Forall fit l -> exists N, forall n f, (N <= n)%nat -> fit f -> stops LAtom f ->
  reads (parse_event n) l x f.
Proof.
  intros [s tr o a h Hin Ho Ha|s tr o s' gt g a h Hin Ho Hin' Hg Ha] F; inversion F as [|? ? F1 F2]; subst.
  - destruct (literal_read _ _ Ha F2) as (N & A). destruct (literal_head _ _ Ha) as (u & r & -> & Hu).
    exists N. intros n f Hn Ff Hf rest lg own. cbn [map app]. rewrite next_cons. unfold parse_event.
    rewrite (trigger_complete s tr o) by assumption. rewrite next_cons. unfold tk_goal. rewrite Hu.
    rewrite (bind_eq _ _ _ (u, GtBelief) _ eq_refl). cbv beta iota.
    rewrite (first_reads (parse_literal n) u r h f) by (now apply A). reflexivity.
  - inversion F2 as [|? ? F3 F4]; subst. destruct (literal_read _ _ Ha F4) as (N & A). destruct (literal_head _ _ Ha) as (u & r & -> & Hu).
    exists N. intros n f Hn Ff Hf rest lg own. cbn [map app]. rewrite next_cons. unfold parse_event.
    rewrite (trigger_complete s tr o) by assumption. rewrite next_cons. rewrite (goal_complete s' gt g) by assumption.
    rewrite (bind_eq (tk2 <- next ;; pret (tk2, gt))%P _ (mkpst (ITok u :: map ITok r ++ ITok f :: rest) lg own)
      (u, gt) (mkpst (map ITok r ++ ITok f :: rest) lg own) eq_refl). cbv beta iota.
    rewrite (first_reads (parse_literal n) u r h f) by (now apply A). reflexivity.
Qed.

Definition opt_part {A} (s : string) (p : tok -> P (tok * A)) (tk : tok) : P (tok * option A) :=
  (if is_lex tk s then tk1 <- next ;; '(tk2, l) <- p tk1 ;; pret (tk2, Some l) else pret (tk, None))%P.
Lemma opt_head {A} s (Q : list tok -> A -> Prop) l x : optional s Q l x -> l = [] \/ exists t r, l = t :: r /\ the s t.
Proof. intros [|t a y Ht Hy]; [now left|right; eauto]. Qed.
Lemma opt_all {A} s (Q : list tok -> A -> Prop) l x (p : nat -> tok -> P (tok * A)) (R : tok -> Prop) : optional s Q l x -> Forall fit l ->
  (forall a y, Q a y -> Forall fit a -> exists N, forall n f, (N <= n)%nat -> fit f -> R f -> reads (p n) a y f) ->
  exists N, forall n f, (N <= n)%nat -> fit f -> R f -> (l = [] -> is_lex f s = false) -> reads (opt_part s (p n)) l x f.
Proof.
  intros H F Hp. destruct H as [|t a y Ht Hy].
  - exists O. intros n f _ _ _ Hf rest lg own. cbn [map app]. rewrite next_cons. unfold opt_part. now rewrite Hf.
  - inversion F as [|? ? F1 F2]; subst. destruct (Hp a y Hy F2) as (N & X). exists N. intros n f Hn Ff Rf _ rest lg own.
    cbn [map app]. rewrite next_cons. unfold opt_part. apply is_lex_the in Ht. rewrite Ht.
    rewrite (then_reads (p n) a y f); [reflexivity|]. now apply X.
Qed.

Lemma event_head l x : event_of l x -> exists t r, l = t :: r /\ (the "+" t \/ the "-" t).
Proof.
  intros [s tr o a h Hin Ho Ha|s tr o s' gt g a h Hin Ho Hin' Hg Ha]; unfold triggers in Hin; cbn [In] in Hin;
    (exists o; eexists; split; [reflexivity|]); destruct Hin as [[= <- <-]|[[= <- <-]|[]]]; auto.
Qed.
Lemma hd_or_app f (a b : list tok) : hd_or f (a ++ b) = hd_or (hd_or f b) a.
Proof. now destruct a. Qed.

Lemma plan_read l x : plan_of l x -> Forall fit l -> exists N, forall n f, (N <= n)%nat -> the "." f -> fit f ->
  reads (parse_plan n) l x f.
Proof.
  intros [a an b e c ctx d bd Ha Hb Hc Hd] F. apply Forall_app in F as [Fa F]. apply Forall_app in F as [Fb F].
  apply Forall_app in F as [Fc Fd].
  destruct (opt_all "@" literal a an parse_literal (stops LAtom) Ha Fa) as (N1 & A); [intros; now apply literal_read|].
  destruct (event_read b e Hb Fb) as (N2 & B).
  destruct (opt_all ":" (expr LOr) c ctx parse_term (stops LOr) Hc Fc) as (N3 & C); [intros; now apply expr_read|].
  destruct (opt_all "<-" plan_body d bd parse_plan_body (the ".") Hd Fd) as (N4 & D).
  { intros u y Hu Fu. destruct (plan_body_read _ _ Hu Fu) as (N & X). exists N. intros. now apply X. }
  exists (N1 + N2 + N3 + N4)%nat. intros n f Hn Hf Ff rest lg own.
  (* the token after the context *)
  assert (Kd : fit (hd_or f d) /\ (the "." (hd_or f d) \/ the "<-" (hd_or f d))).
  { destruct (opt_head _ _ _ _ Hd) as [->|(t & r & -> & Ht)]; cbn [hd_or]; [auto|]. split; [now inversion Fd|auto]. }
  destruct Kd as [Fd' Kd].
  assert (Kc : fit (hd_or (hd_or f d) c) /\
    (the "." (hd_or (hd_or f d) c) \/ the "<-" (hd_or (hd_or f d) c) \/ the ":" (hd_or (hd_or f d) c))).
  { destruct (opt_head _ _ _ _ Hc) as [->|(t & r & -> & Ht)]; cbn [hd_or]; [tauto|]. split; [now inversion Fc|auto]. }
  destruct Kc as [Fc' Kc]. destruct (event_head _ _ Hb) as (t & r & Eb & Ht).
  unfold parse_plan.
  rewrite (step_reads (opt_part "@" (parse_literal n)) a an (b ++ c ++ d) f).
  - cbv beta iota. rewrite (step_reads (parse_event n) b e (c ++ d) f).
    + cbv beta iota. rewrite (step_reads (opt_part ":" (parse_term n)) c ctx d f).
      * cbv beta iota. rewrite (then_reads (opt_part "<-" (parse_plan_body n)) d bd f); [reflexivity|].
        apply D; auto; [lia|]. intros _. now apply (the_other ".").
      * apply C; auto; [lia| |].
        -- destruct Kd as [K|K]; [now apply (the_stops ".")|now apply (the_stops "<-")].
        -- intros _. destruct Kd as [K|K]; [now apply (the_other ".")|now apply (the_other "<-")].
    + rewrite hd_or_app. apply B; auto; [lia|].
      destruct Kc as [K|[K|K]]; [now apply (the_stops ".")|now apply (the_stops "<-")|now apply (the_stops ":")].
  - rewrite hd_or_app, Eb. cbn [hd_or]. assert (Ft : fit t) by (rewrite Eb in Fb; now inversion Fb). apply A; auto; [lia| |].
    + destruct Ht as [K|K]; [now apply (the_stops "+")|now apply (the_stops "-")].
    + intros _. destruct Ht as [K|K]; [now apply (the_other "+")|now apply (the_other "-")].
Qed.

Lemma goal_read l x : goal_of l x -> Forall fit l -> exists N, forall n f, (N <= n)%nat -> fit f -> stops LAtom f ->
  reads (parse_initial_goal n) l x f.
Proof.
  intros [o a h Ho Ha] F. inversion F as [|? ? F1 F2]; subst. destruct (literal_read _ _ Ha F2) as (N & A). exists N.
  intros n f Hn Ff Hf rest lg own. cbn [map app]. rewrite next_cons. unfold parse_initial_goal. apply is_lex_the in Ho. rewrite Ho.
  apply (A n f Hn Ff Hf).
Qed.

(** Reading a rule or a belief may log a warning. *)
Lemma clause_read l x : clause_of l x -> Forall fit l -> exists N, forall n f rest lg own, (N <= n)%nat -> the "." f -> fit f ->
  exists lg', pbind next (parse_rule_or_belief n) (mkpst (map ITok l ++ ITok f :: rest) lg own) = (Ok (f, x), mkpst rest lg' own) /\
    lg_errors lg' = lg_errors lg.
Proof.
  intros [a h Ha|a h o b c Ha Ho Hc] F.
  - destruct (literal_read _ _ Ha F) as (N & A). destruct (literal_head _ _ Ha) as (u & r & -> & Hu).
    exists N. intros n f rest lg own Hn Hf Ff. cbn [map app]. rewrite next_cons.
    set (lg' := if has_char 46 (t_lex u) then log_warning lg else lg). exists lg'. split; [|unfold lg'; now destruct (has_char 46 (t_lex u))]. unfold parse_rule_or_belief.
    rewrite (bind_eq _ _ _ tt (mkpst (map ITok r ++ ITok f :: rest) lg' own)).
    + rewrite (first_reads (parse_literal n) u r h f) by (apply A; auto; now apply (the_stops ".")). cbv beta iota.
      rewrite (the_other "." ":-" f Hf eq_refl). reflexivity.
    + unfold lg', p_warn, pret. now destruct (has_char 46 (t_lex u)).
  - apply fit_cut in F as (Fa & Fo & Fb). destruct (literal_read _ _ Ha Fa) as (N1 & A). destruct (expr_read _ _ Hc Fb) as (N2 & B).
    destruct (literal_head _ _ Ha) as (u & r & -> & Hu).
    exists (N1 + N2)%nat. intros n f rest lg own Hn Hf Ff. rewrite items_app. cbn [map app]. rewrite next_cons.
    set (lg' := if has_char 46 (t_lex u) then log_warning lg else lg). exists lg'. split; [|unfold lg'; now destruct (has_char 46 (t_lex u))]. unfold parse_rule_or_belief.
    rewrite (bind_eq _ _ _ tt (mkpst (map ITok r ++ ITok o :: map ITok b ++ ITok f :: rest) lg' own)).
    + rewrite (first_reads (parse_literal n) u r h o) by (apply A; auto; [lia|now apply (the_stops ":-")]). cbv beta iota.
      pose proof (proj2 (is_lex_the o _) Ho) as Eo. rewrite Eo.
      rewrite (then_reads (parse_term n) b c f) by (apply B; auto; [lia|now apply (the_stops ".")]). reflexivity.
    + unfold lg', p_warn, pret. now destruct (has_char 46 (t_lex u)).
Qed.
