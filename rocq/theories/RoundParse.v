(** Parsing the tokens of printed text. *)
From Verif Require Import Base Num Term Str World Ast Names Quote QuoteSpec QuoteFacts Lex LexSpec LexFacts LexCor LexTok
  Parse RoundSpec RoundLex RoundTok RoundText.

Local Notation len := List.length.

Section WithPy.
Context {PY : Py}.

Definition tw (t : tok) : word := (t_kind t, t_lex t).
Definition st (toks : list tok) (lg : log) (own : bool) : pst := mkpst (map ITok toks) lg own.

Lemma next_st t toks lg own : next (st (t :: toks) lg own) = (Ok t, st toks lg own).
Proof. reflexivity. Qed.

Lemma bind_ok {A C} (m : P A) (k : A -> P C) s x s1 : m s = (Ok x, s1) -> pbind m k s = k x s1.
Proof. intros H. unfold pbind. now rewrite H. Qed.

Lemma bind_next {C} (k : tok -> P C) t toks lg own : pbind next k (st (t :: toks) lg own) = k t (st toks lg own).
Proof. reflexivity. Qed.

Lemma tok_cons toks k w ws : map tw toks = (k, w) :: ws ->
  exists l a b toks', toks = mktok k w l a b :: toks' /\ map tw toks' = ws.
Proof.
  destruct toks as [|[k' w' l a b] toks]; [discriminate|]. cbn. unfold tw. cbn. intros E.
  injection E as -> -> E. now exists l, a, b, toks.
Qed.

Lemma tok_app toks u v : map tw toks = u ++ v ->
  exists t1 t2, toks = t1 ++ t2 /\ map tw t1 = u /\ map tw t2 = v.
Proof.
  revert toks. induction u as [|x u IH]; intros toks E; [exists [], toks; tauto|].
  destruct toks as [|t toks]; [discriminate|]. cbn in E. injection E as E1 E2.
  destruct (IH toks E2) as (t1 & t2 & -> & H1 & H2). exists (t :: t1), t2. cbn. rewrite E1, H1. tauto.
Qed.

(** ** The first token of an expression *)

Definition avoid : list string :=
  ["not"; "]"; "}"; ")"; "while"; "if"; "for"; "else"; "("; "["; "@"; ";"; ":"; "."; "<-"; "!"; "{"]%string.

Lemma functor_avoid f s : functor_name f -> In s avoid -> pystr_eqb f (s2p s) = false.
Proof.
  intros Hf Hin. destruct (pystr_eqb f (s2p s)) eqn:E; [exfalso|reflexivity]. apply pystr_eqb_eq in E. subst f.
  destruct Hf as (w & Hw & Hd & Hk). destruct (dotted_head _ Hd) as (c & v & -> & Hc).
  assert (K : forall kw, In kw keywords -> c :: v = kw -> False).
  { intros kw Hi <-. apply Hk. exists (c :: v), []. rewrite app_nil_r. tauto. }
  unfold avoid in Hin. cbn [In] in Hin. unfold keywords in K. cbn [In] in K.
  repeat (destruct Hin as [<-|Hin];
    [destruct Hw as [Hw|Hw]; cbn in Hw;
      first [discriminate
            | solve [eapply K; [|symmetry; exact Hw]; tauto]
            | injection Hw as <- <-; first [discriminate | idtac]]|]); [..|destruct Hin].
  (* "." *)
  destruct (dotted_char _ Hd [] 46%N [] eq_refl) as [A|(_ & d & t' & A & _)]; discriminate.
Qed.

Definition lead_kind (k : kind) : bool :=
  match k with KTrue | KFalse | KNumeric | KString | KVariable | KFunctor | KBracketOpen | KParenOpen => true | _ => false end.
Definition others : list string := ["not"; "]"; "}"; "while"; "if"; "for"]%string.

Lemma head_avoid w c v s : w = c :: v -> (is_upper c = true \/ is_digit c = true \/ In c [34; 40; 46; 91; 95]%N) ->
  In s others -> pystr_eqb w (s2p s) = false.
Proof.
  intros -> Hc Hin. destruct (pystr_eqb _ _) eqn:E; [exfalso|reflexivity]. apply pystr_eqb_eq in E.
  unfold others in Hin. cbn [In] in Hin.
  repeat (destruct Hin as [<-|Hin]; [cbn in E; injection E as -> _; destruct Hc as [Hc|[Hc|Hc]]; [discriminate|discriminate|];
    cbn in Hc; repeat (destruct Hc as [Hc|Hc]; [discriminate|]); destruct Hc|]). destruct Hin.
Qed.

Lemma lead t : readable t -> exists k w ws, ast_toks t = (k, w) :: ws /\ lead_kind k = true /\
  forall s, In s others -> pystr_eqb w (s2p s) = false.
Proof.
  destruct t as [b|x|s|v|f ts an|ts|h t|op b|op l r]; cbn [readable ast_toks]; intros H;
    eexists _, _, _; (split; [reflexivity|]).
  - destruct b; (split; [reflexivity|]); intros s Hin; unfold others in Hin; cbn [In] in Hin;
      repeat (destruct Hin as [<-|Hin]; [reflexivity|]); destruct Hin.
  - split; [reflexivity|]. intros s Hin. destruct H as (m & e & E & Hm & He & _). rewrite E.
    destruct (numeric_head (m ++ e)) as (c & t & Ec & Hc); [exists m, e; tauto|].
    eapply head_avoid; [exact Ec| |exact Hin]. destruct Hc as [Hc|(-> & _)]; [tauto|cbn; tauto].
  - split; [reflexivity|]. intros s' Hin. eapply head_avoid; [reflexivity| |exact Hin]. cbn. tauto.
  - split; [reflexivity|]. intros s' Hin. destruct (variable_head _ H) as (c & t & E & Hc).
    eapply head_avoid; [exact E| |exact Hin]. destruct Hc as [Hc| ->]; [tauto|cbn; tauto].
  - split; [reflexivity|]. intros s' Hin. destruct H as (H & _). apply functor_avoid; [assumption|].
    unfold others in Hin. unfold avoid. cbn [In] in *. tauto.
  - split; [reflexivity|]. intros s' Hin. eapply head_avoid; [reflexivity| |exact Hin]. cbn. tauto.
  - split; [reflexivity|]. intros s' Hin. eapply head_avoid; [reflexivity| |exact Hin]. cbn. tauto.
  - split; [reflexivity|]. intros s' Hin. eapply head_avoid; [reflexivity| |exact Hin]. cbn. tauto.
  - split; [reflexivity|]. intros s' Hin. eapply head_avoid; [reflexivity| |exact Hin]. cbn. tauto.
Qed.

(** A token that can begin an expression. *)
Definition leads (tk : tok) : Prop :=
  lead_kind (t_kind tk) = true /\ forall s, In s others -> is_lex tk s = false.

Lemma leads_of t tk toks : readable t -> map tw (tk :: toks) = ast_toks t -> leads tk.
Proof.
  intros H E. destruct (lead t H) as (k & w & ws & E' & H1 & H2). rewrite E' in E. cbn in E. injection E as E1 E2 _.
  split; [now rewrite E1|]. intros s Hs. unfold is_lex. rewrite E2. now apply H2.
Qed.

Lemma leads_unary tk : leads tk -> tk_unary tk = None.
Proof. intros [H _]. unfold tk_unary. destruct (t_kind tk); try reflexivity; discriminate. Qed.
Lemma leads_formula tk : leads tk -> tk_formula tk = None.
Proof. intros [H _]. unfold tk_formula. destruct (t_kind tk); try reflexivity; discriminate. Qed.
Lemma leads_not tk : leads tk -> is_lex tk "not" = false.
Proof. intros [_ H]. apply H. cbn. tauto. Qed.

(** ** The levels *)

(** The token after an expression: no operator that binds at the level or
    tighter, and no bracket that could continue a literal. *)
Definition no_call (nx : tok) : Prop := is_lex nx "(" = false /\ is_lex nx "[" = false.
Definition no_num (nx : tok) : Prop := no_call nx /\ is_lex nx "**" = false /\ tk_mult nx = None /\ tk_add nx = None.
Definition no_op (nx : tok) : Prop := no_num nx /\ tk_comp nx = None /\ is_lex nx "&" = false.
Definition no_or (nx : tok) : Prop := no_op nx /\ is_lex nx "|" = false.

Lemma binloop_done k sel operand tk e s : sel tk = None -> binloop k sel operand tk e s = (Ok (tk, e), s).
Proof. intros H. destruct k; cbn [binloop]; now rewrite H. Qed.

Lemma binloop_once k sel operand tk op e tk1 tk2 rt toks lg own s2 :
  sel tk = Some op -> operand tk1 (st toks lg own) = (Ok (tk2, rt), s2) -> sel tk2 = None ->
  binloop (S k) sel operand tk e (st (tk1 :: toks) lg own) = (Ok (tk2, ABin op e rt), s2).
Proof.
  intros H1 H2 H3. cbn [binloop]. rewrite H1, bind_next. rewrite (bind_ok _ _ _ _ _ H2). now apply binloop_done.
Qed.

Lemma comp_done j operand tk e s : tk_comp tk = None -> comp_loop j operand tk None e s = (Ok (tk, e), s).
Proof. intros H. destruct j; cbn [comp_loop]; now rewrite H. Qed.

Lemma comp_once k operand tk op e tk1 tk2 rt toks lg own s2 :
  tk_comp tk = Some op -> operand tk1 (st toks lg own) = (Ok (tk2, rt), s2) -> tk_comp tk2 = None ->
  comp_loop (S k) operand tk None e (st (tk1 :: toks) lg own) = (Ok (tk2, ABin op e rt), s2).
Proof.
  intros H1 H2 H3. cbn [comp_loop]. rewrite H1, bind_next. rewrite (bind_ok _ _ _ _ _ H2). cbv zeta.
  destruct k; cbn [comp_loop]; now rewrite H3.
Qed.

Section At.
Variable atom : tok -> P (tok * ast).

Lemma up_power k tk s nx e s' : tk_unary tk = None -> atom tk s = (Ok (nx, e), s') -> is_lex nx "**" = false ->
  factor_lv atom (S k) tk s = (Ok (nx, e), s').
Proof.
  intros H1 H2 H3. cbn [factor_lv]. rewrite H1, (bind_ok _ _ _ _ _ H2). apply binloop_done. unfold when. now rewrite H3.
Qed.
Lemma up_product k tk s nx e s' : factor_lv atom k tk s = (Ok (nx, e), s') -> tk_mult nx = None ->
  product_lv atom k tk s = (Ok (nx, e), s').
Proof. intros H1 H2. unfold product_lv. rewrite (bind_ok _ _ _ _ _ H1). now apply binloop_done. Qed.
Lemma up_arith k tk s nx e s' : product_lv atom k tk s = (Ok (nx, e), s') -> tk_add nx = None ->
  arith_lv atom k tk s = (Ok (nx, e), s').
Proof. intros H1 H2. unfold arith_lv. rewrite (bind_ok _ _ _ _ _ H1). now apply binloop_done. Qed.
Lemma up_comp k tk s nx e s' : arith_lv atom k tk s = (Ok (nx, e), s') -> tk_comp nx = None ->
  comparison_lv atom k tk s = (Ok (nx, e), s').
Proof. intros H1 H2. unfold comparison_lv. rewrite (bind_ok _ _ _ _ _ H1). now apply comp_done. Qed.
Lemma up_not k tk s : is_lex tk "not" = false -> not_lv atom k tk s = comparison_lv atom k tk s.
Proof. intros H. unfold not_lv. destruct k; cbn [not_loop]; now rewrite H. Qed.
Lemma up_and k tk s nx e s' : not_lv atom k tk s = (Ok (nx, e), s') -> is_lex nx "&" = false ->
  and_lv atom k tk s = (Ok (nx, e), s').
Proof. intros H1 H2. unfold and_lv. rewrite (bind_ok _ _ _ _ _ H1). apply binloop_done. unfold when. now rewrite H2. Qed.
Lemma up_or k tk s nx e s' : and_lv atom k tk s = (Ok (nx, e), s') -> is_lex nx "|" = false ->
  term_lv atom k tk s = (Ok (nx, e), s').
Proof. intros H1 H2. unfold term_lv. rewrite (bind_ok _ _ _ _ _ H1). apply binloop_done. unfold when. now rewrite H2. Qed.

(** An atom is an expression of every level. *)
Lemma at_factor k tk s nx e s' : leads tk -> atom tk s = (Ok (nx, e), s') -> is_lex nx "**" = false ->
  factor_lv atom (S k) tk s = (Ok (nx, e), s').
Proof. intros H. apply up_power. now apply leads_unary. Qed.
Lemma at_product k tk s nx e s' : leads tk -> atom tk s = (Ok (nx, e), s') -> is_lex nx "**" = false -> tk_mult nx = None ->
  product_lv atom (S k) tk s = (Ok (nx, e), s').
Proof. intros. apply up_product; [|assumption]. now apply at_factor. Qed.
Lemma at_arith k tk s nx e s' : leads tk -> atom tk s = (Ok (nx, e), s') -> no_num nx ->
  arith_lv atom (S k) tk s = (Ok (nx, e), s').
Proof. intros ? ? (_ & ? & ? & ?). apply up_arith; [|assumption]. now apply at_product. Qed.
Lemma at_not k tk s nx e s' : leads tk -> atom tk s = (Ok (nx, e), s') -> no_num nx -> tk_comp nx = None ->
  not_lv atom (S k) tk s = (Ok (nx, e), s').
Proof. intros. rewrite up_not by now apply leads_not. apply up_comp; [|assumption]. now apply at_arith. Qed.
Lemma at_and k tk s nx e s' : leads tk -> atom tk s = (Ok (nx, e), s') -> no_op nx ->
  and_lv atom (S k) tk s = (Ok (nx, e), s').
Proof. intros ? ? (? & ? & ?). apply up_and; [|assumption]. now apply at_not. Qed.
Lemma at_term k tk s nx e s' : leads tk -> atom tk s = (Ok (nx, e), s') -> no_or nx ->
  term_lv atom (S k) tk s = (Ok (nx, e), s').
Proof. intros ? ? (? & ?). apply up_or; [|assumption]. now apply at_and. Qed.
End At.

(** ** Expressions *)

Definition reads_as (atom : tok -> P (tok * ast)) (t : ast) : Prop :=
  forall tk toks nx rest lg own, map tw (tk :: toks) = ast_toks t -> no_call nx ->
    atom tk (st (toks ++ nx :: rest) lg own) = (Ok (nx, t), st rest lg own).

Lemma toks_cons t toks : readable t -> map tw toks = ast_toks t -> exists tk toks', toks = tk :: toks' /\ leads tk.
Proof.
  intros H E. destruct (lead t H) as (k & w & ws & E' & _). destruct toks as [|tk toks']; [rewrite E' in E; discriminate|].
  exists tk, toks'. split; [reflexivity|]. eapply leads_of; eassumption.
Qed.

Lemma inner_un atom k op a tk toks cl rest lg own : readable a -> reads_as atom a ->
  map tw (tk :: toks) = unop_word op :: ast_toks a -> no_or cl ->
  term_lv atom (S (S k)) tk (st (toks ++ cl :: rest) lg own) = (Ok (cl, AUn op a), st rest lg own).
Proof.
  intros Hr Ha E Hcl. cbn [map] in E. injection E as Eop Ea.
  destruct (toks_cons a toks Hr Ea) as (t1 & toks' & -> & Hl). cbn [app].
  pose proof (Ha t1 toks' cl rest lg own Ea) as At.
  pose proof Hcl as (((Hc & H1 & H2 & H3) & H4 & H5) & H6). specialize (At Hc).
  assert (Num : forall n, tk_unary tk = Some n -> is_lex tk "not" = false ->
    term_lv atom (S (S k)) tk (st (t1 :: toks' ++ cl :: rest) lg own) = (Ok (cl, AUn n a), st rest lg own)).
  { intros n Hu Hn. apply up_or; [|assumption]. apply up_and; [|assumption]. rewrite up_not by assumption.
    apply up_comp; [|assumption]. apply up_arith; [|assumption]. apply up_product; [|assumption].
    remember (S k) as k1 eqn:Ek. cbn [factor_lv]. rewrite Hu, bind_next. subst k1.
    rewrite (bind_ok _ _ _ _ _ (at_factor atom k t1 _ _ _ _ Hl At H1)). reflexivity. }
  destruct tk as [kk w l x y]. unfold tw in Eop. cbn in Eop.
  destruct op; cbn in Eop; injection Eop as -> ->.
  - (* not *)
    apply up_or; [|assumption]. apply up_and; [|assumption]. unfold not_lv. remember (S k) as k1 eqn:Ek. cbn [not_loop].
    match goal with |- context [is_lex ?t "not"] => change (is_lex t "not") with true end. cbv iota. rewrite bind_next.
    assert (E : not_loop atom k1 (S k1) t1 (st (toks' ++ cl :: rest) lg own) = (Ok (cl, a), st rest lg own)).
    { pose proof (at_not atom k1 t1 _ _ _ _ Hl At (proj1 (proj1 Hcl)) H4) as X. rewrite up_not in X by now apply leads_not.
      destruct k1; cbn [not_loop]; (rewrite (leads_not _ Hl)); exact X. }
    rewrite (bind_ok _ _ _ _ _ E). reflexivity.
  - apply Num; reflexivity.
  - apply Num; reflexivity.
Qed.

Lemma inner_bin atom k op a b tk toks cl rest lg own : readable a -> readable b -> reads_as atom a -> reads_as atom b ->
  map tw (tk :: toks) = ast_toks a ++ binop_word op :: ast_toks b -> no_or cl ->
  term_lv atom (S (S k)) tk (st (toks ++ cl :: rest) lg own) = (Ok (cl, ABin op a b), st rest lg own).
Proof.
  intros Hra Hrb Ha Hb E Hcl. apply tok_app in E as (ta & tob & Et & Ea & Eob).
  destruct (toks_cons a ta Hra Ea) as (t1 & ta' & -> & Hl1). injection Et as <- ->.
  destruct tob as [|opt tb]; [discriminate|]. cbn [map] in Eob. injection Eob as Eop Eb.
  destruct (toks_cons b tb Hrb Eb) as (t2 & tb' & -> & Hl2).
  pose proof Hcl as (((Hc & H1 & H2 & H3) & H4 & H5) & H6).
  pose proof (Hb t2 tb' cl rest lg own Eb Hc) as Bt.
  assert (No : no_call opt).
  { destruct opt as [kk w l x y]. unfold tw in Eop. cbn in Eop. destruct op as [[]| | |[]| | | |]; cbn in Eop; injection Eop as -> ->; split; reflexivity. }
  pose proof (Ha tk ta' opt (t2 :: tb' ++ cl :: rest) lg own Ea No) as At.
  rewrite <- app_assoc. cbn [app].
  destruct opt as [kk w l x y]. unfold tw in Eop. cbn in Eop.
  destruct op as [o| | |c| | | |].
  - apply up_or; [|assumption]. apply up_and; [|assumption]. rewrite up_not by now apply leads_not.
    apply up_comp; [|assumption].
    assert (Mul : forall f, tk_mult (mktok kk w l x y) = Some f -> is_lex (mktok kk w l x y) "**" = false ->
      arith_lv atom (S (S k)) tk (st (ta' ++ mktok kk w l x y :: t2 :: tb' ++ cl :: rest) lg own) = (Ok (cl, ABin f a b), st rest lg own)).
    { intros f Hf Hp. apply up_arith; [|assumption]. unfold product_lv.
      rewrite (bind_ok _ _ _ _ _ (at_factor atom (S k) tk _ _ _ _ Hl1 At Hp)).
      eapply binloop_once; [exact Hf|now apply at_factor|assumption]. }
    assert (Add : forall f, tk_add (mktok kk w l x y) = Some f -> is_lex (mktok kk w l x y) "**" = false -> tk_mult (mktok kk w l x y) = None ->
      arith_lv atom (S (S k)) tk (st (ta' ++ mktok kk w l x y :: t2 :: tb' ++ cl :: rest) lg own) = (Ok (cl, ABin f a b), st rest lg own)).
    { intros f Hf Hp Hm. unfold arith_lv.
      rewrite (bind_ok _ _ _ _ _ (at_product atom (S k) tk _ _ _ _ Hl1 At Hp Hm)).
      eapply binloop_once; [exact Hf|now apply at_product|assumption]. }
    destruct o; cbn in Eop; injection Eop as -> ->;
      try (apply Mul; reflexivity); try (apply Add; reflexivity).
    apply up_arith; [|assumption]. apply up_product; [|assumption].
    remember (S k) as k1 eqn:Ek. cbn [factor_lv]. rewrite (leads_unary _ Hl1), (bind_ok _ _ _ _ _ At). subst k1.
    eapply binloop_once; [reflexivity|now apply at_factor|]. unfold when. now rewrite H1.
  - cbn in Eop. injection Eop as -> ->. apply up_or; [|assumption]. apply up_and; [|assumption]. rewrite up_not by now apply leads_not.
    unfold comparison_lv. erewrite bind_ok by (apply (at_arith atom (S k)); [assumption|exact At|repeat split; reflexivity]).
    eapply comp_once; [reflexivity|apply at_arith; [assumption|exact Bt|exact (proj1 (proj1 Hcl))]|assumption].
  - cbn in Eop. injection Eop as -> ->. apply up_or; [|assumption]. apply up_and; [|assumption]. rewrite up_not by now apply leads_not.
    unfold comparison_lv. erewrite bind_ok by (apply (at_arith atom (S k)); [assumption|exact At|repeat split; reflexivity]).
    eapply comp_once; [reflexivity|apply at_arith; [assumption|exact Bt|exact (proj1 (proj1 Hcl))]|assumption].
  - destruct c; cbn in Eop; injection Eop as -> ->; (apply up_or; [|assumption]; apply up_and; [|assumption]; rewrite up_not by (now apply leads_not);
    unfold comparison_lv; erewrite bind_ok by (apply (at_arith atom (S k)); [assumption|exact At|repeat split; reflexivity]);
    eapply comp_once; [reflexivity|apply at_arith; [assumption|exact Bt|exact (proj1 (proj1 Hcl))]|assumption]).
  - cbn in Eop. injection Eop as -> ->. apply up_or; [|assumption]. apply up_and; [|assumption]. rewrite up_not by now apply leads_not.
    unfold comparison_lv. erewrite bind_ok by (apply (at_arith atom (S k)); [assumption|exact At|repeat split; reflexivity]).
    eapply comp_once; [reflexivity|apply at_arith; [assumption|exact Bt|exact (proj1 (proj1 Hcl))]|assumption].
  - cbn in Eop. injection Eop as -> ->. apply up_or; [|assumption]. apply up_and; [|assumption]. rewrite up_not by now apply leads_not.
    unfold comparison_lv. erewrite bind_ok by (apply (at_arith atom (S k)); [assumption|exact At|repeat split; reflexivity]).
    eapply comp_once; [reflexivity|apply at_arith; [assumption|exact Bt|exact (proj1 (proj1 Hcl))]|assumption].
  - cbn in Eop. injection Eop as -> ->. apply up_or; [|assumption].
    unfold and_lv. erewrite bind_ok by (apply (at_not atom (S k)); [assumption|exact At|repeat split; reflexivity|reflexivity]).
    eapply binloop_once; [reflexivity|apply at_not; [assumption|exact Bt|exact (proj1 (proj1 Hcl))|assumption]|].
    unfold when. now rewrite H5.
  - cbn in Eop. injection Eop as -> ->.
    unfold term_lv. erewrite bind_ok by (apply (at_and atom (S k)); [assumption|exact At|repeat split; reflexivity]).
    eapply binloop_once; [reflexivity|apply at_and; [assumption|exact Bt|exact (proj1 Hcl)]|].
    unfold when. now rewrite H6.
Qed.

Definition term_ok (term : tok -> P (tok * ast)) (cond : tok -> Prop) (t : ast) : Prop :=
  forall tk toks nx rest lg own, map tw (tk :: toks) = ast_toks t -> cond nx ->
    term tk (st (toks ++ nx :: rest) lg own) = (Ok (nx, t), st rest lg own).

Lemma atom_term atom k t : readable t -> reads_as atom t -> term_ok (term_lv atom (S k)) no_or t.
Proof.
  intros Hr Ha tk toks nx rest lg own E Hn. apply at_term; [eapply leads_of; eassumption| |assumption].
  apply Ha; [assumption|]. apply Hn.
Qed.
Lemma atom_and atom k t : readable t -> reads_as atom t -> term_ok (and_lv atom (S k)) no_op t.
Proof.
  intros Hr Ha tk toks nx rest lg own E Hn. apply at_and; [eapply leads_of; eassumption| |assumption].
  apply Ha; [assumption|]. apply Hn.
Qed.

Lemma comma_no_or l a b : no_or (mktok KComma (s2p ",") l a b).
Proof. repeat split; reflexivity. Qed.

Lemma commas_cons2 x y l : commas (x :: y :: l) = x ++ wd KComma "," :: commas (y :: l).
Proof. reflexivity. Qed.

Lemma terms_loop_ok close term ts : pystr_eqb (s2p ",") (s2p close) = false ->
  Forall readable ts -> Forall (term_ok term no_or) ts -> ts <> [] ->
  forall k acc toks cl nx rest lg own, (len ts <= k)%nat -> map tw toks = commas (map ast_toks ts) ->
    is_lex cl close = true -> no_or cl ->
    terms_loop k close term acc (st (toks ++ cl :: nx :: rest) lg own) = (Ok (nx, acc ++ ts), st rest lg own).
Proof.
  intros Hcomma Hr Ht. revert Hr. induction Ht as [|t ts Ht Hts IH]; intros Hr Hn k acc toks cl nx rest lg own Hk E Hcl Hno; [congruence|].
  inversion Hr as [|? ? Hr1 Hr2]; subst. cbn in Hk. destruct k as [|k]; [lia|]. cbn [terms_loop].
  destruct ts as [|u ts].
  - cbn [map] in E. unfold commas in E. cbn [joinw] in E.
    destruct (toks_cons t toks Hr1 E) as (t1 & toks' & -> & _). cbn [app]. rewrite bind_next.
    rewrite (bind_ok _ _ _ _ _ (Ht t1 toks' cl (nx :: rest) lg own E Hno)). cbv zeta. rewrite Hcl, bind_next. reflexivity.
  - cbn [map] in E. rewrite commas_cons2 in E. apply tok_app in E as (tt & tr & -> & Et & E).
    apply tok_cons in E as (l & a & b & tr' & -> & E).
    destruct (toks_cons t tt Hr1 Et) as (t1 & toks' & -> & _). rewrite <- app_assoc. cbn [app]. rewrite bind_next.
    rewrite (bind_ok _ _ _ _ _ (Ht t1 toks' _ (tr' ++ cl :: nx :: rest) lg own Et (comma_no_or l a b))). cbv zeta.
    unfold is_lex at 1. cbn [t_lex]. rewrite Hcomma.
    match goal with |- context [is_lex ?t ","] => change (is_lex t ",") with true end. cbv iota.
    rewrite IH; [|assumption|discriminate|cbn in *; lia|assumption|assumption|assumption]. now rewrite <- app_assoc.
Qed.

Lemma paren_no_or l a b : no_or (mktok KParenClose (s2p ")") l a b).
Proof. repeat split; reflexivity. Qed.
Lemma bracket_no_or l a b : no_or (mktok KBracketClose (s2p "]") l a b).
Proof. repeat split; reflexivity. Qed.

Lemma literal_ok term k f ts an : Forall readable ts -> Forall readable an ->
  Forall (term_ok term no_or) ts -> Forall (term_ok term no_or) an -> (len ts <= k)%nat -> (len an <= k)%nat ->
  forall tk toks nx rest lg own, map tw (tk :: toks) = ast_toks (ALit f ts an) -> no_call nx ->
    literal_lv term k tk (st (toks ++ nx :: rest) lg own) = (Ok (nx, mkalit f ts an), st rest lg own).
Proof.
  intros R1 R2 T1 T2 K1 K2 tk toks nx rest lg own E [N1 N2]. cbn [ast_toks map] in E.
  destruct tk as [k0 w0 l0 a0 b0]. injection E as -> -> E.
  unfold literal_lv. change (tk_functor (mktok KFunctor f l0 a0 b0)) with true. cbn [negb t_lex].
  apply tok_app in E as (u & v & -> & E1 & E2). rewrite <- app_assoc.
  assert (An : forall t0 more, v ++ nx :: rest = t0 :: more ->
    (tk3an <- (if is_lex t0 "[" then terms_loop k "]" term [] else pret (t0, [])) ;;
     let '(tk3, an0) := tk3an in pret (tk3, mkalit f ts an0))%P (st more lg own) = (Ok (nx, mkalit f ts an), st rest lg own)).
  { intros t0 more Em. destruct an as [|y an].
    - destruct v; [|discriminate]. cbn in Em. injection Em as <- <-. rewrite N2. reflexivity.
    - apply tok_cons in E2 as (l & a & b & v' & -> & E2). cbn [app] in Em. injection Em as <- <-.
      match goal with |- context [is_lex ?t "["] => change (is_lex t "[") with true end. cbv iota.
      apply tok_app in E2 as (v1 & v2 & -> & E3 & E4). apply tok_cons in E4 as (l' & a' & b' & v3 & -> & E4).
      destruct v3; [|discriminate]. rewrite <- app_assoc. cbn [app].
      rewrite (bind_ok _ _ _ _ _ (terms_loop_ok "]" term (y :: an) eq_refl R2 T2 ltac:(discriminate) k [] v1 (mktok KBracketClose (s2p "]") l' a' b') nx rest lg own K2 E3
        eq_refl (bracket_no_or l' a' b'))). reflexivity. }
  destruct ts as [|y ts].
  - destruct u; [|discriminate]. cbn [app].
    destruct (v ++ nx :: rest) as [|t0 more] eqn:Ev; [destruct v; discriminate|]. rewrite bind_next.
    assert (Hp : is_lex t0 "(" = false).
    { destruct an as [|z an].
      - destruct v; [|discriminate]. cbn in Ev. injection Ev as <- _. exact N1.
      - apply tok_cons in E2 as (l & a & b & v' & -> & E2). injection Ev as <- _. reflexivity. }
    rewrite Hp. unfold pbind at 1, pret at 1. now apply An.
  - apply tok_cons in E1 as (l & a & b & u' & -> & E1). cbn [app]. rewrite bind_next.
    match goal with |- context [is_lex ?t "("] => change (is_lex t "(") with true end. cbv iota.
    apply tok_app in E1 as (v1 & v2 & -> & E3 & E4). apply tok_cons in E4 as (l' & a' & b' & v3 & -> & E4).
    destruct v3; [|discriminate]. rewrite <- app_assoc. cbn [app].
    destruct (v ++ nx :: rest) as [|t0 more] eqn:Ev; [destruct v; discriminate|].
    rewrite (bind_ok _ _ _ _ _ (terms_loop_ok ")" term (y :: ts) eq_refl R1 T1 ltac:(discriminate) k [] v1 (mktok KParenClose (s2p ")") l' a' b') t0 more lg own K1 E3
      eq_refl (paren_no_or l' a' b'))).
    cbn [app]. now apply An.
Qed.

Lemma list_loop_ok and_ ts : Forall readable ts -> Forall (term_ok and_ no_op) ts -> ts <> [] ->
  forall k acc tk toks cl nx rest lg own, (len ts <= k)%nat -> map tw (tk :: toks) = commas (map ast_toks ts) ->
    tw cl = wd KBracketClose "]" ->
    list_loop k and_ tk acc (st (toks ++ cl :: nx :: rest) lg own) = (Ok (nx, AList (acc ++ ts)), st rest lg own).
Proof.
  intros Hr Ht. revert Hr. induction Ht as [|t ts Ht Hts IH]; intros Hr Hn k acc tk toks cl nx rest lg own Hk E Hcl; [congruence|].
  inversion Hr as [|? ? Hr1 Hr2]; subst. cbn in Hk. destruct k as [|k]; [lia|].
  destruct cl as [kc wc lc ac bc]. unfold tw in Hcl. cbn [t_kind t_lex] in Hcl. injection Hcl as -> ->.
  destruct ts as [|u ts].
  - cbn [map] in E. unfold commas in E. cbn [joinw] in E. cbn [list_loop].
    pose proof (leads_of t tk toks Hr1 E) as [_ Hl]. rewrite Hl by (cbn; tauto).
    rewrite (bind_ok _ _ _ _ _ (Ht tk toks _ (nx :: rest) lg own E (proj1 (bracket_no_or lc ac bc)))).
    repeat match goal with |- context [is_lex ?t ?s] =>
      first [change (is_lex t s) with true | change (is_lex t s) with false]; cbv iota end.
    destruct k; cbn [list_loop]; change (is_lex (mktok KBracketClose (s2p "]") lc ac bc) "]") with true; cbv iota; reflexivity.
  - cbn [map] in E. rewrite commas_cons2 in E.
    change (map tw (tk :: toks) = ast_toks t ++ wd KComma "," :: commas (map ast_toks (u :: ts))) in E.
    apply tok_app in E as (tt & tr & Etk & Et & E).
    apply tok_cons in E as (l & a & b & tr' & -> & E).
    destruct (toks_cons t tt Hr1 Et) as (t1 & tt' & -> & Hl). injection Etk as <- ->. cbn [list_loop].
    rewrite (proj2 Hl) by (cbn; tauto). rewrite <- app_assoc. cbn [app].
    rewrite (bind_ok _ _ _ _ _ (Ht tk tt' _ (tr' ++ _ :: nx :: rest) lg own Et (proj1 (comma_no_or l a b)))).
    repeat match goal with |- context [is_lex ?t ?s] =>
      first [change (is_lex t s) with true | change (is_lex t s) with false]; cbv iota end.
    inversion Hr2 as [|? ? Hu _]; subst.
    assert (exists t2 tr2, tr' = t2 :: tr2) as (t2 & tr2 & ->).
    { destruct tr' as [|t2 tr2]; [|now exists t2, tr2]. exfalso.
      destruct (lead u Hu) as (ku & wu & wsu & Eu & _). cbn [map] in E. destruct ts; [unfold commas in E; cbn [map joinw] in E; rewrite Eu in E; discriminate|].
      cbn [map] in E. rewrite commas_cons2, Eu in E. discriminate. }
    cbn [app]. rewrite bind_next.
    rewrite IH; [|assumption|discriminate|cbn in *; lia|assumption|reflexivity]. now rewrite <- app_assoc.
Qed.

Fixpoint asize (t : ast) : nat :=
  match t with
  | ALit _ ts an => 3 + list_sum (map asize ts) + list_sum (map asize an)
  | AList ts => 3 + list_sum (map asize ts)
  | ALL h t => 3 + asize h + asize t
  | AUn _ a => 3 + asize a
  | ABin _ l r => 3 + asize l + asize r
  | _ => 1
  end%nat.

Lemma asize_pos t : (1 <= asize t)%nat.
Proof. destruct t; cbn; lia. Qed.

Lemma asize_len ts : (len ts <= list_sum (map asize ts))%nat.
Proof. induction ts as [|t ts IH]; [reflexivity|]. cbn. pose proof (asize_pos t). unfold list_sum in *. lia. Qed.

Lemma asize_in ts t : In t ts -> (asize t <= list_sum (map asize ts))%nat.
Proof.
  induction ts as [|u ts IH]; [intros []|]. intros [<-|H]; cbn; unfold list_sum in *; [lia|]. specialize (IH H). lia.
Qed.

Ltac lexes := repeat match goal with |- context [is_lex ?t ?s] =>
      first [change (is_lex t s) with true | change (is_lex t s) with false]; cbv iota end.

Ltac kinds := repeat (match goal with
      | |- context [tk_variable ?z] => first [change (tk_variable z) with true | change (tk_variable z) with false]
      | |- context [tk_functor ?z] => first [change (tk_functor z) with true | change (tk_functor z) with false]
      end; cbv iota).

Lemma parse_atom_S n tk : parse_atom (S n) tk =
  let term := term_lv (parse_atom n) n in
  let and_ := and_lv (parse_atom n) n in
  if tk_variable tk then (tk1 <- next ;; pret (tk1, AVar (t_lex tk)))%P
  else if tk_functor tk then
    ('(tk1, l) <- literal_lv term n tk ;; pret (tk1, lit_ast l))%P
  else if is_lex tk "[" then (tk1 <- next ;; list_loop n and_ tk1 [])%P
  else if is_lex tk "(" then
    (tk1 <- next ;;
     '(tk2, t) <- term tk1 ;;
     if is_lex tk2 ")" then (tk3 <- next ;; pret (tk3, t)) else p_raise)%P
  else if tk_numeric tk then (tk1 <- next ;; pret (tk1, ANum (NFlt (float_lit (t_lex tk)))))%P
  else
    match tk_boolean tk with
    | Some b => (tk1 <- next ;; pret (tk1, ABool b))%P
    | None =>
        if tk_string tk then
          match parse_string (t_lex tk) with
          | Ok s => (tk1 <- next ;; pret (tk1, AStr s))%P
          | Err e => pfail e
          end
        else p_raise
    end.
Proof. reflexivity. Qed.

Lemma head_lex c v d l a b k s : s2p s = [d] -> c <> d -> is_lex (mktok k (c :: v) l a b) s = false.
Proof.
  intros E H. unfold is_lex. cbn [t_lex]. rewrite E. cbn. destruct (N.eqb_spec c d); [congruence|reflexivity].
Qed.

Lemma paren_atom n e ws : (forall tk toks cl rest lg own, map tw (tk :: toks) = ws -> no_or cl ->
    term_lv (parse_atom n) n tk (st (toks ++ cl :: rest) lg own) = (Ok (cl, e), st rest lg own)) ->
  ws <> [] ->
  forall tk toks nx rest lg own, map tw (tk :: toks) = wd KParenOpen "(" :: ws ++ [wd KParenClose ")"] ->
    parse_atom (S n) tk (st (toks ++ nx :: rest) lg own) = (Ok (nx, e), st rest lg own).
Proof.
  intros H Hn tk toks nx rest lg own E. apply tok_cons in E as (l & a & b & toks' & Et & E). injection Et as -> ->.
  apply tok_app in E as (u & v & -> & E1 & E2). apply tok_cons in E2 as (l' & a' & b' & v' & -> & E2).
  destruct v'; [|discriminate]. destruct u as [|t1 u]; [destruct ws; [congruence|discriminate]|].
  rewrite parse_atom_S. cbv zeta. kinds. lexes. rewrite <- app_assoc. cbn [app].
  rewrite bind_next.
  rewrite (bind_ok _ _ _ _ _ (H t1 u (mktok KParenClose (s2p ")") l' a' b') (nx :: rest) lg own E1 (paren_no_or l' a' b'))).
  lexes. reflexivity.
Qed.

Lemma bar_no_op l a b : no_op (mktok KOr (s2p "|") l a b).
Proof. repeat split; reflexivity. Qed.

Lemma atom_ok t : readable t -> forall n, (asize t <= n)%nat -> reads_as (parse_atom n) t.
Proof.
  induction t as [b|x|s|v|f ts an Hts Han|ts Hts|h t IHh IHt|op b IH|op a b IHl IHr] using ast_ind'; intros Hr n Hn;
    cbn [readable] in Hr; (destruct n as [|n]; [cbn in Hn; lia|]); intros tk toks nx rest lg own E Hnx.
  - destruct tk as [k w l a c]. cbn [ast_toks map] in E. destruct toks; [|discriminate]. unfold tw in E. cbn [t_kind t_lex] in E.
    destruct b; injection E as -> ->; reflexivity.
  - destruct tk as [k w l a c]. cbn [ast_toks map] in E. destruct toks; [|discriminate]. unfold tw in E. cbn [t_kind t_lex] in E.
    injection E as -> ->. destruct Hr as (m & e & En & Hm & He & Ex).
    destruct (numeric_head (m ++ e)) as (d & t & Ed & Hd); [exists m, e; tauto|].
    rewrite parse_atom_S. cbv zeta. rewrite En, Ed.
    assert (Nd : d <> 91%N /\ d <> 40%N).
    { destruct Hd as [Hd|(-> & _)]; [apply digit_range in Hd|]; lia. }
    match goal with |- context [tk_variable ?z] => change (tk_variable z) with false end.
    match goal with |- context [tk_functor ?z] => change (tk_functor z) with false end.
    match goal with |- context [tk_numeric ?z] => change (tk_numeric z) with true end. cbv iota.
    rewrite (head_lex d t 91 l a c KNumeric "[" eq_refl) by tauto.
    rewrite (head_lex d t 40 l a c KNumeric "(" eq_refl) by tauto.
    cbn [app]. rewrite bind_next. cbn [t_lex]. rewrite <- Ed, <- Ex. reflexivity.
  - destruct tk as [k w l a c]. cbn [ast_toks map] in E. destruct toks; [|discriminate]. unfold tw in E. cbn [t_kind t_lex] in E.
    injection E as -> ->. rewrite parse_atom_S. cbv zeta.
    match goal with |- context [tk_variable ?z] => change (tk_variable z) with false end.
    match goal with |- context [tk_functor ?z] => change (tk_functor z) with false end.
    match goal with |- context [tk_numeric ?z] => change (tk_numeric z) with false end.
    match goal with |- context [tk_boolean ?z] => change (tk_boolean z) with (@None bool) end.
    match goal with |- context [tk_string ?z] => change (tk_string z) with true end. cbv iota.
    unfold str_repr. lexes. cbn [t_lex]. change (34%N :: esc_quotes (unicode_escape s) ++ [34%N]) with (str_repr s).
    rewrite parse_str_repr by assumption. reflexivity.
  - destruct tk as [k w l a c]. cbn [ast_toks map] in E. destruct toks; [|discriminate]. unfold tw in E. cbn [t_kind t_lex] in E.
    injection E as -> ->. reflexivity.
  - destruct Hr as (Hf & H1 & H2). rewrite fold_and in H1, H2. cbn [asize] in Hn.
    pose proof (asize_len ts). pose proof (asize_len an).
    assert (S2 : exists n', n = S n') by (destruct n; [lia|eauto]). destruct S2 as (n' & En).
    assert (T1 : Forall (term_ok (term_lv (parse_atom n) n) no_or) ts).
    { rewrite Forall_forall in *. intros x Hx. rewrite En at 2. apply atom_term; [now apply H1|].
      apply Hts; [assumption|now apply H1|]. pose proof (asize_in ts x Hx). lia. }
    assert (T2 : Forall (term_ok (term_lv (parse_atom n) n) no_or) an).
    { rewrite Forall_forall in *. intros x Hx. rewrite En at 2. apply atom_term; [now apply H2|].
      apply Han; [assumption|now apply H2|]. pose proof (asize_in an x Hx). lia. }
    pose proof (literal_ok (term_lv (parse_atom n) n) n f ts an H1 H2 T1 T2 ltac:(lia) ltac:(lia) tk toks nx rest lg own E Hnx) as L.
    rewrite parse_atom_S. cbv zeta.
    assert (K : t_kind tk = KFunctor) by (cbn [ast_toks app map] in E; apply (f_equal (fun z => hd (KFunctor, []) z)) in E; cbn [hd] in E; apply (f_equal fst) in E; exact E).
    unfold tk_variable, tk_functor. rewrite K. rewrite (bind_ok _ _ _ _ _ L). reflexivity.
  - rewrite fold_and in Hr. cbn [asize] in Hn. pose proof (asize_len ts).
    cbn [ast_toks] in E. apply tok_cons in E as (l & a & b & toks' & Et & E). injection Et as -> ->.
    apply tok_app in E as (u & v & -> & E1 & E2). apply tok_cons in E2 as (l' & a' & b' & v' & -> & E2).
    destruct v'; [|discriminate]. rewrite parse_atom_S. cbv zeta.
    kinds. lexes. rewrite <- app_assoc. cbn [app].
    destruct ts as [|t ts].
    + destruct u; [|discriminate]. cbn [app]. rewrite bind_next. destruct n; cbn [list_loop]; lexes; reflexivity.
    + destruct n as [|n']; [lia|]. remember (S n') as n eqn:En.
      assert (T1 : Forall (term_ok (and_lv (parse_atom n) n) no_op) (t :: ts)).
      { rewrite Forall_forall in *. intros x Hx. rewrite En at 2. apply atom_and; [now apply Hr|].
        apply Hts; [assumption|now apply Hr|]. pose proof (asize_in _ x Hx). lia. }
      destruct u as [|t1 u].
      { exfalso. inversion Hr as [|? ? Hu _]; subst. destruct (lead t Hu) as (ku & wu & wsu & Eu & _). cbn [map] in E1.
        destruct ts; [unfold commas in E1; cbn [map joinw] in E1; rewrite Eu in E1; discriminate|].
        cbn [map] in E1. rewrite commas_cons2, Eu in E1. discriminate. }
      cbn [app]. rewrite bind_next.
      rewrite (list_loop_ok (and_lv (parse_atom n) n) (t :: ts) Hr T1 ltac:(discriminate) n [] t1 u (mktok KBracketClose (s2p "]") l' a' b')
        nx rest lg own ltac:(lia) E1 eq_refl). reflexivity.
  - destruct Hr as [H1 H2]. cbn [asize] in Hn. cbn [ast_toks] in E.
    apply tok_cons in E as (l & a & b & toks' & Et & E). injection Et as -> ->.
    apply tok_app in E as (u & v & -> & E1 & E2). apply tok_cons in E2 as (l' & a' & b' & v' & -> & E2).
    apply tok_app in E2 as (u2 & v2 & -> & E3 & E4). apply tok_cons in E4 as (l2 & a2 & b2 & v3 & -> & E4).
    destruct v3; [|discriminate].
    destruct (toks_cons h u H1 E1) as (t1 & u' & -> & Hl1). destruct (toks_cons t u2 H2 E3) as (t2 & u2' & -> & Hl2).
    rewrite parse_atom_S. cbv zeta.
    kinds. lexes.
    destruct n as [|n']; [lia|]. remember (S n') as n eqn:En.
    assert (T1 : term_ok (and_lv (parse_atom n) n) no_op h).
    { rewrite En at 2. apply atom_and; [assumption|]. apply IHh; [assumption|]. lia. }
    assert (T2 : term_ok (and_lv (parse_atom n) n) no_op t).
    { rewrite En at 2. apply atom_and; [assumption|]. apply IHt; [assumption|]. lia. }
    cbn [app]. rewrite <- !app_assoc. cbn [app]. rewrite bind_next.
    rewrite <- !app_assoc. cbn [app].
    pose proof (T1 t1 u' (mktok KOr (s2p "|") l' a' b') (t2 :: u2' ++ mktok KBracketClose (s2p "]") l2 a2 b2 :: nx :: rest) lg own E1 (bar_no_op l' a' b')) as X1.
    pose proof (T2 t2 u2' (mktok KBracketClose (s2p "]") l2 a2 b2) (nx :: rest) lg own E3 (proj1 (bracket_no_or l2 a2 b2))) as X2.
    set (aa := and_lv (parse_atom n) n) in *. rewrite En at 1. cbn [list_loop].
    rewrite (proj2 Hl1) by (cbn; tauto). rewrite (bind_ok _ _ _ _ _ X1). lexes.
    destruct n' as [|n2]; [lia|]. cbn [tail_loop].
    unfold pbind at 1. rewrite bind_next. rewrite (bind_ok _ _ _ _ _ X2). lexes. reflexivity.
  - cbn [asize] in Hn. destruct n as [|[|n']]; [lia|lia|].
    eapply (paren_atom (S (S n')) (AUn op b) (unop_word op :: ast_toks b)); [|discriminate|exact E].
    intros tk1 toks1 cl rest1 lg1 own1 E1 Hcl. apply inner_un; [assumption|apply IH; [assumption|lia]|assumption|assumption].
  - destruct Hr as [H1 H2]. cbn [asize] in Hn. destruct n as [|[|n']]; [lia|lia|].
    eapply (paren_atom (S (S n')) (ABin op a b) (ast_toks a ++ binop_word op :: ast_toks b)).
    + intros tk1 toks1 cl rest1 lg1 own1 E1 Hcl.
      apply inner_bin; [assumption|assumption|apply IHl; [assumption|lia]|apply IHr; [assumption|lia]|assumption|assumption].
    + intros X. apply app_eq_nil in X as [_ X]. discriminate.
    + rewrite <- app_assoc. exact E.
Qed.

Lemma term_parse t n : readable t -> (asize t <= n)%nat -> term_ok (parse_term n) no_or t.
Proof.
  intros Hr Hn. unfold parse_term. pose proof (asize_pos t). destruct n as [|n]; [lia|]. apply atom_term; [assumption|].
  now apply atom_ok.
Qed.

Lemma literal_parse l n : readable_lit l -> (asize (lit_ast l) <= n)%nat ->
  forall tk toks nx rest lg own, map tw (tk :: toks) = lit_toks l -> no_call nx ->
    parse_literal n tk (st (toks ++ nx :: rest) lg own) = (Ok (nx, l), st rest lg own).
Proof.
  destruct l as [f ts an]. unfold readable_lit, lit_toks, lit_ast. cbn [readable l_functor l_terms l_annots asize].
  intros (Hf & H1 & H2) Hn tk toks nx rest lg own E Hx. rewrite fold_and in H1, H2. unfold parse_literal.
  pose proof (asize_len ts). pose proof (asize_len an).
  apply literal_ok; try assumption; try lia.
  - rewrite Forall_forall in *. intros x Hi. apply term_parse; [now apply H1|]. pose proof (asize_in ts x Hi). lia.
  - rewrite Forall_forall in *. intros x Hi. apply term_parse; [now apply H2|]. pose proof (asize_in an x Hi). lia.
Qed.

(** ** Formulas *)

Fixpoint fsize (f : form) : nat :=
  match f with
  | FForm _ t => 2 + asize t
  | FFor c b | FWhile c b => 3 + asize c + list_sum (map fsize b)
  | FIf c ib eb => 3 + asize c + list_sum (map fsize ib) + match eb with Some b => list_sum (map fsize b) | None => 0 end
  end%nat.

Lemma fsize_pos f : (2 <= fsize f)%nat.
Proof. destruct f; cbn; lia. Qed.
Lemma fsize_len fs : (len fs <= list_sum (map fsize fs))%nat.
Proof. induction fs as [|t ts IH]; [reflexivity|]. cbn. pose proof (fsize_pos t). unfold list_sum in *. lia. Qed.
Lemma fsize_in fs f : In f fs -> (fsize f <= list_sum (map fsize fs))%nat.
Proof.
  induction fs as [|u ts IH]; [intros []|]. intros [<-|H]; cbn; unfold list_sum in *; [lia|]. specialize (IH H). lia.
Qed.

Definition form_ok (formula : tok -> P (tok * form)) (f : form) : Prop :=
  forall tk toks nx rest lg own, map tw (tk :: toks) = form_toks f -> no_or nx -> is_lex nx "else" = false ->
    formula tk (st (toks ++ nx :: rest) lg own) = (Ok (nx, f), st rest lg own).

(** The first token of a formula does not close a block. *)
Lemma form_lead f toks : readable_form f -> map tw toks = form_toks f ->
  exists tk toks', toks = tk :: toks' /\ is_lex tk "}" = false.
Proof.
  intros Hr E. destruct f as [ft t|c b|c ib eb|c b].
  - cbn [readable_form form_toks] in *. destruct ft; cbn [ftype_toks app] in E;
      try (apply tok_cons in E as (l & a & b & toks' & -> & E); eexists _, _; split; reflexivity).
    destruct (toks_cons t toks Hr E) as (tk & toks' & -> & Hl). eexists _, _; split; [reflexivity|]. apply Hl. cbn. tauto.
  - cbn [form_toks] in E. unfold cond_toks in E. cbn [app] in E.
    apply tok_cons in E as (l & a & b' & toks' & -> & E). eexists _, _; split; reflexivity.
  - cbn [form_toks] in E. unfold cond_toks in E. cbn [app] in E.
    apply tok_cons in E as (l & a & b' & toks' & -> & E). eexists _, _; split; reflexivity.
  - cbn [form_toks] in E. unfold cond_toks in E. cbn [app] in E.
    apply tok_cons in E as (l & a & b' & toks' & -> & E). eexists _, _; split; reflexivity.
Qed.

Lemma semi_no_or l a b : no_or (mktok KSemicolon (s2p ";") l a b).
Proof. repeat split; reflexivity. Qed.
Lemma dot_no_or l a b : no_or (mktok KFullstop (s2p ".") l a b).
Proof. repeat split; reflexivity. Qed.

Lemma body_cons2 f g fs : body_toks (f :: g :: fs) = form_toks f ++ wd KSemicolon ";" :: body_toks (g :: fs).
Proof. reflexivity. Qed.

Lemma body_first fs toks : fs <> [] -> Forall readable_form fs -> map tw toks = body_toks fs ->
  exists tk toks', toks = tk :: toks' /\ is_lex tk "}" = false.
Proof.
  intros Hn Hr E. destruct fs as [|f fs]; [congruence|]. inversion Hr as [|? ? H1 _]; subst. destruct fs as [|g fs].
  - exact (form_lead f toks H1 E).
  - rewrite body_cons2 in E. apply tok_app in E as (u & v & -> & E1 & E2).
    destruct (form_lead f u H1 E1) as (tk & toks' & -> & H). now exists tk, (toks' ++ v).
Qed.

Lemma body_loop_ok formula fs : Forall readable_form fs -> Forall (form_ok formula) fs -> fs <> [] ->
  forall k acc tk toks rest sl sa sb cl ca cb lg own, (len fs <= k)%nat -> map tw (tk :: toks) = body_toks fs ->
    body_loop k formula tk acc (st (toks ++ mktok KSemicolon (s2p ";") sl sa sb :: mktok KBraceClose (s2p "}") cl ca cb :: rest) lg own)
      = (Ok (mktok KBraceClose (s2p "}") cl ca cb, acc ++ fs), st rest lg own).
Proof.
  intros Hr Hf. revert Hr. induction Hf as [|f fs Hf Hfs IH]; intros Hr Hn k acc tk toks rest sl sa sb cl ca cb lg own Hk E; [congruence|].
  inversion Hr as [|? ? Hr1 Hr2]; subst. cbn in Hk. destruct k as [|k]; [lia|]. cbn [body_loop].
  destruct (body_first (f :: fs) (tk :: toks) ltac:(discriminate) Hr E) as (tk' & toks' & Et & H0). injection Et as <- <-. rewrite H0.
  destruct fs as [|g fs].
  - rewrite (bind_ok _ _ _ _ _ (Hf tk toks (mktok KSemicolon (s2p ";") sl sa sb) (mktok KBraceClose (s2p "}") cl ca cb :: rest) lg own E (semi_no_or sl sa sb) eq_refl)).
    cbv zeta. lexes. rewrite bind_next. lexes. reflexivity.
  - rewrite body_cons2 in E. apply tok_app in E as (u & v & Eu & E1 & E2). apply tok_cons in E2 as (l & a & b & v' & -> & E2).
    destruct (form_lead f u Hr1 E1) as (tk1 & u' & -> & _). injection Eu as <- ->. rewrite <- app_assoc. cbn [app].
    rewrite (bind_ok _ _ _ _ _ (Hf tk u' (mktok KSemicolon (s2p ";") l a b) _ lg own E1 (semi_no_or l a b) eq_refl)).
    cbv zeta. lexes.
    destruct (body_first (g :: fs) v' ltac:(discriminate) Hr2 E2) as (tk2 & v2 & -> & H2). cbn [app]. rewrite bind_next, H2.
    rewrite IH; [|assumption|discriminate|cbn in *; lia|assumption]. now rewrite <- app_assoc.
Qed.

Lemma block_ok n b : Forall readable_form b -> Forall (form_ok (parse_formula n)) b -> (len b <= n)%nat ->
  forall toks l a c l' a' c' nx rest lg own, map tw toks = block_toks b ->
    block_lv (fun tk => body_loop n (parse_formula n) tk []) (mktok KBraceOpen (s2p "{") l a c)
      (st (toks ++ mktok KBraceClose (s2p "}") l' a' c' :: nx :: rest) lg own) = (Ok (nx, b), st rest lg own).
Proof.
  intros Hr Hf Hn toks l a c l' a' c' nx rest lg own E. unfold block_lv, expect. lexes.
  destruct b as [|f b].
  - destruct toks; [|discriminate]. cbn [app]. rewrite bind_next.
    destruct n; cbn [body_loop]; lexes; unfold pbind at 1, pret at 1; lexes; reflexivity.
  - unfold block_toks in E. apply tok_app in E as (u & v & -> & E1 & E2). apply tok_cons in E2 as (sl & sa & sb & v' & -> & E2).
    destruct v'; [|discriminate]. destruct (body_first (f :: b) u ltac:(discriminate) Hr E1) as (tk & u' & -> & _).
    rewrite <- app_assoc. cbn [app]. rewrite bind_next.
    rewrite (bind_ok _ _ _ _ _ (body_loop_ok (parse_formula n) (f :: b) Hr Hf ltac:(discriminate) n [] tk u' (nx :: rest) sl sa sb l' a' c' lg own Hn E1)).
    lexes. reflexivity.
Qed.

Lemma condition_ok n c : readable c -> (asize c <= n)%nat ->
  forall toks l a b l' a' b' nx rest lg own, map tw toks = ast_toks c ->
    condition n (mktok KParenOpen (s2p "(") l a b)
      (st (toks ++ mktok KParenClose (s2p ")") l' a' b' :: nx :: rest) lg own) = (Ok (nx, c), st rest lg own).
Proof.
  intros Hr Hn toks l a b l' a' b' nx rest lg own E. unfold condition, expect. lexes.
  destruct (toks_cons c toks Hr E) as (tk & toks' & -> & _). cbn [app]. rewrite bind_next.
  rewrite (bind_ok _ _ _ _ _ (term_parse c n Hr Hn tk toks' (mktok KParenClose (s2p ")") l' a' b') (nx :: rest) lg own E (paren_no_or l' a' b'))).
  lexes. reflexivity.
Qed.

Lemma cond_split k t c ws toks : map tw toks = cond_toks k t c ++ ws ->
  exists l a b l1 a1 b1 u l2 a2 b2 l3 a3 b3 v,
    toks = mktok k (s2p t) l a b :: mktok KParenOpen (s2p "(") l1 a1 b1 :: u ++ mktok KParenClose (s2p ")") l2 a2 b2 ::
      mktok KBraceOpen (s2p "{") l3 a3 b3 :: v /\ map tw u = ast_toks c /\ map tw v = ws.
Proof.
  unfold cond_toks. cbn [app]. rewrite <- app_assoc. cbn [app]. intros E.
  apply tok_cons in E as (l & a & b & toks1 & -> & E). apply tok_cons in E as (l1 & a1 & b1 & toks2 & -> & E).
  apply tok_app in E as (u & v & -> & E1 & E2). apply tok_cons in E2 as (l2 & a2 & b2 & v2 & -> & E2).
  apply tok_cons in E2 as (l3 & a3 & b3 & v3 & -> & E2).
  now exists l, a, b, l1, a1, b1, u, l2, a2, b2, l3, a3, b3, v3.
Qed.

Lemma forms_in n b : Forall (fun f => readable_form f -> forall n, (fsize f <= n)%nat -> form_ok (parse_formula n) f) b ->
  Forall readable_form b -> (list_sum (map fsize b) <= n)%nat -> Forall (form_ok (parse_formula n)) b.
Proof.
  intros IH Hr Hn. rewrite Forall_forall in *. intros x Hx. apply IH; [assumption|now apply Hr|].
  pose proof (fsize_in b x Hx). lia.
Qed.

Lemma parse_formula_S n tk : parse_formula (S n) tk =
      (let block := block_lv (fun tk => body_loop n (parse_formula n) tk []) in
       if is_lex tk "while" then
         tk1 <- next ;;
         '(tk2, c) <- condition n tk1 ;;
         '(tk3, b) <- block tk2 ;;
         pret (tk3, FWhile c b)
       else if is_lex tk "if" then
         tk1 <- next ;;
         '(tk2, c) <- condition n tk1 ;;
         '(tk3, ib) <- block tk2 ;;
         if is_lex tk3 "else" then
           tk4 <- next ;;
           '(tk5, eb) <- block tk4 ;;
           pret (tk5, FIf c ib (Some eb))
         else pret (tk3, FIf c ib None)
       else if is_lex tk "for" then
         tk1 <- next ;;
         '(tk2, c) <- condition n tk1 ;;
         '(tk3, b) <- block tk2 ;;
         pret (tk3, FFor c b)
       else
         match tk_formula tk with
         | Some ft =>
             tk1 <- next ;;
             '(tk2, t) <- parse_term n tk1 ;;
             pret (tk2, FForm ft t)
         | None =>
             '(tk2, t) <- parse_term n tk ;;
             pret (tk2, FForm FtTerm t)
         end)%P.
Proof. reflexivity. Qed.

Lemma formula_ok f : readable_form f -> forall n, (fsize f <= n)%nat -> form_ok (parse_formula n) f.
Proof.
  induction f as [ft t|c b IH|c ib eb IHi IHe|c b IH] using form_ind'; intros Hr n Hn; cbn [readable_form] in Hr; cbn [fsize] in Hn;
    (destruct n as [|n]; [lia|]); intros tk toks nx rest lg own E Hnx Hel; rewrite parse_formula_S; cbv zeta.
  - assert (T : term_ok (parse_term n) no_or t) by (apply term_parse; [assumption|lia]).
    cbn [form_toks] in E. destruct ft; cbn [ftype_toks app] in E;
      try (apply tok_cons in E as (l & a & b & toks' & Et & E); injection Et as -> ->; lexes;
           destruct (toks_cons t toks' Hr E) as (t1 & u & -> & _); cbn [app];
           match goal with |- context [tk_formula ?z] => let v := eval cbv in (tk_formula z) in change (tk_formula z) with v end; cbv iota;
           rewrite bind_next; rewrite (bind_ok _ _ _ _ _ (T t1 u nx rest lg own E Hnx)); reflexivity).
    pose proof (leads_of t tk toks Hr E) as Hl. rewrite (leads_formula _ Hl). destruct Hl as [_ Hl].
    rewrite !Hl by (cbn; tauto). rewrite (bind_ok _ _ _ _ _ (T tk toks nx rest lg own E Hnx)). reflexivity.
  - destruct Hr as [H1 H2]. rewrite fold_and in H2.
    change (form_toks (FFor c b)) with (cond_toks KFor "for" c ++ block_toks b ++ [wd KBraceClose "}"]) in E.
    apply cond_split in E as (l & a & b0 & l1 & a1 & b1 & u & l2 & a2 & b2 & l3 & a3 & b3 & v & Et & E1 & E2). injection Et as -> ->.
    apply tok_app in E2 as (v1 & v2 & -> & E2 & E3). apply tok_cons in E3 as (l4 & a4 & b4 & v3 & -> & E3). destruct v3; [|discriminate].
    lexes. cbn [app]. rewrite <- app_assoc. cbn [app]. rewrite <- app_assoc. cbn [app]. rewrite bind_next.
    rewrite (bind_ok _ _ _ _ _ (condition_ok n c H1 ltac:(lia) u l1 a1 b1 l2 a2 b2 _ _ lg own E1)).
    pose proof (fsize_len b).
    rewrite (bind_ok _ _ _ _ _ (block_ok n b H2 (forms_in n b IH H2 ltac:(lia)) ltac:(lia) v1 l3 a3 b3 l4 a4 b4 nx rest lg own E2)). reflexivity.
  - destruct Hr as (H1 & H2 & H3). rewrite fold_and in H2.
    change (form_toks (FIf c ib eb)) with
      (cond_toks KIf "if" c ++ block_toks ib ++
       (match eb with Some ((_ :: _) as b) => wd KBraceClose "}" :: wd KElse "else" :: wd KBraceOpen "{" :: block_toks b | _ => [] end)
       ++ [wd KBraceClose "}"]) in E.
    apply cond_split in E as (l & a & b0 & l1 & a1 & b1 & u & l2 & a2 & b2 & l3 & a3 & b3 & v & Et & E1 & E2). injection Et as -> ->.
    apply tok_app in E2 as (v1 & v2 & -> & E2 & E3).
    lexes. cbn [app]. rewrite <- app_assoc. cbn [app]. rewrite <- app_assoc. cbn [app]. rewrite bind_next.
    rewrite (bind_ok _ _ _ _ _ (condition_ok n c H1 ltac:(lia) u l1 a1 b1 l2 a2 b2 _ _ lg own E1)).
    pose proof (fsize_len ib).
    pose proof (block_ok n ib H2 (forms_in n ib IHi H2 ltac:(lia)) ltac:(lia) v1 l3 a3 b3) as B1.
    destruct eb as [b|].
    + destruct H3 as [H3 H4]. rewrite fold_and in H4. destruct b as [|f b]; [congruence|]. cbn [app] in E3.
      apply tok_cons in E3 as (l4 & a4 & b4 & v3 & -> & E3). apply tok_cons in E3 as (l5 & a5 & b5 & v4 & -> & E3).
      apply tok_cons in E3 as (l6 & a6 & b6 & v5 & -> & E3). apply tok_app in E3 as (v6 & v7 & -> & E3 & E4).
      apply tok_cons in E4 as (l7 & a7 & b7 & v8 & -> & E4). destruct v8; [|discriminate]. cbn [app].
      rewrite (bind_ok _ _ _ _ _ (B1 l4 a4 b4 _ _ lg own E2)). lexes. rewrite bind_next. rewrite <- app_assoc. cbn [app].
      cbn [opt_all] in IHe. pose proof (fsize_len (f :: b)).
      rewrite (bind_ok _ _ _ _ _ (block_ok n (f :: b) H4 (forms_in n (f :: b) IHe H4 ltac:(lia)) ltac:(lia) v6 l6 a6 b6 l7 a7 b7 nx rest lg own E3)).
      reflexivity.
    + cbn [app] in E3. apply tok_cons in E3 as (l4 & a4 & b4 & v3 & -> & E3). destruct v3; [|discriminate]. cbn [app].
      rewrite (bind_ok _ _ _ _ _ (B1 l4 a4 b4 nx rest lg own E2)). rewrite Hel. reflexivity.
  - destruct Hr as [H1 H2]. rewrite fold_and in H2.
    change (form_toks (FWhile c b)) with (cond_toks KWhile "while" c ++ block_toks b ++ [wd KBraceClose "}"]) in E.
    apply cond_split in E as (l & a & b0 & l1 & a1 & b1 & u & l2 & a2 & b2 & l3 & a3 & b3 & v & Et & E1 & E2). injection Et as -> ->.
    apply tok_app in E2 as (v1 & v2 & -> & E2 & E3). apply tok_cons in E3 as (l4 & a4 & b4 & v3 & -> & E3). destruct v3; [|discriminate].
    lexes. cbn [app]. rewrite <- app_assoc. cbn [app]. rewrite <- app_assoc. cbn [app]. rewrite bind_next.
    rewrite (bind_ok _ _ _ _ _ (condition_ok n c H1 ltac:(lia) u l1 a1 b1 l2 a2 b2 _ _ lg own E1)).
    pose proof (fsize_len b).
    rewrite (bind_ok _ _ _ _ _ (block_ok n b H2 (forms_in n b IH H2 ltac:(lia)) ltac:(lia) v1 l3 a3 b3 l4 a4 b4 nx rest lg own E2)). reflexivity.
Qed.

Lemma plan_body_ok n fs : Forall readable_form fs -> (list_sum (map fsize fs) <= n)%nat -> fs <> [] ->
  forall k acc tk toks rest cl ca cb lg own, (len fs <= k)%nat -> map tw (tk :: toks) = body_toks fs ->
    plan_body_loop k n tk acc (st (toks ++ mktok KFullstop (s2p ".") cl ca cb :: rest) lg own)
      = (Ok (mktok KFullstop (s2p ".") cl ca cb, acc ++ fs), st rest lg own).
Proof.
  induction fs as [|f fs IH]; intros Hr Hs Hn k acc tk toks rest cl ca cb lg own Hk E; [congruence|].
  inversion Hr as [|? ? Hr1 Hr2]; subst. cbn in Hk. destruct k as [|k]; [lia|]. cbn [plan_body_loop].
  change (list_sum (map fsize (f :: fs))) with (fsize f + list_sum (map fsize fs))%nat in Hs.
  pose proof (formula_ok f Hr1 n ltac:(lia)) as Hf.
  destruct fs as [|g fs].
  - rewrite (bind_ok _ _ _ _ _ (Hf tk toks (mktok KFullstop (s2p ".") cl ca cb) rest lg own E (dot_no_or cl ca cb) eq_refl)).
    cbv zeta. lexes. reflexivity.
  - rewrite body_cons2 in E. apply tok_app in E as (u & v & Eu & E1 & E2). apply tok_cons in E2 as (l & a & b & v' & -> & E2).
    destruct (form_lead f u Hr1 E1) as (tk1 & u' & -> & _). injection Eu as <- ->. rewrite <- app_assoc. cbn [app].
    rewrite (bind_ok _ _ _ _ _ (Hf tk u' (mktok KSemicolon (s2p ";") l a b) _ lg own E1 (semi_no_or l a b) eq_refl)).
    cbv zeta. lexes.
    destruct (body_first (g :: fs) v' ltac:(discriminate) Hr2 E2) as (tk2 & v2 & -> & H2). cbn [app]. rewrite bind_next.
    rewrite IH; [|assumption|lia|discriminate|cbn in *; lia|assumption]. now rewrite <- app_assoc.
Qed.

(** ** Events and plans *)

Lemma lit_first l toks : readable_lit l -> map tw toks = lit_toks l ->
  exists a b c toks', toks = mktok KFunctor (l_functor l) a b c :: toks'.
Proof.
  intros _ E. destruct l as [f ts an]. unfold lit_toks, lit_ast in E. cbn [ast_toks] in E. cbn [app] in E.
  apply tok_cons in E as (a & b & c & toks' & -> & _). now exists a, b, c, toks'.
Qed.

Lemma event_ok n e : readable_event e -> (asize (lit_ast (ae_head e)) <= n)%nat ->
  forall tk toks nx rest lg own, map tw (tk :: toks) = event_toks e -> no_call nx ->
    parse_event n tk (st (toks ++ nx :: rest) lg own) = (Ok (nx, e), st rest lg own).
Proof.
  intros [Hg Hl] Hn tk toks nx rest lg own E Hx. destruct e as [tr gt h]. unfold event_toks in E. cbn [ae_trig ae_gt ae_head] in *.
  assert (Tr : tk_trigger tk = Some tr).
  { destruct tr; apply tok_cons in E as (l & a & b & toks' & Et & _); injection Et as -> _; reflexivity. }
  assert (E' : map tw toks = (match gt with GtAchieve => [wd KExclam "!"] | GtTest => [wd KQuestion "?"] | _ => [] end) ++ lit_toks h).
  { destruct tr; apply tok_cons in E as (l & a & b & toks' & Et & E); injection Et as _ ->; assumption. }
  clear E. unfold parse_event. rewrite Tr.
  destruct Hg as [-> | [-> | ->]]; cbn [app] in E'.
  - destruct (lit_first h toks Hl E') as (a & b & c & toks' & ->). cbn [app]. rewrite bind_next.
    match goal with |- context [tk_goal ?z] => change (tk_goal z) with (@None gtype) end. cbv iota.
    unfold pbind at 1, pret at 1.
    rewrite (bind_ok _ _ _ _ _ (literal_parse h n Hl Hn _ toks' nx rest lg own E' Hx)). reflexivity.
  - apply tok_cons in E' as (l & a & b & toks1 & -> & E'). destruct (lit_first h toks1 Hl E') as (a1 & b1 & c1 & toks' & ->).
    cbn [app]. rewrite bind_next. match goal with |- context [tk_goal ?z] => change (tk_goal z) with (Some GtAchieve) end. cbv iota.
    unfold pbind at 1. rewrite bind_next. unfold pret at 1.
    rewrite (bind_ok _ _ _ _ _ (literal_parse h n Hl Hn _ toks' nx rest lg own E' Hx)). reflexivity.
  - apply tok_cons in E' as (l & a & b & toks1 & -> & E'). destruct (lit_first h toks1 Hl E') as (a1 & b1 & c1 & toks' & ->).
    cbn [app]. rewrite bind_next. match goal with |- context [tk_goal ?z] => change (tk_goal z) with (Some GtTest) end. cbv iota.
    unfold pbind at 1. rewrite bind_next. unfold pret at 1.
    rewrite (bind_ok _ _ _ _ _ (literal_parse h n Hl Hn _ toks' nx rest lg own E' Hx)). reflexivity.
Qed.

Definition psize (p : aplan) : nat :=
  (match ap_annot p with Some l => asize (lit_ast l) | None => 0 end
   + asize (lit_ast (ae_head (ap_event p)))
   + match ap_ctx p with Some c => asize c | None => 0 end
   + match ap_body p with Some b => list_sum (map fsize b) | None => 0 end)%nat.

Lemma event_first e toks : map tw toks = event_toks e ->
  exists tk toks', toks = tk :: toks' /\ is_lex tk "@" = false /\ no_call tk.
Proof.
  unfold event_toks. intros E. destruct (ae_trig e); apply tok_cons in E as (l & a & b & toks' & -> & _);
    eexists _, _; (split; [reflexivity|]); repeat split; reflexivity.
Qed.

Lemma plan_ok n p : readable_plan p -> (psize p <= n)%nat ->
  forall tk toks rest l a b lg own, map tw (tk :: toks) = plan_toks p ->
    parse_plan n tk (st (toks ++ mktok KFullstop (s2p ".") l a b :: rest) lg own)
      = (Ok (mktok KFullstop (s2p ".") l a b, p), st rest lg own).
Proof.
  intros (H1 & H2 & H3 & H4) Hn tk toks rest l a b lg own E. destruct p as [an e c bd].
  unfold plan_toks in E. unfold psize in Hn. cbn [ap_annot ap_event ap_ctx ap_body] in *.
  set (dot := mktok KFullstop (s2p ".") l a b).
  (* the body *)
  assert (Body : forall v, map tw v = match bd with Some b => wd KArrow "<-" :: body_toks b | None => [] end ->
    exists t0 more, v ++ dot :: rest = t0 :: more /\ is_lex t0 ":" = false /\ no_or t0 /\
    ('(tk4, b0) <- (if is_lex t0 "<-" then
                   tk4 <- next ;;
                   '(tk5, l) <- parse_plan_body n tk4 ;;
                   pret (tk5, Some l)
                 else pret (t0, None)) ;;
     pret (tk4, mkaplan an e c b0))%P (st more lg own) = (Ok (dot, mkaplan an e c bd), st rest lg own)).
  { intros v Ev. destruct bd as [fs|].
    - destruct (H4 fs eq_refl) as [Hne Hfs]. apply tok_cons in Ev as (l1 & a1 & b1 & v' & -> & Ev).
      destruct (body_first fs v' Hne Hfs Ev) as (t1 & v2 & -> & _). cbn [app]. eexists _, _. split; [reflexivity|].
      split; [reflexivity|]. split; [repeat split; reflexivity|]. lexes.
      unfold pbind at 1. rewrite bind_next. unfold parse_plan_body. pose proof (fsize_len fs).
      rewrite (bind_ok _ _ _ _ _ (plan_body_ok n fs Hfs ltac:(lia) Hne n [] t1 v2 rest l a b lg own ltac:(lia) Ev)). reflexivity.
    - destruct v; [|discriminate]. cbn [app]. eexists _, _. split; [reflexivity|].
      split; [reflexivity|]. split; [apply dot_no_or|]. unfold dot. lexes. reflexivity. }
  (* the context *)
  assert (Ctx : forall v, map tw v = (match c with Some c => wd KColon ":" :: ast_toks c | None => [] end)
      ++ (match bd with Some b => wd KArrow "<-" :: body_toks b | None => [] end) ->
    exists t0 more, v ++ dot :: rest = t0 :: more /\ no_call t0 /\
    ('(tk3, c0) <- (if is_lex t0 ":" then
                   tk3 <- next ;;
                   '(tk4, t) <- parse_term n tk3 ;;
                   pret (tk4, Some t)
                 else pret (t0, None)) ;;
     '(tk4, b0) <- (if is_lex tk3 "<-" then
                   tk4 <- next ;;
                   '(tk5, l) <- parse_plan_body n tk4 ;;
                   pret (tk5, Some l)
                 else pret (tk3, None)) ;;
     pret (tk4, mkaplan an e c0 b0))%P (st more lg own) = (Ok (dot, mkaplan an e c bd), st rest lg own)).
  { intros v Ev. apply tok_app in Ev as (v1 & v2 & -> & E1 & E2). destruct (Body v2 E2) as (t0 & more & Em & Hc & Ho & R).
    rewrite <- app_assoc, Em. destruct c as [c|].
    - apply tok_cons in E1 as (l1 & a1 & b1 & v' & -> & E1). pose proof (H3 c eq_refl) as Hcr.
      destruct (toks_cons c v' Hcr E1) as (t1 & v3 & -> & _). cbn [app]. eexists _, _. split; [reflexivity|]. split; [split; reflexivity|].
      lexes. unfold pbind at 1. rewrite bind_next.
      rewrite (bind_ok _ _ _ _ _ (term_parse c n Hcr ltac:(lia) t1 v3 t0 more lg own E1 Ho)). exact R.
    - destruct v1; [|discriminate]. cbn [app]. eexists _, _. split; [reflexivity|]. split; [apply Ho|]. rewrite Hc. exact R. }
  unfold parse_plan.
  assert (Ev : forall t0 more, map tw (t0 :: more) = event_toks e ++ (match c with Some c => wd KColon ":" :: ast_toks c | None => [] end)
      ++ (match bd with Some b => wd KArrow "<-" :: body_toks b | None => [] end) ->
    exists mid nx more', more ++ dot :: rest = mid ++ nx :: more' /\ no_call nx /\ no_call t0 /\ is_lex t0 "@" = false /\
      map tw (t0 :: mid) = event_toks e /\
    ('(tk3, c0) <- (if is_lex nx ":" then
                   tk3 <- next ;;
                   '(tk4, t) <- parse_term n tk3 ;;
                   pret (tk4, Some t)
                 else pret (nx, None)) ;;
     '(tk4, b0) <- (if is_lex tk3 "<-" then
                   tk4 <- next ;;
                   '(tk5, l) <- parse_plan_body n tk4 ;;
                   pret (tk5, Some l)
                 else pret (tk3, None)) ;;
     pret (tk4, mkaplan an e c0 b0))%P (st more' lg own) = (Ok (dot, mkaplan an e c bd), st rest lg own)).
  { intros t0 more Et. apply tok_app in Et as (u & v & Eu & E1 & E2). destruct (event_first e u E1) as (tk0 & u' & -> & Hat & Hnc).
    injection Eu as <- ->. destruct (Ctx v E2) as (nx & more' & Em & Hnx & R). exists u', nx, more'.
    rewrite <- app_assoc, Em. tauto. }
  destruct an as [la|].
  - cbn [app] in E. apply tok_cons in E as (l1 & a1 & b1 & toks1 & Et & E). injection Et as -> ->. lexes.
    apply tok_app in E as (u & v & -> & E1 & E2). destruct (lit_first la u (H1 la eq_refl) E1) as (l2 & a2 & b2 & u' & ->).
    assert (exists t0 more, v = t0 :: more) as (t0 & more & ->).
    { destruct v; [|eauto]. exfalso. unfold event_toks in E2. discriminate. }
    destruct (Ev t0 more E2) as (mid & nx & more' & Em & Hnx & Ht0 & Hat & Emid & R).
    rewrite <- app_assoc. cbn [app]. rewrite Em. unfold pbind at 1. rewrite bind_next.
    rewrite (bind_ok _ _ _ _ _ (literal_parse la n (H1 la eq_refl) ltac:(lia) _ u' t0 (mid ++ nx :: more') lg own E1 Ht0)).
    unfold pret at 1. rewrite (bind_ok _ _ _ _ _ (event_ok n e H2 ltac:(lia) t0 mid nx more' lg own Emid Hnx)). exact R.
  - cbn [app] in E. destruct (Ev tk toks E) as (mid & nx & more' & Em & Hnx & Ht0 & Hat & Emid & R).
    rewrite Hat, Em. unfold pbind at 1, pret at 1.
    rewrite (bind_ok _ _ _ _ _ (event_ok n e H2 ltac:(lia) tk mid nx more' lg own Emid Hnx)). exact R.
Qed.
End WithPy.
