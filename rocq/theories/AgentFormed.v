(** The agents of texts are well formed: all that can keep their text from being
    read back is a number or an empty else branch. *)
From Verif Require Import Base Num Term Unify Str World Ast Names Quote QuoteSpec QuoteFacts Lex LexSpec LexFacts LexCor LexTok
  Parse ParseTotal ParseInv Fold Program RoundSpec
  GramSpec GramTok GramSound GramComp GramCor Counts Closed SrcSpec SrcQuiet SrcVal SrcFacts AgentSpec AgentFold.

Definition formed_rule (r : arule) : Prop := formed_lit (ar_head r) /\ formed (ar_cons r).
Definition formed_agent (g : aagent) : Prop :=
  Forall formed_rule (ag_rules g) /\ Forall formed_lit (ag_beliefs g) /\
  Forall formed_lit (ag_goals g) /\ Forall formed_plan (ag_plans g).

(** ** What is read *)

Lemma accepted {A} (parse : nat -> tok -> P (tok * A)) Q a x f :
  (forall n tk, good_tok tk -> keeps (good_at Q) (parse n tk)) -> accepts parse a x f -> Forall good_tok a -> good_tok f -> Q x.
Proof.
  intros Hk (first & l & N & -> & H) F Ff. destruct (H N [] (log_new None) true (le_n _)) as (lg & E & _).
  inversion F as [|? ? F1 F2]; subst. specialize (Hk N first F1 (mkpst (map ITok l ++ [ITok f]) (log_new None) true)).
  rewrite E in Hk. destruct Hk as [_ [_ Hk]]; [|exact Hk]. cbn [p_items]. apply Forall_app. split; [|repeat constructor; exact Ff].
  clear - F2. induction F2; constructor; assumption.
Qed.

Definition fine_tok (t : tok) : Prop := lexed t /\ good_tok t.
Lemma fine_split l : Forall fine_tok l -> Forall lexed l /\ Forall good_tok l.
Proof. intros F. split; (eapply Forall_impl; [|exact F]); now intros t []. Qed.

Lemma literal_formed a l f : literal a l -> Forall fine_tok a -> fine_tok f -> stops LAtom f -> formed_lit l.
Proof.
  intros H F [F1 F2] S. apply fine_split in F as [F3 F4].
  exact (accepted parse_literal formed_lit a l f keeps_parse_literal (literal_accepts a l f H F3 F1 S) F4 F2).
Qed.
Lemma clause_formed a c : one_clause a c -> Forall fine_tok a -> formed_agent c.
Proof.
  intros [b r d Hb Hd|b x d Hb Hd|b x d Hb Hd|b p d Hb Hd] F; apply Forall_app in F as [F Fd]; inversion Fd as [|? ? F1 _]; subst;
    unfold formed_agent; cbn [ag_rules ag_beliefs ag_goals ag_plans]; repeat split; try (constructor; fail); (constructor; [|constructor]).
  - inversion Hb as [|a1 l o b' c1 Hl Ho Hc]; subst. apply Forall_app in F as [F2 F3]. inversion F3 as [|? ? F4 F5]; subst.
    split; cbn [ar_head ar_cons].
    + apply (literal_formed a1 l o); [assumption..|]. now apply (the_stops ":-").
    + apply fine_split in F5 as [F5 F6]. destruct F1 as [F1 F7].
      exact (accepted parse_term formed b' c1 d keeps_parse_term (term_accepts b' c1 d Hc F5 F1 (the_stops "." LOr d Hd eq_refl)) F6 F7).
  - inversion Hb; subst. apply (literal_formed b x d); [assumption..|]. now apply (the_stops ".").
  - inversion Hb; subst. inversion F; subst. eapply literal_formed; [eassumption|eassumption|exact F1|]. now apply (the_stops ".").
  - apply fine_split in F as [F5 F6]. destruct F1 as [F1 F7].
    exact (accepted parse_plan formed_plan b p d keeps_plan (plan_accepts b p d Hb F5 F1 Hd) F6 F7).
Qed.

Lemma followed_formed g h : formed_agent g -> formed_agent h -> formed_agent (followed g h).
Proof.
  intros (G1 & G2 & G3 & G4) (H1 & H2 & H3 & H4). unfold formed_agent, followed. cbn [ag_rules ag_beliefs ag_goals ag_plans].
  repeat split; apply Forall_app; split; assumption.
Qed.

Lemma tokens_fine n lines l : Forall (Forall code_point) lines -> tokenize n lines = Ok (map ITok l) -> Forall fine_tok l.
Proof.
  intros Hc E. pose proof (tokenize_good _ _ _ E Hc) as G. rewrite Forall_forall in G. apply Forall_forall. intros t Ht. split.
  - exists n, lines, (map ITok l). split; [assumption|now apply in_map].
  - exact (G (ITok t) (in_map ITok l t Ht)).
Qed.

(** ** Folding *)
Section WithPy.
Context {PY : Py}.

Ltac bl := repeat first [apply blind_ret|apply blind_fail|apply blind_error|apply blind_fold|apply blind_comp
  |apply blind_mapl; intros|apply blind_bind; [|intros]|assumption
  |match goal with |- blind (match ?b with _ => _ end) => destruct b end].
Ltac inv H := apply runs_bind' in H; [|solve [bl]|intros; solve [bl]].
Ltac bad H := let y := fresh in let X := fresh in
  solve [inv H; destruct H as (y & X & _); now apply runs_error in X | destruct (never _ _ H)].

Definition stays (t : ast) : Prop := forall m t', runs (fold m t) t' -> formed t -> formed t'.
Lemma stays_list ts : Forall stays ts -> forall ts', runs (pmapl (fold MTerm) ts) ts' ->
  fold_right and True (map formed ts) -> fold_right and True (map formed ts').
Proof.
  intros F ts' H. apply runs_mapl in H; [|intros; bl]. rewrite !and_all. intros G. revert F G.
  induction H as [|x y l l' H _ IH]; intros F G; [constructor|]. inversion F as [|? ? F1 F2]; subst. inversion G; subst.
  constructor; [|now apply IH]. now apply (F1 MTerm).
Qed.

Lemma fold_stays t : stays t.
Proof.
  induction t as [b|x|s|v|f ts an Hts Han|ts Hts|h t IHh IHt|op a IH|op l r IHl IHr] using ast_ind'; intros m t' H Hf.
  - cbn [fold] in H. inv H. destruct H as (u & _ & H). apply runs_ret in H as ->. assumption.
  - cbn [fold] in H. inv H. destruct H as (u & _ & H). apply runs_ret in H as ->. assumption.
  - cbn [fold] in H. inv H. destruct H as (u & _ & H). apply runs_ret in H as ->. assumption.
  - cbn [fold] in H. destruct v; [bad H|]. apply runs_ret in H as ->. assumption.
  - cbn [formed] in Hf. destruct Hf as (F1 & F2 & F3).
    cbn [fold] in H. destruct m; try bad H; inv H; destruct H as (ts' & H1 & H); inv H; destruct H as (an' & H2 & H); apply runs_ret in H as ->;
      cbn [formed]; (split; [assumption|]); (split; [exact (stays_list ts Hts ts' H1 F2)|exact (stays_list an Han an' H2 F3)]).
  - cbn [fold] in H. destruct m; try bad H. inv H. destruct H as (ts' & H1 & H). apply runs_ret in H as ->.
    exact (stays_list ts Hts ts' H1 Hf).
  - cbn [formed] in Hf. destruct Hf as [F1 F2]. cbn [fold] in H. destruct m; try bad H. inv H. destruct H as (h' & H1 & H). inv H.
    destruct H as (u & H2 & H). apply runs_ret in H as ->. split; [exact (IHh _ _ H1 F1)|exact (IHt _ _ H2 F2)].
  - cbn [formed] in Hf. destruct op, m; cbn [fold unop_mode] in H; try bad H; inv H; destruct H as (a' & H1 & H);
      pose proof (IH _ _ H1 Hf) as Fa; destruct a'; apply runs_ret in H as ->; exact Fa || exact I.
  - cbn [formed] in Hf. destruct Hf as [F1 F2].
    assert (Num : forall o l' r' u, formed l' -> formed r' ->
      runs (match l', r' with
           | ANum x, ANum y' =>
               match num_op fpow o x y' with
               | Ok w => pret (ANum w)
               | Err EZeroDiv => p_error ;; pret (ABin (BNum o) l r)
               | Err e => pfail e
               end
           | _, _ => pret (ABin (BNum o) l' r')
           end)%P u -> formed u).
    { intros o l' r' u G1 G2 R.
      destruct l'; try (apply runs_ret in R as ->; split; assumption).
      destruct r'; try (apply runs_ret in R as ->; split; assumption).
      destruct (num_op fpow o x x0) as [w|e]; [apply runs_ret in R as ->; exact I|].
      destruct e; try (destruct (never _ _ R)). bad R. }
    destruct op, m; cbn [fold binop_mode] in H; try bad H; inv H; destruct H as (l' & H1 & H); inv H; destruct H as (r' & H2 & R);
      pose proof (IHl _ _ H1 F1) as G1; pose proof (IHr _ _ H2 F2) as G2;
      first [ exact (Num _ l' r' t' G1 G2 R)
            | apply comp_runs in R as [(b & ->)| ->]; [exact I|split; assumption]
            | destruct l', r'; apply runs_ret in R as ->; exact I || (split; assumption) ].
Qed.

Lemma folded_stays m t t' : folded m t t' -> formed t -> formed t'.
Proof. exact (fold_stays t m t'). Qed.
Lemma lit_stays l l' : folded_lit l l' -> formed_lit l -> formed_lit l'.
Proof.
  assert (X : forall ts ts', Forall2 (folded MTerm) ts ts' -> fold_right and True (map formed ts) -> fold_right and True (map formed ts')).
  { induction 1 as [|x y ts ts' H _ IH]; [trivial|]. intros [F1 F2]. split; [exact (folded_stays _ _ _ H F1)|exact (IH F2)]. }
  intros (E & H1 & H2) (F1 & F2 & F3). unfold formed_lit, lit_ast. cbn [formed]. rewrite E. split; [assumption|]. split; eauto.
Qed.
Lemma form_stays f : forall f', folded_form f f' -> formed_form f -> formed_form f'.
Proof.
  assert (Body : forall b, Forall (fun f => forall f', folded_form f f' -> formed_form f -> formed_form f') b ->
    forall b', Forall2 folded_form b b' -> fold_right and True (map formed_form b) -> fold_right and True (map formed_form b')).
  { intros b F b' H. induction H as [|x y b b' Hx _ IH]; [trivial|]. inversion F; subst. intros [G1 G2]. split; [eauto|now apply IH]. }
  induction f as [ft t|c b IH|c ib eb IHi IHe|c b IH] using form_ind'; intros f' H; inversion H; subst; cbn [formed_form].
  - now apply (folded_stays MLog).
  - now apply (folded_stays MTerm).
  - now apply (folded_stays MTerm).
  - intros [G1 G2]. split; [now apply (folded_stays MLog c)|]. now apply (Body b).
  - intros (G1 & G2 & _). split; [now apply (folded_stays MLog c)|]. split; [now apply (Body ib)|exact I].
  - intros (G1 & G2 & G3). split; [now apply (folded_stays MLog c)|]. split; [now apply (Body ib)|].
    eapply Body; [exact IHe|eassumption|assumption].
  - intros [G1 G2]. split; [now apply (folded_stays MLog c)|]. now apply (Body b).
Qed.
Lemma plan_stays p p' : folded_plan p p' -> formed_plan p -> formed_plan p'.
Proof.
  intros (H1 & (E1 & E2 & H2) & H3 & H4) (F1 & (F2 & F5) & F3 & F4). unfold formed_plan, formed_event. rewrite E2.
  split; [|split; [split; [assumption|exact (lit_stays _ _ H2 F5)]|split]].
  - intros l El. rewrite El in H1. inversion H1 as [|x x' Hx Ex]; subst. eapply lit_stays; [exact Hx|now apply F1].
  - intros l El. rewrite El in H3. inversion H3 as [|x x' Hx Ex]; subst. eapply folded_stays; [exact Hx|now apply F3].
  - intros l El. rewrite El in H4. inversion H4 as [|x x' Hx Ex]; subst. destruct (F4 x) as [F6 F7]; [congruence|]. split.
    + destruct Hx; [congruence|discriminate].
    + clear - Hx F7. induction Hx as [|a b l l' Hab _ IH]; [constructor|]. inversion F7; subst. constructor; [|now apply IH]. eapply form_stays; eassumption.
Qed.
Lemma all_stay {A} (R : A -> A -> Prop) (Q : A -> Prop) l l' : (forall x y, R x y -> Q x -> Q y) -> Forall2 R l l' -> Forall Q l -> Forall Q l'.
Proof. intros H F. induction F; intros G; [constructor|]. inversion G; subst. constructor; eauto. Qed.
Lemma validated_formed g g' : validated g g' -> formed_agent g -> formed_agent g'.
Proof.
  intros ((H1 & H2 & H3 & H4) & _) (F1 & F2 & F3 & F4). repeat split.
  - revert H1 F1. apply all_stay. intros r r' [G1 G2] [G3 G4]. split; [exact (lit_stays _ _ G1 G3)|exact (folded_stays _ _ _ G2 G4)].
  - exact (all_stay _ _ _ _ lit_stays H2 F2).
  - exact (all_stay _ _ _ _ lit_stays H3 F3).
  - exact (all_stay _ _ _ _ plan_stays H4 F4).
Qed.

(** ** Programs *)
Variable files : pystr -> file.

Lemma program_formed file within l g : (forall path lines, files path = File lines -> Forall (Forall code_point) lines) ->
  program files file within l g -> Forall fine_tok l -> formed_agent g.
Proof.
  intros Hc H. induction H as [file within|file within a c l g Ho _ IH|file within a name path lines b h h' l g Ha Hpath Hin Hfile Htok _ IHb Hv _ IH
                 |file within a b h h' c l g Ha _ IHb Hv He _ IH]; intros F.
  - repeat split; constructor.
  - apply Forall_app in F as [F1 F2]. apply followed_formed; [now apply (clause_formed a)|auto].
  - apply Forall_app in F as [F1 F2]. apply followed_formed; [|auto]. apply (validated_formed h); [assumption|]. apply IHb.
    apply (tokens_fine 1 lines); [now apply (Hc path)|assumption].
  - apply Forall_app in F as [F1 F2]. apply Forall_app in F2 as [F2 F3]. apply Forall_app in F3 as [F3 F4].
    apply followed_formed; [|auto]. apply (validated_formed h); [assumption|]. auto.
Qed.

Theorem source_formed n name lines g : (forall path lines', files path = File lines' -> Forall (Forall code_point) lines') ->
  Forall (Forall code_point) lines -> parse_source files n name lines = Ok g -> formed_agent g.
Proof.
  intros Hf Hc H. apply source_says in H as (l & h & Et & Hp & Hv). apply (validated_formed h); [assumption|].
  eapply program_formed; [exact Hf|exact Hp|]. now apply (tokens_fine 1 lines).
Qed.

Theorem exact_agent_readable g : formed_agent g -> exact_agent g -> readable_agent g.
Proof.
  intros (F1 & F2 & F3 & F4) (E1 & E2 & E3 & E4). unfold readable_agent. rewrite !Forall_forall in *. split; [|split; [|split]].
  - intros r Hr. destruct (F1 r Hr), (E1 r Hr). split; apply exact_readable; assumption.
  - intros l Hl. apply exact_readable; auto. exact (F2 l Hl).
  - intros l Hl. apply exact_readable; auto. exact (F3 l Hl).
  - intros l Hl. apply exact_plan_readable; auto.
Qed.
End WithPy.
