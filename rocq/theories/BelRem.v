(** Removing beliefs. *)
From Verif Require Import Base Num Term Unify TrailFacts FuelFacts ChainFacts TermSpec WildSpec InstSpec PyEq SetFacts UnifySem UnifyTerm UnifyWild FreezeFacts GroundFacts PatMatch AnnotSpec UnifyPres AnnotFacts AnnotFlat PatTotal UannTotal ClosedScope.
From Verif Require Import Str World Engine FuelEngine QuerySpec QueryBase QueryFacts QueryComplete Effects EffFacts Step Ast Names Build Reach ReachFacts BelFacts BelSpec BelAdd.

Section WithPy.
Context {PY : Py} {FR : Front}.
Hypothesis L : PyLawful PY.

Lemma uann_finds n v b st cp st' : uann n v b st = (Ok (Some cp), st') -> finds (b_scope st) v b (b_scope st').
Proof.
  intro E. destruct (uann_same n v b st (b_scope st) eq_refl) as [E1 E2]. rewrite E in E1, E2.
  destruct (uann n v b (mkbst (b_scope st) [] 0)) as [[[cp0|]|e] st0] eqn:E0; try contradiction E1. exists n, cp0, st0. split; [exact E0|]. cbn in E2. congruence.
Qed.
Lemma uann_misses n v b st st' : uann n v b st = (Ok None, st') -> misses (b_scope st) v b.
Proof.
  intro E. destruct (uann_same n v b st (b_scope st) eq_refl) as [E1 E2]. rewrite E in E1, E2.
  destruct (uann n v b (mkbst (b_scope st) [] 0)) as [[[cp0|]|e] st0] eqn:E0; try contradiction E1. exists n, st0. exact E0.
Qed.
Lemma finds_uann s v b s' st : finds s v b s' -> b_scope st = s -> exists n cp st', uann n v b st = (Ok (Some cp), st') /\ b_scope st' = s'.
Proof.
  intros (n & cp & st0 & E & <-) Hs. destruct (uann_same n v b st s Hs) as [E1 E2]. rewrite E in E1, E2.
  destruct (uann n v b st) as [[[cp0|]|e] st1] eqn:E0; try contradiction E1. exists n, cp0, st1. split; [exact E0|]. symmetry. exact E2.
Qed.
Lemma misses_uann s v b st : misses s v b -> b_scope st = s -> exists n st', uann n v b st = (Ok None, st').
Proof.
  intros (n & st0 & E) Hs. destruct (uann_same n v b st s Hs) as [E1 E2]. rewrite E in E1, E2.
  destruct (uann n v b st) as [[[cp0|]|e] st1] eqn:E0; try contradiction E1. eauto.
Qed.
Lemma finds_misses s v b s' : finds s v b s' -> misses s v b -> False.
Proof.
  intros (n & cp & st & E & _) (m & st' & E'). apply (uann_more n (n + m)) in E; [|lia]. apply (uann_more m (n + m)) in E'; [|lia]. congruence.
Qed.
Lemma finds_unique s v b s1 s2 : finds s v b s1 -> finds s v b s2 -> s1 = s2.
Proof.
  intros (n & cp & st & E & <-) (m & cp' & st' & E' & <-). apply (uann_more n (n + m)) in E; [|lia]. apply (uann_more m (n + m)) in E'; [|lia]. congruence.
Qed.

(** A failed attempt leaves nothing behind. *)
Lemma miss_restores n cp v b st st1 : uann n v b (push_cp cp st) = (Ok None, st1) ->
  b_scope (reroll st1 cp) = b_scope st /\ b_stack (reroll st1 cp) = b_stack st.
Proof.
  intro E. apply uann_none_exact in E as [E1 E2]. unfold reroll. rewrite E1, E2. cbn. rewrite N.eqb_refl. now split.
Qed.

Lemma rem_loop_spec n cp v bs : forall k st o st', rem_loop n cp v bs k st = (Ok o, st') ->
  match o with
  | None => Forall (misses (b_scope st) v) bs /\ b_scope st' = b_scope st /\ b_stack st' = b_stack st
  | Some j => exists l1 b l2, bs = l1 ++ b :: l2 /\ j = (k + List.length l1)%nat /\ Forall (misses (b_scope st) v) l1 /\
      finds (b_scope st) v b (b_scope st')
  end.
Proof.
  induction bs as [|b bs IH]; intros k st o st' E; cbn in E.
  - inversion E; subst. repeat split. constructor.
  - unfold unifies_annotated_in in E. destruct (uann n v b (push_cp cp st)) as [[[c|]|e] st1] eqn:Eu; try discriminate E.
    + inversion E; subst. exists [], b, bs. split; [reflexivity|]. split; [cbn; lia|]. split; [constructor|].
      exact (uann_finds _ _ _ _ _ _ Eu).
    + destruct (miss_restores _ _ _ _ _ _ Eu) as [S1 S2]. apply uann_misses in Eu. change (b_scope (push_cp cp st)) with (b_scope st) in Eu.
      specialize (IH _ _ _ _ E). destruct o as [j|].
      * destruct IH as (l1 & b1 & l2 & -> & -> & F & Hf). rewrite S1 in F, Hf.
        exists (b :: l1), b1, l2. split; [reflexivity|]. split; [cbn; lia|]. split; [now constructor|exact Hf].
      * destruct IH as (F & A & B). rewrite S1 in *. rewrite S2 in B. split; [now constructor|]. now split.
Qed.

Lemma remove_at_app {A} (l1 : list A) b l2 : firstn (List.length l1) (l1 ++ b :: l2) ++ skipn (S (List.length l1)) (l1 ++ b :: l2) = l1 ++ l2.
Proof.
  rewrite firstn_app, firstn_all, Nat.sub_diag. cbn [firstn]. rewrite app_nil_r. f_equal.
  rewrite skipn_app, skipn_all2 by lia. replace (S (List.length l1) - List.length l1)%nat with 1%nat by lia. reflexivity.
Qed.

Theorem remove_belief_spec n a t st W r st' W' : reach W -> (a < List.length (w_agents W))%nat ->
  remove_belief n a t (st, W) = (Ok r, (st', W')) ->
  exists f args annots, let v := TLit f args annots in let g := (f, List.length args) in
    evaluate n t (b_scope st) = Ok v /\
    (forall a' g', g' <> g -> beliefs a' g' W' = beliefs a' g' W) /\
    if r : bool then
      exists l1 b l2, beliefs a g W = l1 ++ b :: l2 /\ beliefs a g W' = l1 ++ l2 /\
        Forall (misses (b_scope st) v) l1 /\ finds (b_scope st) v b (b_scope st')
    else
      Forall (misses (b_scope st) v) (beliefs a g W) /\ (forall a', beliefs a' g W' = beliefs a' g W) /\
      b_scope st' = b_scope st /\ b_stack st' = b_stack st.
Proof.
  intros HR Ha E. destruct (reach_bel_inv L W HR) as [ty HI]. unfold remove_belief, mbind, m_evaluate in E. cbn [fst snd] in E.
  destruct (evaluate n t (b_scope st)) as [v|] eqn:Ev; [|discriminate E].
  destruct v as [| | | | | | |f args annots| |]; try discriminate E. exists f, args, annots. cbn zeta. split; [reflexivity|].
  unfold m_new_cp, on_st, on_world, m_world in E. cbn [fst snd new_cp] in E.
  destruct (bel_ref a (f, List.length args) W) as [rf W1] eqn:Er. cbn [fst snd] in E.
  destruct (bel_ref_spec a _ W rf W1 ty HI Ha Er) as (A1 & A2 & A3 & A4 & _).
  assert (HI1 : exists ty1, bel_inv ty1 W1).
  { destruct (bel_inv_belref ty W a (f, List.length args) HI) as [ty1 H1]. rewrite Er in H1. eauto. }
  destruct HI1 as [ty1 HI1].
  match type of E with context [rem_loop n ?cp ?v ?bs 0 ?st0] => destruct (rem_loop n cp v bs 0 st0) as [[o|e] st1] eqn:El end;
    cbn [fst snd] in E; [|discriminate E].
  apply rem_loop_spec in El. cbn [b_scope b_stack] in El. rewrite A3 in El. destruct o as [j|].
  - inversion E; subst. destruct El as (l1 & b & l2 & Eb & -> & F & Hf).
    destruct (beliefs_upd W1 rf (set_remove_at (get_set W1 rf) (0 + List.length l1)) ty1 a _ HI1 A1) as [B1 B2].
    split; [intros a' g' Hg; rewrite B2 by assumption; apply A4|].
    exists l1, b, l2. split; [exact Eb|]. split; [|now split].
    rewrite B1. unfold set_remove_at. cbn [s_elems]. rewrite A3, Eb. apply remove_at_app.
  - inversion E; subst. split; [intros; apply A4|]. destruct El as (F & S1 & S2). split; [exact F|]. split; [intro; apply A4|now split].
Qed.

(** It always comes to an end. *)
Lemma uann_finishes ex v b st : dplain (b_scope st) ex v -> gclosed b -> dgood (b_scope st) ex (b_scope st) ->
  (exists s', finds (b_scope st) v b s') \/ misses (b_scope st) v b.
Proof.
  intros Hv Hb Hs. destruct (uann_decides (b_scope st) ex v b st Hv Hb Hs) as [(n & o & st' & E & _) _].
  destruct o as [cp|]; [left; eexists; eapply uann_finds; exact E|right; eapply uann_misses; exact E].
Qed.

Lemma rem_loop_total cp v bs st : Forall (fun b => (exists s', finds (b_scope st) v b s') \/ misses (b_scope st) v b) bs ->
  exists n0, forall n, (n0 <= n)%nat -> forall k st1, b_scope st1 = b_scope st -> exists o st', rem_loop n cp v bs k st1 = (Ok o, st').
Proof.
  induction 1 as [|b bs Hb HF [n1 IH]]; [exists 0%nat; intros; cbn; eauto|].
  destruct Hb as [[s' (n & cp0 & st0 & E & _)]|(n & st0 & E)]; exists (n + n1)%nat; intros m Hm k st1 Hs; cbn; unfold unifies_annotated_in;
    (apply (uann_more n m) in E; [|lia]); destruct (uann_same m v b (push_cp cp st1) (b_scope st) Hs) as [E1 E2]; rewrite E in E1, E2;
    destruct (uann m v b (push_cp cp st1)) as [[[c|]|e] st2] eqn:Eu; try contradiction E1.
  - eauto.
  - apply IH; [lia|]. destruct (miss_restores _ _ _ _ _ _ Eu) as [S1 _]. congruence.
Qed.

Theorem remove_belief_total a t st W v f args annots : reach W -> (a < List.length (w_agents W))%nat ->
  v = TLit f args annots -> evals (b_scope st) t v ->
  Forall (fun b => (exists s', finds (b_scope st) v b s') \/ misses (b_scope st) v b) (beliefs a (lit_group v) W) ->
  exists n0, forall n, (n0 <= n)%nat -> exists r st' W', remove_belief n a t (st, W) = (Ok r, (st', W')).
Proof.
  intros HR Ha -> [n1 Ev] HF. cbn [lit_group] in HF. destruct (reach_bel_inv L W HR) as [ty HI].
  destruct (bel_ref a (f, List.length args) W) as [rf W1] eqn:Er.
  destruct (bel_ref_spec a _ W rf W1 ty HI Ha Er) as (A1 & A2 & A3 & A4 & _).
  destruct (rem_loop_total (b_ncp st) (TLit f args annots) _ st HF) as [n2 HL].
  exists (n1 + n2)%nat. intros n Hn. unfold remove_belief, mbind, m_evaluate. cbn [fst snd]. rewrite (evaluate_more n1 n _ _ _ ltac:(lia) Ev).
  unfold m_new_cp, on_st, on_world, m_world. cbn [fst snd new_cp]. rewrite Er. cbn [fst snd]. rewrite A3.
  destruct (HL n ltac:(lia) 0%nat (mkbst (b_scope st) (b_stack st) (N.succ (b_ncp st))) eq_refl) as (o & st1 & E). rewrite E. cbn [fst snd].
  destruct o; do 3 eexists; reflexivity.
Qed.

(** What matching means for a literal without annotations. *)
Lemma cval_flat ex c : closed c -> cval ex c = flat_value c.
Proof.
  unfold cval, flat_value, TermSpec.value.
  induction c using term_ind'; intro Hc; inversion Hc; subst; try reflexivity.
  - cbn [den]. f_equal. apply map_ext_in. intros a Ha. rewrite Forall_forall in *. auto.
  - match goal with HF : Forall closed ts |- _ => rename HF into HP end. clear Hc.
    induction ts as [|a ts IH]; [reflexivity|]. inversion H; inversion HP; subst.
    rewrite !den_tup_cons. f_equal; auto.
  - cbn [den]. f_equal; auto.
Qed.

Lemma finds_could ex s f args b s' : wplain s ex (TLit f args []) -> closed b -> plain_scope s ex s -> chain_ok s ->
  is_literal b = true ->
  finds s (TLit f args []) b s' -> forall th, agrees ex th s' <-> agrees ex th s /\ vmatch ex th (TLit f args []) (flat_value b).
Proof.
  intros Hv Hb Hp Hc Hl (n & cp & st' & E & <-). destruct n as [|n]; [discriminate E|]. rewrite uann_S in E. cbn [new_cp] in E.
  set (st0 := push_cp (b_ncp (mkbst s [] 0)) (mkbst s [] (N.succ 0))) in *.
  assert (Hg : good ex s s) by (split; [assumption|split; [assumption|apply extends_refl]]).
  destruct b as [| | | | | | |f' args' ras| |]; try discriminate Hl.
  assert (HU : exists st1, unify n (TLit f args []) (TLit f' args' ras) st0 = (Ok true, st1) /\ b_scope st1 = b_scope st').
  { destruct n as [|n]; [discriminate E|]. rewrite closed_evaluate in E by assumption.
    cbn [annots_match] in E. fold st0 in E.
    change (b_scope (snd (b_ncp {| b_scope := s; b_stack := []; b_ncp := 0 |}, {| b_scope := s; b_stack := []; b_ncp := N.succ 0 |}))) with s in E.
    match type of E with context [unify (S n) ?l ?r ?x] => destruct (unify (S n) l r x) as [[[]|] st1] eqn:Eu end; try discriminate E.
    exists st1. split; [exact Eu|]. now inversion E. }
  destruct HU as (st1 & Eu & <-).
  destruct (unify_psound s ex n (TLit f args []) (TLit f' args' ras) st0 true st1 Hv Hb Hg) as [HP _]. rewrite <- (cval_flat ex) by assumption. exact (proj2 (HP Eu)).
Qed.

Lemma misses_could ex s f args b : wplain s ex (TLit f args []) -> closed b -> plain_scope s ex s -> chain_ok s ->
  is_literal b = true -> misses s (TLit f args []) b -> ~ could_match ex s (TLit f args []) b.
Proof.
  intros Hv Hb Hp Hc Hl (n & st' & E). destruct n as [|n]; [discriminate E|]. rewrite uann_S in E. cbn [new_cp] in E.
  set (st0 := push_cp (b_ncp (mkbst s [] 0)) (mkbst s [] (N.succ 0))) in *.
  assert (Hg : good ex s s) by (split; [assumption|split; [assumption|apply extends_refl]]).
  destruct b as [| | | | | | |f' args' ras| |]; try discriminate Hl.
  assert (HU : exists st1, unify n (TLit f args []) (TLit f' args' ras) st0 = (Ok false, st1)).
  { destruct n as [|n]; [discriminate E|]. rewrite closed_evaluate in E by assumption.
    cbn [annots_match] in E. fold st0 in E.
    match type of E with context [unify (S n) ?l ?r ?x] => destruct (unify (S n) l r x) as [[[]|] st1] eqn:Eu end; try discriminate E.
    exists st1. exact Eu. }
  destruct HU as (st1 & Eu).
  destruct (unify_psound s ex n (TLit f args []) (TLit f' args' ras) st0 false st1 Hv Hb Hg) as [HP _]. intros (th & A & B). rewrite <- (cval_flat ex) in B by assumption. exact (HP Eu th A B).
Qed.

(** * Abolishing *)

(** The loop keeps the beliefs that do not match, in order. *)
Lemma abolish_loop_spec n pat : forall bs l, abolish_loop n pat bs = (Ok tt, l) ->
  exists keep : term -> bool, l = filter keep bs /\ forall b, In b bs -> (keep b = true -> misses [] b pat) /\ (keep b = false -> exists s', finds [] b pat s').
Proof.
  intros bs l E.
  exists (fun b => match unifies_annotated n b pat with Ok true => false | _ => true end).
  revert l E. induction bs as [|b bs IH]; intros l E; cbn in E.
  - inversion E; subst. now split.
  - assert (Hb : forall x, unifies_annotated n b pat = Ok x -> if x : bool then exists s', finds [] b pat s' else misses [] b pat).
    { unfold unifies_annotated, unifies_annotated_in. intros x Hx.
      destruct (uann n b pat {| b_scope := []; b_stack := []; b_ncp := 0 |}) as [[[cp|]|e] st'] eqn:Eu; cbn in Hx; inversion Hx; subst.
      - exists (b_scope st'). now apply uann_finds in Eu.
      - now apply uann_misses in Eu. }
    destruct (unifies_annotated n b pat) as [[]|e] eqn:Eu.
    + destruct (IH _ E) as [-> H]. cbn. rewrite Eu. split; [reflexivity|]. intros c [<-|Hc]; [|auto]. rewrite Eu. split; [discriminate|]. intros _. exact (Hb true eq_refl).
    + destruct (abolish_loop n pat bs) as [r' l'] eqn:E'. inversion E; subst. destruct (IH _ eq_refl) as [-> H]. cbn. rewrite Eu. split; [reflexivity|].
      intros c [<-|Hc]; [|auto]. rewrite Eu. split; [|discriminate]. intros _. exact (Hb false eq_refl).
    + inversion E.
Qed.

Lemma filter_length_le' {A} (f : A -> bool) l : (List.length (filter f l) <= List.length l)%nat.
Proof. induction l as [|x l IH]; cbn; [lia|]. destruct (f x); cbn; lia. Qed.
Lemma filter_length_id {A} (f : A -> bool) l : List.length (filter f l) = List.length l -> filter f l = l.
Proof.
  induction l as [|x l IH]; cbn; [reflexivity|]. intro H. pose proof (filter_length_le' f l). destruct (f x); cbn in *; [f_equal; apply IH; lia|lia].
Qed.

Theorem abolish_spec n a t st W st' W' : reach W -> (a < List.length (w_agents W))%nat ->
  abolish n a t (st, W) = (Ok tt, (st', W')) ->
  st' = st /\ exists p m k, freeze n t (b_scope st) ([], w_nv W) = (Ok p, (m, k)) /\ is_literal p = true /\ (forall a' g', g' <> lit_group p -> beliefs a' g' W' = beliefs a' g' W) /\
    exists keep : term -> bool, beliefs a (lit_group p) W' = filter keep (beliefs a (lit_group p) W) /\ forall b, In b (beliefs a (lit_group p) W) ->
        (keep b = true -> misses [] b p) /\ (keep b = false -> exists s', finds [] b p s').
Proof.
  intros HR Ha E. destruct (reach_bel_inv L W HR) as [ty HI]. unfold abolish, mbind, m_freeze in E. cbn [fst snd] in E.
  match type of E with context [freeze n t ?s ?x] => destruct (freeze n t s x) as [[p|] [m k]] eqn:Ef end; cbn [fst snd] in E; [|discriminate E].
  destruct p as [| | | | | | |f args annots| |]; try discriminate E.
  unfold on_world, m_world in E. cbn [fst snd] in E.
  assert (HI0 : bel_inv ty (set_nv W k)) by exact HI.
  destruct (bel_ref a (f, List.length args) (set_nv W k)) as [rf W1] eqn:Er. cbn [fst snd] in E.
  destruct (bel_ref_spec a _ (set_nv W k) rf W1 ty HI0 Ha Er) as (A1 & A2 & A3 & A4 & _).
  assert (HI1 : exists ty1, bel_inv ty1 W1).
  { destruct (bel_inv_belref ty (set_nv W k) a (f, List.length args) HI0) as [ty1 H1]. rewrite Er in H1. eauto. }
  destruct HI1 as [ty1 HI1].
  assert (A5 : forall a' g', beliefs a' g' W1 = beliefs a' g' W) by (intros; rewrite A4; reflexivity).
  change (beliefs a (f, List.length args) (set_nv W k)) with (beliefs a (f, List.length args) W) in A3.
  destruct (abolish_loop n (TLit f args annots) (s_elems (get_set W1 rf))) as [x l] eqn:El.
  assert (HO : x = Ok tt -> exists keep : term -> bool, l = filter keep (beliefs a (f, List.length args) W) /\
      forall b, In b (beliefs a (f, List.length args) W) ->
        (keep b = true -> misses [] b (TLit f args annots)) /\ (keep b = false -> exists s', finds [] b (TLit f args annots) s')).
  { intros ->. rewrite A3 in El. now apply abolish_loop_spec in El. }
  rewrite A3 in *.
  destruct (Nat.eqb_spec (List.length l) (List.length (beliefs a (f, List.length args) W))) as [Hl|Hl].
  - unfold mret, lift in E. cbn [fst snd] in E. inversion E; subst. split; [reflexivity|].
    destruct (HO eq_refl) as (keep & -> & HK). apply filter_length_id in Hl.
    exists (TLit f args annots), m, k. split; [exact Ef|]. split; [reflexivity|]. cbn [lit_group]. split; [intros; apply A5|].
    exists keep. split; [|exact HK]. rewrite A5. now symmetry.
  - unfold put_world, lift in E. cbn [fst snd] in E. inversion E; subst. split; [reflexivity|].
    destruct (HO eq_refl) as (keep & -> & HK).
    destruct (beliefs_upd W1 rf (mkbset (N.succ (s_ver (get_set W1 rf))) (filter keep (beliefs a (f, List.length args) W))) ty1 a _ HI1 A1) as [B1 B2].
    exists (TLit f args annots), m, k. split; [exact Ef|]. split; [reflexivity|]. cbn [lit_group]. split; [intros a' g' Hg; rewrite B2 by assumption; apply A5|].
    exists keep. split; [|exact HK]. rewrite B1. reflexivity.
Qed.

(** A belief without annotations, against a pattern. *)
Lemma bare_uann n f args p x st' : closed (TLit f args []) -> is_literal p = true -> uann n (TLit f args []) p (mkbst [] [] 0) = (Ok x, st') ->
  exists m st1, unify m (TLit f args []) p (mkbst [] [ECP 0] 1) = (Ok (if x then true else false), st1) /\ (x <> None -> b_scope st1 = b_scope st').
Proof.
  intros Hc Hl E. destruct n as [|n]; [discriminate E|]. rewrite uann_S in E. destruct p as [| | | | | | |f' args' ras| |]; try discriminate Hl.
  destruct n as [|n]; [discriminate E|].
  assert (Ee : evaluate (S n) (TLit f' args' ras) [] = Ok (TLit f' args' ras)) by reflexivity.
  cbn [b_scope] in E. rewrite Ee in E. cbn [new_cp annots_match] in E.
  match type of E with context [unify (S n) ?l ?r ?y] => destruct (unify (S n) l r y) as [[[]|] st1] eqn:Eu end; inversion E; subst.
  - exists (S n), st'. split; [exact Eu|reflexivity].
  - exists (S n), st1. split; [exact Eu|easy].
Qed.

Lemma cscope_agrees s : cscope s -> exists th, agrees (fun t => t) th s.
Proof.
  intro Hs. exists (fun v => match lookup s v with Some t => flat_value t | None => VConst KNil end).
  intros v t E. rewrite E. fold (value (fun t => t) (fun v => match lookup s v with Some t => flat_value t | None => VConst KNil end) t).
  rewrite (closed_value (fun t => t)), cval_flat by eauto. reflexivity.
Qed.

Lemma good_nil : good (fun t => t) [] [].
Proof. split; [intros v t H; discriminate H|]. split; [exact chain_ok_nil|apply extends_refl]. Qed.

Theorem bare_finds f args p s' : closed (TLit f args []) -> wplain [] (fun t => t) p -> is_literal p = true ->
  finds [] (TLit f args []) p s' -> could_match (fun t => t) [] p (TLit f args []).
Proof.
  intros Hc Hp Hl (n & cp & st' & E & <-). destruct (bare_uann _ _ _ _ _ _ Hc Hl E) as (m & st1 & Eu & Es).
  assert (HC : cscope (b_scope st1)).
  { eapply unify_cpres; [exact Hc| |right; exact Eu]. intros v t H; discriminate H. }
  destruct (cscope_agrees _ HC) as [th Hth].
  destruct (unify_psound [] (fun t => t) m p (TLit f args []) (mkbst [] [ECP 0] 1) true st1 Hp Hc good_nil) as [_ HP].
  destruct (HP Eu) as [_ HS]. apply HS in Hth. exists th. rewrite <- (cval_flat (fun t => t)) by assumption. exact Hth.
Qed.

Theorem bare_misses f args p : closed (TLit f args []) -> wplain [] (fun t => t) p -> is_literal p = true ->
  misses [] (TLit f args []) p -> ~ could_match (fun t => t) [] p (TLit f args []).
Proof.
  intros Hc Hp Hl (n & st' & E). destruct (bare_uann _ _ _ _ _ _ Hc Hl E) as (m & st1 & Eu & _).
  destruct (unify_psound [] (fun t => t) m p (TLit f args []) (mkbst [] [ECP 0] 1) false st1 Hp Hc good_nil) as [_ HP].
  intros (th & A & B). rewrite <- (cval_flat (fun t => t)) in B by assumption. exact (HP Eu th A B).
Qed.
End WithPy.
