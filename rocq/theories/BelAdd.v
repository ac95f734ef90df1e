(** Adding a belief and querying it. *)
From Verif Require Import Base Num Term Unify TrailFacts FuelFacts ChainFacts TermSpec WildSpec InstSpec PyEq SetFacts UnifySem UnifyTerm FreezeFacts GroundFacts PatMatch AnnotSpec AnnotFacts AnnotFlat GroundPat GroundUann.
From Verif Require Import Str World Engine FuelEngine QuerySpec Effects EffFacts Step Ast Names Build Reach ReachFacts BelFacts BelSpec.

Section WithPy.
Context {PY : Py} {FR : Front}.
Hypothesis L : PyLawful PY.

Lemma assoc_app_l {V} g (l l' : list (group * V)) r : assoc group_eqb g l = Some r -> assoc group_eqb g (l ++ l') = Some r.
Proof. induction l as [|[k v] l IH]; cbn; [discriminate|]. destruct (group_eqb g k); auto. Qed.
Lemma assoc_app_none {V} g h (v : V) l : assoc group_eqb g l = None -> assoc group_eqb g (l ++ [(h, v)]) = if group_eqb g h then Some v else None.
Proof. induction l as [|[k w] l IH]; cbn; [reflexivity|]. destruct (group_eqb g k); [discriminate|auto]. Qed.
Lemma group_eqb_refl g : group_eqb g g = true.
Proof. now apply group_eqb_eq. Qed.

Lemma get_agent_same W a x : (a < List.length (w_agents W))%nat -> get_agent (put_agent W a x) a = x.
Proof. intro H. unfold get_agent, put_agent. cbn. now apply upd_same. Qed.
Lemma get_agent_other W a b x : a <> b -> get_agent (put_agent W a x) b = get_agent W b.
Proof. intro H. unfold get_agent, put_agent. cbn. apply upd_other. congruence. Qed.

(** Looking up the set of a group. *)
Lemma bel_ref_spec a g W r W1 ty : bel_inv ty W -> (a < List.length (w_agents W))%nat -> bel_ref a g W = (r, W1) ->
  assoc group_eqb g (a_bel (get_agent W1 a)) = Some r /\ (r < List.length (w_sets W1))%nat /\
  s_elems (get_set W1 r) = beliefs a g W /\
  (forall a' g', beliefs a' g' W1 = beliefs a' g' W) /\
  List.length (w_agents W1) = List.length (w_agents W) /\
  (forall a', a_ints (get_agent W1 a') = a_ints (get_agent W a') /\ a_plans (get_agent W1 a') = a_plans (get_agent W a') /\ a_rules (get_agent W1 a') = a_rules (get_agent W a')) /\
  w_ints W1 = w_ints W /\ w_plists W1 = w_plists W /\ w_env W1 = w_env W /\ w_nv W1 = w_nv W.
Proof.
  intros [I1 I2] Ha E. unfold bel_ref in E. unfold beliefs. destruct (assoc group_eqb g (a_bel (get_agent W a))) as [r0|] eqn:El.
  - inversion E; subst. split; [exact El|]. split; [eapply I1; eassumption|]. repeat split; reflexivity.
  - inversion E; subst. clear E.
    set (x := set_a_bel (get_agent W a) (a_bel (get_agent W a) ++ [(g, List.length (w_sets W))])).
    set (W1 := set_sets W (w_sets W ++ [mkbset 0 []])).
    assert (HS : get_agent (put_agent W1 a x) a = x) by now apply get_agent_same.
    split; [rewrite HS; cbn; rewrite assoc_app_none by exact El; now rewrite group_eqb_refl|].
    split; [cbn; rewrite app_length; cbn; lia|]. split.
    { unfold get_set. cbn. rewrite app_nth2, Nat.sub_diag by lia. reflexivity. }
    split.
    { intros a' g'. 
      assert (HO : forall r', (r' < List.length (w_sets W))%nat -> get_set (put_agent W1 a x) r' = get_set W r').
      { intros r' Hr. unfold get_set. cbn. now rewrite app_nth1. }
      destruct (Nat.eq_dec a a') as [<-|Hn].
      - rewrite HS. cbn. destruct (assoc group_eqb g' (a_bel (get_agent W a))) as [r'|] eqn:E'.
        + rewrite (assoc_app_l _ _ _ _ E'). f_equal. apply HO. eapply I1; eassumption.
        + rewrite assoc_app_none by exact E'. destruct (group_eqb g' g); [|reflexivity].
          unfold get_set. cbn. rewrite app_nth2, Nat.sub_diag by lia. reflexivity.
      - rewrite get_agent_other by assumption. change (get_agent W1 a') with (get_agent W a').
        destruct (assoc group_eqb g' (a_bel (get_agent W a'))) as [r'|] eqn:E'; [|reflexivity]. f_equal. apply HO. eapply I1; eassumption. }
    split; [cbn; now rewrite upd_length|]. split; [|repeat split].
    intro a'. destruct (Nat.eq_dec a a') as [<-|Hn]; [rewrite HS; repeat split|rewrite get_agent_other by assumption; repeat split].
Qed.

(** Changing the contents of a set. *)
Lemma beliefs_upd W r s ty a g : bel_inv ty W -> assoc group_eqb g (a_bel (get_agent W a)) = Some r ->
  let W' := set_sets W (upd (w_sets W) r s) in
  beliefs a g W' = s_elems s /\ forall a' g', g' <> g -> beliefs a' g' W' = beliefs a' g' W.
Proof.
  intros [I1 I2] El W'. destruct (I1 _ _ _ El) as [Hr Ht]. unfold beliefs, W'. cbn [set_sets]. split.
  - change (get_agent (set_sets W (upd (w_sets W) r s)) a) with (get_agent W a). rewrite El. unfold get_set. cbn. now rewrite upd_same.
  - intros a' g' Hg. change (get_agent (set_sets W (upd (w_sets W) r s)) a') with (get_agent W a').
    destruct (assoc group_eqb g' (a_bel (get_agent W a'))) as [r'|] eqn:E'; [|reflexivity].
    destruct (I1 _ _ _ E') as [_ Ht']. unfold get_set. cbn. rewrite upd_other; [reflexivity|]. intros ->. congruence.
Qed.

(** What add_belief does. *)
Theorem add_belief_inv ty n a t st W st' W' : bel_inv ty W -> (a < List.length (w_agents W))%nat ->
  add_belief n a t (st, W) = (Ok tt, (st', W')) ->
  st' = st /\ exists f args annots, let b := TLit f args annots in let g := (f, List.length args) in
    grounded n t (b_scope st) = Ok b /\
    (if py_in b (beliefs a g W) then beliefs a g W' = beliefs a g W
     else Permutation.Permutation (beliefs a g W') (b :: beliefs a g W)) /\
    (forall a' g', g' <> g -> beliefs a' g' W' = beliefs a' g' W) /\
    (exists r, assoc group_eqb g (a_bel (get_agent W' a)) = Some r).
Proof.
  intros HI Ha E. unfold add_belief in E.
  destruct (has_grounded t); [|discriminate E]. unfold mbind, m_grounded in E. cbn [fst snd] in E.
  destruct (grounded n t (b_scope st)) as [v|] eqn:Eg; [|discriminate E].
  destruct v as [| | | | | | |f args annots| |]; try discriminate E.
  unfold on_world in E. cbn [snd fst] in E.
  destruct (bel_ref a (f, List.length args) W) as [r W1] eqn:Er. cbn [snd fst] in E. inversion E; subst. clear E.
  split; [reflexivity|]. exists f, args, annots. cbn zeta. split; [reflexivity|].
  destruct (bel_ref_spec a _ W r W1 ty HI Ha Er) as (A1 & A2 & A3 & A4 & _).
  assert (HI1 : exists ty1, bel_inv ty1 W1).
  { destruct (bel_inv_belref ty W a (f, List.length args) HI) as [ty1 H1]. rewrite Er in H1. eauto. }
  destruct HI1 as [ty1 HI1].
  destruct (beliefs_upd W1 r (set_add (get_set W1 r) (TLit f args annots)) ty1 a _ HI1 A1) as [B1 B2].
  split; [|split].
  - rewrite B1. unfold set_add. rewrite A3. destruct (py_in _ _); [exact A3|]. cbn. apply L.
  - intros a' g' Hg. rewrite B2 by assumption. apply A4.
  - exists r. exact A1.
Qed.

Theorem add_belief_run n a t st W st' W' : reach W -> (a < List.length (w_agents W))%nat ->
  add_belief n a t (st, W) = (Ok tt, (st', W')) ->
  st' = st /\ exists f args annots, let b := TLit f args annots in let g := (f, List.length args) in
    grounded n t (b_scope st) = Ok b /\
    (if py_in b (beliefs a g W) then beliefs a g W' = beliefs a g W
     else Permutation.Permutation (beliefs a g W') (b :: beliefs a g W)) /\
    (forall a' g', g' <> g -> beliefs a' g' W' = beliefs a' g' W) /\
    (exists r, assoc group_eqb g (a_bel (get_agent W' a)) = Some r).
Proof. intro HR. destruct (reach_bel_inv L W HR) as [ty HI]. exact (add_belief_inv ty n a t st W st' W' HI). Qed.

(** The query loop over the beliefs finds something. *)
Lemma bel_loop a i t ref W s rest : chain_ok s ->
  (forall b st, In b rest -> at_s s st -> exists n o st', uann n t b st = (Ok o, st') /\ at_s s st') ->
  forall b0, In b0 rest -> (forall n st st', at_s s st -> uann n t b0 st <> (Ok None, st')) ->
  forall sz st, at_s s st ->
  exists n g st', resume n a i (GBel None t ref (s_ver (get_set W ref)) sz rest) (st, W) = (Ok (Some g), (st', W)) /\ at_s s st'.
Proof.
  intros Hch Hd. induction rest as [|b rest IH]; intros b0 Hin Hb0 sz st Hs; [destruct Hin|].
  assert (HR : forall m, resume (S m) a i (GBel None t ref (s_ver (get_set W ref)) sz (b :: rest)) (st, W) =
       match uann m t b st with
       | (Ok (Some cp), st1) => (Ok (Some (GBel (Some cp) t ref (s_ver (get_set W ref)) sz rest)), (st1, W))
       | (Ok None, st1) => resume m a i (GBel None t ref (s_ver (get_set W ref)) sz rest) (st1, W)
       | (Err e, st1) => (Err e, (st1, W))
       end).
  { intro m. unfold resume. cbn [engine e_resume resume_body]. unfold mbind, m_world, lift, iter_check, m_uann, on_st. cbn [fst snd].
    rewrite N.eqb_refl. cbn [fst snd]. destruct (uann m t b st) as [[[|]|] st1]; reflexivity. }
  destruct (Hd b st (or_introl eq_refl) Hs) as (n & o & st1 & E & S1). destruct o as [cp|].
  - exists (S n), (GBel (Some cp) t ref (s_ver (get_set W ref)) sz rest), st1. rewrite HR, E. now split.
  - assert (Hin' : In b0 rest) by (destruct Hin as [->|Hin]; [exfalso; exact (Hb0 _ _ _ Hs E)|exact Hin]).
    destruct (IH (fun b st Hb => Hd b st (or_intror Hb)) b0 Hin' Hb0 sz st1 S1) as (m & g & st2 & E2 & S2).
    exists (S (n + m)), g, st2. split; [|exact S2]. rewrite HR, (uann_more n (n + m) _ _ _ _ _ ltac:(lia) E).
    rewrite (resume_more m (n + m)) by (try lia; rewrite E2; discriminate). exact E2.
Qed.

Lemma same_length_distinct items annots : set_of items annots -> Forall nonan annots -> List.length items = List.length annots -> distinct items.
Proof.
  intros (H1 & H2 & H3) Hn Hl.
  assert (HN : NoDup annots).
  { clear - H3 Hn. induction H3 as [|x l Hx Hl IH]; [constructor|]. inversion Hn; subst. constructor; [|auto].
    intro Hi. rewrite Forall_forall in Hx. apply Hx in Hi. rewrite py_eqb_refl in Hi by assumption. discriminate. }
  assert (HP : Permutation.Permutation annots items) by (apply Permutation.NoDup_Permutation_bis; [assumption|lia|assumption]).
  eapply distinct_perm; [exact HP|exact H3].
Qed.


Theorem added_found n a t st W st' W' b i :
  reach W -> (a < List.length (w_agents W))%nat -> chain_ok (b_scope st) ->
  add_belief n a t (st, W) = (Ok tt, (st', W')) ->
  grounded n t (b_scope st) = Ok b -> plain_belief b ->
  (forall v, evals (b_scope st) t v -> List.length (lit_annots v) = List.length (lit_annots b)) ->
  (forall c, In c (beliefs a (lit_group b) W) -> plain_belief c /\ (py_eqb c b = true -> covers c b)) ->
  exists n0 g st2, (forall m, (n0 <= m)%nat -> resume m a i (GQ (QTerm t)) (st', W') = (Ok (Some g), (st2, W'))) /\
    b_scope st2 = b_scope st.
Proof.
  intros HR Ha Hch E Eg Hpb Hlen Hc. set (s := b_scope st) in *.
  destruct (add_belief_run n a t st W st' W' HR Ha E) as (-> & f & args & annots & Hrun). cbn zeta in Hrun.
  destruct Hrun as (Eg' & Hset & _ & [r Er]). fold s in Eg'. assert (b = TLit f args annots) by congruence. subst b. clear Eg'.
  cbn [lit_group] in Hc. destruct Hpb as [Hca Hfa].
  destruct (grounded_inst L _ _ _ _ Eg) as [Hi Hg].
  destruct (ginst_evaluate s Hch t (TLit f args annots) Hi ltac:(now constructor)) as (n0 & q & Ev & Hq & Hk).
  assert (Hql : exists pargs las, q = TLit f pargs las) by (inversion Hq; subst; try contradiction Hk; eauto).
  destruct Hql as (pargs & las & ->). inversion Hq as [| | | | | | | |? ? ? ? items ? HA HI HS| |]; subst.
  assert (Hdi : distinct items).
  { eapply same_length_distinct; [exact HS| |].
    - eapply Forall_impl; [|exact Hfa]. intros x Hx. now apply flat_nonan.
    - specialize (Hlen (TLit f pargs las) (ex_intro _ n0 (Ev n0 (le_n _)))). cbn in Hlen. rewrite <- (Forall2_len _ _ _ HI). exact Hlen. }
  assert (Hfi : Forall flat items).
  { (* each item is in the set, as sizes agree *)
    destruct HS as (S1 & S2 & S3).
    specialize (Hlen (TLit f pargs las) (ex_intro _ n0 (Ev n0 (le_n _)))). cbn in Hlen. rewrite (Forall2_len _ _ _ HI) in Hlen.
    assert (HN : NoDup annots).
    { clear - S3 Hfa. induction S3 as [|x l Hx Hl IH]; [constructor|]. inversion Hfa; subst. constructor; [|auto].
      intro Hi. rewrite Forall_forall in Hx. apply Hx in Hi. rewrite py_eqb_refl in Hi by (now apply flat_nonan). discriminate. }
    assert (HP : Permutation.Permutation annots items) by (apply Permutation.NoDup_Permutation_bis; [assumption|lia|assumption]).
    eapply Permutation.Permutation_Forall; [exact HP|exact Hfa]. }
  assert (Hitems : incl items annots).
  { intros x Hx. destruct HS as (S1 & S2 & S3). destruct (S2 x Hx) as (y & Hy & [<-|Hxy]); [assumption|].
    assert (y = x); [|now subst]. apply (distinct_same items y x); auto.
    eapply Forall_impl; [|exact Hfi]. intros z Hz. now apply flat_nonan. }
  (* the beliefs stored afterwards *)
  assert (HW' : forall c, In c (beliefs a (f, List.length args) W') -> exists cargs cann, c = TLit f cargs cann /\ Forall closed cargs /\ Forall flat cann /\ distinct cann).
  { destruct (beliefs_wf L W a (f, List.length args) HR) as [Hok _]. rewrite Forall_forall in Hok.
    assert (HC : forall c, In c (TLit f args annots :: beliefs a (f, List.length args) W) -> exists cargs cann, c = TLit f cargs cann /\ Forall closed cargs /\ Forall flat cann /\ distinct cann).
    { intros c [<-|Hin]; [exists args, annots; repeat split; auto; apply HS|].
      destruct (Hok c Hin) as ((cargs & cann & Ec & _) & _ & Hdc). cbn in Ec. subst c. destruct (Hc _ Hin) as [[P1 P2] _].
      exists cargs, cann. repeat split; auto. }
    intros c Hin. apply HC. destruct (py_in _ _); [rewrite Hset in Hin; now right|].
    eapply Permutation.Permutation_in; [exact Hset|exact Hin]. }
  assert (Hb0 : exists b0, In b0 (beliefs a (f, List.length args) W') /\ covers b0 (TLit f args annots)).
  { destruct (py_in (TLit f args annots) (beliefs a (f, List.length args) W)) eqn:Ep.
    - rewrite Hset. apply py_in_true in Ep as (c & Hin & Heq). exists c. split; [assumption|]. now apply (Hc c Hin).
    - exists (TLit f args annots). split; [eapply Permutation.Permutation_in; [apply Permutation.Permutation_sym, Hset|now left]|].
      split; [reflexivity|]. intros x Hx. exists x. now split. }
  destruct Hb0 as (b0 & Hb0in & Hcov).
  assert (Hgb : forall c st0, In c (beliefs a (f, List.length args) W') -> at_s s st0 ->
     ga s (TLit f pargs las) c st0 (flat_value (TLit f args items) = flat_value c /\ forall la, In la items -> exists ra, In ra (lit_annots c) /\ flat_value la = flat_value ra)).
  { intros c st0 Hin Hs0. destruct (HW' c Hin) as (cargs & cann & -> & C1 & C2 & C3). now apply ga_belief. }
  assert (Hbel : beliefs a (f, List.length args) W' = s_elems (get_set W' r)) by (unfold beliefs; now rewrite Er).
  destruct (bel_loop a i (TLit f pargs las) r W' s (beliefs a (f, List.length args) W') Hch) with (b0 := b0) (sz := List.length (s_elems (get_set W' r))) (st := st)
    as (n1 & g & st2 & E2 & S2); try assumption; try reflexivity.
  { intros c st0 Hin Hs0. destruct (Hgb c st0 Hin Hs0) as (m & o & st1 & A & B & _). eauto. }
  { intros m st0 st1 Hs0 E0. destruct (Hgb b0 st0 Hb0in Hs0) as (m' & o & st3 & A & B & C).
    assert (o = None).
    { apply (uann_more m (m + m')) in E0; [|lia]. apply (uann_more m' (m + m')) in A; [|lia]. congruence. }
    subst o. apply C; [|reflexivity]. destruct Hcov as [V1 V2]. split; [symmetry; exact V1|].
    intros la Hla. apply V2. now apply Hitems. }
  exists (S (n0 + n1)), g, st2. split; [|exact S2]. intros m Hm. destruct m as [|m]; [lia|].
  unfold resume. cbn [engine e_resume resume_body]. unfold mbind, m_evaluate. cbn [fst snd]. fold s. rewrite Ev by lia.
  unfold on_world, m_world. cbn [fst snd].
  assert (El : List.length pargs = List.length args) by (eapply Forall2_len; exact HA). rewrite El.
  unfold bel_ref. rewrite Er. cbn [fst snd]. rewrite <- Hbel. rewrite <- Hbel in E2.
  change (e_resume (engine m)) with (resume m). rewrite (resume_more n1 m) by (try lia; rewrite E2; discriminate). exact E2.
Qed.
End WithPy.
