(** Belief additions and removals as plans and the outside see them; examples. *)
From Verif Require Import Base Num Term Unify TrailFacts FuelFacts ChainFacts TermSpec WildSpec InstSpec PyEq SetFacts UnifySem UannTotal AnnotSpec.
From Verif Require Import Str World Engine FuelEngine QuerySpec QueryBase QueryCor Step Ast Names Build NamesFacts Reach ReachFacts BelFacts BelSpec BelAdd BelRem ExPy.
From Coq Require Import Permutation.

Section WithPy.
Context {PY : Py} {FR : Front}.
Hypothesis L : PyLawful PY.

(** If no belief matches, [-b] does nothing and the plan continues. *)
Theorem removal_none a t st W v f args annots ci d : reach W -> (a < List.length (w_agents W))%nat ->
  v = TLit f args annots -> evals (b_scope st) t v -> Forall (misses (b_scope st) v) (beliefs a (lit_group v) W) ->
  exists n0, forall n, (n0 <= n)%nat -> exists st' W', call n a TrRem GtBelief t ci d (st, W) = (Ok true, (st', W')) /\
    b_scope st' = b_scope st /\ b_stack st' = b_stack st /\ forall a' g', beliefs a' g' W' = beliefs a' g' W.
Proof.
  intros HR Ha Hv Ev HM. 
  destruct (remove_belief_total L a t st W v f args annots HR Ha Hv Ev) as [n0 H0].
  { rewrite Forall_forall in *. intros b Hb. right. auto. }
  destruct Ev as [m0 Ev].
  exists (S (Nat.max n0 m0)). intros [|n] Hn; [lia|]. destruct (H0 n ltac:(lia)) as (r & st' & W' & E).
  destruct (remove_belief_spec L n a t st W r st' W' HR Ha E) as (f' & args' & annots' & A1 & A2 & A3). cbv zeta in *.
  assert (Ev' : evaluate n t (b_scope st) = Ok v) by (apply (evaluate_more m0); [lia|exact Ev]). rewrite Ev', Hv in A1. inversion A1; subst f' args' annots'. rewrite Hv in HM. cbn [lit_group] in HM.
  destruct r.
  - exfalso. destruct A3 as (l1 & b & l2 & B1 & B2 & B3 & B4). rewrite B1 in HM. apply Forall_app in HM. destruct HM as [_ HM]. inversion HM; subst.
    eapply finds_misses; eassumption.
  - destruct A3 as (B1 & B2 & B3 & B4). exists st', W'. split; [|split; [assumption|split; [assumption|]]].
    + unfold call. cbn [engine e_call call_body]. unfold mbind at 1. rewrite E. reflexivity.
    + intros a' g'. destruct (group_eqb g' (f, List.length args)) eqn:Eg.
      * apply group_eqb_eq in Eg. subst. apply B2.
      * apply A2. intros ->. now rewrite group_eqb_refl in Eg.
Qed.

Theorem addition_stores n a t st W st' W' :
  reach W -> (a < List.length (w_agents W))%nat -> add_belief n a t (st, W) = (Ok tt, (st', W')) ->
  st' = st /\ exists b, grounded n t (b_scope st) = Ok b /\ is_literal b = true /\
    (if py_in b (beliefs a (lit_group b) W) then beliefs a (lit_group b) W' = beliefs a (lit_group b) W
     else Permutation (beliefs a (lit_group b) W') (b :: beliefs a (lit_group b) W)) /\
    (forall a' g', g' <> lit_group b -> beliefs a' g' W' = beliefs a' g' W).
Proof.
  intros HR Ha E. destruct (add_belief_run L n a t st W st' W' HR Ha E) as (-> & f & args & annots & A & B & C & _).
  split; [reflexivity|]. exists (TLit f args annots). repeat split; assumption.
Qed.

(** [-b] comes to an end. *)
Theorem removal_ends ex a t st W v f args annots : reach W -> (a < List.length (w_agents W))%nat ->
  v = TLit f args annots -> evals (b_scope st) t v -> dplain (b_scope st) ex v ->
  plain_scope (b_scope st) ex (b_scope st) -> chain_ok (b_scope st) ->
  (forall x u, lookup (b_scope st) x = Some u -> dplain (b_scope st) ex u) ->
  Forall nonan (beliefs a (lit_group v) W) ->
  exists n0, forall n, (n0 <= n)%nat -> exists r st' W', remove_belief n a t (st, W) = (Ok r, (st', W')).
Proof.
  intros HR Ha Hv Ev Hd Hp Hc Hs Hn. eapply remove_belief_total; try eassumption.
  destruct (beliefs_wf L W a (lit_group v) HR) as [HF _]. rewrite Forall_forall in *. intros b Hb.
  destruct (HF b Hb) as (_ & HG & _). eapply uann_finishes; [exact Hd|split; [exact HG|auto]|].
  split; [split; [assumption|split; [assumption|apply extends_refl]]|exact Hs].
Qed.

(** .abolish as an action *)
Theorem abolish_action n a i f t st W r s' : resume n a i (GQ (QAct AAbolish (TLit f [t] []))) (st, W) = (Ok r, s') ->
  r = Some GStop /\ exists m, abolish m a t (st, W) = (Ok tt, s').
Proof.
  destruct n as [|n]; [discriminate|]. unfold resume. cbn [engine e_resume resume_body]. unfold start_act.
  cbn [lit_args lift arg nth_error]. unfold mbind at 1, lift at 1. unfold arg, mbind at 1. cbn [nth_error]. unfold mret at 1. unfold mbind at 1.
  destruct (abolish n a t (st, W)) as [[[]|] s1] eqn:E; intro H; inversion H; subst. split; [reflexivity|]. now exists n.
Qed.

(** Without annotations: all and only the matching beliefs go. *)
Theorem abolish_all n a i f t st W r st' W' : reach W -> (a < List.length (w_agents W))%nat ->
  resume n a i (GQ (QAct AAbolish (TLit f [t] []))) (st, W) = (Ok r, (st', W')) ->
  r = Some GStop /\ st' = st /\ exists n' p m k, freeze n' t (b_scope st) ([], w_nv W) = (Ok p, (m, k)) /\ is_literal p = true /\
    (forall a' g', g' <> lit_group p -> beliefs a' g' W' = beliefs a' g' W) /\
    (exists keep : term -> bool, beliefs a (lit_group p) W' = filter keep (beliefs a (lit_group p) W) /\ forall b, In b (beliefs a (lit_group p) W) ->
        (keep b = true -> misses [] b p) /\ (keep b = false -> exists s', finds [] b p s')) /\
    (wplain [] (fun t => t) p ->
     (forall b, In b (beliefs a (lit_group p) W) -> closed b /\ lit_annots b = []) ->
     forall b, In b (beliefs a (lit_group p) W') <-> In b (beliefs a (lit_group p) W) /\ ~ could_match (fun t => t) [] p b).
Proof.
  intros HR Ha E. destruct (abolish_action _ _ _ _ _ _ _ _ _ E) as [-> [n' E']].
  destruct (abolish_spec L n' a t st W st' W' HR Ha E') as (-> & p & m & k & Ef & Hlit & HO & keep & K1 & K2).
  split; [reflexivity|]. split; [reflexivity|]. exists n', p, m, k. split; [exact Ef|]. split; [exact Hlit|]. split; [exact HO|]. split; [now exists keep|]. intros Hp Hb.
  intro b. rewrite K1, filter_In. split.
  - intros [H1 H2]. split; [assumption|]. destruct (Hb b H1) as [C1 C2].
    destruct (beliefs_wf L W a (lit_group p) HR) as [HF _]. rewrite Forall_forall in HF. destruct (HF b H1) as [(args & annots & -> & _) _]. cbn in C2. subst annots.
    apply bare_misses; try assumption. now apply K2.
  - intros [H1 H2]. split; [assumption|]. destruct (keep b) eqn:Ek; [reflexivity|]. exfalso. apply H2.
    destruct (Hb b H1) as [C1 C2].
    destruct (beliefs_wf L W a (lit_group p) HR) as [HF _]. rewrite Forall_forall in HF. destruct (HF b H1) as [(args & annots & -> & _) _]. cbn in C2. subst annots.
    destruct (proj2 (K2 _ H1) Ek) as [s' Hs]. eapply bare_finds; eassumption.
Qed.

Lemma outside_call_more n m a tr gt t d W : (n <= m)%nat -> fst (outside_call n a tr gt t d W) <> Err ERecursion ->
  outside_call m a tr gt t d W = outside_call n a tr gt t d W.
Proof.
  intros Hn. unfold outside_call, with_new. destruct (new_int (snd (bst0, W))) as [ci W1].
  destruct (call n a tr gt t ci d (bst0, W1)) as [r s2] eqn:E. cbn. intro H.
  rewrite (call_more n m) by (try assumption; rewrite E; exact H). now rewrite E.
Qed.
End WithPy.

(** * Examples *)

(** An agent with the beliefs p(1), p(2)[src(a)] and q(true). *)
Definition num1 (z : Z) : ast := ANum (NInt z).
Definition bel_ast : aagent := mkaagent []
  [mkalit (s2p "p") [num1 1] []; mkalit (s2p "p") [num1 2] [ALit (s2p "src") [ALit (s2p "a") [] []] []]; mkalit (s2p "q") [ABool true] []] [] [].
Definition bel_world : world := snd (@build_agent_from_ast PyEx FrontEx 20 stdlib_actions (s2p "bob") bel_ast world0).
Definition pz (z : Z) (annots : list term) : term := TLit (s2p "p") [TNum (NInt z)] annots.
Definition src_a : term := TLit (s2p "src") [TLit (s2p "a") [] []] [].

Lemma bel_world_reach : @reach PyEx FrontEx bel_world.
Proof.
  unfold bel_world. destruct (@build_agent_from_ast PyEx FrontEx 20 stdlib_actions (s2p "bob") bel_ast world0) as [r W] eqn:E.
  eapply rc_build; [apply rc_env|exact E].
Qed.

Lemma bel_world_beliefs : beliefs 0 (s2p "p", 1%nat) bel_world = [pz 2 [src_a]; pz 1 []] /\
  beliefs 0 (s2p "q", 1%nat) bel_world = [TLit (s2p "q") [TBool true] []] /\ List.length (w_agents bel_world) = 1%nat.
Proof. vm_compute. repeat split. Qed.

Definition q1 : term := TLit (s2p "q") [TNum (NInt 1)] [].

(** q(1) equals the belief q(true) in Python, so +q(1) adds nothing, but the
    query q(1) does not match q(true). *)
Lemma added_not_found : exists W', @reach PyEx FrontEx W' /\
  (forall n, (20 <= n)%nat -> @outside_call PyEx FrontEx n 0 TrAdd GtBelief q1 false bel_world = (Ok true, W')) /\
  forall m, (20 <= m)%nat -> exists s', @resume PyEx FrontEx m 0 0 (GQ (QTerm q1)) (bst0, W') = (Ok None, s').
Proof.
  exists (snd (@outside_call PyEx FrontEx 20 0 TrAdd GtBelief q1 false bel_world)). split; [|split].
  - destruct (@outside_call PyEx FrontEx 20 0 TrAdd GtBelief q1 false bel_world) as [r W'] eqn:E.
    eapply rc_call; [exact bel_world_reach| |exact E]. rewrite (proj2 (proj2 bel_world_beliefs)). constructor.
  - intros n Hn. rewrite (@outside_call_more PyEx FrontEx 20 n) by (try assumption; vm_compute; discriminate).
    vm_compute. reflexivity.
  - intros m Hm. rewrite (@resume_more PyEx FrontEx 20 m) by (try assumption; vm_compute; discriminate).
    eexists. vm_compute. reflexivity.
Qed.

(** +r(7)[X, Y] with X and Y bound to the same atom stores one annotation; the
    query r(7)[X, Y] needs two. *)
Definition r7 : term := TLit (s2p "r") [TNum (NInt 7)] [TVar 100; TVar 101].
Definition same_xy : bst := mkbst [(100%N, lit0 "a"); (101%N, lit0 "a")] [] 0.
Lemma collapsed_not_found : exists st' W',
  (forall n, (20 <= n)%nat -> @call PyEx FrontEx n 0 TrAdd GtBelief r7 0 false (same_xy, bel_world) = (Ok true, (st', W'))) /\
  b_scope st' = b_scope same_xy /\ beliefs 0 (s2p "r", 1%nat) W' = [TLit (s2p "r") [TNum (NInt 7)] [lit0 "a"]] /\
  forall m, (20 <= m)%nat -> exists s', @resume PyEx FrontEx m 0 0 (GQ (QTerm r7)) (st', W') = (Ok None, s').
Proof.
  exists (fst (snd (@call PyEx FrontEx 20 0 TrAdd GtBelief r7 0 false (same_xy, bel_world)))), (snd (snd (@call PyEx FrontEx 20 0 TrAdd GtBelief r7 0 false (same_xy, bel_world)))).
  split; [|split; [|split]].
  - intros n Hn. rewrite (@call_more PyEx FrontEx 20 n) by (try assumption; vm_compute; discriminate). vm_compute. reflexivity.
  - vm_compute. reflexivity.
  - vm_compute. reflexivity.
  - intros m Hm. rewrite (@resume_more PyEx FrontEx 20 m) by (try assumption; vm_compute; discriminate).
    eexists. vm_compute. reflexivity.
Qed.

(** .abolish(p(X)) removes p(1) and keeps p(2)[src(a)], which matches p(X). *)
Definition pX : term := TLit (s2p "p") [TVar 100] [].
Lemma abolish_keeps_annotated : exists st' W',
  (forall n, (20 <= n)%nat -> @resume PyEx FrontEx n 0 0 (GQ (QAct AAbolish (TLit (s2p ".abolish") [pX] []))) (bst0, bel_world) = (Ok (Some GStop), (st', W'))) /\
  In (pz 2 [src_a]) (beliefs 0 (s2p "p", 1%nat) W') /\ ~ In (pz 1 []) (beliefs 0 (s2p "p", 1%nat) W') /\
  (exists s', @finds PyEx [] pX (pz 2 [src_a]) s') /\ could_match (fun t => t) [] pX (pz 2 [src_a]).
Proof.
  exists (fst (snd (@resume PyEx FrontEx 20 0 0 (GQ (QAct AAbolish (TLit (s2p ".abolish") [pX] []))) (bst0, bel_world)))),
    (snd (snd (@resume PyEx FrontEx 20 0 0 (GQ (QAct AAbolish (TLit (s2p ".abolish") [pX] []))) (bst0, bel_world)))).
  split; [|split; [|split; [|split]]].
  - intros n Hn. rewrite (@resume_more PyEx FrontEx 20 n) by (try assumption; vm_compute; discriminate). vm_compute. reflexivity.
  - vm_compute. left. reflexivity.
  - vm_compute. intros [H|[]]. discriminate H.
  - eexists. exists 10%nat. do 2 eexists. split; vm_compute; reflexivity.
  - exists (fun _ => flat_value (TNum (NInt 2))). split; [intros v t H; discriminate H|].
    unfold pX, pz. constructor. constructor; constructor.
Qed.

(** .abolish(p(X)[src(a)]) removes p(1), which does not match p(X)[src(a)]. *)
Definition pXs : term := TLit (s2p "p") [TVar 100] [src_a].
Lemma abolish_removes_bare : exists st' W',
  (forall n, (20 <= n)%nat -> @resume PyEx FrontEx n 0 0 (GQ (QAct AAbolish (TLit (s2p ".abolish") [pXs] []))) (bst0, bel_world) = (Ok (Some GStop), (st', W'))) /\
  ~ In (pz 1 []) (beliefs 0 (s2p "p", 1%nat) W') /\ @misses PyEx [] pXs (pz 1 []).
Proof.
  exists (fst (snd (@resume PyEx FrontEx 20 0 0 (GQ (QAct AAbolish (TLit (s2p ".abolish") [pXs] []))) (bst0, bel_world)))),
    (snd (snd (@resume PyEx FrontEx 20 0 0 (GQ (QAct AAbolish (TLit (s2p ".abolish") [pXs] []))) (bst0, bel_world)))).
  split; [|split].
  - intros n Hn. rewrite (@resume_more PyEx FrontEx 20 n) by (try assumption; vm_compute; discriminate). vm_compute. reflexivity.
  - vm_compute. intros H. decompose [or] H; try contradiction; discriminate.
  - exists 10%nat. eexists. vm_compute. reflexivity.
Qed.
