(** Corollaries about running queries. *)
From Verif Require Import Base Num Term Unify TrailSpec TrailFacts TrailHist FuelFacts AnnotFlat AnnotFacts Str World Engine FuelEngine NamesFacts QuerySpec QueryBase QueryFacts QueryComplete ExPy.

Definition FrontEx : Front := {| fr_plan := fun _ _ => Err EUnmodelled; fr_event := fun _ _ => Err EUnmodelled |}.

Section WithPy.
Context {PY : Py} {FR : Front}.

Theorem query_iff b a i q c st W l o :
  proper b q = true -> proper_db b (db_of a W) -> (b = true -> Forall (fun p => fst p = []) c) ->
  o <> Raised ERecursion ->
  (exists n0, forall n, (n0 <= n)%nat -> fst (drive c n a i (GQ q) (st, W)) = (l, o)) <->
  (exists d0, forall d, (d0 <= d)%nat -> take c (sols d (db_of a W) q (b_scope st) (w_nv W)) = (l, o)).
Proof.
  intros Hp HD Hc Ho. split.
  - intros [n0 H]. pose proof (query_sound b a i q c n0 st W Hp HD Hc) as HS. specialize (H n0 (Nat.le_refl _)).
    destruct (drive c n0 a i (GQ q) (st, W)) as [[l' o'] [st' W']]. cbn in H. inversion H; subst.
    destruct HS as [HS|(_ & HS & _)]; [contradiction|exact HS].
  - intros [d0 H]. specialize (H d0 (Nat.le_refl _)). pose proof (query_complete b a i q c d0 st W Hp HD Hc) as HS. cbv zeta in HS.
    rewrite H in HS. destruct HS as [HS|HS]; [contradiction|exact HS].
Qed.

Theorem query_restores b a i q c n st W l st' W' :
  proper b q = true -> proper_db b (db_of a W) -> (b = true -> Forall (fun p => fst p = []) c) ->
  b = true \/ restoring q = true ->
  drive c n a i (GQ q) (st, W) = (l, Exhausted, (st', W')) ->
  b_scope st' = b_scope st /\ b_stack st' = b_stack st /\ unchanged W W'.
Proof.
  intros Hp HD Hc Hx E. pose proof (query_sound b a i q c n st W Hp HD Hc) as HS. rewrite E in HS.
  destruct HS as [HS|(HU & _ & HS)]; [discriminate|]. specialize (HS eq_refl). destruct HS as [H1 H2]; auto.
  destruct Hx as [-> | ->]; [reflexivity|apply orb_true_r].
Qed.

Theorem not_binds_nothing b a i q n st W g' st' W' :
  proper b q = true -> proper_db b (db_of a W) ->
  resume n a i (GQ (QNot q)) (st, W) = (Ok (Some g'), (st', W')) ->
  b_scope st' = b_scope st /\ b_stack st' = b_stack st /\ unchanged W W' /\
  exists d, sols d (db_of a W) q (b_scope st) (w_nv W) = TEnd (w_nv W').
Proof.
  intros Hp HD E. destruct n as [|n]; [discriminate E|].
  set (st1 := push_cp (b_ncp st) {| b_scope := b_scope st; b_stack := b_stack st; b_ncp := N.succ (b_ncp st) |}).
  assert (HR : resume (S n) a i (GQ (QNot q)) (st, W) =
      match resume n a i (GQ q) (st1, W) with
      | (Err e, s) => (Err e, s)
      | (Ok o, (c, W')) => (Ok (match o with None => Some GStop | Some _ => None end), (reroll c (b_ncp st), W'))
      end).
  { unfold resume. cbn [engine e_resume resume_body]. unfold mbind, m_new_cp, m_push_cp, m_reroll, on_st. cbn [fst snd new_cp]. fold st1.
    destruct (e_resume (engine n) a i (GQ q) (st1, W)) as [[o|e] [c W1]]; reflexivity. }
  rewrite HR in E. destruct (engine_sound a i b W HD n) as [HS _].
  specialize (HS _ st1 (GQ q) st1 true _ (r_q a b W st1 st1 q Hp (okst_refl _ _)) st1 W (okst_refl _ _) (unchanged_refl _)).
  unfold resume in E. destruct (e_resume (engine n) a i (GQ q) (st1, W)) as [[[o|]|e] [c W1]]; inversion E; subst.
  cbn [post] in HS. destruct HS as [HS|[HU [H1 [d0 H2]]]]; [discriminate HS|].
  assert (Hk : okst true st (reroll c (b_ncp st))).
  { apply mark_reroll. eapply mark_trail; [apply mark_new|]. now apply okst_trail in H1. }
  split; [now apply okst_scope|]. split; [now apply okst_stack|]. split; [exact HU|].
  exists d0. destruct (H2 d0) as [H|[H _]]; [|lia]. change (b_scope st1) with (b_scope st) in H. now inversion H.
Qed.

Lemma drive_more a i c : forall n m g s, (n <= m)%nat -> snd (fst (drive c n a i g s)) <> Raised ERecursion ->
  drive c m a i g s = drive c n a i g s.
Proof.
  induction c as [|[os k] c IH]; intros n m g s Hm H; [reflexivity|]. cbn [drive] in *.
  rewrite (resume_more n m a i g s Hm).
  - destruct (resume n a i g s) as [[[g'|]|e] [st W]]; try reflexivity.
    rewrite (IH n m); [reflexivity|exact Hm|]. intro X. apply H.
    destruct (drive c n a i g' (run_bops os st, set_nv W (w_nv W + k)%N)) as [[l o] s2]. exact X.
  - intro X. apply H. destruct (resume n a i g s) as [[[g'|]|e] [st W]]; cbn in X; try discriminate X. inversion X. reflexivity.
Qed.
End WithPy.

(** ** A family tree *)
Definition lit0 (f : string) : term := TLit (s2p f) [] [].
Definition pred2 (f : string) (x y : term) : term := TLit (s2p f) [x; y] [].
Definition family : world :=
  mkworld [mkbset 0 [pred2 "parent" (lit0 "ann") (lit0 "bob"); pred2 "parent" (lit0 "bob") (lit0 "cyd")]] [] []
    [mkagent (s2p "fred") [((s2p "parent", 2%nat), 0%nat)]
       [((s2p "anc", 2%nat),
          [mkrule (pred2 "anc" (TVar 0) (TVar 1)) (QTerm (pred2 "parent" (TVar 0) (TVar 1)));
           mkrule (pred2 "anc" (TVar 2) (TVar 3)) (QAnd (QTerm (pred2 "parent" (TVar 2) (TVar 4))) (QTerm (pred2 "anc" (TVar 4) (TVar 3))))])] [] []]
    [(s2p "fred", 0%nat)] 10 0 0 [].

Lemma family_proper b : proper_db b (db_of 0 family).
Proof.
  intro g. split.
  - cbn. unfold beliefs. cbn. match goal with |- context[group_eqb ?x ?y] => destruct (group_eqb x y) end; repeat constructor.
  - cbn. unfold rules_of. cbn. match goal with |- context[group_eqb ?x ?y] => destruct (group_eqb x y) end; repeat constructor.
Qed.

Definition my_name_act (x : term) : query := QAct AMyName (TLit (s2p ".my_name") [x] []).

(** .my_name(X) | X = bob finds only one solution. *)
Lemma leaky_or : let q := QOr (my_name_act (TVar 9)) (QUnify (TVar 9) (lit0 "bob")) in
  let c := [([], 0%N); ([], 0%N); ([], 0%N)] in
  @take c (@sols PyEx 8 (@db_of 0 family) q [] 10) = ([[(9%N, lit0 "fred")]; [(9%N, lit0 "bob")]], Exhausted) /\
  (forall n, (8 <= n)%nat -> fst (@drive PyEx FrontEx c n 0 0 (GQ q) (mkbst [] [] 0, family)) =
     ([[(9%N, lit0 "fred")]], Exhausted)).
Proof.
  cbv zeta. split; [vm_compute; reflexivity|].
  intros n Hn. erewrite drive_more; [|exact Hn|]; [vm_compute; reflexivity|]. vm_compute. discriminate.
Qed.

(** After .my_name(X) is exhausted, X is still bound. *)
Lemma leaky_exhausted : forall n, (8 <= n)%nat -> exists l st' W',
  @drive PyEx FrontEx [([], 0%N); ([], 0%N)] n 0 0 (GQ (my_name_act (TVar 9))) (mkbst [] [] 0, family) = (l, Exhausted, (st', W')) /\
  b_scope st' = [(9%N, lit0 "fred")].
Proof.
  intros n Hn. do 3 eexists. erewrite drive_more; [|exact Hn|]; [split; vm_compute; reflexivity|]. vm_compute. discriminate.
Qed.
