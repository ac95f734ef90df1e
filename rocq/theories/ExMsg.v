(** Messages between bob and carol, and goals dropped by a waiting agent. *)
From Verif Require Import Base Num Term Unify TermSpec InstSpec Str World Engine Step Ast Names Build Reach QuerySpec QueryCor BelCor PlanSpec StepSpec MildSpec MsgSpec HowSpec ExPlan ExLoad ExPy.

Definition mild_check {PY : Py} (W : world) : bool :=
  forallb (fun ag => forallb (fun gr => forallb (fun r => mild (r_query r)) (snd gr)) (a_rules ag)) (w_agents W) &&
  forallb (forallb (fun p => mild (p_ctx p))) (w_plists W).
Lemma assoc_some_in {K V} (eqb : K -> K -> bool) g (l : list (K * V)) v : assoc eqb g l = Some v -> exists k, In (k, v) l.
Proof.
  induction l as [|[k w] l IH]; cbn; [discriminate|]. destruct (eqb g k); [intro H; inversion H; subst; eauto|].
  intro H. apply IH in H as [k' H]. eauto.
Qed.
Lemma mild_checked {PY : Py} W : mild_check W = true -> mild_world W.
Proof.
  unfold mild_check. intro H. apply andb_prop in H as [H1 H2]. rewrite forallb_forall in H1, H2. intro a. split.
  - intro g. unfold rules_of. destruct (assoc group_eqb g (a_rules (get_agent W a))) as [l|] eqn:E; [|constructor].
    apply assoc_some_in in E as [k E]. destruct (Nat.lt_ge_cases a (List.length (w_agents W))) as [Ha|Ha].
    + specialize (H1 (get_agent W a) (nth_In _ _ Ha)). rewrite forallb_forall in H1. specialize (H1 _ E). cbn in H1.
      rewrite forallb_forall in H1. apply Forall_forall. exact H1.
    + unfold get_agent in E. rewrite nth_overflow in E by exact Ha. destruct E.
  - intro h. unfold plans_of. destruct (assoc pgroup_eqb h (a_plans (get_agent W a))) as [r|]; [|constructor].
    destruct (Nat.lt_ge_cases r (List.length (w_plists W))) as [Hr|Hr].
    + specialize (H2 (get_plist W r) (nth_In _ _ Hr)). rewrite forallb_forall in H2. apply Forall_forall. exact H2.
    + unfold get_plist. rewrite nth_overflow by exact Hr. constructor.
Qed.

Lemma two_world_mild : @mild_world two_world.
Proof. apply (@mild_checked PyEx). vm_compute. reflexivity. Qed.
Lemma two_world_work : @at_work PyEx FrontEx two_world.
Proof. exists two_world. split; [exact two_world_single|]. now left. Qed.

Ltac vm := lazymatch goal with |- _ /\ _ => split; [vm_compute; reflexivity|vm] | |- _ => idtac end.
Definition nm (x : String.string) : term := atom (s2p x).
Definition plist (ts : list term) : term := TTup ts.
(** .send([carol, "bob", carol], tell, hello(X)) when X = 5 *)
Definition st5 : bst := mkbst [(3%N, TNum (NInt 5))] [] 0.
Definition hello (t : term) : term := TLit (s2p "hello") [t] [].
Definition send_hello (rs : term) : query := QAct ASend (TLit (s2p ".send") [rs; nm "tell"; hello (TVar 3)] []).
Definition heard : term := TLit (s2p "hello") [TNum (NInt 5)] [TLit (s2p "source") [TLit (s2p "bob") [] []] []].
Lemma hello_sent : exists g st' W',
  @resume PyEx FrontEx 20 0 0 (GQ (send_hello (plist [nm "carol"; TStr (s2p "bob"); nm "carol"]))) (st5, two_world) = (Ok (Some g), (st', W')) /\
  beliefs 0 (s2p "hello", 1%nat) W' = [heard] /\ beliefs 1 (s2p "hello", 1%nat) W' = [heard] /\
  beliefs 0 (s2p "hello", 1%nat) two_world = [] /\
  @has_value PyEx (b_scope st5) (nm "tell") (atom (s2p "tell")).
Proof. eexists _, _, _. split; [vm_compute; reflexivity|]. split; [vm_compute; reflexivity|]. split; [vm_compute; reflexivity|]. split; [vm_compute; reflexivity|]. exists 5%nat. reflexivity. Qed.
Lemma hello_carol : exists g st' W',
  @resume PyEx FrontEx 20 0 0 (GQ (send_hello (nm "carol"))) (st5, two_world) = (Ok (Some g), (st', W')) /\
  beliefs 0 (s2p "hello", 1%nat) W' = [] /\ beliefs 1 (s2p "hello", 1%nat) W' = [heard].
Proof. eexists _, _, _. split; [vm_compute; reflexivity|]. vm; vm_compute; reflexivity. Qed.
Lemma hello_nobody :
  @resume PyEx FrontEx 20 0 0 (GQ (send_hello (plist [nm "carol"; nm "dave"]))) (st5, two_world) = (Err EKey, (st5, two_world)) /\
  forall c, ~ names_agent two_world (nm "dave") c.
Proof.
  split; [vm_compute; reflexivity|]. intros c (f & [H|H] & E); [|discriminate H]. assert (Hf : f = s2p "dave") by (unfold nm, atom in H; congruence). subst f.
  assert (X : assoc pystr_eqb (s2p "dave") (w_env two_world) = None) by (vm_compute; reflexivity). rewrite X in E. discriminate E.
Qed.
Lemma hello_all : exists g st' W',
  @resume PyEx FrontEx 20 0 0 (GQ (QAct ABroadcast (TLit (s2p ".broadcast") [nm "tell"; hello (TVar 3)] []))) (st5, two_world) = (Ok (Some g), (st', W')) /\
  filter (fun r => negb (Nat.eqb r 0)) (map snd (w_env two_world)) = [1%nat] /\
  beliefs 0 (s2p "hello", 1%nat) W' = [] /\ beliefs 1 (s2p "hello", 1%nat) W' = [heard].
Proof. eexists _, _, _. split; [vm_compute; reflexivity|]. vm; vm_compute; reflexivity. Qed.
(** A goal for carol and bob: bob has no plan for it. *)
Lemma half_sent : exists st' W',
  @resume PyEx FrontEx 20 0 0 (GQ (QAct ASend (TLit (s2p ".send") [plist [nm "carol"; nm "bob"]; nm "achieve"; TLit (s2p "h") [TNum (NInt 1)] []] []))) (st5, two_world) = (Err EAsl, (st', W')) /\
  a_ints (get_agent two_world 1) = [] /\ List.length (a_ints (get_agent W' 1)) = 1%nat.
Proof. eexists _, _. split; [vm_compute; reflexivity|]. split; vm_compute; reflexivity. Qed.

(** ** Dropping goals *)
Definition hA : term := TLit (s2p "h") [TVar 90] [].
Definition gA : term := TLit (s2p "g") [TVar 90] [].
Lemma drops_top : exists st' W',
  @call PyEx FrontEx 20 0 TrRem GtAchieve hA 0 false (bst0, waiting_world) = (Ok true, (st', W')) /\
  a_ints (get_agent waiting_world 0) = [[6; 5]]%nat /\ a_ints (get_agent W' 0) = [[5]]%nat.
Proof. eexists _, _. split; [vm_compute; reflexivity|]. split; vm_compute; reflexivity. Qed.
Lemma drops_5 : @handles PyEx waiting_world (s2p "h") [TVar 90] 6 /\ @spares PyEx waiting_world (s2p "g") [TVar 90] 6 /\
  @spares PyEx waiting_world (s2p "h") [TNum (NInt 3)] 6.
Proof.
  split; [|split].
  - eexists _, _, 5%nat. split; [vm_compute; reflexivity|]. vm_compute. reflexivity.
  - eexists _, _, _. split; [vm_compute; reflexivity|]. left. discriminate.
  - eexists _, _, _. split; [vm_compute; reflexivity|]. right. exists 5%nat. vm_compute. reflexivity.
Qed.
(** g(Z) is being pursued (through h), and remains so. *)
Lemma drops_not_nested : exists st' W',
  @call PyEx FrontEx 20 0 TrRem GtAchieve gA 0 false (bst0, waiting_world) = (Ok true, (st', W')) /\
  @handles PyEx waiting_world (s2p "g") [TVar 90] 5 /\ a_ints (get_agent W' 0) = [[6; 5]]%nat.
Proof.
  eexists _, _. split; [vm_compute; reflexivity|]. split; [|vm_compute; reflexivity].
  eexists _, _, 5%nat. split; [vm_compute; reflexivity|]. vm_compute. reflexivity.
Qed.
(** The goal above it is gone as if it had been achieved: g(Z) goes on. *)
Definition dropped_world : world := snd (@outside_call PyEx FrontEx 20 0 TrRem GtAchieve hA false waiting_world).
Lemma drops_go_on : beliefs 0 (s2p "done", 1%nat) dropped_world = [] /\
  beliefs 0 (s2p "seen", 1%nat) (steps 6 20 0 dropped_world) = [] /\
  beliefs 0 (s2p "done", 1%nat) (steps 6 20 0 dropped_world) = [TLit (s2p "done") [TNum (NInt 2)] []].
Proof. vm; vm_compute; reflexivity. Qed.
(** Once the only intention for g(Z) is dropped, new goals from other agents
    fail. *)
Definition empty_world : world := snd (@outside_call PyEx FrontEx 20 0 TrRem GtAchieve gA false goal_world).
Lemma empty_world_reach : @reach PyEx FrontEx empty_world.
Proof.
  unfold empty_world. destruct (@outside_call PyEx FrontEx 20 0 TrRem GtAchieve gA false goal_world) as [r W] eqn:E.
  eapply rc_call; [exact goal_world_reach| |exact E]. vm_compute. auto.
Qed.
Lemma no_more_goals : a_ints (get_agent goal_world 0) <> [] /\
  fst (@outside_call PyEx FrontEx 20 0 TrAdd GtAchieve gA false goal_world) = Ok true /\
  fst (@outside_call PyEx FrontEx 20 0 TrRem GtAchieve gA false goal_world) = Ok true /\
  fst (@outside_call PyEx FrontEx 20 0 TrAdd GtAchieve gA false empty_world) = Err EIndex.
Proof. split; [vm_compute; discriminate|]. vm; vm_compute; reflexivity. Qed.

(** ** Removing plans *)
Definition labelled_plan (l : option String.string) (f : String.string) (b : option (list form)) : aplan :=
  mkaplan (match l with Some x => Some (hd1 x []) | None => None end) (mkaevent TrAdd GtAchieve (hd1 f [])) None b.
Definition labels_ast : aagent := mkaagent [] [] []
  [labelled_plan (Some "l1"%string) "g" None; labelled_plan None "g" (Some [FForm FtAdd (al "a" [])]);
   labelled_plan (Some "l2"%string) "g" (Some [FForm FtAdd (al "b" [])]); labelled_plan (Some "l1"%string) "h" None].
Definition labels_world : world := snd (@build_agent_from_ast PyEx FrontEx 20 stdlib_actions (s2p "bob") labels_ast world0).
Lemma forgets : exists st' W' p1 p2 p3 p4,
  @call PyEx FrontEx 20 0 TrRem GtTellHow (TLit (s2p "plain_text") [TStr (s2p "@l1")] []) 0 false (bst0, labels_world) = (Ok true, (st', W')) /\
  plans_of 0 (TrAdd, GtAchieve, (s2p "g", 0%nat)) labels_world = [p1; p2; p3] /\ plans_of 0 (TrAdd, GtAchieve, (s2p "h", 0%nat)) labels_world = [p4] /\
  labelled (s2p "@l1") p1 = true /\ labelled (s2p "@l1") p4 = true /\
  plans_of 0 (TrAdd, GtAchieve, (s2p "g", 0%nat)) W' = [p2; p3] /\ plans_of 0 (TrAdd, GtAchieve, (s2p "h", 0%nat)) W' = [].
Proof. eexists _, _, _, _, _, _. split; [vm_compute; reflexivity|]. vm; vm_compute; reflexivity. Qed.
