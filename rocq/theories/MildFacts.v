(** Queries without .send, .broadcast and .abolish change no beliefs and no plans,
    whatever happens. *)
From Verif Require Import Base Num Term Unify Str World Engine QuerySpec BelSpec PlanSpec MildSpec QueryBase EventFacts.

Lemma calm_refl a W : calm a W W.
Proof. constructor; auto. apply same_minds_refl. Qed.
Lemma calm_trans a W1 W2 W3 : calm a W1 W2 -> calm a W2 W3 -> calm a W1 W3.
Proof.
  intros [A1 A2 A3 A4 A5] [B1 B2 B3 B4 B5]. constructor; [eapply minds_trans; eassumption| | |congruence|].
  - intro b. now rewrite B2.
  - intros b N. rewrite B3, A3; auto.
  - intro r. now rewrite B5.
Qed.
Lemma rules_of_eq a W W' : a_rules (get_agent W' a) = a_rules (get_agent W a) -> forall g, rules_of a g W' = rules_of a g W.
Proof. intros E g. unfold rules_of. now rewrite E. Qed.
Lemma minds_mild W W' : same_minds W W' -> mild_world W -> mild_world W'.
Proof.
  intros H M b. destruct (M b) as [H1 H2]. split.
  - intro g. rewrite (rules_of_eq b W W') by apply (sm_rules _ _ H). apply H1.
  - intro h. rewrite (sm_plans _ _ H). apply H2.
Qed.
Lemma calm_mild a W W' : calm a W W' -> mild_world W -> mild_world W'.
Proof. intro H. apply minds_mild, H. Qed.
Lemma calm_unchanged a W W' : unchanged W W' -> calm a W W'.
Proof. intro H. constructor; [now apply unchanged_minds| | | |]; intros; try apply H. unfold get_plist. now rewrite (un_plists _ _ H). Qed.
(** Changes that only concern intentions, time and new variables. *)
Lemma calm_core a W W' : w_agents W' = w_agents W -> w_sets W' = w_sets W -> w_plists W' = w_plists W -> w_env W' = w_env W -> calm a W W'.
Proof.
  intros E1 E2 E3 E4.
  assert (EA : forall b, get_agent W' b = get_agent W b) by (intro b; unfold get_agent; now rewrite E1).
  constructor; [constructor| | |now rewrite E1|]; intros; unfold beliefs, plans_of, get_set, get_plist; rewrite ?EA, ?E2, ?E3; reflexivity || exact E4.
Qed.
Lemma calm_stacks a W l : calm a W (put_agent W a (set_a_ints (get_agent W a) l)).
Proof.
  assert (EA : forall b, get_agent (put_agent W a (set_a_ints (get_agent W a) l)) b = get_agent W b \/
    b = a /\ get_agent (put_agent W a (set_a_ints (get_agent W a) l)) b = set_a_ints (get_agent W b) l).
  { intro b. rewrite get_put_agent. destruct (Nat.eqb_spec a b) as [<-|]; [|now left].
    destruct (Nat.ltb_spec a (List.length (w_agents W))); [now right|]. left. unfold get_agent. symmetry. now apply nth_overflow. }
  constructor; [constructor| | | |]; intros; try (destruct (EA b) as [E|[-> E]]; rewrite E; easy); try reflexivity.
  - unfold beliefs. destruct (EA a0) as [E|[-> E]]; rewrite E; reflexivity.
  - destruct (EA a0) as [E|[-> E]]; rewrite E; reflexivity.
  - unfold plans_of. destruct (EA a0) as [E|[-> E]]; rewrite E; reflexivity.
  - apply upd_length.
Qed.
Lemma calm_planref a b g W : calm a W (snd (plan_ref b g W)).
Proof.
  unfold plan_ref. destruct (assoc pgroup_eqb g (a_plans (get_agent W b))) as [r|] eqn:E; [apply calm_refl|]. cbn [snd].
  set (W1 := set_plists W (w_plists W ++ [[]])). set (x := set_a_plans _ _).
  assert (EA : forall c, get_agent (put_agent W1 b x) c = get_agent W c \/ c = b /\ get_agent (put_agent W1 b x) c = x).
  { intro c. rewrite get_put_agent. destruct (Nat.eqb_spec b c) as [<-|]; [|now left].
    destruct (Nat.ltb_spec b (List.length (w_agents W1))); [now right|]. left. unfold get_agent. symmetry. now apply nth_overflow. }
  assert (EP : forall r, get_plist (put_agent W1 b x) r = get_plist W r).
  { intro r. unfold get_plist. cbn. destruct (Nat.lt_ge_cases r (List.length (w_plists W))).
    - now rewrite app_nth1.
    - rewrite app_nth2, (nth_overflow (w_plists W)) by lia. destruct (r - _)%nat as [|[|]]; reflexivity. }
  constructor; [constructor| | | |]; intros; try reflexivity; try (apply upd_length); try apply EP.
  - unfold beliefs. destruct (EA a0) as [-> |[-> ->]]; reflexivity.
  - destruct (EA a0) as [-> |[-> ->]]; reflexivity.
  - unfold plans_of. destruct (EA a0) as [-> |[-> ->]].
    + destruct (assoc pgroup_eqb g0 (a_plans (get_agent W a0))); [apply EP|reflexivity].
    + unfold x. cbn [a_plans set_a_plans].
      destruct (assoc pgroup_eqb g0 (a_plans (get_agent W b))) as [r|] eqn:E0.
      * assert (EE : assoc pgroup_eqb g0 (a_plans (get_agent W b) ++ [(g, List.length (w_plists W))]) = Some r).
        { clear - E0. induction (a_plans (get_agent W b)) as [|[k v] l IH]; cbn in *; [discriminate|]. destruct (pgroup_eqb g0 k); auto. }
        rewrite EE. apply EP.
      * assert (EE : assoc pgroup_eqb g0 (a_plans (get_agent W b) ++ [(g, List.length (w_plists W))]) = if pgroup_eqb g0 g then Some (List.length (w_plists W)) else None).
        { clear - E0. induction (a_plans (get_agent W b)) as [|[k v] l IH]; cbn in *; [reflexivity|]. destruct (pgroup_eqb g0 k); auto. discriminate. }
        rewrite EE. destruct (pgroup_eqb g0 g); [|reflexivity]. rewrite EP. unfold get_plist. now apply nth_overflow.
  - destruct (EA b0) as [-> |[-> ->]]; reflexivity.
  - destruct (EA b0) as [-> |[-> ->]]; reflexivity.
Qed.

Fixpoint mild_gen (g : gen) : Prop :=
  match g with
  | GQ q => mild q = true
  | GStop | GAnn _ | GBel _ _ _ _ _ _ | GCand _ _ _ _ _ => True
  | GRule _ _ sub rest => match sub with Some g => mild_gen g | None => True end /\ Forall (fun r => mild (r_query r) = true) rest
  | GAnd gl gr r => mild_gen gl /\ match gr with Some g => mild_gen g | None => True end /\ mild r = true
  | GOr g r => mild_gen g /\ match r with Some q => mild q = true | None => True end
  end.
Definition mild_opt (o : option gen) : Prop := match o with Some g => mild_gen g | None => True end.

Section WithPy.
Context {PY : Py} {FR : Front}.

Lemma mild_rename m q : mild (qrename m q) = mild q.
Proof. induction q; cbn; congruence. Qed.

(** [m] keeps beliefs and plans; its result has the property. *)
Definition keeps {A} (a : nat) (Q : A -> Prop) (m : M A) : Prop := forall s r s',
  mild_world (snd s) -> m s = (r, s') -> calm a (snd s) (snd s') /\ forall x, r = Ok x -> Q x.
Notation Any := (fun _ => True).

Lemma keeps_pure {A} a (m : M A) : (forall s, snd (snd (m s)) = snd s) -> keeps a Any m.
Proof. intros H s r s' _ E. specialize (H s). rewrite E in H. cbn in H. rewrite H. split; auto. apply calm_refl. Qed.
Lemma keeps_on {A} a (m : M A) : (forall s, calm a (snd s) (snd (snd (m s)))) -> keeps a Any m.
Proof. intros H s r s' _ E. specialize (H s). rewrite E in H. now split. Qed.
Lemma keeps_bind {A B} a P Q (m : M A) (k : A -> M B) : keeps a P m -> (forall x, P x -> keeps a Q (k x)) -> keeps a Q (mbind m k).
Proof.
  intros H1 H2 s r s' HR E. unfold mbind in E. destruct (m s) as [[x|e] s1] eqn:Em.
  - destruct (H1 _ _ _ HR Em) as [K1 P1]. destruct (H2 x (P1 x eq_refl) s1 r s') as [K2 P2]; auto.
    { eapply calm_mild; eassumption. }
    split; [eapply calm_trans; eassumption|exact P2].
  - inversion E; subst. split; [exact (proj1 (H1 _ _ _ HR Em))|discriminate].
Qed.
Lemma keeps_any {A B} a Q (m : M A) (k : A -> M B) : keeps a Any m -> (forall x, keeps a Q (k x)) -> keeps a Q (mbind m k).
Proof. intros H1 H2. eapply keeps_bind; [exact H1|]. intros x _. apply H2. Qed.
Lemma keeps_weaken {A} a (P Q : A -> Prop) m : (forall x, P x -> Q x) -> keeps a P m -> keeps a Q m.
Proof. intros H HM s r s' HR E. destruct (HM s r s' HR E). auto. Qed.
Lemma keeps_ret {A} a (Q : A -> Prop) x : Q x -> keeps a Q (mret x).
Proof. intros H s r s' _ E. inversion E; subst. split; [apply calm_refl|]. intros y Ey. inversion Ey; now subst. Qed.
Lemma keeps_fail {A} a (Q : A -> Prop) e : keeps a Q (mfail e).
Proof. intros s r s' _ E. inversion E; subst. split; [apply calm_refl|discriminate]. Qed.
Lemma keeps_lift {A} a (x : res A) : keeps a Any (lift x).
Proof. now apply keeps_pure. Qed.
Lemma keeps_mworld a : keeps a mild_world m_world.
Proof. intros s r s' HR E. inversion E; subst. split; [apply calm_refl|]. intros x Ex. inversion Ex; now subst. Qed.
Lemma keeps_worlds a : keeps a Any m_world.
Proof. now apply keeps_pure. Qed.
Lemma keeps_onw {A} a (f : world -> A * world) : (forall W, calm a W (snd (f W))) -> keeps a Any (on_world f).
Proof. intro H. apply keeps_on. intro s. unfold on_world. specialize (H (snd s)). destruct (f (snd s)); exact H. Qed.
Lemma keeps_onst {A} a (f : bst -> res A * bst) : keeps a Any (on_st f).
Proof. apply keeps_pure. intro s. unfold on_st. destruct (f (fst s)); reflexivity. Qed.
Lemma keeps_freeze a n t mm : keeps a Any (m_freeze n t mm).
Proof. apply keeps_on. intro s. unfold m_freeze. destruct (freeze _ _ _ _) as [[f|e] [m k]]; now apply calm_core. Qed.
Lemma keeps_zip a n sp args : keeps a Any (m_zip n sp args).
Proof. apply keeps_on. intro s. unfold m_zip. destruct (zip_specs _ _ _ _ _) as [x [m k]]; now apply calm_core. Qed.
Lemma keeps_evaluate a n t : keeps a Any (m_evaluate n t).
Proof. now apply keeps_pure. Qed.
Lemma keeps_grounded a n t : keeps a Any (m_grounded n t).
Proof. now apply keeps_pure. Qed.
Lemma keeps_is_ground a n t : keeps a Any (m_is_ground n t).
Proof. now apply keeps_pure. Qed.
Lemma keeps_groundeds a n args : keeps a Any (m_groundeds n args).
Proof.
  induction args as [|t args IH]; cbn; [now apply keeps_pure|].
  apply keeps_any; [apply keeps_grounded|intro]. apply keeps_any; [exact IH|intro; now apply keeps_pure].
Qed.
Lemma keeps_freezes a n args : forall mm, keeps a Any (m_freezes n args mm).
Proof.
  induction args as [|t args IH]; intro mm; cbn; [now apply keeps_pure|].
  apply keeps_any; [apply keeps_freeze|intro]. apply keeps_any; [apply IH|intro; now apply keeps_pure].
Qed.
Lemma keeps_arg a args k : keeps a Any (arg args k).
Proof. unfold arg. destruct (nth_error _ _); [now apply keeps_ret|apply keeps_fail]. Qed.
Lemma keeps_last_arg a args : keeps a Any (last_arg args).
Proof. unfold last_arg. destruct (rev _); [apply keeps_fail|now apply keeps_ret]. Qed.
Lemma keeps_tick a : keeps a Any m_tick.
Proof. apply keeps_onw. intro. now apply calm_core. Qed.
Lemma keeps_time a : keeps a Any m_time.
Proof. apply keeps_onw. intro. now apply calm_core. Qed.

Section Body.
Variables (E : eng) (n : nat).
Hypothesis HR : forall a i g, mild_gen g -> keeps a mild_opt (e_resume E a i g).
Hypothesis HL : forall a i g c, mild_gen g -> keeps a Any (e_collect E a i g c).

Ltac go := repeat first
  [ apply keeps_ret; exact I | apply keeps_fail | apply keeps_lift | apply keeps_worlds | apply keeps_arg | apply keeps_last_arg
  | apply keeps_tick | apply keeps_time
  | apply HL; reflexivity
  | apply keeps_evaluate | apply keeps_grounded | apply keeps_is_ground | apply keeps_freeze
  | apply keeps_zip | apply keeps_groundeds | apply keeps_freezes
  | apply keeps_onst
  | apply keeps_any; [|intro]
  | match goal with |- keeps _ _ (match ?x with _ => _ end) => destruct x end
  | progress cbn zeta
  | match goal with |- keeps _ _ (let '(_, _) := ?x in _) => destruct x end ].

Lemma keeps_yield a l r : keeps a mild_opt (unify_yield n l r).
Proof. unfold unify_yield. go. apply keeps_ret. now destruct x. Qed.
Lemma keeps_collect_one a c : keeps a Any (collect_one n c).
Proof. unfold collect_one. go. Qed.
Lemma keeps_wait a i args : keeps a mild_opt (act_wait n i args).
Proof.
  unfold act_wait. apply keeps_any; [go|intro vs]. apply keeps_any; [go|intro em]. destruct em as [e m].
  apply keeps_any; [go|intro millis]. apply keeps_any.
  - destruct e as [e|]; [|go]. destruct e; try apply keeps_fail.
    intros st r s' HR' Ex. cbv zeta in Ex. unfold mbind, lift in Ex. cbn [m_world] in Ex.
    destruct (fr_event _ _) as [[ev k]|e]; inversion Ex; subst; split; auto; now apply calm_core.
  - intro ev. apply keeps_any; [go|intro until]. apply keeps_any; [|intro; now apply keeps_ret].
    apply keeps_onw. intro. now apply calm_core.
Qed.
Lemma keeps_print a b args : keeps a mild_opt (act_print n b args).
Proof. unfold act_print. go. apply keeps_onw. intro. now apply calm_core. Qed.
Lemma keeps_start a i ac t : mild (QAct ac t) = true -> keeps a mild_opt (start_act E n a i ac t).
Proof.
  intro Hm. unfold start_act. apply keeps_any; [go|intro args].
  destruct ac; try discriminate Hm; try apply keeps_wait; try apply keeps_print;
    unfold act_concat, act_substring, act_member, act_findall, act_count,
    act_sum, act_clock, act_range, act_fun, act_pred, act_proc; repeat (go; first [apply keeps_yield|apply HR; exact I|apply keeps_ret; match goal with |- mild_opt (if ?b then _ else _) => destruct b; exact I end|idtac]).
Qed.
Lemma keeps_resume_body a i g : mild_gen g -> keeps a mild_opt (resume_body E n a i g).
Proof.
  intro Hm. destruct g as [q| |cp|[cp|] t ref ver sz rest|cp t [sub|] rest|gl [gr|] r|g r|[] cp tgt cs fin]; cbn [resume_body].
  1: destruct q; [| |now apply keeps_start|..].
  all: cbn in Hm; try (go; fail).
  all: repeat match goal with H : _ /\ _ |- _ => destruct H end.
  all: try (apply andb_prop in Hm as [? ?]).
  - (* a belief query *) apply keeps_any; [go|intro v]. destruct v; try apply keeps_fail; [go|].
    apply keeps_any; [apply keeps_onw; intro W; destruct (bel_ref a _ W) as [r W'] eqn:Eb; eapply calm_unchanged, bel_ref_spec, Eb|intro r].
    apply keeps_any; [go|intro W]. apply HR. exact I.
  - apply HR. cbn. auto.
  - apply HR. cbn. auto.
  - apply keeps_any; [go|intro cp]. apply keeps_any; [go|intro]. eapply keeps_bind; [apply HR; exact Hm|intros o Ho].
    apply keeps_any; [go|intro]. apply keeps_ret. destruct o; exact I.
  - apply keeps_any; [go|intro o]. apply keeps_ret. destruct o; exact I.
  - apply keeps_any; [go|intro]. apply HR. exact I.
  - eapply keeps_bind; [apply keeps_mworld|intros W HW]. apply keeps_any; [go|intro]. destruct rest as [|b rest].
    + apply keeps_any; [go|intro]. apply HR. cbn. split; [exact I|]. apply HW.
    + apply keeps_any; [go|intro o]. destruct o; [apply keeps_ret; exact I|apply HR; exact I].
  - eapply keeps_bind; [apply HR; eassumption|intros o Ho]. destruct o; [apply keeps_ret; now split|].
    apply keeps_any; [go|intro]. apply HR. now split.
  - destruct rest as [|r rest]; [go|]. match goal with H : Forall _ (_ :: _) |- _ => inversion H; subst end.
    apply keeps_bind with (P := fun c => mild (r_query c) = true).
    { intros s x s' _ Ex. unfold on_world in Ex. unfold copy_rule in Ex. destruct (number _ _ _) as [m k]. inversion Ex; subst.
      split; [now apply calm_core|]. intros c Ec. inversion Ec; subst. cbn. now rewrite mild_rename. }
    intros c Hc. apply keeps_any; [go|intro]. apply keeps_any; [go|intro b]. destruct b.
    + apply HR. now split.
    + apply keeps_any; [go|intro]. apply HR. now split.
  - eapply keeps_bind; [apply HR; eassumption|intros o Ho]. destruct o; [apply keeps_ret; cbn; auto|]. apply HR. cbn. auto.
  - eapply keeps_bind; [apply HR; eassumption|intros o Ho]. destruct o; [|now apply keeps_ret]. apply HR. cbn. auto.
  - eapply keeps_bind; [apply HR; eassumption|intros o Ho]. destruct o; [apply keeps_ret; cbn; auto|].
    destruct r; [apply HR; cbn; auto|now apply keeps_ret].
  - apply keeps_any; [go|intro]. apply HR. exact I.
  - destruct cs; [go|]. apply keeps_any; [go|intro]. apply keeps_any; [go|intro b]. destruct b; [now apply keeps_ret|apply HR; exact I].
Qed.
Lemma keeps_collect_body a i g c : mild_gen g -> keeps a Any (collect_body E n a i g c).
Proof.
  intro Hm. unfold collect_body. eapply keeps_bind; [apply HR; exact Hm|intros o Ho]. destruct o; [|go].
  apply keeps_any; [apply keeps_collect_one|intro]. now apply HL.
Qed.

Hypothesis HP : forall a ref x j s r s', mild_world (snd s) -> Forall (fun p => mild (p_ctx p) = true) (get_plist (snd s) ref) ->
  e_plans E a ref x j s = (r, s') -> calm a (snd s) (snd s').

Lemma calm_launch a p fz t ci d ni s r s' : launch a p fz t ci d ni s = (r, s') -> calm a (snd s) (snd s').
Proof.
  intro Ex. unfold launch, mbind, m_st, on_world in Ex. cbn [m_world fst snd] in Ex. set (X := mkint _ _ _ _ _ _ _ _) in *.
  assert (H : forall l, calm a (snd s) (put_agent (put_int (snd s) ni X) a (set_a_ints (get_agent (put_int (snd s) ni X) a) l))).
  { intro l. eapply calm_trans; [|apply calm_stacks]. now apply calm_core. }
  destruct d.
  - unfold mret in Ex. inversion Ex; subst. apply H.
  - unfold lift in Ex. destruct (push_on ci ni _) as [o|e]; inversion Ex; subst; [apply H|now apply calm_core].
Qed.
Lemma calm_plans_body a ref x j s r s' : mild_world (snd s) -> Forall (fun p => mild (p_ctx p) = true) (get_plist (snd s) ref) ->
  plans_body E n a ref x j s = (r, s') -> calm a (snd s) (snd s').
Proof.
  destruct x as [[[[fz t] ci] d] ni]. intros HM HF Ex. unfold plans_body in Ex. unfold mbind at 1 in Ex. cbn [m_world] in Ex.
  destruct (nth_error (get_plist (snd s) ref) j) as [p|] eqn:Ep; [|inversion Ex; subst; apply calm_refl].
  assert (Hp : mild (p_ctx p) = true). { apply nth_error_In in Ep. rewrite Forall_forall in HF. auto. }
  unfold mbind at 1, m_uann, on_st in Ex. destruct (uann n (p_head p) fz (fst s)) as [[o|e] st1]; [|inversion Ex; subst; apply calm_refl].
  destruct o as [cp|]; [|eapply HP in Ex; eauto].
  unfold mbind at 1 in Ex. destruct (e_resume E a ni (GQ (p_ctx p)) (st1, snd s)) as [[g|e] s2] eqn:Eg.
  2:{ inversion Ex; subst. apply HR in Eg; [|exact Hp|exact HM]. exact (proj1 Eg). }
  apply HR in Eg; [|exact Hp|exact HM]. destruct Eg as [K _]. cbn [snd] in K.
  destruct g as [g|].
  - apply calm_launch in Ex. eapply calm_trans; eassumption.
  - unfold mbind, m_reroll, on_st in Ex. apply HP in Ex; cbn [snd] in *.
    + eapply calm_trans; eassumption.
    + eapply calm_mild; eassumption.
    + now rewrite (kp_plist _ _ _ K).
Qed.
End Body.

Lemma engine_keeps n :
  (forall a i g, mild_gen g -> keeps a mild_opt (resume n a i g)) /\
  (forall a i g c, mild_gen g -> keeps a Any (collect n a i g c)) /\
  (forall a ref x j s r s', mild_world (snd s) -> Forall (fun p => mild (p_ctx p) = true) (get_plist (snd s) ref) ->
    plans n a ref x j s = (r, s') -> calm a (snd s) (snd s')).
Proof.
  induction n as [|n (IH1 & IH2 & IH3)].
  - refine (conj _ (conj _ _)); intros; try apply keeps_fail. inversion H1; subst. apply calm_refl.
  - refine (conj _ (conj _ _)).
    + intros. now apply keeps_resume_body.
    + intros. now apply keeps_collect_body.
    + intros a ref x j s r s' HM HF Ex. exact (calm_plans_body (engine n) n IH1 IH3 _ _ _ _ _ _ _ HM HF Ex).
Qed.

Lemma calm_wake n tr gt fz stacks : forall a s r s', wake n tr gt fz stacks s = (r, s') -> calm a (snd s) (snd s').
Proof.
  induction stacks as [|[|i rest] ss IH]; intros a s r s' E; cbn [wake] in E.
  - inversion E; subst. apply calm_refl.
  - eapply IH; exact E.
  - unfold mbind in E. cbn [m_world] in E. unfold lift in E.
    destruct (wakes n tr gt fz (get_int (snd s) i)) as [[]|e] eqn:Ew.
    + unfold put_world in E. apply (IH a) in E. eapply calm_trans; [|exact E]. now apply calm_core.
    + unfold mret in E. eapply IH; exact E.
    + inversion E; subst. apply calm_refl.
Qed.
Lemma calm_new {A} a (k : nat -> M A) s r s' :
  (forall ci s1 r1 s1', calm a (snd s) (snd s1) -> k ci s1 = (r1, s1') -> calm a (snd s1) (snd s1')) ->
  with_new k s = (r, s') -> calm a (snd s) (snd s').
Proof.
  intros H E. unfold with_new in E. cbn in E.
  destruct (k _ (bst0, set_ints (snd s) (w_ints (snd s) ++ [int0]))) as [x s2] eqn:Ek. inversion E; subst. cbn.
  assert (K : calm a (snd s) (set_ints (snd s) (w_ints (snd s) ++ [int0]))) by now apply calm_core.
  eapply calm_trans; [exact K|]. exact (H _ (bst0, _) _ _ K Ek).
Qed.
(** An event that is handled by plans changes beliefs only by the update that
    the event is about, and no plans; whatever happens. *)
Lemma calm_event n a tr gt t ci d s r s' : mild_world (snd s) -> plan_event tr gt = true ->
  call_event (engine n) n a tr gt t ci d s = (r, s') -> calm a (snd s) (snd s').
Proof.
  intros HM HE Ex. unfold call_event in Ex. unfold mbind at 1 in Ex.
  destruct (m_freeze n t [] s) as [[fm|e] s1] eqn:Ef; apply (keeps_freeze a) in Ef as [K1 _]; auto; [|inversion Ex; subst; exact K1].
  eapply calm_trans; [exact K1|]. apply (calm_mild _ _ _ K1) in HM. clear K1 s. rename s1 into s.
  destruct (fst fm) as [| | | | | | |f args annots| |] eqn:Efm; try (inversion Ex; subst; apply calm_refl).
  cbv zeta in Ex. unfold mbind at 1 in Ex. cbn [m_world] in Ex. unfold mbind at 1 in Ex.
  destruct (wake n tr gt _ _ s) as [[u|e] s1] eqn:Ew; apply (calm_wake _ _ _ _ _ a) in Ew; [|inversion Ex; subst; exact Ew].
  eapply calm_trans; [exact Ew|]. apply (calm_mild _ _ _ Ew) in HM. clear Ew s. rename s1 into s.
  assert (EX : (ref <- on_world (plan_ref a (tr, gt, (f, List.length args))) ;;
           found <- with_new (fun ni =>
             e_plans (engine n) a ref (TLit f args annots, t, ci, d, ni) 0%nat) ;;
           if found : bool then mret true
           else match gt with
                | GtAchieve => mfail EAsl
                | GtTest => test_belief (engine n) n a ci t
                | _ => mret true
                end)%M s = (r, s')).
  { destruct gt, tr; try discriminate HE; exact Ex. }
  clear Ex HE. rename EX into Ex. unfold mbind at 1, on_world in Ex.
  set (g := (tr, gt, (f, List.length args))) in *. destruct (plan_ref a g (snd s)) as [ref W1] eqn:Ep.
  assert (K : calm a (snd s) W1). { change W1 with (snd (ref, W1)). rewrite <- Ep. apply calm_planref. }
  assert (HP : get_plist W1 ref = plans_of a g (snd s)).
  { change (get_plist (snd (ref, W1)) (fst (ref, W1)) = plans_of a g (snd s)). rewrite <- Ep. unfold plan_ref, plans_of.
    destruct (assoc pgroup_eqb g (a_plans (get_agent (snd s) a))) as [r0|]; [reflexivity|].
    cbn [fst snd]. unfold get_plist. cbn. rewrite app_nth2, Nat.sub_diag by lia. reflexivity. }
  assert (HF : Forall (fun p => mild (p_ctx p) = true) (get_plist W1 ref)) by (rewrite HP; apply HM).
  eapply calm_trans; [exact K|]. apply (calm_mild _ _ _ K) in HM. unfold mbind in Ex.
  destruct (with_new _ (fst s, W1)) as [[b|e] s1] eqn:En.
  2:{ inversion Ex; subst. eapply calm_new in En; [exact En|]. cbn [snd]. intros ci0 s1 r1 s1' K1 E1.
      eapply (proj2 (proj2 (engine_keeps n))); [| |exact E1]; [eapply calm_mild; eassumption|now rewrite (kp_plist _ _ _ K1)]. }
  eapply calm_new in En; cbn [snd] in *.
  2:{ intros ci0 s2 r1 s1' K1 E1. eapply (proj2 (proj2 (engine_keeps n))); [| |exact E1]; [eapply calm_mild; eassumption|now rewrite (kp_plist _ _ _ K1)]. }
  eapply calm_trans; [exact En|]. apply (calm_mild _ _ _ En) in HM.
  destruct b; [inversion Ex; subst; apply calm_refl|]. destruct gt; try (inversion Ex; subst; apply calm_refl).
  revert Ex HM. generalize s1. intros s2 Ex HM.
  enough (HK : keeps a Any (test_belief (engine n) n a ci t)) by (exact (proj1 (HK _ _ _ HM Ex))).
  unfold test_belief. apply keeps_any; [apply keeps_evaluate|intro v]. destruct v; try apply keeps_fail.
  eapply keeps_bind; [apply (proj1 (engine_keeps n)); reflexivity|intros o _]. now apply keeps_ret.
Qed.
End WithPy.
