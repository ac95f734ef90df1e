(** Proofs for C66: a session at the prompt. *)
From Coq Require Import Lia.
From Verif Require Import Base Num Term Unify Str World Engine Step Ast Names Build InstSpec FlowSpec FlowFacts ScopeSpec ScopeFacts CmpSpec CmpFacts SchedSpec SchedFacts EffFacts EventFacts ChainFacts Repl ReplExec SessSpec.

(** * Building a statement only adds names *)
Definition good (s : bs) : Prop := inv 0 s /\ NoDup (map fst (v_vars s)).
Definition grown (s s' : bs) : Prop := good s -> good s' /\ ext s s'.
Definition grows {A} (m : B A) : Prop := forall s r s', m s = (r, s') -> grown s s'.

Lemma grown_refl s : grown s s.
Proof. intro H. split; [exact H|apply ext_refl]. Qed.
Lemma grown_trans s1 s2 s3 : grown s1 s2 -> grown s2 s3 -> grown s1 s3.
Proof. intros H1 H2 G. destruct (H1 G) as [G2 X1]. destruct (H2 G2) as [G3 X2]. split; [exact G3|eapply ext_trans; eassumption]. Qed.
Lemma good_ext_nv s k lg : (v_nv s <= k)%N -> grown s (mkbs (v_vars s) k lg).
Proof.
  intros K [(I1 & I2 & I3) ND]. split; [split; [|exact ND]|].
  - split; [cbn; lia|]. split; [|exact I3]. intros x t E. destruct (I2 x t E) as (i & -> & Hi). exists i. split; [reflexivity|cbn; lia].
  - split; [cbn; lia|]. split; [auto|]. intros x i E. left. exact E.
Qed.
Lemma grows_ret {A} (x : A) : grows (bret x).
Proof. intros s r s' E. injection E as _ <-. apply grown_refl. Qed.
Lemma grows_fail {A} e : grows (@bfail A e).
Proof. intros s r s' E. injection E as _ <-. apply grown_refl. Qed.
Lemma grows_bind {A C} (m : B A) (f : A -> B C) : grows m -> (forall x, grows (f x)) -> grows (bbind m f).
Proof.
  intros Hm Hf s r s' E. unfold bbind in E. destruct (m s) as [[x|e] s1] eqn:E1; apply Hm in E1.
  - apply Hf in E. eapply grown_trans; eassumption.
  - injection E as _ <-. exact E1.
Qed.
Lemma grows_mapl {A C} (f : A -> B C) l : Forall (fun x => grows (f x)) l -> grows (bmapl f l).
Proof. induction 1 as [|x l H _ IH]; cbn; [apply grows_ret|]. apply grows_bind; [exact H|]. intro y. apply grows_bind; [exact IH|]. intro. apply grows_ret. Qed.
Lemma grows_fold {A C} (f : A -> C -> B C) l : Forall (fun x => forall c, grows (f x c)) l -> forall c, grows (bfold f l c).
Proof. induction 1 as [|x l H _ IH]; intro c; cbn [bfold]; [apply grows_ret|]. apply grows_bind; [apply H|exact IH]. Qed.
Lemma grows_error : grows b_error.
Proof. intros s r s' E. unfold b_error in E. destruct (log_error (v_log s)) as [r1 l]. injection E as _ <-. apply good_ext_nv. lia. Qed.
Lemma grows_raise {A} : grows (@b_raise A).
Proof. intros s r s' E. unfold b_raise in E. destruct (log_error (v_log s)) as [r1 l]. injection E as _ <-. apply good_ext_nv. lia. Qed.
Lemma grows_warn : grows b_warn.
Proof. intros s r s' E. injection E as _ <-. apply good_ext_nv. lia. Qed.
Lemma grows_fresh : grows b_fresh.
Proof. intros s r s' E. injection E as _ <-. apply good_ext_nv. lia. Qed.

Lemma assoc_none_in {V} y (l : list (pystr * V)) : assoc pystr_eqb y l = None -> ~ In y (map fst l).
Proof.
  induction l as [|[z v] l IH]; cbn; [auto|]. destruct (pystr_eqb y z) eqn:E; [discriminate|]. intros H [->|Hi]; [|now apply IH].
  now rewrite str_eqb_refl in E.
Qed.

Section WithPy.
Context {PY : Py}.
Lemma grows_var v : grows (build_var v).
Proof.
  intros s r s' E [I ND]. assert (Hr : exists t, r = Ok t) by (unfold build_var in E; destruct (assoc _ _ _); injection E as <- _; eauto).
  destruct Hr as (t & ->). destruct (gives_var 0 (fun _ => None) v s t s' I E) as (I' & X & _). split; [|exact X]. split; [exact I'|].
  unfold build_var in E. destruct (assoc pystr_eqb v (v_vars s)) eqn:Ea; injection E as _ <-; [exact ND|]. cbn. constructor; [|exact ND].
  now apply assoc_none_in.
Qed.
Lemma grows_term p t : grows (build_term p t).
Proof.
  induction t using ast_ind'; cbn [build_term]; try apply grows_ret.
  - apply grows_var.
  - apply grows_bind; [now apply grows_mapl|]. intro.
    apply grows_bind; [now apply grows_mapl|]. intro. apply grows_ret.
  - apply grows_bind; [now apply grows_mapl|]. intro. apply grows_ret.
  - apply grows_bind; [assumption|]. intro. apply grows_bind; [assumption|]. intro. apply grows_ret.
  - destruct p; (apply grows_bind; [apply grows_fresh || assumption|]; intro); apply grows_ret.
  - destruct p; (apply grows_bind; [apply grows_fresh || assumption|]; intro); [apply grows_ret|].
    apply grows_bind; [assumption|]. intro. apply grows_ret.
Qed.
Lemma grows_query acts t : grows (build_query acts t).
Proof.
  induction t as [b|x|z|v|f ts an _ _|ts _|h t _ _|op a IHa|op l r IHl IHr] using ast_ind'; cbn [build_query].
  - destruct b; apply grows_ret.
  - apply grows_raise.
  - apply grows_raise.
  - apply grows_bind; [apply grows_var|]. intro. apply grows_ret.
  - apply grows_bind; [apply (grows_term false (ALit f ts an))|]. intro x. destruct (actions_lookup acts f (List.length ts)); [apply grows_ret|].
    apply grows_bind; [destruct (has_dot f); [apply grows_warn|apply grows_ret]|]. intro. apply grows_ret.
  - apply grows_fail.
  - apply grows_fail.
  - destruct op; try apply grows_fail. apply grows_bind; [assumption|]. intro. apply grows_ret.
  - assert (Z : grows ((if is_comp op then bret tt else b_error) ;; x <- build_term false (ABin op l r) ;; bret (QTerm x))%B).
    { apply grows_bind; [destruct (is_comp op); [apply grows_ret|apply grows_error]|]. intro. apply grows_bind; [apply grows_term|]. intro. apply grows_ret. }
    destruct op; try exact Z; (apply grows_bind; [assumption || apply grows_term|]; intro; apply grows_bind; [assumption || apply grows_term|]; intro; apply grows_ret).
Qed.
Lemma grows_pattern t : grows (build_pattern t).
Proof.
  intros s r s' E. unfold build_pattern in E. destruct (build_term true t (mkbs [] (v_nv s) (v_log s))) as [r1 s1] eqn:E1.
  apply grows_term in E1. injection E as _ <-. apply good_ext_nv.
  destruct E1 as [_ (H & _)]; [|exact H]. split; [|constructor]. split; [apply N.le_0_l|]. split; [discriminate|intros x y i X; discriminate].
Qed.
Lemma grows_form acts f : forall c, grows (compile acts f c).
Proof.
  induction f as [ft t|c b IH|c ib eb IHi IHe|c b IH] using form_ind'; intro c0; cbn [compile]; cbv zeta.
  - destruct ft; try (apply grows_bind; [apply grows_term|]; intro; apply grows_ret).
    + apply grows_bind; [apply grows_query|]. intro. apply grows_ret.
    + apply grows_bind; [apply grows_pattern|]. intro. apply grows_bind; [apply grows_term|]. intro. apply grows_ret.
  - apply grows_bind; [apply grows_query|]. intro. apply grows_bind; [now apply grows_fold|]. intro. apply grows_ret.
  - cbn [new_instr]. apply grows_bind; [apply grows_query|]. intro. apply grows_bind; [now apply grows_fold|]. intro.
    destruct eb as [b'|]; [|apply grows_ret]. apply grows_bind; [now apply grows_fold|]. intro. apply grows_ret.
  - cbn [new_instr]. apply grows_bind; [apply grows_query|]. intro. apply grows_bind; [now apply grows_fold|]. intro. apply grows_ret.
Qed.
Lemma grows_body acts l c : grows (compile_all acts l c).
Proof. apply grows_fold, Forall_forall. intros. apply grows_form. Qed.
End WithPy.

(** * Sessions *)
Definition start (x : session) : bs := mkbs (s_vars x) (w_nv (s_world x)) log3.
Lemma names_start x : env_of (start x) = names_of x.
Proof. reflexivity. Qed.
Lemma sound_good x : sound x <-> good (start x).
Proof.
  split.
  - intros [[H1 H2] K ND]. split; [|exact ND]. split; [apply N.le_0_l|]. split; [|exact H2].
    intros y t E. destruct (K y t E) as (i & [[-> ->]|[-> Hy]]); exists i.
    + split; [reflexivity|]. apply (H1 (s2p "_")). unfold names_of. cbn [v_vars start] in E. now rewrite E.
    + split; [unfold shape; destruct (pystr_eqb y (s2p "_")) eqn:Ey; [apply str_eqb_eq in Ey; contradiction|reflexivity]|].
      apply (H1 y). unfold names_of. cbn [v_vars start] in E. now rewrite E.
  - intros [I ND]. split; [exact (inv_fresh _ _ I)| |exact ND].
    intros y t E. destruct I as (_ & I & _). destruct (I y t E) as (i & -> & _). exists i. unfold shape.
    destruct (pystr_eqb y (s2p "_")) eqn:Ey; [left|right]; split; auto; [now apply str_eqb_eq|]. intros ->. now rewrite str_eqb_refl in Ey.
Qed.
Lemma good_log vs k lg lg' : good (mkbs vs k lg) -> good (mkbs vs k lg').
Proof. exact (fun H => H). Qed.

(** * What is shown *)
Lemma assoc_in_once {V} (l : list (pystr * V)) : NoDup (map fst l) -> forall y t, assoc pystr_eqb y l = Some t <-> In (y, t) l.
Proof.
  induction l as [|[z v] l IH]; cbn; intros ND y t; [split; [discriminate|tauto]|]. inversion ND as [|? ? Hn ND']; subst.
  destruct (pystr_eqb y z) eqn:E.
  - apply str_eqb_eq in E. subst z. split; [intro X; injection X as ->; auto|]. intros [X|Hi]; [congruence|]. exfalso. apply Hn.
    apply (in_map fst) in Hi. exact Hi.
  - rewrite (IH ND'). split; [auto|]. intros [X|Hi]; [|exact Hi]. injection X as -> ->. now rewrite str_eqb_refl in E.
Qed.
Lemma insert_in x l : forall y, In y (insert_name x l) <-> y = x \/ In y l.
Proof.
  induction l as [|z l IH]; cbn; intro y; [intuition|]. destruct (pystr_cmp (fst x) (fst z)); cbn; rewrite ?IH; intuition.
Qed.
Lemma ascending_cons x l : ascending l -> (forall y, In y l -> lex_lt x y) -> ascending (x :: l).
Proof. intros H G. destruct l as [|y l]; [constructor|]. constructor; [apply G; now left|exact H]. Qed.
Lemma ascending_tail x l : ascending (x :: l) -> ascending l.
Proof. inversion 1; subst; [constructor|assumption]. Qed.
Lemma ascending_below x l : ascending (x :: l) -> forall y, In y l -> lex_lt x y.
Proof.
  revert x. induction l as [|z l IH]; intros x H y Hy; [destruct Hy|]. inversion H as [| |? ? ? L G]; subst.
  destruct Hy as [<-|Hy]; [exact L|]. eapply lex_lt_trans; [exact L|]. now apply IH.
Qed.
Lemma insert_sorted x l : ascending (map fst l) -> ~ In (fst x) (map fst l) -> ascending (map fst (insert_name x l)).
Proof.
  induction l as [|z l IH]; cbn [map insert_name]; intros H N; [constructor|].
  pose proof (pystr_cmp_spec (fst x) (fst z)) as C. destruct (pystr_cmp (fst x) (fst z)); cbn [map].
  - exfalso. apply N. left. now symmetry.
  - constructor; assumption.
  - apply ascending_cons; [apply IH; [now apply ascending_tail in H|intro Hi; apply N; now right]|].
    intros y Hy. apply in_map_iff in Hy as (p & <- & Hp). apply insert_in in Hp as [->|Hp]; [exact C|].
    apply (ascending_below _ _ H). now apply in_map.
Qed.
Lemma sorted_in l y : In y (sorted_items l) <-> In y l.
Proof. induction l as [|x l IH]; cbn; [tauto|]. rewrite insert_in, IH. intuition. Qed.
Lemma sorted_ascending l : NoDup (map fst l) -> ascending (map fst (sorted_items l)).
Proof.
  induction l as [|x l IH]; cbn [sorted_items fold_right map]; intro ND; [constructor|]. inversion ND as [|? ? Hn ND']; subst.
  apply insert_sorted; [exact (IH ND')|]. intro Hi. apply Hn. apply in_map_iff in Hi as (p & E & Hp). apply (proj1 (sorted_in l p)) in Hp. rewrite <- E. now apply in_map.
Qed.
Lemma deref_leads n s : forall t u, deref_loop n t s = Ok u -> leads s t u.
Proof.
  induction n as [|n IH]; intros t u E; destruct t; cbn [deref_loop] in E; try (injection E as <-; apply ld_other; discriminate);
    (destruct (lookup s n) as [t'|] eqn:El || destruct (lookup s _) as [t'|] eqn:El); try discriminate; try (injection E as <-; now apply ld_var);
    (eapply ld_next; [exact El|now apply IH]).
Qed.
Lemma leads_one s t u : leads s t u -> forall u', leads s t u' -> u = u'.
Proof.
  induction 1 as [v H|t H|v t u H G IH]; intros u' G'; inversion G' as [w X|t0 X|w t0 u0 X Y]; subst; try congruence; try (exfalso; eapply H; reflexivity); try (exfalso; eapply X; reflexivity).
  apply IH. now replace t with t0 by congruence.
Qed.

Section Shown.
Context {PY : Py}.
Definition has_value (s : scope) (t u : term) : Prop := exists v t', t = TVar v /\ lookup s v = Some t' /\ leads s t' u.
Lemma scope_yes t s : in_scope t s = true <-> exists v t', t = TVar v /\ lookup s v = Some t'.
Proof.
  unfold in_scope, bound. destruct t; try (split; [discriminate|intros (v & t' & E & _); discriminate]).
  destruct (lookup s _) eqn:E; split; try discriminate; eauto. intros (w & t' & X & Y). injection X as ->. congruence.
Qed.
Lemma dump_shows s l : forall ls us, dump_loop l s = Ok (ls, us) -> exists p q : list (pystr * term),
  ls = map (fun '(x, u) => x ++ s2p " = " ++ asl_str u) p /\ us = map (fun '(x, t) => x ++ s2p " = " ++ asl_repr t) q /\
  (ascending (map fst l) -> ascending (map fst p) /\ ascending (map fst q)) /\
  (forall x, In x (map fst p) -> In x (map fst l)) /\ (forall x, In x (map fst q) -> In x (map fst l)) /\
  (forall x u, In (x, u) p <-> exists t, In (x, t) l /\ has_value s t u) /\
  (forall x t, In (x, t) q <-> In (x, t) l /\ ~ exists v t', t = TVar v /\ lookup s v = Some t').
Proof.
  induction l as [|[y t] l IH]; intros ls us E; cbn [dump_loop] in E.
  { injection E as <- <-. exists [], []. cbn. repeat split; try constructor; try tauto; try (intros (? & [] & _)); try (intros [[] _]). }
  destruct (in_scope t s) eqn:Es.
  - destruct (deref t s) as [u|e] eqn:Ed; [|discriminate]. destruct (dump_loop l s) as [[ls1 us1]|e] eqn:E1; [|discriminate].
    cbn [rmap] in E. injection E as <- <-. destruct (IH _ _ eq_refl) as (p & q & -> & -> & HA & HP & HQ & HI & HJ).
    pose proof (proj1 (scope_yes _ _) Es) as (v & t' & -> & Hl). unfold deref in Ed. apply deref_leads in Ed.
    assert (Hd : leads s t' u). { inversion Ed as [? X|? X|? ? ? X Y]; subst; [congruence|exfalso; now apply (X v)|]. congruence. }
    exists ((y, u) :: p), q. split; [reflexivity|]. split; [reflexivity|]. split; [|split; [|split; [|split]]].
    + intro A. cbn [map fst] in A. destruct (HA (ascending_tail _ _ A)) as [A1 A2]. split; [|exact A2]. cbn [map fst]. apply ascending_cons; [exact A1|].
      intros x Hx. apply (ascending_below _ _ A). now apply HP.
    + cbn. intros x [<-|Hx]; [now left|right; now apply HP].
    + cbn. intros x Hx. right. now apply HQ.
    + intros x w. cbn [In]. rewrite HI. split.
      * intros [X|(t1 & H1 & H2)]; [injection X as <- <-; exists (TVar v); split; [now left|exists v, t'; auto]|exists t1; auto].
      * intros (t1 & [X|H1] & H2); [injection X as <- <-; left; f_equal|right; eauto].
        destruct H2 as (v1 & t2 & X & Y & Z). injection X as <-. rewrite Hl in Y. injection Y as <-. eapply leads_one; eassumption.
    + intros x t1. rewrite HJ. cbn [In]. split; [intros [H1 H2]; auto|]. intros [[X|H1] H2]; [|auto]. injection X as <- <-. exfalso. apply H2. eauto.
  - destruct (dump_loop l s) as [[ls1 us1]|e] eqn:E1; [|discriminate].
    cbn [rmap] in E. injection E as <- <-. destruct (IH _ _ eq_refl) as (p & q & -> & -> & HA & HP & HQ & HI & HJ).
    assert (Hn : ~ exists v t', t = TVar v /\ lookup s v = Some t') by (intro X; apply scope_yes in X; congruence).
    exists p, ((y, t) :: q). split; [reflexivity|]. split; [reflexivity|]. split; [|split; [|split; [|split]]].
    + intro A. cbn [map fst] in A. destruct (HA (ascending_tail _ _ A)) as [A1 A2]. split; [exact A1|]. cbn [map fst]. apply ascending_cons; [exact A2|].
      intros x Hx. apply (ascending_below _ _ A). now apply HQ.
    + cbn. intros x Hx. right. now apply HP.
    + cbn. intros x [<-|Hx]; [now left|right; now apply HQ].
    + intros x w. rewrite HI. cbn [In]. split; [intros (t1 & H1 & H2); exists t1; auto|].
      intros (t1 & [X|H1] & H2); [|eauto]. injection X as <- <-. exfalso. apply Hn. destruct H2 as (v & t' & -> & Y & _). eauto.
    + intros x t1. cbn [In]. rewrite HJ. split; [intros [X|[H1 H2]]; [injection X as <- <-; auto|auto]|]. intros [[X|H1] H2]; auto.
Qed.
Theorem dump_shown vars s lines : NoDup (map fst vars) -> dump_variables vars s = Ok lines -> shown (fun x => assoc pystr_eqb x vars) s lines.
Proof.
  intros ND E. unfold dump_variables in E. destruct (dump_loop (sorted_items vars) s) as [[ls us]|e] eqn:El; [|discriminate]. cbn [rmap] in E. injection E as <-.
  destruct (dump_shows _ _ _ _ El) as (p & q & -> & -> & HA & _ & _ & HI & HJ). destruct (HA (sorted_ascending _ ND)) as [A1 A2].
  exists p, q. split; [exact A1|]. split; [exact A2|]. split; [|split].
  - intros x u. rewrite HI. split.
    + intros (t & Hi & (v & t' & -> & Hl & G)). apply (sorted_in vars) in Hi. apply (assoc_in_once vars ND) in Hi. eauto.
    + intros (v & t & E & Hl & G). apply (assoc_in_once vars ND) in E. exists (TVar v). split; [now apply sorted_in|exists v, t; auto].
  - intros x t. rewrite HJ. split; intros [H1 H2]; (split; [|exact H2]).
    + apply (sorted_in vars) in H1. now apply (assoc_in_once vars ND).
    + apply (assoc_in_once vars ND) in H1. now apply sorted_in.
  - f_equal. destruct q as [|[x t] q]; [reflexivity|]. cbn [map]. cbn [List.length]. now rewrite map_length.
Qed.
End Shown.

(** * One statement *)
Section Statement.
Context {PY : Py} (L : PyLawful PY) {FR : Front}.
Lemma get_agent_same W a x : (a < List.length (w_agents W))%nat -> get_agent (put_agent W a x) a = x.
Proof. intro H. unfold get_agent, put_agent. cbn. now apply upd_same. Qed.
Lemma get_agent_diff W a b x : b <> a -> get_agent (put_agent W a x) b = get_agent W b.
Proof. intro H. unfold get_agent, put_agent. cbn. now apply upd_other. Qed.
Lemma get_int_same W i x : (i < List.length (w_ints W))%nat -> get_int (put_int W i x) i = x.
Proof. intro H. unfold get_int, put_int. cbn. now apply upd_same. Qed.
Lemma get_int_diff W i j x : j <> i -> get_int (put_int W i x) j = get_int W j.
Proof. intro H. unfold get_int, put_int. cbn. now apply upd_other. Qed.

Definition begun (a i : nat) (code : list instr) (k : N) (W : world) : world :=
  let W1 := set_nv W k in let W2 := put_int W1 i (set_code (get_int W1 i) code) in let ag := get_agent W2 a in
  put_agent W2 a (set_a_ints ag (a_ints ag ++ [[i]])).
Lemma begun_started a i code k W l : (i < List.length (w_ints W))%nat -> (a < List.length (w_agents W))%nat -> follows code (Some 0%nat) (begin l) ->
  started a i l k W (begun a i code k W).
Proof.
  intros Hi Ha Hf. unfold begun. cbv zeta. set (W2 := put_int _ _ _).
  assert (Gi : get_int W2 i = set_code (get_int W i) code) by (unfold W2; now rewrite get_int_same).
  assert (Ga : forall b, get_agent W2 b = get_agent W b) by reflexivity.
  assert (Gl : (a < List.length (w_agents W2))%nat) by exact Ha.
  set (W3 := put_agent W2 a _). assert (Gi3 : forall j, get_int W3 j = get_int W2 j) by reflexivity.
  constructor; rewrite ?Gi3, ?Gi; cbn [set_code i_code i_pc i_bst i_qs i_cps i_wait i_head i_call]; auto 6.
  - intros j Hj. rewrite Gi3. unfold W2. now rewrite get_int_diff.
  - unfold W3. rewrite get_agent_same by exact Gl. reflexivity.
  - unfold W3. rewrite get_agent_same by exact Gl. rewrite Ga. cbn. auto.
  - intros b Hb. unfold W3. rewrite get_agent_diff by exact Hb. apply Ga.
Qed.

(** The names after the statement, whatever happens. *)
Lemma statement_names acts k n a i b x r x' : exec_statement acts k n a i b x = (r, x') -> sound x ->
  exists k', more_names x x' /\ NoDup (map fst (s_vars x')) /\ fresh_names 0 k' (names_of x') /\ (w_nv (s_world x) <= k')%N /\
    ((k' <= w_nv (s_world x'))%N -> sound x').
Proof.
  intros E S. pose proof (proj1 (sound_good x) S) as G. unfold exec_statement in E.
  destruct (compile_all acts b _ (mkbs (s_vars x) (w_nv (s_world x)) log3)) as [rc s] eqn:Ec.
  destruct (grows_body acts b _ _ _ _ Ec G) as ([I ND] & X1 & X2 & X3).
  assert (Ev : s_vars x' = v_vars s).
  { destruct rc as [c|e]; [|injection E as _ <-; reflexivity]. destruct (log_throw (v_log s)); [|injection E as _ <-; reflexivity].
    destruct (run_agent k n a _) as [[ds|e] W4]; [|injection E as _ <-; reflexivity].
    destruct (dump_variables _ _); injection E as _ <-; reflexivity. }
  assert (En : names_of x' = env_of s) by (unfold names_of, env_of; now rewrite Ev).
  exists (v_nv s). split; [|split; [now rewrite Ev|split; [rewrite En; exact (inv_fresh _ _ I)|split; [exact X1|]]]].
  - split; [intros y t Ey; rewrite Ev; now apply X2|]. rewrite En. intros y j Ey. destruct (X3 y j Ey) as [H|H]; [left; exact H|right; exact (proj1 H)].
  - intro K. apply sound_good. split; [|cbn; now rewrite Ev]. destruct I as (I1 & I2 & I3). split; [apply N.le_0_l|]. split.
    + intros y t Ey. cbn [start v_vars] in Ey. rewrite Ev in Ey. destruct (I2 y t Ey) as (j & Ht & Hj). exists j. split; [exact Ht|cbn; lia].
    + intros y z j. change (env_of (start x')) with (names_of x'). rewrite En. apply I3.
Qed.

Theorem statement_runs acts k n a i b x x' : exec_statement acts k n a i b x = (Ok tt, x') -> sound x ->
  (i < List.length (w_ints (s_world x)))%nat -> (a < List.length (w_agents (s_world x)))%nat ->
  exists k' l W1 ds lines, more_names x x' /\ fresh_names 0 k' (names_of x') /\ order acts 0 k' (names_of x') b l /\
    started a i l k' (s_world x) W1 /\ runs1 n a W1 ds (s_world x') /\
    shown (fun y => assoc pystr_eqb y (s_vars x')) (b_scope (i_bst (get_int (s_world x') i))) lines /\ s_out x' = s_out x ++ lines.
Proof.
  intros E S Hi Ha. pose proof (statement_names _ _ _ _ _ _ _ _ _ E S) as (k0 & M & ND & _ & _ & _).
  pose proof (proj1 (sound_good x) S) as G. unfold exec_statement in E.
  destruct (compile_all acts b _ (mkbs (s_vars x) (w_nv (s_world x)) log3)) as [rc s] eqn:Ec.
  destruct (grows_body acts b _ _ _ _ Ec G) as ([I _] & _). destruct rc as [c|e]; [|discriminate].
  apply compiled_follows in Ec as (l & El & Hf). destruct (log_throw (v_log s)); [|discriminate]. cbv zeta in E.
  match type of E with context [run_agent k n a ?V] => change V with (begun a i (c_code c) (v_nv s) (s_world x)) in E end.
  destruct (run_agent k n a _) as [[ds|e] W4] eqn:Er; [|discriminate].
  destruct (dump_variables _ _) as [ls|e] eqn:Ed; [|discriminate]. injection E as <-. cbn [s_vars s_world s_out] in *.
  exists (v_nv s), l, (begun a i (c_code c) (v_nv s) (s_world x)), ds, ls.
  split; [exact M|]. split; [exact (inv_fresh _ _ I)|]. split; [|split; [now apply begun_started|split; [now apply (run_agent_runs k)|split; [now apply dump_shown|reflexivity]]]].
  destruct (gives_body L acts 0 b _ _ _ (proj1 G) El) as (_ & _ & H). apply (H s I (ext_refl s)).
Qed.

Theorem statement_fails acts k n a i b x e x' : exec_statement acts k n a i b x = (Err e, x') -> sound x ->
  (i < List.length (w_ints (s_world x)))%nat -> (a < List.length (w_agents (s_world x)))%nat ->
  exists k', more_names x x' /\ fresh_names 0 k' (names_of x') /\ s_out x' = s_out x /\
    (s_world x' = set_nv (s_world x) k' \/
     exists l W1, order acts 0 k' (names_of x') b l /\ started a i l k' (s_world x) W1 /\
       (run_agent k n a W1 = (Err e, s_world x') \/ e = EDiverge /\ exists ds, run_agent k n a W1 = (Ok ds, s_world x'))).
Proof.
  intros E S Hi Ha. pose proof (statement_names _ _ _ _ _ _ _ _ _ E S) as (k0 & M & ND & _ & _ & _).
  pose proof (proj1 (sound_good x) S) as G. unfold exec_statement in E.
  destruct (compile_all acts b _ (mkbs (s_vars x) (w_nv (s_world x)) log3)) as [rc s] eqn:Ec.
  destruct (grows_body acts b _ _ _ _ Ec G) as ([I _] & _). pose proof (inv_fresh _ _ I) as F. exists (v_nv s).
  assert (Z : forall W o, x' = mksession W (v_vars s) o -> names_of x' = env_of s) by (intros W o ->; reflexivity).
  split; [exact M|]. destruct rc as [c|e']; [|injection E as _ <-; cbn; auto].
  apply compiled_follows in Ec as (l & El & Hf). destruct (log_throw (v_log s)); [|injection E as _ <-; cbn; auto]. cbv zeta in E.
  match type of E with context [run_agent k n a ?V] => change V with (begun a i (c_code c) (v_nv s) (s_world x)) in E end.
  assert (HO : order acts 0 (v_nv s) (env_of s) b l) by (destruct (gives_body L acts 0 b _ _ _ (proj1 G) El) as (_ & _ & H); apply (H s I (ext_refl s))).
  destruct (run_agent k n a _) as [[ds|e'] W4] eqn:Er.
  - destruct (dump_variables _ _) as [ls|e'] eqn:Ed; [discriminate|]. injection E as -> <-. cbn [s_out s_world].
    split; [exact F|]. split; [reflexivity|]. right. exists l, (begun a i (c_code c) (v_nv s) (s_world x)).
    split; [exact HO|]. split; [now apply begun_started|]. right. split; [|exists ds; exact Er].
    clear -Ed. unfold dump_variables in Ed. destruct (dump_loop _ _) as [[ls us]|e'] eqn:El; [discriminate|]. injection Ed as ->.
    revert El. generalize (sorted_items (v_vars s)). intro l. induction l as [|[y t] l IH]; cbn [dump_loop]; [discriminate|].
    destruct (in_scope t _); [destruct (deref t _) as [u|e'] eqn:Ed|]; try (destruct (dump_loop l _) as [[? ?]|]; [discriminate|exact IH]).
    intro X. injection X as ->. unfold deref in Ed. now apply ChainFacts.deref_loop_err in Ed.
  - injection E as -> <-. cbn [s_out s_world]. split; [exact F|]. split; [reflexivity|]. right.
    exists l, (begun a i (c_code c) (v_nv s) (s_world x)). split; [exact HO|]. split; [now apply begun_started|]. now left.
Qed.
End Statement.

(** * While the session's intention waits *)
Section Waiting.
Context {PY : Py} (L : PyLawful PY) {FR : Front}.
Definition stuck (W : world) (s : list nat) : Prop := s = [] \/ exists i rest w, s = i :: rest /\ i_wait (get_int W i) = Some w /\ wt_until w = None.
Lemma pick_stuck l : forall pos W, (forall s, In s l -> stuck W s) -> pick l pos W = (None, W).
Proof.
  induction l as [|s l IH]; intros pos W H; [reflexivity|]. destruct (H s (or_introl eq_refl)) as [->|(i & rest & w & -> & Hw & Hu)]; cbn [pick].
  - apply IH. intros s Hs. apply H. now right.
  - rewrite Hw. unfold poll. rewrite Hu. apply IH. intros s Hs. apply H. now right.
Qed.
Lemma deadlines_stuck l W : (forall s, In s l -> stuck W s) -> deadlines W l = [].
Proof.
  induction l as [|s l IH]; intros H; [reflexivity|]. destruct (H s (or_introl eq_refl)) as [->|(i & rest & w & -> & Hw & Hu)]; cbn [deadlines].
  - apply IH. intros s Hs. apply H. now right.
  - rewrite Hw. destruct w as [ev u]. cbn in Hu. subst u. apply IH. intros s Hs. apply H. now right.
Qed.
Lemma run_stuck k n a W : at_rest W a -> exists W', run_agent (S k) n a W = (Ok [], W') /\ nothing_done W W'.
Proof.
  intro H. cbn [run_agent]. unfold step. set (W0 := put_agent W a _).
  assert (Hs : forall s, In s (a_ints (get_agent W0 a)) -> stuck W0 s).
  { intros s Hi. assert (Hi' : In s (a_ints (get_agent W a))).
    { unfold W0 in Hi. destruct (BelFacts.get_agent_put W a (set_a_ints (get_agent W a) (drop_empty (a_ints (get_agent W a)))) a) as [E|[_ E]]; rewrite E in Hi; [exact Hi|].
      cbn [set_a_ints a_ints] in Hi. revert Hi. generalize (a_ints (get_agent W a)). intro l. induction l as [|[|j s0] l IH]; cbn [drop_empty]; auto. intro Hi. right. auto. }
    exact (H s Hi'). }
  rewrite (pick_stuck _ 0%nat W0 Hs). cbv iota. unfold shortest_deadline. rewrite (deadlines_stuck _ _ Hs). exists W0. split; [reflexivity|].
  destruct (step_idle n a W W0) as [N _]; [|exact N]. unfold step. fold W0. now rewrite (pick_stuck _ 0%nat W0 Hs).
Qed.

Theorem waiting_idle acts k n a i b x r x' w : exec_statement acts (S k) n a i b x = (r, x') -> sound x ->
  (i < List.length (w_ints (s_world x)))%nat -> (a < List.length (w_agents (s_world x)))%nat ->
  at_rest (s_world x) a -> i_wait (get_int (s_world x) i) = Some w -> wt_until w = None ->
  exists k', s_world x' = set_nv (s_world x) k' \/ exists l W1, started a i l k' (s_world x) W1 /\ nothing_done W1 (s_world x') /\ at_rest (s_world x') a /\
    i_wait (get_int (s_world x') i) = Some w.
Proof.
  intros E S Hi Ha R Hw Hu.
  assert (Z : forall l k' W1, started a i l k' (s_world x) W1 -> exists W2, run_agent (Datatypes.S k) n a W1 = (Ok [], W2) /\ nothing_done W1 W2 /\ at_rest W2 a /\
    i_wait (get_int W2 i) = Some w).
  { intros l k' W1 [_ _ _ (_ & _ & Gw & _) Gj Gs _ _ _ _]. 
    assert (W1w : i_wait (get_int W1 i) = Some w) by (rewrite Gw; exact Hw).
    assert (R1 : at_rest W1 a).
    { intros s Hs. rewrite Gs in Hs. apply in_app_or in Hs as [Hs|[<-|[]]].
      - destruct (R s Hs) as [->|(j & rest & w' & -> & Hj & Hu')]; [now left|]. right. exists j, rest, w'. split; [reflexivity|]. split; [|exact Hu'].
        destruct (Nat.eq_dec j i) as [->|Hd]; [congruence|]. now rewrite Gj.
      - right. exists i, [], w. auto. }
    destruct (run_stuck k n a W1 R1) as (W2 & E2 & N). exists W2. split; [exact E2|]. split; [exact N|]. split.
    - intros s Hs. apply (done_stack _ _ _ _ N) in Hs. destruct (R1 s Hs) as [->|(j & rest & w' & -> & Hj & Hu')]; [now left|]. right. exists j, rest, w'.
      rewrite (done_int _ _ _ N). auto.
    - now rewrite (done_int _ _ _ N). }
  destruct r as [[]|e].
  - unfold exec_statement in E. destruct (compile_all acts b _ _) as [rc s] eqn:Ec. destruct rc as [c|e]; [|discriminate].
    apply compiled_follows in Ec as (l & El & Hf). destruct (log_throw (v_log s)); [|discriminate]. cbv zeta in E.
    match type of E with context [run_agent _ n a ?V] => change V with (begun a i (c_code c) (v_nv s) (s_world x)) in E end.
    pose proof (begun_started a i (c_code c) (v_nv s) (s_world x) l Hi Ha Hf) as St. destruct (Z _ _ _ St) as (W2 & E2 & N & R2 & Hw2).
    rewrite E2 in E. destruct (dump_variables _ _); [|discriminate]. injection E as <-. exists (v_nv s). right. exists l, (begun a i (c_code c) (v_nv s) (s_world x)). auto.
  - destruct (statement_fails L _ _ _ _ _ _ _ _ _ E S Hi Ha) as (k' & _ & _ & _ & [H|(l & W1 & _ & St & H)]); exists k'; [now left|].
    destruct (Z _ _ _ St) as (W2 & E2 & N & R2 & Hw2). destruct H as [H|[_ (ds & H)]]; [congruence|].
    right. exists l, W1. assert (Ew : s_world x' = W2) by congruence. rewrite Ew. auto.
Qed.
End Waiting.
