(** Environment.run, run_agent *)
From Coq Require Import QArith Floats.SpecFloat.
From Verif Require Import Base Num Term Unify Str World Engine Step QuerySpec PlanSpec StepSpec StepFacts Effects EffFacts ReachFacts EventCor EventFacts BelFacts OwnFacts SchedSpec.
Open Scope nat_scope.

(** ** Numbers *)
Lemma le_of_nlt x y : is_nan x = false -> is_nan y = false -> num_ord CLt x y = false -> num_ord CLe y x = true.
Proof.
  unfold is_nan, num_ord, num_cmp. destruct (num_val x) as [| | |p], (num_val y) as [| | |q]; cbn [xcmp cop_of]; try congruence; try reflexivity.
  intros _ _. rewrite <- (Qcompare_antisym p q). destruct (p ?= q)%Q; cbn; congruence.
Qed.
Lemma le_of_lt x y : num_ord CLt x y = true -> num_ord CLe x y = true.
Proof. unfold num_ord. destruct (num_cmp x y) as [[]|]; cbn; congruence. Qed.
Lemma le_refl_num x : is_nan x = false -> num_ord CLe x x = true.
Proof.
  unfold is_nan, num_ord, num_cmp. destruct (num_val x) as [| | |p]; cbn [xcmp cop_of]; try congruence. intros _.
  replace (p ?= p)%Q with Eq; [reflexivity|]. symmetry. apply Qeq_alt. reflexivity.
Qed.
Lemma ord_le x y : num_ord CLe x y = true -> match num_val x, num_val y with
  | XNan, _ | _, XNan => False | XNInf, _ => True | _, XPInf => True | XQ p, XQ q => (p <= q)%Q | _, _ => False end.
Proof.
  unfold num_ord, num_cmp. destruct (num_val x) as [| | |p], (num_val y) as [| | |q]; cbn [xcmp cop_of]; try congruence; try auto.
  intro H. apply Qle_alt. destruct (p ?= q)%Q; cbn in H; congruence.
Qed.
Lemma le_ord x y : match num_val x, num_val y with
  | XNan, _ | _, XNan => False | XNInf, _ => True | _, XPInf => True | XQ p, XQ q => (p <= q)%Q | _, _ => False end -> num_ord CLe x y = true.
Proof.
  unfold num_ord, num_cmp. destruct (num_val x) as [| | |p], (num_val y) as [| | |q]; cbn [xcmp cop_of]; try contradiction; try auto.
  intro H. apply (proj1 (Qle_alt _ _)) in H. destruct (p ?= q)%Q eqn:E; [reflexivity|reflexivity|congruence].
Qed.
Lemma le_trans_num x y z : num_ord CLe x y = true -> num_ord CLe y z = true -> num_ord CLe x z = true.
Proof.
  intros H1 H2. apply ord_le in H1, H2. apply le_ord.
  destruct (num_val x), (num_val y), (num_val z); try contradiction; auto. eapply Qle_trans; eassumption.
Qed.

Lemma min_num_in x l : In (min_num x l) (x :: l).
Proof.
  revert x. induction l as [|y l IH]; intro x; cbn; [auto|]. destruct (num_ord CLt y x).
  - destruct (IH y) as [<-|H]; auto.
  - destruct (IH x) as [<-|H]; auto.
Qed.
Lemma min_num_le l : forall x, (forall v, In v (x :: l) -> is_nan v = false) -> forall v, In v (x :: l) -> num_ord CLe (min_num x l) v = true.
Proof.
  induction l as [|y l IH]; intros x HN v Hv; cbn.
  - destruct Hv as [<-|[]]. apply le_refl_num, HN. cbn. auto.
  - destruct (num_ord CLt y x) eqn:E.
    + assert (IHy : forall v, In v (y :: l) -> num_ord CLe (min_num y l) v = true) by (apply IH; intros w Hw; apply HN; right; exact Hw).
      destruct Hv as [<-|Hv]; [|now apply IHy]. eapply le_trans_num; [apply IHy; now left|]. now apply le_of_lt.
    + assert (IHx : forall v, In v (x :: l) -> num_ord CLe (min_num x l) v = true).
      { apply IH. intros w [<-|Hw]; apply HN; [now left|right; now right]. }
      destruct Hv as [<-|[<-|Hv]]; [apply IHx; now left| |apply IHx; now right].
      eapply le_trans_num; [apply IHx; now left|]. apply le_of_nlt; [| |exact E]; apply HN; cbn; auto.
Qed.

(** Differences of floats *)
Definition nonneg_flt (f : spec_float) : Prop :=
  match f with S754_finite s _ _ | S754_infinity s => s = false | _ => True end.
Lemma round_aux_sign sx mx ex lx : match binary_round_aux prec emax sx mx ex lx with S754_finite s _ _ | S754_infinity s => s = sx | _ => True end.
Proof.
  unfold binary_round_aux. destruct (shr_fexp _ _ _ _ _) as [mrs e]. destruct (shr_fexp _ _ _ _ _) as [mrs' e'].
  destruct (shr_m mrs'); try exact I. destruct (Zle_bool _ _); reflexivity.
Qed.
Lemma iter_pos_inv {A} (P : A -> Prop) (f : A -> A) : (forall x, P x -> P (f x)) -> forall p x, P x -> P (SpecFloat.iter_pos f p x).
Proof. intros H. induction p as [p IH|p IH|]; intros x Hx; cbn [SpecFloat.iter_pos]; auto. Qed.
Lemma shr_nonneg m e l : (0 <= m)%Z -> (0 <= shr_m (fst (shr_fexp prec emax m e l)))%Z.
Proof.
  intro H. unfold shr_fexp, shr. set (r := shr_record_of_loc m l).
  assert (Hr : (0 <= shr_m r)%Z) by (unfold r, shr_record_of_loc; destruct l as [|[]]; exact H).
  destruct (_ - e)%Z; cbn [fst]; try exact Hr. apply iter_pos_inv; [|exact Hr].
  intros [m' r' s'] Hx. cbn in *. destruct m' as [|[]|]; cbn; lia.
Qed.
Lemma normalize_num m e s : is_nan (NFlt (binary_normalize prec emax m e s)) = false.
Proof.
  assert (HA : forall sx p ex, is_nan (NFlt (binary_round_aux prec emax sx (Z.pos p) ex loc_Exact)) = false).
  { intros sx p ex. unfold binary_round_aux.
    assert (H1 := shr_nonneg (Z.pos p) ex loc_Exact ltac:(lia)). destruct (shr_fexp _ _ _ _ _) as [mrs e']. cbn [fst] in H1.
    assert (H2 : (0 <= round_nearest_even (shr_m mrs) (loc_of_shr_record mrs))%Z).
    { unfold round_nearest_even. destruct (loc_of_shr_record mrs) as [|[]]; try lia. destruct (Z.even _); lia. }
    assert (H3 := shr_nonneg _ e' loc_Exact H2). destruct (shr_fexp _ _ _ _ _) as [mrs' e'']. cbn [fst] in H3.
    destruct (shr_m mrs'); [reflexivity| |lia]. destruct (Zle_bool _ _); destruct sx; reflexivity. }
  destruct m as [|p|p]; cbn [binary_normalize]; [reflexivity| |]; unfold binary_round; destruct (shl_align _ _ _); apply HA.
Qed.
Lemma normalize_nonneg m e s : (0 <= m)%Z -> nonneg_flt (binary_normalize prec emax m e s).
Proof.
  intro H. destruct m as [|p|p]; cbn [binary_normalize]; [exact I| |lia]. unfold binary_round, nonneg_flt.
  destruct (shl_align _ _ _) as [mz ez]. exact (round_aux_sign false (Z.pos mz) ez loc_Exact).
Qed.
Lemma nonneg_ge f : nonneg_flt f -> is_nan (NFlt f) = true \/ num_ord CGe (NFlt f) (NInt 0) = true.
Proof.
  destruct f as [s|s| |s m e]; cbn; intro H; subst; try (left; reflexivity); right; try reflexivity.
  unfold num_ord, num_cmp. cbn [num_val flt_val xcmp].
  assert (HQ : (0 <= dyadic (Z.pos m) e)%Q).
  { unfold dyadic, Qle. destruct e as [|p|p]; cbn [Qnum Qden inject_Z]; [lia| |lia].
    assert (0 < 2 ^ Z.pos p)%Z by (apply Z.pow_pos_nonneg; lia). nia. }
  change (inject_Z 0) with 0%Q. rewrite <- (Qcompare_antisym 0). apply (proj1 (Qle_alt _ _)) in HQ. destruct (0 ?= dyadic (Z.pos m) e)%Q eqn:E; cbn; congruence.
Qed.
Lemma shl_align_val m e e' : (e' <= e)%Z -> Z.pos (fst (shl_align m e e')) = (Z.pos m * 2 ^ (e - e'))%Z.
Proof.
  intro H. unfold shl_align. destruct (e' - e)%Z as [|p|p] eqn:E; cbn [fst].
  - replace (e - e')%Z with 0%Z by lia. lia.
  - lia.
  - replace (e - e')%Z with (Z.pos p) by lia. rewrite shift_pos_correct. rewrite Zpower_pos_nat. rewrite Z.mul_comm. f_equal.
    now rewrite <- Zpower_pos_nat.
Qed.

Lemma dyadic_le a b e : (dyadic a e <= dyadic b e)%Q -> (a <= b)%Z.
Proof.
  unfold dyadic, Qle. destruct e as [|p|p]; cbn [Qnum Qden inject_Z]; intro H.
  - lia.
  - rewrite !Z.mul_1_r in H. apply Z.mul_le_mono_pos_r in H; [exact H|]. apply Z.pow_pos_nonneg; lia.
  - apply Z.mul_le_mono_pos_r in H; lia.
Qed.
Lemma pos_pow_Z p : Z.pos (2 ^ p) = (2 ^ Z.pos p)%Z.
Proof. apply Pos2Z.inj_pow. Qed.
Lemma dyadic_shift m e e' : (e' <= e)%Z -> (dyadic m e == dyadic (m * 2 ^ (e - e')) e')%Q.
Proof.
  intro H. unfold dyadic, Qeq. destruct e' as [|q|q], e as [|p|p]; cbn [Qnum Qden inject_Z]; try lia;
    rewrite ?pos_pow_Z, ?Z.mul_1_r, ?Z.pow_0_r.
  - replace (Z.pos p - 0)%Z with (Z.pos p) by lia. lia.
  - rewrite <- Z.mul_assoc, <- Z.pow_add_r by lia. do 2 f_equal. lia.
  - replace (0 - Z.neg q)%Z with (Z.pos q) by lia. lia.
  - rewrite <- Z.mul_assoc, <- Z.pow_add_r by lia. do 2 f_equal.
  - rewrite <- Z.mul_assoc, <- Z.pow_add_r by lia. do 2 f_equal. lia.
Qed.
Lemma dyadic_0 e : (0 == dyadic 0 e)%Q.
Proof. unfold dyadic, Qeq. destruct e; reflexivity. Qed.
Lemma sub_nonneg u t d fp : num_ord CLe (NFlt t) (NFlt u) = true -> num_op fp NSub (NFlt u) (NFlt t) = Ok d ->
  is_nan d = true \/ num_ord CGe d (NInt 0) = true.
Proof.
  intros H E. apply ord_le in H. cbn in E. inversion E; subst d. apply nonneg_ge. clear E.
  destruct u as [su|su| |su mu eu], t as [st|st| |st mt et]; cbn in H; try contradiction; cbn [SFsub];
    repeat match goal with b : bool |- _ => destruct b end; cbn in H; cbn [negb Bool.eqb]; try contradiction; try exact I; try reflexivity.
  all: try (exfalso; cbn in H; rewrite (dyadic_0 et) in H; apply dyadic_le in H; lia).
  all: try (exfalso; rewrite (dyadic_0 eu) in H; apply dyadic_le in H; lia).
  all: apply normalize_nonneg; rewrite !shl_align_val by lia; cbn [cond_Zopp].
  all: rewrite (dyadic_shift _ et (Z.min eu et)) in H by lia; rewrite (dyadic_shift _ eu (Z.min eu et)) in H by lia; apply dyadic_le in H; lia.
Qed.

(** ** Scheduling *)
Section WithPy.
Context {PY : Py} {FR : Front}.

Lemma finish_result n a pos i W r W' : finish n a pos i W = (r, W') -> r <> Ok false.
Proof.
  unfold finish. intros E ->. destruct (List.tl _) as [|c rest]; [discriminate|].
  destruct (i_call _) as [ct|]; [|discriminate]. destruct (i_head _) as [h|]; [|discriminate].
  destruct (freeze n h _ _) as [[fz|e] [m k]]; [|discriminate].
  destruct (unify n ct fz _) as [[[]|e] st']; discriminate.
Qed.
Lemma done_refl W : nothing_done W W.
Proof. constructor; auto. cbn. intro b. repeat split. now exists 0. Qed.
Lemma done_trans W1 W2 W3 : nothing_done W1 W2 -> nothing_done W2 W3 -> nothing_done W1 W3.
Proof.
  intros [? ? ? ? ? ? ? H1] [? ? ? ? ? ? ? H2]. constructor; try congruence. cbn in *. intro b. destruct (H1 b) as (A1 & A2 & A3 & A4 & k & A5), (H2 b) as (B1 & B2 & B3 & B4 & j & B5).
  repeat split; try congruence. exists (k + j). rewrite repeat_app, <- app_assoc. congruence.
Qed.
Lemma step_idle n a W W1 : step n a W = (Ok false, W1) -> nothing_done W W1 /\
  forall s, In s (a_ints (get_agent W a)) -> s = [] \/ exists i rest w, s = i :: rest /\ i_wait (get_int W i) = Some w.
Proof.
  unfold step. intro E. set (W0 := put_agent W a _) in E. destruct (pick _ 0 W0) as [[[pos i]|] W2] eqn:Ep.
  - destruct (i_pc (get_int W2 i)); [now apply run_result in E|now apply finish_result in E].
  - inversion E; subst W2. clear E. apply pick_spec in Ep as (rd & _ & -> & HB).
    assert (EB : forall b, let x := get_agent W b in let y := get_agent W0 b in
      a_name y = a_name x /\ a_bel y = a_bel x /\ a_rules y = a_rules x /\ a_plans y = a_plans x /\ exists k, a_ints x = repeat [] k ++ a_ints y).
    { intro b. cbv zeta. unfold W0. destruct (get_agent_put W a (set_a_ints (get_agent W a) (drop_empty (a_ints (get_agent W a)))) b) as [-> |[-> ->]]; cbn.
      - repeat split. now exists 0.
      - repeat split. apply drop_empty_split. }
    split; [constructor; try reflexivity; exact EB|].
    intros s Hs. destruct (EB a) as (_ & _ & _ & _ & k & Ek). rewrite Ek in Hs. apply in_app_iff in Hs as [Hs|Hs].
    + left. now apply repeat_spec in Hs.
    + rewrite Forall_forall in HB. apply HB in Hs. destruct s as [|i rest]; [now left|]. right. destruct Hs as (w & _ & Hw & _). exists i, rest, w. auto.
Qed.
Lemma done_stack W W' a s : nothing_done W W' -> In s (a_ints (get_agent W' a)) -> In s (a_ints (get_agent W a)).
Proof. intros [? ? ? ? ? ? ? H1] H. destruct (H1 a) as (_ & _ & _ & _ & k & ->). apply in_app_iff. now right. Qed.
Lemma done_int W W' i : nothing_done W W' -> get_int W' i = get_int W i.
Proof. intros [H1 ? ? ? ? ? ? ?]. unfold get_int. now rewrite H1. Qed.

(** Every non-empty stack of these agents waits. *)
Definition all_wait (W : world) (a : nat) : Prop :=
  forall s, In s (a_ints (get_agent W a)) -> s = [] \/ exists i rest w, s = i :: rest /\ i_wait (get_int W i) = Some w.
Lemma all_wait_done W W' a : nothing_done W W' -> all_wait W a -> all_wait W' a.
Proof.
  intros HD H s Hs. destruct (H s (done_stack _ _ _ _ HD Hs)) as [-> |(i & rest & w & -> & Hw)]; [now left|]. right. exists i, rest, w.
  now rewrite (done_int W W').
Qed.
Lemma round_turns n l : forall W r W', round n l W = (Ok r, W') -> turns n l W r W'.
Proof.
  induction l as [|a l IH]; intros W r W' E; cbn [round] in E.
  - inversion E; subst. constructor.
  - destruct (step n a W) as [[b|e] W1] eqn:Es; [|discriminate]. destruct (round n l W1) as [[c|e] W2] eqn:Er; [|discriminate].
    inversion E; subst. econstructor; [exact Es|now apply IH].
Qed.
Lemma turns_idle n l W b W' : turns n l W b W' -> b = false -> nothing_done W W' /\ forall a, In a l -> all_wait W' a.
Proof.
  induction 1 as [W|a l W b W1 c W' Es Ht IH]; intro Eb.
  - split; [apply done_refl|]. intros a [].
  - apply orb_false_elim in Eb as [-> ->]. apply step_idle in Es as [HD HA]. destruct (IH eq_refl) as [HD' HA'].
    split; [eapply done_trans; eassumption|]. intros x [<-|Hx]; [|now apply HA']. eapply all_wait_done; [|exact HA].
    eapply done_trans; eassumption.
Qed.

Lemma deadlines_in W stacks u : In u (deadlines W stacks) <->
  exists i rest w, In (i :: rest) stacks /\ i_wait (get_int W i) = Some w /\ wt_until w = Some u.
Proof.
  induction stacks as [|[|i rest] ss IH]; cbn [deadlines].
  - split; [intros []|intros (i & rest & w & [] & _)].
  - rewrite IH. split; intros (j & r & w & H & H'); exists j, r, w; [|destruct H as [H|H]; [discriminate|]]; split; auto. now right.
  - assert (HT : forall X : Prop, (X <-> exists i rest w, In (i :: rest) ss /\ i_wait (get_int W i) = Some w /\ wt_until w = Some u) ->
      (i_wait (get_int W i) = None \/ (exists e, i_wait (get_int W i) = Some (mkwaiter e None)) -> (X <-> exists j r w, In (j :: r) ((i :: rest) :: ss) /\ i_wait (get_int W j) = Some w /\ wt_until w = Some u))).
    { intros X HX HN. rewrite HX. split.
      - intros (j & r & w & H & H'). exists j, r, w. split; [now right|exact H'].
      - intros (j & r & w & [H|H] & H1 & H2); [|exists j, r, w; auto]. exfalso. inversion H; subst. destruct HN as [HN|[e HN]]; rewrite HN in H1; inversion H1; subst; discriminate H2. }
    destruct (i_wait (get_int W i)) as [[ev [v|]]|] eqn:Ew; [|apply HT; [exact IH|eauto]|apply HT; [exact IH|auto]].
    cbn [In]. rewrite IH. split.
    + intros [->|(j & r & w & H & H')].
      * exists i, rest, (mkwaiter ev (Some u)). split; [now left|]. auto.
      * exists j, r, w. split; [now right|exact H'].
    + intros (j & r & w & [H|H] & H1 & H2).
      * inversion H; subst. rewrite Ew in H1. inversion H1; subst. cbn in H2. inversion H2. now left.
      * right. exists j, r, w. auto.
Qed.
Lemma waits_deadlines W a u : waits_until W a u <-> In u (deadlines W (a_ints (get_agent W a))).
Proof. symmetry. apply deadlines_in. Qed.
Lemma shortest_none W a : shortest_deadline W a = None -> forall u, ~ waits_until W a u.
Proof.
  unfold shortest_deadline. destruct (deadlines W _) eqn:E; [|discriminate]. intros _ u H. apply waits_deadlines in H. rewrite E in H. destruct H.
Qed.
Lemma shortest_some W a u : shortest_deadline W a = Some u -> earliest W (eq a) u.
Proof.
  unfold shortest_deadline. destruct (deadlines W _) as [|x l] eqn:E; [discriminate|]. intro H. inversion H; subst u. split.
  - exists a. split; [reflexivity|]. apply waits_deadlines. rewrite E. apply min_num_in.
  - intros HN b v <- Hv. apply waits_deadlines in Hv. rewrite E in Hv. apply min_num_le; [|exact Hv].
    intros w Hw. apply (HN a w eq_refl). apply waits_deadlines. now rewrite E.
Qed.
Lemma rest_no_deadline W a : all_wait W a -> (forall u, ~ waits_until W a u) -> at_rest W a.
Proof.
  intros HA HN s Hs. destruct (HA s Hs) as [-> |(i & rest & w & -> & Hw)]; [now left|]. right. exists i, rest, w. split; [reflexivity|]. split; [exact Hw|].
  destruct (wt_until w) as [u|] eqn:Eu; [|reflexivity]. destruct (HN u). exists i, rest, w. auto.
Qed.
Lemma all_deadlines_in W l u : In u (all_deadlines W l) -> exists a, In a l /\ shortest_deadline W a = Some u.
Proof.
  induction l as [|a l IH]; cbn; [intros []|]. destruct (shortest_deadline W a) as [v|] eqn:E.
  - intros [<-|H]; [exists a; auto|]. apply IH in H as (b & Hb & Hb'). exists b. auto.
  - intro H. apply IH in H as (b & Hb & Hb'). exists b. auto.
Qed.
Lemma all_deadlines_has W l a u : In a l -> shortest_deadline W a = Some u -> In u (all_deadlines W l).
Proof.
  induction l as [|b l IH]; [intros []|]. intros [<-|Ha] E; cbn.
  - rewrite E. now left.
  - destruct (shortest_deadline W b); [right|]; now apply IH.
Qed.
Lemma all_earliest W x l : all_deadlines W (map snd (w_env W)) = x :: l -> earliest W (registered W) (min_num x l).
Proof.
  intro E. split.
  - assert (H := min_num_in x l). rewrite <- E in H. apply all_deadlines_in in H as (a & Ha & Hs). apply shortest_some in Hs as [(b & <- & Hb) _]. exists a. auto.
  - intros HN a v Ha Hv. destruct (shortest_deadline W a) as [u|] eqn:Es; [|now apply shortest_none with (u := v) in Es].
    assert (Hu : In u (x :: l)) by (rewrite <- E; eapply all_deadlines_has; eassumption).
    assert (HX : forall w, In w (x :: l) -> is_nan w = false).
    { intros w Hw. rewrite <- E in Hw. apply all_deadlines_in in Hw as (b & Hb & Hbs). apply shortest_some in Hbs as [(c & <- & Hc) _]. exact (HN b w Hb Hc). }
    eapply le_trans_num; [apply min_num_le; [exact HX|exact Hu]|]. apply shortest_some in Es as [_ Es]. apply (Es (fun b w Hb => HN b w (eq_ind a (registered W) Ha b Hb)) a v eq_refl Hv).
Qed.
Lemma sleep_sleeps u W d W' : sleep_until u W = (Ok d, W') -> sleeps u W d W'.
Proof.
  unfold sleep_until, sleeps. destruct (num_op fpow NSub u (py_time (w_reads W))) as [x|e]; [|discriminate].
  destruct (is_nan x || num_ord CLt x (NInt 0)) eqn:Eb; [discriminate|]. apply orb_false_elim in Eb as [E1 E2].
  destruct (num_val x) eqn:Ev; try discriminate; intro H; inversion H; subst; rewrite Ev; repeat split; try discriminate.
  - unfold is_nan in E1. rewrite Ev in E1. discriminate.
  - apply le_of_nlt in E2; [|exact E1|reflexivity]. unfold num_ord, num_cmp in *. rewrite Ev in *. cbn in *. discriminate.
  - apply le_of_nlt in E2; [|exact E1|reflexivity]. apply ord_le in E2. rewrite Ev in E2. cbn [num_val] in E2.
    unfold num_ord, num_cmp. rewrite Ev. cbn [num_val xcmp]. rewrite <- (Qcompare_antisym (inject_Z 0)). apply (proj1 (Qle_alt _ _)) in E2.
    destruct (inject_Z 0 ?= q)%Q eqn:E; cbn; congruence.
Qed.

Theorem run_runs k n : forall W ds W', run k n W = (Ok ds, W') -> runs n W ds W'.
Proof.
  induction k as [|k IH]; intros W ds W' E; cbn [run] in E; [discriminate|].
  destruct (round n (map snd (w_env W)) W) as [[[]|e] W1] eqn:Er; [| |discriminate]; apply round_turns in Er.
  - eapply rn_turn; [exact Er|now apply IH].
  - destruct (all_deadlines W1 (map snd (w_env W1))) as [|x l] eqn:Ea.
    + inversion E; subst. apply rn_stop; [exact Er|]. apply turns_idle in Er as [HD HA]; [|reflexivity]. intros a Ha.
      apply rest_no_deadline.
      * apply HA. unfold registered in Ha. now rewrite (nd_env' _ _ HD) in Ha.
      * intros u Hu. destruct (shortest_deadline W' a) as [v|] eqn:Es; [|now apply shortest_none with (u := u) in Es].
        apply (all_deadlines_has W' (map snd (w_env W')) a v Ha) in Es. rewrite Ea in Es. destruct Es.
    + destruct (sleep_until (min_num x l) W1) as [[d|e] W2] eqn:Es; [|discriminate].
      destruct (run k n W2) as [[ds'|e] W3] eqn:Ek; [|discriminate]. inversion E; subst. eapply rn_sleep; [exact Er| | |apply IH; exact Ek].
      * apply (all_earliest W1 x l Ea).
      * now apply sleep_sleeps.
Qed.
Theorem runs_rest n W ds W' : runs n W ds W' -> (forall a, registered W' a -> at_rest W' a) /\ Forall (fun d => num_ord CGe d (NInt 0) = true) ds.
Proof.
  induction 1 as [W W1 ds W' Ht Hr IH|W W1 u d W2 ds W' Ht He Hs Hr IH|W W1 Ht HR]; [exact IH| |split; [exact HR|constructor]].
  split; [apply IH|]. constructor; [apply Hs|apply IH].
Qed.
Theorem run_agent_runs k n a : forall W ds W', run_agent k n a W = (Ok ds, W') -> runs1 n a W ds W'.
Proof.
  induction k as [|k IH]; intros W ds W' E; cbn [run_agent] in E; [discriminate|].
  destruct (step n a W) as [[[]|e] W1] eqn:Er; [| |discriminate].
  - eapply r1_step; [exact Er|now apply IH].
  - destruct (step_idle n a W W1 Er) as [HD HA]. apply (all_wait_done W W1 a HD) in HA.
    destruct (shortest_deadline W1 a) as [u|] eqn:Es.
    + destruct (num_eqb u (NInt 0)) eqn:E0.
      * inversion E; subst. apply r1_stop; [exact Er|]. right. exists u. split; [now apply shortest_some|exact E0].
      * destruct (sleep_until u W1) as [[d|e] W2] eqn:Eu; [|discriminate].
        destruct (run_agent k n a W2) as [[ds'|e] W3] eqn:Ek; [|discriminate]. inversion E; subst. eapply r1_sleep; [exact Er| | |apply IH; exact Ek].
        -- apply (shortest_some W1 a u Es).
        -- now apply sleep_sleeps.
    + inversion E; subst. apply r1_stop; [exact Er|]. left. apply rest_no_deadline; [exact HA|now apply shortest_none].
Qed.
Theorem agent_run_idle k n a : forall W W', agent_run k n a W = (Ok tt, W') -> exists W0, step n a W0 = (Ok false, W') .
Proof.
  induction k as [|k IH]; intros W W' E; cbn [agent_run] in E; [discriminate|].
  destruct (step n a W) as [[[]|e] W1] eqn:Er; [now apply (IH W1)| |discriminate]. inversion E; subst. now exists W.
Qed.

(** If the clock has not passed the deadline, time.sleep does not fail with
    ValueError. *)
Theorem sleep_possible u t W r W' : py_time (w_reads W) = NFlt t -> num_ord CLe (NFlt t) (NFlt u) = true ->
  match num_val (NFlt u) with XQ _ => True | _ => False end ->
  match num_val (NFlt t) with XQ _ => True | _ => False end ->
  sleep_until (NFlt u) W = (r, W') -> (exists d, r = Ok d /\ sleeps (NFlt u) W d W') \/ r = Err EOverflow.
Proof.
  intros Et Hle Hu Ht E. assert (E' := E). unfold sleep_until in E. rewrite Et in E. 
  destruct (num_op fpow NSub (NFlt u) (NFlt t)) as [d|e] eqn:Ed; [|cbn in Ed; discriminate].
  assert (HN : is_nan d = false).
  { cbn in Ed. inversion Ed; subst d. destruct u as [su|su| |su mu eu], t as [st|st| |st mt et]; try destruct su; try destruct st; cbn in Hu, Ht; try contradiction; cbn [SFsub]; try reflexivity.
    all: apply normalize_num. }
  destruct (sub_nonneg _ _ _ _ Hle Ed) as [X|HG]; [congruence|].
  assert (HL : num_ord CLt d (NInt 0) = false).
  { unfold num_ord in *. destruct (num_cmp d (NInt 0)) as [[]|]; cbn in *; congruence. }
  rewrite HN, HL in E. cbn [orb] in E. destruct (num_val d) eqn:Ev; inversion E; subst; try (left; exists d; split; [reflexivity|]; now apply sleep_sleeps). now right.
Qed.
End WithPy.
