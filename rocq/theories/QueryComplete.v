(** Every solution of the list semantics is found by the generators, given enough
    fuel. *)
From Verif Require Import Base Num Term Unify TrailSpec TrailFacts TrailHist FuelFacts AnnotFlat AnnotFacts Str World Engine FuelEngine NamesFacts QuerySpec QueryBase QueryFacts.

Section WithPy.
Context {PY : Py} {FR : Front}.
Lemma bops_okst b os st : (b = true -> os = []) -> okst b st (run_bops os st).
Proof. intro H. destruct b; [rewrite (H eq_refl); apply okst_refl|apply run_bops_trail]. Qed.

Section Complete.
Variables (a i : nat) (qt : bool) (W0 : world).
Let D := db_of a W0.
Hypothesis HD : proper_db qt D.
Notation rep := (rep a qt W0).
Notation belF := (belF a W0).
Notation clF := (clF a W0).

(** Resuming [g] produces the trace. *)
Fixpoint alive (t : trace) (g : gen) (cur : bst) (W : world) : Prop :=
  match t with
  | TCut => True
  | TEnd _ => exists n s', resume n a i g (cur, W) = (Ok None, s')
  | TErr e => e <> ERecursion /\ exists n s', resume n a i g (cur, W) = (Err e, s')
  | TSol s nv k => exists n g' cur' W', resume n a i g (cur, W) = (Ok (Some g'), (cur', W')) /\
      b_scope cur' = s /\ w_nv W' = nv /\
      forall cur2 W2, okst qt cur' cur2 -> unchanged W' W2 -> alive (k (w_nv W2)) g' cur2 W2
  end.

Lemma alive_teq t t' : teq t t' -> forall g cur W, alive t g cur W -> alive t' g cur W.
Proof.
  induction 1 as [| | |s nv k k' H IH]; intros g cur W Ha; try exact Ha.
  cbn in *. destruct Ha as (n & g' & cur' & W' & H1 & H2 & H3 & H4). exists n, g', cur', W'. repeat split; try assumption.
  intros. now apply IH, H4.
Qed.

Definition uncut (r : res (option gen) * ST) : Prop := fst r <> Err ERecursion.
Lemma resume_up n m g s : (n <= m)%nat -> uncut (resume n a i g s) -> resume m a i g s = resume n a i g s.
Proof. apply resume_more. Qed.

Lemma alive_uncut t g cur W : alive t g cur W -> t <> TCut -> exists n, uncut (resume n a i g (cur, W)).
Proof.
  intros H Ht. destruct t; cbn in H; try contradiction.
  - destruct H as (n & s' & E). exists n. unfold uncut. now rewrite E.
  - destruct H as (He & n & s' & E). exists n. unfold uncut. rewrite E. cbn. congruence.
  - destruct H as (n & g' & cur' & W' & E & _). exists n. unfold uncut. now rewrite E.
Qed.

(** What an answer means. *)
Lemma inv x y0 g y f F : rep x y0 g y f F -> forall cur W n, okst (qt || f) y cur -> unchanged W0 W ->
  uncut (resume n a i g (cur, W)) ->
  let '(o, (cur', W')) := resume n a i g (cur, W) in
  unchanged W W' /\
  match o with
  | Err e => e <> ERecursion /\ forall d, F d (w_nv W) = TCut \/ F d (w_nv W) = TErr e
  | Ok None => okst (qt || x) y0 cur' /\ forall d, F d (w_nv W) = TCut \/ F d (w_nv W) = TEnd (w_nv W')
  | Ok (Some g') => exists F', rep x y0 g' cur' false F' /\
      forall d, F d (w_nv W) = TCut \/ teq (F d (w_nv W)) (TSol (b_scope cur') (w_nv W') (F' d))
  end.
Proof.
  intros Hr cur W n Hy HW Hn. destruct (engine_sound a i qt W0 HD n) as [HR _].
  specialize (HR _ _ _ _ _ _ Hr cur W Hy HW). unfold uncut, resume in *.
  destruct (e_resume (engine n) a i g (cur, W)) as [o [cur' W']]. cbn in HR, Hn.
  destruct HR as [H|[HU H]]; [apply cutr_true in H; contradiction|]. split; [exact HU|].
  destruct o as [[g'|]|e].
  - destruct H as (F' & H1 & [d0 H2]). exists F'. split; [exact H1|]. intro d. destruct (H2 d) as [E|[_ E]]; auto.
  - destruct H as (H1 & [d0 H2]). split; [exact H1|]. intro d. destruct (H2 d) as [E|[_ E]]; auto. right. inversion E; auto.
  - split; [congruence|]. destruct H as [d0 H2]. intro d. destruct (H2 d) as [E|[_ E]]; auto. right. inversion E; auto.
Qed.

Lemma alive_intro d x y0 g y f F t cur W : rep x y0 g y f F -> okst (qt || f) y cur -> unchanged W0 W ->
  teq (F d (w_nv W)) t -> (t <> TCut -> exists n, uncut (resume n a i g (cur, W))) ->
  (forall n g' cur' W' F' s nv k, resume n a i g (cur, W) = (Ok (Some g'), (cur', W')) -> unchanged W W' -> rep x y0 g' cur' false F' ->
     t = TSol s nv k -> (forall nv, teq (F' d nv) (k nv)) -> forall cur2 W2, okst qt cur' cur2 -> unchanged W' W2 -> alive (k (w_nv W2)) g' cur2 W2) ->
  alive t g cur W.
Proof.
  intros Hr Hy HW Ht Hn Hk. destruct t as [nv|e| |s nv k] eqn:Et; [| |exact I|]; rewrite <- Et in *.
  - destruct Hn as [n Hn]; [congruence|]. pose proof (inv _ _ _ _ _ _ Hr cur W n Hy HW Hn) as HI.
    destruct (resume n a i g (cur, W)) as [o [cur' W']] eqn:E. destruct HI as [HU HI]. subst t. inversion Ht as [? E1| | |]; subst.
    destruct o as [[g'|]|e].
    + destruct HI as (F' & _ & HI). destruct (HI d) as [E2|E2]; rewrite <- E1 in E2; [discriminate|inversion E2].
    + cbn. eauto.
    + destruct HI as (_ & HI). destruct (HI d) as [E2|E2]; rewrite <- E1 in E2; discriminate.
  - destruct Hn as [n Hn]; [congruence|]. pose proof (inv _ _ _ _ _ _ Hr cur W n Hy HW Hn) as HI.
    destruct (resume n a i g (cur, W)) as [o [cur' W']] eqn:E. destruct HI as [HU HI]. subst t. inversion Ht as [|? E1| |]; subst.
    destruct o as [[g'|]|e'].
    + destruct HI as (F' & _ & HI). destruct (HI d) as [E2|E2]; rewrite <- E1 in E2; [discriminate|inversion E2].
    + destruct HI as (_ & HI). destruct (HI d) as [E2|E2]; rewrite <- E1 in E2; discriminate.
    + destruct HI as (He & HI). destruct (HI d) as [E2|E2]; rewrite <- E1 in E2; [discriminate|]. inversion E2; subst. cbn. eauto.
  - destruct Hn as [n Hn]; [congruence|]. pose proof (inv _ _ _ _ _ _ Hr cur W n Hy HW Hn) as HI.
    destruct (resume n a i g (cur, W)) as [o [cur' W']] eqn:E. destruct HI as [HU HI]. subst t. inversion Ht as [| | |? ? kk ? H1 E1]; subst.
    destruct o as [[g'|]|e'].
    + destruct HI as (F' & HF & HI). destruct (HI d) as [E2|E2]; rewrite <- E1 in E2; [discriminate|]. inversion E2 as [| | |? ? ? ? H2]; subst.
      cbn. exists n, g', cur', W'. split; [exact E|]. split; [reflexivity|]. split; [reflexivity|]. intros cur2 W2 Hc2 HW2.
      eapply Hk; try eassumption; [reflexivity|]. intro nv. eapply teq_trans; [apply teq_sym, H2|apply H1].
    + destruct HI as (_ & HI). destruct (HI d) as [E2|E2]; rewrite <- E1 in E2; discriminate.
    + destruct HI as (He & HI). destruct (HI d) as [E2|E2]; rewrite <- E1 in E2; discriminate.
Qed.

(** A generator that continues as another one. *)
Lemma alive_same t g cur W g2 cur2 W2 n0 :
  (forall m, (n0 <= m)%nat -> resume (S m) a i g (cur, W) = resume m a i g2 (cur2, W2)) -> alive t g2 cur2 W2 -> alive t g cur W.
Proof.
  intros H Ha.
  assert (HS : forall n r, resume n a i g2 (cur2, W2) = r -> uncut r -> resume (S (Nat.max n0 n)) a i g (cur, W) = r).
  { intros n r E Hu. subst r. rewrite H by lia. apply resume_up; [lia|exact Hu]. }
  destruct t as [nv|e| |s nv k]; cbn in *; [| |exact I|].
  - destruct Ha as (n & s' & E). exists (S (Nat.max n0 n)), s'. apply (HS n); [exact E|discriminate].
  - destruct Ha as (He & n & s' & E). split; [exact He|]. exists (S (Nat.max n0 n)), s'. apply (HS n); [exact E|]. unfold uncut. cbn. congruence.
  - destruct Ha as (n & g' & cur' & W' & E & Hk). exists (S (Nat.max n0 n)), g', cur', W'. split; [|exact Hk]. apply (HS n); [exact E|discriminate].
Qed.

Lemma rep_end g x y0 y f F : rep x y0 g y f F -> (g = GStop \/ exists cp, g = GAnn cp) -> f = false -> F = fun _ nv => TEnd nv.
Proof. intros H [->|[cp ->]] Hf; inversion H; reflexivity. Qed.

(** At most one solution. *)
Lemma alive_once d x y0 g y f F t cur W : rep x y0 g y f F -> okst (qt || f) y cur -> unchanged W0 W ->
  teq (F d (w_nv W)) t -> (t <> TCut -> exists n, uncut (resume n a i g (cur, W))) ->
  (forall n g' s', resume n a i g (cur, W) = (Ok (Some g'), s') -> g' = GStop \/ exists cp, g' = GAnn cp) ->
  alive t g cur W.
Proof.
  intros Hr Hy HW Ht Hn Hk. eapply alive_intro; try eassumption.
  intros n g' cur' W' F' s nv k E HU HF Et Hkk cur2 W2 Hc2 HW2. specialize (Hk _ _ _ E).
  rewrite (rep_end _ _ _ _ _ _ HF Hk eq_refl) in Hkk. specialize (Hkk (w_nv W2)). inversion Hkk as [? E1| | |]; subst.
  destruct Hk as [->|[cp ->]]; exists 1%nat; eexists; reflexivity.
Qed.

(** Concatenation. *)
Lemma alive_append (C : gen -> gen) (cg : gen) (tr : bst -> bst) d k :
  (forall n gr s, resume (S n) a i (C gr) s =
     match resume n a i gr s with
     | (Ok (Some g'), s') => (Ok (Some (C g')), s')
     | (Ok None, (c, W')) => resume n a i cg (tr c, W')
     | (Err e, s') => (Err e, s')
     end) ->
  forall t gr x y1 y f F cur W, rep x y1 gr y f F -> okst (qt || f) y cur -> unchanged W0 W ->
  teq (F d (w_nv W)) t -> alive t gr cur W ->
  (forall c W', okst (qt || x) y1 c -> unchanged W0 W' -> alive (k (w_nv W')) cg (tr c) W') ->
  alive (append t k) (C gr) cur W.
Proof.
  intro HC. induction t as [nv|e| |s nv kt IH]; intros gr x y1 y f F cur W Hr Hy HW Ht Ha Hk; cbn [append]; [| |exact I|].
  - destruct Ha as (n & [c' W'] & E). pose proof (inv _ _ _ _ _ _ Hr cur W n Hy HW) as HI. rewrite E in HI.
    destruct HI as (HU & H1 & H2); [discriminate|]. inversion Ht as [? E1| | |]; subst.
    destruct (H2 d) as [E2|E2]; rewrite <- E1 in E2; [discriminate|]. inversion E2; subst.
    eapply (alive_same _ _ _ _ cg (tr c') W' n); [|apply Hk; [exact H1|eapply unchanged_trans; eassumption]].
    intros m Hm. rewrite HC, (resume_up n m) by (assumption || (rewrite E; discriminate)). now rewrite E.
  - destruct Ha as (He & n & [c' W'] & E). split; [exact He|]. exists (S n), (c', W'). now rewrite HC, E.
  - destruct Ha as (n & g' & cur' & W' & E & E1 & E2 & H). pose proof (inv _ _ _ _ _ _ Hr cur W n Hy HW) as HI. rewrite E in HI.
    destruct HI as (HU & F' & HF & H2); [discriminate|]. inversion Ht as [| | |? ? kk ? H1 E3]; subst.
    destruct (H2 d) as [E4|E4]; rewrite <- E3 in E4; [discriminate|]. inversion E4 as [| | |? ? ? ? H5]; subst.
    exists (S n), (C g'), cur', W'. split; [now rewrite HC, E|]. split; [reflexivity|]. split; [reflexivity|].
    intros cur2 W2 Hc2 HW2. eapply IH; [exact HF| | | |apply H; assumption|exact Hk].
    + now rewrite orb_false_r.
    + eapply unchanged_trans; [exact HW|]. eapply unchanged_trans; eassumption.
    + eapply teq_trans; [apply teq_sym, H5|apply H1].
Qed.

(** Conjunction. *)
Lemma alive_and d r : proper qt r = true ->
  (forall c W', unchanged W0 W' -> alive (sols d D r (b_scope c) (w_nv W')) (GQ r) c W') ->
  forall t gl x y0 y f F cur W, rep x y0 gl y f F -> okst (qt || f) y cur -> unchanged W0 W ->
  teq (F d (w_nv W)) t -> alive t gl cur W -> alive (bindt t (sols d D r)) (GAnd gl None r) cur W.
Proof.
  intros Hp HQ. induction t as [nv|e| |s nv kt IH]; intros gl x y0 y f F cur W Hr Hy HW Ht Ha; cbn [bindt]; [| |exact I|].
  - destruct Ha as (n & s' & E). exists (S n), s'. cbn [resume engine e_resume resume_body]. unfold mbind. unfold resume in E. cbn [resume engine]. unfold resume. cbn [engine e_resume resume_body]. unfold mbind. now rewrite E.
  - destruct Ha as (He & n & s' & E). split; [exact He|]. exists (S n), s'. unfold resume in *. cbn [engine e_resume resume_body]. unfold mbind. now rewrite E.
  - destruct Ha as (n & g' & cur' & W' & E & E1 & E2 & H). pose proof (inv _ _ _ _ _ _ Hr cur W n Hy HW) as HI. rewrite E in HI.
    destruct HI as (HU & F' & HF & H2); [discriminate|]. inversion Ht as [| | |? ? kk ? H1 E3]; subst.
    destruct (H2 d) as [E4|E4]; rewrite <- E3 in E4; [discriminate|]. inversion E4 as [| | |? ? ? ? H5]; subst.
    assert (HW' : unchanged W0 W') by (eapply unchanged_trans; eassumption).
    apply (alive_same _ _ _ _ (GAnd g' (Some (GQ r)) r) cur' W' n).
    { intros m Hm. assert (E5 : resume m a i gl (cur, W) = (Ok (Some g'), (cur', W'))) by (rewrite (resume_up n m); [exact E|exact Hm|rewrite E; discriminate]).
      unfold resume in *. cbn [engine e_resume resume_body]. unfold mbind. now rewrite E5. }
    apply (alive_append (fun gr => GAnd g' (Some gr) r) (GAnd g' None r) (fun c => c) d (fun nv' => bindt (kt nv') (sols d D r))) with
      (x := restoring r) (y1 := cur') (y := cur') (f := true) (F := fun d nv => sols d D r (b_scope cur') nv).
    + intros m gr s. unfold resume. cbn [engine e_resume resume_body]. unfold mbind.
      destruct (e_resume (engine m) a i gr s) as [[[|]|] [c W1]]; reflexivity.
    + apply r_q; [exact Hp|apply okst_refl].
    + apply okst_refl.
    + exact HW'.
    + apply teq_refl.
    + now apply HQ.
    + intros c W1 Hc HW1. eapply IH; [exact HF| |exact HW1| |].
      * rewrite orb_false_r. eapply okst_le; [|exact Hc]. intros ->. reflexivity.
      * eapply teq_trans; [apply teq_sym, H5|apply H1].
      * apply H; [eapply okst_le; [|exact Hc]; intros ->; reflexivity|].
        destruct HW' as [], HW1 as []. constructor; congruence.
Qed.

(** * The loops *)
Lemma uann_same d l r cur s : b_scope cur = s -> same_u (uann d l r (mkbst s [] 0)) (uann d l r cur).
Proof. intro H. apply uann_frame. now rewrite H. Qed.
Lemma uann_up d m l r cur : (d <= m)%nat -> fst (uann d l r cur) <> Err ERecursion -> uann m l r cur = uann d l r cur.
Proof. intros Hm Hu. destruct (smono_le (fun k => uann k l r cur) (fun k => uann_mono k l r cur) d m Hm) as [E|E]; [contradiction|auto]. Qed.
Lemma unify_up d m l r cur : (d <= m)%nat -> fst (unify d l r cur) <> Err ERecursion -> unify m l r cur = unify d l r cur.
Proof. intros Hm Hu. destruct (smono_le (fun k => unify k l r cur) (fun k => unify_mono k l r cur) d m Hm) as [E|E]; [contradiction|auto]. Qed.

Lemma none_ok n l r cur st1 : uann n l r cur = (Ok None, st1) -> okst true cur st1.
Proof.
  intro E. destruct (uann_none_exact n l r cur _ E) as [H1 H2]. destruct (uann_trail n l r cur _ _ E) as [H3 _].
  apply trail_ncp in H3. exists (b_ncp st1). split; [assumption|]. unfold bump. rewrite <- H1, <- H2. now destruct st1.
Qed.
Lemma reroll_ncp st cp : b_ncp (reroll st cp) = b_ncp st.
Proof. unfold reroll. now destruct (reroll_loop _ _ _). Qed.
Lemma terr_cases e : e = ERecursion /\ terr e = TCut \/ e <> ERecursion /\ terr e = TErr e.
Proof. destruct e; (left; now split) || (right; split; [discriminate|reflexivity]). Qed.

Section Depth.
Variable d : nat.
Hypothesis HQ : forall q y0 cur W, proper qt q = true -> okst true y0 cur -> unchanged W0 W ->
  alive (sols d D q (b_scope y0) (w_nv W)) (GQ q) cur W.

Lemma alive_rules t rest : Forall (fun r => proper qt (r_query r) = true) rest ->
  forall y0 cp cur W, okst true y0 cur -> (b_ncp y0 <= cp)%N -> (cp < b_ncp cur)%N -> unchanged W0 W ->
  alive (clauses d (sols d D) t rest (b_scope y0) (w_nv W)) (GRule cp t None rest) cur W.
Proof.
  induction rest as [|r rest IH]; intros Hrest y0 cp cur W Hy Hc1 Hc2 HW; cbn [clauses].
  { exists 1%nat. eexists. reflexivity. }
  inversion Hrest as [|? ? Hb Hrest' X]; subst.
  destruct (copy_rule r (w_nv W)) as [c k] eqn:Ek.
  assert (Hs : b_scope (push_cp cp cur) = b_scope y0) by exact (okst_scope _ _ Hy).
  destruct (unify_frame d t (r_head c) (mkbst (b_scope y0) [] 0) (push_cp cp cur)) as [E1 E2]; [now rewrite Hs|].
  assert (HW1 : unchanged W0 (set_nv W k)) by (eapply unchanged_trans; [exact HW|apply unchanged_nv]).
  assert (HR : forall m, resume (S m) a i (GRule cp t None (r :: rest)) (cur, W) =
     match unify m t (r_head c) (push_cp cp cur) with
     | (Ok true, st1) => resume m a i (GRule cp t (Some (GQ (r_query c))) rest) (st1, set_nv W k)
     | (Ok false, st1) => resume m a i (GRule cp t None rest) (reroll st1 cp, set_nv W k)
     | (Err e, st1) => (Err e, (st1, set_nv W k))
     end).
  { intro m. unfold resume. cbn [engine e_resume resume_body]. unfold mbind, on_world, m_push_cp, m_unify, m_reroll, on_st. cbn [fst snd].
    rewrite Ek. cbn [fst snd]. destruct (unify m t (r_head c) (push_cp cp cur)) as [[[]|] st1]; reflexivity. }
  pose proof (unify_up d) as HU.
  destruct (unify d t (r_head c) (mkbst (b_scope y0) [] 0)) as [o st0]. cbn in E1, E2.
  destruct (unify d t (r_head c) (push_cp cp cur)) as [o1 st1] eqn:E. cbn in E1, E2. subst o1.
  assert (HT : forall b, o = Ok b -> mark cp y0 st1).
  { intros b ->. eapply mark_trail; [apply mark_push; eassumption|]. eapply vtrail_trail, unify_vtrail, E. }
  destruct o as [[]|e].
  - eapply (alive_same _ _ _ _ (GRule cp t (Some (GQ (r_query c))) rest) st1 (set_nv W k) d).
    { intros m Hm. rewrite HR, (HU m) by (assumption || (rewrite E; discriminate)). now rewrite E. }
    assert (Hm : mark cp y0 st1) by (now apply (HT true)). rewrite E2.
    apply (alive_append (fun g => GRule cp t (Some g) rest) (GRule cp t None rest) (fun c => reroll c cp) d (clauses d (sols d D) t rest (b_scope y0))) with
      (x := restoring (r_query c)) (y1 := st1) (y := st1) (f := true) (F := fun d nv => sols d D (r_query c) (b_scope st1) nv).
    + intros m gr [c0 W1]. unfold resume. cbn [engine e_resume resume_body]. unfold mbind, m_reroll, on_st.
      destruct (e_resume (engine m) a i gr (c0, W1)) as [[[|]|] [c1 W2]]; reflexivity.
    + apply r_q; [rewrite (proper_copy _ _ _ _ _ Ek); exact Hb|apply okst_refl].
    + apply okst_refl.
    + exact HW1.
    + apply teq_refl.
    + apply (HQ (r_query c) st1 st1 (set_nv W k)); [rewrite (proper_copy _ _ _ _ _ Ek); exact Hb|apply okst_refl|exact HW1].
    + intros c1 W1 Hc HW2. apply IH; [exact Hrest'| |exact Hc1| |exact HW2].
      * apply mark_reroll. eapply mark_trail; [exact Hm|]. now apply okst_trail in Hc.
      * rewrite reroll_ncp. apply mark_ncp in Hm. apply okst_ncp in Hc. lia.
  - eapply (alive_same _ _ _ _ (GRule cp t None rest) (reroll st1 cp) (set_nv W k) d).
    { intros m Hm. rewrite HR, (HU m) by (assumption || (rewrite E; discriminate)). now rewrite E. }
    assert (Hm : mark cp y0 st1) by (now apply (HT false)).
    apply (IH Hrest' y0 cp (reroll st1 cp) (set_nv W k)); [|exact Hc1| |exact HW1].
    + now apply mark_reroll.
    + rewrite reroll_ncp. apply mark_ncp in Hm. lia.
  - destruct (terr_cases e) as [[-> Ee]|[He Ee]]; rewrite Ee; [exact I|]. split; [exact He|]. exists (S d). eexists.
    rewrite HR, E. reflexivity.
Qed.

Lemma alive_bel t ref ver sz rest : Forall (fun b => is_literal b = true) rest -> ver = s_ver (get_set W0 ref) ->
  forall y0 cur W, okst true y0 cur -> unchanged W0 W ->
  alive (append (matches d t rest (b_scope y0) (w_nv W)) (clauses d (sols d D) t (d_rules D (lit_group t)) (b_scope y0)))
        (GBel None t ref ver sz rest) cur W.
Proof.
  intros Hrest Hv. induction rest as [|b rest IH]; intros y0 cur W Hy HW.
  - cbn [matches append]. set (st1 := {| b_scope := b_scope cur; b_stack := b_stack cur; b_ncp := N.succ (b_ncp cur) |}).
    assert (Hst : okst true y0 st1).
    { eapply okst_trans; [exact Hy|]. exists (N.succ (b_ncp cur)). split; [lia|reflexivity]. }
    apply (alive_same _ _ _ _ (GRule (b_ncp cur) t None (d_rules D (lit_group t))) st1 W 0).
    { intros m _. unfold resume. cbn [engine e_resume resume_body]. unfold mbind, m_world, lift, iter_check, m_new_cp, on_st. cbn [fst snd new_cp].
      rewrite (un_sets _ _ HW), <- Hv, N.eqb_refl. cbn [fst snd]. fold st1. rewrite (db_rules _ _ _ _ HW). reflexivity. }
    apply alive_rules; [apply (proj2 (HD _))|exact Hst| |cbn; lia|exact HW]. now apply okst_ncp in Hy.
  - cbn [matches]. inversion Hrest as [|? ? Hb Hrest' X]; subst. specialize (IH Hrest').
    assert (Hs : b_scope cur = b_scope y0) by exact (okst_scope _ _ Hy).
    assert (HR : forall m, resume (S m) a i (GBel None t ref (s_ver (get_set W0 ref)) sz (b :: rest)) (cur, W) =
       match uann m t b cur with
       | (Ok (Some cp), st1) => (Ok (Some (GBel (Some cp) t ref (s_ver (get_set W0 ref)) sz rest)), (st1, W))
       | (Ok None, st1) => resume m a i (GBel None t ref (s_ver (get_set W0 ref)) sz rest) (st1, W)
       | (Err e, st1) => (Err e, (st1, W))
       end).
    { intro m. unfold resume. cbn [engine e_resume resume_body]. unfold mbind, m_world, lift, iter_check, m_uann, on_st. cbn [fst snd].
      rewrite (un_sets _ _ HW), N.eqb_refl. cbn [fst snd]. destruct (uann m t b cur) as [[[|]|] st1]; reflexivity. }
    destruct (uann_same d t b cur (b_scope y0) Hs) as [E1 E2]. pose proof (uann_up d) as HU.
    destruct (uann d t b (mkbst (b_scope y0) [] 0)) as [o0 st0]. destruct (uann d t b cur) as [o1 st1] eqn:E. cbn in E1, E2.
    destruct o0 as [[cp0|]|e0], o1 as [[cp|]|e]; try contradiction E1.
    + assert (Hm : mark cp y0 st1) by (eapply mark_base; [exact Hy|]; eapply uann_mark; [|exact E]; now apply literal_mark).
      cbn [append]. exists (S d). do 3 eexists. split; [rewrite HR, E; reflexivity|]. split; [now rewrite E2|]. split; [reflexivity|].
      intros cur2 W2 Hc2 HW2. assert (HW3 : unchanged W0 W2) by (eapply unchanged_trans; eassumption).
      apply (alive_same _ _ _ _ (GBel None t ref (s_ver (get_set W0 ref)) sz rest) (reroll cur2 cp) W2 0).
      { intros m _. reflexivity. }
      apply IH; [|exact HW3]. apply mark_reroll. eapply mark_trail; [exact Hm|]. now apply okst_trail in Hc2.
    + apply (alive_same _ _ _ _ (GBel None t ref (s_ver (get_set W0 ref)) sz rest) st1 W d).
      { intros m Hm. rewrite HR, (HU m) by (assumption || (rewrite E; discriminate)). now rewrite E. }
      apply IH; [|exact HW]. eapply okst_trans; [exact Hy|]. eapply none_ok, E.
    + subst e0. destruct (terr_cases e) as [[-> Ee]|[He Ee]]; rewrite Ee; [exact I|]. split; [exact He|]. exists (S d). eexists.
      rewrite HR, E. reflexivity.
Qed.

Lemma alive_cand t fin cs : fin <> Some ERecursion -> forall y0 cp cur W, okst true y0 cur -> (b_ncp y0 <= cp)%N -> (cp < b_ncp cur)%N -> unchanged W0 W ->
  alive (choices d t cs fin (b_scope y0) (w_nv W)) (GCand false cp t cs fin) cur W.
Proof.
  intro Hfin. induction cs as [|c cs IH]; intros y0 cp cur W Hy Hc1 Hc2 HW; cbn [choices].
  { destruct fin as [e|]; [split; [congruence|]|]; exists 1%nat; eexists; reflexivity. }
  assert (Hs : b_scope (push_cp cp cur) = b_scope y0) by exact (okst_scope _ _ Hy).
  destruct (unify_frame d t c (mkbst (b_scope y0) [] 0) (push_cp cp cur)) as [E1 E2]; [now rewrite Hs|].
  assert (HR : forall m, resume (S m) a i (GCand false cp t (c :: cs) fin) (cur, W) =
     match unify m t c (push_cp cp cur) with
     | (Ok true, st1) => (Ok (Some (GCand true cp t cs fin)), (st1, W))
     | (Ok false, st1) => resume m a i (GCand true cp t cs fin) (st1, W)
     | (Err e, st1) => (Err e, (st1, W))
     end).
  { intro m. unfold resume. cbn [engine e_resume resume_body]. unfold mbind, m_push_cp, m_unify, on_st. cbn [fst snd].
    destruct (unify m t c (push_cp cp cur)) as [[[]|] st1]; reflexivity. }
  assert (HC : forall st1 W1, mark cp y0 st1 -> unchanged W0 W1 -> alive (choices d t cs fin (b_scope y0) (w_nv W1)) (GCand true cp t cs fin) st1 W1).
  { intros st1 W1 Hm HW1. apply (alive_same _ _ _ _ (GCand false cp t cs fin) (reroll st1 cp) W1 0); [intros m _; reflexivity|].
    apply IH; [now apply mark_reroll|exact Hc1| |exact HW1]. rewrite reroll_ncp. now apply mark_ncp in Hm. }
  pose proof (unify_up d) as HU.
  destruct (unify d t c (mkbst (b_scope y0) [] 0)) as [o st0]. cbn in E1, E2.
  destruct (unify d t c (push_cp cp cur)) as [o1 st1] eqn:E. cbn in E1, E2. subst o1.
  assert (HT : forall b, o = Ok b -> mark cp y0 st1).
  { intros b ->. eapply mark_trail; [apply mark_push; eassumption|]. eapply vtrail_trail, unify_vtrail, E. }
  destruct o as [[]|e].
  - exists (S d). do 3 eexists. split; [rewrite HR, E; reflexivity|]. split; [now rewrite E2|]. split; [reflexivity|].
    intros cur2 W2 Hc2' HW2. apply HC; [|eapply unchanged_trans; eassumption]. eapply mark_trail; [now apply (HT true)|]. now apply okst_trail in Hc2'.
  - apply (alive_same _ _ _ _ (GCand true cp t cs fin) st1 W d).
    { intros m Hm. rewrite HR, (HU m) by (assumption || (rewrite E; discriminate)). now rewrite E. }
    apply HC; [|exact HW]. now apply (HT false).
  - destruct (terr_cases e) as [[-> Ee]|[He Ee]]; rewrite Ee; [exact I|]. split; [exact He|]. exists (S d). eexists.
    rewrite HR, E. reflexivity.
Qed.

(** Collecting. *)
Lemma alive_collect : forall t gr x y1 y f F c cur W, rep x y1 gr y f F -> okst (qt || f) y cur -> unchanged W0 W ->
  teq (F d (w_nv W)) t -> alive t gr cur W -> gather (cstep d) t c <> Err ERecursion ->
  exists n, fst (collect n a i gr c (cur, W)) <> Err ERecursion.
Proof.
  assert (HC : forall n gr c s, collect (S n) a i gr c s = collect_body (engine n) n a i gr c s) by reflexivity.
  induction t as [nv|e| |s nv kt IH]; intros gr x y1 y f F c cur W Hr Hy HW Ht Ha Hg.
  - destruct Ha as (n & s' & E). exists (S n). rewrite HC. unfold collect_body, mbind. unfold resume in E. rewrite E. discriminate.
  - destruct Ha as (He & n & s' & E). exists (S n). rewrite HC. unfold collect_body, mbind. unfold resume in E. rewrite E. cbn. congruence.
  - now contradiction Hg.
  - destruct Ha as (n & g' & cur' & W' & E & E1 & E2 & H). pose proof (inv _ _ _ _ _ _ Hr cur W n Hy HW) as HI. rewrite E in HI.
    destruct HI as (HU & F' & HF & H2); [discriminate|]. inversion Ht as [| | |? ? kk ? H1 E3]; subst.
    destruct (H2 d) as [E4|E4]; rewrite <- E3 in E4; [discriminate|]. inversion E4 as [| | |? ? ? ? H5]; subst.
    cbn [gather] in Hg. 
    assert (HW' : unchanged W0 W') by (eapply unchanged_trans; eassumption).
    assert (Hcs : forall m, (d <= m)%nat -> cstep m (b_scope cur') (w_nv W') c = cstep d (b_scope cur') (w_nv W') c).
    { intros m Hm. destruct (mono_le (fun k => cstep k (b_scope cur') (w_nv W') c) (cstep_mono _ _ c) d m Hm) as [E5|E5]; [|auto].
      rewrite E5 in Hg. now contradiction Hg. }
    destruct (cstep d (b_scope cur') (w_nv W') c) as [[c' nv']|e] eqn:Ec.
    + assert (HW2 : unchanged W0 (set_nv W' nv')) by (eapply unchanged_trans; [exact HW'|apply unchanged_nv]).
      destruct (IH nv' g' x y1 cur' false F' c' cur' (set_nv W' nv') HF (okst_refl _ _) HW2) as [n1 Hn1].
      * eapply teq_trans; [apply teq_sym, H5|apply H1].
      * apply (H cur' (set_nv W' nv')); [apply okst_refl|apply unchanged_nv].
      * exact Hg.
      * exists (S (Nat.max d (Nat.max n n1))). rewrite HC. unfold collect_body, mbind.
        pose proof (resume_up n (Nat.max d (Nat.max n n1)) gr (cur, W)) as HRU. unfold resume in HRU, E. rewrite HRU, E; [|lia|rewrite E; discriminate].
        rewrite collect_one_eq, Hcs by lia.
        pose proof (more (fun k => collect k a i g' c') (fun k s => proj2 (proj2 (proj2 (engine_mono k))) a i g' c' s) n1 (Nat.max d (Nat.max n n1)) (cur', set_nv W' nv')) as HM.
        unfold collect in HM, Hn1. rewrite HM; [exact Hn1|lia|exact Hn1].
    + exists (S (Nat.max d n)). rewrite HC. unfold collect_body, mbind.
      pose proof (resume_up n (Nat.max d n) gr (cur, W)) as HRU. unfold resume in HRU, E. rewrite HRU, E; [|lia|rewrite E; discriminate].
      rewrite collect_one_eq, Hcs by lia. cbn. intro X. apply Hg. congruence.
Qed.

(** * Actions *)
Lemma iter_fin t : snd (iter_items t) <> Some ERecursion.
Proof. induction t; cbn; try discriminate. destruct (iter_items t2). exact IHt2. Qed.

Lemma evaluate_up m t s : (d <= m)%nat -> evaluate d t s <> Err ERecursion -> evaluate m t s = evaluate d t s.
Proof. intros Hm Hu. destruct (mono_le (fun k => evaluate k t s) (fun k => evaluate_mono k t s) d m Hm) as [E|E]; [contradiction|auto]. Qed.
Lemma grounded_up m t s : (d <= m)%nat -> grounded d t s <> Err ERecursion -> grounded m t s = grounded d t s.
Proof. intros Hm Hu. destruct (mono_le (fun k => grounded k t s) (fun k => grounded_mono k t s) d m Hm) as [E|E]; [contradiction|auto]. Qed.

Section Act.
Variables (y0 cur : bst) (W : world).
Hypothesis Hy : okst true y0 cur.
Hypothesis HW : unchanged W0 W.
Let s := b_scope y0.
Let Hs : b_scope cur = s. Proof. exact (okst_scope _ _ Hy). Qed.
Notation acts ac t args := (act_sols d D (sols d D) ac t args s (w_nv W)).

Lemma act_step m ac t : resume (S m) a i (GQ (QAct ac t)) (cur, W) = start_act (engine m) m a i ac t (cur, W).
Proof. reflexivity. Qed.

Lemma alive_tidy ac t : is_literal t = true -> tidy_act ac (act_args t) = true ->
  alive (acts ac t (act_args t)) (GQ (QAct ac t)) cur W.
Proof.
  intros Hl Ht. destruct t as [| | | | | | |f args annots| |]; try discriminate Hl. cbn [act_args] in *.
  destruct (new_cp_ok y0 cur Hy) as (N1 & N2 & N3).
  assert (HE : forall e n st', e <> ERecursion -> start_act (engine n) n a i ac (TLit f args annots) (cur, W) = (Err e, st') ->
     alive (TErr e) (GQ (QAct ac (TLit f args annots))) cur W).
  { intros e n st' He E. split; [exact He|]. exists (S n), st'. rewrite act_step. exact E. }
  destruct ac; try discriminate Ht; cbn in Ht.
  - exists 1%nat. eexists. reflexivity.
  - destruct args as [|x0 [|x1 [|x2 [|]]]]; try discriminate Ht. cbn [act_sols].
    assert (HR : forall m, start_act (engine m) m a i ASubstring (TLit f [x0; x1; x2] annots) (cur, W) =
       match grounded m x0 s with Err e => (Err e, (cur, W)) | Ok v0 => match grounded m x1 s with Err e => (Err e, (cur, W)) | Ok v1 =>
         resume m a i (GCand false (b_ncp cur) x2 (map (fun z => TNum (NInt z)) (occurrences (asl_str v0) (asl_str v1) 0)) None) (snd (new_cp cur), W) end end).
    { intro m. unfold start_act, act_substring, mbind, lift, m_grounded. cbn [fst snd arg nth_error lit_args]. unfold mret. cbn [fst snd]. rewrite !Hs.
      destruct (grounded m x0 s); [|reflexivity]. cbn [fst]. rewrite ?Hs. destruct (grounded m x1 s); reflexivity. }
    pose proof (fun m => grounded_up m x0 s) as U0. pose proof (fun m => grounded_up m x1 s) as U1.
    pose proof (HR d) as HRd.
    destruct (grounded d x0 s) as [v0|e] eqn:E0; cbn [tres].
    2:{ destruct (terr_cases e) as [[-> Ee]|[He Ee]]; rewrite Ee; [exact I|]. eapply HE; [exact He|]. exact HRd. }
    destruct (grounded d x1 s) as [v1|e] eqn:E1; cbn [tres].
    2:{ destruct (terr_cases e) as [[-> Ee]|[He Ee]]; rewrite Ee; [exact I|]. eapply HE; [exact He|]. exact HRd. }
    eapply alive_same; [|apply alive_cand; [discriminate|exact N1|exact N2|exact N3|exact HW]].
    intros m Hm. rewrite act_step, HR, (U0 m Hm) by discriminate. rewrite (U1 m Hm) by discriminate. reflexivity.
  - destruct args as [|x0 [|x1 [|]]]; try discriminate Ht. cbn [act_sols].
    assert (HR : forall m, start_act (engine m) m a i AMember (TLit f [x0; x1] annots) (cur, W) =
       match evaluate m x1 s with Err e => (Err e, (snd (new_cp cur), W)) | Ok v =>
         resume m a i (GCand false (b_ncp cur) x0 (fst (iter_items v)) (snd (iter_items v))) (snd (new_cp cur), W) end).
    { intro m. unfold start_act, act_member, mbind, lift. cbn [lit_args]. rewrite m_new_cp_eq. unfold m_evaluate. cbn [fst snd arg nth_error]. unfold mret. cbn [fst snd].
      change (b_scope (snd (new_cp cur))) with (b_scope cur). rewrite Hs. destruct (evaluate m x1 s) as [v|]; [|reflexivity]. destruct (iter_items v); reflexivity. }
    pose proof (fun m => evaluate_up m x1 s) as U0. pose proof (HR d) as HRd.
    destruct (evaluate d x1 s) as [v|e] eqn:E0; cbn [tres].
    2:{ destruct (terr_cases e) as [[-> Ee]|[He Ee]]; rewrite Ee; [exact I|]. eapply HE; [exact He|]. exact HRd. }
    pose proof (iter_fin v) as Hfin. destruct (iter_items v) as [items fin] eqn:Ei.
    eapply alive_same; [|apply (alive_cand x0 fin items Hfin); [exact N1|exact N2|exact N3|exact HW]].
    intros m Hm. rewrite act_step, HR, (U0 m Hm) by discriminate. rewrite Ei. reflexivity.
  - destruct args as [|x0 [|x1 [|]]]; try discriminate Ht. cbn [act_sols].
    assert (HR : forall m, start_act (engine m) m a i ARange (TLit f [x0; x1] annots) (cur, W) =
       match grounded m x0 s with Err e => (Err e, (snd (new_cp cur), W)) | Ok v => match to_int v with Err e => (Err e, (snd (new_cp cur), W)) | Ok z =>
         resume m a i (GCand false (b_ncp cur) x1 (map (fun z => TNum (NInt z)) (zrange 0 (Z.to_nat z))) None) (snd (new_cp cur), W) end end).
    { intro m. unfold start_act, act_range, mbind, lift. cbn [lit_args]. rewrite m_new_cp_eq. unfold m_grounded. cbn [fst snd arg nth_error]. unfold mret. cbn [fst snd].
      change (b_scope (snd (new_cp cur))) with (b_scope cur). rewrite Hs. destruct (grounded m x0 s) as [v|]; [|reflexivity]. destruct (to_int v); reflexivity. }
    pose proof (fun m => grounded_up m x0 s) as U0. pose proof (HR d) as HRd.
    destruct (grounded d x0 s) as [v|e] eqn:E0; cbn [tres].
    2:{ destruct (terr_cases e) as [[-> Ee]|[He Ee]]; rewrite Ee; [exact I|]. eapply HE; [exact He|]. exact HRd. }
    destruct (to_int v) as [z|e] eqn:E1; cbn [tres].
    2:{ destruct (terr_cases e) as [[-> Ee]|[He Ee]]; rewrite Ee; [exact I|]. eapply HE; [exact He|]. exact HRd. }
    change 0%Z with (Z.of_nat 0) in HR. 
    eapply alive_same; [|]. 
    2:{ rewrite <- (map_map Z.of_nat (fun z => TNum (NInt z))). rewrite <- zrange_seq. apply alive_cand; [discriminate|exact N1|exact N2|exact N3|exact HW]. }
    intros m Hm. rewrite act_step, HR, (U0 m Hm) by discriminate. rewrite E1. reflexivity.
Qed.

(** Actions that answer at most once. *)
Definition single (ac : act) : bool :=
  match ac with AMember | ARange | ASubstring => false | _ => true end.

Lemma bind_stop {A} (m : M A) (k : A -> M (option gen)) st g' s' :
  mbind m k st = (Ok (Some g'), s') -> (forall x st, k x st = (Ok (Some g'), s') -> g' = GStop) -> g' = GStop.
Proof. unfold mbind. destruct (m st) as [[x|e] st']; [|discriminate]. eauto. Qed.
Lemma yield_stop n l r st g' s' : unify_yield n l r st = (Ok (Some g'), s') -> g' = GStop.
Proof. intro H. eapply bind_stop; [exact H|]. intros [] st' X; unfold mret in X; inversion X; reflexivity. Qed.
Lemma single_stop n ac t st g' s' : single ac = true ->
  start_act (engine n) n a i ac t st = (Ok (Some g'), s') -> g' = GStop.
Proof.
  intros Hs' H. eapply bind_stop; [exact H|]. clear H. intros args st1 H.
  Ltac stops H :=
    lazymatch type of H with
    | mret _ _ = _ => unfold mret in H; repeat match type of H with context[match ?x with _ => _ end] => destruct x end; inversion H; reflexivity
    | mfail _ _ = _ => discriminate H
    | unify_yield _ _ _ _ = _ => exact (yield_stop _ _ _ _ _ _ H)
    | mbind _ _ _ = _ => eapply bind_stop; [exact H|]; clear H; let x := fresh in let st := fresh in let H' := fresh in intros x st H'; cbv beta in H'; stops H'
    | (let '(_, _) := ?x in _) _ = _ => destruct x; stops H
    | (match ?x with _ => _ end) _ = _ => destruct x; stops H
    | _ => idtac
    end.
  destruct ac; try discriminate Hs'; unfold act_broadcast, act_send, act_print, act_concat, act_findall, act_count,
    act_sum, act_clock, act_wait, act_fun, act_pred, act_proc in H; stops H.
Qed.

Lemma uncut_mono n m (f : nat -> M (option gen)) st : (forall k, mle (f k) (f (S k))) -> (n <= m)%nat ->
  fst (f n st) <> Err ERecursion -> fst (f m st) <> Err ERecursion.
Proof. intros H Hm Hn. now rewrite (more f H n m st Hm Hn). Qed.

Lemma yield_uncut l r st W1 nv : b_scope st = s -> choices d l [r] None s nv <> TCut ->
  fst (unify_yield d l r (st, W1)) <> Err ERecursion.
Proof.
  intros Hst H. rewrite choices_one in H. unfold unify_yield, mbind, m_unify, on_st. cbn [fst snd].
  destruct (unify_frame d l r (mkbst s [] 0) st) as [E1 E2]; [now rewrite Hst|].
  destruct (unify d l r (mkbst s [] 0)) as [o st0]. destruct (unify d l r st) as [o1 st1]. cbn in E1. subst o1.
  destruct o as [[]|e]; cbn; try discriminate. intro X. apply H. now inversion X.
Qed.
Lemma tres_uncut {A} (r : res A) f : tres r f <> TCut -> r <> Err ERecursion.
Proof. intros H ->. now apply H. Qed.

Lemma inner_uncut goal c st1 : okst true y0 st1 ->
  gather (cstep d) (sols d D (QTerm goal) s (w_nv W)) c <> Err ERecursion ->
  exists n, forall m, (n <= m)%nat -> e_collect (engine m) a i (GQ (QTerm goal)) c (st1, W) = e_collect (engine n) a i (GQ (QTerm goal)) c (st1, W) /\
     fst (e_collect (engine n) a i (GQ (QTerm goal)) c (st1, W)) <> Err ERecursion.
Proof.
  intros H1 Hg.
  destruct (alive_collect (sols d D (QTerm goal) s (w_nv W)) (GQ (QTerm goal)) (is_literal goal) st1 st1 true
     (fun d nv => sols d D (QTerm goal) (b_scope st1) nv) c st1 W) as [n Hn].
  - apply (r_q a qt W0 st1 st1 (QTerm goal)); [reflexivity|apply okst_refl].
  - apply okst_refl.
  - exact HW.
  - unfold s. rewrite <- (okst_scope _ _ H1). apply teq_refl.
  - unfold s. apply HQ; [reflexivity|exact H1|exact HW].
  - exact Hg.
  - exists n. intros m Hm. split; [|exact Hn].
    apply (more (fun k => collect k a i (GQ (QTerm goal)) c) (fun k s => proj2 (proj2 (proj2 (engine_mono k))) a i _ c s)); [exact Hm|exact Hn].
Qed.

Lemma single_uncut ac t : proper qt (QAct ac t) = true -> single ac = true -> acts ac t (act_args t) <> TCut ->
  exists n, fst (start_act (engine n) n a i ac t (cur, W)) <> Err ERecursion.
Proof.
  intros Hp Hsg Hc. cbn [proper] in Hp. apply andb_true_iff in Hp as [Hl Hp].
  destruct t as [| | | | | | |f args annots| |]; try discriminate Hl. cbn [act_args] in *.
  set (t := TLit f args annots) in *.
  assert (HS0 : forall n m, start_act (engine n) n a i ac t (cur, W) = m -> fst m <> Err ERecursion -> exists n, fst (start_act (engine n) n a i ac t (cur, W)) <> Err ERecursion).
  { intros n m <- H. eauto. }
  assert (Hne : forall A (e : exc) f, @tres A (Err e) f <> TCut -> e <> ERecursion) by (intros A e f0 H ->; now apply H).
  destruct ac; try discriminate Hsg; try (exfalso; cbn in Hp; rewrite ?andb_false_r in Hp; discriminate Hp).
  - (* print *)
    exists d. unfold start_act, mbind at 1, lift. cbn [lit_args t].
 unfold act_print, mbind at 1. rewrite m_freezes_eq, Hs.
    cbn [act_sols] in Hc. match goal with |- context[smapl _ args ?x] => change x with (([], w_nv W) : fst_) end.
    destruct (smapl (fun t => freeze d t s) args ([], w_nv W)) as [[vs|e] [m k]]; [discriminate|].
    cbn. intro X. inversion X; subst. now apply Hc.
  - exists 1%nat. discriminate.
  - (* my_name *)
    exists d. apply orb_true_iff in Hp as [Hp|Hp]; [discriminate Hp|]. apply andb_true_iff in Hp as [_ Hp]. cbn in Hp. destruct args as [|x [|]]; try discriminate Hp.
    unfold start_act, mbind, lift, m_world. cbn [lit_args t arg nth_error fst snd]. unfold mret.
    apply (yield_uncut _ _ cur W (w_nv W) Hs). cbn [act_sols] in Hc. rewrite (un_name _ _ HW). exact Hc.
  - (* concat *)
    exists d. apply orb_true_iff in Hp as [Hp|Hp]; [discriminate Hp|]. apply andb_true_iff in Hp as [_ Hp]. cbn in Hp. destruct args as [|x args]; try discriminate Hp.
    unfold start_act, mbind at 1, lift. cbn [lit_args t]. unfold act_concat, mbind at 1. rewrite m_groundeds_eq. cbn [fst]. rewrite Hs.
    cbn [act_sols] in Hc. destruct (rmapl (fun t => grounded d t s) (removelast (x :: args))) as [vs|e].
    2:{ cbn. intro X. inversion X; subst. now apply Hc. }
    cbn [tres] in Hc. unfold mbind. destruct (all_tuples vs) as [ts|].
    + unfold mret. rewrite last_arg_eq. cbn [tres] in Hc. apply (yield_uncut _ _ cur W (w_nv W) Hs Hc).
    + unfold lift, mret. destruct (rmapl py_str vs) as [ss|e].
      * rewrite last_arg_eq. cbn [tres rmap] in Hc. apply (yield_uncut _ _ cur W (w_nv W) Hs Hc).
      * cbn. intro X. inversion X; subst. now apply Hc.
  - (* ground *)
    exists d. unfold start_act, mbind, lift, m_is_ground. cbn [lit_args t fst snd]. rewrite Hs. cbn [act_sols] in Hc.
    unfold t.
 destruct (is_ground d (TLit f args annots) s) as [[]|e] eqn:E; [unfold mret; discriminate..|]. cbn. intro X. inversion X; subst. apply Hc. unfold t. now rewrite E.
  - (* findall *)
    apply orb_true_iff in Hp as [Hp|Hp]; [discriminate Hp|]. apply andb_true_iff in Hp as [_ Hp]. cbn in Hp. destruct args as [|pat [|goal [|x [|]]]]; try discriminate Hp.
    cbn [act_sols] in Hc. pose proof (tres_uncut _ _ Hc) as HE. pose proof (fun m => evaluate_up m pat s) as U0.
    destruct (evaluate d pat s) as [p|e] eqn:E0.
    2:{ exists d. unfold start_act, act_findall, mbind, lift, m_evaluate. cbn [lit_args t arg nth_error fst snd]. unfold mret. cbn [fst snd]. rewrite Hs, E0. cbn. congruence. }
    cbn [tres] in Hc. pose proof (tres_uncut _ _ Hc) as HG. rewrite gather_find0 in HG, Hc.
    destruct (inner_uncut goal (CFind p [] []) cur Hy) as [n Hn].
    { intro X. rewrite X in HG. now apply HG. }
    exists (Nat.max d n). unfold start_act, act_findall, mbind, lift, m_evaluate. cbn [lit_args t arg nth_error fst snd]. unfold mret. cbn [fst snd].
    rewrite Hs, U0 by (lia || discriminate). destruct (Hn (Nat.max d n) ltac:(lia)) as [E2 E3]. rewrite E2.
    pose proof (inner_collect a i qt W0 n (engine_sound a i qt W0 HD n) y0 W HW goal (CFind p [] []) cur Hy) as HC.
    destruct (e_collect (engine n) a i (GQ (QTerm goal)) (CFind p [] []) (cur, W)) as [o [c1 W1]]. cbn in HC, E3.
    destruct HC as [HC|[HU HC]]; [apply cutr_true in HC; contradiction|]. destruct o as [c'|e]; [|cbn; congruence].
    destruct HC as [H1 [d1 H2]]. rewrite Hp, orb_true_r in H1.
    destruct (H2 d) as [H2d|[_ H2d]]; fold D in H2d; fold s in H2d; rewrite H2d in Hc, HG; [|now contradiction HG].
    pose proof (gather_kind d _ _ _ _ H2d) as HK. destruct c' as [p' mm acc| |]; try contradiction HK.
    cbn [tres] in Hc.
    eapply (uncut_mono d _ (fun k => unify_yield k (TTup (rev acc)) x)); [intro; apply mle_yield|lia|].
    eapply yield_uncut; [|exact Hc]. rewrite (okst_scope _ _ H1). exact Hs.
  - (* count *)
    apply orb_true_iff in Hp as [Hp|Hp]; [discriminate Hp|]. apply andb_true_iff in Hp as [_ Hp]. cbn in Hp. destruct args as [|goal [|x [|]]]; try discriminate Hp.
    cbn [act_sols] in Hc. pose proof (tres_uncut _ _ Hc) as HG. rewrite (gather_count d) in HG, Hc.
    set (st1 := push_cp (b_ncp cur) (snd (new_cp cur))).
    assert (Hst1 : b_scope st1 = s) by exact Hs.
    destruct (alive_collect (sols d D (QTerm goal) s (w_nv W)) (GQ (QTerm goal)) (is_literal goal) st1 st1 true
     (fun d nv => sols d D (QTerm goal) (b_scope st1) nv) (CCount 0) st1 W) as [n Hn].
    + apply (r_q a qt W0 st1 st1 (QTerm goal)); [reflexivity|apply okst_refl].
    + apply okst_refl.
    + exact HW.
    + rewrite Hst1. apply teq_refl.
    + rewrite <- Hst1. apply HQ; [reflexivity|apply okst_refl|exact HW].
    + intro X. rewrite X in HG. now apply HG.
    + pose proof (more (fun k => collect k a i (GQ (QTerm goal)) (CCount 0)) (fun k s => proj2 (proj2 (proj2 (engine_mono k))) a i _ _ s) n (Nat.max d n) (st1, W) ltac:(lia) Hn) as E2.
      exists (Nat.max d n). unfold start_act, act_count, mbind, lift, m_new_cp, m_push_cp, m_reroll, on_st. cbn [lit_args t arg nth_error fst snd new_cp]. unfold mret. cbn [fst snd].
      change (push_cp (b_ncp cur) {| b_scope := b_scope cur; b_stack := b_stack cur; b_ncp := N.succ (b_ncp cur) |}) with st1.
      unfold collect in E2, Hn. rewrite E2.
      destruct (engine_sound a i qt W0 HD n) as [_ IHc].
      pose proof (IHc (is_literal goal) st1 (GQ (QTerm goal)) st1 true _ (CCount 0) (r_q a qt W0 st1 st1 (QTerm goal) eq_refl (okst_refl _ _)) st1 W (okst_refl _ _) HW) as HC.
      destruct (e_collect (engine n) a i (GQ (QTerm goal)) (CCount 0) (st1, W)) as [o [c1 W1]]. cbn [cpost] in HC. cbn [fst] in Hn.
      destruct HC as [HC|[HU HC]]; [apply cutr_true in HC; contradiction|]. destruct o as [c'|e]; [|cbn; congruence].
      destruct HC as [H1 [d1 H2]]. rewrite Hst1 in H2.
      destruct (H2 d) as [H2d|[_ H2d]]; fold D in H2d; rewrite H2d in Hc, HG; [|now contradiction HG].
      pose proof (gather_kind d _ _ _ _ H2d) as HK. destruct c' as [|k|]; try contradiction HK.
      cbn [tres fst snd] in Hc |- *.
      eapply (uncut_mono d _ (fun k0 => unify_yield k0 (TNum (NInt k)) x)); [intro; apply mle_yield|lia|].
      eapply yield_uncut; [|exact Hc]. rewrite (okst_scope cur); [exact Hs|].
      apply mark_reroll. eapply mark_trail; [apply mark_new|]. exact (okst_trail _ _ _ H1).
  - exists 1%nat. discriminate.
  - exists 1%nat. discriminate.
  - (* sum *)
    apply orb_true_iff in Hp as [Hp|Hp]; [discriminate Hp|]. apply andb_true_iff in Hp as [_ Hp]. cbn in Hp. destruct args as [|pat [|goal [|x [|]]]]; try discriminate Hp.
    cbn [act_sols] in Hc. pose proof (tres_uncut _ _ Hc) as HE. pose proof (fun m => evaluate_up m pat s) as U0.
    destruct (evaluate d pat s) as [p|e] eqn:E0.
    2:{ exists d. unfold start_act, act_sum, mbind, lift, m_evaluate. cbn [lit_args t arg nth_error fst snd]. unfold mret. cbn [fst snd]. rewrite Hs, E0. cbn. congruence. }
    cbn [tres] in Hc. pose proof (tres_uncut _ _ Hc) as HG. rewrite gather_sum in HG, Hc.
    destruct (inner_uncut goal (CSum p (NInt 0)) cur Hy) as [n Hn].
    { intro X. rewrite X in HG. now apply HG. }
    exists (Nat.max d n). unfold start_act, act_sum, mbind, lift, m_evaluate. cbn [lit_args t arg nth_error fst snd]. unfold mret. cbn [fst snd].
    rewrite Hs, U0 by (lia || discriminate). destruct (Hn (Nat.max d n) ltac:(lia)) as [E2 E3]. rewrite E2.
    pose proof (inner_collect a i qt W0 n (engine_sound a i qt W0 HD n) y0 W HW goal (CSum p (NInt 0)) cur Hy) as HC.
    destruct (e_collect (engine n) a i (GQ (QTerm goal)) (CSum p (NInt 0)) (cur, W)) as [o [c1 W1]]. cbn in HC, E3.
    destruct HC as [HC|[HU HC]]; [apply cutr_true in HC; contradiction|]. destruct o as [c'|e]; [|cbn; congruence].
    destruct HC as [H1 [d1 H2]]. rewrite Hp, orb_true_r in H1.
    destruct (H2 d) as [H2d|[_ H2d]]; fold D in H2d; fold s in H2d; rewrite H2d in Hc, HG; [|now contradiction HG].
    pose proof (gather_kind d _ _ _ _ H2d) as HK. destruct c' as [| |p' tot]; try contradiction HK.
    cbn [tres] in Hc.
    eapply (uncut_mono d _ (fun k => unify_yield k (TNum tot) x)); [intro; apply mle_yield|lia|].
    eapply yield_uncut; [|exact Hc]. rewrite (okst_scope _ _ H1). exact Hs.
  - (* functions *)
    exists d. apply orb_true_iff in Hp as [Hp|Hp]; [discriminate Hp|]. apply andb_true_iff in Hp as [_ Hp].
    assert (Hf : forall p, f0 <> FOpaque p) by (intros p ->; discriminate Hp).
    destruct args as [|x args]; [destruct f0; discriminate Hp|].
    unfold start_act, act_fun, mbind, lift, m_zip, m_tick, on_world. cbn [lit_args t fst snd]. unfold mbind. rewrite Hs.
    cbn [act_sols] in Hc. destruct (zip_specs d specs (x :: args) s ([], w_nv W)) as [[vs|e] [m k]].
    2:{ cbn. intro X. inversion X; subst. now apply Hc. }
    cbn [tres] in Hc. cbn [fst snd]. rewrite (fn_tick f0 _ 0 vs Hf). destruct (fn_apply f0 0 vs) as [v|e].
    + rewrite last_arg_eq. cbn [tres] in Hc. eapply yield_uncut; [exact Hs|exact Hc].
    + cbn. intro X. inversion X; subst. now apply Hc.
  - (* predicates *)
    exists d. assert (Hf : forall f, p <> POpaque f) by (intros g ->; cbn in Hp; rewrite andb_false_r in Hp; discriminate Hp).
    unfold start_act, act_pred, mbind, lift, m_zip, m_tick, on_world. cbn [lit_args t fst snd]. unfold mbind. rewrite Hs.
    cbn [act_sols] in Hc. destruct (zip_specs d specs args s ([], w_nv W)) as [[vs|e] [m k]].
    2:{ cbn. intro X. inversion X; subst. now apply Hc. }
    cbn [tres] in Hc. cbn [fst snd]. rewrite (pr_tick p _ 0 vs Hf). destruct (pr_apply p 0 vs) as [v|e]; [discriminate|].
    cbn. intro X. inversion X; subst. now apply Hc.
Qed.
End Act.

Lemma append_end t : teq (append t TEnd) t.
Proof. induction t as [| | |s nv k IH]; cbn; constructor. intro. apply IH. Qed.

Lemma alive_or0 t g x y0 y f F cur W : rep x y0 g y f F -> okst (qt || f) y cur -> unchanged W0 W ->
  teq (F d (w_nv W)) t -> alive t g cur W -> alive t (GOr g None) cur W.
Proof.
  intros Hr Hy HW Ht Ha. eapply alive_teq; [apply append_end|].
  apply (alive_append (fun g => GOr g None) GStop (fun c => c) d TEnd) with (x := x) (y1 := y0) (y := y) (f := f) (F := F); try assumption.
  - intros [|m] gr [c W1]; [reflexivity|]. unfold resume. cbn [engine e_resume resume_body]. unfold mbind.
    change (fun a i g => resume_body (engine m) m a i g) with (resume (S m)).
    destruct (resume_body (engine m) m a i gr (c, W1)) as [[[|]|] [c1 W2]]; reflexivity.
  - intros c W' _ _. exists 1%nat. eexists. reflexivity.
Qed.

Lemma alive_step q y0 cur W : proper qt q = true -> okst true y0 cur -> unchanged W0 W ->
  alive (sols (S d) D q (b_scope y0) (w_nv W)) (GQ q) cur W.
Proof.
  intros Hp Hy HW. pose proof (okst_scope _ _ Hy) as Hs.
  destruct q as [| |ac t|t|l r|l r|q|l r]; cbn [sols].
  - exists 1%nat. do 3 eexists. split; [reflexivity|]. split; [exact Hs|]. split; [reflexivity|].
    intros. exists 1%nat. eexists. reflexivity.
  - exists 1%nat. eexists. reflexivity.
  - assert (Hl : is_literal t = true) by (cbn in Hp; now apply andb_true_iff in Hp).
    assert (E : lit_args t = Ok (act_args t)) by (destruct t; try discriminate Hl; reflexivity).
    rewrite E. cbn [tres]. destruct (tidy_act ac (act_args t)) eqn:Et.
    + now apply alive_tidy.
    + assert (Hsg : single ac = true).
      { cbn [proper] in Hp; rewrite Et in Hp; destruct ac; try reflexivity; cbn in Hp; rewrite !andb_false_r in Hp; discriminate Hp. }
      eapply (alive_once (S d)); [apply (r_q a qt W0 y0 cur (QAct ac t) Hp Hy)|apply okst_refl|exact HW| | |].
      * cbn [sols]. fold D. rewrite E. apply teq_refl.
      * intro Hc. destruct (single_uncut y0 cur W Hy HW ac t Hp Hsg Hc) as [n Hn]. exists (S n). exact Hn.
      * intros [|n] g' s' H; [discriminate H|]. left. rewrite act_step in H. eapply single_stop; eassumption.
  - pose proof (fun m => evaluate_up m t (b_scope y0)) as U0.
    assert (HR : forall m, resume (S m) a i (GQ (QTerm t)) (cur, W) =
      match evaluate m t (b_scope y0) with Err e => (Err e, (cur, W)) | Ok v =>
           match v with
           | TBool true => (Ok (Some GStop), (cur, W))
           | TBool false => (Ok None, (cur, W))
           | TLit f args _ =>
               let '(r, W1) := bel_ref a (f, List.length args) W in
               let s := get_set W1 r in
               resume m a i (GBel None v r (s_ver s) (List.length (s_elems s)) (s_elems s)) (cur, W1)
           | _ => (Err (fmt_exc v), (cur, W))
           end end).
    { intro m. unfold resume. cbn [engine e_resume resume_body]. unfold mbind, m_evaluate, on_world, m_world. cbn [fst snd]. rewrite Hs.
      destruct (evaluate m t (b_scope y0)) as [[[]| | | | | | |f args annots| |]|]; try reflexivity.
      cbn [fst snd]. destruct (bel_ref a (f, List.length args) W) as [r0 W1]. reflexivity. }
    destruct (evaluate d t (b_scope y0)) as [v|e] eqn:E; cbn [tres].
    2:{ destruct (terr_cases e) as [[-> Ee]|[He Ee]]; rewrite Ee; [exact I|]. split; [exact He|]. exists (S d). eexists. rewrite HR, E. reflexivity. }
    assert (HN : forall e, e <> ERecursion -> resume (S d) a i (GQ (QTerm t)) (cur, W) = (Err e, (cur, W)) -> alive (TErr e) (GQ (QTerm t)) cur W).
    { intros e He X. split; [exact He|]. eauto. }
    pose proof (HR d) as HRd. rewrite E in HRd.
    destruct v as [[]| | | | | | |f args annots| |]; try (apply HN; [first [discriminate | unfold fmt_exc; repeat match goal with |- context[match ?x with _ => _ end] => destruct x end; discriminate]|exact HRd]).
    + exists (S d). do 3 eexists. split; [exact HRd|]. split; [exact Hs|]. split; [reflexivity|]. intros. exists 1%nat. eexists. reflexivity.
    + exists (S d). eexists. exact HRd.
    + destruct (bel_ref a (f, List.length args) W) as [r W1] eqn:Eb.
      destruct (bel_ref_spec _ _ _ _ _ Eb) as (HU & HE & HN1).
      assert (HW1 : unchanged W0 W1) by (eapply unchanged_trans; eassumption).
      eapply (alive_same _ _ _ _ _ cur W1 d).
      { intros m Hm. rewrite HR, (U0 m Hm), Eb by discriminate. cbv zeta. reflexivity. }
      rewrite HE, (db_bel a W0 _ _ HW), <- HN1. fold D.
      apply (alive_bel (TLit f args annots) r); [apply (proj1 (HD _))|now rewrite (un_sets _ _ HW1)|exact Hy|exact HW1].
  - cbn in Hp. apply andb_true_iff in Hp as [Hp1 Hp2].
    apply (alive_same _ _ _ _ (GAnd (GQ l) None r) cur W 0); [intros m _; reflexivity|].
    eapply (alive_and d r Hp2); [|apply (r_q a qt W0 y0 cur l Hp1 Hy)|apply okst_refl|exact HW|apply teq_refl|now apply HQ].
    intros c W' HW'. apply HQ; [exact Hp2|apply okst_refl|exact HW'].
  - cbn in Hp. apply andb_true_iff in Hp as [Hp Hx]. apply andb_true_iff in Hp as [Hp1 Hp2].
    apply (alive_same _ _ _ _ (GOr (GQ l) (Some r)) cur W 0); [intros m _; reflexivity|].
    apply (alive_append (fun g => GOr g (Some r)) (GOr (GQ r) None) (fun c => c) d (sols d D r (b_scope y0))) with
      (x := restoring l) (y1 := y0) (y := cur) (f := true) (F := fun d nv => sols d D l (b_scope y0) nv).
    + intros m gr [c W1]. unfold resume. cbn [engine e_resume resume_body]. unfold mbind.
      destruct (e_resume (engine m) a i gr (c, W1)) as [[[|]|] [c1 W2]]; reflexivity.
    + apply (r_q a qt W0 y0 cur l Hp1 Hy).
    + apply okst_refl.
    + exact HW.
    + apply teq_refl.
    + now apply HQ.
    + intros c W' Hc HW'. rewrite Hx in Hc.
      eapply alive_or0; [apply (r_q a qt W0 y0 c r Hp2 Hc)|apply okst_refl|exact HW'|apply teq_refl|now apply HQ].
  - set (st1 := push_cp (b_ncp cur) {| b_scope := b_scope cur; b_stack := b_stack cur; b_ncp := N.succ (b_ncp cur) |}).
    assert (HR : forall m, resume (S m) a i (GQ (QNot q)) (cur, W) =
      match resume m a i (GQ q) (st1, W) with
      | (Err e, s) => (Err e, s)
      | (Ok o, (c, W')) => (Ok (match o with None => Some GStop | Some _ => None end), (reroll c (b_ncp cur), W'))
      end).
    { intro m. unfold resume. cbn [engine e_resume resume_body]. unfold mbind, m_new_cp, m_push_cp, m_reroll, on_st. cbn [fst snd new_cp]. fold st1.
      destruct (e_resume (engine m) a i (GQ q) (st1, W)) as [[o|e] [c W']]; reflexivity. }
    eapply (alive_once (S d)); [apply (r_q a qt W0 y0 cur (QNot q) Hp Hy)|apply okst_refl|exact HW|cbn [sols]; apply teq_refl| |].
    + intro Hc. assert (Ha : alive (sols d D q (b_scope y0) (w_nv W)) (GQ q) st1 W).
      { change (b_scope y0) with (b_scope y0). rewrite <- Hs. change (b_scope cur) with (b_scope st1). apply HQ; [exact Hp|apply okst_refl|exact HW]. }
      destruct (alive_uncut _ _ _ _ Ha) as [n Hn]; [intro X; apply Hc; now rewrite X|].
      exists (S n). unfold uncut in *. rewrite HR. destruct (resume n a i (GQ q) (st1, W)) as [[o|e] [c W']]; [discriminate|exact Hn].
    + intros [|n] g' s' H; [discriminate H|]. left. rewrite HR in H. destruct (resume n a i (GQ q) (st1, W)) as [[[o|]|e] [c W']]; inversion H. reflexivity.
  - assert (HR : forall m, resume (S m) a i (GQ (QUnify l r)) (cur, W) =
      match uann m l r cur with
      | (Ok (Some cp), st1) => (Ok (Some (GAnn cp)), (st1, W))
      | (Ok None, st1) => (Ok None, (st1, W))
      | (Err e, st1) => (Err e, (st1, W)) end).
    { intro m. unfold resume. cbn [engine e_resume resume_body]. unfold mbind, m_uann, on_st. cbn [fst snd]. destruct (uann m l r cur) as [[[|]|] st1]; reflexivity. }
    eapply (alive_once (S d)); [apply (r_q a qt W0 y0 cur (QUnify l r) Hp Hy)|apply okst_refl|exact HW|cbn [sols]; apply teq_refl| |].
    + intro Hc. exists (S d). unfold uncut. rewrite HR. cbn [matches] in Hc. destruct (uann_same d l r cur (b_scope y0) Hs) as [E1 E2].
      destruct (uann d l r (mkbst (b_scope y0) [] 0)) as [o0 st0]. destruct (uann d l r cur) as [o1 st1]. cbn in E1.
      destruct o0 as [[cp0|]|e0], o1 as [[cp|]|e]; try contradiction E1; try discriminate. subst e0. cbn. intro X. inversion X; subst. now apply Hc.
    + intros [|n] g' s' H; [discriminate H|]. right. rewrite HR in H. destruct (uann n l r cur) as [[[cp|]|e] st1]; inversion H. eauto.
Qed.
End Depth.

Theorem engine_complete d : forall q y0 cur W, proper qt q = true -> okst true y0 cur -> unchanged W0 W ->
  alive (sols d D q (b_scope y0) (w_nv W)) (GQ q) cur W.
Proof. induction d as [|d IH]; [intros; exact I|]. now apply alive_step. Qed.

Lemma drive_complete c : (qt = true -> Forall (fun p => fst p = []) c) ->
  forall t g cur W, alive t g cur W -> snd (take c t) <> Raised ERecursion ->
  exists n0, forall n, (n0 <= n)%nat -> fst (drive c n a i g (cur, W)) = take c t.
Proof.
  induction c as [|[os k] c IH]; intros Hc t g cur W Ha Ht; [exists 0%nat; reflexivity|].
  assert (Hc' : qt = true -> Forall (fun p => fst p = []) c) by (intro H; specialize (Hc H); now inversion Hc).
  destruct t as [nv|e| |s nv kt]; cbn [take] in *.
  - destruct Ha as (n & s' & E). exists n. intros m Hm. cbn [drive]. rewrite (resume_up n m) by (assumption || (rewrite E; discriminate)). now rewrite E.
  - destruct Ha as (He & n & s' & E). exists n. intros m Hm. cbn [drive].
    rewrite (resume_up n m); [now rewrite E|exact Hm|]. unfold uncut. rewrite E. cbn. congruence.
  - now contradiction Ht.
  - destruct Ha as (n & g' & cur' & W' & E & E1 & E2 & H). subst s nv.
    destruct (IH Hc' (kt (w_nv W' + k)%N) g' (run_bops os cur') (set_nv W' (w_nv W' + k)%N)) as [n1 H1].
    + change (w_nv W' + k)%N with (w_nv (set_nv W' (w_nv W' + k)%N)) at 1. apply H; [|apply unchanged_nv].
      apply bops_okst. intro Hq. specialize (Hc Hq). now inversion Hc.
    + intro X. apply Ht. destruct (take c (kt (w_nv W' + k)%N)). exact X.
    + exists (Nat.max n n1). intros m Hm. cbn [drive].
      rewrite (resume_up n m); [|lia|rewrite E; discriminate]. rewrite E. specialize (H1 m ltac:(lia)).
      destruct (drive c m a i g' (run_bops os cur', set_nv W' (w_nv W' + k)%N)) as [[l o] s2]. cbn in H1. now rewrite <- H1.
Qed.
End Complete.

Theorem query_complete b a i q c d st W :
  proper b q = true -> proper_db b (db_of a W) -> (b = true -> Forall (fun p => fst p = []) c) ->
  let r := take c (sols d (db_of a W) q (b_scope st) (w_nv W)) in
  snd r = Raised ERecursion \/
  exists n0, forall n, (n0 <= n)%nat -> fst (drive c n a i (GQ q) (st, W)) = r.
Proof.
  intros Hp HD Hc r.
  assert (Hdec : {snd r = Raised ERecursion} + {snd r <> Raised ERecursion}).
  { destruct (snd r) as [|e|]; [right; discriminate| |right; discriminate]. destruct (exc_eq_rec e); [left; congruence|right; congruence]. }
  destruct Hdec as [H|H]; [now left|right].
  apply (drive_complete a i b c Hc); [|exact H].
  apply (engine_complete a i b W HD); [exact Hp|apply okst_refl|apply unchanged_refl].
Qed.
End WithPy.
