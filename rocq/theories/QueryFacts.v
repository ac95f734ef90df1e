(** Generators refine the list semantics. *)
From Verif Require Import Base Num Term Unify TrailSpec TrailFacts TrailHist FuelFacts AnnotFlat AnnotFacts Str World Engine FuelEngine NamesFacts QuerySpec QueryBase.

Section WithPy.
Context {PY : Py} {FR : Front}.

(** * Renaming keeps the syntactic conditions *)
Lemma is_literal_rename m t : is_literal (rename m t) = is_literal t.
Proof. now destruct t. Qed.
Lemma act_args_rename m t : act_args (rename m t) = map (rename m) (act_args t).
Proof. now destruct t. Qed.
Lemma tidy_rename ac m args : tidy_act ac (map (rename m) args) = tidy_act ac args.
Proof. destruct ac, args as [|? [|? [|? [|]]]]; reflexivity. Qed.
Lemma leaky_rename ac m args : leaky_act ac (map (rename m) args) = leaky_act ac args.
Proof. destruct ac; try reflexivity; destruct args as [|? [|? [|? [|]]]]; try reflexivity; cbn; apply is_literal_rename. Qed.
Lemma safe_eq_rename m l r : safe_eq (rename m l) (rename m r) = safe_eq l r.
Proof. unfold safe_eq. rewrite is_literal_rename. now destruct r. Qed.
Lemma restoring_rename m q : restoring (qrename m q) = restoring q.
Proof.
  induction q; cbn; auto.
  - now rewrite act_args_rename, tidy_rename.
  - apply is_literal_rename.
Qed.
Lemma proper_rename b m q : proper b (qrename m q) = proper b q.
Proof.
  induction q; cbn; auto.
  - now rewrite act_args_rename, tidy_rename, leaky_rename, is_literal_rename.
  - now rewrite IHq1, IHq2.
  - now rewrite IHq1, IHq2, restoring_rename.
  - apply safe_eq_rename.
Qed.
Lemma proper_copy b r k c k' : copy_rule r k = (c, k') -> proper b (r_query c) = proper b (r_query r).
Proof.
  unfold copy_rule. destruct (number _ _ _) as [m k1]. intro H. inversion H; subst. apply proper_rename.
Qed.

(** * Small facts about the engine's helpers *)
Lemma set_nv_same W : set_nv W (w_nv W) = W.
Proof. now destruct W. Qed.

Lemma m_groundeds_eq n args s : m_groundeds n args s = (rmapl (fun t => grounded n t (b_scope (fst s))) args, s).
Proof.
  induction args as [|t args IH]; [reflexivity|]. cbn [m_groundeds]. unfold mbind, m_grounded at 1. cbn [rmapl].
  destruct (grounded n t (b_scope (fst s))); [|reflexivity]. rewrite IH. now destruct (rmapl _ args).
Qed.

Lemma m_freezes_eq n args cur : forall mm W, m_freezes n args mm (cur, W) =
  let '(r, (_, k)) := smapl (fun t => freeze n t (b_scope cur)) args (mm, w_nv W) in (r, (cur, set_nv W k)).
Proof.
  induction args as [|t args IH]; intros mm W; [cbn; unfold mret; now rewrite set_nv_same|].
  cbn [m_freezes smapl]. unfold mbind, m_freeze at 1. cbn [fst snd].
  destruct (freeze n t (b_scope cur) (mm, w_nv W)) as [[v|e] [m1 k1]]; [|reflexivity].
  cbn [fst snd]. rewrite IH. cbn [w_nv set_nv].
  destruct (smapl (fun t => freeze n t (b_scope cur)) args (m1, k1)) as [[vs|e] [m2 k2]]; reflexivity.
Qed.

Lemma last_arg_eq x args s : last_arg (x :: args) s = (Ok (last (x :: args) (TBool false)), s).
Proof.
  unfold last_arg. destruct (exists_last (l := x :: args)) as (l' & y & ->); [discriminate|].
  rewrite rev_app_distr. cbn. now rewrite last_last.
Qed.

Lemma zrange_seq c : forall k, zrange (Z.of_nat k) c = map Z.of_nat (seq k c).
Proof.
  induction c as [|c IH]; intro k; [reflexivity|]. cbn [zrange seq map]. f_equal.
  rewrite <- IH. f_equal. lia.
Qed.

Lemma fn_tick f k k' vs : (forall p, f <> FOpaque p) -> fn_apply f k vs = fn_apply f k' vs.
Proof. destruct f; intro H; try reflexivity. now contradiction (H f). Qed.
Lemma pr_tick p k k' vs : (forall f, p <> POpaque f) -> pr_apply p k vs = pr_apply p k' vs.
Proof. destruct p; intro H; try reflexivity. now contradiction (H f). Qed.

(** * The refinement *)
Section Refine.
Variables (a i : nat) (qt : bool) (W0 : world).
Let D := db_of a W0.
Hypothesis HD : proper_db qt D.

Definition clF (t : term) (rs : list rule) (s : scope) (d : nat) (nv : N) : trace :=
  clauses (pred d) (sols (pred d) D) t rs s nv.
Definition belF (t : term) (rest : list term) (s : scope) (d : nat) (nv : N) : trace :=
  append (matches (pred d) t rest s nv) (clF t (d_rules D (lit_group t)) s d).
Definition candF (t : term) (cs : list term) (fin : option exc) (s : scope) (d : nat) (nv : N) : trace :=
  choices (pred d) t cs fin s nv.

(** [rep x y0 g y f F]: the generator [g], started at [y0] and suspended at
    [y], still has the solutions [F].  With [x] it restores [y0] when exhausted;
    with [f] it may only be resumed exactly at [y]. *)
Inductive rep : bool -> bst -> gen -> bst -> bool -> (nat -> N -> trace) -> Prop :=
| r_q y0 y q : proper qt q = true -> okst true y0 y ->
    rep (restoring q) y0 (GQ q) y true (fun d nv => sols d D q (b_scope y0) nv)
| r_stop y0 y : okst qt y0 y -> rep false y0 GStop y false (fun _ nv => TEnd nv)
| r_ann x y0 y cp : mark cp y0 y -> rep x y0 (GAnn cp) y false (fun _ nv => TEnd nv)
| r_bel1 x y0 y cp t ref ver sz rest : mark cp y0 y -> ver = s_ver (get_set W0 ref) ->
    Forall (fun b => is_literal b = true) rest ->
    rep x y0 (GBel (Some cp) t ref ver sz rest) y false (belF t rest (b_scope y0))
| r_bel0 x y0 y t ref ver sz rest : okst true y0 y -> ver = s_ver (get_set W0 ref) ->
    Forall (fun b => is_literal b = true) rest ->
    rep x y0 (GBel None t ref ver sz rest) y true (belF t rest (b_scope y0))
| r_rule0 x y0 y cp t rest : okst true y0 y -> (b_ncp y0 <= cp)%N -> (cp < b_ncp y)%N ->
    Forall (fun r => proper qt (r_query r) = true) rest ->
    rep x y0 (GRule cp t None rest) y true (clF t rest (b_scope y0))
| r_rule1 x y0 y cp t rest xs y1 sub f Fs : mark cp y0 y1 -> rep xs y1 sub y f Fs ->
    Forall (fun r => proper qt (r_query r) = true) rest ->
    rep x y0 (GRule cp t (Some sub) rest) y f
        (fun d nv => append (Fs (pred d) nv) (clF t rest (b_scope y0) d))
| r_and0 x y0 y gl r f Fl : rep x y0 gl y f Fl -> proper qt r = true ->
    rep x y0 (GAnd gl None r) y f (fun d nv => bindt (Fl (pred d) nv) (sols (pred d) D r))
| r_and1 x y0 y gl gr r f Fl y1 xr Fr : rep x y0 gl y1 false Fl -> rep xr y1 gr y f Fr -> proper qt r = true ->
    rep x y0 (GAnd gl (Some gr) r) y f
        (fun d nv => append (Fr (pred d) nv) (fun nv' => bindt (Fl (pred d) nv') (sols (pred d) D r)))
| r_or1 xg y0 y g q f Fg : rep xg y0 g y f Fg -> qt || xg = true -> proper qt q = true ->
    rep (restoring q) y0 (GOr g (Some q)) y f
        (fun d nv => append (Fg (pred d) nv) (sols (pred d) D q (b_scope y0)))
| r_or0 x y0 y g f F : rep x y0 g y f F -> rep x y0 (GOr g None) y f (fun d nv => F (pred d) nv)
| r_cand1 x y0 y cp t cs fin : mark cp y0 y ->
    rep x y0 (GCand true cp t cs fin) y false (candF t cs fin (b_scope y0))
| r_cand0 x y0 y cp t cs fin : okst true y0 y -> (b_ncp y0 <= cp)%N -> (cp < b_ncp y)%N ->
    rep x y0 (GCand false cp t cs fin) y true (candF t cs fin (b_scope y0)).

Lemma rep_trail x y0 g y f F : rep x y0 g y f F -> trail y0 y.
Proof.
  induction 1; try assumption;
    try (match goal with H : okst ?b _ _ |- _ => now apply (okst_trail b) | H : mark ?cp _ _ |- _ => now apply (mark_above cp) end).
  - eapply trail_trans; [|eassumption]. now apply (mark_above cp).
  - eapply trail_trans; eassumption.
Qed.

Lemma rep_base x y1 g y f F : rep x y1 g y f F -> forall y0, okst true y0 y1 -> rep x y0 g y f F.
Proof.
  assert (HS : forall y0 y1, okst true y0 y1 -> b_scope y0 = b_scope y1) by (intros; symmetry; now apply okst_scope).
  induction 1; intros z Hz; try rewrite <- (HS z y0 Hz) in *; try rewrite <- (HS z y0 Hz).
  all: try (econstructor; try eassumption; try (eapply okst_trans; eassumption); try (eapply mark_base; eassumption); eauto;
            apply okst_ncp in Hz; lia).
  all: econstructor; try eassumption; try (eapply okst_trans; eassumption); try (eapply mark_base; eassumption); eauto.
  eapply okst_trans; [apply (okst_weaken qt); exact Hz|assumption].
Qed.

(** * What resuming must achieve *)
Definition post (x : bool) (y0 : bst) (F : nat -> N -> trace) (W : world) (r : res (option gen) * ST) : Prop :=
  let '(o, (cur', W')) := r in
  cutr o = true \/ unchanged W W' /\
  match o with
  | Err e => ev (fun d => F d (w_nv W)) (fun _ => TErr e)
  | Ok None => okst (qt || x) y0 cur' /\ ev (fun d => F d (w_nv W)) (fun _ => TEnd (w_nv W'))
  | Ok (Some g') => exists F', rep x y0 g' cur' false F' /\
      ev (fun d => F d (w_nv W)) (fun d => TSol (b_scope cur') (w_nv W') (F' d))
  end.

Lemma post_step x y0 y1 F G W W1 r : post x y1 G W1 r -> okst true y0 y1 -> unchanged W W1 ->
  ev (fun d => F d (w_nv W)) (fun d => G d (w_nv W1)) -> post x y0 F W r.
Proof.
  destruct r as [o [cur' W']]. cbn. intros [H|[HU H]] Hy HW HE; [now left|]. right. split; [eapply unchanged_trans; eassumption|].
  destruct o as [[g'|]|e].
  - destruct H as (F' & H1 & H2). exists F'. split; [now apply (rep_base x y1)|]. eapply ev_trans; eassumption.
  - destruct H as (H1 & H2). split; [|eapply ev_trans; eassumption]. eapply okst_trans; [apply okst_weaken; exact Hy|assumption].
  - eapply ev_trans; eassumption.
Qed.

Lemma post_err x y0 F W e cur' W' : unchanged W W' -> (e <> ERecursion -> ev (fun d => F d (w_nv W)) (fun _ => TErr e)) ->
  post x y0 F W (Err e, (cur', W')).
Proof.
  intros HU H. cbn. destruct e; try (right; split; [assumption|apply H; congruence]). now left.
Qed.

Ltac cutcase H :=
  let Hz := fresh "Hz" in let Hlt := fresh "Hlt" in
  destruct H as [Hz|[Hlt Hz]];
  [rewrite Hz; left
  |right; split;
   [lia
   |lazymatch type of Hz with
    | ex _ => let m := fresh in destruct Hz as [m Hz]; destruct m; rewrite Hz; reflexivity
    | _ => rewrite Hz; reflexivity
    end]].

(** ** Unify-and-yield *)
Lemma choices_one d l r s nv : choices d l [r] None s nv =
  match unify d l r (mkbst s [] 0) with
  | (Err e, _) => terr e
  | (Ok false, _) => TEnd nv
  | (Ok true, st) => TSol (b_scope st) nv TEnd
  end.
Proof. reflexivity. Qed.

Lemma unify_at n d l r cur s : b_scope cur = s -> cutr (fst (unify n l r cur)) = false ->
  fst (unify d l r (mkbst s [] 0)) = fst (unify n l r cur) /\
  b_scope (snd (unify d l r (mkbst s [] 0))) = b_scope (snd (unify n l r cur)) \/
  (d < n)%nat /\ fst (unify d l r (mkbst s [] 0)) = Err ERecursion.
Proof.
  intros Hs Hc. destruct (unify_frame n l r (mkbst s [] 0) cur) as [E1 E2]; [now cbn|].
  rewrite <- E1 in Hc. destruct (sstab (fun k => unify k l r (mkbst s [] 0)) n (fun k => unify_mono k l r _) Hc d) as [E|[L [m E]]].
  - rewrite E. left. auto.
  - rewrite E. right. auto.
Qed.

Lemma unify_yield_post n y0 l r cur W : qt = false -> okst true y0 cur ->
  post false y0 (candF l [r] None (b_scope y0)) W (unify_yield n l r (cur, W)).
Proof.
  intros Hq Hy. unfold unify_yield, mbind, m_unify, on_st, mret. cbn [fst snd].
  pose proof (fun d => unify_at n d l r cur (b_scope y0) (okst_scope _ _ Hy)) as HA.
  destruct (unify n l r cur) as [x st'] eqn:E. cbn [fst snd] in HA.
  assert (HT : trail y0 st').
  { eapply trail_trans; [apply (okst_trail true); exact Hy|]. eapply vtrail_trail, unify_vtrail, E. }
  destruct x as [b|e].
  - cbn. right. split; [apply unchanged_refl|]. destruct b.
    + exists (fun _ nv => TEnd nv). split; [constructor; rewrite Hq; exact HT|]. apply (ev_from n). intro d. unfold candF.
      try rewrite choices_one. destruct (HA (pred d) eq_refl) as [[H1 H2]|[L H1]]; destruct (unify (pred d) _ _ _) as [z st2]; cbn in H1; subst z.
      * left. cbn in H2. now rewrite H2.
      * right. split; [lia|reflexivity].
    + split; [rewrite Hq; exact HT|]. apply (ev_from n). intro d. unfold candF.
      try rewrite choices_one. destruct (HA (pred d) eq_refl) as [[H1 H2]|[L H1]]; destruct (unify (pred d) _ _ _) as [z st2]; cbn in H1; subst z.
      * now left.
      * right. split; [lia|reflexivity].
  - apply post_err; [apply unchanged_refl|]. intro He. apply (ev_from n). intro d. unfold candF.
    try rewrite choices_one. destruct (HA (pred d)) as [[H1 H2]|[L H1]]; [destruct e; cbn; congruence| |]; destruct (unify (pred d) _ _ _) as [z st2]; cbn in H1; subst z.
    + left. now apply terr_other.
    + right. split; [lia|reflexivity].
Qed.

(** ** Collecting *)
Definition cstep (d : nat) (s : scope) (nv : N) (c : collector) : res (collector * N) :=
  match c with
  | CFind pat mm acc =>
      match freeze d pat s (mm, nv) with
      | (Ok t, (m, nv')) => Ok (CFind pat m (t :: acc), nv')
      | (Err e, _) => Err e
      end
  | CCount k => Ok (CCount (k + 1), nv)
  | CSum pat x =>
      rbind (grounded d pat s) (fun v =>
        match v with
        | TNum y => rmap (fun z => (CSum pat z, nv)) (num_op fpow NAdd x y)
        | TBool b => rmap (fun z => (CSum pat z, nv)) (num_op fpow NAdd x (bool_num b))
        | _ => Err EType
        end)
  end.

Lemma collect_one_eq n c cur W : collect_one n c (cur, W) =
  match cstep n (b_scope cur) (w_nv W) c with
  | Ok (c', nv') => (Ok c', (cur, set_nv W nv'))
  | Err e => (Err e, snd (collect_one n c (cur, W)))
  end.
Proof.
  destruct c as [pat mm acc|k|pat x]; cbn [collect_one cstep].
  - unfold mbind, m_freeze. cbn [fst snd]. destruct (freeze n pat (b_scope cur) (mm, w_nv W)) as [[t|e] [m nv']]; reflexivity.
  - unfold mret. now rewrite set_nv_same.
  - unfold mbind, m_grounded. cbn [fst snd]. destruct (grounded n pat (b_scope cur)) as [v|e]; [|reflexivity]. cbn [rbind].
    destruct v; try reflexivity; unfold lift; destruct (num_op _ _ _ _); cbn; unfold mret; try rewrite set_nv_same; reflexivity.
Qed.
Lemma collect_one_un n c cur W : unchanged W (snd (snd (collect_one n c (cur, W)))).
Proof.
  destruct c as [pat mm acc|k|pat x]; cbn [collect_one].
  - unfold mbind, m_freeze. cbn [fst snd]. destruct (freeze n pat (b_scope cur) (mm, w_nv W)) as [[t|e] [m nv']]; apply unchanged_nv.
  - apply unchanged_refl.
  - unfold mbind, m_grounded. cbn [fst snd]. destruct (grounded n pat (b_scope cur)) as [v|e]; [|apply unchanged_refl].
    destruct v; try apply unchanged_refl; unfold lift; destruct (num_op _ _ _ _); apply unchanged_refl.
Qed.

Lemma cstep_mono s nv c d : rle (cstep d s nv c) (cstep (S d) s nv c).
Proof.
  destruct c as [pat mm acc|k|pat x]; cbn [cstep].
  - destruct (freeze_mono d pat s (mm, nv)) as [E|E].
    + destruct (freeze d pat s (mm, nv)) as [y [m k]]. cbn in E. subst y. now left.
    + rewrite E. apply rle_refl.
  - apply rle_refl.
  - apply rle_bind; [apply grounded_mono|intro; apply rle_refl].
Qed.

Definition gev (F : nat -> trace) (c : collector) (r : res (collector * N)) : Prop :=
  exists d0, forall d, gather (cstep d) (F d) c = r \/ (d < d0)%nat /\ gather (cstep d) (F d) c = Err ERecursion.

Definition cpost (x : bool) (y0 : bst) (F : nat -> N -> trace) (c : collector) (W : world) (r : res collector * ST) : Prop :=
  let '(o, (cur', W')) := r in
  cutr o = true \/ unchanged W W' /\
  match o with
  | Err e => gev (fun d => F d (w_nv W)) c (Err e)
  | Ok c' => okst (qt || x) y0 cur' /\ gev (fun d => F d (w_nv W)) c (Ok (c', w_nv W'))
  end.

Definition sound_n (n : nat) : Prop :=
  (forall x y0 g y f F, rep x y0 g y f F -> forall cur W, okst (qt || f) y cur -> unchanged W0 W ->
     post x y0 F W (e_resume (engine n) a i g (cur, W))) /\
  (forall x y0 g y f F c, rep x y0 g y f F -> forall cur W, okst (qt || f) y cur -> unchanged W0 W ->
     cpost x y0 F c W (e_collect (engine n) a i g c (cur, W))).

Lemma collect_sound n : sound_n n ->
  forall x y0 g y f F c, rep x y0 g y f F -> forall cur W, okst (qt || f) y cur -> unchanged W0 W ->
     cpost x y0 F c W (e_collect (engine (S n)) a i g c (cur, W)).
Proof.
  intros [IHr IHc] x y0 g y f F c Hr cur W Hc HW. cbn [engine e_collect]. unfold collect_body, mbind at 1.
  specialize (IHr _ _ _ _ _ _ Hr cur W Hc HW).
  destruct (e_resume (engine n) a i g (cur, W)) as [o [c1 W1]]. cbn in IHr.
  destruct IHr as [H|[HU H]]; [apply cutr_true in H; subst o; now left|].
  destruct o as [[g'|]|e].
  - destruct H as (F' & H1 & H2). unfold mbind. rewrite collect_one_eq. pose proof (collect_one_un n c c1 W1) as HUn.
    pose proof (stab (fun d => cstep d (b_scope c1) (w_nv W1) c) n (cstep_mono (b_scope c1) (w_nv W1) c)) as HS; cbv beta in HS.
    destruct (cstep n (b_scope c1) (w_nv W1) c) as [[c' nv']|e] eqn:Ec.
    + specialize (IHc _ _ _ _ _ _ c' H1 c1 (set_nv W1 nv') (okst_refl _ _)).
      assert (HW1 : unchanged W0 (set_nv W1 nv')).
      { eapply unchanged_trans; [exact HW|]. eapply unchanged_trans; [exact HU|]. apply unchanged_nv. }
      specialize (IHc HW1). destruct (e_collect (engine n) a i g' c' (c1, set_nv W1 nv')) as [o2 [c2 W2]]. cbn in IHc |- *.
      destruct IHc as [H|[HU2 H]]; [now left|]. right.
      split; [eapply unchanged_trans; [exact HU|]; eapply unchanged_trans; [apply (unchanged_nv _ nv')|exact HU2]|].
      destruct H2 as [d1 H2].
      assert (HG : forall r, gev (fun d => F' d nv') c' r -> gev (fun d => F d (w_nv W)) c r).
      { intros r [d2 H3]. exists (Nat.max n (Nat.max d1 d2)). intro d.
        destruct (H2 d) as [H2d|[L H2d]]; [|right; split; [lia|now rewrite H2d]]. rewrite (teq_gather _ _ _ H2d).
        cbn [gather]. destruct (HS eq_refl d) as [E|[L E]]; rewrite E; [|right; split; [lia|reflexivity]].
        destruct (H3 d) as [H3d|[L H3d]]; [now left|right; split; [lia|assumption]]. }
      destruct o2 as [c3|e]; [|now apply HG]. destruct H as [H4 H5]. split; [assumption|now apply HG].
    + destruct (collect_one n c (c1, W1)) as [o2 [c2 W2]]. cbn in HUn |- *.
      destruct (cutr (Err e : res collector)) eqn:Ecut; [left; exact Ecut|right].
      split; [eapply unchanged_trans; eassumption|]. destruct H2 as [d1 H2]. exists (Nat.max n d1). intro d.
      destruct (H2 d) as [H2d|[L H2d]]; [|right; split; [lia|now rewrite H2d]]. rewrite (teq_gather _ _ _ H2d). cbn [gather].
      assert (Hce : cutr (Err e : res (collector * N)) = false) by (destruct e; try discriminate Ecut; reflexivity).
      destruct (HS Hce d) as [E|[L E]]; rewrite E; [now left|right; split; [lia|reflexivity]].
  - cbn. right. split; [assumption|]. destruct H as [H1 [d1 H2]]. split; [assumption|]. exists d1. intro d.
    destruct (H2 d) as [H2d|[L H2d]]; [left; now rewrite (teq_gather _ _ _ H2d)|right; split; [lia|now rewrite H2d]].
  - cbn. destruct (cutr (Err e : res collector)) eqn:Ecut; [left; exact Ecut|right]. split; [assumption|].
    destruct H as [d1 H2]. exists d1. intro d. 
    destruct (H2 d) as [H2d|[L H2d]]; [left; now rewrite (teq_gather _ _ _ H2d)|right; split; [lia|now rewrite H2d]].
Qed.

Lemma gather_find d pat t : forall m acc,
  gather (find_step d pat) t (m, rev acc) =
  match gather (cstep d) t (CFind pat m acc) with
  | Ok (CFind _ m' acc', nv) => Ok ((m', rev acc'), nv)
  | Ok (_, nv) => Err EUnmodelled
  | Err e => Err e
  end.
Proof.
  induction t as [nv|e| |s nv k IH]; intros m acc; try reflexivity.
  cbn [gather cstep]. unfold find_step at 1. cbn [fst snd].
  destruct (freeze d pat s (m, nv)) as [[v|e] [m1 nv']]; [|reflexivity]. change (rev acc ++ [v]) with (rev (v :: acc)). apply IH.
Qed.
Lemma gather_find0 d pat t :
  gather (find_step d pat) t ([], []) =
  match gather (cstep d) t (CFind pat [] []) with
  | Ok (CFind _ m' acc', nv) => Ok ((m', rev acc'), nv)
  | Ok (_, nv) => Err EUnmodelled
  | Err e => Err e
  end.
Proof. exact (gather_find d pat t [] []). Qed.
Lemma gather_count d t : forall k,
  gather (fun _ nv k => Ok ((k + 1)%Z, nv)) t k =
  match gather (cstep d) t (CCount k) with
  | Ok (CCount k', nv) => Ok (k', nv)
  | Ok (_, nv) => Err EUnmodelled
  | Err e => Err e
  end.
Proof.
  induction t as [nv|e| |s nv k IH]; intros z; try reflexivity. cbn [gather cstep]. apply IH.
Qed.
Lemma gather_sum d pat t : forall x,
  gather (sum_step d pat) t x =
  match gather (cstep d) t (CSum pat x) with
  | Ok (CSum _ y, nv) => Ok (y, nv)
  | Ok (_, nv) => Err EUnmodelled
  | Err e => Err e
  end.
Proof.
  induction t as [nv|e| |s nv k IH]; intros x; try reflexivity.
  cbn [gather cstep]. unfold sum_step at 1. destruct (grounded d pat s) as [v|e]; [|reflexivity]. cbn [rbind].
  destruct v; try reflexivity; destruct (num_op _ _ _ _) as [z|]; try reflexivity; cbn [rmap]; apply IH.
Qed.
Lemma gather_kind d t : forall c c' nv, gather (cstep d) t c = Ok (c', nv) ->
  match c, c' with CFind p _ _, CFind p' _ _ => p = p' | CCount _, CCount _ => True | CSum p _, CSum p' _ => p = p' | _, _ => False end.
Proof.
  induction t as [nv|e| |s nv k IH]; intros c c' nv' H; try discriminate H.
  - inversion H; subst. destruct c'; auto.
  - cbn [gather] in H. destruct (cstep d s nv c) as [[c1 nv1]|] eqn:E; [|discriminate H]. specialize (IH _ _ _ _ H).
    destruct c; cbn [cstep] in E.
    + destruct (freeze d pat s (mm, nv)) as [[v|e] [m1 nv2]]; [|discriminate E]. inversion E; subst. exact IH.
    + inversion E; subst. exact IH.
    + destruct (grounded d pat s) as [v|]; [|discriminate E]. cbn [rbind] in E.
      destruct v; try discriminate E; destruct (num_op _ _ _ _) as [z|]; try discriminate E; inversion E; subst; exact IH.
Qed.

(** ** Actions *)
Lemma cut_err {A} e : e <> ERecursion -> @cutr A (Err e) = false.
Proof. destruct e; cbn; congruence. Qed.

Lemma stop_post x y0 F W cur' W' : x = false -> unchanged W W' -> okst true y0 cur' ->
  ev (fun d => F d (w_nv W)) (fun _ => TSol (b_scope y0) (w_nv W') TEnd) -> post x y0 F W (Ok (Some GStop), (cur', W')).
Proof.
  intros -> HU Hy HE. right. split; [assumption|]. exists (fun _ nv => TEnd nv).
  split; [constructor; now apply okst_weaken|]. now rewrite (okst_scope _ _ Hy).
Qed.
Lemma none_post x y0 F W cur' W' : unchanged W W' -> okst true y0 cur' ->
  ev (fun d => F d (w_nv W)) (fun _ => TEnd (w_nv W')) -> post x y0 F W (Ok None, (cur', W')).
Proof. intros HU Hy HE. right. split; [assumption|]. split; [now apply okst_weaken|assumption]. Qed.

Lemma ev_post x y0 F G W r : post x y0 G W r -> ev (fun d => F d (w_nv W)) (fun d => G d (w_nv W)) -> post x y0 F W r.
Proof. intros H HE. eapply post_step; [exact H|apply okst_refl|apply unchanged_refl|exact HE]. Qed.

Section Act.
Variable n : nat.
Hypothesis IH : sound_n n.
Variables (y0 cur : bst) (W : world).
Hypothesis Hy : okst true y0 cur.
Hypothesis HW : unchanged W0 W.
Let s := b_scope y0.

Let Hs : b_scope cur = s. Proof. exact (okst_scope _ _ Hy). Qed.

Definition actF (ac : act) (t : term) (args : list term) (d : nat) (nv : N) : trace :=
  act_sols (pred d) D (sols (pred d) D) ac t args s nv.

Lemma cand_post x cp tgt cands fin st1 : okst true y0 st1 -> (b_ncp y0 <= cp)%N -> (cp < b_ncp st1)%N ->
  post x y0 (candF tgt cands fin s) W (e_resume (engine n) a i (GCand false cp tgt cands fin) (st1, W)).
Proof.
  intros H1 H2 H3. destruct IH as [IHr _].
  apply (IHr x y0 (GCand false cp tgt cands fin) st1 true); [now constructor|apply okst_refl|exact HW].
Qed.

Lemma new_cp_ok : okst true y0 (snd (new_cp cur)) /\ (b_ncp y0 <= b_ncp cur)%N /\ (b_ncp cur < b_ncp (snd (new_cp cur)))%N.
Proof.
  pose proof (okst_ncp _ _ _ Hy) as H. split; [|split; [assumption|cbn; lia]].
  eapply okst_trans; [exact Hy|]. exists (N.succ (b_ncp cur)). split; [lia|reflexivity].
Qed.

Lemma m_new_cp_eq : m_new_cp (cur, W) = (Ok (b_ncp cur), (snd (new_cp cur), W)).
Proof. reflexivity. Qed.

Lemma member_post t x l : post true y0 (actF AMember t [x; l]) W (act_member (engine n) n a i [x; l] (cur, W)).
Proof.
  unfold act_member, mbind. rewrite m_new_cp_eq. unfold m_evaluate. cbn [fst snd arg nth_error]. unfold mret. cbn [fst snd].
  change (b_scope (snd (new_cp cur))) with (b_scope cur). rewrite Hs.
  pose proof (stab (fun k => evaluate k l s) n (fun k => evaluate_mono k l s)) as HS; cbv beta in HS.
  destruct (evaluate n l s) as [v|e] eqn:E.
  - destruct (iter_items v) as [items fin] eqn:Ei. destruct new_cp_ok as (N1 & N2 & N3).
    eapply ev_post; [apply cand_post; eassumption|]. apply (ev_from n). intro d. unfold actF, candF. cbn [act_sols].
    cutcase (HS eq_refl (pred d)). cbn [tres]. now rewrite Ei.
  - apply post_err; [apply unchanged_refl|]. intro He. apply (ev_from n). intro d. unfold actF. cbn [act_sols].
    cutcase (HS (cut_err _ He) (pred d)). cbn [tres]. now apply terr_other.
Qed.

Lemma range_post t m x : post true y0 (actF ARange t [m; x]) W (act_range (engine n) n a i [m; x] (cur, W)).
Proof.
  unfold act_range, mbind. rewrite m_new_cp_eq. unfold m_grounded, lift. cbn [fst snd arg nth_error]. unfold mret. cbn [fst snd].
  change (b_scope (snd (new_cp cur))) with (b_scope cur). rewrite Hs.
  pose proof (stab (fun k => grounded k m s) n (fun k => grounded_mono k m s)) as HS; cbv beta in HS.
  destruct (grounded n m s) as [v|e] eqn:E.
  - destruct (to_int v) as [z|e] eqn:Ez.
    + destruct new_cp_ok as (N1 & N2 & N3).
      eapply ev_post; [apply cand_post; eassumption|]. apply (ev_from n). intro d. unfold actF, candF. cbn [act_sols].
      cutcase (HS eq_refl (pred d)). cbn [tres]. rewrite Ez. cbn [tres]. change 0%Z with (Z.of_nat 0). rewrite zrange_seq, map_map. reflexivity.
    + apply post_err; [apply unchanged_refl|]. intro He. apply (ev_from n). intro d. unfold actF. cbn [act_sols].
      cutcase (HS eq_refl (pred d)). cbn [tres]. rewrite Ez. cbn [tres]. now apply terr_other.
  - apply post_err; [apply unchanged_refl|]. intro He. apply (ev_from n). intro d. unfold actF. cbn [act_sols].
    cutcase (HS (cut_err _ He) (pred d)). cbn [tres]. now apply terr_other.
Qed.

Lemma substring_post t x0 x1 x2 : post true y0 (actF ASubstring t [x0; x1; x2]) W (act_substring (engine n) n a i [x0; x1; x2] (cur, W)).
Proof.
  unfold act_substring, mbind, m_grounded. cbn [fst snd arg nth_error]. unfold mret. cbn [fst snd]. rewrite m_new_cp_eq. cbn [fst]. rewrite ?Hs.
  pose proof (stab (fun k => grounded k x0 s) n (fun k => grounded_mono k x0 s)) as HS0; cbv beta in HS0.
  pose proof (stab (fun k => grounded k x1 s) n (fun k => grounded_mono k x1 s)) as HS1; cbv beta in HS1.
  destruct (grounded n x0 s) as [v0|e] eqn:E0.
  - rewrite ?Hs. destruct (grounded n x1 s) as [v1|e] eqn:E1.
    + destruct new_cp_ok as (N1 & N2 & N3).
      eapply ev_post; [apply cand_post; eassumption|]. apply (ev_from n). intro d. unfold actF, candF. cbn [act_sols].
      destruct (HS0 eq_refl (pred d)) as [Hz0|[Hlt Hz0]]; rewrite Hz0; [|right; split; [lia|reflexivity]]. cbn [tres]. cutcase (HS1 eq_refl (pred d)). reflexivity.
    + apply post_err; [apply unchanged_refl|]. intro He. apply (ev_from n). intro d. unfold actF. cbn [act_sols].
      destruct (HS0 eq_refl (pred d)) as [Hz0|[Hlt Hz0]]; rewrite Hz0; [|right; split; [lia|reflexivity]]. cbn [tres]. cutcase (HS1 (cut_err _ He) (pred d)). now apply terr_other.
  - apply post_err; [apply unchanged_refl|]. intro He. apply (ev_from n). intro d. unfold actF. cbn [act_sols].
    cutcase (HS0 (cut_err _ He) (pred d)). cbn [tres]. now apply terr_other.
Qed.

(** Tests. *)
Lemma print_post t args : post false y0 (actF APrint t args) W (act_print n a args (cur, W)).
Proof.
  unfold act_print, mbind at 1. rewrite m_freezes_eq. rewrite Hs.
  assert (HM : forall k, sle (smapl (fun t => freeze k t s) args ([], w_nv W)) (smapl (fun t => freeze (S k) t s) args ([], w_nv W))).
  { intro k. apply smapl_sle. intros. apply freeze_mono. }
  pose proof (sstab (fun k => smapl (fun t => freeze k t s) args ([], w_nv W)) n HM) as HS'; cbv beta in HS'.
  match goal with |- context[smapl _ args ?x] => change x with (([], w_nv W) : fst_) end.
  destruct (smapl (fun t => freeze n t s) args ([], w_nv W)) as [[vs|e] [m k]] eqn:E.
  - unfold mbind, on_world, mret. cbn [fst snd]. apply stop_post; [reflexivity| |exact Hy|].
    + eapply unchanged_trans; [apply (unchanged_nv _ k)|apply unchanged_out].
    + apply (ev_from n). intro d. unfold actF. cbn [act_sols]. cutcase (HS' eq_refl (pred d)). reflexivity.
  - apply post_err; [apply unchanged_nv|]. intro He. apply (ev_from n). intro d. unfold actF. cbn [act_sols].
    cutcase (HS' (cut_err _ He) (pred d)). cbn [tres]. now apply terr_other.
Qed.

Lemma ground_post t args : post false y0 (actF AGround t args) W
  (mbind (m_is_ground n t) (fun b => mret (if b : bool then Some GStop else None)) (cur, W)).
Proof.
  unfold mbind, m_is_ground, mret. cbn [fst snd]. rewrite Hs.
  pose proof (stab (fun k => is_ground k t s) n (fun k => is_ground_mono k t s)) as HS; cbv beta in HS.
  destruct (is_ground n t s) as [[]|e] eqn:E.
  - apply stop_post; [reflexivity|apply unchanged_refl|exact Hy|].
    apply (ev_from n). intro d. unfold actF. cbn [act_sols]. cutcase (HS eq_refl (pred d)). reflexivity.
  - apply none_post; [apply unchanged_refl|exact Hy|].
    apply (ev_from n). intro d. unfold actF. cbn [act_sols]. cutcase (HS eq_refl (pred d)). reflexivity.
  - apply post_err; [apply unchanged_refl|]. intro He. apply (ev_from n). intro d. unfold actF. cbn [act_sols].
    cutcase (HS (cut_err _ He) (pred d)). cbn [tres]. now apply terr_other.
Qed.

Lemma pred_post t args specs p : (forall f, p <> POpaque f) ->
  post false y0 (actF (APred specs p) t args) W (act_pred n specs p args (cur, W)).
Proof.
  intro Hp. unfold act_pred, mbind, m_zip, m_tick, on_world, lift, mret. cbn [fst snd]. rewrite Hs.
  pose proof (sstab (fun k => zip_specs k specs args s ([], w_nv W)) n (fun k => zip_specs_mono s specs k args ([], w_nv W))) as HS; cbv beta in HS.
  destruct (zip_specs n specs args s ([], w_nv W)) as [[vs|e] [m k]] eqn:E.
  - cbn [fst snd]. rewrite (pr_tick p _ 0 vs Hp).
    assert (HU : unchanged W (set_tick (set_nv W k) (N.succ (w_tick (set_nv W k)))))
      by (eapply unchanged_trans; [apply (unchanged_nv _ k)|apply unchanged_tick]).
    destruct (pr_apply p 0 vs) as [[]|e] eqn:Ep.
    + apply stop_post; [reflexivity|exact HU|exact Hy|].
      apply (ev_from n). intro d. unfold actF. cbn [act_sols]. cutcase (HS eq_refl (pred d)). cbn [tres]. now rewrite Ep.
    + apply none_post; [exact HU|exact Hy|].
      apply (ev_from n). intro d. unfold actF. cbn [act_sols]. cutcase (HS eq_refl (pred d)). cbn [tres]. now rewrite Ep.
    + apply post_err; [exact HU|]. intro He.
      apply (ev_from n). intro d. unfold actF. cbn [act_sols]. cutcase (HS eq_refl (pred d)). cbn [tres]. rewrite Ep. now apply terr_other.
  - apply post_err; [apply unchanged_nv|]. intro He. apply (ev_from n). intro d. unfold actF. cbn [act_sols].
    cutcase (HS (cut_err _ He) (pred d)). cbn [tres]. now apply terr_other.
Qed.

(** Actions that unify their result. *)
Hypothesis Hq : qt = false.

Lemma yield_step F W1 st1 l r : okst true y0 st1 -> unchanged W W1 ->
  ev (fun d => F d (w_nv W)) (fun d => candF l [r] None s d (w_nv W1)) ->
  post false y0 F W (unify_yield n l r (st1, W1)).
Proof.
  intros H1 H2 H3. eapply post_step; [apply (unify_yield_post n y0 l r st1 W1 Hq H1)|apply okst_refl|exact H2|exact H3].
Qed.

Lemma my_name_post t x : post false y0 (actF AMyName t [x]) W
  (unify_yield n x (TLit (a_name (get_agent W a)) [] []) (cur, W)).
Proof.
  apply yield_step; [exact Hy|apply unchanged_refl|]. apply (ev_from n). intro d. left. unfold actF, candF. cbn [act_sols].
  now rewrite (un_name _ _ HW).
Qed.

Lemma concat_post t x args : post false y0 (actF AConcat t (x :: args)) W (act_concat n (x :: args) (cur, W)).
Proof.
  unfold act_concat, mbind at 1. rewrite m_groundeds_eq. cbn [fst]. rewrite Hs.
  assert (HM : forall k, rle (rmapl (fun t => grounded k t s) (removelast (x :: args))) (rmapl (fun t => grounded (S k) t s) (removelast (x :: args)))).
  { intro k. apply rmapl_rle. intros. apply grounded_mono. }
  pose proof (stab (fun k => rmapl (fun t => grounded k t s) (removelast (x :: args))) n HM) as HS; cbv beta in HS.
  destruct (rmapl (fun t => grounded n t s) (removelast (x :: args))) as [vs|e] eqn:E.
  - unfold mbind at 1. destruct (all_tuples vs) as [ts|] eqn:Et.
    + unfold mret, mbind. rewrite last_arg_eq. apply yield_step; [exact Hy|apply unchanged_refl|].
      apply (ev_from n). intro d. unfold actF, candF. cbn [act_sols]. cutcase (HS eq_refl (pred d)). cbn [tres]. rewrite Et. reflexivity.
    + unfold lift, mbind, mret. destruct (rmapl py_str vs) as [ss|e] eqn:Es.
      * rewrite last_arg_eq. apply yield_step; [exact Hy|apply unchanged_refl|].
        apply (ev_from n). intro d. unfold actF, candF. cbn [act_sols]. cutcase (HS eq_refl (pred d)). cbn [tres]. rewrite Et, Es. reflexivity.
      * apply post_err; [apply unchanged_refl|]. intro He.
        apply (ev_from n). intro d. unfold actF, candF. cbn [act_sols]. cutcase (HS eq_refl (pred d)). cbn [tres]. rewrite Et, Es. now apply terr_other.
  - apply post_err; [apply unchanged_refl|]. intro He. apply (ev_from n). intro d. unfold actF. cbn [act_sols].
    cutcase (HS (cut_err _ He) (pred d)). cbn [tres]. now apply terr_other.
Qed.

Lemma fun_post t specs f x args : (forall p, f <> FOpaque p) ->
  post false y0 (actF (AFun specs f) t (x :: args)) W (act_fun n specs f (x :: args) (cur, W)).
Proof.
  intro Hf. unfold act_fun, mbind, m_zip, m_tick, on_world, lift. cbn [fst snd]. rewrite Hs.
  pose proof (sstab (fun k => zip_specs k specs (x :: args) s ([], w_nv W)) n (fun k => zip_specs_mono s specs k (x :: args) ([], w_nv W))) as HS; cbv beta in HS.
  destruct (zip_specs n specs (x :: args) s ([], w_nv W)) as [[vs|e] [m k]] eqn:E.
  - cbn [fst snd]. rewrite (fn_tick f _ 0 vs Hf).
    assert (HU : unchanged W (set_tick (set_nv W k) (N.succ (w_tick (set_nv W k)))))
      by (eapply unchanged_trans; [apply (unchanged_nv _ k)|apply unchanged_tick]).
    destruct (fn_apply f 0 vs) as [v|e] eqn:Ep.
    + rewrite last_arg_eq. apply yield_step; [exact Hy|exact HU|].
      apply (ev_from n). intro d. unfold actF. cbn [act_sols]. cutcase (HS eq_refl (pred d)). cbn [tres]. rewrite Ep. reflexivity.
    + apply post_err; [exact HU|]. intro He.
      apply (ev_from n). intro d. unfold actF. cbn [act_sols]. cutcase (HS eq_refl (pred d)). cbn [tres]. rewrite Ep. now apply terr_other.
  - apply post_err; [apply unchanged_nv|]. intro He. apply (ev_from n). intro d. unfold actF. cbn [act_sols].
    cutcase (HS (cut_err _ He) (pred d)). cbn [tres]. now apply terr_other.
Qed.

(** The inner loop. *)
Lemma inner_collect goal c st1 : okst true y0 st1 ->
  cpost (is_literal goal) st1 (fun d nv => sols d D (QTerm goal) s nv) c W
        (e_collect (engine n) a i (GQ (QTerm goal)) c (st1, W)).
Proof.
  intro H1. destruct IH as [_ IHc].
  pose proof (IHc (is_literal goal) st1 (GQ (QTerm goal)) st1 true _ c (r_q st1 st1 (QTerm goal) eq_refl (okst_refl _ _)) st1 W (okst_refl _ _) HW) as H.
  unfold s. rewrite <- (okst_scope _ _ H1). exact H.
Qed.

Lemma findall_post t pat goal x : is_literal goal = true ->
  post false y0 (actF AFindall t [pat; goal; x]) W (act_findall (engine n) n a i [pat; goal; x] (cur, W)).
Proof.
  intro Hg. unfold act_findall, mbind, m_evaluate. cbn [fst snd arg nth_error]. unfold mret. cbn [fst snd]. rewrite Hs.
  pose proof (stab (fun k => evaluate k pat s) n (fun k => evaluate_mono k pat s)) as HS; cbv beta in HS.
  destruct (evaluate n pat s) as [p|e] eqn:E.
  - pose proof (inner_collect goal (CFind p [] []) cur Hy) as HC.
    destruct (e_collect (engine n) a i (GQ (QTerm goal)) (CFind p [] []) (cur, W)) as [o [c1 W1]]. cbn in HC.
    destruct HC as [H|[HU H]]; [apply cutr_true in H; subst o; now left|].
    destruct o as [c'|e].
    + destruct H as [H1 [d1 H2]]. rewrite Hg, orb_true_r in H1.
      assert (Hk1 : exists d, gather (cstep d) (sols d D (QTerm goal) s (w_nv W)) (CFind p [] []) = Ok (c', w_nv W1))
      by (exists d1; destruct (H2 d1) as [H2d|[Hlt _]]; [exact H2d|lia]).
      destruct Hk1 as [dk Hk1]. pose proof (gather_kind dk _ _ _ _ Hk1) as HK. destruct c' as [p' mm acc| |]; try contradiction HK.
      apply yield_step; [eapply okst_trans; eassumption|exact HU|].
      apply (ev_from (Nat.max n d1)). intro d. unfold actF, candF. cbn [act_sols].
      destruct (HS eq_refl (pred d)) as [Hz|[Hlt Hz]]; rewrite Hz; [|right; split; [lia|reflexivity]]. cbn [tres].
      rewrite gather_find0. destruct (H2 (pred d)) as [H2d|[Hlt H2d]]; rewrite H2d; [left|right; split; [lia|reflexivity]]. reflexivity.
    + apply post_err; [exact HU|]. intro He. destruct H as [d1 H2].
      apply (ev_from (Nat.max n d1)). intro d. unfold actF, candF. cbn [act_sols].
      destruct (HS eq_refl (pred d)) as [Hz|[Hlt Hz]]; rewrite Hz; [|right; split; [lia|reflexivity]]. cbn [tres].
      rewrite gather_find0. destruct (H2 (pred d)) as [H2d|[Hlt H2d]]; rewrite H2d; [left|right; split; [lia|reflexivity]]. now apply terr_other.
  - apply post_err; [apply unchanged_refl|]. intro He. apply (ev_from n). intro d. unfold actF. cbn [act_sols].
    cutcase (HS (cut_err _ He) (pred d)). cbn [tres]. now apply terr_other.
Qed.

Lemma sum_post t pat goal x : is_literal goal = true ->
  post false y0 (actF ASum t [pat; goal; x]) W (act_sum (engine n) n a i [pat; goal; x] (cur, W)).
Proof.
  intro Hg. unfold act_sum, mbind, m_evaluate. cbn [fst snd arg nth_error]. unfold mret. cbn [fst snd]. rewrite Hs.
  pose proof (stab (fun k => evaluate k pat s) n (fun k => evaluate_mono k pat s)) as HS; cbv beta in HS.
  destruct (evaluate n pat s) as [p|e] eqn:E.
  - pose proof (inner_collect goal (CSum p (NInt 0)) cur Hy) as HC.
    destruct (e_collect (engine n) a i (GQ (QTerm goal)) (CSum p (NInt 0)) (cur, W)) as [o [c1 W1]]. cbn in HC.
    destruct HC as [H|[HU H]]; [apply cutr_true in H; subst o; now left|].
    destruct o as [c'|e].
    + destruct H as [H1 [d1 H2]]. rewrite Hg, orb_true_r in H1.
      assert (Hk1 : exists d, gather (cstep d) (sols d D (QTerm goal) s (w_nv W)) (CSum p (NInt 0)) = Ok (c', w_nv W1))
      by (exists d1; destruct (H2 d1) as [H2d|[Hlt _]]; [exact H2d|lia]).
      destruct Hk1 as [dk Hk1]. pose proof (gather_kind dk _ _ _ _ Hk1) as HK. destruct c' as [| |p' tot]; try contradiction HK.
      apply yield_step; [eapply okst_trans; eassumption|exact HU|].
      apply (ev_from (Nat.max n d1)). intro d. unfold actF, candF. cbn [act_sols].
      destruct (HS eq_refl (pred d)) as [Hz|[Hlt Hz]]; rewrite Hz; [|right; split; [lia|reflexivity]]. cbn [tres].
      rewrite gather_sum. destruct (H2 (pred d)) as [H2d|[Hlt H2d]]; rewrite H2d; [left|right; split; [lia|reflexivity]]. reflexivity.
    + apply post_err; [exact HU|]. intro He. destruct H as [d1 H2].
      apply (ev_from (Nat.max n d1)). intro d. unfold actF, candF. cbn [act_sols].
      destruct (HS eq_refl (pred d)) as [Hz|[Hlt Hz]]; rewrite Hz; [|right; split; [lia|reflexivity]]. cbn [tres].
      rewrite gather_sum. destruct (H2 (pred d)) as [H2d|[Hlt H2d]]; rewrite H2d; [left|right; split; [lia|reflexivity]]. now apply terr_other.
  - apply post_err; [apply unchanged_refl|]. intro He. apply (ev_from n). intro d. unfold actF. cbn [act_sols].
    cutcase (HS (cut_err _ He) (pred d)). cbn [tres]. now apply terr_other.
Qed.

Lemma count_post t goal x :
  post false y0 (actF ACount t [goal; x]) W (act_count (engine n) n a i [goal; x] (cur, W)).
Proof.
  unfold act_count, mbind, m_new_cp, m_push_cp, m_reroll, on_st. cbn [fst snd arg nth_error new_cp]. unfold mret. cbn [fst snd].
  set (st1 := push_cp (b_ncp cur) {| b_scope := b_scope cur; b_stack := b_stack cur; b_ncp := N.succ (b_ncp cur) |}).
  destruct IH as [_ IHc].
  pose proof (IHc (is_literal goal) st1 (GQ (QTerm goal)) st1 true _ (CCount 0) (r_q st1 st1 (QTerm goal) eq_refl (okst_refl _ _)) st1 W (okst_refl _ _) HW) as HC.
  destruct (e_collect (engine n) a i (GQ (QTerm goal)) (CCount 0) (st1, W)) as [o [c1 W1]]. cbn [cpost] in HC.
  change (b_scope st1) with (b_scope cur) in HC. rewrite Hs in HC.
  destruct HC as [H|[HU H]]; [apply cutr_true in H; subst o; now left|].
  destruct o as [c'|e].
  - destruct H as [H1 [d1 H2]].
    assert (Hk1 : exists d, gather (cstep d) (sols d D (QTerm goal) s (w_nv W)) (CCount 0) = Ok (c', w_nv W1))
      by (exists d1; destruct (H2 d1) as [H2d|[Hlt _]]; [exact H2d|lia]).
      destruct Hk1 as [dk Hk1]. pose proof (gather_kind dk _ _ _ _ Hk1) as HK. destruct c' as [|k|]; try contradiction HK.
    cbn [fst snd]. apply yield_step; [|exact HU|].
    + eapply okst_trans; [exact Hy|]. apply mark_reroll. eapply mark_trail; [apply mark_new|]. exact (okst_trail _ _ _ H1).
    + apply (ev_from d1). intro d. unfold actF, candF. cbn [act_sols].
      rewrite (gather_count (pred d)). destruct (H2 (pred d)) as [H2d|[Hlt H2d]]; rewrite H2d; [left|right; split; [lia|reflexivity]]. reflexivity.
  - apply post_err; [exact HU|]. intro He. destruct H as [d1 H2].
    apply (ev_from d1). intro d. unfold actF, candF. cbn [act_sols].
      rewrite (gather_count (pred d)). destruct (H2 (pred d)) as [H2d|[Hlt H2d]]; rewrite H2d; [left|right; split; [lia|reflexivity]]. now apply terr_other.
Qed.

End Act.

Lemma act_sound n : sound_n n -> forall ac t y0 cur W, proper qt (QAct ac t) = true -> okst true y0 cur -> unchanged W0 W ->
  post (tidy_act ac (act_args t)) y0 (fun d nv => sols d D (QAct ac t) (b_scope y0) nv) W (start_act (engine n) n a i ac t (cur, W)).
Proof.
  intros IH ac t y0 cur W Hp Hy HW. cbn [proper] in Hp. apply andb_true_iff in Hp as [Hl Hp].
  destruct t as [| | | | | | |f args annots| |]; try discriminate Hl. cbn [act_args] in *.
  set (t := TLit f args annots).
  eapply ev_post with (G := actF y0 ac t args).
  2:{ apply ev_step; reflexivity. }
  unfold start_act, mbind at 1. unfold lift at 1. cbn [lit_args t].
  apply orb_true_iff in Hp as [Hp|Hp]; [apply orb_true_iff in Hp as [Hp|Hp]|].
  - (* tidy *)
    rewrite Hp. destruct ac; try discriminate Hp; cbn in Hp.
    + apply none_post; [apply unchanged_refl|exact Hy|]. apply (ev_from 0). left. reflexivity.
    + destruct args as [|x0 [|x1 [|x2 [|]]]]; try discriminate Hp. now apply substring_post.
    + destruct args as [|x0 [|x1 [|]]]; try discriminate Hp. now apply member_post.
    + destruct args as [|x0 [|x1 [|]]]; try discriminate Hp. now apply range_post.
  - (* tests *)
    assert (Ht : tidy_act ac args = false) by (destruct ac; try discriminate Hp; reflexivity). rewrite Ht.
    destruct ac; try discriminate Hp.
    + now apply print_post.
    + now apply ground_post.
    + apply stop_post; [reflexivity|apply unchanged_refl|exact Hy|]. apply (ev_from 0). left. reflexivity.
    + apply stop_post; [reflexivity|apply unchanged_refl|exact Hy|]. apply (ev_from 0). left. reflexivity.
    + apply pred_post; [assumption|]. intros g ->. discriminate Hp.
  - (* leaky *)
    apply andb_true_iff in Hp as [Hq Hp]. apply negb_true_iff in Hq.
    assert (Ht : tidy_act ac args = false) by (destruct ac; try discriminate Hp; reflexivity). rewrite Ht.
    destruct ac; try discriminate Hp; cbn in Hp.
    + destruct args as [|x0 [|]]; try discriminate Hp. unfold mbind, m_world. cbn [arg nth_error fst snd]. unfold mret. now apply my_name_post.
    + destruct args as [|x0 args]; try discriminate Hp. now apply concat_post.
    + destruct args as [|x0 [|x1 [|x2 [|]]]]; try discriminate Hp. now apply findall_post.
    + destruct args as [|x0 [|x1 [|]]]; try discriminate Hp. now apply count_post.
    + destruct args as [|x0 [|x1 [|x2 [|]]]]; try discriminate Hp. now apply sum_post.
    + destruct args as [|x0 args]; [match goal with H : fn |- _ => destruct H; discriminate Hp end|]. apply fun_post; try assumption. intros p ->. discriminate Hp.
Qed.

(** ** Queries *)
Lemma db_bel g W : unchanged W0 W -> beliefs a g W = d_bel D g.
Proof. intro H. apply (un_bel _ _ H). Qed.
Lemma db_rules g W : unchanged W0 W -> rules_of a g W = d_rules D g.
Proof. intro H. cbn. unfold rules_of. now rewrite (un_rules _ _ H). Qed.

Lemma uann_at n d l r cur s : b_scope cur = s -> cutr (fst (uann n l r cur)) = false ->
  same_u (uann d l r (mkbst s [] 0)) (uann n l r cur) \/
  (d < n)%nat /\ fst (uann d l r (mkbst s [] 0)) = Err ERecursion.
Proof.
  intros Hs Hc. assert (F := uann_frame n l r (mkbst s [] 0) cur (eq_sym Hs)). 
  assert (Hc2 : cutr (fst (uann n l r (mkbst s [] 0))) = false).
  { destruct F as [F _]. destruct (fst (uann n l r (mkbst s [] 0))) as [[|]|], (fst (uann n l r cur)) as [[|]|]; try contradiction F; auto. now subst. }
  destruct (sstab (fun k => uann k l r (mkbst s [] 0)) n (fun k => uann_mono k l r _) Hc2 d) as [E|[L [m E]]].
  - rewrite E. now left.
  - rewrite E. now right.
Qed.

Lemma ev_err_append F G e : ev F (fun _ => TErr e) -> ev (fun d => append (F d) (G d)) (fun _ => TErr e).
Proof. intro H. exact (ev_append_l F (fun _ => TErr e) G H). Qed.
Lemma ev_end_append F G nv : ev F (fun _ => TEnd nv) -> ev (fun d => append (F d) (G d)) (fun d => G d nv).
Proof. intro H. exact (ev_append_l F (fun _ => TEnd nv) G H). Qed.
Lemma ev_sol_append F G s nv (F' : nat -> N -> trace) : ev F (fun d => TSol s nv (F' d)) ->
  ev (fun d => append (F d) (G d)) (fun d => TSol s nv (fun nv' => append (F' d nv') (G d))).
Proof. intro H. exact (ev_append_l F (fun d => TSol s nv (F' d)) G H). Qed.

Lemma resume_sound n : sound_n n ->
  forall x y0 g y f F, rep x y0 g y f F -> forall cur W, okst (qt || f) y cur -> unchanged W0 W ->
     post x y0 F W (e_resume (engine (S n)) a i g (cur, W)).
Proof.
  intros IH. pose proof IH as [IHr _].
  intros x y0 g y f F Hr. cbn [engine e_resume].
  destruct Hr as [y0 y q Hp Hy|y0 y Hy|x y0 y cp Hm|x y0 y cp t ref ver sz rest Hm Hv Hrest|x y0 y t ref ver sz rest Hy Hv Hrest
    |x y0 y cp t rest Hy Hc1 Hc2 Hrest|x y0 y cp t rest xs y1 sub f Fs Hm Hsub Hrest|x y0 y gl r f Fl Hl Hp
    |x y0 y gl gr r f Fl y1 xr Fr Hl Hgr Hp|xg y0 y g q f Fg Hg Hx Hp|x y0 y g f F Hg|x y0 y cp t cs fin Hm|x y0 y cp t cs fin Hy Hc1 Hc2];
    intros cur W Hc HW; cbn [resume_body].
  - (* GQ *)
    rewrite orb_true_r in Hc. assert (Hcy : okst true y0 cur) by (eapply okst_trans; eassumption).
    assert (Hs : b_scope cur = b_scope y0) by now apply okst_scope.
    destruct q as [| |ac t|t|l r|l r|q|l r].
    + apply stop_post; [reflexivity|apply unchanged_refl|exact Hcy|]. apply ev_step; reflexivity.
    + apply none_post; [apply unchanged_refl|exact Hcy|]. apply ev_step; reflexivity.
    + apply act_sound; assumption.
    + unfold mbind at 1. unfold m_evaluate. cbn [fst snd]. rewrite Hs.
      pose proof (stab (fun k => evaluate k t (b_scope y0)) n (fun k => evaluate_mono k t (b_scope y0))) as HS; cbv beta in HS.
      destruct (evaluate n t (b_scope y0)) as [v|e] eqn:E.
      2:{ apply post_err; [apply unchanged_refl|]. intro He. apply (ev_from n). intros [|d]; [right; split; [lia|reflexivity]|]. cbn [sols].
          cutcase (HS (cut_err _ He) d). now apply terr_other. }
      assert (HF : forall (P : nat -> trace), (forall d,
           match v with TBool true => one (b_scope y0) (w_nv W) | TBool false => TEnd (w_nv W)
           | TLit f args _ => belF v (d_bel D (f, List.length args)) (b_scope y0) (S d) (w_nv W) | _ => TErr (fmt_exc v) end = P (S d)) ->
           ev (fun d => sols d D (QTerm t) (b_scope y0) (w_nv W)) P).
      { intros P HP. apply (ev_from n). intros [|d]; [right; split; [lia|reflexivity]|]. cbn [sols]. cutcase (HS eq_refl d). cbn [tres]. rewrite <- (HP d). now destruct v. }
      assert (Hlt : match v with TLit _ _ _ => True | _ => is_literal t = false end).
      { destruct t; try (destruct v; exact I || reflexivity). destruct n; [discriminate E|]. rewrite evaluate_S in E. inversion E. exact I. }
      destruct v as [[]| | | | | | |f args annots| |].
      2: apply none_post; [apply unchanged_refl|exact Hcy|apply HF; reflexivity].
      1: apply stop_post; [exact Hlt|apply unchanged_refl|exact Hcy|apply HF; reflexivity].
      all: try (apply post_err; [apply unchanged_refl|]; intros _; apply HF; reflexivity).
      unfold mbind, on_world, m_world. cbn [fst snd].
      destruct (bel_ref a (f, List.length args) W) as [r W1] eqn:Eb. cbn [fst snd].
      destruct (bel_ref_spec _ _ _ _ _ Eb) as (HU & HE & HN). rewrite HE, (db_bel _ _ HW).
      assert (HW1 : unchanged W0 W1) by (eapply unchanged_trans; eassumption).
      eapply post_step; [eapply (IHr _ y0 _ cur true); [apply (r_bel0 _ y0 cur (TLit f args annots) r)|apply okst_refl|exact HW1]|apply okst_refl|exact HU|].
      * exact Hcy.
      * now rewrite (un_sets _ _ HW1).
      * apply (proj1 (HD _)).
      * rewrite HN. apply HF. reflexivity.
    + eapply ev_post; [apply (IHr (restoring l) y0 _ cur true); [eapply r_and0; [apply (r_q y0 cur l); [|exact Hcy]|]|apply okst_refl|exact HW]|].
      * cbn in Hp. now apply andb_true_iff in Hp.
      * cbn in Hp. now apply andb_true_iff in Hp.
      * apply ev_step; reflexivity.
    + cbn in Hp. apply andb_true_iff in Hp as [Hp Hx]. apply andb_true_iff in Hp as [Hp1 Hp2].
      eapply ev_post; [apply (IHr (restoring r) y0 _ cur true); [eapply r_or1; [apply (r_q y0 cur l); [exact Hp1|exact Hcy]|exact Hx|exact Hp2]|apply okst_refl|exact HW]|].
      apply ev_step; reflexivity.
    + unfold mbind at 1. unfold m_new_cp, on_st. cbn [fst snd new_cp]. unfold mbind at 1. unfold m_push_cp, on_st. cbn [fst snd].
      set (st1 := push_cp (b_ncp cur) {| b_scope := b_scope cur; b_stack := b_stack cur; b_ncp := N.succ (b_ncp cur) |}).
      assert (HM : mark (b_ncp cur) cur st1) by apply mark_new.
      unfold mbind. pose proof (IHr _ st1 (GQ q) st1 true _ (r_q st1 st1 q Hp (okst_refl _ _)) st1 W (okst_refl _ _) HW) as H.
      destruct (e_resume (engine n) a i (GQ q) (st1, W)) as [o [c1 W1]]. cbn [post] in H.
      change (b_scope st1) with (b_scope cur) in H. rewrite Hs in H.
      destruct H as [H|[HU H]]; [apply cutr_true in H; subst o; now left|].
      destruct o as [[g'|]|e].
      * destruct H as (F' & H1 & [d0 H2]). unfold m_reroll, on_st, mret. cbn [fst snd]. apply none_post; [exact HU| |].
        -- eapply okst_trans; [exact Hcy|]. apply mark_reroll. eapply mark_trail; [exact HM|]. now apply rep_trail in H1.
        -- apply (ev_from d0). intros [|d]; [right; split; [lia|reflexivity]|]. cbn [sols].
           destruct (H2 d) as [H2d|[Hlt H2d]]; [left; inversion H2d; reflexivity|right; split; [lia|now rewrite H2d]].
      * destruct H as (H1 & [d0 H2]). unfold m_reroll, on_st, mret. cbn [fst snd]. apply stop_post; [reflexivity|exact HU| |].
        -- eapply okst_trans; [exact Hcy|]. apply mark_reroll. eapply mark_trail; [exact HM|]. now apply okst_trail in H1.
        -- apply (ev_from d0). intros [|d]; [right; split; [lia|reflexivity]|]. cbn [sols].
           destruct (H2 d) as [H2d|[Hlt H2d]]; [left; inversion H2d; reflexivity|right; split; [lia|now rewrite H2d]].
      * apply post_err; [exact HU|]. intros _. destruct H as [d0 H2]. apply (ev_from d0). intros [|d]; [right; split; [lia|reflexivity]|]. cbn [sols].
           destruct (H2 d) as [H2d|[Hlt H2d]]; [left; inversion H2d; reflexivity|right; split; [lia|now rewrite H2d]].
    + unfold mbind, m_uann, on_st. cbn [fst snd].
      pose proof (fun d => uann_at n d l r cur (b_scope y0) Hs) as HA.
      pose proof (fun cp st1 => uann_mark n l r cur cp st1 (safe_eq_mark l r (b_scope cur) Hp)) as HK.
      pose proof (uann_none_exact n l r cur) as HN. pose proof (uann_trail n l r cur) as HT.
      destruct (uann n l r cur) as [[[cp|]|e] st1] eqn:E; unfold mret.
      * right. split; [apply unchanged_refl|]. exists (fun _ nv => TEnd nv). split.
        -- constructor. eapply mark_base; [exact Hcy|]. now apply HK.
        -- apply (ev_from n). intros [|d]; [right; split; [lia|reflexivity]|]. cbn [sols matches]. destruct (HA d eq_refl) as [[H1 H2]|[Hlt Hz]];
             [left|right; split; [lia|]; destruct (uann d l r _) as [z0 st0]; cbn in Hz; subst z0; reflexivity].
           destruct (uann d l r _) as [[[|]|] st2]; cbn in H1, H2; try contradiction H1. now rewrite H2.
      * apply none_post; [apply unchanged_refl| |].
        -- eapply okst_trans; [exact Hcy|]. destruct (HN _ eq_refl) as [H1 H2]. destruct (HT _ _ eq_refl) as [H3 _].
           apply trail_ncp in H3. exists (b_ncp st1). split; [assumption|]. unfold bump. rewrite <- H1, <- H2. now destruct st1.
        -- apply (ev_from n). intros [|d]; [right; split; [lia|reflexivity]|]. cbn [sols matches]. destruct (HA d eq_refl) as [[H1 H2]|[Hlt Hz]];
             [left|right; split; [lia|]; destruct (uann d l r _) as [z0 st0]; cbn in Hz; subst z0; reflexivity].
           destruct (uann d l r _) as [[[|]|] st2]; cbn in H1, H2; try contradiction H1. reflexivity.
      * apply post_err; [apply unchanged_refl|]. intro He. apply (ev_from n). intros [|d]; [right; split; [lia|reflexivity]|]. cbn [sols matches].
        destruct (HA d (cut_err _ He)) as [[H1 H2]|[Hlt Hz]];
             [left|right; split; [lia|]; destruct (uann d l r _) as [z0 st0]; cbn in Hz; subst z0; reflexivity].
        destruct (uann d l r _) as [[[|]|] st2]; cbn in H1, H2; try contradiction H1. subst. now apply terr_other.
  - (* GStop *)
    rewrite orb_false_r in Hc. right. split; [apply unchanged_refl|]. split; [|apply ev_refl].
    rewrite orb_false_r. eapply okst_trans; eassumption.
  - (* GAnn *)
    rewrite orb_false_r in Hc. unfold mbind, m_reroll, on_st, mret. cbn [fst snd]. apply none_post; [apply unchanged_refl| |apply ev_refl].
    apply mark_reroll. eapply mark_trail; [exact Hm|]. now apply okst_trail in Hc.
  - (* GBel Some *)
    unfold mbind, m_reroll, on_st. cbn [fst snd].
    assert (Hk : okst true y0 (reroll cur cp)) by (apply mark_reroll; eapply mark_trail; [exact Hm|]; now apply okst_trail in Hc).
    apply (IHr x y0 _ (reroll cur cp) true); [|apply okst_refl|exact HW]. now constructor.
  - (* GBel None *)
    rewrite orb_true_r in Hc. assert (Hcy : okst true y0 cur) by (eapply okst_trans; eassumption).
    assert (Hs : b_scope cur = b_scope y0) by now apply okst_scope.
    unfold mbind at 1. unfold m_world. cbn [fst snd]. unfold mbind at 1. unfold lift, iter_check.
    rewrite (un_sets _ _ HW), <- Hv, N.eqb_refl.
    destruct rest as [|b rest].
    + unfold mbind, m_new_cp, on_st. cbn [fst snd new_cp]. rewrite (db_rules _ _ HW).
      assert (Hst : okst true y0 {| b_scope := b_scope cur; b_stack := b_stack cur; b_ncp := N.succ (b_ncp cur) |}).
      { eapply okst_trans; [exact Hcy|]. exists (N.succ (b_ncp cur)). split; [lia|reflexivity]. }
      eapply ev_post; [eapply (IHr x y0 _ _ true); [eapply r_rule0; [exact Hst| | |]|apply okst_refl|exact HW]|].
      * apply okst_ncp in Hcy. exact Hcy.
      * cbn. lia.
      * apply (proj2 (HD _)).
      * apply ev_refl.
    + unfold mbind, m_uann, on_st. cbn [fst snd].
      inversion Hrest as [|? ? Hb Hrest' X]; subst.
      pose proof (fun d => uann_at n d t b cur (b_scope y0) Hs) as HA.
      pose proof (fun cp st1 => uann_mark n t b cur cp st1 (literal_mark t b (b_scope cur) Hb)) as HK.
      pose proof (uann_none_exact n t b cur) as HN. pose proof (uann_trail n t b cur) as HT.
      destruct (uann n t b cur) as [[[cp|]|e] st1] eqn:E; unfold mret.
      * right. split; [apply unchanged_refl|]. exists (belF t rest (b_scope y0)). split.
        -- constructor; [|reflexivity|assumption]. eapply mark_base; [exact Hcy|]. now apply HK.
        -- apply (ev_from n). intro d. unfold belF. cbn [matches]. destruct (HA (pred d) eq_refl) as [[H1 H2]|[Hlt Hz]];
          [left|right; split; [lia|]; destruct (uann (pred d) t b _) as [z0 st0]; cbn in Hz; subst z0; reflexivity].
           destruct (uann (pred d) t b _) as [[[|]|] st2]; cbn in H1, H2; try contradiction H1. rewrite H2. reflexivity.
      * assert (Hst : okst true y0 st1).
        { eapply okst_trans; [exact Hcy|]. destruct (HN _ eq_refl) as [H1 H2]. destruct (HT _ _ eq_refl) as [H3 _].
           apply trail_ncp in H3. exists (b_ncp st1). split; [assumption|]. unfold bump. rewrite <- H1, <- H2. now destruct st1. }
        eapply ev_post; [apply (IHr x y0 _ st1 true); [eapply r_bel0; [exact Hst|reflexivity|exact Hrest']|apply okst_refl|exact HW]|].
        apply (ev_from n). intro d. unfold belF. cbn [matches]. destruct (HA (pred d) eq_refl) as [[H1 H2]|[Hlt Hz]];
          [left|right; split; [lia|]; destruct (uann (pred d) t b _) as [z0 st0]; cbn in Hz; subst z0; reflexivity].
        destruct (uann (pred d) t b _) as [[[|]|] st2]; cbn in H1, H2; try contradiction H1. reflexivity.
      * apply post_err; [apply unchanged_refl|]. intro He. apply (ev_from n). intro d. unfold belF. cbn [matches].
        destruct (HA (pred d) (cut_err _ He)) as [[H1 H2]|[Hlt Hz]];
          [left|right; split; [lia|]; destruct (uann (pred d) t b _) as [z0 st0]; cbn in Hz; subst z0; reflexivity].
        destruct (uann (pred d) t b _) as [[[|]|] st2]; cbn in H1, H2; try contradiction H1. subst. rewrite terr_other by assumption. reflexivity.
  - (* GRule None *)
    rewrite orb_true_r in Hc. assert (Hcy : okst true y0 cur) by (eapply okst_trans; eassumption).
    assert (Hs : b_scope cur = b_scope y0) by now apply okst_scope.
    assert (Hc3 : (cp < b_ncp cur)%N) by (apply okst_ncp in Hc; lia).
    destruct rest as [|r rest]; [apply none_post; [apply unchanged_refl|exact Hcy|apply ev_refl]|].
    inversion Hrest as [|? ? Hb Hrest' X]; subst.
    unfold mbind, on_world, m_push_cp, m_unify, on_st. cbn [fst snd].
    destruct (copy_rule r (w_nv W)) as [c k] eqn:Ek. cbn [fst snd].
    pose proof (fun d => unify_at n d t (r_head c) (push_cp cp cur) (b_scope y0) Hs) as HA.
    pose proof (unify_vtrail n t (r_head c) (push_cp cp cur)) as HT.
    assert (HU : unchanged W (set_nv W k)) by apply unchanged_nv.
    assert (HW1 : unchanged W0 (set_nv W k)) by (eapply unchanged_trans; eassumption).
    destruct (unify n t (r_head c) (push_cp cp cur)) as [[[]|e] st1] eqn:E.
    + assert (Hm : mark cp y0 st1) by (eapply mark_trail; [apply mark_push; eassumption|]; eapply vtrail_trail, HT; reflexivity).
      eapply post_step; [apply (IHr x y0 _ st1 true); [eapply r_rule1; [exact Hm|apply r_q; [|apply okst_refl]|exact Hrest']|apply okst_refl|exact HW1]|apply okst_refl|exact HU|].
      * rewrite (proper_copy _ _ _ _ _ Ek). exact Hb.
      * apply (ev_from n). intro d. unfold clF. cbn [clauses]. rewrite Ek. destruct (HA (pred d) eq_refl) as [[H1 H2]|[Hlt Hz]];
          [left|right; split; [lia|]; destruct (unify (pred d) t (r_head c) _) as [z0 st0]; cbn in Hz; subst z0; reflexivity].
        destruct (unify (pred d) t (r_head c) _) as [z st2]. cbn in H1, H2. subst z. rewrite H2. reflexivity.
    + assert (Hk : okst true y0 (reroll st1 cp)).
      { apply mark_reroll. eapply mark_trail; [apply mark_push; eassumption|]. eapply vtrail_trail, HT; reflexivity. }
      unfold m_reroll, on_st. cbn [fst snd].
      eapply post_step; [apply (IHr x y0 _ (reroll st1 cp) true); [eapply r_rule0; [exact Hk|exact Hc1| |exact Hrest']|apply okst_refl|exact HW1]|apply okst_refl|exact HU|].
      * assert (E2 : b_ncp (reroll st1 cp) = b_ncp st1) by (unfold reroll; now destruct (reroll_loop _ _ _)).
        rewrite E2. specialize (HT _ _ eq_refl). apply vtrail_trail, trail_ncp in HT. cbn in HT. lia.
      * apply (ev_from n). intro d. unfold clF. cbn [clauses]. rewrite Ek. destruct (HA (pred d) eq_refl) as [[H1 H2]|[Hlt Hz]];
          [left|right; split; [lia|]; destruct (unify (pred d) t (r_head c) _) as [z0 st0]; cbn in Hz; subst z0; reflexivity].
        destruct (unify (pred d) t (r_head c) _) as [z st2]. cbn in H1, H2. subst z. reflexivity.
    + apply post_err; [exact HU|]. intro He. apply (ev_from n). intro d. unfold clF. cbn [clauses]. rewrite Ek.
      destruct (HA (pred d) (cut_err _ He)) as [[H1 H2]|[Hlt Hz]];
          [left|right; split; [lia|]; destruct (unify (pred d) t (r_head c) _) as [z0 st0]; cbn in Hz; subst z0; reflexivity]. destruct (unify (pred d) t (r_head c) _) as [z st2]. cbn in H1, H2. subst z. now apply terr_other.
  - (* GRule Some *)
    unfold mbind. pose proof (IHr _ _ _ _ _ _ Hsub cur W Hc HW) as H.
    destruct (e_resume (engine n) a i sub (cur, W)) as [o [c1 W1]]. cbn [post] in H.
    destruct H as [H|[HU H]]; [apply cutr_true in H; subst o; now left|].
    assert (HW1 : unchanged W0 W1) by (eapply unchanged_trans; eassumption).
    destruct o as [[g'|]|e].
    + destruct H as (F' & H1 & H2). right. split; [exact HU|]. eexists. split; [eapply r_rule1; eassumption|].
      apply (ev_sol_append (fun d => Fs (pred d) (w_nv W)) (clF t rest (b_scope y0)) _ _ (fun d => F' (pred d))).
      exact (ev_pred _ _ H2).
    + destruct H as (H1 & H2). unfold m_reroll, on_st. cbn [fst snd].
      assert (Hk : okst true y0 (reroll c1 cp)).
      { apply mark_reroll. eapply mark_trail; [exact Hm|]. now apply okst_trail in H1. }
      eapply post_step; [apply (IHr x y0 _ (reroll c1 cp) true); [eapply (r_rule0 x y0 _ cp t rest); [exact Hk| | |exact Hrest]|apply okst_refl|exact HW1]|apply okst_refl|exact HU|].
      * now apply mark_ncp in Hm.
      * assert (E2 : b_ncp (reroll c1 cp) = b_ncp c1) by (unfold reroll; now destruct (reroll_loop _ _ _)).
        rewrite E2. apply mark_ncp in Hm. apply okst_ncp in H1. lia.
      * apply (ev_end_append (fun d => Fs (pred d) (w_nv W)) (clF t rest (b_scope y0))). exact (ev_pred _ _ H2).
    + apply post_err; [exact HU|]. intros _. apply (ev_err_append (fun d => Fs (pred d) (w_nv W))). exact (ev_pred _ _ H).
  - (* GAnd gl None *)
    unfold mbind. pose proof (IHr _ _ _ _ _ _ Hl cur W Hc HW) as H.
    destruct (e_resume (engine n) a i gl (cur, W)) as [o [c1 W1]]. cbn [post] in H.
    destruct H as [H|[HU H]]; [apply cutr_true in H; subst o; now left|].
    assert (HW1 : unchanged W0 W1) by (eapply unchanged_trans; eassumption).
    destruct o as [[g'|]|e].
    + destruct H as (F' & H1 & H2).
      eapply post_step; [apply (IHr x y0 _ c1 true); [eapply r_and1; [exact H1|apply r_q; [exact Hp|apply okst_refl]|exact Hp]|apply okst_refl|exact HW1]|apply okst_refl|exact HU|].
      apply (ev_bindt (fun d => Fl (pred d) (w_nv W)) (fun d => TSol (b_scope c1) (w_nv W1) (F' (pred d))) (fun d => sols (pred d) D r)).
      exact (ev_pred _ _ H2).
    + destruct H as (H1 & H2). right. split; [exact HU|]. split; [exact H1|].
      apply (ev_bindt (fun d => Fl (pred d) (w_nv W)) (fun d => TEnd (w_nv W1)) (fun d => sols (pred d) D r)). exact (ev_pred _ _ H2).
    + apply post_err; [exact HU|]. intros _.
      apply (ev_bindt (fun d => Fl (pred d) (w_nv W)) (fun d => TErr e) (fun d => sols (pred d) D r)). exact (ev_pred _ _ H).
  - (* GAnd gl Some *)
    unfold mbind. pose proof (IHr _ _ _ _ _ _ Hgr cur W Hc HW) as H.
    destruct (e_resume (engine n) a i gr (cur, W)) as [o [c1 W1]]. cbn [post] in H.
    destruct H as [H|[HU H]]; [apply cutr_true in H; subst o; now left|].
    assert (HW1 : unchanged W0 W1) by (eapply unchanged_trans; eassumption).
    destruct o as [[g'|]|e].
    + destruct H as (F' & H1 & H2). right. split; [exact HU|]. eexists. split; [eapply r_and1; eassumption|].
      apply (ev_sol_append (fun d => Fr (pred d) (w_nv W)) (fun d nv' => bindt (Fl (pred d) nv') (sols (pred d) D r)) _ _ (fun d => F' (pred d))).
      exact (ev_pred _ _ H2).
    + destruct H as (H1 & H2).
      eapply post_step; [apply (IHr x y0 (GAnd gl None r) y1 false); [eapply r_and0; [exact Hl|exact Hp]| |exact HW1]|apply okst_refl|exact HU|].
      * eapply okst_le; [|exact H1]. rewrite orb_false_r. intros ->. reflexivity.
      * apply (ev_end_append (fun d => Fr (pred d) (w_nv W)) (fun d nv' => bindt (Fl (pred d) nv') (sols (pred d) D r))). exact (ev_pred _ _ H2).
    + apply post_err; [exact HU|]. intros _. apply (ev_err_append (fun d => Fr (pred d) (w_nv W))). exact (ev_pred _ _ H).
  - (* GOr g Some *)
    unfold mbind. pose proof (IHr _ _ _ _ _ _ Hg cur W Hc HW) as H.
    destruct (e_resume (engine n) a i g (cur, W)) as [o [c1 W1]]. cbn [post] in H.
    destruct H as [H|[HU H]]; [apply cutr_true in H; subst o; now left|].
    assert (HW1 : unchanged W0 W1) by (eapply unchanged_trans; eassumption).
    destruct o as [[g'|]|e].
    + destruct H as (F' & H1 & H2). right. split; [exact HU|]. eexists. split; [eapply r_or1; eassumption|].
      apply (ev_sol_append (fun d => Fg (pred d) (w_nv W)) (fun d nv' => sols (pred d) D q (b_scope y0) nv') _ _ (fun d => F' (pred d))).
      exact (ev_pred _ _ H2).
    + destruct H as (H1 & H2). rewrite Hx in H1.
      eapply post_step; [apply (IHr _ y0 _ c1 true); [eapply r_or0, r_q; [exact Hp|exact H1]|apply okst_refl|exact HW1]|apply okst_refl|exact HU|].
      apply (ev_end_append (fun d => Fg (pred d) (w_nv W)) (fun d nv' => sols (pred d) D q (b_scope y0) nv')). exact (ev_pred _ _ H2).
    + apply post_err; [exact HU|]. intros _. apply (ev_err_append (fun d => Fg (pred d) (w_nv W))). exact (ev_pred _ _ H).
  - (* GOr g None *)
    unfold mbind. pose proof (IHr _ _ _ _ _ _ Hg cur W Hc HW) as H.
    destruct (e_resume (engine n) a i g (cur, W)) as [o [c1 W1]]. cbn [post] in H.
    destruct H as [H|[HU H]]; [apply cutr_true in H; subst o; now left|].
    destruct o as [[g'|]|e].
    + destruct H as (F' & H1 & H2). right. split; [exact HU|]. eexists. split; [eapply r_or0; eassumption|]. exact (ev_pred _ _ H2).
    + destruct H as (H1 & H2). right. split; [exact HU|]. split; [exact H1|exact (ev_pred _ _ H2)].
    + apply post_err; [exact HU|]. intros _. exact (ev_pred _ _ H).
  - (* GCand true *)
    unfold mbind, m_reroll, on_st. cbn [fst snd].
    assert (Hk : okst true y0 (reroll cur cp)) by (apply mark_reroll; eapply mark_trail; [exact Hm|]; now apply okst_trail in Hc).
    apply (IHr x y0 _ (reroll cur cp) true); [|apply okst_refl|exact HW]. constructor; [exact Hk|now apply mark_ncp in Hm|].
    assert (E2 : b_ncp (reroll cur cp) = b_ncp cur) by (unfold reroll; now destruct (reroll_loop _ _ _)).
    rewrite E2. apply mark_ncp in Hm. apply okst_ncp in Hc. lia.
  - (* GCand false *)
    rewrite orb_true_r in Hc. assert (Hcy : okst true y0 cur) by (eapply okst_trans; eassumption).
    assert (Hs : b_scope cur = b_scope y0) by now apply okst_scope.
    assert (Hc3 : (cp < b_ncp cur)%N) by (apply okst_ncp in Hc; lia).
    destruct cs as [|c cs].
    + destruct fin as [e|].
      * apply post_err; [apply unchanged_refl|]. intros _. apply ev_refl.
      * apply none_post; [apply unchanged_refl|exact Hcy|apply ev_refl].
    + unfold mbind, m_push_cp, m_unify, on_st. cbn [fst snd].
      pose proof (fun d => unify_at n d t c (push_cp cp cur) (b_scope y0) Hs) as HA.
      pose proof (unify_vtrail n t c (push_cp cp cur)) as HT.
      destruct (unify n t c (push_cp cp cur)) as [[[]|e] st1] eqn:E.
      * assert (Hm : mark cp y0 st1) by (eapply mark_trail; [apply mark_push; eassumption|]; eapply vtrail_trail, HT; reflexivity).
        right. split; [apply unchanged_refl|]. exists (candF t cs fin (b_scope y0)). split; [now constructor|].
        apply (ev_from n). intro d. unfold candF. cbn [choices]. destruct (HA (pred d) eq_refl) as [[H1 H2]|[Hlt Hz]];
          [left|right; split; [lia|]; destruct (unify (pred d) t c _) as [z0 st0]; cbn in Hz; subst z0; reflexivity].
        destruct (unify (pred d) t c _) as [z st2]. cbn in H1, H2. subst z. rewrite H2. reflexivity.
      * assert (Hm : mark cp y0 st1) by (eapply mark_trail; [apply mark_push; eassumption|]; eapply vtrail_trail, HT; reflexivity).
        eapply ev_post; [apply (IHr x y0 _ st1 false); [eapply r_cand1; exact Hm|apply okst_refl|exact HW]|].
        apply (ev_from n). intro d. unfold candF. cbn [choices]. destruct (HA (pred d) eq_refl) as [[H1 H2]|[Hlt Hz]];
          [left|right; split; [lia|]; destruct (unify (pred d) t c _) as [z0 st0]; cbn in Hz; subst z0; reflexivity].
        destruct (unify (pred d) t c _) as [z st2]. cbn in H1, H2. subst z. reflexivity.
      * apply post_err; [apply unchanged_refl|]. intro He. apply (ev_from n). intro d. unfold candF. cbn [choices].
        destruct (HA (pred d) (cut_err _ He)) as [[H1 H2]|[Hlt Hz]];
          [left|right; split; [lia|]; destruct (unify (pred d) t c _) as [z0 st0]; cbn in Hz; subst z0; reflexivity]. destruct (unify (pred d) t c _) as [z st2]. cbn in H1, H2. subst z. now apply terr_other.
Qed.

Theorem engine_sound n : sound_n n.
Proof.
  induction n as [|n IH].
  - split; intros; left; reflexivity.
  - split; [now apply resume_sound|now apply collect_sound].
Qed.

Lemma exc_eq_rec (e : exc) : {e = ERecursion} + {e <> ERecursion}.
Proof. destruct e; (now left) || (right; discriminate). Qed.

Lemma drive_sound n c : (qt = true -> Forall (fun p => fst p = []) c) ->
  forall x y0 g y f F, rep x y0 g y f F -> forall cur W, okst (qt || f) y cur -> unchanged W0 W ->
  let '(l, o, (st', W')) := drive c n a i g (cur, W) in
  o = Raised ERecursion \/
  unchanged W W' /\
  (exists d0, forall d, (d0 <= d)%nat -> take c (F d (w_nv W)) = (l, o)) /\
  (o = Exhausted -> okst (qt || x) y0 st').
Proof.
  induction c as [|[os k] c IHc]; intros Hc x y0 g y f F Hr cur W Hy HW; cbn [drive].
  { right. split; [apply unchanged_refl|]. split; [exists 0%nat; reflexivity|discriminate]. }
  assert (Hc' : qt = true -> Forall (fun p => fst p = []) c) by (intro H; specialize (Hc H); now inversion Hc).
  destruct (engine_sound n) as [HR _]. specialize (HR _ _ _ _ _ _ Hr cur W Hy HW). unfold resume.
  destruct (e_resume (engine n) a i g (cur, W)) as [o [c1 W1]]. cbn [post] in HR.
  destruct HR as [H|[HU H]]; [apply cutr_true in H; subst o; now left|].
  assert (HW1 : unchanged W0 W1) by (eapply unchanged_trans; eassumption).
  destruct o as [[g'|]|e].
  - destruct H as (F' & H1 & [d1 H2]).
    assert (Hk : okst (qt || false) c1 (run_bops os c1)).
    { rewrite orb_false_r. destruct qt eqn:Eq.
      - specialize (Hc eq_refl). inversion Hc as [|? ? E]; subst. cbn in E. subst os. apply okst_refl.
      - apply run_bops_trail. }
    assert (HW2 : unchanged W0 (set_nv W1 (w_nv W1 + k)%N)) by (eapply unchanged_trans; [exact HW1|apply unchanged_nv]).
    specialize (IHc Hc' _ _ _ _ _ _ H1 _ _ Hk HW2).
    destruct (drive c n a i g' (run_bops os c1, set_nv W1 (w_nv W1 + k)%N)) as [[l o] [st' W']].
    destruct IHc as [->|(HU2 & [d2 H3] & H4)]; [now left|]. right. split; [|split; [|exact H4]].
    + eapply unchanged_trans; [exact HU|]. eapply unchanged_trans; [apply (unchanged_nv _ (w_nv W1 + k)%N)|exact HU2].
    + exists (Nat.max d1 d2). intros d Hd. destruct (H2 d) as [H2d|[Hlt _]]; [|lia]. rewrite (teq_take _ _ H2d). cbn [take]. cbn [w_nv set_nv] in H3. rewrite H3 by lia. reflexivity.
  - destruct H as (H1 & [d1 H2]). right. split; [exact HU|]. split; [|intros _; exact H1].
    exists d1. intros d Hd. destruct (H2 d) as [H2d|[Hlt _]]; [|lia]. rewrite (teq_take _ _ H2d). reflexivity.
  - destruct H as [d1 H2]. destruct (exc_eq_rec e) as [->|He]; [now left|]. right. split; [exact HU|]. split; [|discriminate].
    exists d1. intros d Hd. destruct (H2 d) as [H2d|[Hlt _]]; [|lia]. rewrite (teq_take _ _ H2d). reflexivity.
Qed.

End Refine.

Theorem query_sound b a i q c n st W :
  proper b q = true -> proper_db b (db_of a W) -> (b = true -> Forall (fun p => fst p = []) c) ->
  let '(l, o, (st', W')) := drive c n a i (GQ q) (st, W) in
  o = Raised ERecursion \/
  unchanged W W' /\
  (exists d0, forall d, (d0 <= d)%nat -> take c (sols d (db_of a W) q (b_scope st) (w_nv W)) = (l, o)) /\
  (o = Exhausted -> b || restoring q = true -> b_scope st' = b_scope st /\ b_stack st' = b_stack st).
Proof.
  intros Hp HD Hc.
  pose proof (drive_sound a i b W HD n c Hc _ st (GQ q) st true _ (r_q a b W st st q Hp (okst_refl _ _)) st W (okst_refl _ _) (unchanged_refl _)) as H.
  destruct (drive c n a i (GQ q) (st, W)) as [[l o] [st' W']].
  destruct H as [H|(H1 & H2 & H3)]; [now left|]. right. split; [exact H1|]. split; [exact H2|].
  intros Ho Hx. specialize (H3 Ho). rewrite Hx in H3. split; [now apply okst_scope|now apply okst_stack].
Qed.
End WithPy.
