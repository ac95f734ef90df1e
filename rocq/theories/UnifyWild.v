(** Unification with wildcards: completeness (a common match is found), and
    soundness and completeness of matching a pattern with a closed term. *)
From Verif Require Import Base Num Term Unify TrailFacts FuelFacts ChainFacts TermSpec WildSpec UnifySem UnifyTerm.

Section WithPy.
Context {PY : Py}.
Variable s0 : scope.
Variable ex : term -> term.
Notation wplain := (wplain s0 ex).
Notation wplain_scope := (wplain_scope s0 ex).
Notation vmatch := (vmatch ex).
Notation wagrees := (wagrees ex).

Definition wgood (s : scope) : Prop := wplain_scope s /\ chain_ok s /\ extends s0 s.

Lemma vmatch_expr th t w : match t with TUn _ _ | TBin _ _ _ => True | _ => False end ->
  vmatch th t w -> w = den_const val VConst (ex t).
Proof. intros Ht H. destruct t; try contradiction Ht; now inversion H. Qed.

Lemma vmatch_scalar th t : is_scalar_const t -> vmatch th t (den_const val VConst t).
Proof. destruct t; try easy; constructor. Qed.

Lemma wderef_loop n : forall t s t', deref_loop n t s = Ok t' ->
  (wplain_scope s -> wplain t -> wplain t') /\
  (forall th w, wagrees th s -> vmatch th t w -> vmatch th t' w).
Proof.
  induction n as [|n IH]; intros t s t' H; destruct t; cbn in H;
    try (inversion H; subst; split; auto; fail);
    destruct (lookup s v) eqn:E; try easy;
    try (inversion H; subst; split; auto; fail).
  destruct (IH _ _ _ H) as [H1 H2]. split.
  - intros Hs _. apply H1; eauto.
  - intros th w Hth Hm. inversion Hm; subst. apply H2; auto.
Qed.

Lemma wevaluate_expr n t s t' : match t with TUn _ _ | TBin _ _ _ => True | _ => False end ->
  wplain t -> wgood s -> evaluate n t s = Ok t' ->
  t' = ex t /\ is_scalar_const t' /\ wplain t'.
Proof.
  intros Ht Hp (G1 & G2 & G3) H.
  assert (Hsc := evaluate_expr_const _ _ _ _ Ht H).
  assert (Hev : evals s0 t (ex t) /\ not_nan (ex t)).
  { destruct t; try contradiction Ht; inversion Hp; subst; auto. }
  destruct Hev as [[k Hk] Hnn].
  assert (E : ex t = t') by (eapply evaluate_expr_stable; [exact G3|exact G2|exact Ht|exact Hk|exact H]).
  split; [now symmetry|]. split; [assumption|]. rewrite E in Hnn.
  destruct t'; try contradiction Hsc; constructor; exact Hnn.
Qed.

Lemma wevaluate n : forall t s t', evaluate n t s = Ok t' -> wplain t -> wgood s ->
  wplain t' /\ resolved s t' /\ noexpr t' /\ (forall th w, wagrees th s -> vmatch th t w -> vmatch th t' w).
Proof.
  induction n as [|n IH]; intros t s t' H Hp Hs; [easy|].
  assert (HE : match t with TUn _ _ | TBin _ _ _ => True | _ => False end ->
    wplain t' /\ resolved s t' /\ noexpr t' /\ (forall th w, wagrees th s -> vmatch th t w -> vmatch th t' w)).
  { intro Ht. destruct (wevaluate_expr _ _ _ _ Ht Hp Hs H) as (A & B & C).
    split; [assumption|]. split; [destruct t'; easy|]. split; [destruct t'; easy|].
    intros th w _ Hm. apply vmatch_expr in Hm; [|exact Ht]. subst w. rewrite <- A. now apply vmatch_scalar. }
  destruct t; try (now apply HE); clear HE;
    try (rewrite evaluate_S in H; inversion H; subst; split; [assumption|split; [exact I|split; [exact I|auto]]]; fail).
  rewrite evaluate_S in H.
  destruct (bound s v) eqn:E; [|inversion H; subst; split; [constructor|split; [exact E|split; [exact I|auto]]]].
  destruct (deref (TVar v) s) as [t1|] eqn:Ed; [|easy].
  destruct (wderef_loop _ _ _ _ Ed) as [D1 D2].
  destruct (IH _ _ _ H) as (H1 & H2 & H3 & H4); [apply D1; [apply Hs|assumption]|assumption|].
  split; [assumption|split; [assumption|split; [assumption|]]]. auto.
Qed.

Lemma wplain_scope_bind s v t : wplain_scope s -> wplain t -> wplain_scope ((v, t) :: s).
Proof.
  intros H1 H2 w u Hw. cbn in Hw. destruct (N.eqb w v); [inversion Hw; subst; assumption|eauto].
Qed.

Lemma wagrees_bind th s v t : wagrees th s -> vmatch th t (th v) -> wagrees th ((v, t) :: s).
Proof.
  intros H1 H2 w u Hw. cbn in Hw. destruct (N.eqb_spec w v); [inversion Hw; subst; assumption|eauto].
Qed.

(** What is carried along, and what is reached. *)
Definition wready (th : N -> val) (w : val) (l r : term) (st : bst) : Prop :=
  wplain l /\ wplain r /\ wgood (b_scope st) /\ wagrees th (b_scope st) /\ vmatch th l w /\ vmatch th r w.

Definition wstate (th : N -> val) (st : bst) : Prop := wgood (b_scope st) /\ wagrees th (b_scope st).

(** The outcome of a unification that has not exceeded the recursion limit. *)
Definition wout (th : N -> val) (o : res bool * bst) : Prop :=
  fst o = Err ERecursion \/ (fst o = Ok true /\ wstate th (snd o)).

Lemma wready_sym th w l r st : wready th w l r st -> wready th w r l st.
Proof. unfold wready. tauto. Qed.

Lemma wready_state th w l r st : wready th w l r st -> wstate th st.
Proof. unfold wready, wstate. tauto. Qed.

Lemma rec_err n t s e : wplain t -> wgood s -> evaluate n t s = Err e -> e = ERecursion.
Proof.
  intros Hp Hs H.
  assert (Hbig : exists m t', evaluate m t s = Ok t').
  { assert (HE : forall t, match t with TUn _ _ | TBin _ _ _ => True | _ => False end -> wplain t ->
       exists m t', evaluate m t s = Ok t').
    { intros u Hu Hpu. assert (Hev : evals s0 u (ex u)) by (destruct u; try contradiction Hu; inversion Hpu; subst; auto).
      destruct Hev as [k Hk]. exists k, (ex u). apply (proj1 (eval_ext s0 s (proj2 (proj2 Hs)) (proj1 (proj2 Hs)) k)); [|exact Hk].
      intros x Hx. apply evaluate_expr_const in Hk; [|exact Hu]. rewrite Hx in Hk. exact Hk. }
    assert (H1 : forall t', match t' with TVar v => bound s v = false | TUn _ _ | TBin _ _ _ => False | _ => True end ->
       evaluate 1 t' s = Ok t').
    { intros t' Ht. rewrite evaluate_S. destruct t'; try easy. now rewrite Ht. }
    destruct t; try (now apply HE); try (eexists 1%nat, _; now apply H1).
    destruct (bound s v) eqn:E; [|eexists 1%nat, _; apply H1; exact E].
    destruct (deref_ok s (TVar v) (proj1 (proj2 Hs))) as [t' Ht'].
    assert (Hp' : wplain t') by (destruct (wderef_loop _ _ _ _ Ht') as [A _]; apply A; [apply Hs|assumption]).
    assert (Hex : exists m t'', evaluate m t' s = Ok t'').
    { destruct t'; try (now apply HE); try (eexists 1%nat, _; now apply H1).
      eexists 1%nat, _. apply H1. eapply deref_loop_unbound. exact Ht'. }
    destruct Hex as (m & t'' & Hm). exists (S m), t''. now rewrite evaluate_S, E, Ht'. }
  destruct Hbig as (m & t' & Hm).
  destruct (mono_le (fun k => evaluate k t s) (fun k => evaluate_mono k t s) n (Nat.max n m) (Nat.le_max_l _ _)) as [E|E].
  - congruence.
  - pose proof (evaluate_more m (Nat.max n m) t s t' (Nat.le_max_r _ _) Hm). congruence.
Qed.

Lemma evaluate_wplain_ok t s : wplain t -> wgood s ->
  exists n0 t', forall n, (n0 <= n)%nat -> evaluate n t s = Ok t'.
Proof.
  intros Hp Hs.
  assert (HE : forall t, match t with TUn _ _ | TBin _ _ _ => True | _ => False end -> wplain t ->
       exists m t', evaluate m t s = Ok t').
  { intros u Hu Hpu. assert (Hev : evals s0 u (ex u)) by (destruct u; try contradiction Hu; inversion Hpu; subst; auto).
    destruct Hev as [k Hk]. exists k, (ex u). apply (proj1 (eval_ext s0 s (proj2 (proj2 Hs)) (proj1 (proj2 Hs)) k)); [|exact Hk].
    intros x Hx. apply evaluate_expr_const in Hk; [|exact Hu]. rewrite Hx in Hk. exact Hk. }
  assert (H1 : forall t', match t' with TVar v => bound s v = false | TUn _ _ | TBin _ _ _ => False | _ => True end ->
       evaluate 1 t' s = Ok t').
  { intros t' Ht. rewrite evaluate_S. destruct t'; try easy. now rewrite Ht. }
  assert (Hbig : exists m t', evaluate m t s = Ok t').
  { destruct t; try (now apply HE); try (eexists 1%nat, _; now apply H1).
    destruct (bound s v) eqn:E; [|eexists 1%nat, _; apply H1; exact E].
    destruct (deref_ok s (TVar v) (proj1 (proj2 Hs))) as [t' Ht'].
    assert (Hp' : wplain t') by (destruct (wderef_loop _ _ _ _ Ht') as [A _]; apply A; [apply Hs|assumption]).
    assert (Hex : exists m t'', evaluate m t' s = Ok t'').
    { destruct t'; try (now apply HE); try (eexists 1%nat, _; now apply H1).
      eexists 1%nat, _. apply H1. eapply deref_loop_unbound. exact Ht'. }
    destruct Hex as (m & t'' & Hm). exists (S m), t''. now rewrite evaluate_S, E, Ht'. }
  destruct Hbig as (m & t' & Hm). exists m, t'. intros n Hn. now apply (evaluate_more m).
Qed.

Lemma bind_out th v t st : bound (b_scope st) v = false -> wplain t -> resolved (b_scope st) t ->
  wstate th st -> vmatch th t (th v) ->
  exists st', bind v t st = (Ok tt, st') /\ wstate th st'.
Proof.
  intros Hv Hp Hres [(G1 & G2 & G3) Ha] Hm.
  assert (HB : is_var t v = false -> wstate th (mkbst ((v, t) :: b_scope st) (EVar v :: b_stack st) (b_ncp st))).
  { intro Hn. apply bound_false in Hv. split; cbn [b_scope].
    - split; [now apply wplain_scope_bind|]. split; [now apply chain_ok_bind|now apply extends_bind].
    - now apply wagrees_bind. }
  unfold bind. rewrite Hv. destruct t; try (eexists; split; [reflexivity|now apply HB]).
  destruct (N.eqb_spec v v0) as [->|Hne].
  - eexists. split; [reflexivity|]. split; [repeat split|]; assumption.
  - eexists. split; [reflexivity|]. apply HB. cbn. apply N.eqb_neq. congruence.
Qed.

Definition wout_f (u : term -> term -> bst -> res bool * bst) : Prop :=
  forall th w l r st, wready th w l r st -> wout th (u l r st).

Lemma all_unify_wout u th : wout_f u -> forall ls rs ws st,
  wstate th st -> Forall wplain ls -> Forall wplain rs ->
  Forall2 (vmatch th) ls ws -> Forall2 (vmatch th) rs ws -> wout th (all_unify u ls rs st).
Proof.
  intros Hu ls. induction ls as [|l ls IH]; intros rs ws st Hst Hl Hr Ml Mr.
  - right. cbn. auto.
  - inversion Ml as [|? w ? ws' Ml1 Ml2]; subst. inversion Mr as [|r ? rs' ? Mr1 Mr2]; subst.
    inversion Hl; inversion Hr; subst. cbn.
    destruct (Hu th w l r st) as [E|[E S]].
    { destruct Hst. repeat split; try assumption; apply H. }
    + destruct (u l r st) as [x st1]. cbn in E. subst x. now left.
    + destruct (u l r st) as [x st1]. cbn in E, S. subst x. eapply IH; eassumption.
Qed.

Lemma pair_wout u th h t h' t' w ws st : wout_f u -> wstate th st ->
  wplain h -> wplain t -> wplain h' -> wplain t' ->
  vmatch th h w -> vmatch th h' w -> vmatch th t ws -> vmatch th t' ws ->
  wout th (match u h h' st with (Ok true, st1) => u t t' st1 | y => y end).
Proof.
  intros Hu Hst P1 P2 P3 P4 M1 M2 M3 M4.
  destruct (Hu th w h h' st) as [E|[E S]].
  { destruct Hst. repeat split; try assumption; apply H. }
  - destruct (u h h' st) as [x st1]. cbn in E. subst x. now left.
  - destruct (u h h' st) as [x st1]. cbn in E, S. subst x. apply (Hu th ws).
    destruct S. repeat split; try assumption; apply H.
Qed.

Lemma tup_vmatch th ts : forall w, vmatch th (TTup ts) w ->
  exists ws, Forall2 (vmatch th) ts ws /\ forall rs, vmatch th (TTup rs) w ->
    List.length rs = List.length ts /\ Forall2 (vmatch th) rs ws.
Proof.
  induction ts as [|t ts IH]; intros w H; inversion H; subst.
  - exists []. split; [constructor|]. intros rs Hr. inversion Hr; subst. split; [reflexivity|constructor].
  - destruct (IH _ H4) as (ws' & A & B). exists (w0 :: ws'). split; [constructor; assumption|].
    intros rs Hr. inversion Hr; subst. destruct (B _ H6) as [C D]. split; [cbn; congruence|constructor; assumption].
Qed.

Ltac wr := match goal with H : wready _ _ _ _ _ |- _ => destruct H as (? & ? & ? & ? & ? & ?) end.

Theorem unify_wout n : wout_f (unify n).
Proof.
  induction n as [|n IH]; intros th w l r st HR; [now left|].
  pose proof HR as (Hl & Hr & Hg & Ha & Ml & Mr).
  rewrite unify_S.
  assert (Hst : wstate th st) by (split; assumption).
  destruct l as [bl|xl|sl|v|wl|opl al|opl al bl|f args annots|ls|h t].
  4:{ destruct (bound (b_scope st) v) eqn:Ev.
    - destruct (deref_ok (b_scope st) (TVar v) (proj1 (proj2 Hg))) as [l' Hd]. rewrite Hd.
      destruct (wderef_loop _ _ _ _ Hd) as [D1 D2]. apply (IH th w).
      repeat split; try assumption; try apply Hg; [apply D1; [apply Hg|assumption]|auto].
    - assert (HH : wout th match evaluate n r (b_scope st) with
                | Err e => (Err e, st)
                | Ok r' => match bind v r' st with (Ok _, st') => (Ok true, st') | (Err e, st') => (Err e, st') end
                end).
      { destruct (evaluate n r (b_scope st)) as [r'|e] eqn:Er.
        - destruct (wevaluate _ _ _ _ Er Hr Hg) as (P1 & P2 & P2' & P3).
          inversion Ml; subst. destruct (bind_out th v r' st Ev P1 P2 Hst) as (st' & E & S); [auto|].
          rewrite E. right. auto.
        - left. cbn. f_equal. eapply rec_err; eassumption. }
      destruct r; try exact HH. right. auto. }
  4: now right.
  4:{ destruct (evaluate n _ (b_scope st)) as [l'|e] eqn:El.
      - destruct (wevaluate _ _ _ _ El Hl Hg) as (P1 & P2 & P2' & P3). apply (IH th w).
        repeat split; try assumption; try apply Hg; auto.
      - left. cbn. f_equal. eapply rec_err; [exact Hl|exact Hg|exact El]. }
  4:{ destruct (evaluate n _ (b_scope st)) as [l'|e] eqn:El.
      - destruct (wevaluate _ _ _ _ El Hl Hg) as (P1 & P2 & P2' & P3). apply (IH th w).
        repeat split; try assumption; try apply Hg; auto.
      - left. cbn. f_equal. eapply rec_err; [exact Hl|exact Hg|exact El]. }
  4:{ destruct (evaluate n r (b_scope st)) as [r'|e] eqn:Er.
      2:{ left. cbn. f_equal. eapply rec_err; [exact Hr|exact Hg|exact Er]. }
      destruct (wevaluate _ _ _ _ Er Hr Hg) as (P1 & P2 & P2' & P3).
      specialize (P3 th w Ha Mr). inversion Ml as [| | | | | | |? ? ? ws MA| | |]; subst.
      assert (HR' : wready th (VLit f ws) r' (TLit f args annots) st) by (repeat split; try assumption; apply Hg).
      destruct r'; try contradiction P2'; try (inversion P3; fail); try (apply (IH _ _ _ _ _ HR')).
      inversion P3; subst. rewrite pystr_eqb_refl.
      rewrite (Forall2_len _ _ _ MA); match goal with HB : Forall2 _ args0 ws |- _ => rewrite (Forall2_len _ _ _ HB) end; rewrite Nat.eqb_refl. cbn [andb].
      inversion Hl; inversion P1; subst. eapply all_unify_wout; eassumption. }
  5:{ destruct (evaluate n r (b_scope st)) as [r'|e] eqn:Er.
      2:{ left. cbn. f_equal. eapply rec_err; [exact Hr|exact Hg|exact Er]. }
      destruct (wevaluate _ _ _ _ Er Hr Hg) as (P1 & P2 & P2' & P3).
      specialize (P3 th w Ha Mr). inversion Ml as [| | | | | | | | | |? ? w1 w2 MA MB]; subst.
      assert (HR' : wready th (VCons w1 w2) r' (TLL h t) st) by (repeat split; try assumption; apply Hg).
      inversion Hl; subst.
      destruct r'; try contradiction P2'; try (inversion P3; fail); try (apply (IH _ _ _ _ _ HR')).
      - inversion P3; subst. inversion P1 as [| | | | | | | |? PF|]; subst. inversion PF; subst.
        eapply pair_wout; try eassumption. now constructor.
      - inversion P3; subst. inversion P1; subst. eapply pair_wout; eassumption. }
  all: destruct (has_unify r) eqn:Eh; [apply (IH th w); now apply wready_sym|].
  all: destruct r as [br|xr|sr|vr|wr| | |f' args' annots'|rs|h' t']; try discriminate Eh.
  all: try (inversion Ml; subst; inversion Mr; fail).
  - inversion Ml; subst. inversion Mr; subst. right. cbn. now rewrite Bool.eqb_reflx.
  - inversion Ml; subst. inversion Mr; subst. right. cbn.
    assert (E : num_eqb xl xr = true) by (apply num_eqb_canon; inversion Hl; inversion Hr; auto). rewrite E. auto.
  - inversion Ml; subst. inversion Mr; subst. right. cbn. rewrite pystr_eqb_refl. auto.
  - destruct (tup_vmatch _ _ _ Ml) as (ws & MA & MB). destruct (MB _ Mr) as [MC MD].
    rewrite MC, Nat.eqb_refl. inversion Hl; inversion Hr; subst. eapply all_unify_wout; eassumption.
Qed.

(** Termination, by the size of the common match. *)
Definition wfin (l r : term) (st : bst) : Prop := exists n, fst (unify n l r st) <> Err ERecursion.

Lemma sle_fin {A S} (x y : res A * S) : sle x y -> fst x <> Err ERecursion -> x = y.
Proof. intros [H|H]; congruence. Qed.

Lemma unify_fin_more n m l r st : (n <= m)%nat -> fst (unify n l r st) <> Err ERecursion ->
  unify m l r st = unify n l r st.
Proof.
  intros Hnm H. symmetry.
  exact (sle_fin _ _ (smono_le (fun n => unify n l r st) (fun n => unify_mono n l r st) n m Hnm) H).
Qed.

Lemma wfin_ok th w l r st : wready th w l r st -> wfin l r st ->
  exists n st', unify n l r st = (Ok true, st') /\ wstate th st'.
Proof.
  intros HR [n Hn]. destruct (unify_wout n th w l r st HR) as [E|[E S]]; [congruence|].
  exists n. destruct (unify n l r st) as [x st']. cbn in *. subst. eauto.
Qed.

Section Step.
Variable th : N -> val.
Variable k : nat.
Hypothesis IH : forall w l r st, (vsize w < k)%nat -> wready th w l r st -> wfin l r st.

Lemma wlist_fin : forall ls rs ws st,
  wstate th st -> Forall wplain ls -> Forall wplain rs -> Forall (fun w => (vsize w < k)%nat) ws ->
  Forall2 (vmatch th) ls ws -> Forall2 (vmatch th) rs ws ->
  exists n st', all_unify (unify n) ls rs st = (Ok true, st').
Proof.
  intros ls. induction ls as [|l ls IHl]; intros rs ws st Hst Hl Hr Hk Ml Mr.
  - exists 0%nat, st. reflexivity.
  - inversion Ml as [|? w ? ws' Ml1 Ml2]; subst. inversion Mr as [|r ? rs' ? Mr1 Mr2]; subst.
    inversion Hl; inversion Hr; inversion Hk; subst.
    assert (HR : wready th w l r st) by (destruct Hst as [Hst1 Hst2]; repeat split; try assumption; apply Hst1).
    destruct (wfin_ok _ _ _ _ _ HR (IH _ _ _ _ H9 HR)) as (n1 & st1 & E1 & S1).
    destruct (IHl rs' ws' st1) as (n2 & st2 & E2); try assumption.
    exists (Nat.max n1 n2), st2. cbn.
    rewrite (unify_more n1 (Nat.max n1 n2) _ _ _ _ _ (Nat.le_max_l _ _) E1).
    eapply all_unify_more; [|exact E2]. lia.
Qed.

Lemma wpair_fin h x t y w ws st : (vsize w < k)%nat -> (vsize ws < k)%nat -> wstate th st ->
  wplain h -> wplain t -> wplain x -> wplain y ->
  vmatch th h w -> vmatch th x w -> vmatch th t ws -> vmatch th y ws ->
  exists n st', match unify n h x st with (Ok true, st1) => unify n t y st1 | w => w end = (Ok true, st').
Proof.
  intros K1 K2 Hst P1 P2 P3 P4 M1 M2 M3 M4.
  assert (HR : wready th w h x st) by (destruct Hst as [Hst1 Hst2]; repeat split; try assumption; apply Hst1).
  destruct (wfin_ok _ _ _ _ _ HR (IH _ _ _ _ K1 HR)) as (n1 & st1 & E1 & [S1 S2]).
  assert (HR2 : wready th ws t y st1) by (repeat split; try assumption; apply S1).
  destruct (wfin_ok _ _ _ _ _ HR2 (IH _ _ _ _ K2 HR2)) as (n2 & st2 & E2 & _).
  exists (Nat.max n1 n2), st2.
  rewrite (unify_more n1 (Nat.max n1 n2) _ _ _ _ _ (Nat.le_max_l _ _) E1).
  eapply unify_more; [|exact E2]. lia.
Qed.

Lemma wfin_of n l r st st' : unify n l r st = (Ok true, st') -> wfin l r st.
Proof. intro H. exists n. now rewrite H. Qed.

Lemma wfin_intro n l r st : (exists m st', (n <= m)%nat /\ unify m l r st = (Ok true, st')) -> wfin l r st.
Proof. intros (m & st' & _ & H). now apply wfin_of in H. Qed.

(** Unification with an unbound variable or a wildcard on the left. *)
Lemma wvar_fin w v r st : bound (b_scope st) v = false -> wready th w (TVar v) r st -> wfin (TVar v) r st.
Proof.
  intros Hv HR. pose proof HR as (H1 & H2 & H3 & H4 & H5 & H6).
  destruct (evaluate_wplain_ok r (b_scope st) H2 H3) as (n0 & r' & Hr').
  exists (S n0). rewrite unify_S, Hv. rewrite Hr' by lia.
  destruct (wevaluate _ _ _ _ (Hr' n0 (le_n _)) H2 H3) as (P1 & P2 & P2' & P3).
  inversion H5; subst. destruct (bind_out th v r' st Hv P1 P2 (conj H3 H4)) as (st' & E & S); [auto|].
  rewrite E. destruct r; cbn; discriminate.
Qed.

Lemma wwild_fin x r st : wfin (TWild x) r st.
Proof. exists 1%nat. cbn. discriminate. Qed.

Lemma wvarwild_fin w l r st : match l with TVar v => bound (b_scope st) v = false | TWild _ => True | _ => False end ->
  wready th w l r st -> wfin l r st.
Proof.
  intros Hl HR. destruct l; try contradiction Hl; [now apply (wvar_fin w)|apply wwild_fin].
Qed.

Lemma wlit_fin f args annots w r st : (vsize w <= k)%nat ->
  wready th w (TLit f args annots) r st -> wfin (TLit f args annots) r st.
Proof.
  intros Hk HR. pose proof HR as (Hl & Hr & Hg & Ha & Ml & Mr).
  destruct (evaluate_wplain_ok r (b_scope st) Hr Hg) as (n0 & r' & Hr').
  destruct (wevaluate _ _ _ _ (Hr' n0 (le_n _)) Hr Hg) as (P1 & P2 & P2' & P3).
  specialize (P3 th w Ha Mr). inversion Ml as [| | | | | | |? ? ? ws MA| | |]; subst.
  assert (HR' : wready th (VLit f ws) r' (TLit f args annots) st) by (repeat split; try assumption; apply Hg).
  assert (HV : match r' with TVar v => bound (b_scope st) v = false | TWild _ => True | _ => False end ->
     wfin (TLit f args annots) r st).
  { intro Hvw. destruct (wvarwild_fin _ _ _ _ Hvw HR') as [n Hn].
    exists (S (n0 + n)). rewrite unify_S. rewrite Hr' by lia.
    pose proof (unify_fin_more n (n0 + n) _ _ _ ltac:(lia) Hn) as E.
    destruct r'; try contradiction Hvw; rewrite E; exact Hn. }
  destruct r'; try contradiction P2'; try (inversion P3; fail); try (apply HV; exact P2); try (apply HV; exact I).
  inversion P3; subst. inversion Hl; inversion P1; subst.
  destruct (wlist_fin args args0 ws st) as (n & st' & E); try assumption; [split; assumption| |].
  { rewrite Forall_forall. intros x Hx. pose proof (vsize_args f ws x Hx). lia. }
  apply (wfin_of (S (n0 + n)) _ _ _ st'). rewrite unify_S. rewrite Hr' by lia. rewrite pystr_eqb_refl.
  rewrite (Forall2_len _ _ _ MA); match goal with HB : Forall2 _ args0 ws |- _ => rewrite (Forall2_len _ _ _ HB) end; rewrite Nat.eqb_refl. cbn [andb].
  eapply all_unify_more; [|exact E]. lia.
Qed.

Lemma wll_fin h t w r st : (vsize w <= k)%nat ->
  wready th w (TLL h t) r st -> wfin (TLL h t) r st.
Proof.
  intros Hk HR. pose proof HR as (Hl & Hr & Hg & Ha & Ml & Mr).
  destruct (evaluate_wplain_ok r (b_scope st) Hr Hg) as (n0 & r' & Hr').
  destruct (wevaluate _ _ _ _ (Hr' n0 (le_n _)) Hr Hg) as (P1 & P2 & P2' & P3).
  specialize (P3 th w Ha Mr). inversion Ml as [| | | | | | | | | |? ? w1 w2 MA MB]; subst.
  assert (HR' : wready th (VCons w1 w2) r' (TLL h t) st) by (repeat split; try assumption; apply Hg).
  assert (HV : match r' with TVar v => bound (b_scope st) v = false | TWild _ => True | _ => False end ->
     wfin (TLL h t) r st).
  { intro Hvw. destruct (wvarwild_fin _ _ _ _ Hvw HR') as [n Hn].
    exists (S (n0 + n)). rewrite unify_S. rewrite Hr' by lia.
    pose proof (unify_fin_more n (n0 + n) _ _ _ ltac:(lia) Hn) as E.
    destruct r'; try contradiction Hvw; rewrite E; exact Hn. }
  cbn [vsize] in Hk. inversion Hl; subst.
  destruct r'; try contradiction P2'; try (inversion P3; fail); try (apply HV; exact P2); try (apply HV; exact I).
  - inversion P3; subst. inversion P1 as [| | | | | | | |? PF|]; subst. inversion PF; subst.
    destruct (wpair_fin h x t (TTup xs) w1 w2 st) as (n & st' & E); try assumption; try lia; [split; assumption|now constructor|].
    apply (wfin_of (S (n0 + n)) _ _ _ st'). rewrite unify_S. rewrite Hr' by lia.
    destruct (unify n h x st) as [q st1] eqn:E1. destruct q as [[]|]; try discriminate.
    rewrite (unify_more n (n0 + n) _ _ _ _ _ ltac:(lia) E1).
    eapply unify_more; [|exact E]. lia.
  - inversion P3; subst. inversion P1; subst.
    destruct (wpair_fin h r'1 t r'2 w1 w2 st) as (n & st' & E); try assumption; try lia; [split; assumption|].
    apply (wfin_of (S (n0 + n)) _ _ _ st'). rewrite unify_S. rewrite Hr' by lia.
    destruct (unify n h r'1 st) as [q st1] eqn:E1. destruct q as [[]|]; try discriminate.
    rewrite (unify_more n (n0 + n) _ _ _ _ _ ltac:(lia) E1).
    eapply unify_more; [|exact E]. lia.
Qed.

Lemma vsize_tup ts : forall w ws, vmatch th (TTup ts) w -> Forall2 (vmatch th) ts ws ->
  (forall rs, vmatch th (TTup rs) w -> Forall2 (vmatch th) rs ws) -> True.
Proof. auto. Qed.

Lemma tup_vmatch_size ts : forall w, vmatch th (TTup ts) w ->
  exists ws, Forall2 (vmatch th) ts ws /\ Forall (fun x => (vsize x < vsize w)%nat) ws /\
    forall rs, vmatch th (TTup rs) w -> List.length rs = List.length ts /\ Forall2 (vmatch th) rs ws.
Proof.
  induction ts as [|t ts IHt]; intros w H; inversion H; subst.
  - exists []. split; [constructor|]. split; [constructor|].
    intros rs Hr. inversion Hr; subst. split; [reflexivity|constructor].
  - destruct (IHt _ H4) as (ws' & A & A' & B). exists (w0 :: ws'). split; [constructor; assumption|]. split.
    + constructor; [cbn; lia|]. eapply Forall_impl; [|exact A']. intros a Ha. cbn in *. lia.
    + intros rs Hr. inversion Hr; subst. destruct (B _ H6) as [C D]. split; [cbn; congruence|constructor; assumption].
Qed.

Lemma wscalar_fin l r w st : (vsize w <= k)%nat -> scalar l -> scalar r -> wready th w l r st -> wfin l r st.
Proof.
  intros Hk Kl Kr (Hl & Hr & Hg & Ha & Ml & Mr).
  destruct l as [bl|xl|sl|v| | | |f args annots|ls|h t]; try contradiction Kl;
  destruct r as [br|xr|sr|vr|wr| | |f' args' annots'|rs|h' t']; try contradiction Kr;
    try (exists 1%nat; cbn; discriminate).
  destruct (tup_vmatch_size _ _ Ml) as (ws & MA & MS & MB). destruct (MB _ Mr) as [MC MD].
  inversion Hl; inversion Hr; subst.
  destruct (wlist_fin ls rs ws st) as (n & st' & E); try assumption; [split; assumption| |].
  - eapply Forall_impl; [|exact MS]. cbn. intros; lia.
  - apply (wfin_of (S n) _ _ _ st'). rewrite unify_S. cbn [has_unify]. rewrite MC, Nat.eqb_refl. exact E.
Qed.

Lemma wexpr_fin l r w st : match l with TUn _ _ | TBin _ _ _ => True | _ => False end ->
  (forall l', is_scalar_const l' -> wready th w l' r st -> wfin l' r st) ->
  wready th w l r st -> wfin l r st.
Proof.
  intros Hl HF HR. pose proof HR as (H1 & H2 & H3 & H4 & H5 & H6).
  destruct (evaluate_wplain_ok l (b_scope st) H1 H3) as (n0 & l' & Hl').
  destruct (wevaluate _ _ _ _ (Hl' n0 (le_n _)) H1 H3) as (P1 & P2 & P2' & P3).
  destruct (HF l') as (n & Hn).
  - eapply evaluate_expr_const; [exact Hl|exact (Hl' n0 (le_n _))].
  - repeat split; try assumption; try apply H3. auto.
  - exists (S (n0 + n)). rewrite unify_S.
    pose proof (unify_fin_more n (n0 + n) _ _ _ ltac:(lia) Hn) as E.
    destruct l; try contradiction Hl; rewrite Hl' by lia; rewrite E; exact Hn.
Qed.

Lemma wscalar_r_fin l r w st : (vsize w <= k)%nat -> scalar r -> resolved (b_scope st) l ->
  wready th w l r st -> wfin l r st.
Proof.
  intros Hk Kr Hres HR.
  destruct l; try (apply (wscalar_fin _ _ w); try assumption; exact I).
  - now apply (wvar_fin w).
  - apply wwild_fin.
  - apply (wexpr_fin _ _ w); [exact I| |assumption]. intros l' Hs HR'.
    apply (wscalar_fin _ _ w); try assumption. now apply scalar_const_scalar.
  - apply (wexpr_fin _ _ w); [exact I| |assumption]. intros l' Hs HR'.
    apply (wscalar_fin _ _ w); try assumption. now apply scalar_const_scalar.
  - now apply (wlit_fin _ _ _ w).
  - now apply (wll_fin _ _ w).
Qed.

Lemma wderef_ready l r w st l' : wready th w l r st -> deref l (b_scope st) = Ok l' ->
  wready th w l' r st /\ resolved (b_scope st) l'.
Proof.
  intros (H1 & H2 & H3 & H4 & H5 & H6) E.
  destruct (wderef_loop _ _ _ _ E) as [A B]. split.
  - repeat split; try assumption; try apply H3; [apply A; [apply H3|assumption]|auto].
  - destruct l'; cbn; auto. eapply deref_loop_unbound. exact E.
Qed.

Lemma wfin_deref v l' r st : bound (b_scope st) v = true -> deref (TVar v) (b_scope st) = Ok l' ->
  wfin l' r st -> wfin (TVar v) r st.
Proof. intros Hb Hd [n Hn]. exists (S n). now rewrite unify_S, Hb, Hd. Qed.

Lemma wscalar_l_fin l r w st : (vsize w <= k)%nat -> scalar l -> wready th w l r st -> wfin l r st.
Proof.
  intros Hk Kl HR. pose proof HR as (H1 & H2 & H3 & H4 & H5 & H6).
  destruct (has_unify r) eqn:Hu.
  2:{ apply (wscalar_fin _ _ w); try assumption. destruct r; easy. }
  assert (HF : wfin r l st).
  { apply wready_sym in HR.
    destruct (match r with TVar v => bound (b_scope st) v | _ => false end) eqn:Eb.
    - destruct r; try discriminate Eb.
      destruct (deref_ok (b_scope st) (TVar v) (proj1 (proj2 H3))) as [r' Hd].
      destruct (wderef_ready _ _ _ _ _ HR Hd) as [HR' Hres'].
      apply (wfin_deref v r'); try assumption. now apply (wscalar_r_fin _ _ w).
    - apply (wscalar_r_fin _ _ w); try assumption.
      destruct r; try exact I. exact Eb. }
  destruct HF as (n & E). exists (S n). rewrite unify_S.
  destruct l; try contradiction Kl; rewrite Hu; exact E.
Qed.

Lemma wresolved_fin l r w st : (vsize w <= k)%nat -> resolved (b_scope st) l ->
  wready th w l r st -> wfin l r st.
Proof.
  intros Hk Hres HR.
  destruct l; try (apply (wscalar_l_fin _ _ w); auto; exact I).
  - now apply (wvar_fin w).
  - apply wwild_fin.
  - apply (wexpr_fin _ _ w); [exact I| |assumption]. intros l' Hs HR'.
    apply (wscalar_l_fin _ _ w); try assumption. now apply scalar_const_scalar.
  - apply (wexpr_fin _ _ w); [exact I| |assumption]. intros l' Hs HR'.
    apply (wscalar_l_fin _ _ w); try assumption. now apply scalar_const_scalar.
  - now apply (wlit_fin _ _ _ w).
  - now apply (wll_fin _ _ w).
Qed.

Lemma wstep_fin l r w st : (vsize w <= k)%nat -> wready th w l r st -> wfin l r st.
Proof.
  intros Hk HR. pose proof HR as (H1 & H2 & H3 & H4 & H5 & H6).
  destruct l; try (apply (wresolved_fin _ _ w); auto; exact I).
  destruct (bound (b_scope st) v) eqn:Ev; [|apply (wresolved_fin _ _ w); auto].
  destruct (deref_ok (b_scope st) (TVar v) (proj1 (proj2 H3))) as [l' Hd].
  destruct (wderef_ready _ _ _ _ _ HR Hd) as [HR' Hres'].
  apply (wfin_deref v l'); try assumption. now apply (wresolved_fin _ _ w).
Qed.
End Step.

(** A common match is found. *)
Theorem unify_wcomplete th w l r st : wready th w l r st ->
  exists n0 st', (forall n, (n0 <= n)%nat -> unify n l r st = (Ok true, st')) /\ wstate th st'.
Proof.
  intro HR.
  assert (HF : wfin l r st).
  { remember (vsize w) as k eqn:Hk. assert (Hk' : (vsize w <= k)%nat) by lia. clear Hk.
    revert w l r st Hk' HR. induction k as [k IH] using lt_wf_ind. intros w l r st Hk HR.
    apply (wstep_fin th k) with (w := w); try assumption.
    intros w' l' r' st' Hlt HR'. eapply (IH (vsize w')); [lia|apply le_n|eassumption]. }
  destruct (wfin_ok _ _ _ _ _ HR HF) as (n & st' & E & S). exists n, st'. split; [|assumption].
  intros m Hm. eapply unify_more; eassumption.
Qed.

End WithPy.
