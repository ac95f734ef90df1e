(** Variable-free annotations: matching is inclusion. *)
From Verif Require Import Base Num Term Unify TrailFacts FuelFacts ChainFacts TermSpec InstSpec AnnotSpec.
From Verif Require Import PyEq SetFacts WildSpec AnnotFacts.

Section WithPy.
Context {PY : Py}.

(** Unification does not look at the stack. *)
Definition same_o {A} (o1 o2 : res A * bst) : Prop := fst o1 = fst o2 /\ b_scope (snd o1) = b_scope (snd o2).
Definition frame_f (u : term -> term -> bst -> res bool * bst) : Prop :=
  forall l r st1 st2, b_scope st1 = b_scope st2 -> same_o (u l r st1) (u l r st2).

Lemma all_unify_frame u : frame_f u -> forall ls rs st1 st2, b_scope st1 = b_scope st2 ->
  same_o (all_unify u ls rs st1) (all_unify u ls rs st2).
Proof.
  intros Hu ls. induction ls as [|l ls IH]; intros rs st1 st2 Hs; [now split|]. destruct rs as [|r rs]; [now split|].
  cbn. destruct (Hu l r st1 st2 Hs) as [E1 E2]. destruct (u l r st1) as [x1 st1'], (u l r st2) as [x2 st2'].
  cbn in E1, E2. subst x2. destruct x1 as [[]|]; [now apply IH| |]; now split.
Qed.

Lemma pair_frame u h t h' t' st1 st2 : frame_f u -> b_scope st1 = b_scope st2 ->
  same_o (match u h h' st1 with (Ok true, st) => u t t' st | y => y end)
         (match u h h' st2 with (Ok true, st) => u t t' st | y => y end).
Proof.
  intros Hu Hs. destruct (Hu h h' st1 st2 Hs) as [E1 E2]. destruct (u h h' st1) as [x1 st1'], (u h h' st2) as [x2 st2'].
  cbn in E1, E2. subst x2. destruct x1 as [[]|]; [now apply Hu| |]; now split.
Qed.

Lemma bind_frame v t st1 st2 : b_scope st1 = b_scope st2 -> same_o (bind v t st1) (bind v t st2).
Proof.
  intro Hs. unfold bind. rewrite Hs.
  assert (HB : same_o (if bound (b_scope st2) v then (Err ERuntime, st1) else (Ok tt, mkbst ((v, t) :: b_scope st2) (EVar v :: b_stack st1) (b_ncp st1)))
    (if bound (b_scope st2) v then (Err ERuntime, st2) else (Ok tt, mkbst ((v, t) :: b_scope st2) (EVar v :: b_stack st2) (b_ncp st2))))
    by (destruct (bound (b_scope st2) v); now split).
  destruct t; try exact HB. destruct (N.eqb v v0); [now split|exact HB].
Qed.

Lemma unify_frame n : frame_f (unify n).
Proof.
  induction n as [|n IH]; intros l r st1 st2 Hs; [now split|]. rewrite !unify_S. rewrite Hs.
  assert (Hsc : same_o
    (if has_unify r then unify n r l st1 else
       match l, r with
       | TBool b, TBool b' => (Ok (Bool.eqb b b'), st1)
       | TBool _, _ | _, TBool _ => (Ok false, st1)
       | TTup ls, TTup rs => if Nat.eqb (List.length ls) (List.length rs) then all_unify (unify n) ls rs st1 else (Ok false, st1)
       | _, _ => (Ok (py_eqb l r), st1) end)
    (if has_unify r then unify n r l st2 else
       match l, r with
       | TBool b, TBool b' => (Ok (Bool.eqb b b'), st2)
       | TBool _, _ | _, TBool _ => (Ok false, st2)
       | TTup ls, TTup rs => if Nat.eqb (List.length ls) (List.length rs) then all_unify (unify n) ls rs st2 else (Ok false, st2)
       | _, _ => (Ok (py_eqb l r), st2) end)).
  { destruct (has_unify r); [now apply IH|]. destruct l; try (destruct r; now split).
    destruct r; try (now split). destruct (Nat.eqb _ _); [now apply all_unify_frame|now split]. }
  destruct l; try exact Hsc.
  - destruct (bound (b_scope st2) v).
    + destruct (deref (TVar v) (b_scope st2)); [now apply IH|now split].
    + assert (Hev : same_o (match evaluate n r (b_scope st2) with Err e => (Err e, st1) | Ok r' =>
          match bind v r' st1 with (Ok _, st') => (Ok true, st') | (Err e, st') => (Err e, st') end end)
        (match evaluate n r (b_scope st2) with Err e => (Err e, st2) | Ok r' =>
          match bind v r' st2 with (Ok _, st') => (Ok true, st') | (Err e, st') => (Err e, st') end end)).
      { destruct (evaluate n r (b_scope st2)) as [r'|]; [|now split].
        destruct (bind_frame v r' st1 st2 Hs) as [E1 E2].
        destruct (bind v r' st1) as [x1 y1], (bind v r' st2) as [x2 y2]. cbn in E1, E2. subst x2. destruct x1; now split. }
      destruct r; try exact Hev. now split.
  - now split.
  - destruct (evaluate n (TUn op l) (b_scope st2)); [now apply IH|now split].
  - destruct (evaluate n (TBin op l1 l2) (b_scope st2)); [now apply IH|now split].
  - destruct (evaluate n r (b_scope st2)) as [r'|]; [|now split].
    destruct r'; try (now split); try (now apply IH). destruct (_ && _); [now apply all_unify_frame|now split].
  - destruct (evaluate n r (b_scope st2)) as [r'|]; [|now split].
    destruct r' as [| | | | | | | |[|]|]; try (now split); try (now apply IH); now apply pair_frame.
Qed.

Notation fv := flat_value.

Lemma flat_closed t : flat t -> closed t.
Proof.
  induction t using term_ind'; intro HF; inversion HF; subst; constructor; auto;
    rewrite Forall_forall in *; auto.
Qed.

Lemma flat_nonan t : flat t -> nonan t.
Proof.
  induction t using term_ind'; intro HF; inversion HF; subst; constructor; auto;
    rewrite Forall_forall in *; auto.
Qed.

Lemma fv_view r h t : flat r -> fv r = VCons h t -> exists rh rt, list_view r = Some (rh, rt) /\ fv rh = h /\ fv rt = t /\ flat rh /\ flat rt.
Proof.
  intros Hf E. destruct Hf as [b|x Hx|s|f args Ha|ts Ha|h' t' H1 H2]; try discriminate E.
  - destruct ts as [|x xs]; [discriminate E|]. rewrite fv_tup_cons in E. injection E as E1 E2.
    inversion Ha; subst. exists x, (TTup xs). repeat split; try assumption. now constructor.
  - rewrite fv_ll in E. injection E as E1 E2. exists h', t'. repeat split; assumption.
Qed.

Lemma fv_py_eqb a : flat a -> forall b, flat b -> fv a = fv b -> py_eqb a b = true.
Proof.
  induction a using term_ind'; intros Ha b' Hb E; inversion Ha; subst.
  - inversion Hb; subst; try discriminate E; [injection E as <-; now destruct b|destruct ts; discriminate E].
  - inversion Hb; subst; try discriminate E; [|destruct ts; discriminate E]. cbn. now apply fv_num_eq.
  - inversion Hb; subst; try discriminate E; [|destruct ts; discriminate E]. injection E as <-. cbn. apply pystr_eqb_refl.
  - inversion Hb; subst; try discriminate E; [|destruct ts; discriminate E].
    change (VLit f (map fv args) = VLit f0 (map fv args0)) in E. injection E as <- E.
    rewrite py_eqb_lit, pystr_eqb_refl. cbn. rewrite !andb_true_r.
    match goal with HX : Forall flat args |- _ => rename HX into F1 end.
    match goal with HX : Forall flat args0 |- _ => rename HX into F2 end.
    clear - H E F1 F2. revert args0 E F2. induction args as [|x xs IH]; intros [|y ys] E F2; try discriminate E; [reflexivity|].
    injection E as E1 E2. inversion H; inversion F1; inversion F2; subst. cbn. rewrite IH; auto.
    rewrite andb_true_r. auto.
  - match goal with HX : Forall flat ts |- _ => rename HX into F1 end.
    clear Ha. revert b' Hb E. induction ts as [|x xs IH]; intros b' Hb E.
    + rewrite py_eqb_nil. inversion Hb; subst; try discriminate E. destruct ts; [reflexivity|discriminate E].
    + rewrite fv_tup_cons in E. symmetry in E. apply fv_view in E as (rh & rt & V & E1 & E2 & F2 & F3); [|assumption].
      rewrite py_eqb_tup_cons, V. inversion H; inversion F1; subst. rewrite IH; auto. rewrite andb_true_r. auto.
  - rewrite fv_ll in E. symmetry in E. apply fv_view in E as (rh & rt & V & E1 & E2 & F2 & F3); [|assumption].
    cbn. rewrite V, IHa1, IHa2; auto.
Qed.

(** Matching flat terms. *)
Lemma uann_flat la ra n st : flat la -> flat ra -> (2 * (tsize la + tsize ra) + 3 <= n)%nat ->
  exists o st', uann n la ra st = (Ok o, st') /\ b_scope st' = b_scope st /\
    (o <> None <-> fv la = fv ra).
Proof.
  intros Hl Hr Hn. destruct n as [|n]; [lia|].
  assert (C1 := flat_closed _ Hl). assert (C2 := flat_closed _ Hr).
  assert (HU : forall st, cgood la ra st (unify n la ra st)) by (intro; eapply closed_unify; [apply le_n|lia|assumption|assumption]).
  rewrite uann_S. cbn [new_cp]. set (st0 := mkbst (b_scope st) (b_stack st) (N.succ (b_ncp st))).
  assert (HR : b_scope (reroll (push_cp (b_ncp st) st0) (b_ncp st)) = b_scope st).
  { unfold reroll. cbn. rewrite N.eqb_refl. reflexivity. }
  destruct (HU (push_cp (b_ncp st) st0)) as (b & E & Hb).
  assert (H1 : exists o st', match unify n la ra (push_cp (b_ncp st) st0) with
          | (Err e, st1) => (Err e, st1)
          | (Ok true, st1) => (Ok (Some (b_ncp st)), st1)
          | (Ok false, st1) => (Ok None, reroll st1 (b_ncp st))
          end = (Ok o, st') /\ b_scope st' = b_scope st /\ (o <> None <-> fv la = fv ra)).
  { rewrite E. destruct b.
    - exists (Some (b_ncp st)), (push_cp (b_ncp st) st0). split; [reflexivity|]. split; [reflexivity|]. rewrite <- Hb. split; congruence.
    - exists None, (reroll (push_cp (b_ncp st) st0) (b_ncp st)). split; [reflexivity|]. split; [exact HR|]. rewrite <- Hb. split; congruence. }
  destruct la as [| | | | | | |f args las| |]; try exact H1.
  inversion Hl; subst.
  destruct n as [|n]; [lia|]. rewrite closed_evaluate_id by assumption.
  assert (H2 : exists o st', match unify (S n) (TLit f args []) ra (push_cp (b_ncp st) st0) with
                  | (Err e, st1) => (Err e, st1)
                  | (Ok false, st1) => (Ok None, reroll st1 (b_ncp st))
                  | (Ok true, st1) =>
                      match annots_match (uann (S n)) [] (lit_annots ra) [] st1 with
                      | (Err e, st2) => (Err e, st2)
                      | (Ok false, st2) => (Ok None, reroll st2 (b_ncp st))
                      | (Ok true, st2) => (Ok (Some (b_ncp st)), st2)
                      end
                  end = (Ok o, st') /\ b_scope st' = b_scope st /\ (o <> None <-> fv (TLit f args []) = fv ra)).
  { rewrite E in *. destruct b; exact H1. }
  destruct Hr; exact H2.
Qed.

Lemma annot_find_flat n la ras closed : flat la -> Forall flat ras -> (2 * (tsize la + lsize ras) + 3 <= n)%nat ->
  forall st, exists o st', annot_find (uann n) la ras closed st = (Ok o, st') /\ b_scope st' = b_scope st /\
    match o with
    | Some ra => In ra ras /\ fv la = fv ra /\ py_in ra closed = false
    | None => forall ra, In ra ras -> fv la = fv ra -> py_in ra closed = true
    end.
Proof.
  intros Hl. induction ras as [|x ras IH]; intros Hr Hn st.
  - exists None, st. split; [reflexivity|]. split; [reflexivity|]. easy.
  - inversion Hr; subst. change (2 * (tsize la + (S (tsize x) + lsize ras)) + 3 <= n)%nat in Hn. cbn [annot_find].
    destruct (py_in x closed) eqn:Ep.
    + destruct (IH ltac:(assumption) ltac:(lia) st) as (o & st' & E & S & HO). exists o, st'.
      split; [assumption|]. split; [assumption|]. destruct o as [ra|].
      * destruct HO as (A & B & C). split; [now right|]. split; assumption.
      * intros ra [->|Hin] Hv; [assumption|auto].
    + destruct (uann_flat la x n st Hl ltac:(assumption) ltac:(lia)) as (o & st' & E & S & HO). rewrite E.
      destruct o as [cp|].
      * exists (Some x), st'. split; [reflexivity|]. split; [assumption|]. split; [now left|]. split; [now apply HO|assumption].
      * destruct (IH ltac:(assumption) ltac:(lia) st') as (o & st2 & E2 & S2 & HO2). exists o, st2.
        split; [assumption|]. split; [congruence|]. destruct o as [ra|].
        -- destruct HO2 as (A & B & C). split; [now right|]. split; assumption.
        -- intros ra [->|Hin] Hv; [|auto]. apply HO in Hv. contradiction.
Qed.

Lemma distinct_same l x y : distinct l -> Forall nonan l -> In x l -> In y l -> py_eqb x y = true -> x = y.
Proof.
  intros Hd Hn Hx Hy E. induction Hd as [|a l Ha Hl IH]; [easy|]. inversion Hn; subst. rewrite Forall_forall in Ha.
  destruct Hx as [->|Hx], Hy as [->|Hy]; auto.
  - apply Ha in Hy. congruence.
  - apply Ha in Hx. rewrite py_eqb_sym in Hx. congruence.
Qed.

Lemma annots_match_flat n ras : Forall flat ras -> distinct ras -> forall las closed,
  Forall flat las -> distinct las -> (2 * (lsize las + lsize ras) + 3 <= n)%nat ->
  (* the closed annotations are used by earlier ones *)
  (forall c, In c closed -> In c ras /\ forall la, In la las -> fv la <> fv c) ->
  forall st, exists b st', annots_match (uann n) las ras closed st = (Ok b, st') /\ b_scope st' = b_scope st /\
    (b = true <-> forall la, In la las -> exists ra, In ra ras /\ fv la = fv ra).
Proof.
  intros Hr Hdr las. induction las as [|la las IH]; intros closed Hl Hd Hn Hc st; cbn [annots_match].
  - exists true, st. split; [reflexivity|]. split; [reflexivity|]. split; [easy|reflexivity].
  - inversion Hl; subst. change (2 * (S (tsize la) + lsize las + lsize ras) + 3 <= n)%nat in Hn.
    destruct (annot_find_flat n la ras closed ltac:(assumption) Hr ltac:(lia) st) as (o & st1 & E & S & HO).
    rewrite E. inversion Hd as [|? ? Hd1 Hd2]; subst. destruct o as [ra|].
    + destruct HO as (A & B & C).
      destruct (IH (ra :: closed) ltac:(assumption) Hd2 ltac:(lia)) with (st := st1) as (b & st2 & E2 & S2 & HB).
      * intros c [<-|Hin].
        -- split; [assumption|]. intros la' Hla' Hv. rewrite Forall_forall in Hd1. pose proof (Hd1 la' Hla') as Hf.
           rewrite fv_py_eqb in Hf; [discriminate|assumption| |congruence]. rewrite Forall_forall in H2. auto.
        -- destruct (Hc c Hin) as [Hc1 Hc2]. split; [assumption|]. intros la' Hla'. apply Hc2. now right.
      * exists b, st2. split; [assumption|]. split; [congruence|]. rewrite HB. split.
        -- intros HH la' [<-|Hin]; [eauto|auto].
        -- intros HH la' Hin. apply HH. now right.
    + exists false, st1. split; [reflexivity|]. split; [assumption|]. split; [discriminate|].
      intro HH. exfalso. destruct (HH la (or_introl eq_refl)) as (ra & Hin & Hv).
      pose proof (HO ra Hin Hv) as Hp. apply py_in_true in Hp as (c & Hcin & Hcr).
      destruct (Hc c Hcin) as [Hc1 Hc2]. assert (c = ra).
      { apply (distinct_same ras c ra Hdr); try assumption. eapply Forall_impl; [|exact Hr]. intros; now apply flat_nonan. }
      subst c. apply (Hc2 la (or_introl eq_refl)). assumption.
Qed.

Theorem uann_flat_iff f args las f' args' ras st :
  Forall flat las -> distinct las -> Forall flat ras -> distinct ras ->
  (exists n cp st', uann n (TLit f args las) (TLit f' args' ras) st = (Ok (Some cp), st')) <->
  (exists n st', unify n (TLit f args las) (TLit f' args' ras) st = (Ok true, st')) /\
  (forall la, In la las -> exists ra, In ra ras /\ fv la = fv ra).
Proof.
  intros Hl Hdl Hr Hdr. set (l := TLit f args las). set (r := TLit f' args' ras).
  set (st0 := push_cp (b_ncp st) (mkbst (b_scope st) (b_stack st) (N.succ (b_ncp st)))).
  assert (HE : forall n, uann (S (S n)) l r st =
     match unify (S n) l r st0 with
     | (Err e, st1) => (Err e, st1)
     | (Ok false, st1) => (Ok None, reroll st1 (b_ncp st))
     | (Ok true, st1) =>
         match annots_match (uann (S n)) las ras [] st1 with
         | (Err e, st2) => (Err e, st2)
         | (Ok false, st2) => (Ok None, reroll st2 (b_ncp st))
         | (Ok true, st2) => (Ok (Some (b_ncp st)), st2)
         end
     end).
  { intro n. rewrite uann_S. unfold l, r. rewrite evaluate_S. reflexivity. }
  assert (HM : forall n st, (2 * (lsize las + lsize ras) + 3 <= n)%nat -> exists b st', annots_match (uann n) las ras [] st = (Ok b, st') /\ b_scope st' = b_scope st /\
    (b = true <-> forall la, In la las -> exists ra, In ra ras /\ fv la = fv ra)).
  { intros n st1 Hn. apply annots_match_flat; try assumption. easy. }
  set (m := (2 * (lsize las + lsize ras) + 3)%nat) in *.
  split.
  - intros (n & cp & st' & E).
    apply (uann_more n (S (S (n + m)))) in E; [|lia]. rewrite HE in E.
    destruct (unify (S (n + m)) l r st0) as [[[]|] st1] eqn:Eu; try discriminate E. split.
    + destruct (unify_frame (S (n + m)) l r st0 st eq_refl) as [F1 F2]. rewrite Eu in F1.
      destruct (unify (S (n + m)) l r st) as [x st2] eqn:E2. cbn in F1. subst x. eauto.
    + destruct (HM (S (n + m)) st1 ltac:(lia)) as (b & st2 & Ea & _ & Hb). rewrite Ea in E.
      destruct b; [|discriminate E]. now apply Hb.
  - intros [(n & st' & E) HH]. apply (unify_more n (S (n + m))) in E; [|lia].
    destruct (unify_frame (S (n + m)) l r st0 st eq_refl) as [F1 F2]. rewrite E in F1.
    destruct (unify (S (n + m)) l r st0) as [x st1] eqn:E2. cbn in F1. subst x.
    destruct (HM (S (n + m)) st1 ltac:(lia)) as (b & st2 & Ea & _ & Hb).
    exists (S (S (n + m))), (b_ncp st), st2. rewrite HE, E2, Ea. destruct b; [reflexivity|]. apply Hb in HH. discriminate.
Qed.
End WithPy.
