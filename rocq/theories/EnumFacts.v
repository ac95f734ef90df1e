(** The enumerating actions. *)
From Verif Require Import Base Num Term Unify TrailSpec TrailFacts TrailHist FuelFacts AnnotFlat AnnotFacts Str World Engine FuelEngine NamesFacts QuerySpec QueryBase QueryFacts QueryComplete EnumSpec.
From Coq Require Import Sorted.

Lemma is_prefix_spec p : forall s, is_prefix p s = true <-> exists post, s = p ++ post.
Proof.
  induction p as [|x p IH]; intros s; cbn.
  - split; [|reflexivity]. intros _. now exists s.
  - destruct s as [|y s]; [split; [discriminate|intros [post H]; discriminate]|].
    rewrite andb_true_iff, N.eqb_eq, IH. split.
    + intros [-> [post ->]]. now exists post.
    + intros [post H]. inversion H; subst. split; [reflexivity|]. now exists post.
Qed.

Lemma occurrences_spec needle s : forall k z,
  In z (occurrences needle s k) <-> exists j, occurs_at needle s j /\ z = (k + Z.of_nat j)%Z.
Proof.
  induction s as [|c s IH]; intros k z; cbn [occurrences]; rewrite in_app_iff.
  - split.
    + intros [H|[]]. destruct (is_prefix needle []) eqn:E; [|destruct H]. destruct H as [<-|[]].
      apply is_prefix_spec in E as [post E]. exists 0%nat. split; [exists [], post; now split|lia].
    + intros (j & (pre & post & E & El) & ->). left. symmetry in E. apply app_eq_nil in E as [-> E]. cbn in El. subst j.
      destruct (is_prefix needle []) eqn:E2; [left; lia|]. assert (is_prefix needle [] = true) by (apply is_prefix_spec; now exists post). congruence.
  - rewrite IH. split.
    + intros [H|(j & (pre & post & E & El) & ->)].
      * destruct (is_prefix needle (c :: s)) eqn:E; [|destruct H]. destruct H as [<-|[]].
        apply is_prefix_spec in E as [post E]. exists 0%nat. split; [exists [], post; now split|lia].
      * exists (S j). split; [|lia]. exists (c :: pre), post. rewrite E. cbn. now rewrite El.
    + intros (j & (pre & post & E & El) & ->). destruct pre as [|c' pre].
      * cbn in El. subst j. left. destruct (is_prefix needle (c :: s)) eqn:E2; [left; lia|].
        assert (is_prefix needle (c :: s) = true) by (apply is_prefix_spec; now exists post). congruence.
      * right. cbn in E, El. inversion E; subst. exists (List.length pre). split; [|lia]. now exists pre, post.
Qed.
Lemma occurrences_sorted needle s : forall k,
  StronglySorted Z.lt (occurrences needle s k) /\ Forall (fun z => (k <= z)%Z) (occurrences needle s k).
Proof.
  induction s as [|c s IH]; intros k; cbn [occurrences].
  - destruct (is_prefix needle []); cbn; repeat constructor; lia.
  - destruct (IH (k + 1)%Z) as [H1 H2]. destruct (is_prefix needle (c :: s)); cbn [Datatypes.app].
    + split; constructor; auto; try lia; eapply Forall_impl; try exact H2; cbn; intros; lia.
    + split; [exact H1|]. eapply Forall_impl; [|exact H2]. cbn. intros. lia.
Qed.

Section WithPy.
Context {PY : Py} {FR : Front}.

Lemma iter_list_of v items : list_of v items -> iter_items v = (items, None).
Proof. induction 1; cbn; [reflexivity|]. now rewrite IHlist_of. Qed.

Lemma take_choices d x items s : decided d x items s -> forall c nv, (List.length (hits d x items s) < List.length c)%nat ->
  take c (choices d x items None s nv) = (hits d x items s, Exhausted).
Proof.
  induction 1 as [|it items (b & st & E) Hd IH]; intros c nv Hc.
  - destruct c as [|[os k] c]; [cbn in Hc; lia|]. reflexivity.
  - cbn [choices hits flat_map] in *. fold (hits d x items s) in *. rewrite E in *. destruct b.
    + destruct c as [|[os k] c]; [cbn in Hc; lia|]. cbn [take Datatypes.app] in *. rewrite IH; [reflexivity|]. cbn in Hc. lia.
    + cbn [Datatypes.app] in *. now apply IH.
Qed.

Lemma tidy_drive ac f args annots d x items a i st W c :
  tidy_act ac args = true ->
  act_sols d (db_of a W) (sols d (db_of a W)) ac (TLit f args annots) args (b_scope st) (w_nv W) =
    choices d x items None (b_scope st) (w_nv W) ->
  decided d x items (b_scope st) -> (List.length (hits d x items (b_scope st)) < List.length c)%nat ->
  exists n0, forall n, (n0 <= n)%nat ->
    fst (drive c n a i (GQ (QAct ac (TLit f args annots))) (st, W)) = (hits d x items (b_scope st), Exhausted).
Proof.
  intros Ht Hc Hd Hl. destruct (drive_complete a i false c ltac:(discriminate) (choices d x items None (b_scope st) (w_nv W))
    (GQ (QAct ac (TLit f args annots))) st W) as [n0 H].
  - rewrite <- Hc. apply (alive_tidy a i false W d st st W (okst_refl _ _) (unchanged_refl _) ac (TLit f args annots)); [reflexivity|exact Ht].
  - rewrite take_choices by assumption. discriminate.
  - exists n0. intros n Hn. rewrite H by assumption. now apply take_choices.
Qed.

Theorem member_enum d x l v items f annots a i st W c :
  evaluate d l (b_scope st) = Ok v -> list_of v items -> decided d x items (b_scope st) ->
  (List.length (hits d x items (b_scope st)) < List.length c)%nat ->
  exists n0, forall n, (n0 <= n)%nat ->
    fst (drive c n a i (GQ (QAct AMember (TLit f [x; l] annots))) (st, W)) = (hits d x items (b_scope st), Exhausted).
Proof.
  intros E Hv Hd Hl. apply tidy_drive; [reflexivity| |exact Hd|exact Hl].
  cbn [act_sols]. rewrite E. cbn [tres]. now rewrite (iter_list_of _ _ Hv).
Qed.

Theorem range_enum d m x v z f annots a i st W c :
  let items := map (fun k => TNum (NInt (Z.of_nat k))) (seq 0 (Z.to_nat z)) in
  grounded d m (b_scope st) = Ok v -> to_int v = Ok z -> decided d x items (b_scope st) ->
  (List.length (hits d x items (b_scope st)) < List.length c)%nat ->
  exists n0, forall n, (n0 <= n)%nat ->
    fst (drive c n a i (GQ (QAct ARange (TLit f [m; x] annots))) (st, W)) = (hits d x items (b_scope st), Exhausted).
Proof.
  intros items E Hz Hd Hl. apply tidy_drive; [reflexivity| |exact Hd|exact Hl].
  cbn [act_sols]. rewrite E. cbn [tres]. now rewrite Hz.
Qed.

Theorem substring_enum d t0 t1 x v0 v1 f annots a i st W c :
  grounded d t0 (b_scope st) = Ok v0 -> grounded d t1 (b_scope st) = Ok v1 ->
  exists ks, StronglySorted Z.lt ks /\
    (forall z, In z ks <-> exists k, occurs_at (asl_str v0) (asl_str v1) k /\ z = Z.of_nat k) /\
    let items := map (fun z => TNum (NInt z)) ks in
    decided d x items (b_scope st) -> (List.length (hits d x items (b_scope st)) < List.length c)%nat ->
    exists n0, forall n, (n0 <= n)%nat ->
      fst (drive c n a i (GQ (QAct ASubstring (TLit f [t0; t1; x] annots))) (st, W)) = (hits d x items (b_scope st), Exhausted).
Proof.
  intros E0 E1. exists (occurrences (asl_str v0) (asl_str v1) 0). split; [apply occurrences_sorted|]. split; [intro z; apply occurrences_spec|].
  intros items Hd Hl. apply tidy_drive; [reflexivity| |exact Hd|exact Hl].
  cbn [act_sols]. now rewrite E0, E1.
Qed.

(** ** Collecting actions *)
Lemma rmapl_freeze (f : term -> res term) (g : term -> fst_ -> res term * fst_) : (forall t t' m, fst m = [] -> f t = Ok t' -> g t m = (Ok t', m)) ->
  forall l l' (m : fst_), fst m = [] -> rmapl f l = Ok l' -> smapl g l m = (Ok l', m).
Proof.
  intros H. induction l as [|x l IH]; intros l' m Hm E; cbn in E |- *; [now inversion E|].
  destruct (f x) as [y|] eqn:Ex; [|discriminate E]. destruct (rmapl f l) as [ys|]; [|discriminate E]. inversion E; subst.
  rewrite (H _ _ m Hm Ex), (IH _ m Hm eq_refl). reflexivity.
Qed.
Lemma freeze_grounded n : forall t s t' m, fst m = [] -> grounded n t s = Ok t' -> freeze n t s m = (Ok t', m).
Proof.
  induction n as [|n IH]; intros t s t' m Hm E; [discriminate E|]. rewrite grounded_S in E. rewrite freeze_S.
  assert (HL : forall l l' (m : fst_), fst m = [] -> rmapl (fun a => grounded n a s) l = Ok l' -> smapl (fun a => freeze n a s) l m = (Ok l', m)).
  { apply rmapl_freeze. intros; now apply IH. }
  destruct t as [b|x|x|v|w|op t|op t1 t2|f args annots|ts|h tl]; cbn in E |- *; try (now inversion E).
  - destruct m as [mm k]. cbn in Hm. subst mm. cbn. destruct (bound s v); [|discriminate E]. destruct (deref (TVar v) s); [|discriminate E]. cbn. now apply IH.
  - destruct (evaluate n (TUn op t) s); [|discriminate E]. now apply IH.
  - destruct (evaluate n (TBin op t1 t2) s); [|discriminate E]. now apply IH.
  - destruct (rmapl (fun a => grounded n a s) args) as [as'|] eqn:E1; [|discriminate E]. rewrite (HL _ _ m Hm E1).
    destruct (rmapl (fun a => grounded n a s) annots) as [ans'|] eqn:E2; [|discriminate E]. rewrite (HL _ _ m Hm E2). now inversion E.
  - unfold rmap in E. destruct (rmapl (fun a => grounded n a s) ts) as [ts'|] eqn:E1; [|discriminate E]. rewrite (HL _ _ m Hm E1). now inversion E.
  - destruct (grounded n h s) as [h'|] eqn:E1; [|discriminate E]. destruct (grounded n tl s) as [tl'|] eqn:E2; [|discriminate E].
    rewrite (IH _ _ _ _ Hm E1), (IH _ _ _ _ Hm E2). now inversion E.
Qed.

Lemma gather_take {X} (P : X -> Prop) (step : scope -> N -> X -> res (X * N)) (f : X -> scope -> X) :
  (forall x s, P x -> P (f x s)) ->
  forall c l, plain_pauses c -> forall t x, P x -> take c t = (l, Exhausted) ->
  (forall s nv x, P x -> In s l -> step s nv x = Ok (f x s, nv)) ->
  exists nv, gather step t x = Ok (fold_left f l x, nv).
Proof.
  intro HP. induction c as [|[os k] c IH]; intros l Hc t x Hx Ht Hs; [discriminate Ht|].
  destruct t as [nv|e| |s nv kt]; cbn in Ht; try discriminate Ht.
  - inversion Ht; subst. now exists nv.
  - inversion Hc as [|? ? E Hc']; subst. inversion E; subst. rewrite N.add_0_r in Ht.
    destruct (take c (kt nv)) as [l' o] eqn:E2. inversion Ht; subst. cbn [gather]. rewrite Hs by (assumption || now left).
    cbn [fold_left]. eapply IH; [exact Hc'|now apply HP|exact E2|]. intros; apply Hs; [assumption|now right].
Qed.

Lemma fold_snoc {A B} (g : A -> B) l : forall acc, fold_left (fun x s => x ++ [g s]) l acc = acc ++ map g l.
Proof. induction l; intros acc; cbn; [now rewrite app_nil_r|]. rewrite IHl, <- app_assoc. reflexivity. Qed.

(** An action with at most one solution. *)
Lemma single_drive ac t d r x a i st W os1 b st1 :
  proper false (QAct ac t) = true -> proper_db false (db_of a W) ->
  (exists nv, sols (S d) (db_of a W) (QAct ac t) (b_scope st) (w_nv W) = choices d r [x] None (b_scope st) nv) ->
  unify d r x (mkbst (b_scope st) [] 0) = (Ok b, st1) ->
  (2 <= List.length os1)%nat ->
  exists n0, forall n, (n0 <= n)%nat ->
    fst (drive os1 n a i (GQ (QAct ac t)) (st, W)) = (if b : bool then [b_scope st1] else [], Exhausted).
Proof.
  intros Hp HD [nv E] Eu Ho. destruct (query_complete false a i (QAct ac t) os1 (S d) st W Hp HD ltac:(discriminate)) as [H|[n0 H]];
    rewrite E in H; rewrite choices_one, Eu in H; destruct os1 as [|[? ?] [|[? ?] os1]]; cbn in Ho; try lia; destruct b; try discriminate H;
    exists n0; intros m Hm; now rewrite H.
Qed.

Section Collect.
Variables (d : nat) (a i : nat) (st : bst) (W : world) (c : list pause) (goal : term) (l : list scope).
Hypothesis HD : proper_db false (db_of a W).
Hypothesis Hc : plain_pauses c.
(** [l] are the solutions of the goal. *)
Hypothesis Hl : take c (sols d (db_of a W) (QTerm goal) (b_scope st) (w_nv W)) = (l, Exhausted).

Theorem findall_collects f annots pat p ts x b st1 os :
  is_literal goal = true -> evaluate d pat (b_scope st) = Ok p ->
  Forall2 (fun s t => grounded d p s = Ok t) l ts ->
  unify d (TTup ts) x (mkbst (b_scope st) [] 0) = (Ok b, st1) -> (2 <= List.length os)%nat ->
  exists n0, forall n, (n0 <= n)%nat ->
    fst (drive os n a i (GQ (QAct AFindall (TLit f [pat; goal; x] annots))) (st, W)) =
      (if b : bool then [b_scope st1] else [], Exhausted).
Proof.
  intros Hg Ep Hts Eu Ho. eapply single_drive; [cbn; now rewrite Hg|exact HD| |exact Eu|exact Ho].
  cbn [sols lit_args tres act_sols]. rewrite Ep. cbn [tres].
  set (g := fun s => match grounded d p s with Ok t => t | Err _ => TBool false end).
  destruct (gather_take (fun x => fst x = []) (find_step d p) (fun x s => (fst x, snd x ++ [g s])) ltac:(trivial) c l Hc _ ([], []) eq_refl Hl) as [nv E].
  { intros s nv [m acc] Hm Hs. unfold find_step. cbn [fst snd].
    assert (Hg' : exists t, grounded d p s = Ok t).
    { clear -Hts Hs. induction Hts; [destruct Hs|]. destruct Hs as [->|Hs]; eauto. }
    destruct Hg' as [t Et]. cbn in Hm. subst m. match goal with |- context[freeze d p s ?m] => rewrite (freeze_grounded d p s t m eq_refl Et) end. unfold g. now rewrite Et. }
  change (gather (find_step d p) (sols d (db_of a W) (QTerm goal) (b_scope st) (w_nv W)) ([], [])) with (gather (find_step d p) (sols d (db_of a W) (QTerm goal) (b_scope st) (w_nv W)) (([] : memo), ([] : list term))). setoid_rewrite E. cbn [tres fst snd]. exists nv. f_equal. f_equal.
  transitivity (snd (([] : memo, map g l))).
  - f_equal. clear -Hts. enough (forall m acc, fold_left (fun x s => (fst x, snd x ++ [g s])) l (m, acc) = ((m : memo), acc ++ map g l)) as H by apply H.
    clear Hts. induction l as [|s l' IH]; intros m acc; cbn; [now rewrite app_nil_r|]. rewrite IH, <- app_assoc. reflexivity.
  - cbn. clear -Hts. induction Hts as [|s t l ts E _ IH]; cbn; [reflexivity|]. rewrite IH. f_equal. unfold g. now rewrite E.
Qed.

Theorem count_counts f annots x b st1 os :
  unify d (TNum (NInt (Z.of_nat (List.length l)))) x (mkbst (b_scope st) [] 0) = (Ok b, st1) -> (2 <= List.length os)%nat ->
  exists n0, forall n, (n0 <= n)%nat ->
    fst (drive os n a i (GQ (QAct ACount (TLit f [goal; x] annots))) (st, W)) =
      (if b : bool then [b_scope st1] else [], Exhausted).
Proof.
  intros Eu Ho. eapply single_drive; [reflexivity|exact HD| |exact Eu|exact Ho].
  cbn [sols lit_args tres act_sols].
  destruct (gather_take (fun _ => True) (fun _ nv k => Ok ((k + 1)%Z, nv)) (fun k _ => (k + 1)%Z) ltac:(trivial) c l Hc _ 0%Z I Hl) as [nv E]; [reflexivity|].
  rewrite E. cbn [tres fst snd]. exists nv. f_equal. f_equal. f_equal.
  enough (H : forall k, fold_left (fun k _ => (k + 1)%Z) l k = (k + Z.of_nat (List.length l))%Z) by (rewrite H; lia).
  clear. induction l as [|s l' IH]; intros k; cbn [fold_left List.length]; [lia|]. rewrite IH. lia.
Qed.

Theorem sum_sums f annots pat p zs x b st1 os :
  is_literal goal = true -> evaluate d pat (b_scope st) = Ok p ->
  Forall2 (fun s z => grounded d p s = Ok (TNum (NInt z))) l zs ->
  unify d (TNum (NInt (fold_right Z.add 0%Z zs))) x (mkbst (b_scope st) [] 0) = (Ok b, st1) -> (2 <= List.length os)%nat ->
  exists n0, forall n, (n0 <= n)%nat ->
    fst (drive os n a i (GQ (QAct ASum (TLit f [pat; goal; x] annots))) (st, W)) =
      (if b : bool then [b_scope st1] else [], Exhausted).
Proof.
  intros Hg Ep Hts Eu Ho. eapply single_drive; [cbn; now rewrite Hg|exact HD| |exact Eu|exact Ho].
  cbn [sols lit_args tres act_sols]. rewrite Ep. cbn [tres].
  set (g := fun s => match grounded d p s with Ok (TNum (NInt z)) => z | _ => 0%Z end).
  destruct (gather_take (fun x => exists z, x = NInt z) (sum_step d p) (fun x s => match x with NInt z => NInt (z + g s) | _ => x end)
     ltac:(intros y s (z & ->); now exists (z + g s)%Z) c l Hc _ (NInt 0) (ex_intro _ 0%Z eq_refl) Hl) as [nv E].
  { intros s nv y (z & ->) Hs. unfold sum_step.
    assert (Hg' : exists t, grounded d p s = Ok (TNum (NInt t))).
    { clear -Hts Hs. induction Hts; [destruct Hs|]. destruct Hs as [->|Hs]; eauto. }
    destruct Hg' as [t Et]. unfold g. rewrite Et. reflexivity. }
  rewrite E. cbn [tres fst snd]. exists nv. f_equal. f_equal.
  enough (H : forall k, fold_left (fun x s => match x with NInt z => NInt (z + g s) | _ => x end) l (NInt k) = NInt (k + fold_right Z.add 0%Z zs)) by (rewrite H; reflexivity).
  clear -Hts. induction Hts as [|s t l zs E _ IH]; intros k; cbn [fold_left fold_right]; [now rewrite Z.add_0_r|].
  rewrite IH. f_equal. unfold g. rewrite E. lia.
Qed.
End Collect.
End WithPy.
