From Coq Require Import Lia.
From Verif Require Import Base Num Term Unify Str World Engine Names NamesSpec NamesFacts CallSpec StemSpec.

Lemma basename_acc_spec path : forall acc, ~ In 47%N acc -> exists base, basename_acc path acc = base /\ ~ In 47%N base /\
  ((~ In 47%N path /\ base = rev acc ++ path) \/ exists d, path = d ++ 47%N :: base).
Proof.
  induction path as [|c path IH]; intros acc H; cbn [basename_acc].
  - exists (rev acc). split; [reflexivity|]. split; [rewrite <- in_rev; exact H|]. left. split; [easy|]. now rewrite app_nil_r.
  - destruct (N.eqb_spec c 47) as [->|Hc].
    + destruct (IH [] (fun x => x)) as (base & E & Hb & C). exists base. split; [exact E|]. split; [exact Hb|]. right.
      destruct C as [(Hp & ->)|(d & ->)]; [exists []; reflexivity|exists (47%N :: d); reflexivity].
    + destruct (IH (c :: acc)) as (base & E & Hb & C); [intros [X|X]; auto|]. exists base. split; [exact E|]. split; [exact Hb|].
      destruct C as [(Hp & ->)|(d & ->)]; [left|right; exists (c :: d); reflexivity].
      split; [intros [X|X]; auto|]. cbn. now rewrite <- app_assoc.
Qed.
Lemma basename_last path : last_part path (basename path).
Proof.
  destruct (basename_acc_spec path [] (fun x => x)) as (base & E & Hb & C). unfold basename. rewrite E. split; [exact Hb|].
  destruct C as [(_ & ->)|(d & ->)]; [exists []; auto|]. exists (d ++ [47%N]). split; [now rewrite <- app_assoc|eauto].
Qed.

Lemma rev_stem_some s t : rev_stem s = Some t -> exists e, s = e ++ 46%N :: t /\ ~ In 46%N e.
Proof.
  induction s as [|c s IH]; [discriminate|]. cbn. destruct (N.eqb_spec c 46) as [->|Hc].
  - intro E. injection E as <-. exists []. auto.
  - intro E. destruct (IH E) as (e & -> & He). exists (c :: e). split; [reflexivity|]. intros [X|X]; auto.
Qed.
Lemma rev_stem_none s : rev_stem s = None -> ~ In 46%N s.
Proof. induction s as [|c s IH]; [auto|]. cbn. destruct (N.eqb_spec c 46) as [->|Hc]; [discriminate|]. intros E [X|X]; [auto|]. now apply IH. Qed.
Lemma rev_stem_app e t : ~ In 46%N e -> rev_stem (e ++ 46%N :: t) = Some t.
Proof. induction e as [|c e IH]; intro H; [reflexivity|]. cbn. destruct (N.eqb_spec c 46) as [->|Hc]; [destruct H; now left|]. apply IH. intro X. apply H. now right. Qed.
Lemma extension_rev base stem : has_extension base stem -> rev_stem (rev base) = Some (rev stem) /\ forallb (fun c => (c =? 46)%N) (rev stem) = false.
Proof.
  intros (ext & -> & He & c & Hc & Hd). split.
  - rewrite rev_app_distr. cbn. rewrite <- app_assoc. cbn. apply rev_stem_app. now rewrite <- in_rev.
  - destruct (forallb _ _) eqn:E; [|reflexivity]. rewrite forallb_forall in E. specialize (E c). rewrite <- in_rev in E. apply E in Hc. now apply N.eqb_eq in Hc.
Qed.
Lemma splitext_spec base : has_extension base (splitext base) \/ (splitext base = base /\ forall s, ~ has_extension base s).
Proof.
  unfold splitext. destruct (rev_stem (rev base)) as [s|] eqn:E.
  - destruct (forallb _ s) eqn:F.
    + right. split; [reflexivity|]. intros s' H. apply extension_rev in H as (H1 & H2). rewrite E in H1. injection H1 as ->. congruence.
    + left. apply rev_stem_some in E as (e & Eb & He). exists (rev e). split; [|split].
      * rewrite <- (rev_involutive base), Eb, rev_app_distr. cbn. now rewrite <- app_assoc.
      * now rewrite <- in_rev.
      * clear -F. induction s as [|c s IH]; [discriminate|]. cbn in F. destruct (N.eqb_spec c 46) as [->|Hc].
        -- destruct (IH F) as (d & Hd & Hn). exists d. split; [|exact Hn]. cbn. apply in_or_app. now left.
        -- exists c. split; [cbn; apply in_or_app; right; now left|exact Hc].
  - right. split; [reflexivity|]. intros s' H. apply extension_rev in H as (H1 & H2). congruence.
Qed.
Theorem stem_is path : stem_of path (splitext (basename path)).
Proof. exists (basename path). split; [apply basename_last|apply splitext_spec]. Qed.

Lemma last_unique path b b' : last_part path b -> last_part path b' -> b = b'.
Proof.
  intros (H & dir & -> & D) (H' & dir' & E & D').
  assert (G : forall l1 (b1 b2 : pystr) l2, ~ In 47%N b1 -> ~ In 47%N b2 -> l1 ++ b1 = l2 ++ b2 -> (l1 = [] \/ exists d, l1 = d ++ [47%N]) -> (l2 = [] \/ exists d, l2 = d ++ [47%N]) -> b1 = b2).
  { clear. intros l1 b1 b2 l2 H H' E D D'. apply (f_equal (@rev _)) in E. rewrite !rev_app_distr in E.
    assert (X : rev b1 = rev b2); [|rewrite <- (rev_involutive b1), <- (rev_involutive b2); now rewrite X].
    assert (P1 : rev l1 = [] \/ exists r, rev l1 = 47%N :: r) by (destruct D as [->|(d & ->)]; [now left|right; rewrite rev_app_distr; cbn; eauto]).
    assert (P2 : rev l2 = [] \/ exists r, rev l2 = 47%N :: r) by (destruct D' as [->|(d & ->)]; [now left|right; rewrite rev_app_distr; cbn; eauto]).
    rewrite in_rev in H, H'. revert H H' E. generalize (rev b1) (rev b2). clear -P1 P2. revert P1 P2. generalize (rev l1) (rev l2). clear. intros r1 r2 P1 P2.
    induction l as [|x l IH]; intros [|y l'] H H' E; cbn in E; auto.
    - destruct P1 as [->|(r & ->)]; [discriminate|]. injection E as <- _. destruct H'. now left.
    - destruct P2 as [->|(r & ->)]; [discriminate|]. injection E as -> _. destruct H. now left.
    - injection E as -> E. f_equal. apply IH; [intro X; apply H; now right|intro X; apply H'; now right|exact E]. }
  eapply G; eassumption.
Qed.
Theorem stem_unique path s s' : stem_of path s -> stem_of path s' -> s = s'.
Proof.
  intros (b & L & C) (b' & L' & C'). rewrite (last_unique _ _ _ L' L) in *.
  destruct C as [C|(-> & C)], C' as [C'|(-> & C')].
  - apply extension_rev in C as (C & _). apply extension_rev in C' as (C' & _). rewrite C in C'. injection C' as C'. rewrite <- (rev_involutive s), C'. apply rev_involutive.
  - now apply C' in C.
  - now apply C in C'.
  - reflexivity.
Qed.

Theorem make_name_stem {PY : Py} path names :
  exists name base stem, make_name path names = Ok name /\ stem_of path stem /\
    match sanitize_functor stem with
    | Ok [] => base = s2p "agent"
    | Ok b => base = b
    | Err _ => False
    end /\
    ~ In name names /\
    (name = base \/
     In base names /\ exists j, (1 <= j)%N /\ name = base ++ dec_N j /\
       forall i, (1 <= i < j)%N -> In (base ++ dec_N i) names).
Proof.
  destruct (make_name_unique path names) as (name & base & H1 & H2). exists name, base, (splitext (basename path)).
  split; [exact H1|]. split; [apply stem_is|exact H2].
Qed.

(** Warnings are counted. *)
Theorem warnings_counted ops : forall l l', log_run l ops = (Ok tt, l') -> lg_warnings l' = (lg_warnings l + warnings_in ops)%nat.
Proof.
  unfold warnings_in. induction ops as [|[|] ops IH]; intros l l' E; cbn [log_run filter List.length] in *.
  - injection E as <-. lia.
  - destruct (log_error l) as [[u|e] l1] eqn:El; [|discriminate]. rewrite (IH _ _ E). f_equal. unfold log_error in El. cbv zeta in El.
    destruct (lg_max l); [destruct (Nat.leb _ _); [discriminate|]|]; injection El as _ <-; reflexivity.
  - rewrite (IH _ _ E). cbn. lia.
Qed.

(** Registered functions are found with the arguments they are called with. *)
Lemma handed_count {PY : Py} d s specs ins ws : handed d s specs ins ws -> count_specs specs = List.length ins.
Proof.
  unfold count_specs. induction 1; cbn; auto. destruct sp; cbn; try (f_equal; assumption);
    match goal with X : converts _ _ _ |- _ => inversion X end.
Qed.
Lemma str_eqb_eq x y : pystr_eqb x y = true -> x = y.
Proof. revert y. induction x as [|a x IH]; intros [|b y]; cbn; try discriminate; [auto|]. rewrite Bool.andb_true_iff, N.eqb_eq. intros (-> & H). f_equal. auto. Qed.
Lemma str_eqb_refl x : pystr_eqb x x = true.
Proof. induction x; cbn; [reflexivity|]. now rewrite N.eqb_refl. Qed.
Lemma add_registers t f n a t' : actions_add t f (Some n) a = Ok t' -> registers t f n a t'.
Proof.
  destruct t as [p e v]. cbn. destruct (assoc group_eqb (f, n) e) eqn:E; [discriminate|]. intro X. injection X as <-.
  assert (G : forall k, assoc group_eqb k (e ++ [((f, n), a)]) = match assoc group_eqb k e with Some x => Some x | None => if group_eqb k (f, n) then Some a else None end).
  { intro k. clear. induction e as [|[k' x] e IH]; [reflexivity|]. cbn. destruct (group_eqb k k'); auto. }
  assert (R : group_eqb (f, n) (f, n) = true) by (unfold group_eqb; cbn; rewrite str_eqb_refl, PeanoNat.Nat.eqb_refl; reflexivity).
  split.
  - cbn. now rewrite G, E, R.
  - intros g m H. cbn. rewrite G. destruct (assoc group_eqb (g, m) e) eqn:E2; [reflexivity|].
    destruct (group_eqb (g, m) (f, n)) eqn:E3; [|reflexivity]. exfalso. apply H. unfold group_eqb in E3. cbn in E3.
    apply Bool.andb_true_iff in E3 as (E3 & E4). apply str_eqb_eq in E3. apply PeanoNat.Nat.eqb_eq in E4. congruence.
Qed.
Theorem function_found {PY : Py} d s t f specs impl t' ins ws : add_function t f specs impl = Ok t' -> handed d s specs ins ws ->
  registers t f (S (List.length ins)) (AFun specs impl) t'.
Proof. intros E H. unfold add_function in E. rewrite (handed_count _ _ _ _ _ H), PeanoNat.Nat.add_1_r in E. now apply add_registers. Qed.
Theorem predicate_found {PY : Py} d s t f specs impl t' ins ws : add_predicate t f specs impl = Ok t' -> handed d s specs ins ws ->
  registers t f (List.length ins) (APred specs impl) t'.
Proof. intros E H. unfold add_predicate in E. rewrite (handed_count _ _ _ _ _ H) in E. now apply add_registers. Qed.
Theorem procedure_found {PY : Py} d s t f specs impl t' ins ws : add_procedure t f specs impl = Ok t' -> handed d s specs ins ws ->
  registers t f (List.length ins) (AProc specs impl) t'.
Proof. intros E H. unfold add_procedure in E. rewrite (handed_count _ _ _ _ _ H) in E. now apply add_registers. Qed.
