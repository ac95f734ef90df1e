(** Names, action tables and logs: proofs for C26, C36, C37, C41. *)
From Verif Require Import Base Num Term Str World Names NamesSpec.
From Coq Require DecimalN FinFun Permutation.

(** * Decimal digits *)

Lemma uint_digits_inj d d' : uint_digits d = uint_digits d' -> d = d'.
Proof.
  revert d'. induction d; intros [] H; cbn in H; try discriminate; try reflexivity;
    injection H as H; f_equal; auto.
Qed.

Lemma dec_N_inj a b : dec_N a = dec_N b -> a = b.
Proof. intro H. apply uint_digits_inj in H. now apply DecimalN.Unsigned.to_uint_inj. Qed.

(** * Keywords *)

Section WithPy.
Context {PY : Py}.

Lemma kw_true f : existsb (pystr_eqb f) keywords = true -> In f keywords.
Proof.
  intro H. apply existsb_exists in H as (x & Hx & E). apply pystr_eqb_eq in E. now subst.
Qed.
Lemma kw_false f : existsb (pystr_eqb f) keywords = false -> ~ In f keywords.
Proof.
  intros H Hin. assert (existsb (pystr_eqb f) keywords = true); [|congruence].
  apply existsb_exists. exists f. split; [assumption|apply pystr_eqb_refl].
Qed.

Lemma kw_us f : ~ In (f ++ [95%N]) keywords.
Proof.
  intro H. 
  assert (forallb (fun k => negb (N.eqb 95 (last k 0%N))) keywords = true) as A by reflexivity.
  rewrite forallb_forall in A. apply A in H. rewrite last_last in H. discriminate.
Qed.

Lemma avoid_ok k f : exists g, avoid_keyword (S (S k)) f = Ok g /\ ~ In g keywords /\
  (g = f \/ In f keywords /\ g = f ++ [95%N]).
Proof.
  cbn -[keywords]. destruct (existsb (pystr_eqb f) keywords) eqn:E.
  - destruct (existsb (pystr_eqb (f ++ [95%N])) keywords) eqn:E2.
    + apply kw_true, kw_us in E2. destruct E2.
    + eexists. split; [reflexivity|]. split; [now apply kw_false|]. right.
      split; [now apply kw_true|reflexivity].
  - eexists. split; [reflexivity|]. split; [now apply kw_false|]. now left.
Qed.

(** * sanitize_functor *)

Lemma lstrip_spec s : exists k, s = repeat 95%N k ++ lstrip_us s /\
  match lstrip_us s with c :: _ => c <> 95%N | [] => True end.
Proof.
  induction s as [|c s IH]; cbn.
  - now exists 0%nat.
  - destruct (N.eqb_spec c 95) as [->|H].
    + destruct IH as (k & E & H). exists (S k). split; [|exact H]. cbn. now rewrite <- E.
    + now exists 0%nat.
Qed.

Lemma lstrip_in s c : In c (lstrip_us s) -> In c s.
Proof.
  intro H. destruct (lstrip_spec s) as (k & E & _). rewrite E. apply in_or_app. now right.
Qed.

Lemma sanitize_total s : exists f, sanitize_functor s = Ok f.
Proof.
  unfold sanitize_functor. change (S (List.length keywords)) with (S (S 11)).
  destruct (lstrip_us _) as [|c l].
  - destruct (avoid_ok 11 []) as (g & E & _). eauto.
  - destruct (avoid_ok 11 (lower c ++ l)) as (g & E & _). eauto.
Qed.

Lemma sanitize_not_keyword s f : sanitize_functor s = Ok f -> ~ In f keywords.
Proof.
  unfold sanitize_functor. change (S (List.length keywords)) with (S (S 11)).
  destruct (lstrip_us _) as [|c l]; intro H.
  - destruct (avoid_ok 11 []) as (g & E & K & _). congruence.
  - destruct (avoid_ok 11 (lower c ++ l)) as (g & E & K & _). congruence.
Qed.

Lemma mapped_char s c : In c (map (fun c => if alnum c then c else 95%N) s) -> alnum c = true \/ c = 95%N.
Proof.
  intro H. apply in_map_iff in H as (d & E & _). destruct (alnum d) eqn:A; subst; auto.
Qed.

Lemma lower_ascii c : (c < 128)%N -> alnum c = true ->
  exists d, lower c = [d] /\ (is_digit d || is_lower d)%bool = true /\ (d < 128)%N.
Proof.
  intros H A. unfold alnum, lower in *. apply N.ltb_lt in H as H'. rewrite H' in *. clear H'.
  unfold is_ascii_alnum, is_digit, is_upper, is_lower in *.
  destruct ((65 <=? c) && (c <=? 90))%N eqn:U.
  - apply andb_true_iff in U as [U1 U2]. apply N.leb_le in U1, U2.
    exists (c + 32)%N. split; [reflexivity|]. split; [|lia].
    apply orb_true_iff. right. apply andb_true_iff. split; apply N.leb_le; lia.
  - exists c. split; [reflexivity|]. split; [|exact H].
    rewrite orb_false_r in A. exact A.
Qed.

(** What a character of the result can be. *)
Lemma sanitize_chars s f : sanitize_functor s = Ok f -> lower_stays_alnum ->
  Forall (fun c => alnum c = true \/ c = 95%N) f.
Proof.
  unfold sanitize_functor. change (S (List.length keywords)) with (S (S 11)). intros H L.
  destruct (lstrip_us _) as [|c l] eqn:E.
  - destruct (avoid_ok 11 []) as (g & E1 & _ & [->|[K _]]).
    + rewrite E1 in H. injection H as <-. constructor.
    + now apply (kw_false []) in K.
  - assert (Forall (fun c => alnum c = true \/ c = 95%N) (lower c ++ l)) as F.
    { destruct (lstrip_spec (map (fun c => if alnum c then c else 95%N) s)) as (k & E' & Hc).
      rewrite E in *.
      apply Forall_app. split.
      - assert (In c (map (fun c => if alnum c then c else 95%N) s)) as I.
        { rewrite E'. apply in_or_app. right. now left. }
        apply mapped_char in I as [A|A]; [|contradiction].
        destruct (N.ltb_spec c 128) as [Lt|Ge].
        + destruct (lower_ascii c Lt A) as (d & -> & D & Dl). constructor; [|constructor].
          left. unfold alnum. apply N.ltb_lt in Dl. rewrite Dl. unfold is_ascii_alnum.
          apply orb_true_iff in D as [D|D]; rewrite D; now rewrite ?orb_true_r.
        + unfold lower. apply N.ltb_ge in Ge as G. rewrite G.
          unfold alnum in A. rewrite G in A.
          specialize (L c Ge A). eapply Forall_impl; [|exact L]. intros d D. now left.
      - apply Forall_forall. intros x Hx. apply (mapped_char s). rewrite E'.
        apply in_or_app. right. now right. }
    destruct (avoid_ok 11 (lower c ++ l)) as (g & E1 & _ & [->|[_ ->]]);
      rewrite E1 in H; injection H as <-; [exact F|].
    apply Forall_app. split; [exact F|]. constructor; [now right|constructor].
Qed.

(** The first character. *)
Lemma sanitize_first s c f : sanitize_functor s = Ok (c :: f) ->
  (Forall (fun d => (d < 128)%N) s) ->
  is_digit c = true \/ is_lower c = true.
Proof.
  unfold sanitize_functor. change (S (List.length keywords)) with (S (S 11)). intros H A.
  destruct (lstrip_us _) as [|d l] eqn:E.
  - destruct (avoid_ok 11 []) as (g & E1 & _ & [->|[K _]]).
    + congruence.
    + now apply (kw_false []) in K.
  - destruct (lstrip_spec (map (fun c => if alnum c then c else 95%N) s)) as (k & E' & Hc).
    rewrite E in *.
    assert (In d (map (fun c => if alnum c then c else 95%N) s)) as I.
    { rewrite E'. apply in_or_app. right. now left. }
    apply in_map_iff in I as (d0 & E0 & I). destruct (alnum d0) eqn:Ad; [subst d0|congruence].
    rewrite Forall_forall in A. specialize (A _ I).
    destruct (lower_ascii d A Ad) as (e & Ee & D & _).
    rewrite Ee in *. apply orb_true_iff in D.
    destruct (avoid_ok 11 ([e] ++ l)) as (g & E1 & _ & [->|[_ ->]]);
      rewrite E1 in H; cbn in H; injection H as <- <-; exact D.
Qed.

(** A usable name stays as it is. *)
Lemma sanitize_id c s : is_lower c = true -> Forall (fun d => alnum d = true \/ d = 95%N) s ->
  ~ In (c :: s) keywords -> sanitize_functor (c :: s) = Ok (c :: s).
Proof.
  intros Hc Hs K. unfold sanitize_functor.
  assert (alnum c = true) as A.
  { unfold alnum. unfold is_lower in Hc. apply andb_true_iff in Hc as [H1 H2].
    apply N.leb_le in H1, H2. assert ((c <? 128)%N = true) as -> by (apply N.ltb_lt; lia).
    unfold is_ascii_alnum, is_lower. apply N.leb_le in H1, H2. rewrite H1, H2. now rewrite ?orb_true_r. }
  assert (map (fun c => if alnum c then c else 95%N) s = s) as Es.
  { clear K. induction Hs as [|d s [Hd|Hd] _ IH]; cbn; [reflexivity| |].
    - now rewrite Hd, IH.
    - subst d. cbn. rewrite IH. now destruct (alnum 95). }
  cbn [map]. rewrite A, Es. cbn [lstrip_us].
  unfold is_lower in Hc. apply andb_true_iff in Hc as [H1 H2]. apply N.leb_le in H1, H2.
  destruct (N.eqb_spec c 95) as [->|Hne]; [lia|].
  assert (lower c = [c]) as ->.
  { unfold lower. assert ((c <? 128)%N = true) as -> by (apply N.ltb_lt; lia).
    unfold is_upper. assert ((c <=? 90)%N = false) as -> by (apply N.leb_gt; lia).
    now rewrite andb_false_r. }
  change (S (List.length keywords)) with (S (S 11)).
  destruct (avoid_ok 11 ([c] ++ s)) as (g & E1 & _ & [->|[Hk _]]); [exact E1|]. now destruct K.
Qed.

(** * Agent names *)

Lemma try_names_spec k : forall base i names name,
  try_names k base i names = Ok name ->
  exists j, (i <= j)%N /\ name = base ++ dec_N j /\ ~ In name names /\
    forall i', (i <= i' < j)%N -> In (base ++ dec_N i') names.
Proof.
  induction k as [|k IH]; intros base i names name; cbn; [discriminate|].
  destruct (existsb (pystr_eqb (base ++ dec_N i)) names) eqn:E; intro H.
  - apply IH in H as (j & Hj & En & Hn & Hall). exists j. repeat split; try assumption; [lia|].
    intros i' Hi'. destruct (N.eq_dec i' i) as [->|Hne]; [|apply Hall; lia].
    apply existsb_exists in E as (x & Hx & Ex). apply pystr_eqb_eq in Ex. now subst.
  - injection H as <-. exists i. repeat split; [lia| |].
    + intro Hin. assert (existsb (pystr_eqb (base ++ dec_N i)) names = true); [|congruence].
      apply existsb_exists. eexists. split; [exact Hin|apply pystr_eqb_refl].
    + intros i' Hi'. lia.
Qed.

Lemma try_names_exhausted k : forall base i names e,
  try_names k base i names = Err e ->
  forall j, (j < k)%nat -> In (base ++ dec_N (i + N.of_nat j)) names.
Proof.
  induction k as [|k IH]; intros base i names e; cbn; [lia|].
  destruct (existsb (pystr_eqb (base ++ dec_N i)) names) eqn:E; intro H; [|discriminate].
  intros [|j] Hj.
  - rewrite N.add_0_r. apply existsb_exists in E as (x & Hx & Ex). apply pystr_eqb_eq in Ex. now subst.
  - replace (i + N.of_nat (S j))%N with (N.succ i + N.of_nat j)%N by lia.
    eapply IH; [exact H|lia].
Qed.

Lemma try_names_total base i names : exists name, try_names (S (List.length names)) base i names = Ok name.
Proof.
  destruct (try_names _ base i names) as [x|e] eqn:E; [eauto|].
  pose proof (try_names_exhausted _ _ _ _ _ E) as H. exfalso.
  set (cands := map (fun j => base ++ dec_N (i + N.of_nat j)) (seq 0 (S (List.length names)))).
  assert (NoDup cands) as ND.
  { unfold cands. apply FinFun.Injective_map_NoDup; [|apply seq_NoDup].
    intros a b Hab. apply app_inv_head in Hab. apply dec_N_inj in Hab. lia. }
  assert (incl cands names) as I.
  { intros x Hx. unfold cands in Hx. apply in_map_iff in Hx as (j & <- & Hj).
    apply in_seq in Hj. apply H. lia. }
  pose proof (NoDup_incl_length ND I) as L. unfold cands in L.
  rewrite map_length, seq_length in L. exact (Nat.nle_succ_diag_l _ L).
Qed.

Lemma make_name_total path names : exists name, make_name path names = Ok name.
Proof.
  unfold make_name, base_name.
  destruct (sanitize_total (splitext (basename path))) as (f & ->).
  assert (forall b, exists name,
    (if existsb (pystr_eqb b) names then try_names (S (List.length names)) b 1 names else Ok b) = Ok name) as A.
  { intro b. destruct (existsb _ _); [apply try_names_total|eauto]. }
  destruct f; apply A.
Qed.

Lemma make_name_spec path names name : make_name path names = Ok name ->
  exists base, base_name path = Ok base /\ ~ In name names /\
    (name = base \/
     In base names /\ exists j, (1 <= j)%N /\ name = base ++ dec_N j /\
       forall i, (1 <= i < j)%N -> In (base ++ dec_N i) names).
Proof.
  unfold make_name. destruct (base_name path) as [base|e]; [|discriminate]. cbn [rbind].
  destruct (existsb (pystr_eqb base) names) eqn:E; intro H; exists base; (split; [reflexivity|]).
  - apply try_names_spec in H as (j & Hj & En & Hn & Hall). split; [exact Hn|]. right. split.
    + apply existsb_exists in E as (x & Hx & Ex). apply pystr_eqb_eq in Ex. now subst.
    + eauto 6.
  - injection H as <-. split; [|now left].
    intro Hin. assert (existsb (pystr_eqb base) names = true); [|congruence].
    apply existsb_exists. eexists. split; [exact Hin|apply pystr_eqb_refl].
Qed.

End WithPy.

(** * Action tables *)

Section Actions.
Context {A : Type}.

Lemma assoc_app {K V} (eqb : K -> K -> bool) (k : K) (l l' : list (K * V)) :
  assoc eqb k (l ++ l') = match assoc eqb k l with Some v => Some v | None => assoc eqb k l' end.
Proof. induction l as [|[x v] l IH]; cbn; [reflexivity|]. now destruct (eqb k x). Qed.

Lemma group_eqb_eq a b : group_eqb a b = true <-> a = b.
Proof.
  destruct a as [f n], b as [g m]. unfold group_eqb. cbn. rewrite andb_true_iff, pystr_eqb_eq, Nat.eqb_eq.
  split; [intros [-> ->]; reflexivity|intro H; injection H; auto].
Qed.

Lemma group_eqb_refl a : group_eqb a a = true.
Proof. now apply group_eqb_eq. Qed.

(** What a registry knows after a history. *)
Definition knows (t : actions A) (p : option (actions A)) (h : list (reg A)) : Prop :=
  let '(mkactions parent exact variadic) := t in
  parent = p /\
  (forall f n, assoc group_eqb (f, n) exact = registered h f (Some n)) /\
  (forall f, assoc pystr_eqb f variadic = registered h f None).

Lemma registered_app (h : list (reg A)) r f ar :
  registered (h ++ [r]) f ar =
  match registered h f ar with Some a => Some a | None => registered [r] f ar end.
Proof.
  induction h as [|[s b] h IH]; [reflexivity|]. cbn [Datatypes.app]. cbn [registered] in *. rewrite IH.
  now destruct (sig_dec _ _).
Qed.

Lemma knows_add t p h f ar a :
  knows t p h ->
  match actions_add t f ar a with
  | Ok t' => registered h f ar = None /\ knows t' p (h ++ [(f, ar, a)])
  | Err e => e = EAssert /\ exists b, registered h f ar = Some b
  end.
Proof.
  destruct t as [parent exact variadic]. intros (-> & He & Hv). unfold actions_add.
  destruct ar as [n|].
  - rewrite He. destruct (registered h f (Some n)) as [b|] eqn:R; [eauto|].
    split; [reflexivity|]. cbn [knows]. split; [reflexivity|]. split; [intros f' n'|intros f'].
    + rewrite assoc_app, He, registered_app. destruct (registered h f' (Some n')); [reflexivity|].
      cbn [registered assoc]. destruct (group_eqb (f', n') (f, n)) eqn:E.
      * apply group_eqb_eq in E. injection E as -> ->. destruct (sig_dec _ _); congruence.
      * destruct (sig_dec _ _) as [Es|_]; [|reflexivity]. injection Es as <- <-.
        rewrite group_eqb_refl in E. discriminate.
    + rewrite Hv, registered_app. destruct (registered h f' None); [reflexivity|].
      cbn [registered assoc]. destruct (sig_dec _ _); congruence.
  - rewrite Hv. destruct (registered h f None) as [b|] eqn:R; [eauto|].
    split; [reflexivity|]. cbn [knows]. split; [reflexivity|]. split; [intros f' n'|intros f'].
    + rewrite He, registered_app. destruct (registered h f' (Some n')); [reflexivity|].
      cbn [registered assoc]. destruct (sig_dec _ _); congruence.
    + rewrite assoc_app, Hv, registered_app. destruct (registered h f' None); [reflexivity|].
      cbn [registered assoc]. destruct (pystr_eqb f' f) eqn:E.
      * apply pystr_eqb_eq in E. subst. destruct (sig_dec _ _); congruence.
      * destruct (sig_dec _ _) as [Es|_]; [|reflexivity]. injection Es as ->.
        rewrite pystr_eqb_refl in E. discriminate.
Qed.

Lemma adds_knows h2 : forall t p h1 t', knows t p h1 -> adds t h2 = Ok t' -> knows t' p (h1 ++ h2).
Proof.
  induction h2 as [|[[f ar] a] h2 IH]; cbn [adds]; intros t p h1 t' K H.
  - injection H as <-. now rewrite app_nil_r.
  - pose proof (knows_add t p h1 f ar a K) as K1.
    destruct (actions_add t f ar a) as [t1|e]; [|discriminate].
    destruct K1 as [_ K1]. replace (h1 ++ (f, ar, a) :: h2) with ((h1 ++ [(f, ar, a)]) ++ h2) by now rewrite <- app_assoc.
    eapply IH; eassumption.
Qed.

Lemma knows_new p : knows (actions_new p) p ([] : list (reg A)).
Proof. repeat split. Qed.

Lemma lookup_history (p : option (actions A)) h t : adds (actions_new p) h = Ok t ->
  forall f n, actions_lookup t f n =
    match registered h f (Some n) with
    | Some a => Ok a
    | None =>
        match registered h f None with
        | Some a => Ok a
        | None => match p with Some q => actions_lookup q f n | None => Err EKey end
        end
    end.
Proof.
  intros H f n. apply (adds_knows h _ p [] t (knows_new p)) in H. cbn [Datatypes.app] in H.
  destruct t as [parent exact variadic]. destruct H as (-> & He & Hv).
  cbn [actions_lookup]. rewrite He, Hv. destruct p; reflexivity.
Qed.

Lemma registered_in (h : list (reg A)) f ar : (exists a, registered h f ar = Some a) <-> In (f, ar) (map fst h).
Proof.
  induction h as [|[[g ar'] b] h IH]; cbn [registered map fst In].
  - split; [intros [? ?]; discriminate|easy].
  - destruct (sig_dec (f, ar) (g, ar')) as [E|NE].
    + split; [intro; left; congruence|eauto].
    + rewrite IH. split; [auto|]. intros [E|H]; [congruence|exact H].
Qed.

Lemma adds_ok_gen h2 : forall t p h1, knows t p h1 -> NoDup (map fst h1) ->
  ((exists t', adds t h2 = Ok t') <-> NoDup (map fst (h1 ++ h2))) /\
  (forall e, adds t h2 = Err e -> e = EAssert).
Proof.
  induction h2 as [|[[f ar] a] h2 IH]; cbn [adds]; intros t p h1 K ND.
  - rewrite app_nil_r. split; [split; eauto|discriminate].
  - pose proof (knows_add t p h1 f ar a K) as K1.
    replace (h1 ++ (f, ar, a) :: h2) with ((h1 ++ [(f, ar, a)]) ++ h2) by now rewrite <- app_assoc.
    destruct (actions_add t f ar a) as [t1|e].
    + destruct K1 as [Hn K1]. apply (IH t1 p); [exact K1|].
      rewrite map_app. cbn [map fst]. eapply Permutation.Permutation_NoDup;
        [apply Permutation.Permutation_cons_append|]. constructor; [|exact ND].
      rewrite <- registered_in. intros [b Hb]. congruence.
    + destruct K1 as [-> Hb]. split; [|cbn; intros e E; congruence]. split.
      * intros [? ?]. discriminate.
      * intro N. rewrite map_app in N. rewrite map_app, <- app_assoc in N. cbn [map fst Datatypes.app] in N.
        apply NoDup_remove_2 in N. exfalso. apply N, in_or_app. left. now apply registered_in.
Qed.

Lemma adds_ok (p : option (actions A)) h :
  ((exists t, adds (actions_new p) h = Ok t) <-> NoDup (map fst h)) /\
  (forall e, adds (actions_new p) h = Err e -> e = EAssert).
Proof. apply (adds_ok_gen h _ p []); [apply knows_new|constructor]. Qed.

End Actions.

(** * Logs *)

Lemma log_run_spec ops : forall l,
  match log_run l ops with
  | (Ok _, l') =>
      lg_errors l' = (lg_errors l + errors_in ops)%nat /\ lg_max l' = lg_max l /\
      match lg_max l with
      | Some m => errors_in ops = 0%nat \/ (lg_errors l' < m)%nat
      | None => True
      end
  | (Err e, _) =>
      e = EAggregated /\ (0 < errors_in ops)%nat /\
      exists m, lg_max l = Some m /\ (m <= lg_errors l + errors_in ops)%nat
  end.
Proof.
  induction ops as [|[] ops IH]; intro l; cbn [log_run].
  - unfold errors_in. cbn. split; [lia|]. split; [reflexivity|]. destruct (lg_max l); auto.
  - unfold log_error. cbn [lg_errors lg_max].
    assert (errors_in (LError :: ops) = S (errors_in ops)) as EE by reflexivity. rewrite EE.
    set (l1 := mklog (lg_max l) (S (lg_errors l)) (lg_warnings l)) in *.
    destruct (lg_max l) as [m|] eqn:M.
    + destruct (Nat.leb_spec m (S (lg_errors l))) as [Le|Gt].
      * split; [reflexivity|]. split; [lia|]. exists m. split; [reflexivity|lia].
      * specialize (IH l1). destruct (log_run l1 ops) as [[u|e] l2].
        -- cbn [lg_errors lg_max l1] in IH. destruct IH as (E1 & E2 & E3).
           split; [lia|]. split; [exact E2|]. right. cbn in E3. destruct E3; lia.
        -- cbn [lg_errors lg_max l1] in IH. destruct IH as (E1 & E2 & m' & E3 & E4).
           split; [exact E1|]. split; [lia|]. exists m'. split; [exact E3|lia].
    + specialize (IH l1). destruct (log_run l1 ops) as [[u|e] l2].
      * cbn [lg_errors lg_max l1] in IH. destruct IH as (E1 & E2 & E3).
        split; [lia|]. split; [exact E2|exact I].
      * cbn [lg_errors lg_max l1] in IH. destruct IH as (E1 & E2 & m' & E3 & E4). discriminate.
  - specialize (IH (log_warning l)).
    assert (errors_in (LWarning :: ops) = errors_in ops) as EE by reflexivity. rewrite EE.
    exact IH.
Qed.

Lemma log_outcome max ops :
  match log_run (log_new max) ops with
  | (Ok _, l) =>
      (log_throw l = Ok tt <-> errors_in ops = 0%nat) /\
      (errors_in ops <> 0%nat -> log_throw l = Err EAggregated) /\
      match max with Some m => errors_in ops = 0%nat \/ (errors_in ops < m)%nat | None => True end
  | (Err e, _) => e = EAggregated /\ (0 < errors_in ops)%nat /\
      exists m, max = Some m /\ (m <= errors_in ops)%nat
  end.
Proof.
  pose proof (log_run_spec ops (log_new max)) as H.
  destruct (log_run (log_new max) ops) as [[u|e] l]; cbn [log_new lg_errors lg_max] in H.
  - destruct H as (E1 & E2 & E3). cbn in E1. unfold log_throw. rewrite E1.
    split; [destruct (errors_in ops); split; congruence|].
    split; [destruct (errors_in ops); congruence|]. destruct max; [|exact I]. rewrite E1 in E3. exact E3.
  - exact H.
Qed.

Lemma make_name_unique {PY : Py} path names :
  exists name base, make_name path names = Ok name /\
    match sanitize_functor (splitext (basename path)) with
    | Ok [] => base = s2p "agent"
    | Ok b => base = b
    | Err _ => False
    end /\
    ~ In name names /\
    (name = base \/
     In base names /\ exists j, (1 <= j)%N /\ name = base ++ dec_N j /\
       forall i, (1 <= i < j)%N -> In (base ++ dec_N i) names).
Proof.
  destruct (make_name_total path names) as (name & E). exists name.
  destruct (make_name_spec _ _ _ E) as (base & Eb & Hn & Hc). exists base.
  split; [exact E|]. split; [|auto].
  unfold base_name in Eb. destruct (sanitize_functor _) as [[|c s]|e]; congruence.
Qed.
