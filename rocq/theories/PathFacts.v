(** Normalised file names. *)
From Verif Require Import Base Str Program PathSpec.

Lemma split_joins s : forall cur, exists c l, split_slash s cur = (cur ++ c) :: l /\ s = joins [slash] (c :: l) /\ Forall (fun c => ~ In slash c) (c :: l).
Proof.
  induction s as [|x s IH]; intro cur; cbn [split_slash].
  - exists [], []. rewrite app_nil_r. split; [reflexivity|]. split; [reflexivity|]. constructor; [intros []|constructor].
  - destruct (N.eqb_spec x slash) as [->|N].
    + destruct (IH []) as (c & l & E & Es & HF). exists [], (c :: l). rewrite app_nil_r. cbn in E. rewrite E. split; [reflexivity|].
      split; [cbn; f_equal; exact Es|]. constructor; [intros []|exact HF].
    + destruct (IH (cur ++ [x])) as (c & l & E & Es & HF). exists (x :: c), l. rewrite E, <- app_assoc. split; [reflexivity|].
      split; [destruct l; cbn in *; now rewrite Es|]. inversion HF; subst. constructor; [|assumption]. intros [H|H]; congruence.
Qed.
Lemma spelled_split p : spelled p (split_slash p []).
Proof. destruct (split_joins p []) as (c & l & E & Es & HF). rewrite E. cbn [app]. split; [exact Es|]. split; [discriminate|exact HF]. Qed.
Lemma split_word c s : ~ In slash c -> forall cur, split_slash (c ++ s) cur = split_slash s (cur ++ c).
Proof.
  intro H. induction c as [|x c IH]; intro cur; cbn [split_slash app]; [now rewrite app_nil_r|].
  destruct (N.eqb_spec x slash) as [->|N]; [destruct H; now left|]. rewrite IH by (intro; apply H; now right). now rewrite <- app_assoc.
Qed.
Lemma split_of cs : cs <> [] -> Forall (fun c => ~ In slash c) cs -> split_slash (joins [slash] cs) [] = cs.
Proof.
  intros N H. destruct cs as [|c cs]; [contradiction|]. clear N. revert c H. induction cs as [|d cs IH]; intros c H; inversion H; subst.
  - cbn [joins]. rewrite <- (app_nil_r c) at 1. now rewrite split_word.
  - change (joins [slash] (c :: d :: cs)) with (c ++ slash :: joins [slash] (d :: cs)). rewrite split_word by assumption. cbn [split_slash].
    rewrite N.eqb_refl. cbn [app]. f_equal. now apply IH.
Qed.
Lemma spelled_unique p cs : spelled p cs -> cs = split_slash p [].
Proof. intros (-> & N & H). symmetry. now apply split_of. Qed.

Lemma slashes_inj j j' r r' : slashes j ++ r = slashes j' ++ r' -> ~ rooted r -> ~ rooted r' -> j = j' /\ r = r'.
Proof.
  revert j'. induction j as [|j IH]; intros [|j'] E N N'; cbn in E.
  - auto.
  - destruct N. rewrite E. now eexists.
  - destruct N'. rewrite <- E. now eexists.
  - injection E as E. apply IH in E as [-> ->]; auto.
Qed.
Lemma leading_unique p k k' : leading p k -> leading p k' -> k = k'.
Proof. intros (j & r & -> & N & ->) (j' & r' & E & N' & ->). apply slashes_inj in E as [<- _]; auto. Qed.
Lemma leading_exists p : leading p (initial_slashes p).
Proof.
  assert (H : exists j r, p = slashes j ++ r /\ ~ rooted r).
  { induction p as [|x p (j & r & E & N)]; [exists 0%nat, []; split; [reflexivity|intros [r E]; discriminate]|].
    destruct (N.eqb_spec x 47) as [->|Nx].
    - exists (S j), r. split; [now rewrite E|exact N].
    - exists 0%nat, (x :: p). split; [reflexivity|]. intros [r' E']. congruence. }
  destruct H as (j & r & -> & N). exists j, r. split; [reflexivity|]. split; [exact N|].
  assert (HN : match r with [] => True | c :: _ => (c =? slash)%N = false end).
  { destruct r as [|c r]; [exact I|]. apply N.eqb_neq. intros ->. apply N. now eexists. }
  destruct j as [|[|[|j]]]; cbn [slashes repeat app].
  - destruct r as [|c [|d [|e r]]]; cbn; try rewrite HN; reflexivity.
  - destruct r as [|c [|d r]]; cbn; rewrite ?HN; reflexivity.
  - destruct r as [|c r]; cbn; rewrite ?HN; reflexivity.
  - destruct j, r; reflexivity.
Qed.

Definition plain_name (c : pystr) : Prop := c <> [] /\ c <> s2p "." /\ c <> s2p "..".
Lemma name_eqb c d : c <> d -> pystr_eqb c d = false.
Proof. intro N. destruct (pystr_eqb c d) eqn:E; [|reflexivity]. now apply pystr_eqb_eq in E. Qed.
Lemma leads_norm k cs u names : leads_to (negb (Nat.eqb k 0)) cs u names ->
  (k <> 0%nat -> u = 0%nat) /\ Forall plain_name names /\ (forall c, In c names -> In c cs) /\
  forall rest, norm_comps k (cs ++ rest) [] = norm_comps k rest (names ++ repeat (s2p "..") u).
Proof.
  intro H. induction H as [|cs u names c H (I1 & I2 & I3 & I4) Hc|cs u names c H (I1 & I2 & I3 & I4) N1 N2 N3|cs u d names H (I1 & I2 & I3 & I4)|cs u Hr H (I1 & I2 & I3 & I4)|cs u Hr H (I1 & I2 & I3 & I4)].
  - split; [auto|]. split; [constructor|]. split; [intros c []|reflexivity].
  - split; [exact I1|]. split; [exact I2|]. split; [intros d Hd; apply in_or_app; auto|]. intro rest. rewrite <- app_assoc, I4. cbn [app norm_comps].
    destruct Hc as [-> | ->]; reflexivity.
  - split; [exact I1|]. split; [constructor; [now split|exact I2]|]. split; [intros d [<-|Hd]; apply in_or_app; [right; now left|auto]|].
    intro rest. rewrite <- app_assoc, I4. cbn [app norm_comps]. rewrite !name_eqb by assumption. reflexivity.
  - split; [exact I1|]. inversion I2 as [|? ? Hd I2']; subst. split; [exact I2'|]. split; [intros c Hc; apply in_or_app; left; apply I3; now right|].
    intro rest. rewrite <- app_assoc, I4. cbn [app norm_comps]. change (pystr_eqb (s2p "..") [] || pystr_eqb (s2p "..") (s2p ".")) with false.
    change (pystr_eqb (s2p "..") (s2p "..")) with true. cbn [negb orb]. rewrite andb_false_r. cbn [orb]. rewrite (name_eqb d) by apply Hd. reflexivity.
  - apply negb_false_iff, Nat.eqb_eq in Hr. subst k. split; [congruence|]. split; [constructor|]. split; [intros c []|].
    intro rest. rewrite <- app_assoc, I4. cbn [app norm_comps]. change (pystr_eqb (s2p "..") [] || pystr_eqb (s2p "..") (s2p ".")) with false.
    change (pystr_eqb (s2p "..") (s2p "..")) with true. destruct u; reflexivity.
  - apply negb_true_iff, Nat.eqb_neq in Hr. split; [exact I1|]. split; [constructor|]. split; [intros c []|].
    intro rest. rewrite <- app_assoc, I4. cbn [app norm_comps]. change (pystr_eqb (s2p "..") [] || pystr_eqb (s2p "..") (s2p ".")) with false.
    change (pystr_eqb (s2p "..") (s2p "..")) with true. rewrite I1 by assumption. cbn [repeat]. apply Nat.eqb_neq in Hr. rewrite Hr. reflexivity.
Qed.
Lemma leads_exists root cs : exists u names, leads_to root cs u names.
Proof.
  induction cs as [|c cs (u & names & H)] using rev_ind; [exists 0%nat, []; constructor|].
  destruct (pystr_eqb c []) eqn:E1; [apply pystr_eqb_eq in E1; exists u, names; apply lt_stay; auto|].
  destruct (pystr_eqb c (s2p ".")) eqn:E2; [apply pystr_eqb_eq in E2; exists u, names; apply lt_stay; auto|].
  destruct (pystr_eqb c (s2p "..")) eqn:E3.
  - apply pystr_eqb_eq in E3. subst c. destruct names as [|d names]; [|exists u, names; eapply lt_back; exact H].
    destruct root; [exists u, []; now apply lt_root|exists (S u), []; now apply lt_above].
  - exists u, (c :: names). apply lt_into; auto; intro Hc; subst c; discriminate.
Qed.
Lemma denotes_exists p : exists k u names, denotes p k u names.
Proof.
  destruct (leads_exists (negb (Nat.eqb (initial_slashes p) 0)) (split_slash p [])) as (u & names & H).
  exists (initial_slashes p), u, names. split; [apply leading_exists|]. eexists. split; [apply spelled_split|exact H].
Qed.

(** The normal spelling. *)
Definition canonical (k u : nat) (names : list pystr) : pystr :=
  match slashes k ++ joins [slash] (repeat (s2p "..") u ++ rev names) with [] => s2p "." | q => q end.
Lemma rev_ups names u : rev (names ++ repeat (s2p "..") u) = repeat (s2p "..") u ++ rev names.
Proof.
  rewrite rev_app_distr. f_equal. induction u as [|u IH]; [reflexivity|]. cbn [repeat rev]. rewrite IH. clear. induction u as [|u IH]; [reflexivity|]. cbn [repeat app]. now rewrite IH.
Qed.
Lemma normal_spelling p k u names : denotes p k u names -> normpath p = canonical k u names.
Proof.
  intros (Hk & cs & Hc & Hl). rewrite (leading_unique _ _ _ Hk (leading_exists p)) in *. apply spelled_unique in Hc. subst cs.
  apply leads_norm in Hl as (_ & _ & _ & E). specialize (E []). rewrite app_nil_r in E. cbn [norm_comps] in E. rewrite rev_ups in E.
  unfold canonical. rewrite <- E. destruct p; reflexivity.
Qed.
Lemma ups_names u u' n n' : Forall plain_name n -> Forall plain_name n' ->
  repeat (s2p "..") u ++ n = repeat (s2p "..") u' ++ n' -> u = u' /\ n = n'.
Proof.
  intros H H'. revert u'. induction u as [|u IH]; intros [|u'] E; cbn in E.
  - auto.
  - subst n. inversion H as [|? ? (_ & _ & X) _]. now destruct X.
  - subst n'. inversion H' as [|? ? (_ & _ & X) _]. now destruct X.
  - injection E as E. apply IH in E as [-> ->]. auto.
Qed.
Lemma denotes_unique p k u names k' u' names' : denotes p k u names -> denotes p k' u' names' -> k = k' /\ u = u' /\ names = names'.
Proof.
  intros (Hk & cs & Hc & Hl) (Hk' & cs' & Hc' & Hl'). assert (k' = k) by (eapply leading_unique; eassumption). subst k'.
  apply spelled_unique in Hc, Hc'. subst cs cs'. apply leads_norm in Hl as (_ & HN & _ & E), Hl' as (_ & HN' & _ & E').
  specialize (E []). specialize (E' []). rewrite E in E'. cbn [norm_comps] in E'. rewrite !rev_ups in E'.
  apply ups_names in E' as [-> E']; [|now apply Forall_rev..]. split; [reflexivity|]. split; [reflexivity|].
  rewrite <- (rev_involutive names), E'. apply rev_involutive.
Qed.
Lemma leads_start root k : leads_to root (repeat [] k) 0 [].
Proof.
  induction k as [|k IH]; [constructor|]. replace (repeat [] (S k)) with (repeat (@nil N) k ++ [[]]); [apply lt_stay; auto|].
  clear. induction k as [|k IH]; [reflexivity|]. cbn [repeat app]. now rewrite IH.
Qed.
Lemma leads_ups cs u : leads_to false cs 0 [] -> leads_to false (cs ++ repeat (s2p "..") u) u [].
Proof.
  intro H. induction u as [|u IH]; [now rewrite app_nil_r|].
  replace (repeat (s2p "..") (S u)) with (repeat (s2p "..") u ++ [s2p ".."]).
  - rewrite app_assoc. now apply lt_above.
  - clear. induction u as [|u IH]; [reflexivity|]. cbn [repeat app]. now rewrite IH.
Qed.
Lemma leads_into root cs u names : leads_to root cs u [] -> Forall plain_name names -> leads_to root (cs ++ rev names) u names.
Proof.
  intros H HN. induction HN as [|c names (N1 & N2 & N3) HN IH]; [now rewrite app_nil_r|]. cbn [rev]. rewrite app_assoc. now apply lt_into.
Qed.
Lemma joins_lead k cs : cs <> [] -> joins [slash] (repeat [] k ++ cs) = slashes k ++ joins [slash] cs.
Proof.
  intro N. induction k as [|k IH]; [reflexivity|]. cbn [repeat app]. unfold slashes in *. cbn [repeat app]. rewrite <- IH.
  destruct (repeat [] k ++ cs) eqn:E; [|reflexivity]. apply app_eq_nil in E as [_ E]. contradiction.
Qed.
Lemma canonical_denotes p k u names : denotes p k u names -> denotes (canonical k u names) k u names.
Proof.
  intros (Hk & cs & Hc & Hl). destruct Hc as (_ & _ & HS). apply leads_norm in Hl as (Hu & HN & Hin & _).
  assert (Hk3 : match k with 0 => 0 | 2 => 2 | _ => 1 end%nat = k).
  { destruct Hk as (j & r & _ & _ & ->). destruct j as [|[|[|j]]]; reflexivity. }
  clear p Hk. set (l := repeat (s2p "..") u ++ rev names).
  assert (HL : Forall (fun c => ~ In slash c /\ c <> []) l).
  { apply Forall_app. split.
    - apply Forall_forall. intros c Hc. apply repeat_spec in Hc. subst c. split; [intros [H|[H|[]]]; discriminate|discriminate].
    - apply Forall_rev, Forall_forall. intros c Hc. rewrite Forall_forall in HN, HS. split; [apply HS, Hin, Hc|apply HN, Hc]. }
  assert (HR : ~ rooted (joins [slash] l)).
  { destruct HL as [|c l [H1 H2] _]; [intros [r E]; discriminate|]. destruct c as [|x c]; [now destruct H2|]. intros [r E].
    apply H1. left. destruct l; cbn in E; injection E as -> _; reflexivity. }
  assert (HLd : leads_to (negb (Nat.eqb k 0)) (repeat [] k ++ l) u names).
  { unfold l. rewrite app_assoc. apply leads_into; [|exact HN]. destruct k as [|k].
    - apply leads_ups. constructor.
    - rewrite (Hu ltac:(discriminate)). rewrite app_nil_r. apply leads_start. }
  assert (HE : l = [] \/ l <> []) by (destruct l; [now left|right; discriminate]). destruct HE as [HE|HE].
  - unfold canonical. fold l. rewrite HE. cbn [joins]. rewrite app_nil_r.
    assert (u = 0%nat /\ names = []) as [-> ->]. { unfold l in HE. apply app_eq_nil in HE as [H1 H2]. destruct u; [|discriminate]. split; [reflexivity|]. rewrite <- (rev_involutive names), H2. reflexivity. }
    destruct k as [|k].
    + cbn. split; [exists 0%nat, (s2p "."); split; [reflexivity|]; split; [intros [r E]; discriminate|reflexivity]|].
      exists [s2p "."]. split; [|apply (lt_stay false []); [constructor|auto]]. split; [reflexivity|]. split; [discriminate|]. constructor; [|constructor].
      intros [H|[]]; discriminate.
    + cbn [slashes repeat]. change (47%N :: repeat 47%N k) with (slashes (S k)). split.
      { exists (S k), []. split; [now rewrite app_nil_r|]. split; [intros [r E]; discriminate|now rewrite Hk3]. }
      exists (repeat [] (S k) ++ [[]]). split; [|apply lt_stay; [apply leads_start|auto]]. split; [|split].
      * rewrite joins_lead by discriminate. cbn [joins]. now rewrite app_nil_r.
      * discriminate.
      * apply Forall_app. split; [|constructor; [intros []|constructor]]. apply Forall_forall. intros c Hc. apply repeat_spec in Hc. subst c. intros [].
  - assert (EQ : canonical k u names = slashes k ++ joins [slash] l).
    { unfold canonical. fold l. destruct (slashes k ++ joins [slash] l) eqn:E; [|reflexivity]. apply app_eq_nil in E as [_ E].
      destruct HL as [|c l [H1 H2] _]; [contradiction|]. destruct c; [now destruct H2|]. destruct l; discriminate. }
    rewrite EQ. split; [exists k, (joins [slash] l); auto|]. exists (repeat [] k ++ l). split; [|exact HLd]. split; [symmetry; now apply joins_lead|]. split.
    + intro E. apply app_eq_nil in E as [_ E]. contradiction.
    + apply Forall_app. split; [|eapply Forall_impl; [|exact HL]; intros c [Hc _]; exact Hc]. apply Forall_forall. intros c Hc. apply repeat_spec in Hc. subst c. intros [].
Qed.

Lemma normpath_denotes p k u names : denotes p k u names -> denotes (normpath p) k u names.
Proof. intro H. rewrite (normal_spelling _ _ _ _ H). eapply canonical_denotes. exact H. Qed.
Lemma normpath_same p q k u names k' u' names' : denotes p k u names -> denotes q k' u' names' ->
  (normpath p = normpath q <-> k = k' /\ u = u' /\ names = names').
Proof.
  intros H H'. split.
  - intro E. apply normpath_denotes in H, H'. rewrite E in H. eapply denotes_unique; eassumption.
  - intros (<- & <- & <-). now rewrite (normal_spelling _ _ _ _ H), (normal_spelling _ _ _ _ H').
Qed.
Lemma normpath_again p : normpath (normpath p) = normpath p.
Proof.
  destruct (denotes_exists p) as (k & u & names & H). now rewrite (normal_spelling _ _ _ _ (normpath_denotes _ _ _ _ H)), (normal_spelling _ _ _ _ H).
Qed.

(** ** Includes *)
Lemma drop_word w r : ~ In slash w -> drop_to_slash (w ++ r) = drop_to_slash r.
Proof.
  induction w as [|c w IH]; intro H; [reflexivity|]. cbn. destruct (N.eqb_spec c slash) as [->|N]; [destruct H; now left|]. apply IH. intro; apply H; now right.
Qed.
Lemma rev_slashes j : rev (slashes j) = slashes j.
Proof. unfold slashes. induction j as [|j IH]; [reflexivity|]. cbn [repeat rev]. rewrite IH. clear. induction j as [|j IH]; [reflexivity|]. cbn [repeat app]. now rewrite IH. Qed.
Lemma strip_slashes j d : lstrip_slash (slashes j ++ d) = lstrip_slash d.
Proof. induction j as [|j IH]; [reflexivity|exact IH]. Qed.
Lemma all_slashes j d : forallb (N.eqb slash) (slashes j ++ d) = forallb (N.eqb slash) d.
Proof. induction j as [|j IH]; [reflexivity|exact IH]. Qed.
(** The directory of a file. *)
Lemma dirname_bare base : ~ In slash base -> dirname base = [].
Proof.
  intro H. unfold dirname. rewrite <- (app_nil_r (rev base)), drop_word by (now rewrite <- in_rev). reflexivity.
Qed.
Lemma dirname_deep d j base : ~ In slash base -> (forall e, d <> e ++ [slash]) ->
  dirname (d ++ slashes (S j) ++ base) = match d with [] => slashes (S j) | _ => d end.
Proof.
  intros H Hd. unfold dirname. rewrite !rev_app_distr, rev_slashes, <- app_assoc, drop_word by (now rewrite <- in_rev).
  change (drop_to_slash (slashes (S j) ++ rev d)) with (slashes (S j) ++ rev d). cbv zeta. rewrite all_slashes, strip_slashes.
  destruct (rev d) as [|c r] eqn:E.
  - assert (d = []) as -> by (rewrite <- (rev_involutive d), E; reflexivity). cbn [forallb]. rewrite app_nil_r. apply rev_slashes.
  - assert (Ed : d = rev r ++ [c]) by (rewrite <- (rev_involutive d), E; reflexivity).
    assert (N : (slash =? c)%N = false) by (apply N.eqb_neq; intros <-; now apply (Hd (rev r))). cbn [forallb lstrip_slash]. rewrite N. cbn [andb].
    rewrite N.eqb_sym, N. change (rev (c :: r)) with (rev r ++ [c]). rewrite <- Ed. destruct d; [destruct (rev r); discriminate|reflexivity].
Qed.
Lemma include_absolute file name : rooted name -> join_path (dirname file) name = name.
Proof. intros [r ->]. reflexivity. Qed.
Lemma unrooted name : ~ rooted name -> starts_slash name = false.
Proof. intro H. destruct name as [|c name]; [reflexivity|]. cbn. apply N.eqb_neq. intros ->. apply H. now eexists. Qed.
Lemma include_bare file name : ~ rooted name -> ~ In slash file -> join_path (dirname file) name = name.
Proof. intros H Hf. rewrite dirname_bare by exact Hf. unfold join_path. now rewrite unrooted. Qed.
Lemma include_root j base name : ~ rooted name -> ~ In slash base -> join_path (dirname (slashes (S j) ++ base)) name = slashes (S j) ++ name.
Proof.
  intros H Hf. change (slashes (S j) ++ base) with ([] ++ slashes (S j) ++ base). rewrite dirname_deep by (try assumption; intros [|? ?]; discriminate).
  unfold join_path. rewrite unrooted by exact H. change (slashes (S j)) with (slash :: slashes j) at 1. cbv iota.
  unfold ends_slash. rewrite rev_slashes. reflexivity.
Qed.
Lemma include_deep d j base name : ~ rooted name -> ~ In slash base -> d <> [] -> (forall e, d <> e ++ [slash]) ->
  join_path (dirname (d ++ slashes (S j) ++ base)) name = d ++ slash :: name.
Proof.
  intros H Hf Nd Hd. rewrite dirname_deep by assumption. unfold join_path. rewrite unrooted by exact H. destruct d as [|c d]; [contradiction|].
  unfold ends_slash. destruct (rev (c :: d)) as [|x r] eqn:E; [reflexivity|].
  replace (x =? slash)%N with false; [reflexivity|]. symmetry. apply N.eqb_neq. intros ->. apply (Hd (rev r)). rewrite <- (rev_involutive (c :: d)), E. reflexivity.
Qed.
Lemma joins_app l l' : l <> [] -> l' <> [] -> joins [slash] (l ++ l') = joins [slash] l ++ slash :: joins [slash] l'.
Proof.
  intros N N'. induction l as [|c l IH]; [contradiction|]. destruct l as [|d l]; [destruct l'; [contradiction|reflexivity]|].
  change (joins [slash] ((c :: d :: l) ++ l')) with (c ++ slash :: joins [slash] ((d :: l) ++ l')). rewrite IH by discriminate.
  change (joins [slash] (c :: d :: l)) with (c ++ slash :: joins [slash] (d :: l)). now rewrite <- app_assoc.
Qed.
(** A file name is a directory, slashes and a last component. *)
Lemma file_parts f : ~ In slash f \/ exists d j base, f = d ++ slashes (S j) ++ base /\ ~ In slash base /\ (forall e, d <> e ++ [slash]).
Proof.
  destruct (in_dec N.eq_dec slash f) as [H|H]; [right|now left].
  assert (HB : exists a base, f = a ++ [slash] ++ base /\ ~ In slash base).
  { clear -H. induction f as [|c f IH]; [destruct H|]. destruct (in_dec N.eq_dec slash f) as [Hf|Hf].
    - destruct (IH Hf) as (a & base & -> & Hb). exists (c :: a), base. auto.
    - destruct H as [->|H]; [|contradiction]. exists [], f. auto. }
  destruct HB as (a & base & -> & Hb).
  assert (HA : exists d j, a = d ++ slashes j /\ forall e, d <> e ++ [slash]).
  { clear. induction a as [|c a (d & j & -> & Hd)] using rev_ind; [exists [], 0%nat; split; [reflexivity|intros [|? ?]; discriminate]|].
    destruct (N.eq_dec c slash) as [->|N].
    - exists d, (S j). split; [|exact Hd]. rewrite <- app_assoc. f_equal. clear. unfold slashes. induction j as [|j IH]; [reflexivity|]. cbn [repeat app] in *. now rewrite IH.
    - exists ((d ++ slashes j) ++ [c]), 0%nat. rewrite app_nil_r. split; [reflexivity|]. intros e E. apply app_inj_tail in E as [_ E]. congruence. }
  destruct HA as (d & j & -> & Hd). exists d, j, base. split; [|auto]. rewrite <- !app_assoc. f_equal. rewrite app_assoc. f_equal. clear. unfold slashes.
  induction j as [|j IH]; [reflexivity|]. cbn [repeat app] in *. now rewrite IH.
Qed.
Lemma leading_more d x : d <> [] -> (forall e, d <> e ++ [slash]) -> forall k, leading (d ++ x) k <-> leading d k.
Proof.
  intros N Hd. destruct (leading_exists d) as (j & r & E & HR & EK).
  assert (Nr : r <> []).
  { intros ->. rewrite app_nil_r in E. destruct j as [|j]; [contradiction|]. apply (Hd (slashes j)). rewrite E. clear. unfold slashes.
    induction j as [|j IH]; [reflexivity|]. cbn [repeat app] in *. now rewrite <- IH. }
  assert (H1 : leading (d ++ x) (initial_slashes d)).
  { exists j, (r ++ x). split; [rewrite app_assoc; now f_equal|]. split; [|exact EK]. intros [q Eq]. destruct r as [|c r]; [contradiction|]. injection Eq as -> _.
    apply HR. now eexists. }
  pose proof (leading_exists d) as H2. intro k. split; intro H.
  - now rewrite (leading_unique _ _ _ H H1).
  - now rewrite (leading_unique _ _ _ H H2).
Qed.
Lemma leads_same k l l' u names : (forall u names, leads_to (negb (Nat.eqb k 0)) l u names -> norm_comps k (l ++ []) [] = norm_comps k (l' ++ []) []) ->
  leads_to (negb (Nat.eqb k 0)) l u names -> leads_to (negb (Nat.eqb k 0)) l' u names.
Proof.
  intros HE H. specialize (HE _ _ H). destruct (leads_exists (negb (Nat.eqb k 0)) l') as (u' & n' & H').
  pose proof (leads_norm _ _ _ _ H) as (_ & HN & _ & E). pose proof (leads_norm _ _ _ _ H') as (_ & HN' & _ & E').
  rewrite E, E' in HE. cbn [norm_comps] in HE. rewrite !rev_ups in HE. apply ups_names in HE as [-> HE]; [|now apply Forall_rev..].
  rewrite <- (rev_involutive names), HE, rev_involutive. exact H'.
Qed.
Lemma norm_skip k l j x : forall acc, norm_comps k (l ++ repeat [] j ++ x) acc = norm_comps k (l ++ x) acc.
Proof.
  induction l as [|c l IH]; intro acc; cbn [app norm_comps].
  - induction j as [|j IH]; [reflexivity|exact IH].
  - destruct (pystr_eqb c [] || pystr_eqb c (s2p ".")); [apply IH|]. match goal with |- (if ?b then _ else _) = _ => destruct b end; apply IH.
Qed.
Lemma include_where f cs base name ds k u names : ~ rooted name -> spelled f (cs ++ [base]) -> spelled name ds -> leading f k ->
  leads_to (negb (Nat.eqb k 0)) (cs ++ ds) u names -> denotes (join_path (dirname f) name) k u names.
Proof.
  intros HR Hf Hn Hk Hl. destruct (file_parts f) as [Hs|(d & j & b & -> & Hb & Hd)].
  - rewrite include_bare by assumption. apply spelled_unique in Hf. assert (E : split_slash f [] = [f]).
    { apply (split_of [f]); [discriminate|]. constructor; [exact Hs|constructor]. }
    rewrite E in Hf. destruct cs as [|c [|? ?]]; try discriminate. cbn [app] in Hl.
    assert (k = 0%nat).
    { destruct Hk as (i & r & -> & _ & ->). destruct i as [|i]; [reflexivity|]. destruct Hs. now left. }
    subst k. split; [|exists ds; auto]. exists 0%nat, name. auto.
  - destruct Hn as (En & Nn & Hn).
    destruct d as [|c d].
    + cbn [app] in *. rewrite include_root by assumption.
      assert (E : cs ++ [base] = repeat [] (S j) ++ [b]).
      { rewrite (spelled_unique _ _ Hf). rewrite <- (split_of (repeat [] (S j) ++ [b])).
        - now rewrite joins_lead by discriminate.
        - discriminate.
        - apply Forall_app. split; [|constructor; [exact Hb|constructor]]. apply Forall_forall. intros c Hc. apply repeat_spec in Hc. subst c. intros []. }
      apply app_inj_tail in E as [-> _]. split.
      * destruct Hk as (i & r & Ei & Hr & ->). assert (Hb' : ~ rooted b) by (intros [q ->]; apply Hb; now left). apply slashes_inj in Ei as [<- _]; auto.
        exists (S j), name. auto.
      * exists (repeat [] (S j) ++ ds). split; [|exact Hl]. split; [rewrite joins_lead by exact Nn; f_equal; exact En|]. split; [discriminate|].
        apply Forall_app. split; [|exact Hn]. apply Forall_forall. intros c Hc. apply repeat_spec in Hc. subst c. intros [].
    + change [47%N] with [slash] in *. set (D := c :: d) in *. assert (ND : D <> []) by discriminate. rewrite include_deep by assumption.
      pose proof (spelled_split D) as (ED & ND' & HD). change [47%N] with [slash] in ED. set (sd := split_slash D []) in *.
      assert (E : cs ++ [base] = (sd ++ repeat [] j) ++ [b]).
      { rewrite (spelled_unique _ _ Hf). rewrite <- (split_of ((sd ++ repeat [] j) ++ [b])).
        - rewrite <- app_assoc, joins_app, joins_lead, <- ED; [reflexivity|discriminate|exact ND'|destruct j; discriminate].
        - intro E. apply app_eq_nil in E as [_ E]. discriminate.
        - apply Forall_app. split; [|constructor; [exact Hb|constructor]]. apply Forall_app. split; [exact HD|].
          apply Forall_forall. intros x Hx. apply repeat_spec in Hx. subst x. intros []. }
      apply app_inj_tail in E as [-> _]. rewrite <- app_assoc in Hl. split.
      * apply leading_more; [exact ND|exact Hd|]. exact (proj1 (leading_more D _ ND Hd k) Hk).
      * exists (sd ++ ds). split; [|eapply leads_same; [|exact Hl]; intros _ _ _; rewrite !app_nil_r; apply norm_skip].
        split; [rewrite joins_app by assumption; change [47%N] with [slash] in *; now rewrite <- ED, <- En|]. split; [intro E; apply app_eq_nil in E as [E _]; contradiction|]. apply Forall_app. now split.
Qed.
Lemma place_unique p : exists k u names, denotes p k u names /\
  forall k' u' names', denotes p k' u' names' -> k' = k /\ u' = u /\ names' = names.
Proof.
  destruct (denotes_exists p) as (k & u & names & H). exists k, u, names. split; [exact H|]. intros k' u' names' H'. eapply denotes_unique; eassumption.
Qed.
Lemma normpath_normal p : normpath (normpath p) = normpath p /\ forall k u names, denotes p k u names -> denotes (normpath p) k u names.
Proof. split; [apply normpath_again|intros k u names; apply normpath_denotes]. Qed.
