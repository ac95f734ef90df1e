(** The tokens of printed text. *)
From Verif Require Import Base Num Term Str World Ast Names Quote QuoteSpec QuoteFacts Lex LexSpec RegexFacts LexFacts LexCor LexTok
  Parse RoundSpec.

Local Notation len := List.length.
Definition word : Type := kind * pystr.

(** How much of the following text matters: nothing behind white space. *)
Definition look (r r' : pystr) : Prop :=
  match r, r' with
  | [], [] => True
  | c :: t, c' :: t' => c = c' /\ (is_space c = true \/
      match t, t' with [], [] => True | d :: _, d' :: _ => d = d' | _, _ => False end)
  | _, _ => False
  end.

Definition fits (k : kind) (w r : pystr) : Prop :=
  first_token tokens (w ++ r) = Some (k, r) /\ re_match re_start_comment (w ++ r) = None.

Definition clean (w : pystr) : Prop := Forall (fun c => c <> 9%N /\ c <> 10%N) w.

(** [tokc k w r]: before [r], [w] is a token. *)
Definition tokc (k : kind) (w r : pystr) : Prop :=
  w <> [] /\ clean w /\ skipped k = false /\ forall r', look r r' -> fits k w r'.

(** [sp s a l]: [s], followed by [a], consists of the tokens [l]. *)
Inductive sp : pystr -> pystr -> list word -> Prop :=
| sp_nil a : sp [] a []
| sp_space c s a l : c = 32%N \/ c = 10%N -> sp s a l -> sp (c :: s) a l
| sp_tok k w s a l : tokc k w (s ++ a) -> sp s a l -> sp (w ++ s) a ((k, w) :: l).

Lemma sp_app s t a l m : sp s (t ++ a) l -> sp t a m -> sp (s ++ t) a (l ++ m).
Proof.
  intros H. remember (t ++ a) as b eqn:Eb. revert Eb.
  induction H as [b|c s b l Hc _ IH|k w s b l Ht _ IH]; intros -> Hm; [assumption| |].
  - cbn. constructor; [assumption|]. now apply IH.
  - rewrite <- app_assoc. cbn. constructor; [now rewrite <- app_assoc|now apply IH].
Qed.

Lemma sp_one k w a : tokc k w a -> sp w a [(k, w)].
Proof. intros H. pose proof (sp_tok k w [] a [] H (sp_nil a)) as X. now rewrite app_nil_r in X. Qed.

Lemma look_refl r : look r r.
Proof.
  destruct r as [|c [|d r]]; cbn; [exact I| |]; (split; [reflexivity|right]); [exact I|reflexivity].
Qed.

(** ** Reading it back *)

Definition spell (i : item) : option word :=
  match i with ITok t => Some (t_kind t, t_lex t) | IBad _ _ _ => None end.

Definition reads (s : pystr) (l : list word) : Prop :=
  forall n line col, (len s <= n)%nat ->
    exists items, lex_line n line col s false = Ok (items, false) /\ map spell items = map Some l.

Lemma reads_nil : reads [] [].
Proof. intros n line col _. exists []. destruct n; split; reflexivity. Qed.

Lemma re_match_space c s : is_space c = true -> re_match (RPlus (RChr is_space)) (c :: s) = Some (drop is_space s).
Proof.
  intros H. unfold re_match, RPlus. cbn [rmatch]. rewrite H. now apply star_drop.
Qed.

Lemma first_space c s : is_space c = true -> first_token tokens (c :: s) = Some (KSpace, drop is_space s).
Proof. intros H. unfold tokens. cbn [first_token]. rewrite re_match_space by assumption. reflexivity. Qed.

Lemma start_comment_none c s : c <> 47%N -> re_match re_start_comment (c :: s) = None.
Proof.
  intros H. destruct (re_match re_start_comment (c :: s)) eqn:E; [|reflexivity].
  apply (re_match_str (s2p "/*")) in E. injection E as -> _. congruence.
Qed.

Lemma lex_line_space n line col c s : is_space c = true -> c <> 47%N ->
  lex_line (S n) line col (c :: s) false =
  lex_line n line (col + (S (len s) - len (drop is_space s)))%nat (drop is_space s) false.
Proof.
  intros H Hc. cbn [lex_line]. rewrite start_comment_none by assumption. rewrite first_space by assumption.
  cbn [skipped List.length]. destruct (lex_line _ _ _ _ _) as [[l b]|e]; reflexivity.
Qed.

Lemma drop_len p (s : pystr) : (len (drop p s) <= len s)%nat.
Proof. induction s as [|c s IH]; [reflexivity|]. cbn. destruct (p c); cbn; lia. Qed.

Lemma reads_space c s l : c = 32%N \/ c = 10%N -> reads s l -> reads (c :: s) l.
Proof.
  intros Hc H n line col Hn. cbn in Hn. destruct n as [|n]; [lia|].
  assert (Hs : is_space c = true) by (destruct Hc as [-> | ->]; reflexivity).
  assert (H47 : c <> 47%N) by (destruct Hc; lia).
  rewrite lex_line_space by assumption. destruct s as [|d s].
  { exact (H n line _ (Nat.le_0_l _)). }
  destruct (is_space d) eqn:Ed.
  - assert (D47 : d <> 47%N) by (intros ->; discriminate).
    destruct (H (S n) line (S col)) as (items & E & M); [cbn in Hn; cbn; lia|].
    rewrite lex_line_space in E by assumption. cbn [drop]. rewrite Ed. exists items. split; [|assumption].
    rewrite <- E. f_equal. pose proof (drop_len is_space s). cbn [List.length]. lia.
  - cbn [drop]. rewrite Ed. apply H. lia.
Qed.

Lemma reads_tok k w s l : w <> [] -> skipped k = false -> fits k w s -> reads s l -> reads (w ++ s) ((k, w) :: l).
Proof.
  intros Hw Hk [Hf Hc] H n line col Hn. rewrite app_length in Hn.
  destruct w as [|c w]; [congruence|]. cbn in Hn. destruct n as [|n]; [lia|].
  cbn [app lex_line]. change (c :: w ++ s) with ((c :: w) ++ s). rewrite Hc, Hf. cbv zeta.
  rewrite upto_split.
  destruct (H n line (col + len (c :: w))%nat) as (items & E & M); [lia|]. rewrite E. cbn [rbind]. rewrite Hk.
  eexists. split; [reflexivity|]. cbn [map spell t_kind t_lex]. rewrite M. f_equal. f_equal. f_equal.
  rewrite firstn_app, Nat.sub_diag, firstn_all. cbn. now rewrite app_nil_r.
Qed.

(** The first line of a text, with its newline, and the rest. *)
Fixpoint head_line (s : pystr) : pystr * pystr :=
  match s with
  | [] => ([], [])
  | c :: s' => if (c =? 10)%N then ([c], s') else let '(l, r) := head_line s' in (c :: l, r)
  end.

Lemma head_line_clean w s : clean w -> head_line (w ++ s) = (w ++ fst (head_line s), snd (head_line s)).
Proof.
  induction 1 as [|c w [H1 H2] _ IH]; [cbn; now destruct (head_line s)|]. cbn [app head_line].
  destruct (N.eqb_spec c 10) as [E|_]; [congruence|]. rewrite IH. reflexivity.
Qed.

Lemma look_head s : look s (fst (head_line s)).
Proof.
  destruct s as [|c s]; [exact I|]. cbn [head_line]. destruct (N.eqb_spec c 10) as [->|N1].
  - cbn. split; [reflexivity|left; reflexivity].
  - destruct s as [|d s]; [cbn; split; [reflexivity|right; exact I]|]. cbn [head_line].
    destruct (N.eqb_spec d 10) as [->|N2]; [cbn; split; [reflexivity|right; reflexivity]|].
    destruct (head_line s) as [x y]. cbn. split; [reflexivity|right; reflexivity].
Qed.

Lemma sp_line s l : sp s [] l ->
  exists l1 l2, l = l1 ++ l2 /\ reads (fst (head_line s)) l1 /\ sp (snd (head_line s)) [] l2.
Proof.
  intros H. remember [] as a eqn:Ea. revert Ea.
  induction H as [a|c s a l Hc H IH|k w s a l Ht H IH]; intros ->.
  - exists [], []. split; [reflexivity|]. split; [apply reads_nil|constructor].
  - cbn [head_line]. destruct (N.eqb_spec c 10) as [->|Nc].
    + exists [], l. split; [reflexivity|]. split; [|assumption]. apply reads_space; [now right|apply reads_nil].
    + destruct (IH eq_refl) as (l1 & l2 & -> & H1 & H2). destruct (head_line s) as [x y]. cbn [fst snd] in *.
      exists l1, l2. split; [reflexivity|]. split; [now apply reads_space|assumption].
  - destruct Ht as (Hw & Hcl & Hk & Hf). destruct (IH eq_refl) as (l1 & l2 & -> & H1 & H2).
    rewrite head_line_clean by assumption. cbn [fst snd]. exists ((k, w) :: l1), l2.
    split; [reflexivity|]. split; [|assumption]. apply reads_tok; [assumption|assumption| |assumption].
    apply Hf. rewrite app_nil_r. apply look_head.
Qed.

Lemma string_lines_head s : s <> [] -> forall cur,
  string_lines s cur = (rev cur ++ fst (head_line s)) :: string_lines (snd (head_line s)) [].
Proof.
  induction s as [|c s IH]; intros Hn cur; [congruence|]. cbn [string_lines head_line].
  destruct (N.eqb_spec c 10) as [->|Nc]; [reflexivity|].
  destruct s as [|d s].
  - cbn. reflexivity.
  - rewrite IH by discriminate. destruct (head_line (d :: s)) as [x y]. cbn [fst snd rev].
    rewrite <- app_assoc. reflexivity.
Qed.

Lemma untab_id s : Forall (fun c => c <> 9%N) s -> untab s = s.
Proof.
  induction 1 as [|c s H _ IH]; [reflexivity|]. cbn. destruct (N.eqb_spec c 9); [congruence|]. now rewrite IH.
Qed.

Lemma head_line_app s : s = fst (head_line s) ++ snd (head_line s).
Proof.
  induction s as [|c s IH]; [reflexivity|]. cbn [head_line]. destruct (c =? 10)%N; [reflexivity|].
  destruct (head_line s) as [x y]. cbn in *. now f_equal.
Qed.

Lemma sp_notab s a l : sp s a l -> Forall (fun c => c <> 9%N) s.
Proof.
  induction 1 as [a|c s a l Hc _ IH|k w s a l (_ & Hcl & _) _ IH]; [constructor| |].
  - constructor; [destruct Hc; lia|assumption].
  - apply Forall_app. split; [|assumption]. eapply Forall_impl; [|exact Hcl]. now intros c [H _].
Qed.

Lemma head_line_short s : s <> [] -> (len (snd (head_line s)) < len s)%nat.
Proof.
  intros H. rewrite (head_line_app s) at 2. rewrite app_length.
  destruct s as [|c s]; [congruence|]. cbn [head_line]. destruct (c =? 10)%N; [cbn; lia|].
  destruct (head_line s). cbn. lia.
Qed.

Lemma sp_tokens n : forall s l line, (len s <= n)%nat -> sp s [] l ->
  exists items, lex_lines line (string_source s) false = Ok items /\ map spell items = map Some l.
Proof.
  induction n as [|n IH]; intros s l line Hn H.
  - destruct s; [|cbn in Hn; lia]. inversion H as [| |? w s ? ? (Hw & _) ? E]; subst; [exists []; split; reflexivity|].
    destruct w; [congruence|discriminate].
  - destruct s as [|c s].
    { inversion H as [| |? w s ? ? (Hw & _) ? E]; subst; [exists []; split; reflexivity|].
      destruct w; [congruence|discriminate]. }
    pose proof (sp_notab _ _ _ H) as Nt.
    destruct (sp_line _ _ H) as (l1 & l2 & -> & H1 & H2).
    unfold string_source. rewrite string_lines_head by discriminate. cbn [rev app lex_lines].
    set (hl := head_line (c :: s)) in *.
    assert (Eh : c :: s = fst hl ++ snd hl) by apply head_line_app.
    rewrite untab_id; [|rewrite Eh in Nt; now apply Forall_app in Nt].
    destruct (H1 (len (fst hl)) line 0%nat (le_n _)) as (i1 & E1 & M1). cbv zeta. rewrite E1. cbn [rbind].
    destruct (IH (snd hl) l2 (S line)) as (i2 & E2 & M2); [|assumption|].
    { pose proof (head_line_short (c :: s)). fold hl in H0. cbn [List.length] in *. assert (c :: s <> []) by discriminate.
      specialize (H0 H3). lia. }
    unfold string_source in E2. rewrite E2. cbn [rmap]. exists (i1 ++ i2). split; [reflexivity|].
    now rewrite !map_app, M1, M2.
Qed.

(** ** Indentation *)

Fixpoint ind (s : pystr) : pystr :=
  match s with
  | [] => []
  | c :: s' => if (c =? 10)%N then c :: 32%N :: 32%N :: ind s' else c :: ind s'
  end.

Lemma ind_clean w s : clean w -> ind (w ++ s) = w ++ ind s.
Proof.
  induction 1 as [|c w [H1 H2] _ IH]; [reflexivity|]. cbn. destruct (N.eqb_spec c 10); [congruence|]. now rewrite IH.
Qed.

Lemma look_ind s a : look (s ++ a) (ind s ++ a).
Proof.
  destruct s as [|c s]; [apply look_refl|]. cbn [ind]. destruct (N.eqb_spec c 10) as [->|Nc].
  - cbn. split; [reflexivity|left; reflexivity].
  - destruct s as [|d s]; [apply look_refl|]. cbn [ind]. cbn.
    destruct (N.eqb_spec d 10); cbn; (split; [reflexivity|right; reflexivity]).
Qed.

Lemma look_trans r s t : look r s -> look s t -> look r t.
Proof.
  destruct r as [|c r], s as [|d s], t as [|e t]; cbn; try tauto. intros [-> H1] [-> H2]. split; [reflexivity|].
  destruct H1 as [H1|H1]; [now left|]. destruct H2 as [H2|H2]; [now left|]. right.
  destruct r, s, t; try tauto; congruence.
Qed.

Lemma sp_indented s a l : sp s a l -> sp (ind s) a l.
Proof.
  induction 1 as [a|c s a l Hc _ IH|k w s a l (Hw & Hcl & Hk & Hf) _ IH]; [constructor| |].
  - cbn. destruct Hc as [-> | ->]; cbn; repeat (constructor; [tauto|]); assumption.
  - rewrite ind_clean by assumption. constructor; [|assumption]. repeat (split; [assumption|]).
    intros r' Hr. apply Hf. eapply look_trans; [apply look_ind|exact Hr].
Qed.

Lemma indent_ind s : s <> [] -> last s 0%N <> 10%N -> indent s = s2p "  " ++ ind s.
Proof.
  intros Hn Hl. unfold indent.
  assert (G : forall s cur, s <> [] -> last s 0%N <> 10%N ->
    joins [10%N] (map (fun l => s2p "  " ++ l) (lines s cur)) = s2p "  " ++ rev cur ++ ind s).
  { clear. induction s as [|c s IH]; intros cur Hn Hl; [congruence|]. cbn [lines ind].
    destruct s as [|d s].
    - cbn in Hl. destruct (N.eqb_spec c 10); [congruence|]. cbn [lines]. change (c :: cur <> []) in Hn || idtac.
      cbn [ind]. destruct (c :: cur) eqn:E; [discriminate|]. cbn [map joins]. rewrite <- E. cbn [rev]. reflexivity.
    - destruct (N.eqb_spec c 10) as [->|Nc].
      + cbn [map]. specialize (IH [] ltac:(discriminate) Hl).
        destruct (map (fun l : list N => s2p "  " ++ l) (lines (d :: s) [])) as [|x y] eqn:E.
        * cbn [joins] in IH. discriminate.
        * change (joins [10%N] ((s2p "  " ++ rev cur) :: x :: y)) with
            ((s2p "  " ++ rev cur) ++ [10%N] ++ joins [10%N] (x :: y)). rewrite IH.
          rewrite <- app_assoc. reflexivity.
      + rewrite IH by (discriminate || assumption). cbn [rev]. now rewrite <- app_assoc. }
  now rewrite (G s []).
Qed.
