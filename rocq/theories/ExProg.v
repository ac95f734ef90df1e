(** Concrete programs, and the include that is not noticed. *)
From Verif Require Import Base Num Term Str World Ast Names Quote QuoteFacts Lex LexCor Parse ParseTotal Fold Program ProgSpec Counts ProgCor.
From Verif Require Import ExPy.

(** main.asl consists of {include("./main.asl")}. *)
Definition main_asl : pystr := s2p "main.asl".
Definition loop_line : pystr := s2p "{include(""./main.asl"")}" ++ [10%N].
Definition loop_files (p : pystr) : file := if pystr_eqb (normpath p) main_asl then File [loop_line] else NoFile.

Fixpoint dots (i : nat) (p : pystr) : pystr := match i with O => p | S i => s2p "./" ++ dots i p end.

Lemma dots_app i p q : dots i p ++ q = dots i (p ++ q).
Proof. induction i as [|i IH]; [reflexivity|]. cbn [dots]. now rewrite <- app_assoc, IH. Qed.
Lemma dots_dots i j p : dots i (dots j p) = dots (i + j) p.
Proof. induction i as [|i IH]; [reflexivity|]. cbn [dots Nat.add]. now rewrite IH. Qed.

Lemma split_dots i : split_slash (dots i main_asl) [] = repeat (s2p ".") i ++ [main_asl].
Proof. induction i as [|i IH]; [reflexivity|]. change (split_slash (dots (S i) main_asl) []) with (s2p "." :: split_slash (dots i main_asl) []). now rewrite IH. Qed.

Lemma norm_dots i : normpath (dots i main_asl) = main_asl.
Proof.
  unfold normpath. assert (E : exists c d r, dots i main_asl = c :: d :: r /\ initial_slashes (c :: d :: r) = 0%nat).
  { destruct i as [|i]; cbn [dots]; [repeat eexists|]. exists 46%N, 47%N, (dots i main_asl). split; [reflexivity|]. now destruct (dots i main_asl). }
  destruct E as (c & d & r & E & E0). rewrite E. cbv zeta. rewrite E0, <- E, split_dots.
  assert (H : norm_comps 0 (repeat (s2p ".") i ++ [main_asl]) [] = [main_asl]) by (clear; induction i as [|i IH]; [reflexivity|exact IH]).
  now rewrite H.
Qed.

Lemma dirname_dots i : dirname (dots (S i) main_asl) = dots i (s2p ".").
Proof.
  unfold dirname. replace (dots (S i) main_asl) with (dots i (s2p ".") ++ slash :: main_asl) by (rewrite dots_app; clear; induction i as [|i IH]; [reflexivity|cbn [dots] in *; now rewrite IH]).
  rewrite rev_app_distr. cbn [rev]. change (rev main_asl) with (s2p "lsa.niam"). 
  replace (drop_to_slash _) with (slash :: rev (dots i (s2p "."))) by reflexivity.
  assert (E : exists r, rev (dots i (s2p ".")) = 46%N :: r).
  { clear. induction i as [|i [r IH]]; [now exists []|]. cbn [dots]. rewrite rev_app_distr, IH. cbn. eexists. reflexivity. }
  cbv zeta. destruct E as [r E]. cbn [forallb lstrip_slash]. rewrite E. cbn [N.eqb forallb slash Pos.eqb andb lstrip_slash]. 
  change (slash =? slash)%N with true. cbn [andb]. rewrite <- E. apply rev_involutive.
Qed.

Lemma join_dots i : join_path (dirname (dots i main_asl)) (s2p "./main.asl") = dots (S i) main_asl.
Proof.
  destruct i as [|i]; [reflexivity|]. rewrite dirname_dots. unfold join_path. change (starts_slash (s2p "./main.asl")) with false. cbv iota.
  assert (E : exists c r, dots i (s2p ".") = c :: r) by (destruct i; cbn [dots]; repeat eexists).
  destruct E as (c & r & E). rewrite E. cbv iota. rewrite <- E.
  assert (E2 : ends_slash (dots i (s2p ".")) = false).
  { unfold ends_slash. assert (E2 : exists r, rev (dots i (s2p ".")) = 46%N :: r).
    { clear. induction i as [|i [r IH]]; [now exists []|]. cbn [dots]. rewrite rev_app_distr, IH. cbn. eexists. reflexivity. }
    destruct E2 as [r2 ->]. reflexivity. }
  rewrite E2, dots_app. clear. induction i as [|i IH]; [reflexivity|]. cbn [dots] in *. now rewrite IH.
Qed.

Definition loop_items : list item := match tokenize 1 [loop_line] with Ok l => l | _ => [] end.

Lemma loop_forever PY n : forall i inc lg own, Forall (eq main_asl) inc ->
  fst (@parse_program PY loop_files n (dots i main_asl) inc false (mkpst loop_items lg own)) = Err ERecursion.
Proof.
  induction n as [|n IH]; intros i inc lg own Hinc; [reflexivity|]. cbn [parse_program]. rewrite norm_dots. unfold at_eof.
  destruct n as [|n']; [reflexivity|]. set (n := S n') in *. unfold n at 3. cbn [agent_loop]. cbv zeta.
  assert (Ei : exists a b c d e f, loop_items = [ITok a; ITok b; ITok c; ITok d; ITok e; ITok f] /\ is_lex a "{" = true /\ is_lex b "include" = true /\ is_lex c "(" = true /\
    tk_string d = true /\ parse_string (t_lex d) = Ok (s2p "./main.asl") /\ is_lex e ")" = true /\ is_lex f "}" = true).
  { do 6 eexists. split; [vm_compute; reflexivity|]. repeat split; reflexivity. }
  destruct Ei as (a & b & c & d & e & f & E & Ea & Eb & Ec & Ed & Ep & Ee & Ef). rewrite E. unfold next_or. rewrite next_tok, Ea.
  rewrite (pbind_ok _ _ _ _ _ (next_tok b _ lg own)). rewrite Eb. unfold pbind at 1. rewrite (include_at _ _ _ _ c d e f (s2p "./main.asl")) by assumption.
  cbv zeta. rewrite join_dots.
  assert (Hex : existsb (pystr_eqb (dots (S i) main_asl)) (main_asl :: inc) = false).
  { assert (Hm : pystr_eqb (dots (S i) main_asl) main_asl = false) by reflexivity.
    assert (Hf : Forall (eq main_asl) (main_asl :: inc)) by now constructor. revert Hf. generalize (main_asl :: inc). intros l Hl.
    induction Hl as [|x l <- Hl IHl]; [reflexivity|]. cbn [existsb]. now rewrite Hm. }
  rewrite Hex. replace (loop_files (dots (S i) main_asl)) with (File [loop_line]) by (unfold loop_files; now rewrite norm_dots).
  replace (tokenize 1 [loop_line]) with (Ok loop_items) by (vm_compute; reflexivity).
  unfold p_res, pbind, in_file. cbn [p_log].
  specialize (IH (S i) (main_asl :: inc) lg false ltac:(now constructor)).
  destruct (parse_program loop_files n (dots (S i) main_asl) (main_asl :: inc) false (mkpst loop_items lg false)) as [r s1]. cbn [fst] in IH. now subst r.
Qed.

Theorem include_refuted : exists files main lines paths size, no_links files /\ finitely_many files paths size /\
  forall PY n lg items, tokenize 1 lines = Ok items -> fst (@parse_program PY files n main [] false (mkpst items lg true)) = Err ERecursion.
Proof.
  exists loop_files, main_asl, [loop_line], [main_asl], 6%nat. split; [|split].
  - intros p q E. unfold loop_files. now rewrite E.
  - intros p Ep l. unfold loop_files. rewrite Ep. destruct (pystr_eqb p main_asl) eqn:E; [|discriminate]. apply pystr_eqb_eq in E as ->.
    intros H. injection H as <-. split; [now left|]. intros items Et. vm_compute in Et. injection Et as <-. cbn. lia.
  - intros PY n lg items Et. change (tokenize 1 [loop_line]) with (tokenize 1 [loop_line]) in Et.
    replace items with loop_items by (unfold loop_items; now rewrite Et). apply (loop_forever PY n 0 [] lg true). constructor.
Qed.

(** Two files that include each other. *)
Definition line_a : pystr := s2p "{include(""b.asl"")} p(1)." ++ [10%N].
Definition line_b : pystr := s2p "{include(""a.asl"")} q(X) :- p(X) & X > 0." ++ [10%N].
Definition two_files (p : pystr) : file :=
  if pystr_eqb p (s2p "a.asl") then File [line_a]
  else if pystr_eqb p (s2p "b.asl") then File [line_b] else NoFile.

Lemma two_plain : plain_includes two_files (s2p "a.asl") [line_a].
Proof.
  assert (A : forall l items, l = line_a \/ l = line_b -> tokenize 1 [l] = Ok items -> forall t, In (ITok t) items -> tk_string t = true ->
    parse_string (t_lex t) = Ok (s2p "a.asl") \/ parse_string (t_lex t) = Ok (s2p "b.asl")).
  { intros l items [->| ->] E; vm_compute in E; injection E as <-; intros t Ht Hs; cbn in Ht;
      repeat (destruct Ht as [Ht|Ht]; [injection Ht as <-; try discriminate Hs; vm_compute; tauto|]); contradiction. }
  split.
  - intros path (items & t & name & E & Ht & Hs & Hp & ->). destruct (A line_a items (or_introl eq_refl) E t Ht Hs) as [H|H]; rewrite H in Hp; apply Ok_inj in Hp; subst name; vm_compute; reflexivity.
  - intros p l path Hf (items & t & name & E & Ht & Hs & Hp & ->). unfold two_files in Hf.
    destruct (pystr_eqb p (s2p "a.asl")) eqn:Ea; [|destruct (pystr_eqb p (s2p "b.asl")) eqn:Eb; [|discriminate]]; injection Hf as <-;
      [apply pystr_eqb_eq in Ea; subst p; destruct (A line_a items (or_introl eq_refl) E t Ht Hs) as [H|H]
      |apply pystr_eqb_eq in Eb; subst p; destruct (A line_b items (or_intror eq_refl) E t Ht Hs) as [H|H]];
      rewrite H in Hp; apply Ok_inj in Hp; subst name; vm_compute; reflexivity.
Qed.

Lemma two_finite : finitely_many two_files [s2p "a.asl"; s2p "b.asl"] 30.
Proof.
  intros p _ l Hf. unfold two_files in Hf.
  destruct (pystr_eqb p (s2p "a.asl")) eqn:Ea; [|destruct (pystr_eqb p (s2p "b.asl")) eqn:Eb; [|discriminate]]; injection Hf as <-.
  - apply pystr_eqb_eq in Ea. subst p. split; [now left|]. intros items E. vm_compute in E. injection E as <-. cbn. lia.
  - apply pystr_eqb_eq in Eb. subst p. split; [right; now left|]. intros items E. vm_compute in E. injection E as <-. cbn. lia.
Qed.

Lemma two_reported : @parse_source PyEx two_files 100 (s2p "a.asl") [line_a] = Err EAggregated.
Proof. vm_compute. reflexivity. Qed.
