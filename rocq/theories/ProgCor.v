(** Programs: termination, recursive includes, reported errors (C40, C41). *)
From Verif Require Import Base Num Term Str World Ast Names Quote Lex LexCor Parse ParseTotal Fold Program ProgSpec Counts Eats ProgTotal.
From Verif Require Import Engine Build.

Local Notation len := List.length.

Section WithPy.
Context {PY : Py}.

(** ** Termination *)

Lemma leads_tidy f lines items : (forall path, leads f lines path -> normpath path = path) -> tokenize 1 lines = Ok items ->
  Forall (tidy f) items.
Proof.
  intros H E. rewrite Forall_forall. intros [t|a b c] Hi; cbn [tidy]; [|exact I]. intros Et name En.
  apply H. exists items, t, name. repeat split; assumption.
Qed.

Theorem program_ends : sane_pow PY -> forall files main lines paths size items,
  plain_includes files main lines -> finitely_many files paths size -> tokenize 1 lines = Ok items ->
  forall n lg, (len paths * (size + 5) + len items + 5 <= n)%nat ->
  fst (parse_program files n main [] false (mkpst items lg true)) <> Err ERecursion.
Proof.
  intros Hpow files main lines paths size items [H1 H2] Hf E n lg Hn.
  assert (Ht : forall p l items, files p = File l -> tokenize 1 l = Ok items -> Forall (tidy p) items).
  { intros p l its Ef Et. apply (leads_tidy p l); [|assumption]. intros path. now apply H2. }
  pose proof (goes_program Hpow files paths size Hf Ht n (len paths) main [] false (len items)) as G.
  assert (Hu : (unseen paths [normpath main] <= len paths)%nat).
  { unfold unseen. clear. induction paths as [|p l IH]; [reflexivity|]. cbn [filter]. destruct (negb _); cbn in *; lia. }
  specialize (G Hu Hn (mkpst items lg true) (leads_tidy main lines items H1 E) (le_n _)).
  destruct (parse_program files n main [] false (mkpst items lg true)) as [[x|e] s]; cbn [fst]; [discriminate|congruence].
Qed.

(** ** A larger bound changes nothing *)

Section Mono.
Variable files : pystr -> file.

Lemma mle_next_or {A} (stop : P A) go go' : (forall tk, mle (go tk) (go' tk)) -> mle (next_or stop go) (next_or stop go').
Proof. intros H s. unfold next_or. destruct (next s) as [[tk|e] s1]; [apply H|now right]. Qed.
Lemma mle_eof {A} (m m' : P A) : mle m m' -> mle (at_eof m) (at_eof m').
Proof.
  intros H s. unfold at_eof. destruct (H s) as [E|E]; [|right; now rewrite E].
  destruct (m s) as [r s1]. cbn in E. subst r. now left.
Qed.
Lemma mle_in_file {A} items (m m' : P A) : mle m m' -> mle (in_file items m) (in_file items m').
Proof.
  intros H s. unfold in_file. destruct (H (mkpst items (p_log s) false)) as [E|E]; [|right; now rewrite E].
  destruct (m (mkpst items (p_log s) false)) as [r s1]. cbn in E. subst r. now left.
Qed.
Lemma mle_include sub sub' f inc : (forall a b c, mle (sub a b c) (sub' a b c)) -> mle (include_file files sub f inc) (include_file files sub' f inc).
Proof.
  intros H. unfold include_file. repeat first [apply mle_refl|apply mle_in_file; apply H|mstep].
Qed.
Lemma mle_loop sub sub' n n' f inc dir : (forall a b c, mle (sub a b c) (sub' a b c)) -> (n <= n')%nat ->
  forall k k' g plans, (k <= k')%nat -> mle (agent_loop files sub n k f inc dir g plans) (agent_loop files sub' n' k' f inc dir g plans).
Proof.
  intros H Hn. induction k as [|k IH]; intros k' g plans Hk; (destruct k' as [|k']; [try lia; apply mle_refl|]); cbn [agent_loop]; [apply mle_fail|].
  assert (IH' : forall g plans, mle (agent_loop files sub n k f inc dir g plans) (agent_loop files sub' n' k' f inc dir g plans)) by (intros; apply IH; lia).
  cbv zeta. apply mle_next_or. intros tk.
  repeat first [apply IH'|apply mle_include; exact H|apply mle_parse_literal; exact Hn|apply H|apply mle_rule_or_belief; exact Hn
    |apply mle_initial_goal; exact Hn|apply mle_plan; exact Hn|mstep].
Qed.
Lemma mle_program n : forall n' f inc dir, (n <= n')%nat -> mle (parse_program files n f inc dir) (parse_program files n' f inc dir).
Proof.
  induction n as [|n IH]; intros n' f inc dir Hn; (destruct n' as [|n']; [try lia; apply mle_refl|]); cbn [parse_program]; [apply mle_fail|].
  apply mle_eof, mle_loop; [|lia|lia]. intros. apply IH. lia.
Qed.
End Mono.

Theorem program_bound files n n' main dir s : fst (parse_program files n main [] dir s) <> Err ERecursion -> (n <= n')%nat ->
  parse_program files n' main [] dir s = parse_program files n main [] dir s.
Proof. intros H Hn. destruct (mle_program files n n' main [] dir Hn s); [contradiction|assumption]. Qed.

(** ** Recursive includes *)

Lemma next_tok t l lg own : next (mkpst (ITok t :: l) lg own) = (Ok t, mkpst l lg own).
Proof. reflexivity. Qed.

(** The directive {include("...")} *)
Definition directive (toks : list tok) (name : pystr) : Prop :=
  exists a b c d e f, toks = [a; b; c; d; e; f] /\ is_lex a "{" = true /\ is_lex b "include" = true /\ is_lex c "(" = true /\
    tk_string d = true /\ parse_string (t_lex d) = Ok name /\ is_lex e ")" = true /\ is_lex f "}" = true.

Lemma pbind_ok {A C} (m : P A) (k : A -> P C) s x s1 : m s = (Ok x, s1) -> pbind m k s = k x s1.
Proof. unfold pbind. now intros ->. Qed.
Lemma next_is_ok t w l lg own : is_lex t w = true -> next_is w (mkpst (ITok t :: l) lg own) = (Ok tt, mkpst l lg own).
Proof. intros E. unfold next_is, pbind. rewrite next_tok, E. reflexivity. Qed.

Lemma include_at files sub filename inc c d e f name rest lg own :
  is_lex c "(" = true -> tk_string d = true -> parse_string (t_lex d) = Ok name -> is_lex e ")" = true -> is_lex f "}" = true ->
  include_file files sub filename inc (mkpst (ITok c :: ITok d :: ITok e :: ITok f :: rest) lg own) =
  (let path := join_path (dirname filename) name in
   if existsb (pystr_eqb path) inc then (p_error ;; pret no_agent)%P
   else match files path with
        | NoFile => (p_error ;; pret no_agent)%P
        | BadFile => pfail EIO
        | File lines => (items <- p_res (tokenize 1 lines) ;; in_file items (sub path inc false))%P
        end) (mkpst rest lg own).
Proof.
  intros Ec Ed Ep Ee Ef. unfold include_file.
  rewrite (pbind_ok _ _ _ _ _ (next_is_ok c _ _ lg own Ec)).
  rewrite (pbind_ok _ _ _ _ _ (next_tok d _ lg own)). rewrite Ed.
  rewrite (pbind_ok (p_res (parse_string (t_lex d))) _ _ name (mkpst (ITok e :: ITok f :: rest) lg own)) by (unfold p_res; now rewrite Ep).
  rewrite (pbind_ok _ _ _ _ _ (next_is_ok e _ _ lg own Ee)).
  rewrite (pbind_ok _ _ _ _ _ (next_is_ok f _ _ lg own Ef)). reflexivity.
Qed.

Theorem include_reported files n filename included dir toks name rest lg own r s :
  directive toks name -> In (join_path (dirname filename) name) (normpath filename :: included) ->
  parse_program files (S (S n)) filename included dir (mkpst (map ITok toks ++ rest) lg own) = (r, s) ->
  (lg_errors lg < lg_errors (p_log s))%nat.
Proof.
  intros (a & b & c & d & e & f & -> & Ea & Eb & Ec & Ed & Ep & Ee & Ef) Hin E.
  set (inc := normpath filename :: included) in *.
  assert (Hex : existsb (pystr_eqb (join_path (dirname filename) name)) inc = true).
  { apply existsb_exists. exists (join_path (dirname filename) name). split; [assumption|apply pystr_eqb_refl]. }
  cbn [parse_program] in E. fold inc in E. cbn [map app] in E. unfold at_eof in E.
  match type of E with match ?L _ with _ => _ end = _ => set (loop := L) in E end.
  assert (Hl : exists l, lg_errors l = S (lg_errors lg) /\ exists m, counts m /\ (fst (log_error lg) = Err EAggregated /\
      loop (mkpst (ITok a :: ITok b :: ITok c :: ITok d :: ITok e :: ITok f :: rest) lg own) = (Err EAggregated, mkpst rest l own) \/
      loop (mkpst (ITok a :: ITok b :: ITok c :: ITok d :: ITok e :: ITok f :: rest) lg own) = m (mkpst rest l own))).
  { exists (snd (log_error lg)). destruct (log_error_counts lg) as (L1 & _ & _ & L4). split; [assumption|].
    exists (agent_loop files (parse_program files (S n)) (S n) n filename inc dir no_agent false). split; [apply counts_agent_loop; intros; apply counts_program|].
    subst loop. cbn [agent_loop]. cbv zeta. unfold next_or. rewrite next_tok, Ea.
    rewrite (pbind_ok _ _ _ _ _ (next_tok b _ lg own)). rewrite Eb. unfold pbind at 1. unfold pbind at 1.
    rewrite (include_at _ _ _ _ c d e f name) by assumption. cbv zeta. rewrite Hex. unfold pbind, p_error. cbn [p_log].
    destruct (log_error lg) as [[[]|e0] l] eqn:El; cbn [fst snd] in *; [right|left].
    - reflexivity.
    - destruct L4 as [L4|L4]; [discriminate|]. injection L4 as ->. split; reflexivity. }
  destruct Hl as (l & El & m & Hm & [[_ H]|H]); rewrite H in E.
  - injection E as _ <-. cbn. lia.
  - specialize (Hm (mkpst rest l own)). destruct (m (mkpst rest l own)) as [r1 s1]. cbn [fst snd] in Hm. destruct Hm as [Hm _]. unfold errs in Hm. cbn in Hm.
    destruct r1 as [x|[]]; try (injection E as _ <-; lia).
    pose proof (@counts_raise aagent s1) as [Hr _]. destruct (p_raise s1) as [r2 s2]. cbn [snd] in Hr. injection E as _ <-. unfold errs in Hr. lia.
Qed.

(** ** Errors are not lost *)

Theorem parse_errors files n name lines items r s : tokenize 1 lines = Ok items ->
  parse_program files n name [] false (mkpst items (log_new (Some 3%nat)) true) = (r, s) ->
  (lg_errors (p_log s) <= 3)%nat /\ (lg_errors (p_log s) = 3%nat -> r = Err EAggregated) /\
  ((0 < lg_errors (p_log s))%nat -> exists e, parse_source files n name lines = Err e /\ (forall g, r = Ok g -> e = EAggregated)) /\
  (lg_errors (p_log s) = 0%nat -> parse_source files n name lines = r).
Proof.
  intros Et E. pose proof (counts_program files n name [] false (mkpst items (log_new (Some 3%nat)) true)) as (_ & _ & H).
  rewrite E in H. cbn [fst snd] in H. destruct (H 3%nat eq_refl ltac:(cbn; lia)) as [H1 H2]. unfold errs in *.
  split; [assumption|]. split; [assumption|]. unfold parse_source. rewrite Et, E. unfold log_throw. split.
  - intros Hp. destruct r as [g|e]; [|exists e; split; [reflexivity|discriminate]].
    destruct (lg_errors (p_log s)); [lia|]. now exists EAggregated.
  - intros ->. now destruct r.
Qed.

Context {FR : Front}.
Theorem build_errors files n acts name lines arg W items r s : tokenize 1 lines = Ok items ->
  parse_program files n name [] false (mkpst items (log_new (Some 3%nat)) true) = (r, s) ->
  (0 < lg_errors (p_log s))%nat -> exists e, build_agent files n acts name lines arg W = (Err e, W).
Proof.
  intros Et E Hp. destruct (parse_errors files n name lines items r s Et E) as (_ & _ & H & _).
  destruct (H Hp) as (e & He & _). exists e. unfold build_agent. now rewrite He.
Qed.

Theorem self_include files n name lines toks incl rest :
  directive toks incl -> join_path (dirname name) incl = normpath name ->
  tokenize 1 lines = Ok (map ITok toks ++ rest) -> forall g, parse_source files (S (S n)) name lines <> Ok g.
Proof.
  intros Hd Hj Et g. destruct (parse_program files (S (S n)) name [] false (mkpst (map ITok toks ++ rest) (log_new (Some 3%nat)) true)) as [r s] eqn:E.
  pose proof (include_reported files n name [] false toks incl rest _ true r s Hd ltac:(rewrite Hj; now left) E) as H.
  cbn [log_new lg_errors] in H. destruct (parse_errors files _ name lines _ r s Et E) as (_ & _ & H2 & _). destruct (H2 H) as (e & -> & _). discriminate.
Qed.
End WithPy.
