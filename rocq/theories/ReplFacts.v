From Verif Require Import Base Num Term Str World Ast Names Quote Lex LexSpec LexFacts Parse RoundSpec GramSpec GramTok GramSound GramComp GramCor Steady Eats Repl ReplSpec.

Lemma steady_statement n : steady (statement n).
Proof.
  unfold statement. apply steady_bind; [apply steady_next|]. intros tk. apply steady_bind; [apply steady_plan_body|].
  intros [t b]. apply steady_ret.
Qed.
Lemma kept_toks ts : kept (map ITok ts) = ts.
Proof. induction ts as [|t ts IH]; [reflexivity|]. change (t :: kept (map ITok ts) = t :: ts). now rewrite IH. Qed.

Lemma statement_takes n ts lg b s : statement n (st_of ts lg) = (Ok b, s) ->
  exists ts', s = st_of ts' lg /\ (List.length ts' < List.length ts)%nat.
Proof.
  intros E. pose proof (steady_statement n ts lg) as H. rewrite E in H. destruct H as (ts' & -> & _). exists ts'. split; [reflexivity|].
  unfold statement in E. destruct ts as [|t ts]; [discriminate|]. unfold pbind in E. cbn in E.
  pose proof (eats_plan_body n n t [] (st_of ts lg)) as [pre H].
  unfold parse_plan_body in E. change (mkpst (map ITok ts) lg true) with (st_of ts lg) in E.
  destruct (plan_body_loop n n t [] (st_of ts lg)) as [[[t' b']|e] s']; [|discriminate].
  unfold pret in E. assert (Es : s' = st_of ts' lg) by congruence. subst s'. cbn [snd st_of p_items] in H.
  assert (L : List.length (map ITok ts) = (List.length pre + List.length (map ITok ts'))%nat) by (rewrite H at 1; apply app_length).
  rewrite !map_length in L. cbn. lia.
Qed.

Lemma statement_sound n ts lg b ts' : Forall lexed ts -> statement n (st_of ts lg) = (Ok b, st_of ts' lg) ->
  exists a d, ts = a ++ d :: ts' /\ plan_body a b /\ the "." d.
Proof.
  intros F E. unfold statement in E. destruct ts as [|t ts]; [discriminate|]. unfold pbind in E. cbn in E.
  change (mkpst (map ITok ts) lg true) with (st_of ts lg) in E.
  unfold parse_plan_body in E. destruct (plan_body_loop n n t [] (st_of ts lg)) as [[[t' b']|e] s'] eqn:B; [|discriminate].
  unfold pret in E. assert (Es : s' = st_of ts' lg) by congruence. assert (Eb : b' = b) by congruence. subst s' b'. clear E.
  assert (K : forall l, tokens_of (map ITok l) = l).
  { induction l as [|u l IH]; [reflexivity|]. change (u :: tokens_of (map ITok l) = u :: l). now rewrite IH. }
  apply plan_body_loop_sound in B as (l & us & E & H & -> & Hd).
  - unfold GramSound.toks in E. cbn [st_of p_items] in E. rewrite !K in E. exists l, t'. auto.
  - unfold GramSound.toks. cbn [st_of p_items]. rewrite K. now apply fits.
Qed.

Lemma statement_complete a b : plan_body a b -> Forall lexed a -> exists N, forall n d ts lg, (N <= n)%nat -> the "." d -> lexed d ->
  statement n (st_of (a ++ d :: ts) lg) = (Ok b, st_of ts lg).
Proof.
  intros H F. destruct (plan_body_read a b H (fits _ F)) as (N & R). exists N. intros n d ts lg Hn Hd Fd.
  specialize (R n d Hn Hd (lexed_fit _ Fd) (map ITok ts) lg true). unfold statement, st_of. rewrite map_app. cbn [map].
  unfold pbind in *. destruct (next (mkpst (map ITok a ++ ITok d :: map ITok ts) lg true)) as [[t|e] s]; [|discriminate].
  unfold pbind. destruct (parse_plan_body n t s) as [[[t' b']|e] s']; [|discriminate]. unfold pret in *. cbv beta iota in *. congruence.
Qed.

Lemma unfinished_stops rest : unfinished rest -> Forall lexed rest -> rest <> [] -> exists N, forall n lg, (N <= n)%nat ->
  exists s, statement n (st_of rest lg) = (Err EStopIter, s) /\ p_log s = lg.
Proof.
  intros [->|(us & b & d & H & Hd & F)] Fr Hr; [easy|]. apply Forall_app in F as [Fu Fd].
  assert (Fd' : lexed d) by now inversion Fd.
  destruct (statement_complete (rest ++ us) b H) as (N & C); [now apply Forall_app|].
  exists N. intros n lg Hn. specialize (C n d [] lg Hn Hd Fd'). rewrite <- app_assoc in C.
  pose proof (steady_statement n rest lg) as S. destruct (statement n (st_of rest lg)) as [[b'|e] s].
  - destruct S as (ts' & -> & S). rewrite S in C.
    assert (Z : st_of (ts' ++ us ++ [d]) lg = st_of [] lg) by congruence.
    apply (f_equal p_items) in Z. cbn [st_of p_items map] in Z. apply map_eq_nil in Z. apply app_eq_nil in Z as [_ Z].
    apply app_eq_nil in Z as [_ Z]. discriminate.
  - destruct e; try (destruct (S (us ++ [d])) as [s2 E]; congruence). exists s. auto.
Qed.

Section Exec.
Context {S0 : Type} (exec : list form -> S0 -> res unit * S0).
Notation loop := (repl_loop S0 exec).

Lemma repl_loop_S k n t ts lg x : loop (S k) n (t :: ts) lg x =
  match statement n (st_of (t :: ts) lg) with
  | (Err EStopIter, s) => match log_throw (p_log s) with Ok _ => (Ok (t :: ts), x) | Err e => (Err e, x) end
  | (Err e, _) => (Err e, x)
  | (Ok body, s) =>
      match log_throw (p_log s) with
      | Err e => (Err e, x)
      | Ok _ =>
          match exec body x with
          | (Err e, x') => (Err e, x')
          | (Ok _, x') => loop k n (kept (p_items s)) log3 x'
          end
      end
  end.
Proof. reflexivity. Qed.

(** One round, with nothing logged before. *)
Lemma loop_round k n t ts x :
  loop (S k) n (t :: ts) log3 x =
  match statement n (st_of (t :: ts) log3) with
  | (Err EStopIter, _) => (Ok (t :: ts), x)
  | (Err e, _) => (Err e, x)
  | (Ok body, s) =>
      match exec body x with
      | (Err e, x') => (Err e, x')
      | (Ok _, x') => loop k n (kept (p_items s)) log3 x'
      end
  end.
Proof.
  rewrite repl_loop_S. pose proof (steady_statement n (t :: ts) log3) as H.
  destruct (statement n (st_of (t :: ts) log3)) as [[b|e] s].
  - destruct H as (ts' & -> & _). reflexivity.
  - destruct e; try reflexivity. now rewrite H.
Qed.

Lemma loop_fuel n : forall k k' ts x, (List.length ts <= k)%nat -> (List.length ts <= k')%nat ->
  loop k n ts log3 x = loop k' n ts log3 x.
Proof.
  induction k as [|k IH]; intros k' ts x H H'.
  - destruct ts; [|cbn in H; lia]. now destruct k'.
  - destruct ts as [|t ts]; [now destruct k'|]. destruct k' as [|k']; [cbn in H'; lia|].
    rewrite !loop_round. destruct (statement n (st_of (t :: ts) log3)) as [[b|e] s] eqn:E; [|reflexivity].
    destruct (statement_takes _ _ _ _ _ E) as (ts' & -> & L). cbn [st_of p_items]. rewrite kept_toks.
    destruct (exec b x) as [[[]|e] x1]; [|reflexivity]. cbn in H, H', L. apply IH; lia.
Qed.
Definition run (n : nat) (ts : list tok) (x : S0) := loop (List.length ts) n ts log3 x.
Lemma run_round n t ts x :
  run n (t :: ts) x =
  match statement n (st_of (t :: ts) log3) with
  | (Err EStopIter, _) => (Ok (t :: ts), x)
  | (Err e, _) => (Err e, x)
  | (Ok body, s) =>
      match exec body x with
      | (Err e, x') => (Err e, x')
      | (Ok _, x') => run n (kept (p_items s)) x'
      end
  end.
Proof.
  unfold run. cbn [List.length]. rewrite loop_round.
  destruct (statement n (st_of (t :: ts) log3)) as [[b|e] s] eqn:E; [|reflexivity].
  destruct (statement_takes _ _ _ _ _ E) as (ts' & -> & L). cbn [st_of p_items]. rewrite kept_toks.
  destruct (exec b x) as [[[]|e] x1]; [|reflexivity]. cbn in L. apply loop_fuel; lia.
Qed.

(** More tokens. *)
Lemma run_split n : forall m ts us x r x', (List.length ts <= m)%nat -> run n (ts ++ us) x = (Ok r, x') ->
  exists r1 x1, run n ts x = (Ok r1, x1) /\ run n (r1 ++ us) x1 = (Ok r, x').
Proof.
  induction m as [|m IH]; intros ts us x r x' L E.
  - destruct ts; [|cbn in L; lia]. exists [], x. auto.
  - destruct ts as [|t ts]; [exists [], x; auto|].
    pose proof (steady_statement n (t :: ts) log3) as H.
    destruct (statement n (st_of (t :: ts) log3)) as [[b|e] s] eqn:Es.
    + destruct H as (ts' & -> & H). destruct (statement_takes _ _ _ _ _ Es) as (ts2 & E2 & L2).
      assert (ts2 = ts'). { apply (f_equal (fun s => kept (p_items s))) in E2. cbn [st_of p_items] in E2. rewrite !kept_toks in E2. auto. }
      subst ts2. cbn [app] in E. rewrite run_round in E. specialize (H us). cbn [app] in H. rewrite H in E. cbn [st_of p_items] in E. rewrite kept_toks in E.
      destruct (exec b x) as [[[]|e] x1] eqn:Ex; [|discriminate].
      destruct (IH ts' us x1 r x') as (r1 & x2 & A & B); [cbn in L, L2; lia|exact E|].
      exists r1, x2. split; [|exact B]. rewrite run_round, Es. cbn [st_of p_items]. rewrite kept_toks, Ex. exact A.
    + cbn [app] in E. destruct e.
      all: try (exfalso; destruct (H us) as [s2 Z]; rewrite run_round in E; cbn [app] in Z; rewrite Z in E; discriminate).
      exists (t :: ts), x. split; [|exact E]. rewrite run_round, Es. reflexivity.
Qed.

(** What is kept is not complete. *)
Lemma run_stable n : forall m ts x r x', (List.length ts <= m)%nat -> run n ts x = (Ok r, x') -> forall y, run n r y = (Ok r, y).
Proof.
  induction m as [|m IH]; intros ts x r x' L E y.
  - destruct ts; [|cbn in L; lia]. unfold run in E. cbn in E. assert (r = []) by congruence. now subst r.
  - destruct ts as [|t ts]; [unfold run in E; cbn in E; assert (r = []) by congruence; now subst r|].
    rewrite run_round in E. destruct (statement n (st_of (t :: ts) log3)) as [[b|e] s] eqn:Es.
    + destruct (statement_takes _ _ _ _ _ Es) as (ts' & -> & L2). cbn [st_of p_items] in E. rewrite kept_toks in E.
      destruct (exec b x) as [[[]|e] x1] eqn:Ex; [|discriminate]. eapply IH; [|exact E]. cbn in L, L2. lia.
    + destruct e; try discriminate. assert (r = t :: ts) by congruence. subst r. rewrite run_round, Es. reflexivity.
Qed.

Lemma statements_run ts bs rest x x' : statements ts bs rest -> Forall lexed ts -> unfinished rest -> executes exec bs x x' ->
  exists N, forall n, (N <= n)%nat -> run n ts x = (Ok rest, x').
Proof.
  intros H. revert x. induction H as [rest|a b d ts bs rest Hp Hd H IH]; intros x F U X; inversion X; subst.
  - destruct rest as [|t rest]; [exists 0%nat; reflexivity|].
    destruct (unfinished_stops (t :: rest) U F) as (N & A); [discriminate|].
    exists N. intros n Hn. rewrite run_round. destruct (A n log3 Hn) as (s & E & _). now rewrite E.
  - apply Forall_app in F as [Fa F]. assert (Fd : lexed d) by now inversion F. assert (Ft : Forall lexed ts) by now inversion F.
    match goal with X1 : exec b x = _, X2 : executes exec bs _ x' |- _ => rename X1 into X1', X2 into X2' end.
    destruct (IH _ Ft U X2') as (N1 & A). destruct (statement_complete a b Hp Fa) as (N2 & B).
    exists (N1 + N2)%nat. intros n Hn. specialize (B n d ts log3 ltac:(lia) Hd Fd).
    destruct (a ++ d :: ts) as [|t0 l0] eqn:El; [destruct a; discriminate|].
    rewrite run_round, B. cbn [st_of p_items]. rewrite kept_toks, X1'. apply A. lia.
Qed.

Lemma line_tokens_clean ts lg : line_tokens (map ITok ts) lg = (Ok ts, lg).
Proof. induction ts as [|t ts IH]; [reflexivity|]. cbn. now rewrite IH. Qed.

Lemma typed_lexed k lines T : typed k lines T -> Forall lexed T.
Proof.
  induction 1 as [|k line lines ts T E H IH]; [constructor|]. apply Forall_app. split; [|exact IH].
  apply Forall_forall. intros t Ht. exists (S k), (string_source line), (map ITok ts). split; [exact E|]. now apply in_map.
Qed.

Lemma repl_run n k lines T : typed k lines T -> forall buf x r x', (forall y, run n buf y = (Ok buf, y)) ->
  run n (buf ++ T) x = (Ok r, x') -> repl S0 exec n k lines buf x = (Ok r, x').
Proof.
  induction 1 as [|k line lines ts T E H IH]; intros buf x r x' St R.
  - rewrite app_nil_r in R. rewrite St in R. cbn. congruence.
  - cbn [repl]. unfold repl_line. rewrite E, line_tokens_clean. cbn [fst snd].
    rewrite app_assoc in R. destruct (run_split n _ (buf ++ ts) T x r x' (le_n _) R) as (r1 & x1 & A & B).
    change (loop (List.length (buf ++ ts)) n (buf ++ ts) log3 x) with (run n (buf ++ ts) x). rewrite A.
    apply IH; [|exact B]. eapply run_stable; [apply le_n|exact A].
Qed.

Lemma repl_session lines T bs rest x x' : typed 0 lines T -> statements T bs rest -> unfinished rest -> executes exec bs x x' ->
  exists N, forall n, (N <= n)%nat -> repl S0 exec n 0 lines [] x = (Ok rest, x').
Proof.
  intros Ht Hs U X. destruct (statements_run T bs rest x x' Hs (typed_lexed _ _ _ Ht) U X) as (N & A).
  exists N. intros n Hn. eapply repl_run; [exact Ht|reflexivity|]. now apply A.
Qed.


(** What a run does, whatever the stack. *)
Lemma run_only n : forall m ts x r x', (List.length ts <= m)%nat -> Forall lexed ts -> run n ts x = (r, x') ->
  exists bs rest, statements ts bs rest /\
    ((executes exec bs x x' /\ r = Ok rest) \/
     (exists e, executes exec bs x x' /\ r = Err e) \/
     (exists bs0 b x1 e, bs = bs0 ++ [b] /\ executes exec bs0 x x1 /\ exec b x1 = (Err e, x') /\ r = Err e)).
Proof.
  induction m as [|m IH]; intros ts x r x' L F E.
  - destruct ts; [|cbn in L; lia]. unfold run in E. cbn in E. exists [], []. split; [constructor|].
    left. assert (x' = x) by congruence. subst x'. split; [constructor|congruence].
  - destruct ts as [|t ts].
    { unfold run in E. cbn in E. exists [], []. split; [constructor|].
      left. assert (x' = x) by congruence. subst x'. split; [constructor|congruence]. }
    rewrite run_round in E. destruct (statement n (st_of (t :: ts) log3)) as [[b|e] s] eqn:Es.
    + destruct (statement_takes _ _ _ _ _ Es) as (ts' & -> & L2). cbn [st_of p_items] in E. rewrite kept_toks in E.
      destruct (statement_sound _ _ _ _ _ F Es) as (a & d & Et & Hp & Hd). rewrite Et in *.
      destruct (exec b x) as [[[]|e] x1] eqn:Ex.
      * assert (Ft : Forall lexed ts') by (apply Forall_app in F as [_ F]; now inversion F).
        rewrite <- Et in L, L2. cbn in L, L2.
        destruct (IH ts' x1 r x' ltac:(lia) Ft E) as (bs & rest & Hs & H). exists (b :: bs), rest.
        split; [now constructor|]. destruct H as [[X ->]|[(e & X & ->)|(bs0 & b1 & x2 & e & -> & X & Xe & ->)]].
        -- left. split; [|reflexivity]. now apply x_next with x1.
        -- right; left. exists e. split; [|reflexivity]. now apply x_next with x1.
        -- right; right. exists (b :: bs0), b1, x2, e. repeat split; auto. now apply x_next with x1.
      * exists [b], ts'. split; [constructor; auto; constructor|]. right; right. exists [], b, x, e.
        assert (x' = x1) by congruence. subst x'. repeat split; auto; [constructor|congruence].
    + exists [], (t :: ts). split; [constructor|].
      assert (x' = x) by (destruct e; congruence). subst x'.
      assert (Er : r = Ok (t :: ts) \/ exists e0, r = Err e0) by (destruct e; first [left; congruence|right; eexists; symmetry; exact (f_equal fst E)]).
      destruct Er as [->|[e0 ->]]; [left; split; [constructor|reflexivity]|right; left; exists e0; split; [constructor|reflexivity]].
Qed.

Lemma line_only n k line buf ts x r x' : tokenize k (string_source line) = Ok (map ITok ts) -> Forall lexed buf ->
  repl_line S0 exec n k line buf x = (r, x') ->
  exists bs rest, statements (buf ++ ts) bs rest /\
    ((executes exec bs x x' /\ r = Ok rest) \/
     (exists e, executes exec bs x x' /\ r = if caught e then Ok [] else Err e) \/
     (exists bs0 b x1 e, bs = bs0 ++ [b] /\ executes exec bs0 x x1 /\ exec b x1 = (Err e, x') /\
        r = if caught e then Ok [] else Err e)).
Proof.
  intros E F H. unfold repl_line in H. rewrite E, line_tokens_clean in H.
  change (loop (List.length (buf ++ ts)) n (buf ++ ts) log3 x) with (run n (buf ++ ts) x) in H.
  destruct (run n (buf ++ ts) x) as [r0 x0] eqn:R.
  assert (Fa : Forall lexed (buf ++ ts)).
  { apply Forall_app. split; [exact F|]. apply Forall_forall. intros t Ht. exists k, (string_source line), (map ITok ts).
    split; [exact E|]. now apply in_map. }
  destruct (run_only n _ _ _ _ _ (le_n _) Fa R) as (bs & rest & Hs & C). exists bs, rest. split; [exact Hs|].
  destruct C as [[X ->]|[(e & X & ->)|(bs0 & b & x1 & e & Eb & X & Xe & ->)]].
  - left. assert (x' = x0) by congruence. subst x0. split; [exact X|congruence].
  - right; left. exists e. destruct (caught e); assert (x' = x0) by congruence; subst x0; split; [exact X|congruence|exact X|congruence].
  - right; right. exists bs0, b, x1, e. destruct (caught e); assert (x' = x0) by congruence; subst x0; repeat split; auto; congruence.
Qed.

(** Illegal characters. *)
Lemma log_error_count lg u l2 : log_error lg = (Ok u, l2) -> lg_errors l2 = S (lg_errors lg).
Proof.
  unfold log_error. cbv zeta. destruct (lg_max lg) as [m|]; [destruct (Nat.leb _ _); [discriminate|]|];
    intros E; apply (f_equal snd) in E; cbn in E; now subst l2.
Qed.
Lemma line_tokens_log items : forall lg, (exists t w r, In (IBad t w r) items) -> forall new lg', line_tokens items lg = (Ok new, lg') ->
  (lg_errors lg < lg_errors lg')%nat.
Proof.
  assert (M : forall items lg new lg', line_tokens items lg = (Ok new, lg') -> (lg_errors lg <= lg_errors lg')%nat).
  { induction items0 as [|[t|c w r0] l IH]; intros lg new lg' E; cbn in E.
    - assert (lg' = lg) by congruence. subst. lia.
    - destruct (line_tokens l lg) as [[ts|e] l2] eqn:El; [|discriminate]. apply IH in El. assert (lg' = l2) by congruence. now subst.
    - destruct (log_error lg) as [[[]|e] l2] eqn:El; [|discriminate]. apply IH in E.
      apply log_error_count in El.
      lia. }
  induction items as [|[t|c w r0] l IH]; intros lg (t1 & w1 & r1 & I) new lg' E; [easy| |]; cbn in E.
  - destruct I as [I|I]; [discriminate|]. destruct (line_tokens l lg) as [[ts|e] l2] eqn:El; [|discriminate].
    apply (IH lg) in El; [|eauto]. assert (lg' = l2) by congruence. now subst.
  - destruct (log_error lg) as [[[]|e] l2] eqn:El; [|discriminate]. apply M in E.
    apply log_error_count in El.
    lia.
Qed.

Lemma line_tokens_err items : forall lg e lg', line_tokens items lg = (Err e, lg') -> e = EAggregated.
Proof.
  induction items as [|[t|c w r0] l IH]; intros lg e lg' E; cbn in E; [discriminate| |].
  - destruct (line_tokens l lg) as [[ts|e1] l2] eqn:El; [discriminate|]. apply IH in El. congruence.
  - destruct (log_error lg) as [[[]|e1] l2] eqn:El; [now apply IH in E|].
    unfold log_error in El. destruct (lg_max lg); [destruct (Nat.leb _ _)|]; congruence.
Qed.

Lemma line_illegal n k line buf items x r x' : tokenize k (string_source line) = Ok items -> (exists t w q, In (IBad t w q) items) ->
  repl_line S0 exec n k line buf x = (r, x') -> x' = x /\ (r = Ok [] \/ exists e, caught e = false /\ r = Err e).
Proof.
  intros E I H. unfold repl_line in H. rewrite E in H.
  destruct (line_tokens items log3) as [[new|e] lg] eqn:L.
  2:{ apply line_tokens_err in L as ->. cbn in H. split; [congruence|]. left. congruence. }
  apply (line_tokens_log _ _ I) in L. destruct (lg_errors lg) as [|m] eqn:Em; [lia|].
  destruct (buf ++ new) as [|t ts]; [cbn in H; split; [congruence|left; congruence]|].
  cbn [List.length] in H. rewrite repl_loop_S in H. pose proof (steady_statement n (t :: ts) lg) as St.
  destruct (statement n (st_of (t :: ts) lg)) as [[b|e] s].
  - destruct St as (ts' & -> & _). cbn [st_of p_log] in H. unfold log_throw in H. rewrite Em in H. cbn in H. split; [congruence|left; congruence].
  - assert (Q : forall e0, (let '(r, x'0) := (@Err (list tok) e0, x) in match r with Err e1 => if caught e1 then (Ok [], x'0) else (Err e1, x'0) | Ok ts0 => (Ok ts0, x'0) end) = (r, x') ->
       x' = x /\ (r = Ok [] \/ exists e, caught e = false /\ r = Err e)).
    { intros e0 He. destruct (caught e0) eqn:Ec; split; try congruence; [left; congruence|right; exists e0; split; congruence]. }
    destruct e; try (match type of H with context[(Err ?e, x)] => exact (Q e H) end).
    rewrite St in H. unfold log_throw in H. rewrite Em in H. exact (Q EAggregated H).
Qed.

(** A session goes on. *)
Lemma repl_app n : forall l1 k l2 buf x ts x1, repl S0 exec n k l1 buf x = (Ok ts, x1) ->
  repl S0 exec n k (l1 ++ l2) buf x = repl S0 exec n (List.length l1 + k) l2 ts x1.
Proof.
  induction l1 as [|line l1 IH]; intros k l2 buf x ts x1 E; cbn [app repl List.length] in *.
  - cbn. congruence.
  - destruct (repl_line S0 exec n (S k) line buf x) as [[ts0|e] x0]; [|discriminate].
    rewrite (IH _ _ _ _ _ _ E). f_equal. cbn. lia.
Qed.

Lemma repl_goes_on before k0 lines T bs rest x0 x x' N0 buf :
  (forall n, (N0 <= n)%nat -> repl S0 exec n k0 before buf x0 = (Ok [], x)) ->
  typed (List.length before + k0) lines T -> statements T bs rest -> unfinished rest -> executes exec bs x x' ->
  exists N, forall n, (N <= n)%nat -> repl S0 exec n k0 (before ++ lines) buf x0 = (Ok rest, x').
Proof.
  intros B Ht Hs U X. destruct (statements_run T bs rest x x' Hs (typed_lexed _ _ _ Ht) U X) as (N & A).
  exists (N + N0)%nat. intros n Hn. rewrite (repl_app n before k0 lines buf x0 [] x); [|apply B; lia].
  eapply repl_run; [exact Ht|reflexivity|]. apply A. lia.
Qed.
End Exec.

Lemma caught_is e {A} (x y : A) : (if caught e then x else y) = match e with EAggregated | EAsl => x | _ => y end.
Proof. destruct e; reflexivity. Qed.
Lemma line_does S0 (exec : list form -> S0 -> res unit * S0) n k line buf ts x r x' :
  tokenize k (string_source line) = Ok (map ITok ts) -> Forall lexed buf ->
  repl_line S0 exec n k line buf x = (r, x') ->
  exists bs rest, statements (buf ++ ts) bs rest /\
    ((executes exec bs x x' /\ r = Ok rest) \/
     (exists e, executes exec bs x x' /\ r = match e with EAggregated | EAsl => Ok [] | _ => Err e end) \/
     (exists bs0 b x1 e, bs = bs0 ++ [b] /\ executes exec bs0 x x1 /\ exec b x1 = (Err e, x') /\
        r = match e with EAggregated | EAsl => Ok [] | _ => Err e end)).
Proof.
  intros E F H. destruct (line_only exec n k line buf ts x r x' E F H) as (bs & rest & Hs & C). exists bs, rest. split; [exact Hs|].
  destruct C as [C|[(e & X & R)|(bs0 & b & x1 & e & Eb & X & Xe & R)]].
  - now left.
  - right; left. exists e. split; [exact X|]. now rewrite caught_is in R.
  - right; right. exists bs0, b, x1, e. rewrite caught_is in R. auto.
Qed.
Lemma illegal_nothing S0 (exec : list form -> S0 -> res unit * S0) n k line buf items x r x' :
  tokenize k (string_source line) = Ok items -> (exists c l col, In (IBad c l col) items) ->
  repl_line S0 exec n k line buf x = (r, x') -> x' = x /\ (r = Ok [] \/ exists e, e <> EAggregated /\ e <> EAsl /\ r = Err e).
Proof.
  intros E I H. destruct (line_illegal exec n k line buf items x r x' E I H) as (-> & [->|(e & C & ->)]); split; auto. right. exists e.
  split; [intros ->; discriminate|]. split; [intros ->; discriminate|reflexivity].
Qed.
