(** C60: the read-eval-print loop.  Specification: ReplSpec.v, and the grammar in
    GramSpec.v. *)
From Verif Require Import Base Num Term Str World Ast Names Lex Parse GramSpec ExGram Repl ReplSpec ReplFacts.

(** The statements that are typed are executed in their order, each as soon as
    its full stop has been read, however they are divided into lines: several may
    be on one line, and one may be on several.  What has been typed of an
    unfinished statement is kept. *)
Theorem C60_session : forall S0 (exec : list form -> S0 -> res unit * S0) lines T bs rest x x',
  typed 0 lines T -> statements T bs rest -> unfinished rest -> executes exec bs x x' ->
  exists N, forall n, (N <= n)%nat -> repl S0 exec n 0 lines [] x = (Ok rest, x').
Proof. exact @repl_session. Qed.
Print Assumptions C60_session.

(** The same after lines of any kind that leave nothing unfinished. *)
Theorem C60_goes_on : forall S0 (exec : list form -> S0 -> res unit * S0) before k0 lines T bs rest x0 x x' N0 buf,
  (forall n, (N0 <= n)%nat -> repl S0 exec n k0 before buf x0 = (Ok [], x)) ->
  typed (List.length before + k0) lines T -> statements T bs rest -> unfinished rest -> executes exec bs x x' ->
  exists N, forall n, (N <= n)%nat -> repl S0 exec n k0 (before ++ lines) buf x0 = (Ok rest, x').
Proof. exact @repl_goes_on. Qed.
Print Assumptions C60_goes_on.

(** Nothing else is executed: after a line, statements have been executed that
    the pending tokens and the line begin with, up to one that raised an
    exception.  An exception of the library drops what is pending and the rest of
    the line, and the session goes on; others end it. *)
Theorem C60_line : forall S0 (exec : list form -> S0 -> res unit * S0) n k line buf ts x r x',
  tokenize k (string_source line) = Ok (map ITok ts) -> Forall lexed buf ->
  repl_line S0 exec n k line buf x = (r, x') ->
  exists bs rest, statements (buf ++ ts) bs rest /\
    ((executes exec bs x x' /\ r = Ok rest) \/
     (exists e, executes exec bs x x' /\ r = match e with EAggregated | EAsl => Ok [] | _ => Err e end) \/
     (exists bs0 b x1 e, bs = bs0 ++ [b] /\ executes exec bs0 x x1 /\ exec b x1 = (Err e, x') /\
        r = match e with EAggregated | EAsl => Ok [] | _ => Err e end)).
Proof. exact @line_does. Qed.
Print Assumptions C60_line.

(** Of a line with an illegal character nothing is executed. *)
Theorem C60_illegal : forall S0 (exec : list form -> S0 -> res unit * S0) n k line buf items x r x',
  tokenize k (string_source line) = Ok items -> (exists c l col, In (IBad c l col) items) ->
  repl_line S0 exec n k line buf x = (r, x') -> x' = x /\ (r = Ok [] \/ exists e, e <> EAggregated /\ e <> EAsl /\ r = Err e).
Proof. exact @illegal_nothing. Qed.
Print Assumptions C60_illegal.

(** Two statements on two lines, and the beginning of a third. *)
Definition recorder (b : list form) (l : list (list form)) : res unit * list (list form) := (Ok tt, l ++ [b]).
Lemma recorded bs x x' : executes recorder bs x x' -> x' = x ++ bs.
Proof.
  induction 1 as [x|b bs x y z E H IH]; [now rewrite app_nil_r|]. assert (y = x ++ [b]) by (unfold recorder in E; congruence).
  subst y. rewrite IH, <- app_assoc. reflexivity.
Qed.
Lemma records bs : forall x, executes recorder bs x (x ++ bs).
Proof.
  induction bs as [|b bs IH]; intros x; [rewrite app_nil_r; constructor|]. apply x_next with (x ++ [b]); [reflexivity|].
  specialize (IH (x ++ [b])). now rewrite <- app_assoc in IH.
Qed.
Lemma recorder_statements n ts rest bs : Forall lexed ts -> run recorder n ts [] = (Ok rest, bs) -> statements ts bs rest.
Proof.
  intros F E. destruct (run_only recorder n _ _ _ _ _ (le_n _) F E) as (bs' & rest' & Hs & C).
  destruct C as [[X R]|[(e & _ & R)|(bs0 & b & x1 & e & _ & _ & R & _)]]; [|discriminate|discriminate].
  apply recorded in X. cbn in X. subst bs'. assert (rest' = rest) by congruence. now subst rest'.
Qed.
Definition in_line (k : nat) (s : string) : list tok :=
  match tokenize k (string_source (s2p s)) with Ok l => kept l | Err _ => [] end.
Lemma in_line_lexed k s : Forall lexed (in_line k s).
Proof.
  apply Forall_forall. intros t Hi. unfold in_line in Hi. destruct (tokenize k (string_source (s2p s))) as [l|] eqn:E; [|destruct Hi].
  exists k, (string_source (s2p s)), l. split; [exact E|]. unfold kept in Hi. apply in_flat_map in Hi as (i & Hi & H).
  destruct i; [|destruct H]. destruct H as [<-|[]]. exact Hi.
Qed.
Lemma statements_lexed ts bs r : statements ts bs r -> Forall lexed ts -> Forall lexed r.
Proof.
  induction 1 as [|a b d ts bs0 r Ha Hd H IH]; intros G; [exact G|]. apply IH. apply Forall_app in G as [_ G]. now inversion G.
Qed.
Lemma one_statement rest us d b : statements ((rest ++ us) ++ [d]) [b] [] -> plan_body (rest ++ us) b /\ the "." d.
Proof.
  intros S2. inversion S2 as [|a b' d' ts' bs' r' Ha Hd Hs Ea Eb Er]. inversion Hs. subst. 
  apply app_inj_tail in Ea as [<- <-]. auto.
Qed.
(** A continuation of what is kept, found by running. *)
Lemma unfinished_by n rest us d : Forall lexed (rest ++ us ++ [d]) ->
  match run recorder n ((rest ++ us) ++ [d]) [] with (Ok [], [_]) => True | _ => False end -> unfinished rest.
Proof.
  intros F H. destruct (run recorder n ((rest ++ us) ++ [d]) []) as [[[|]|] [|b [|]]] eqn:R; try destruct H.
  rewrite app_assoc in F. destruct (one_statement _ _ _ _ (recorder_statements _ _ _ _ F R)) as [Hp Hd].
  right. exists us, b, d. repeat split; auto. rewrite <- app_assoc in F. now apply Forall_app in F.
Qed.
Lemma session_case n l1 l2 us d :
  tokenize 1 (string_source (s2p l1)) = Ok (map ITok (in_line 1 l1)) ->
  tokenize 2 (string_source (s2p l2)) = Ok (map ITok (in_line 2 l2)) ->
  in_line 1 us <> [] -> in_line 1 "." = [d] ->
  match run recorder n (in_line 1 l1 ++ in_line 2 l2 ++ []) [] with
  | (Ok rest, bs) => List.length bs = 2%nat /\ List.length rest = 3%nat /\
      match run recorder n ((rest ++ in_line 1 us) ++ [d]) [] with (Ok [], [_]) => True | _ => False end
  | _ => False
  end ->
  exists lines T bs rest, typed 0 lines T /\ statements T bs rest /\ unfinished rest /\
  executes recorder bs [] bs /\ List.length lines = 2%nat /\ List.length bs = 2%nat /\ List.length rest = 3%nat.
Proof.
  intros H1 H2 Hu Hd H. set (T := in_line 1 l1 ++ in_line 2 l2 ++ []) in *.
  assert (Ht : typed 0 [s2p l1; s2p l2] T).
  { apply t_line; [exact H1|]. apply t_line; [exact H2|]. constructor. }
  pose proof (typed_lexed _ _ _ Ht) as F.
  destruct (run recorder n T []) as [[rest|e] bs] eqn:R; [|destruct H]. destruct H as (L1 & L2 & H).
  pose proof (recorder_statements _ _ _ _ F R) as Hs.
  exists [s2p l1; s2p l2], T, bs, rest. repeat (split; [assumption|]). split; [|split; [exact (records bs [])|auto]].
  eapply unfinished_by; [|exact H]. apply Forall_app. split; [exact (statements_lexed _ _ _ Hs F)|].
  apply Forall_app. split; [apply in_line_lexed|]. rewrite <- Hd. apply in_line_lexed.
Qed.
Example C60_case : exists lines T bs rest, typed 0 lines T /\ statements T bs rest /\ unfinished rest /\
  executes recorder bs [] bs /\ List.length lines = 2%nat /\ List.length bs = 2%nat /\ List.length rest = 3%nat.
Proof.
  eapply (session_case 30 "!a; +b(X" "). -c. ?d(" "X, y)").
  - vm_compute. reflexivity.
  - vm_compute. reflexivity.
  - vm_compute. discriminate.
  - vm_compute. reflexivity.
  - vm_compute. auto.
Qed.

(** A syntax error, and an illegal character: what is executed. *)
Definition heads (l : list (list form)) : list (list pystr) :=
  map (flat_map (fun f => match f with FForm _ (ALit h _ _) => [h] | _ => [] end)) l.
Example C60_errors :
  (let '(r, x) := repl (list (list form)) recorder 30 0
     [s2p "+a. +b }. +d."; s2p "+e"; s2p "$ ; +f."; s2p "?g"; s2p "; !h. !i"] [] [] in (rmap (List.length (A := tok)) r, heads x))%string =
  (Ok 2%nat, [[s2p "a"]; [s2p "g"; s2p "h"]]%string).
Proof. vm_compute. reflexivity. Qed.
