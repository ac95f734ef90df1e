From Verif Require Import Base Num Term Unify TrailSpec TrailFacts.

Section BopInd.
  Variable P : bop -> Prop.
  Hypothesis H1 : forall n l r, P (OUnify n l r).
  Hypothesis H2 : forall n l r, P (OUnifyAnn n l r).
  Hypothesis H3 : P OPush.
  Hypothesis H4 : forall ops, Forall P ops -> P (OTry ops).
  Fixpoint bop_ind' (o : bop) : P o :=
    match o with
    | OUnify n l r => H1 n l r
    | OUnifyAnn n l r => H2 n l r
    | OPush => H3
    | OTry ops => H4 ops ((fix go (l : list bop) : Forall P l :=
        match l with [] => Forall_nil P | x :: l' => Forall_cons x (bop_ind' x) (go l') end) ops)
    end.
End BopInd.

Section WithPy.
Context {PY : Py}.

Lemma run_bop_trail o : forall st, trail st (run_bop o st).
Proof.
  induction o as [n l r|n l r| |ops IH] using bop_ind'; intro st; cbn [run_bop].
  - destruct (unify n l r st) as [x st'] eqn:E. cbn. now apply vtrail_trail, (unify_vtrail n l r st x).
  - destruct (uann n l r st) as [x st'] eqn:E. cbn. now apply (uann_trail n l r st x).
  - cbn. apply (push_cp_trail st).
  - cbn [new_cp].
    refine (proj2 (reroll_trail st _ _)). cbn [new_cp snd].
    generalize (push_cp (b_ncp st) (mkbst (b_scope st) (b_stack st) (N.succ (b_ncp st)))).
    induction IH as [|o ops Ho Hops IHops]; intro st0; [constructor|].
    eapply trail_trans; [apply Ho|apply IHops].
Qed.

Lemma run_bops_trail os : forall st, trail st (run_bops os st).
Proof.
  induction os as [|o os IH]; intro st; [constructor|]. cbn. eapply trail_trans; [apply run_bop_trail|apply IH].
Qed.

Lemma rollback_exact os st :
  let '(cp, st0) := new_cp st in
  let st' := reroll (run_bops os (push_cp cp st0)) cp in
  b_scope st' = b_scope st /\ b_stack st' = b_stack st.
Proof.
  cbn zeta. cbn [new_cp].
  destruct (reroll_trail st (run_bops os (push_cp (b_ncp st) (snd (new_cp st))))) as [H _].
  - apply run_bops_trail.
  - cbn [new_cp snd] in H. rewrite H. split; reflexivity.
Qed.
End WithPy.
