(** An agent whose plan has loops and a choice:

      p(1). p(2). p(3).
      +!g(X) <- for (p(Y)) { if (Y == 2) { +two(Y) } else { +other(Y) } };
                while (p(Z)) { -p(Z) };
                +done(X). *)
From Verif Require Import Base Num Term Unify Str World Engine Step Ast Names Build Reach QuerySpec QueryCor BelSpec BelCor LoadSpec ExPlan ExPy FlowSpec.

Definition flow_body : list form :=
  [FFor (al "p" [av "Y"]) [FIf (ABin BEq (av "Y") (num1 2)) [FForm FtAdd (al "two" [av "Y"])] (Some [FForm FtAdd (al "other" [av "Y"])])];
   FWhile (al "p" [av "Z"]) [FForm FtRemove (al "p" [av "Z"])];
   FForm FtAdd (al "done" [av "X"])].
Definition flow_ast : aagent := mkaagent [] [hd1 "p" [num1 1]; hd1 "p" [num1 2]; hd1 "p" [num1 3]] [] [on_goal "g" "X" None (Some flow_body)].
Definition flow_built : res nat * world := @build_agent_from_ast PyEx FrontEx 20 stdlib_actions (s2p "bob") flow_ast world0.
Definition flow_world : world := snd (@outside_call PyEx FrontEx 20 0 TrAdd GtAchieve (TLit (s2p "g") [TNum (NInt 7)] []) true (snd flow_built)).
Lemma flow_front : front_compiles FrontEx.
Proof. intros s k p k' H. discriminate. Qed.
Lemma flow_reach : @reach PyEx FrontEx flow_world.
Proof.
  unfold flow_world. destruct (@outside_call PyEx FrontEx 20 0 TrAdd GtAchieve _ true (snd flow_built)) as [r W] eqn:E.
  eapply rc_call; [| |exact E].
  - unfold flow_built. destruct (@build_agent_from_ast PyEx FrontEx 20 stdlib_actions (s2p "bob") flow_ast world0) as [r' W'] eqn:E'. eapply rc_build; [apply rc_env|exact E'].
  - vm_compute. auto.
Qed.
(** In the middle of the first loop, a query is open and another one, that of the
    choice. *)
Lemma flow_middle : @reach PyEx FrontEx (steps 6 20 0 flow_world) /\ a_ints (get_agent (steps 6 20 0 flow_world) 0) = [[7%nat]] /\
  i_pc (get_int (steps 6 20 0 flow_world) 7) = Some 8%nat /\
  List.length (i_qs (get_int (steps 6 20 0 flow_world) 7)) = 2%nat.
Proof.
  split; [apply steps_reach; [exact flow_reach|vm_compute; auto]|]. vm_compute. repeat split.
Qed.
Lemma flow_done : map (fun f => beliefs 0 (s2p f, 1%nat) (steps 70 20 0 flow_world)) ["p"; "two"; "other"; "done"]%string =
  [[]; [TLit (s2p "two") [TNum (NInt 2)] []]; [TLit (s2p "other") [TNum (NInt 1)] []; TLit (s2p "other") [TNum (NInt 3)] []]; [TLit (s2p "done") [TNum (NInt 7)] []]] /\
  a_ints (get_agent (steps 70 20 0 flow_world) 0) = [].
Proof. vm_compute. repeat split. Qed.
Lemma flow_plan : exists x, @made_plan PyEx stdlib_actions (on_goal "g" "X" None (Some flow_body)) x /\ List.length (p_code x) = 19%nat.
Proof. eexists. split; [exists (log_new None), 0%N; eexists _, _; vm_compute; reflexivity|vm_compute; reflexivity]. Qed.
