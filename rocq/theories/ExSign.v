(** An agent with negative numbers. *)
From Verif Require Import Base Num Term Str World Ast Names Quote QuoteSpec Lex LexSpec Parse Fold Program RoundSpec RoundText RoundCor NumRead
  GramSpec SrcSpec AgentSpec AgentSign AgentFormed SignRead ExPy ExParse ExAgent.

Definition sign_text : list pystr :=
  [s2p "cold(X) :- at(X, T) & T < -5 & not [T] = [-1|-3]."; s2p "at(a, -12)."; s2p "at(b, 3)[k(-1)]."; s2p "!go(-4)."; s2p "+!go(-4) : X < -3 <- -at(X, 2); while (X < -1) { +at(X, -2) }."].
Definition sign_tree : res aagent := @parse_source PyEx no_files 60 (s2p "a.asl") sign_text.


Ltac number := first [left; eapply whole_numeral; vm_compute; reflexivity | right; eapply whole_negated; vm_compute; reflexivity].
Lemma sign_case : exists g, sign_tree = Ok g /\ Forall (Forall code_point) sign_text /\ @signed_exact_agent PyEx g /\ ~ @exact_agent PyEx g.
Proof.
  destruct sign_tree as [g|] eqn:E; [|vm_compute in E; discriminate]. exists g. split; [reflexivity|]. split; [points|].
  vm_compute in E. injection E as <-. split.
  - unfold signed_exact_agent. cbn [ag_rules ag_beliefs ag_goals ag_plans].
    split; [|split; [|split]]; repeat (apply Forall_cons || apply Forall_nil).
    1-4: cbn [ar_head ar_cons lit_ast l_functor l_terms l_annots signed_exact map fold_right].
    1-4: repeat (split || (intros X; discriminate X) || exact I); number.
    split; [|split; [|split]]; cbn [ap_annot ap_event ap_ctx ap_body ae_head].
    1: intros l H; discriminate H.
    1: cbn [lit_ast l_functor l_terms l_annots signed_exact map fold_right].
    2-3: intros l H; injection H as <-.
    2: cbn [signed_exact].
    3: repeat (apply Forall_cons || apply Forall_nil); cbn [signed_exact_form signed_exact map fold_right negative].
    all: repeat (split || (intros X; discriminate X) || (intros []) || exact I); number.
  - intros (_ & _ & H & _). cbn [ag_goals] in H. inversion H as [|? ? X _]; subst. cbn [lit_ast l_functor l_terms l_annots exact map fold_right] in X.
    destruct X as ((X & _) & _). revert X. apply (fun y => @minus_not PyEx _ y). eapply whole_negated; vm_compute; reflexivity.
Qed.
