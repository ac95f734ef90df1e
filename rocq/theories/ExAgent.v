(** An agent whose text is read back. *)
From Verif Require Import Base Num Term Str World Ast Names Quote QuoteSpec Lex LexSpec Parse Fold Program RoundSpec RoundCor NumRead
  GramSpec SrcSpec AgentSpec ExPy ExParse.

Definition no_files (p : pystr) : file := NoFile.
Definition agent_text : list pystr :=
  [s2p "near(X, Y) :- at(X) & X < Y + 2 * 3."; s2p "q :- not p(_)."; s2p "at(1)."; s2p "~p(""a b"", [x, 2]).";
   s2p "!go(4). !stop."; s2p "@one +!go(X) : near(X, 5) <- .print(""to"", X); if (X < 10) { -+at(X) } else { !!stop }."; s2p "-!go(X)."].
Definition agent_tree : res aagent := @parse_source PyEx no_files 60 (s2p "a.asl") agent_text.

Lemma agent_case : exists g, agent_tree = Ok g /\ Forall (Forall code_point) agent_text /\ @exact_agent PyEx g /\
  (List.length (ag_rules g), List.length (ag_beliefs g), List.length (ag_goals g), List.length (ag_plans g)) = (2, 2, 2, 2)%nat.
Proof.
  destruct agent_tree as [g|] eqn:E; [|vm_compute in E; discriminate]. exists g. split; [reflexivity|]. split; [points|].
  vm_compute in E. injection E as <-. split; [|reflexivity].
  unfold exact_agent. cbn [ag_rules ag_beliefs ag_goals ag_plans].
  split; [|split; [|split]]; repeat (apply Forall_cons || apply Forall_nil).
  1-6: unfold exact_rule; cbn [ar_head ar_cons lit_ast l_functor l_terms l_annots exact map fold_right];
    repeat split; eapply whole_numeral; vm_compute; reflexivity.
  all: split; [|split; [|split]]; cbn [ap_annot ap_event ap_ctx ap_body ae_head].
  all: try (intros l H; discriminate H).
  all: try (intros l H; injection H as <-).
  all: repeat constructor; try discriminate; eapply whole_numeral; vm_compute; reflexivity.
Qed.

Definition power_text : pystr := s2p "r(X, Y) :- X == (-2) ** Y.".
Definition else_program : pystr := s2p "+!a <- if (b) { c } else { }.".
Definition read_program (PY : Py) (s : pystr) : res aagent := @parse_source PY no_files 60 (s2p "a.asl") (string_source s).

Definition the_pow (a : ast) : aagent :=
  mkaagent [mkarule (mkalit (s2p "r") [AVar (s2p "X"); AVar (s2p "Y")] []) (ABin BEq (AVar (s2p "X")) a)] [] [] [].
Definition two (s : bool) : ast := ANum (let x := NFlt (float_lit (s2p "2")) in if s then num_opp x else x).
Lemma power_refuted (PY : Py) :
  read_program PY power_text = Ok (the_pow (ABin (BNum NPow) (two true) (AVar (s2p "Y")))) /\
  read_program PY (@aagent_str PY (the_pow (ABin (BNum NPow) (two true) (AVar (s2p "Y"))))) =
    Ok (the_pow (AUn UNeg (ABin (BNum NPow) (two false) (AVar (s2p "Y"))))).
Proof. split; vm_compute; reflexivity. Qed.

Lemma else_program_refuted (PY : Py) :
  read_program PY else_program = Ok (mkaagent [] [] [] [else_plan (Some [])]) /\
  read_program PY (@aagent_str PY (mkaagent [] [] [] [else_plan (Some [])])) = Ok (mkaagent [] [] [] [else_plan None]).
Proof. split; vm_compute; reflexivity. Qed.
Lemma pow_inj a b : the_pow a = the_pow b -> a = b.
Proof. unfold the_pow. intros H. injection H. trivial. Qed.
Lemma else_inj a b : mkaagent [] [] [] [else_plan a] = mkaagent [] [] [] [else_plan b] -> a = b.
Proof. unfold else_plan. intros H. injection H. trivial. Qed.
Lemma un_bin op a o l r : ABin o l r <> AUn op a.
Proof. discriminate. Qed.
Lemma some_none {A} (x : A) : Some x <> None.
Proof. discriminate. Qed.

Lemma power_changes (PY : Py) : exists g g', read_program PY power_text = Ok g /\ read_program PY (@aagent_str PY g) = Ok g' /\ g <> g'.
Proof.
  exists (the_pow (ABin (BNum NPow) (two true) (AVar (s2p "Y")))), (the_pow (AUn UNeg (ABin (BNum NPow) (two false) (AVar (s2p "Y"))))).
  split; [exact (proj1 (power_refuted PY))|]. split; [exact (proj2 (power_refuted PY))|]. intros H. exact (un_bin _ _ _ _ _ (pow_inj _ _ H)).
Qed.
Lemma else_changes (PY : Py) : exists g g', read_program PY else_program = Ok g /\ read_program PY (@aagent_str PY g) = Ok g' /\ g <> g'.
Proof.
  exists (mkaagent [] [] [] [else_plan (Some [])]), (mkaagent [] [] [] [else_plan None]).
  split; [exact (proj1 (else_program_refuted PY))|]. split; [exact (proj2 (else_program_refuted PY))|]. intros H. exact (some_none _ (else_inj _ _ H)).
Qed.
Lemma agent_lines : exists g, agent_tree = Ok g /\ List.length (string_source (@aagent_str PyEx g)) = 19%nat.
Proof.
  assert (E : rmap (fun g => List.length (string_source (@aagent_str PyEx g))) agent_tree = Ok 19%nat) by (vm_compute; reflexivity).
  destruct agent_tree as [g|]; [|discriminate]. exists g. split; [reflexivity|]. now injection E.
Qed.
