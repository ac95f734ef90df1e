(** Concrete texts for the parser theorems, and the trees that are not read back. *)
From Verif Require Import Base Num Term Str World Ast Names Quote QuoteSpec Lex LexSpec Parse RoundSpec RoundCor NumRead.
From Verif Require Import ExPy.
From Coq Require Import Floats.SpecFloat.

(** The tree of a text, for a bound of 50. *)
Definition tree {A} (parse : nat -> tok -> P (tok * A)) (s : pystr) : option A :=
  match tokenize 1 (string_source s) with
  | Ok (ITok first :: rest) =>
      match parse 50%nat first (mkpst rest (log_new None) true) with (Ok (_, a), _) => Some a | _ => None end
  | _ => None
  end.

Lemma tree_came {A} (parse : nat -> tok -> P (tok * A)) s a :
  Forall (Forall code_point) (string_source s) -> tree parse s = Some a -> came parse a.
Proof.
  unfold tree. intros Hc H. destruct (tokenize 1 (string_source s)) as [[|[first|] rest]|] eqn:E; try discriminate.
  destruct (parse 50%nat first _) as [[[tk x]|] st] eqn:E2; try discriminate. injection H as ->.
  exists 50%nat, (string_source s), (ITok first :: rest), [], first, rest, (log_new None), true, tk, st. repeat split; assumption.
Qed.

Ltac points := repeat constructor; vm_compute; reflexivity.

Definition plan_text : pystr :=
  s2p "@safe +!go(X, [Y|T])[source(S)] : at(P) & not (X == P | X > 3 + 2 * Y) <- ?route(P, X); for (r(Z)) { .print(""to"", Z); -+at(Z) }; if (X < 10) { !go(X) } else { !!stop }.".
Definition plan_tree : option aplan := tree parse_plan plan_text.

Lemma plan_case : exists p, plan_tree = Some p /\ came parse_plan p /\ @exact_plan PyEx p.
Proof.
  destruct plan_tree as [p|] eqn:E; [|vm_compute in E; discriminate].
  exists p. split; [reflexivity|]. split.
  - apply (tree_came _ plan_text); [points|exact E].
  - vm_compute in E. injection E as <-.
    split; [|split; [|split]]; cbn [ap_annot ap_event ap_ctx ap_body ae_head].
    + intros l H. injection H as <-. cbn. tauto.
    + cbn. tauto.
    + intros c H. injection H as <-. cbn. repeat split; eapply whole_numeral; vm_compute; reflexivity.
    + intros b H. injection H as <-. repeat constructor; try discriminate; eapply whole_numeral; vm_compute; reflexivity.
Qed.

Definition else_text : pystr := s2p "+!a <- if (b) { c } else { }.".
Definition else_plan (eb : option (list form)) : aplan :=
  mkaplan None (mkaevent TrAdd GtAchieve (mkalit (s2p "a") [] [])) None
    (Some [FIf (ALit (s2p "b") [] []) [FForm FtTerm (ALit (s2p "c") [] [])] eb]).

Lemma else_refuted PY : exists p, came parse_plan p /\ ~ @read_back aplan parse_plan (@aplan_str PY p ++ s2p ".") p.
Proof.
  exists (else_plan (Some [])). split.
  - apply (tree_came _ else_text); [points|vm_compute; reflexivity].
  - intros H. assert (H2 : read_back parse_plan (@aplan_str PY (else_plan None) ++ s2p ".") (else_plan None)).
    { apply parsed_plan_back.
      - apply (tree_came _ (s2p "+!a <- if (b) { c }.")); [points|vm_compute; reflexivity].
      - split; [|split; [|split]]; cbn; try discriminate; [tauto|]. intros b E. injection E as <-. repeat constructor. }
    assert (E : @aplan_str PY (else_plan (Some [])) = @aplan_str PY (else_plan None)) by (vm_compute; reflexivity).
    rewrite E in H. discriminate (read_back_once _ _ _ _ H H2).
Qed.

Definition PyInf : Py := {|
  horder := fun l => l; fpow := fun _ _ => Err EUnmodelled;
  py_call := fun _ _ _ => Err EUnmodelled; py_time := fun k => NInt (Z.of_N k);
  frepr := fun _ => s2p "inf"; vname := fun v => s2p "_X_";
  u_alnum := fun _ => true; u_lower := fun c => [c] |}.

Lemma inf_refuted : forall PY, @frepr PY (S754_infinity false) = s2p "inf" ->
  exists t, came parse_term t /\ ~ @read_back ast parse_term (@ast_str PY t ++ s2p ".") t.
Proof.
  intros PY Hr. exists (ANum (NFlt (S754_infinity false))). split.
  - apply (tree_came _ (s2p "1e999.")); [points|vm_compute; reflexivity].
  - intros H. assert (H2 : read_back parse_term (@ast_str PY (ALit (s2p "inf") [] []) ++ s2p ".") (ALit (s2p "inf") [] [])).
    { apply parsed_term_back.
      - apply (tree_came _ (s2p "inf.")); [points|vm_compute; reflexivity].
      - cbn. tauto. }
    assert (E : @ast_str PY (ANum (NFlt (S754_infinity false))) = @ast_str PY (ALit (s2p "inf") [] [])).
    { unfold ast_str. cbn. now rewrite Hr. }
    rewrite E in H. discriminate (read_back_once _ _ _ _ H H2).
Qed.
