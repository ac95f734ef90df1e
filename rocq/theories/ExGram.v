(** Texts for the examples about the grammar. *)
From Verif Require Import Base Num Term Str World Ast Names Quote Lex LexSpec Parse RoundSpec GramSpec GramTok GramSound GramComp GramCor.

(** The phrase that [parse] reads from a text. *)
Definition read_text {A} (parse : nat -> tok -> P (tok * A)) (s : string) : res (tok * A) :=
  match tokenize 1 [s2p s] with
  | Ok (ITok t :: l) => fst (parse 30%nat t (mkpst l (log_new None) true))
  | _ => Err EStopIter
  end.
Definition tree_of {A} (parse : nat -> tok -> P (tok * A)) (s : string) : res A := rmap snd (read_text parse s).

Definition v (s : string) : ast := AVar (s2p s).
Definition atom (s : string) : ast := lit_ast (mkalit (s2p s) [] []).

(** The tokens of a text *)
Definition tokens_in (s : string) : list tok := match tokenize 1 [s2p s] with Ok l => tokens_of l | Err _ => [] end.
Lemma tokens_lexed s : Forall lexed (tokens_in s).
Proof.
  apply Forall_forall. intros t Ht. unfold tokens_in in Ht. destruct (tokenize 1 [s2p s]) as [l|] eqn:E; [|destruct Ht].
  exists 1%nat, [s2p s], l. split; [assumption|]. unfold tokens_of in Ht. apply in_flat_map in Ht as (i & Hi & Ht).
  destruct i; [|destruct Ht]. destruct Ht as [<-|[]]. assumption.
Qed.

Lemma case_of {A} (parse : nat -> tok -> P (tok * A)) (phrase : list tok -> A -> Prop) s size f x : reads_only parse phrase ->
  read_text parse s = Ok (f, x) -> (size < List.length (tokens_in s) - 1)%nat ->
  match tokenize 1 [s2p s] with
  | Ok (ITok t :: l) => p_items (snd (parse 30%nat t (mkpst l (log_new None) true)))
  | _ => []
  end = [] -> exists a, (size < List.length a)%nat /\ phrase a x /\ Forall lexed a /\ lexed f.
Proof.
  intros H E Hs Hi. pose proof (tokens_lexed s) as L. unfold read_text, tokens_in in *.
  destruct (tokenize 1 [s2p s]) as [[|[t|] l]|]; try discriminate.
  destruct (parse 30%nat t (mkpst l (log_new None) true)) as [r s'] eqn:Er. cbn [fst snd] in *. subst r.
  apply H in Er as (a & Ea & Ha); [|exact L]. rewrite Hi in Ea. cbn [p_items] in Ea. change (tokens_of []) with (@nil tok) in Ea.
  change (tokens_of (ITok t :: l)) with (t :: tokens_of l) in *. rewrite Ea in L, Hs. rewrite app_length in Hs. cbn in Hs.
  apply Forall_app in L as [L1 L2]. exists a. split; [lia|]. split; [assumption|]. split; [assumption|]. now inversion L2.
Qed.

Lemma term_case : exists a x f, (10 < List.length a)%nat /\ expr LOr a x /\ Forall lexed a /\ lexed f /\ stops LOr f.
Proof.
  destruct (read_text parse_term "A | not B & C < D + E * f(F)[s] .") as [[f x]|] eqn:E; [|vm_compute in E; discriminate].
  destruct (case_of parse_term (expr LOr) _ 10 f x (proj1 reads_all) E) as (a & H1 & H2 & H3 & H4);
    [vm_compute; lia|vm_compute; reflexivity|]. exists a, x, f. repeat (split; [assumption|]).
  apply (the_stops "."); [|reflexivity]. vm_compute in E. now injection E as <- _.
Qed.
Lemma plan_case : exists a x f, (30 < List.length a)%nat /\ plan_of a x /\ Forall lexed a /\ lexed f /\ the "." f.
Proof.
  destruct (read_text parse_plan "@l +!g(X) : X & Y <- ?p(X); if (X) { -q; } else { a; +r } !!h; for (Z) { } b .") as [[f x]|] eqn:E;
    [|vm_compute in E; discriminate].
  destruct (case_of parse_plan plan_of _ 30 f x (proj1 (proj2 (proj2 (proj2 reads_all)))) E) as (a & H1 & H2 & H3 & H4);
    [vm_compute; lia|vm_compute; reflexivity|]. exists a, x, f. repeat (split; [assumption|]).
  vm_compute in E. now injection E as <- _.
Qed.
