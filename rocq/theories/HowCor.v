(** Telling and asking, from any reachable state. *)
From Verif Require Import Base Num Term Unify Str World Engine Step Ast Names Build Front Reach QuerySpec PlanSpec BelSpec LoadSpec HowSpec RoundSpec TellSpec.
From Verif Require Import OwnFacts TellFacts AskFacts SentFacts.

Section WithPy.
Context {PY : Py}.
Lemma tell_gives m n a f s more annots ci d st W r st' W' :
  single (FR := FrontText m) W -> (a < List.length (w_agents W))%nat ->
  call (FR := FrontText m) n a TrAdd GtTellHow (TLit f (TStr s :: more) annots) ci d (st, W) = (r, (st', W')) ->
  (exists p x, r = Ok true /\ read_plan m s = Ok p /\ built_from p x /\ gains a [x] W W') \/
  (exists e, r = Err e /\ gains a [] W W').
Proof.
  intros H Ha E. apply tell_call in E; [|exact (single_own _ H)|assumption]. destruct E as [(p & x & H1 & H2 & H3 & H4 & _)|(e & H1 & H2 & _)].
  - left. exists p, x. auto.
  - right. exists e. auto.
Qed.
Lemma tell_succeeds m n a s from p ci d st W :
  single (FR := FrontText m) W -> (a < List.length (w_agents W))%nat -> no_how_waits W ->
  from = [] \/ (exists name, from = [source name]) -> (4 <= n)%nat ->
  read_plan m s = Ok p -> buildable p ->
  exists x W', call (FR := FrontText m) n a TrAdd GtTellHow (how_message s from) ci d (st, W) = (Ok true, (st, W')) /\
    built_from p x /\ gains a [x] W W'.
Proof. intros H. apply tell_works. exact (single_own _ H). Qed.
Lemma read_once n n' s p p' : read_plan n s = Ok p -> read_plan n' s = Ok p' -> p = p'.
Proof.
  intros E1 E2. apply (read_mono n (Nat.max n n')) in E1; [|lia]. apply (read_mono n' (Nat.max n n')) in E2; [|lia]. congruence.
Qed.
Lemma ask_gives m n a f s more annots ci d st W r st' W' :
  single (FR := FrontText m) W ->
  call (FR := FrontText m) n a TrAdd GtAskHow (TLit f (TStr s :: more) annots) ci d (st, W) = (Ok r, (st', W')) ->
  r = false /\ exists name rcv, asker annots name /\ assoc pystr_eqb name (w_env W) = Some rcv /\ offered s a W <> [] /\
    (rcv <> a -> exists xs, Forall2 (copy_of m) (offered s a W) xs /\ learns rcv xs W W').
Proof.
  intros H. apply ask_call; [exact (single_own _ H)|exact (single_keyed _ H)|exact (env_range _ H)].
Qed.
Lemma copy_exists p x : PyLawful PY -> hex_names -> readable_plan p -> plain_plan p -> buildable (always p) ->
  loaded_from p x -> ap_ctx p = None \/ (exists s, sent_as x s) -> exists N, forall m, (N <= m)%nat -> exists y, copy_of m x y.
Proof.
  intros H1 H2 H3 H4 HB H5 H6. destruct (sent_text p x H1 H2 H3 H4 H5) as [S1 S2].
  assert (H7 : exists s, sent_as x s) by (destruct H6; auto). destruct H7 as [s E]. destruct (S2 s E) as [N HN]. exists N. intros m Hm.
  destruct (HB 0%N) as (y & lg & k' & Ey). exists y, s, (always p). split; [exact E|]. split; [now apply HN|]. exists 0%N, lg, k'. exact Ey.
Qed.
End WithPy.
