(** Runs of the parser that report no error. *)
From Verif Require Import Base Num Term Str World Ast Names Quote Lex LexSpec LexFacts Parse Fold Program RoundSpec
  GramSpec GramTok GramSound GramComp GramCor Counts Closed.

(** ** Runs without an error *)

Definition quiet {A} (m : P A) (Q : pst -> A -> pst -> Prop) : Prop :=
  counts m /\ forall s x s', m s = (Ok x, s') -> errs s' = errs s -> Q s x s'.

Lemma counts_le {A} (m : P A) s r s' : counts m -> m s = (r, s') -> (errs s <= errs s')%nat.
Proof. intros H E. specialize (H s). rewrite E in H. apply H. Qed.

Lemma quiet_bind {A C} (Q : forall D, pst -> D -> pst -> Prop) (m : P A) (f : A -> P C) :
  (forall s (x : A) s1 (y : C) s2, m s = (Ok x, s1) -> f x s1 = (Ok y, s2) -> Q A s x s1 -> Q C s1 y s2 -> Q C s y s2) ->
  quiet m (Q A) -> (forall x, quiet (f x) (Q C)) -> quiet (pbind m f) (Q C).
Proof.
  intros HQ [Cm Hm] Hf. split; [apply counts_bind; [assumption|intros x; apply Hf]|].
  intros s x s' E Es. apply bind_ok in E as (y & s1 & E1 & E2).
  pose proof (counts_le _ _ _ _ Cm E1) as L1. pose proof (counts_le _ _ _ _ (proj1 (Hf y)) E2) as L2.
  apply (HQ s y s1 x s' E1 E2); [apply Hm; [assumption|lia]|apply (Hf y); [assumption|lia]].
Qed.

(** No illegal character is passed. *)
Definition taken {A} (s : pst) (_ : A) (s' : pst) : Prop :=
  (exists l, p_items s = map ITok l ++ p_items s') /\ p_own s' = p_own s.
Definition clean {A} (m : P A) : Prop := quiet m taken.

Lemma error_errs s r s' : p_error s = (r, s') -> errs s' = S (errs s).
Proof.
  unfold p_error. pose proof (log_error_counts (p_log s)) as (E & _). destruct (log_error (p_log s)) as [r0 l]. intros [= <- <-]. exact E.
Qed.
Lemma clean_ret {A} (x : A) : clean (pret x).
Proof. split; [apply counts_ret|]. intros s y s' [= _ <-] _. split; [now exists []|reflexivity]. Qed.
Lemma clean_fail {A} e : clean (@pfail A e).
Proof. split; [apply counts_fail|]. discriminate. Qed.
Lemma clean_bind {A C} (m : P A) (f : A -> P C) : clean m -> (forall x, clean (f x)) -> clean (pbind m f).
Proof.
  apply (quiet_bind (fun D s x s' => taken s x s')). intros s x s1 y s2 _ _ ((l & E) & O) ((l' & E') & O').
  split; [exists (l ++ l'); rewrite E, E', map_app, app_assoc; reflexivity|congruence].
Qed.
Lemma clean_error : clean p_error.
Proof. split; [apply counts_error|]. intros s x s' E Es. apply error_errs in E. lia. Qed.
Lemma clean_raise {A} : clean (@p_raise A).
Proof. split; [apply counts_raise|]. intros s x s' E Es. now apply raise_not in E. Qed.
Lemma clean_warn : clean p_warn.
Proof. split; [apply counts_warn|]. intros s x s' [= _ <-] _. split; [now exists []|reflexivity]. Qed.
Lemma next_quiet s r s' : next s = (r, s') -> errs s' = errs s ->
  match r with
  | Ok t => p_items s = ITok t :: p_items s' /\ p_own s' = p_own s
  | Err EStopIter => p_items s = [] /\ s' = s
  | Err _ => True
  end.
Proof.
  destruct s as [l lg own]. unfold next. cbn [p_items p_log p_own]. destruct l as [|[t|c a b] l]; cbn [next_in].
  - intros [= <- <-] _. auto.
  - intros [= <- <-] _. auto.
  - destruct own; [|now intros [= <- <-]]. pose proof (log_error_counts lg) as (E & _).
    destruct (log_error lg) as [[[]|e] lg'] eqn:El; cbn [snd] in E.
    + intros H Es. pose proof (counts_le _ _ _ _ counts_next (H : next (mkpst l lg' true) = (r, s'))) as L. unfold errs in *. cbn [p_log] in *. lia.
    + intros [= <- <-]. unfold errs. cbn [p_log]. lia.
Qed.
Lemma clean_next : clean next.
Proof.
  split; [apply counts_next|]. intros s x s' E Es. apply next_quiet in E as [E O]; [|assumption]. split; [now exists [x]|assumption].
Qed.

(** Folding and validation do not look at the state. *)
Definition same_anywhere {A} (m : P A) (s : pst) (x : A) (s' : pst) : Prop :=
  p_items s' = p_items s /\ p_own s' = p_own s /\
  forall items lg own, exists lg', m (mkpst items lg own) = (Ok x, mkpst items lg' own) /\ lg_errors lg' = lg_errors lg.
Definition blind {A} (m : P A) : Prop := quiet m (same_anywhere m).

Lemma blind_ret {A} (x : A) : blind (pret x).
Proof. split; [apply counts_ret|]. intros s y s' [= <- <-] _. split; [reflexivity|]. split; [reflexivity|]. intros. now exists lg. Qed.
Lemma blind_fail {A} e : blind (@pfail A e).
Proof. split; [apply counts_fail|]. discriminate. Qed.
Lemma blind_bind {A C} (m : P A) (f : A -> P C) : blind m -> (forall x, blind (f x)) -> blind (pbind m f).
Proof.
  intros [Cm Hm] Hf. split; [apply counts_bind; [assumption|intros x; apply Hf]|].
  intros s x s' E Es. apply bind_ok in E as (y & s1 & E1 & E2).
  pose proof (counts_le _ _ _ _ Cm E1) as L1. pose proof (counts_le _ _ _ _ (proj1 (Hf y)) E2) as L2.
  destruct (Hm _ _ _ E1 ltac:(lia)) as (I1 & O1 & X1). destruct (proj2 (Hf y) _ _ _ E2 ltac:(lia)) as (I2 & O2 & X2).
  split; [congruence|]. split; [congruence|]. intros items lg own. destruct (X1 items lg own) as (lg1 & Y1 & Z1).
  destruct (X2 items lg1 own) as (lg2 & Y2 & Z2). exists lg2. split; [|congruence]. now rewrite (bind_eq _ _ _ _ _ Y1).
Qed.
Lemma blind_error : blind p_error.
Proof. split; [apply counts_error|]. intros s x s' E Es. apply error_errs in E. lia. Qed.
Lemma blind_raise {A} : blind (@p_raise A).
Proof. split; [apply counts_raise|]. intros s x s' E Es. now apply raise_not in E. Qed.
Lemma blind_warn : blind p_warn.
Proof.
  split; [apply counts_warn|]. intros s x s' [= <- <-] _. split; [reflexivity|]. split; [reflexivity|]. intros.
  exists (log_warning lg). split; reflexivity.
Qed.

Ltac by_clean := first [apply @clean_ret|apply @clean_fail|apply @clean_bind|apply clean_error|apply @clean_raise|apply clean_warn|apply clean_next].
Ltac by_blind := first [apply @blind_ret|apply @blind_fail|apply @blind_bind|apply blind_error|apply @blind_raise|apply blind_warn].

Section WithPy.
Context {PY : Py}.

Lemma blind_validate g : blind (validate g).
Proof. apply (closed_validate (@blind)); by_blind. Qed.
Lemma clean_validate g : clean (validate g).
Proof. apply (closed_validate (@clean)); by_clean. Qed.

End WithPy.
