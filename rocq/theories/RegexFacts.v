(** The backtracking matcher finds exactly the matches. *)
From Verif Require Import Base Names Lex LexSpec.

Local Notation len := (@List.length N).

(** Steps that consume something. *)
Inductive iter (R : pystr -> pystr -> Prop) : pystr -> pystr -> Prop :=
| iter_nil s : iter R s s
| iter_cons s s1 s2 : R s s1 -> (len s1 < len s)%nat -> iter R s1 s2 -> iter R s s2.

(** [mt r s s']: [r] can match what precedes [s'] in [s]. *)
Fixpoint mt (r : regex) (s s' : pystr) : Prop :=
  match r with
  | RChr p => exists c, s = c :: s' /\ p c = true
  | REps => s = s'
  | RSeq a b => exists s1, mt a s s1 /\ mt b s1 s'
  | RAlt a b => mt a s s' \/ mt b s s'
  | RStar a => iter (mt a) s s'
  | RLazy a => iter (mt a) s s'
  | RNot a => s = s' /\ forall t, ~ mt a s t
  | REnd => s = s' /\ (s = [] \/ s = [10%N])
  end.

Definition sound (m : pystr -> (pystr -> option pystr) -> option pystr) (R : pystr -> pystr -> Prop) : Prop :=
  forall s k x, m s k = Some x -> exists s', R s s' /\ k s' = Some x.
Definition complete (m : pystr -> (pystr -> option pystr) -> option pystr) (R : pystr -> pystr -> Prop) : Prop :=
  forall s k, m s k = None -> forall s', R s s' -> k s' = None.

Lemma star_sound m R : sound m R -> forall n k s x, star m k n s = Some x -> exists s', iter R s s' /\ k s' = Some x.
Proof.
  intros Hm. induction n as [|n IH]; intros k s x E; cbn [star] in E.
  - exists s. split; [constructor|assumption].
  - destruct (m s _) as [y|] eqn:Em.
    + injection E as ->. apply Hm in Em as (s1 & Hs & E1).
      destruct (Nat.ltb_spec (len s1) (len s)); [|discriminate].
      apply IH in E1 as (s' & Hi & Ek). exists s'. split; [|assumption]. econstructor; eassumption.
    + exists s. split; [constructor|assumption].
Qed.

Lemma star_complete m R : complete m R -> forall n k s, (len s <= n)%nat -> star m k n s = None ->
  forall s', iter R s s' -> k s' = None.
Proof.
  intros Hm. induction n as [|n IH]; intros k s Hn E s' Hi; cbn [star] in E.
  - destruct Hi as [|s s1 s2 H1 Hl _]; [assumption|lia].
  - destruct (m s _) as [y|] eqn:Em; [discriminate|].
    destruct Hi as [|s s1 s2 H1 Hl Hi]; [assumption|].
    pose proof (Hm _ _ Em _ H1) as K. cbn beta in K.
    destruct (Nat.ltb_spec (len s1) (len s)); [|lia]. eapply IH; [|exact K|exact Hi]. lia.
Qed.

Lemma lazy_sound m R : sound m R -> forall n k s x, lazy m k n s = Some x -> exists s', iter R s s' /\ k s' = Some x.
Proof.
  intros Hm. induction n as [|n IH]; intros k s x E; cbn [lazy] in E; destruct (k s) as [y|] eqn:Ek.
  - injection E as ->. exists s. split; [constructor|assumption].
  - discriminate.
  - injection E as ->. exists s. split; [constructor|assumption].
  - apply Hm in E as (s1 & Hs & E1).
    destruct (Nat.ltb_spec (len s1) (len s)); [|discriminate].
    apply IH in E1 as (s' & Hi & Ek'). exists s'. split; [|assumption]. econstructor; eassumption.
Qed.

Lemma lazy_complete m R : complete m R -> forall n k s, (len s <= n)%nat -> lazy m k n s = None ->
  forall s', iter R s s' -> k s' = None.
Proof.
  intros Hm. induction n as [|n IH]; intros k s Hn E s' Hi; cbn [lazy] in E; destruct (k s) as [y|] eqn:Ek;
    try discriminate.
  - destruct Hi as [|s s1 s2 H1 Hl _]; [assumption|lia].
  - destruct Hi as [|s s1 s2 H1 Hl Hi]; [assumption|].
    pose proof (Hm _ _ E _ H1) as K. cbn beta in K.
    destruct (Nat.ltb_spec (len s1) (len s)); [|lia]. eapply IH; [|exact K|exact Hi]. lia.
Qed.

Lemma rmatch_both r : sound (rmatch r) (mt r) /\ complete (rmatch r) (mt r).
Proof.
  induction r as [p| |a [Sa Ca] b [Sb Cb]|a [Sa Ca] b [Sb Cb]|a [Sa Ca]|a [Sa Ca]|a [Sa Ca]|]; split;
    intros s k; cbn [rmatch mt].
  - intros x E. destruct s as [|c s]; [discriminate|]. destruct (p c) eqn:Ep; [|discriminate].
    exists s. split; [exists c; now split|assumption].
  - intros E s' (c & -> & Ep). rewrite Ep in E. assumption.
  - intros x E. exists s. now split.
  - intros E s' <-. assumption.
  - intros x E. apply Sa in E as (s1 & H1 & E). apply Sb in E as (s2 & H2 & E).
    exists s2. split; [exists s1; now split|assumption].
  - intros E s' (s1 & H1 & H2). exact (Cb _ _ (Ca _ _ E _ H1) _ H2).
  - intros x E. destruct (rmatch a s k) as [y|] eqn:Ea.
    + injection E as ->. apply Sa in Ea as (s1 & H1 & E1). exists s1. split; [now left|assumption].
    + apply Sb in E as (s1 & H1 & E1). exists s1. split; [now right|assumption].
  - intros E s' [H|H]; destruct (rmatch a s k) as [y|] eqn:Ea; try discriminate.
    + eapply Ca; eassumption.
    + eapply Cb; eassumption.
  - intros x E. eapply star_sound; eassumption.
  - intros E s' H. eapply star_complete; [exact Ca| |exact E|exact H]. lia.
  - intros x E. eapply lazy_sound; eassumption.
  - intros E s' H. eapply lazy_complete; [exact Ca| |exact E|exact H]. lia.
  - intros x E. destruct (rmatch a s Some) as [y|] eqn:Ea; [discriminate|].
    exists s. split; [|assumption]. split; [reflexivity|]. intros t H.
    pose proof (Ca _ _ Ea _ H). discriminate.
  - intros E s' [<- H]. destruct (rmatch a s Some) as [y|] eqn:Ea; [|assumption].
    apply Sa in Ea as (t & Ht & _). destruct (H _ Ht).
  - intros x E. destruct s as [|c [|d s]]; [|destruct (N.eqb_spec c 10) as [->|]; [|discriminate]|discriminate].
    + exists []. split; [split; [reflexivity|now left]|assumption].
    + exists [10%N]. split; [split; [reflexivity|now right]|assumption].
  - intros E s' [<- [->| ->]]; assumption.
Qed.

Lemma match_some r s x : re_match r s = Some x -> mt r s x.
Proof. intros E. apply (proj1 (rmatch_both r)) in E as (s' & H & E). injection E as <-. assumption. Qed.

Lemma match_none r s : re_match r s = None -> forall s', ~ mt r s s'.
Proof. intros E s' H. pose proof (proj2 (rmatch_both r) _ _ E _ H). discriminate. Qed.

(** A match leaves a suffix. *)
Lemma iter_suffix (R : pystr -> pystr -> Prop) :
  (forall s s', R s s' -> exists w, s = w ++ s') -> forall s s', iter R s s' -> exists w, s = w ++ s'.
Proof.
  intros H s s'. induction 1 as [s|s s1 s2 H1 _ _ (w & ->)]; [now exists []|].
  apply H in H1 as (v & ->). exists (v ++ w). now rewrite <- app_assoc.
Qed.

Lemma mt_suffix r : forall s s', mt r s s' -> exists w, s = w ++ s'.
Proof.
  induction r as [p| |a IHa b IHb|a IHa b IHb|a IHa|a IHa|a IHa|]; intros s s'; cbn [mt].
  - intros (c & -> & _). now exists [c].
  - intros ->. now exists [].
  - intros (s1 & H1 & H2). apply IHa in H1 as (v & ->). apply IHb in H2 as (w & ->).
    exists (v ++ w). now rewrite <- app_assoc.
  - intros [H|H]; [now apply IHa|now apply IHb].
  - apply iter_suffix, IHa.
  - apply iter_suffix, IHa.
  - intros [<- _]. now exists [].
  - intros [<- _]. now exists [].
Qed.

(** ** Repeated characters *)

Lemma all_cons p c s : all p (c :: s) <-> p c = true /\ all p s.
Proof. unfold all. cbn. apply andb_true_iff. Qed.

Lemma all_app p a b : all p (a ++ b) <-> all p a /\ all p b.
Proof. unfold all. rewrite forallb_app. apply andb_true_iff. Qed.

Lemma iter_chr p s s' : iter (mt (RChr p)) s s' <-> exists w, s = w ++ s' /\ all p w.
Proof.
  split.
  - induction 1 as [s|s s1 s2 (c & -> & Hc) _ _ (w & -> & Hw)]; [now exists []|].
    exists (c :: w). split; [reflexivity|]. now apply all_cons.
  - intros (w & -> & Hw). induction w as [|c w IH]; [constructor|].
    apply all_cons in Hw as [Hc Hw]. econstructor; [|cbn; apply Nat.lt_succ_diag_r|now apply IH].
    exists c. now split.
Qed.

Fixpoint drop (p : N -> bool) (s : pystr) : pystr :=
  match s with [] => [] | c :: s' => if p c then drop p s' else s end.

Lemma drop_split p s : exists w, s = w ++ drop p s /\ all p w.
Proof.
  induction s as [|c s (w & E & H)]; [now exists []|]. cbn [drop]. destruct (p c) eqn:Ec.
  - exists (c :: w). cbn. rewrite <- E. split; [reflexivity|]. now apply all_cons.
  - now exists [].
Qed.

Lemma drop_all p w s : all p w -> drop p (w ++ s) = drop p s.
Proof.
  induction w as [|c w IH]; [reflexivity|]. intros H. apply all_cons in H as [Hc Hw].
  cbn. rewrite Hc. now apply IH.
Qed.

Definition stops (p : N -> bool) (s : pystr) : Prop := match s with [] => True | c :: _ => p c = false end.

Lemma drop_stops p s : stops p (drop p s).
Proof. induction s as [|c s IH]; [exact I|]. cbn [drop]. destruct (p c) eqn:E; [assumption|exact E]. Qed.

Lemma drop_stop p s : stops p s -> drop p s = s.
Proof. destruct s as [|c s]; [reflexivity|]. cbn. now intros ->. Qed.

Lemma drop_len p s : (len (drop p s) <= len s)%nat.
Proof. destruct (drop_split p s) as (w & E & _). rewrite E at 2. rewrite app_length. lia. Qed.

(** Greedy repetition of a character goes as far as possible if what follows
    accepts that. *)
Lemma star_drop p k x : forall n s, (len s <= n)%nat -> k (drop p s) = Some x ->
  star (rmatch (RChr p)) k n s = Some x.
Proof.
  induction n as [|n IH]; intros s Hn E; cbn [star rmatch].
  - destruct s; [assumption|cbn in Hn; lia].
  - destruct s as [|c s]; [assumption|]. cbn [drop] in E. destruct (p c) eqn:Ec; [|assumption].
    replace (len s <? len (c :: s))%nat with true by (symmetry; apply Nat.ltb_lt; cbn; lia).
    rewrite IH; [reflexivity| |assumption]. cbn in Hn. lia.
Qed.

Lemma rstar_drop p s k x : k (drop p s) = Some x -> rmatch (RStar (RChr p)) s k = Some x.
Proof. intros E. cbn [rmatch]. apply star_drop; [lia|assumption]. Qed.

(** Otherwise, if what follows cannot begin with such a character, it fails. *)
Lemma rstar_drop_none p s k :
  k (drop p s) = None -> (forall c t, p c = true -> k (c :: t) = None) -> rmatch (RStar (RChr p)) s k = None.
Proof.
  intros E Hk. destruct (rmatch (RStar (RChr p)) s k) as [x|] eqn:Er; [|reflexivity].
  apply (proj1 (rmatch_both _)) in Er as (s' & Hi & Ek). apply iter_chr in Hi as (w & -> & Hw).
  rewrite (drop_all _ _ _ Hw) in E. destruct s' as [|c t]; [cbn in E; congruence|].
  destruct (p c) eqn:Ec; [rewrite Hk in Ek by assumption; discriminate|].
  cbn in E. rewrite Ec in E. congruence.
Qed.

(** Fixed texts *)
Lemma mt_str t : forall s s', mt (rstr t) s s' <-> s = t ++ s'.
Proof.
  induction t as [|c t IH]; intros s s'; [reflexivity|].
  destruct t as [|d t].
  - cbn. split; [intros (x & -> & E); apply N.eqb_eq in E as ->; reflexivity|].
    intros ->. exists c. split; [reflexivity|apply N.eqb_refl].
  - change (mt (RSeq (RCh c) (rstr (d :: t))) s s' <-> s = (c :: d :: t) ++ s'). cbn [mt]. split.
    + intros (s1 & (x & -> & E) & H). apply N.eqb_eq in E as ->. apply IH in H as ->. reflexivity.
    + intros ->. exists ((d :: t) ++ s'). split; [|now apply IH].
      exists c. split; [reflexivity|apply N.eqb_refl].
Qed.

Lemma re_match_str t s s' : re_match (rstr t) s = Some s' <-> s = t ++ s'.
Proof.
  split; [intros E; apply mt_str, match_some, E|]. intros E.
  destruct (re_match (rstr t) s) as [x|] eqn:Em.
  - apply match_some, mt_str in Em. rewrite Em in E. apply app_inv_head in E. congruence.
  - destruct (match_none _ _ Em s'). apply mt_str, E.
Qed.
