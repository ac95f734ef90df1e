(** Matching with annotations when all variables of the pattern are bound. *)
From Verif Require Import Base Num Term Unify TrailFacts FuelFacts ChainFacts TermSpec WildSpec InstSpec UnifySem UnifyTerm FreezeFacts PyEq SetFacts PatMatch AnnotSpec AnnotFacts AnnotFlat PatTotal GroundPat UannTotal.

Section WithPy.
Context {PY : Py}.
Variable s : scope.
Hypothesis Hch : chain_ok s.
Notation ginst := (inst s (fun _ => None)).
Notation fv := flat_value.
Notation at_s := (at_s s).

Definition ga (p c : term) (st : bst) (P : Prop) : Prop :=
  exists n o st', uann n p c st = (Ok o, st') /\ at_s st' /\ (o <> None <-> P).

Lemma at_push cp st : at_s st -> at_s (push_cp cp st).
Proof. auto. Qed.
Lemma at_reroll st cp : at_s st -> at_s (reroll (push_cp cp (mkbst (b_scope st) (b_stack st) (N.succ (b_ncp st)))) cp).
Proof. intro H. unfold reroll. cbn. rewrite N.eqb_refl. exact H. Qed.

(** Items of annotation lists. *)
Lemma ga_item la la' ra st : ginst la la' -> flat la' -> flat ra -> at_s st -> ga la ra st (fv la' = fv ra).
Proof.
  intros Hi Hl Hr Hs. assert (C1 := flat_closed _ Hl). assert (C2 := flat_closed _ Hr).
  set (st0 := push_cp (b_ncp st) (mkbst (b_scope st) (b_stack st) (N.succ (b_ncp st)))).
  assert (Hs0 : at_s st0) by exact Hs.
  destruct (ground_unify s Hch ra la la' st0 C2 Hi C1 Hs0) as (b & [[n E] _] & Hb).
  assert (HE : forall m, (S n <= m)%nat -> exists o st', uann m la ra st = (Ok o, st') /\ at_s st' /\ (o <> None <-> b = true)).
  { intros m Hm. destruct m as [|m]; [lia|]. apply (unify_more n m) in E; [|lia].
    rewrite uann_S. cbn [new_cp]. fold st0.
    assert (H1 : exists o st', match unify m la ra st0 with
          | (Err e, st1) => (Err e, st1)
          | (Ok true, st1) => (Ok (Some (b_ncp st)), st1)
          | (Ok false, st1) => (Ok None, reroll st1 (b_ncp st))
          end = (Ok o, st') /\ at_s st' /\ (o <> None <-> b = true)).
    { rewrite E. destruct b.
      - exists (Some (b_ncp st)), st0. split; [reflexivity|]. split; [exact Hs0|]. split; congruence.
      - exists None, (reroll st0 (b_ncp st)). split; [reflexivity|]. split; [apply at_reroll; exact Hs|]. split; congruence. }
    destruct la as [| | | | | | |f args las| |]; try exact H1.
    inversion Hi as [| | | | | | | |? ? ? args' items annots' HA HI HS| |]; subst. inversion Hl; subst.
    assert (Hn : items = []).
    { destruct items as [|x items]; [reflexivity|]. destruct (proj1 (proj2 HS) x (or_introl eq_refl)) as (y & [] & _). }
    subst items. inversion HI; subst.
    destruct m as [|m].
    { discriminate E. }
    rewrite closed_evaluate_id by assumption.
    assert (H2 : exists o st', match unify (S m) (TLit f args []) ra st0 with
                  | (Err e, st1) => (Err e, st1)
                  | (Ok false, st1) => (Ok None, reroll st1 (b_ncp st))
                  | (Ok true, st1) =>
                      match annots_match (uann (S m)) [] (lit_annots ra) [] st1 with
                      | (Err e, st2) => (Err e, st2)
                      | (Ok false, st2) => (Ok None, reroll st2 (b_ncp st))
                      | (Ok true, st2) => (Ok (Some (b_ncp st)), st2)
                      end
                  end = (Ok o, st') /\ at_s st' /\ (o <> None <-> b = true)).
    { rewrite E in *. destruct b; exact H1. }
    destruct Hr; exact H2. }
  destruct (HE (S n) (le_n _)) as (o & st' & A & B & C). exists (S n), o, st'. split; [exact A|]. split; [exact B|]. now rewrite C.
Qed.

(** Searching and matching annotation lists. *)
Lemma ga_find la la' used : ginst la la' -> flat la' -> forall ras, Forall flat ras -> forall st, at_s st ->
  exists n o st', annot_find (uann n) la ras used st = (Ok o, st') /\ at_s st' /\
    match o with
    | Some ra => In ra ras /\ fv la' = fv ra /\ py_in ra used = false
    | None => forall ra, In ra ras -> fv la' = fv ra -> py_in ra used = true
    end.
Proof.
  intros Hi Hl ras. induction ras as [|x ras IH]; intros Hr st Hs.
  - exists 0%nat, None, st. split; [reflexivity|]. split; [exact Hs|easy].
  - inversion Hr; subst. cbn [annot_find]. destruct (py_in x used) eqn:Ep.
    + destruct (IH ltac:(assumption) st Hs) as (n & o & st' & E & S & HO). exists n, o, st'.
      split; [assumption|]. split; [assumption|]. destruct o as [ra|].
      * destruct HO as (A & B & C). split; [now right|]. split; assumption.
      * intros ra [->|Hin] Hv; [assumption|auto].
    + destruct (ga_item la la' x st Hi Hl ltac:(assumption) Hs) as (n & o & st' & E & S & HO).
      destruct o as [cp|].
      * exists n, (Some x), st'. rewrite E. split; [reflexivity|]. split; [assumption|]. split; [now left|]. split; [now apply HO|assumption].
      * destruct (IH ltac:(assumption) st' S) as (m & o & st2 & E2 & S2 & HO2).
        exists (n + m)%nat, o, st2. rewrite (uann_more n (n + m) _ _ _ _ _ ltac:(lia) E).
        split; [eapply find_more; [|exact E2]; lia|]. split; [assumption|]. destruct o as [ra|].
        -- destruct HO2 as (A & B & C). split; [now right|]. split; assumption.
        -- intros ra [->|Hin] Hv; [|auto]. apply HO in Hv. contradiction.
Qed.

Lemma ga_match ras : Forall flat ras -> distinct ras -> forall las las', Forall2 ginst las las' -> forall used,
  Forall flat las' -> distinct las' ->
  (forall c, In c used -> In c ras /\ forall la, In la las' -> fv la <> fv c) ->
  forall st, at_s st -> exists n b st', annots_match (uann n) las ras used st = (Ok b, st') /\ at_s st' /\
    (b = true <-> forall la, In la las' -> exists ra, In ra ras /\ fv la = fv ra).
Proof.
  intros Hr Hdr las las' HF. induction HF as [|la la' las las' Hi HF IH]; intros used Hl Hd Hc st Hs; cbn [annots_match].
  - exists 0%nat, true, st. split; [reflexivity|]. split; [exact Hs|]. split; [easy|reflexivity].
  - inversion Hl; subst.
    destruct (ga_find la la' used Hi ltac:(assumption) ras Hr st Hs) as (n & o & st1 & E & S & HO).
    inversion Hd as [|? ? Hd1 Hd2]; subst. destruct o as [ra|].
    + destruct HO as (A & B & C).
      destruct (IH (ra :: used) ltac:(assumption) Hd2) with (st := st1) as (m & b & st2 & E2 & S2 & HB); [|exact S|].
      * intros c [<-|Hin].
        -- split; [assumption|]. intros la2 Hla2 Hv. rewrite Forall_forall in Hd1. pose proof (Hd1 la2 Hla2) as Hf.
           rewrite fv_py_eqb in Hf; [discriminate|assumption| |congruence]. rewrite Forall_forall in H2. auto.
        -- destruct (Hc c Hin) as [Hc1 Hc2]. split; [assumption|]. intros la2 Hla2. apply Hc2. now right.
      * exists (n + m)%nat, b, st2. rewrite (find_more n (n + m) _ _ _ _ _ _ ltac:(lia) E).
        split; [eapply annots_more; [|exact E2]; lia|]. split; [assumption|]. rewrite HB. split.
        -- intros HH la2 [<-|Hin]; [eauto|auto].
        -- intros HH la2 Hin. apply HH. now right.
    + exists n, false, st1. rewrite E. split; [reflexivity|]. split; [assumption|]. split; [discriminate|].
      intro HH. exfalso. destruct (HH la' (or_introl eq_refl)) as (ra & Hin & Hv).
      pose proof (HO ra Hin Hv) as Hp. apply py_in_true in Hp as (c & Hcin & Hcr).
      destruct (Hc c Hcin) as [Hc1 Hc2]. assert (c = ra).
      { apply (distinct_same ras c ra Hdr); try assumption. eapply Forall_impl; [|exact Hr]. intros; now apply flat_nonan. }
      subst c. apply (Hc2 la' (or_introl eq_refl)). assumption.
Qed.

(** A pattern all of whose variables are bound, against a stored belief. *)
Theorem ga_belief f pargs las args' las' f' args2 ras st :
  Forall2 ginst pargs args' -> Forall closed args' -> Forall2 ginst las las' -> Forall flat las' -> distinct las' ->
  Forall closed args2 -> Forall flat ras -> distinct ras -> at_s st ->
  ga (TLit f pargs las) (TLit f' args2 ras) st
     (fv (TLit f args' las') = fv (TLit f' args2 ras) /\ forall la, In la las' -> exists ra, In ra ras /\ fv la = fv ra).
Proof.
  intros Ha Hca Hla Hfl Hdl Hca2 Hfr Hdr Hs.
  set (p := TLit f pargs las). set (c := TLit f' args2 ras).
  set (st0 := push_cp (b_ncp st) (mkbst (b_scope st) (b_stack st) (N.succ (b_ncp st)))).
  assert (Hs0 : at_s st0) by exact Hs.
  assert (HU : exists b n, unify n p c st0 = (Ok b, st0) /\ (b = true <-> fv (TLit f args' las') = fv c)).
  { assert (HX := ground_unify s Hch c (TLit f pargs []) (TLit f args' []) st0).
    destruct HX as (b & [[n E] _] & Hb); try exact Hs0.
    - now constructor.
    - econstructor; [exact Ha|constructor|]. split; [intros ? []|]. split; [intros ? []|constructor].
    - now constructor.
    - exists b, n. split; [|exact Hb]. destruct n as [|n]; [discriminate E|]. rewrite unify_S in E. rewrite unify_S. unfold p, c in *. destruct n as [|n]; [discriminate E|]. rewrite evaluate_S in *. exact E. }
  destruct HU as (b & n & E & Hb).
  assert (HE : forall m, uann (S (S m)) p c st =
     match unify (S m) p c st0 with
     | (Err e, st1) => (Err e, st1)
     | (Ok false, st1) => (Ok None, reroll st1 (b_ncp st))
     | (Ok true, st1) =>
         match annots_match (uann (S m)) las ras [] st1 with
         | (Err e, st2) => (Err e, st2)
         | (Ok false, st2) => (Ok None, reroll st2 (b_ncp st))
         | (Ok true, st2) => (Ok (Some (b_ncp st)), st2)
         end
     end).
  { intro m. rewrite uann_S. unfold p, c. rewrite evaluate_S. reflexivity. }
  destruct b.
  - destruct (ga_match ras Hfr Hdr las las' Hla [] Hfl Hdl ltac:(easy) st0 Hs0) as (m & b & st1 & E1 & S1 & Hb1).
    exists (S (S (n + m))). rewrite HE, (unify_more n (S (n + m)) _ _ _ _ _ ltac:(lia) E), (annots_more m (S (n + m)) _ _ _ _ _ _ ltac:(lia) E1).
    destruct b.
    + exists (Some (b_ncp st)), st1. split; [reflexivity|]. split; [exact S1|]. split; [|discriminate]. intros _. split; [now apply Hb|now apply Hb1].
    + exists None, (reroll st1 (b_ncp st)). split; [reflexivity|]. split.
      * assert (EU : uann (S (S (n + m))) p c st = (Ok None, reroll st1 (b_ncp st))).
        { rewrite HE, (unify_more n (S (n + m)) _ _ _ _ _ ltac:(lia) E), (annots_more m (S (n + m)) _ _ _ _ _ _ ltac:(lia) E1). reflexivity. }
        apply uann_none_exact in EU as [EU _]. unfold GroundPat.at_s. rewrite EU. exact Hs.
      * split; [easy|]. intros [_ H]. apply Hb1 in H. discriminate.
  - exists (S (S n)). rewrite HE, (unify_more n (S n) _ _ _ _ _ ltac:(lia) E).
    exists None, (reroll st0 (b_ncp st)). split; [reflexivity|]. split; [apply at_reroll; exact Hs|].
    split; [easy|]. intros [H _]. apply Hb in H. discriminate.
Qed.
End WithPy.
