(** Unifying a pattern, which may contain wildcards, with a closed term. *)
From Verif Require Import Base Num Term Unify TrailFacts FuelFacts ChainFacts TermSpec WildSpec UnifySem UnifyTerm UnifyWild.

Section WithPy.
Context {PY : Py}.
Variable s0 : scope.
Variable ex : term -> term.
Notation plain := (plain s0 ex).
Notation plain_scope := (plain_scope s0 ex).
Notation wplain := (wplain s0 ex).
Notation vmatch := (vmatch ex).
Notation agrees := (agrees ex).
Notation value := (value ex).
Notation good := (good ex s0).

(** The value of a closed term. *)
Definition cval (c : term) : val := value (fun _ => VConst KNil) c.

Lemma plain_wplain t : plain t -> wplain t.
Proof.
  induction t using term_ind'; intro Hp; inversion Hp; subst; try (constructor; auto; fail).
  - constructor. rewrite Forall_forall in *. auto.
  - constructor. rewrite Forall_forall in *. auto.
Qed.

Lemma good_wgood s : good s -> wgood s0 ex s.
Proof. intros (A & B & C). split; [|split; assumption]. intros v t H. apply plain_wplain. eauto. Qed.

Lemma vmatch_lit th f args annots w :
  vmatch th (TLit f args annots) w <-> exists ws, w = VLit f ws /\ Forall2 (vmatch th) args ws.
Proof.
  split.
  - intro H. inversion H; subst. eauto.
  - intros (ws & -> & H). now constructor.
Qed.

Lemma vmatch_plain th t : plain t -> forall w, vmatch th t w <-> value th t = w.
Proof.
  unfold TermSpec.value.
  induction t using term_ind'; intros Hp z; inversion Hp; subst;
    try (split; [intro HH; inversion HH; subst; reflexivity|intros <-; cbn; constructor]; fail).
  - rewrite vmatch_lit. cbn [den].
    match goal with HF : Forall plain args |- _ => rename HF into HP end.
    assert (HA : forall ws, Forall2 (vmatch th) args ws <-> map (den val VConst VLit VCons ex th) args = ws).
    { clear -H HP. induction args as [|a args IH]; intro ws.
      - split; [intro HF; inversion HF; reflexivity|intros <-; constructor].
      - inversion H; inversion HP; subst. split.
        + intro HF. inversion HF; subst. cbn. f_equal; [now apply H2|now apply IH].
        + intros <-. cbn. constructor; [now apply H2|now apply IH]. }
    split.
    + intros (ws & -> & HF). f_equal. now apply HA.
    + intros <-. eexists. split; [reflexivity|]. now apply HA.
  - match goal with HF : Forall plain ts |- _ => rename HF into HP end.
    clear Hp. revert z. induction ts as [|a ts IH]; intro z.
    + split; [intro HH; inversion HH; reflexivity|intros <-; constructor].
    + inversion H; inversion HP; subst. split.
      * intro HH. inversion HH; subst. rewrite den_tup_cons. f_equal; [now apply H2|now apply IH].
      * intros <-. rewrite den_tup_cons. constructor; [now apply H2|now apply IH].
  - split.
    + intro HH. inversion HH; subst. cbn [den]. f_equal; [now apply IHt1|now apply IHt2].
    + intros <-. cbn [den]. constructor; [now apply IHt1|now apply IHt2].
Qed.

Lemma closed_plain c : closed c -> plain c.
Proof.
  induction c using term_ind'; intro Hc; inversion Hc; subst; try (constructor; auto; fail).
  - constructor. rewrite Forall_forall in *. auto.
  - constructor. rewrite Forall_forall in *. auto.
Qed.

Lemma closed_value c th : closed c -> value th c = cval c.
Proof.
  unfold cval, TermSpec.value.
  induction c using term_ind'; intro Hc; inversion Hc; subst; try reflexivity.
  - cbn [den]. f_equal. apply map_ext_in. intros a Ha. rewrite Forall_forall in *. auto.
  - match goal with HF : Forall closed ts |- _ => rename HF into HP end. clear Hc.
    induction ts as [|a ts IH]; [reflexivity|]. inversion H; inversion HP; subst.
    rewrite !den_tup_cons. f_equal; auto.
  - cbn [den]. f_equal; auto.
Qed.

Lemma closed_evaluate n c s : closed c -> evaluate (S n) c s = Ok c.
Proof. intro H. rewrite evaluate_S. now inversion H. Qed.

Lemma cval_lit f args annots : cval (TLit f args annots) = VLit f (map cval args).
Proof. reflexivity. Qed.
Lemma cval_tup x xs : cval (TTup (x :: xs)) = VCons (cval x) (cval (TTup xs)).
Proof. reflexivity. Qed.
Lemma cval_ll h t : cval (TLL h t) = VCons (cval h) (cval t).
Proof. reflexivity. Qed.

Definition psound (p c : term) (st : bst) (b : bool) (st' : bst) : Prop :=
  if b then
    good (b_scope st') /\ forall th, agrees th (b_scope st') <-> agrees th (b_scope st) /\ vmatch th p (cval c)
  else forall th, agrees th (b_scope st) -> ~ vmatch th p (cval c).

Definition psound_f (u : term -> term -> bst -> res bool * bst) : Prop :=
  forall p c st b st', wplain p -> closed c -> good (b_scope st) ->
   (u p c st = (Ok b, st') -> psound p c st b st') /\
   (u c p st = (Ok b, st') -> psound p c st b st').

Lemma psound_eq p p' c st b st' :
  (forall th, agrees th (b_scope st) -> vmatch th p (cval c) <-> vmatch th p' (cval c)) ->
  psound p' c st b st' -> psound p c st b st'.
Proof.
  intros Hp. unfold psound. destruct b.
  - intros [A B]. split; [assumption|]. intro th. rewrite B. split; intros [C D]; split; auto; now apply Hp.
  - intros A th B C. apply (A th B). now apply Hp.
Qed.

(** [vmatch] along evaluation and dereferencing, both directions. *)
Lemma pderef_loop n : forall t s t', deref_loop n t s = Ok t' -> plain_scope s ->
  (wplain t -> wplain t') /\ (forall th w, agrees th s -> vmatch th t w <-> vmatch th t' w).
Proof.
  induction n as [|n IH]; intros t s t' H Hs; destruct t; cbn in H;
    try (inversion H; subst; split; [auto|reflexivity]; fail);
    destruct (lookup s v) eqn:E; try easy;
    try (inversion H; subst; split; [auto|reflexivity]; fail).
  destruct (IH _ _ _ H Hs) as [H1 H2]. split.
  - intros _. apply H1. apply plain_wplain. eauto.
  - intros th w Hth. rewrite <- H2 by assumption. specialize (Hth v t E).
    rewrite (vmatch_plain th t (Hs _ _ E)). split.
    + intro HH. inversion HH; subst. now symmetry.
    + intros <-. unfold TermSpec.value. rewrite <- Hth. constructor.
Qed.

Lemma pevaluate n : forall t s t', evaluate n t s = Ok t' -> wplain t -> good s ->
  wplain t' /\ resolved s t' /\ noexpr t' /\ (forall th w, agrees th s -> vmatch th t w <-> vmatch th t' w).
Proof.
  induction n as [|n IH]; intros t s t' H Hp Hs; [easy|].
  assert (HE : match t with TUn _ _ | TBin _ _ _ => True | _ => False end ->
    wplain t' /\ resolved s t' /\ noexpr t' /\ (forall th w, agrees th s -> vmatch th t w <-> vmatch th t' w)).
  { intro Ht. destruct (wevaluate_expr s0 ex _ _ _ _ Ht Hp (good_wgood _ Hs) H) as (A & B & C).
    split; [assumption|]. split; [destruct t'; easy|]. split; [destruct t'; easy|].
    intros th w _. split; intro Hm.
    - apply vmatch_expr in Hm; [|exact Ht]. subst w. rewrite <- A. now apply vmatch_scalar.
    - assert (w = den_const val VConst (ex t)) by (rewrite <- A; destruct t'; try contradiction B; now inversion Hm).
      subst w. destruct t; try contradiction Ht; constructor. }
  destruct t; try (now apply HE); clear HE;
    try (rewrite evaluate_S in H; inversion H; subst; split; [assumption|split; [exact I|split; [exact I|reflexivity]]]; fail).
  rewrite evaluate_S in H.
  destruct (bound s v) eqn:E; [|inversion H; subst; split; [constructor|split; [exact E|split; [exact I|reflexivity]]]].
  destruct (deref (TVar v) s) as [t1|] eqn:Ed; [|easy].
  destruct (pderef_loop _ _ _ _ Ed (proj1 Hs)) as [D1 D2].
  destruct (IH _ _ _ H) as (H1 & H2 & H3 & H4); [auto|assumption|].
  split; [assumption|split; [assumption|split; [assumption|]]].
  intros th w Hth. rewrite D2 by assumption. auto.
Qed.

Definition lsound (ps cs : list term) (st : bst) (b : bool) (st' : bst) : Prop :=
  if b then
    good (b_scope st') /\ forall th, agrees th (b_scope st') <-> agrees th (b_scope st) /\ Forall2 (vmatch th) ps (map cval cs)
  else forall th, agrees th (b_scope st) -> ~ Forall2 (vmatch th) ps (map cval cs).

Lemma all_unify_psound u : psound_f u -> forall ps cs st b st',
  List.length ps = List.length cs -> Forall wplain ps -> Forall closed cs -> good (b_scope st) ->
  (all_unify u ps cs st = (Ok b, st') -> lsound ps cs st b st') /\
  (all_unify u cs ps st = (Ok b, st') -> lsound ps cs st b st').
Proof.
  intros Hu ps. induction ps as [|p ps IH]; intros [|c cs] st b st' Hlen Hp Hc Hg; try easy.
  - cbn. split; intro H; inversion H; subst; (split; [assumption|]); intro th; (split; [|easy]); intro; (split; [assumption|constructor]).
  - inversion Hp; inversion Hc; subst. cbn in Hlen. injection Hlen as Hlen.
    assert (HC : forall (ob : res bool) st1 (k : bst -> res bool * bst),
       (forall x, ob = Ok x -> psound p c st x st1) ->
       (ob = Ok true -> good (b_scope st1) -> k st1 = (Ok b, st') -> lsound ps cs st1 b st') ->
       match ob, st1 with Ok true, st1 => k st1 | x, st1 => (x, st1) end = (Ok b, st') ->
       lsound (p :: ps) (c :: cs) st b st').
    { intros ob st1 k HS HK HE. destruct ob as [[]|]; [| |easy].
      - destruct (HS true eq_refl) as [G1 G2]. specialize (HK eq_refl G1 HE).
        unfold lsound in *. destruct b.
        + destruct HK as [K1 K2]. split; [assumption|]. intro th. rewrite K2, G2. split.
          * intros [[A B] C]. split; [assumption|]. constructor; assumption.
          * intros [A B]. inversion B; subst. auto.
        + intros th A B. inversion B; subst. apply (HK th); [|assumption]. apply G2. auto.
      - inversion HE; subst. specialize (HS false eq_refl). intros th A B. inversion B; subst. now apply (HS th). }
    split; intro H.
    + cbn in H. destruct (u p c st) as [ob st1] eqn:E.
      apply (HC ob st1 (all_unify u ps cs)).
      * intros x ->. exact (proj1 (Hu p c st x st1 ltac:(assumption) ltac:(assumption) Hg) E).
      * intros _ G1 K. exact (proj1 (IH cs st1 b st' Hlen ltac:(assumption) ltac:(assumption) G1) K).
      * destruct ob as [[]|]; exact H.
    + cbn in H. destruct (u c p st) as [ob st1] eqn:E.
      apply (HC ob st1 (all_unify u cs ps)).
      * intros x ->. exact (proj2 (Hu p c st x st1 ltac:(assumption) ltac:(assumption) Hg) E).
      * intros _ G1 K. exact (proj2 (IH cs st1 b st' Hlen ltac:(assumption) ltac:(assumption) G1) K).
      * destruct ob as [[]|]; exact H.
Qed.

Lemma pair_psound u : psound_f u -> forall h t h' t' st b st',
  wplain h -> wplain t -> closed h' -> closed t' -> good (b_scope st) ->
  (match u h h' st with (Ok true, st1) => u t t' st1 | y => y end = (Ok b, st') \/
   match u h' h st with (Ok true, st1) => u t' t st1 | y => y end = (Ok b, st')) ->
  if b then good (b_scope st') /\ forall th, agrees th (b_scope st') <-> agrees th (b_scope st) /\ vmatch th h (cval h') /\ vmatch th t (cval t')
  else forall th, agrees th (b_scope st) -> ~ (vmatch th h (cval h') /\ vmatch th t (cval t')).
Proof.
  intros Hu h t h' t' st b st' P1 P2 P3 P4 Hg H.
  assert (HH : exists x st1, psound h h' st x st1 /\ (if x then (good (b_scope st1) -> psound t t' st1 b st') else b = false)).
  { destruct H as [H|H].
    - destruct (u h h' st) as [ob st1] eqn:E. destruct ob as [x|]; [|easy]. exists x, st1. split.
      + exact (proj1 (Hu h h' st x st1 P1 P3 Hg) E).
      + destruct x; [|now inversion H]. intro G. exact (proj1 (Hu t t' st1 b st' P2 P4 G) H).
    - destruct (u h' h st) as [ob st1] eqn:E. destruct ob as [x|]; [|easy]. exists x, st1. split.
      + exact (proj2 (Hu h h' st x st1 P1 P3 Hg) E).
      + destruct x; [|now inversion H]. intro G. exact (proj2 (Hu t t' st1 b st' P2 P4 G) H). }
  destruct HH as (x & st1 & A & B). destruct x.
  - destruct A as [A1 A2]. specialize (B A1). destruct b.
    + destruct B as [B1 B2]. split; [assumption|]. intro th. rewrite B2, A2. tauto.
    + intros th C [D1 D2]. apply (B th); [|assumption]. apply A2. auto.
  - subst b. intros th C [D1 D2]. now apply (A th).
Qed.

Lemma psound_false p c st st' : (forall th, ~ vmatch th p (cval c)) -> psound p c st false st'.
Proof. intros H th _. apply H. Qed.

Lemma cval_tup_inv ts : forall th ps, vmatch th (TTup ps) (cval (TTup ts)) ->
  List.length ps = List.length ts /\ Forall2 (vmatch th) ps (map cval ts).
Proof.
  induction ts as [|t ts IH]; intros th ps H; inversion H; subst; [split; [reflexivity|constructor]|].
  destruct (IH _ _ H4) as [A B]. split; [cbn; congruence|constructor; assumption].
Qed.

Lemma cval_tup_intro ts : forall th ps, Forall2 (vmatch th) ps (map cval ts) -> vmatch th (TTup ps) (cval (TTup ts)).
Proof.
  induction ts as [|t ts IH]; intros th ps H; inversion H; subst; [constructor|].
  rewrite cval_tup. constructor; auto.
Qed.

Ltac nomatch := let th := fresh in let HH := fresh in intros th HH; inversion HH.

Theorem unify_psound n : psound_f (unify n).
Proof.
  induction n as [|n IH]; intros p c st b st' Hp Hc Hg; [split; easy|].
  assert (Hev : forall r', evaluate n c (b_scope st) = Ok r' -> r' = c).
  { intros r' E. destruct n; [easy|]. rewrite closed_evaluate in E by assumption. congruence. }
  split; intro H; rewrite unify_S in H.
  - (* pattern on the left *)
    destruct p as [bl|xl|sl|v|wl|opl al|opl al bl|f args annots|ls|h t].
    4:{ destruct (bound (b_scope st) v) eqn:Ev.
      - destruct (deref (TVar v) (b_scope st)) as [l'|] eqn:Ed; [|easy].
        destruct (pderef_loop _ _ _ _ Ed (proj1 Hg)) as [D1 D2].
        eapply psound_eq; [intros th Hth; apply D2; exact Hth|]. exact (proj1 (IH l' c st b st' (D1 Hp) Hc Hg) H).
      - assert (HH : match evaluate n c (b_scope st) with
                | Err e => (Err e, st)
                | Ok r' => match bind v r' st with (Ok _, st') => (Ok true, st') | (Err e, st') => (Err e, st') end
                end = (Ok b, st')) by (destruct c; try exact H; inversion Hc).
        destruct (evaluate n c (b_scope st)) as [r'|] eqn:Er; [|easy]. pose proof (Hev r' eq_refl). subst r'. clear Hev.
        assert (HB : bind v c st = (Ok tt, mkbst ((v, c) :: b_scope st) (EVar v :: b_stack st) (b_ncp st))).
        { unfold bind. rewrite Ev. destruct c; try reflexivity. inversion Hc. }
        rewrite HB in HH. inversion HH; subst. apply bound_false in Ev.
        split; cbn [b_scope].
        + apply good_bind; try assumption; [now apply closed_plain|inversion Hc; exact I|inversion Hc; reflexivity].
        + intro th. unfold TermSpec.agrees. rewrite (sat_bind val eq VConst VLit VCons ex th (b_scope st) v c Ev).
          fold (TermSpec.value ex th c). rewrite (closed_value c th Hc).
          split; intros [A B]; (split; [exact A|]).
          * rewrite <- B. constructor.
          * inversion B; subst. reflexivity. }
    4:{ inversion H; subst. split; [assumption|]. intro th. split; [|easy]. intro; split; [assumption|constructor]. }
    4:{ destruct (evaluate n (TUn opl al) (b_scope st)) as [l'|e] eqn:El; [|easy].
        destruct (pevaluate _ _ _ _ El Hp Hg) as (P1 & P2 & P2' & P3).
        eapply psound_eq; [intros th Hth; apply P3; exact Hth|]. exact (proj1 (IH l' c st b st' P1 Hc Hg) H). }
    4:{ destruct (evaluate n (TBin opl al bl) (b_scope st)) as [l'|e] eqn:El; [|easy].
        destruct (pevaluate _ _ _ _ El Hp Hg) as (P1 & P2 & P2' & P3).
        eapply psound_eq; [intros th Hth; apply P3; exact Hth|]. exact (proj1 (IH l' c st b st' P1 Hc Hg) H). }
    4:{ destruct (evaluate n c (b_scope st)) as [r'|] eqn:Er; [|easy]. pose proof (Hev r' eq_refl). subst r'. clear Hev.
        destruct c as [br|xr|sr|vr|wr| | |f' args' annots'|rs|h' t']; try (inversion Hc; fail);
          try (inversion H; subst; apply psound_false; nomatch; fail).
        - destruct (pystr_eqb_spec f f') as [->|Hff]; cbn [andb] in H.
          + destruct (Nat.eqb_spec (List.length args) (List.length args')) as [Hlen|Hlen].
            * inversion Hp; inversion Hc; subst.
              pose proof (proj1 (all_unify_psound _ IH args args' st b st' Hlen ltac:(assumption) ltac:(assumption) Hg) H) as HA.
              unfold psound. rewrite cval_lit. destruct b.
              -- destruct HA as [HA1 HA2]. split; [assumption|]. intro th. rewrite HA2.
                 split; intros [A B]; (split; [assumption|]); [now constructor|now inversion B].
              -- intros th A B. inversion B; subst. now apply (HA th).
            * inversion H; subst. apply psound_false. intros th HM. inversion HM; subst.
              match goal with HF : Forall2 _ args _ |- _ => apply Forall2_len in HF; rewrite map_length in HF end. easy.
          + inversion H; subst. apply psound_false. intros th HM. inversion HM; subst. easy.
        - inversion H; subst. apply psound_false. intros th HM. inversion HM; subst. destruct rs; discriminate. }
    5:{ destruct (evaluate n c (b_scope st)) as [r'|] eqn:Er; [|easy]. pose proof (Hev r' eq_refl). subst r'. clear Hev.
        inversion Hp; subst.
        destruct c as [br|xr|sr|vr|wr| | |f' args' annots'|rs|h' t']; try (inversion Hc; fail);
          try (inversion H; subst; apply psound_false; nomatch; fail).
        - destruct rs as [|x xs]; [inversion H; subst; apply psound_false; nomatch|].
          inversion Hc as [| | | |? PF|]; subst. inversion PF; subst.
          pose proof (pair_psound _ IH h t x (TTup xs) st b st') as HP. unfold psound. rewrite cval_tup.
          destruct b.
          + destruct HP as [HP1 HP2]; try assumption; [now constructor|now left|].
            split; [assumption|]. intro th. rewrite HP2. split; [intros (A & B & C); split; [assumption|now constructor]|].
            intros [A B]. inversion B; subst. auto.
          + intros th A B. inversion B; subst. eapply HP; try eassumption; [now constructor|now left|auto].
        - inversion Hc; subst.
          pose proof (pair_psound _ IH h t h' t' st b st') as HP. unfold psound. rewrite cval_ll.
          destruct b.
          + destruct HP as [HP1 HP2]; try assumption; [now left|].
            split; [assumption|]. intro th. rewrite HP2. split; [intros (A & B & C); split; [assumption|now constructor]|].
            intros [A B]. inversion B; subst. auto.
          + intros th A B. inversion B; subst. eapply HP; try eassumption; [now left|auto]. }
    (* no unify method on the left *)
    all: destruct (has_unify c) eqn:Eh; [exact (proj2 (IH _ _ _ _ _ Hp Hc Hg) H)|].
    all: destruct c as [br|xr|sr|vr|wr| | |f' args' annots'|rs|h' t']; try discriminate Eh.
    all: try (inversion H; subst; apply psound_false; intros th HM; inversion HM; subst; match goal with HH : context [cval (TTup ?q)] |- _ => destruct q; discriminate HH end).
    all: try (inversion H; subst; apply psound_false; nomatch; fail).
    all: try (match goal with |- psound (TTup ?q) _ _ _ _ => destruct q; inversion H; subst; apply psound_false; nomatch end).
    all: try (match goal with |- psound _ (TTup ?q) _ _ _ => destruct q; inversion H; subst; apply psound_false; nomatch end).
    + inversion H; subst. unfold psound. destruct (Bool.eqb bl br) eqn:Eb.
      * apply Bool.eqb_prop in Eb. subst. split; [assumption|]. intro th. split; [|easy]. intro; split; [assumption|constructor].
      * intros th _ HM. inversion HM; subst. now rewrite Bool.eqb_reflx in Eb.
    + inversion H; subst. cbn [py_eqb]. unfold psound. destruct (num_eqb xl xr) eqn:Eb.
      * apply num_eqb_canon in Eb as [Eb _]. split; [assumption|]. intro th. split; [|easy]. intro; split; [assumption|].
        unfold cval, TermSpec.value. cbn. rewrite <- Eb. constructor.
      * intros th _ HM. inversion HM as [|? Hx| | | | | | | | |]; subst.
        assert (num_eqb xl xr = true) by (apply num_eqb_canon; inversion Hp; inversion Hc; auto). congruence.
    + inversion H; subst. cbn [py_eqb]. unfold psound. destruct (pystr_eqb_spec sl sr) as [->|Hn].
      * split; [assumption|]. intro th. split; [|easy]. intro; split; [assumption|constructor].
      * intros th _ HM. inversion HM; subst. easy.
    + inversion Hp; inversion Hc; subst.
      destruct (Nat.eqb_spec (List.length ls) (List.length rs)) as [Hlen|Hlen].
      * pose proof (proj1 (all_unify_psound _ IH ls rs st b st' Hlen ltac:(assumption) ltac:(assumption) Hg) H) as HA.
        unfold psound. destruct b.
        -- destruct HA as [HA1 HA2]. split; [assumption|]. intro th. rewrite HA2.
           split; intros [A B]; (split; [assumption|]); [now apply cval_tup_intro|now apply cval_tup_inv in B].
        -- intros th A B. apply (HA th A). now apply cval_tup_inv in B.
      * inversion H; subst. apply psound_false. intros th HM. apply cval_tup_inv in HM as [HM _]. easy.
  - (* pattern on the right *)
    destruct c as [bl|xl|sl|v|wl|opl al|opl al bl|f args annots|ls|h t]; try (inversion Hc; fail).
    4:{ destruct (evaluate n p (b_scope st)) as [r'|] eqn:Er; [|easy].
        destruct (pevaluate _ _ _ _ Er Hp Hg) as (P1 & P2 & P2' & P3).
        eapply psound_eq; [intros th Hth; apply P3; exact Hth|].
        destruct r' as [br|xr|sr|vr|wr| | |f' args' annots'|rs|h' t']; try contradiction P2';
          try (inversion H; subst; apply psound_false; nomatch; fail);
          try exact (proj1 (IH _ _ _ _ _ P1 Hc Hg) H).
        - destruct (pystr_eqb_spec f f') as [->|Hff]; cbn [andb] in H.
          + destruct (Nat.eqb_spec (List.length args) (List.length args')) as [Hlen|Hlen].
            * inversion P1; inversion Hc; subst.
              pose proof (proj2 (all_unify_psound _ IH args' args st b st' (eq_sym Hlen) ltac:(assumption) ltac:(assumption) Hg) H) as HA.
              unfold psound. rewrite cval_lit. destruct b.
              -- destruct HA as [HA1 HA2]. split; [assumption|]. intro th. rewrite HA2.
                 split; intros [A B]; (split; [assumption|]); [now constructor|now inversion B].
              -- intros th A B. inversion B; subst. now apply (HA th).
            * inversion H; subst. apply psound_false. intros th HM. inversion HM; subst.
              match goal with HF : Forall2 _ args' _ |- _ => apply Forall2_len in HF; rewrite map_length in HF end. congruence.
          + inversion H; subst. apply psound_false. intros th HM. inversion HM; subst. easy. }
    5:{ destruct (evaluate n p (b_scope st)) as [r'|] eqn:Er; [|easy].
        destruct (pevaluate _ _ _ _ Er Hp Hg) as (P1 & P2 & P2' & P3).
        eapply psound_eq; [intros th Hth; apply P3; exact Hth|].
        inversion Hc; subst.
        destruct r' as [br|xr|sr|vr|wr| | |f' args' annots'|rs|h' t']; try contradiction P2';
          try (inversion H; subst; apply psound_false; nomatch; fail);
          try exact (proj1 (IH _ _ _ _ _ P1 Hc Hg) H).
        - destruct rs as [|x xs]; [inversion H; subst; apply psound_false; nomatch|].
          inversion P1 as [| | | | | | | |? PF|]; subst. inversion PF; subst.
          pose proof (pair_psound _ IH x (TTup xs) h t st b st') as HP. unfold psound. rewrite cval_ll.
          destruct b.
          + destruct HP as [HP1 HP2]; try assumption; [now constructor|now right|].
            split; [assumption|]. intro th. rewrite HP2. split; [intros (A & B & C); split; [assumption|now constructor]|].
            intros [A B]. inversion B; subst. auto.
          + intros th A B. inversion B; subst. eapply HP; try eassumption; [now constructor|now right|auto].
        - inversion P1; subst.
          pose proof (pair_psound _ IH h' t' h t st b st') as HP. unfold psound. rewrite cval_ll.
          destruct b.
          + destruct HP as [HP1 HP2]; try assumption; [now right|].
            split; [assumption|]. intro th. rewrite HP2. split; [intros (A & B & C); split; [assumption|now constructor]|].
            intros [A B]. inversion B; subst. auto.
          + intros th A B. inversion B; subst. eapply HP; try eassumption; [now right|auto]. }
    all: destruct (has_unify p) eqn:Eh; [exact (proj1 (IH _ _ _ _ _ Hp Hc Hg) H)|].
    all: destruct p as [br|xr|sr|vr|wr| | |f' args' annots'|rs|h' t']; try discriminate Eh.
    all: try (inversion H; subst; apply psound_false; nomatch; fail).
    all: try (match goal with |- psound (TTup ?q) _ _ _ _ => destruct q; inversion H; subst; apply psound_false; nomatch end).
    all: try (match goal with |- psound _ (TTup ?q) _ _ _ => destruct q; inversion H; subst; apply psound_false; nomatch end).
    all: try (inversion H; subst; apply psound_false; intros th HM; inversion HM; subst; match goal with HH : context [cval (TTup ?q)] |- _ => destruct q; discriminate HH end).
    + inversion H; subst. unfold psound. destruct (Bool.eqb bl br) eqn:Eb.
      * apply Bool.eqb_prop in Eb. subst. split; [assumption|]. intro th. split; [|easy]. intro; split; [assumption|constructor].
      * intros th _ HM. inversion HM; subst. now rewrite Bool.eqb_reflx in Eb.
    + inversion H; subst. cbn [py_eqb]. unfold psound. destruct (num_eqb xl xr) eqn:Eb.
      * apply num_eqb_canon in Eb as [Eb _]. split; [assumption|]. intro th. split; [|easy]. intro; split; [assumption|].
        unfold cval, TermSpec.value. cbn. rewrite Eb. constructor.
      * intros th _ HM. inversion HM as [|? Hx| | | | | | | | |]; subst.
        assert (num_eqb xl xr = true) by (apply num_eqb_canon; inversion Hp; inversion Hc; auto). congruence.
    + inversion H; subst. cbn [py_eqb]. unfold psound. destruct (pystr_eqb_spec sl sr) as [->|Hn].
      * split; [assumption|]. intro th. split; [|easy]. intro; split; [assumption|constructor].
      * intros th _ HM. inversion HM; subst. easy.
    + inversion Hp; inversion Hc; subst.
      destruct (Nat.eqb_spec (List.length ls) (List.length rs)) as [Hlen|Hlen].
      * pose proof (proj2 (all_unify_psound _ IH rs ls st b st' (eq_sym Hlen) ltac:(assumption) ltac:(assumption) Hg) H) as HA.
        unfold psound. destruct b.
        -- destruct HA as [HA1 HA2]. split; [assumption|]. intro th. rewrite HA2.
           split; intros [A B]; (split; [assumption|]); [now apply cval_tup_intro|now apply cval_tup_inv in B].
        -- intros th A B. apply (HA th A). now apply cval_tup_inv in B.
      * inversion H; subst. apply psound_false. intros th HM. apply cval_tup_inv in HM as [HM _]. congruence.
Qed.

End WithPy.
