(** The compiled code of a body follows its structure. *)
From Verif Require Import Base Num Term Unify Str World Engine Ast Names Build FlowSpec.
Open Scope nat_scope.

Definition is (C : list instr) (j : nat) (o : iop) (s f : option nat) : Prop := nth_error C j = Some (mkinstr o s f).

(** Code from one place to another. *)
Inductive seq (C : list instr) : option nat -> list stm -> option nat -> Prop :=
| sq_nil o : seq C o [] o
| sq_nop j s ss o : is C j INoop s None -> seq C s ss o -> seq C (Some j) (SNop :: ss) o
| sq_call j tr gt t d s ss o : is C j (ICall tr gt t d) s None -> seq C s ss o -> seq C (Some j) (SCall tr gt t d :: ss) o
| sq_ask a b c q s ss o : is C a (IPushQ q) (Some b) None -> is C b INext (Some c) None -> is C c IPopQ s None -> seq C s ss o -> seq C (Some a) (SAsk q :: ss) o
| sq_for a h x q e body s ss o : is C a (IPushQ q) (Some h) None -> is C h INext e (Some x) -> seq C e body (Some h) -> is C x IPopQ s None -> seq C s ss o ->
    seq C (Some a) (SFor q body :: ss) o
| sq_if a t x q e y s ss o : is C a (IPushQ q) (Some t) None -> is C t INext e (Some x) -> seq C e y (Some x) -> is C x IPopQ s None -> seq C s ss o ->
    seq C (Some a) (SIf q y None :: ss) o
| sq_ifelse a t x q e k e' y n s ss o : is C a (IPushQ q) (Some t) None -> is C t INext e (Some k) -> seq C e y (Some x) -> is C k INoop e' None -> seq C e' n (Some x) ->
    is C x IPopQ s None -> seq C s ss o -> seq C (Some a) (SIf q y (Some n) :: ss) o
| sq_while h c t z x y w q e body s ss o : is C h (IPushQ q) (Some c) None -> is C c IPushCP (Some t) None -> is C t INext (Some z) (Some x) ->
    is C x IPopCP (Some y) None -> is C y IPopQ s None -> is C z IPopQ e None -> seq C e body (Some w) -> is C w IPopCP (Some h) None -> seq C s ss o ->
    seq C (Some h) (SWhile q body :: ss) o.

Lemma seq_app C o l1 o1 : seq C o l1 o1 -> forall l2 o2, seq C o1 l2 o2 -> seq C o (l1 ++ l2) o2.
Proof. induction 1; intros l2 o2 H'; cbn [app]; [exact H'|..]; econstructor; eauto. Qed.

Inductive conts (C : list instr) : option nat -> list task -> Prop :=
| ct_nil : conts C None []
| ct_seq o ss o' k : seq C o ss o' -> conts C o' k -> conts C o (dos ss ++ k)
| ct_answer b c s k : is C b INext (Some c) None -> is C c IPopQ s None -> conts C s k -> conts C (Some b) (Answer :: k)
| ct_each h x e body s k : is C h INext e (Some x) -> seq C e body (Some h) -> is C x IPopQ s None -> conts C s k -> conts C (Some h) (Each body :: k)
| ct_choose t x e y s k : is C t INext e (Some x) -> seq C e y (Some x) -> is C x IPopQ s None -> conts C s k -> conts C (Some t) (Choose y None :: k)
| ct_choose2 t x e j e' y n s k : is C t INext e (Some j) -> seq C e y (Some x) -> is C j INoop e' None -> seq C e' n (Some x) ->
    is C x IPopQ s None -> conts C s k -> conts C (Some t) (Choose y (Some n) :: k)
| ct_mark h c t z x y w q e body s k : is C h (IPushQ q) (Some c) None -> is C c IPushCP (Some t) None -> is C t INext (Some z) (Some x) ->
    is C x IPopCP (Some y) None -> is C y IPopQ s None -> is C z IPopQ e None -> seq C e body (Some w) -> is C w IPopCP (Some h) None -> conts C s k ->
    conts C (Some c) (Mark q body :: k)
| ct_again h c t z x y w q e body s k : is C h (IPushQ q) (Some c) None -> is C c IPushCP (Some t) None -> is C t INext (Some z) (Some x) ->
    is C x IPopCP (Some y) None -> is C y IPopQ s None -> is C z IPopQ e None -> seq C e body (Some w) -> is C w IPopCP (Some h) None -> conts C s k ->
    conts C (Some t) (Again q body :: k)
| ct_forget j s k : is C j IPopQ s None -> conts C s k -> conts C (Some j) (Forget :: k)
| ct_undo j s k : is C j IPopCP s None -> conts C s k -> conts C (Some j) (Undo :: k).

Lemma conts_does C : does_tasks C (conts C).
Proof.
  intros pc k H. induction H as [|o ss o' k Hs Hc IH|b c s k H1 H2 Hc _|h x e body s k H1 H2 H3 Hc _|t x e y s k H1 H2 H3 Hc _|
    t x e j e' y n s k H1 H2 H3 H4 H5 Hc _|h c t z x y w q e body s k H1 H2 H3 H4 H5 H6 H7 H8 Hc _|h c t z x y w q e body s k H1 H2 H3 H4 H5 H6 H7 H8 Hc _|
    j s k H1 Hc _|j s k H1 Hc _].
  - exact I.
  - destruct Hs as [o|j s ss o H1 H2|j tr gt t d s ss o H1 H2|a b c q s ss o H1 H2 H3 H4|a h x q e body s ss o H1 H2 H3 H4 H5|a t x q e y s ss o H1 H2 H3 H4 H5|
      a t x q e j e' y n s ss o H1 H2 H3 H4 H5 H6 H7|h c t z x y w q e body s ss o H1 H2 H3 H4 H5 H6 H7 H8 H9]; cbn [dos map app first].
    + exact IH.
    + eexists. split; [exact H1|]. split; [reflexivity|]. split; [|reflexivity]. cbn. eapply ct_seq; eassumption.
    + eexists. split; [exact H1|]. split; [reflexivity|]. split; [|reflexivity]. cbn. eapply ct_seq; eassumption.
    + eexists. split; [exact H1|]. split; [reflexivity|]. split; [|reflexivity]. cbn. eapply ct_answer; [exact H2|exact H3|]. eapply ct_seq; eassumption.
    + eexists. split; [exact H1|]. split; [reflexivity|]. split; [|reflexivity]. cbn. eapply ct_each; [exact H2|exact H3|exact H4|]. eapply ct_seq; eassumption.
    + eexists. split; [exact H1|]. split; [reflexivity|]. split; [|reflexivity]. cbn. eapply ct_choose; [exact H2|exact H3|exact H4|]. eapply ct_seq; eassumption.
    + eexists. split; [exact H1|]. split; [reflexivity|]. split; [|reflexivity]. cbn. eapply ct_choose2; [exact H2|exact H3|exact H4|exact H5|exact H6|]. eapply ct_seq; eassumption.
    + eexists. split; [exact H1|]. split; [reflexivity|]. split; [|reflexivity]. cbn. eapply ct_mark; [exact H1|exact H2|exact H3|exact H4|exact H5|exact H6|exact H7|exact H8|]. eapply ct_seq; eassumption.
  - eexists. split; [exact H1|]. split; [reflexivity|]. split; [|reflexivity]. cbn. eapply ct_forget; eassumption.
  - cbn [first]. eexists. split; [exact H1|]. split; [reflexivity|]. cbn. split; [eapply ct_seq; [exact H2|]; eapply ct_each; eassumption|].
    split; [discriminate|]. eapply ct_forget; eassumption.
  - cbn [first]. eexists. split; [exact H1|]. split; [reflexivity|]. cbn. split; [eapply ct_seq; [exact H2|]; eapply ct_forget; eassumption|].
    split; [discriminate|]. eapply ct_forget; eassumption.
  - cbn [first]. eexists. split; [exact H1|]. split; [reflexivity|]. cbn [in_succ in_fail]. split; [eapply ct_seq; [exact H2|]; eapply ct_forget; eassumption|].
    split; [discriminate|]. apply (ct_seq C (Some j) (SNop :: n) (Some x)); [|eapply ct_forget; eassumption]. econstructor; eassumption.
  - cbn [first]. eexists. split; [exact H2|]. split; [reflexivity|]. split; [|reflexivity]. cbn. eapply ct_again; eassumption.
  - cbn [first]. eexists. split; [exact H3|]. split; [reflexivity|]. cbn [in_succ in_fail]. split.
    + eapply ct_forget; [exact H6|]. eapply ct_seq; [exact H7|]. eapply ct_undo; [exact H8|].
      change (Do (SWhile q body) :: k) with (dos [SWhile q body] ++ k). eapply ct_seq; [|exact Hc]. eapply sq_while; try eassumption. constructor.
    + split; [discriminate|]. eapply ct_undo; [exact H4|]. eapply ct_forget; eassumption.
  - cbn [first]. eexists. split; [exact H1|]. split; [reflexivity|]. split; [exact Hc|reflexivity].
  - cbn [first]. eexists. split; [exact H1|]. split; [reflexivity|]. split; [exact Hc|reflexivity].
Qed.

(** ** Compiling *)
Notation len c := (List.length (c_code c)).
Notation at_ c := (nth_error (c_code c)).
Definition succ (C : list instr) (j : nat) : option nat := match nth_error C j with Some i => in_succ i | None => None end.

Lemma nth_upd {A} (l : list A) k x : forall j, k < List.length l -> nth_error (upd l k x) j = if Nat.eqb j k then Some x else nth_error l j.
Proof.
  revert k. induction l as [|y l IH]; intros k j Hk; cbn [List.length] in Hk; [lia|]. destruct k as [|k], j as [|j]; cbn; try reflexivity. apply IH. lia.
Qed.
Lemma nth_set_succ k x C j : nth_error (set_succ k x C) j =
  if Nat.eqb j k then option_map (fun i => mkinstr (in_op i) (Some x) (in_fail i)) (nth_error C j) else nth_error C j.
Proof.
  unfold set_succ. destruct (nth_error C k) as [i|] eqn:E.
  - rewrite nth_upd by (apply nth_error_Some; congruence). destruct (Nat.eqb_spec j k) as [->|N]; [|reflexivity]. now rewrite E.
  - destruct (Nat.eqb_spec j k) as [->|N]; [|reflexivity]. now rewrite E.
Qed.
Lemma nth_set_fail k x C j : nth_error (set_fail k x C) j =
  if Nat.eqb j k then option_map (fun i => mkinstr (in_op i) (in_succ i) (Some x)) (nth_error C j) else nth_error C j.
Proof.
  unfold set_fail. destruct (nth_error C k) as [i|] eqn:E.
  - rewrite nth_upd by (apply nth_error_Some; congruence). destruct (Nat.eqb_spec j k) as [->|N]; [|reflexivity]. now rewrite E.
  - destruct (Nat.eqb_spec j k) as [->|N]; [|reflexivity]. now rewrite E.
Qed.
Lemma nth_snoc {A} (l : list A) x j : nth_error (l ++ [x]) j = if Nat.eqb j (List.length l) then Some x else nth_error l j.
Proof.
  destruct (Nat.eqb_spec j (List.length l)) as [->|N].
  - rewrite nth_error_app2 by lia. now rewrite Nat.sub_diag.
  - destruct (Nat.lt_ge_cases j (List.length l)) as [H|H]; [now apply nth_error_app1|].
    rewrite nth_error_app2 by lia. destruct (j - List.length l) as [|m] eqn:E; [lia|]. cbn. rewrite (proj2 (nth_error_None l j)) by lia. now destruct m.
Qed.
Lemma len_set_succ k x C : List.length (set_succ k x C) = List.length C.
Proof. unfold set_succ. destruct (nth_error C k); [|reflexivity]. generalize (mkinstr (in_op i) (Some x) (in_fail i)). intros y. revert k. induction C as [|z C IH]; intros [|k]; cbn; auto. Qed.
Lemma len_set_fail k x C : List.length (set_fail k x C) = List.length C.
Proof. unfold set_fail. destruct (nth_error C k); [|reflexivity]. generalize (mkinstr (in_op i) (in_succ i) (Some x)). intros y. revert k. induction C as [|z C IH]; intros [|k]; cbn; auto. Qed.

Lemma len_add o c : len (add_instr o c) = S (len c).
Proof. unfold add_instr, new_instr. cbn [c_code]. rewrite len_set_succ, app_length. cbn. lia. Qed.
Lemma tail_add o c : c_tail (add_instr o c) = len c.
Proof. reflexivity. Qed.
Lemma nth_add o c j : nth_error (c_code (add_instr o c)) j =
  if Nat.eqb j (c_tail c) then option_map (fun i => mkinstr (in_op i) (Some (len c)) (in_fail i)) (nth_error (c_code c ++ [mkinstr o None None]) j)
  else if Nat.eqb j (len c) then Some (mkinstr o None None) else nth_error (c_code c) j.
Proof. unfold add_instr, new_instr. cbn [c_code]. rewrite nth_set_succ. destruct (Nat.eqb j (c_tail c)); [reflexivity|]. apply nth_snoc. Qed.

(** Compiling [ss] takes [c] to [c']: instructions are added, and only the
    successor of the old tail may change; and any code that has these
    instructions, whatever the successor of the new tail, does [ss]. *)
Record frag (c c' : cs) (ss : list stm) : Prop := {
  fr_len : len c <= len c';
  fr_tail : c_tail c' < len c';
  fr_new : c_tail c' = c_tail c /\ ss = [] \/ len c <= c_tail c';
  fr_old : forall j, j < len c -> j <> c_tail c -> at_ c' j = at_ c j;
  fr_last : exists o s s' f, at_ c (c_tail c) = Some (mkinstr o s f) /\ at_ c' (c_tail c) = Some (mkinstr o s' f);
  fr_open : succ (c_code c) (c_tail c) = None -> succ (c_code c') (c_tail c') = None;
  fr_seq : forall C,
    (forall j, len c <= j -> j < len c' -> j <> c_tail c' -> nth_error C j = at_ c' j) ->
    (len c <= c_tail c' -> exists s, forall i, at_ c' (c_tail c') = Some i -> nth_error C (c_tail c') = Some (mkinstr (in_op i) s (in_fail i))) ->
    (c_tail c' <> c_tail c -> succ C (c_tail c) = succ (c_code c') (c_tail c)) ->
    seq C (succ C (c_tail c)) ss (succ C (c_tail c')) }.

Lemma frag_nil c : c_tail c < len c -> frag c c [].
Proof.
  intros H. constructor; [lia|exact H|left; split; reflexivity|reflexivity| | |].
  - destruct (at_ c (c_tail c)) as [[o s f]|] eqn:E; [now exists o, s, s, f|]. apply nth_error_None in E. lia.
  - auto.
  - intros C _ _ _. constructor.
Qed.

Lemma frag_app c c1 c2 s1 s2 : c_tail c < len c -> frag c c1 s1 -> frag c1 c2 s2 -> frag c c2 (s1 ++ s2).
Proof.
  intros Hc H1 H2. pose proof (fr_len _ _ _ H1) as L1. pose proof (fr_len _ _ _ H2) as L2.
  constructor.
  - lia.
  - exact (fr_tail _ _ _ H2).
  - destruct (fr_new _ _ _ H1) as [[T1 ->]|T1], (fr_new _ _ _ H2) as [[T2 ->]|T2]; [left; split; [congruence|reflexivity]|right; lia..].
  - intros j J N. rewrite <- (fr_old _ _ _ H1) by assumption. destruct (fr_new _ _ _ H1) as [[T1 _]|T1]; apply (fr_old _ _ _ H2); lia.
  - destruct (fr_last _ _ _ H1) as (o & s & s' & f & E1 & E2). destruct (fr_last _ _ _ H2) as (o2 & t & t' & f2 & E3 & E4).
    destruct (fr_new _ _ _ H1) as [[T1 _]|T1].
    + rewrite T1 in *. exists o, s, t', f. split; [exact E1|]. rewrite E4. congruence.
    + exists o, s, s', f. split; [exact E1|]. rewrite (fr_old _ _ _ H2); [exact E2|lia|lia].
  - intros Hn. apply (fr_open _ _ _ H2), (fr_open _ _ _ H1), Hn.
  - intros C C1 C2 C3. destruct (fr_last _ _ _ H2) as (o2 & t & t' & f2 & E3 & E4).
    apply seq_app with (o1 := succ C (c_tail c1)).
    + apply (fr_seq _ _ _ H1).
      * intros j J1 J2 N. destruct (Nat.eq_dec j (c_tail c2)) as [->|N2].
        -- destruct (fr_new _ _ _ H2) as [[T2 _]|T2]; [congruence|lia].
        -- rewrite C1 by lia. apply (fr_old _ _ _ H2); assumption.
      * intros T1. destruct (Nat.eq_dec (c_tail c1) (c_tail c2)) as [Ee|N].
        -- destruct C2 as [s Hs]; [lia|]. exists s. intros i Hi. rewrite Ee. rewrite E3 in Hi. injection Hi as <-. rewrite <- Ee in Hs. specialize (Hs _ E4). rewrite <- Ee. exact Hs.
        -- exists t'. intros i Hi. rewrite C1 by (try assumption; pose proof (fr_tail _ _ _ H1); lia). rewrite E3 in Hi. injection Hi as <-. exact E4.
      * intros N. destruct (fr_new _ _ _ H1) as [[T1 _]|T1]; [congruence|].
        assert (c_tail c2 <> c_tail c) as N2. { destruct (fr_new _ _ _ H2) as [[T2 _]|T2]; lia. }
        rewrite (C3 N2). unfold succ. rewrite (fr_old _ _ _ H2); [reflexivity|lia|lia].
    + apply (fr_seq _ _ _ H2).
      * intros j J1 J2 N. apply C1; lia.
      * intros T2. apply C2. lia.
      * intros N. destruct (fr_new _ _ _ H1) as [[T1 _]|T1].
        -- rewrite T1 in *. apply C3. exact N.
        -- unfold succ. rewrite C1; [reflexivity|lia|pose proof (fr_tail _ _ _ H1); lia|congruence].
Qed.

Definition op_stm (o : iop) (s : stm) : Prop := forall C j x ss k, is C j o x None -> seq C x ss k -> seq C (Some j) (s :: ss) k.
Lemma frag_add o st c : op_stm o st -> c_tail c < len c -> frag c (add_instr o c) [st].
Proof.
  intros Ho Hc. constructor.
  - rewrite len_add. lia.
  - rewrite tail_add, len_add. lia.
  - right. rewrite tail_add. lia.
  - intros j J N. rewrite nth_add. destruct (Nat.eqb_spec j (c_tail c)); [contradiction|]. destruct (Nat.eqb_spec j (len c)); [lia|reflexivity].
  - destruct (at_ c (c_tail c)) as [[o' s f]|] eqn:E; [|apply nth_error_None in E; lia].
    exists o', s, (Some (len c)), f. split; [reflexivity|]. rewrite nth_add, Nat.eqb_refl, nth_error_app1, E by exact Hc. reflexivity.
  - intros _. unfold succ. rewrite tail_add, nth_add. destruct (Nat.eqb_spec (len c) (c_tail c)); [lia|]. now rewrite Nat.eqb_refl.
  - intros C C1 C2 C3. rewrite tail_add in *. destruct C2 as [s Hs]; [lia|].
    rewrite nth_add in Hs. destruct (Nat.eqb_spec (len c) (c_tail c)); [lia|]. rewrite Nat.eqb_refl in Hs. specialize (Hs _ eq_refl). cbn in Hs.
    rewrite C3 by lia. unfold succ at 1. rewrite nth_add, Nat.eqb_refl, nth_error_app1 by exact Hc.
    destruct (at_ c (c_tail c)) as [i|] eqn:E; [|apply nth_error_None in E; lia]. cbn.
    eapply Ho; [exact Hs|]. unfold succ. rewrite Hs. constructor.
Qed.

Ltac lens := cbn [List.length c_code c_tail] in *; repeat (progress (rewrite ?len_set_succ, ?len_set_fail, ?app_length, ?len_add, ?tail_add in *; cbn [List.length c_code c_tail] in * )).
Ltac eqs := repeat match goal with
  | |- context [Nat.eqb ?a ?a] => rewrite (Nat.eqb_refl a)
  | |- context [Nat.eqb ?a ?b] => destruct (Nat.eqb_spec a b); [solve [lia]|] || (destruct (Nat.eqb_spec a b); [|solve [lia]])
  end.
Ltac nths := repeat (rewrite ?nth_add, ?nth_set_succ, ?nth_set_fail, ?nth_snoc; cbn [c_code c_tail]; lens; eqs; cbn [option_map in_op in_succ in_fail]).

Lemma last_is c : c_tail c < len c -> exists o s f, at_ c (c_tail c) = Some (mkinstr o s f).
Proof. intros H. destruct (at_ c (c_tail c)) as [[o s f]|] eqn:E; [now exists o, s, f|]. apply nth_error_None in E. lia. Qed.

Lemma frag_ask c q : c_tail c < len c -> frag c (add_instr IPopQ (add_instr INext (add_instr (IPushQ q) c))) [SAsk q].
Proof.
  intros Hc. destruct (last_is c Hc) as (o & s & f & E). constructor.
  - lens. lia.
  - lens. lia.
  - right. lens. lia.
  - intros j J N. nths. reflexivity.
  - exists o, s, (Some (len c)), f. split; [exact E|]. nths. rewrite E. reflexivity.
  - intros _. unfold succ. nths. reflexivity.
  - intros C C1 C2 C3. lens. destruct C2 as [u Hu]; [lia|].
    specialize (Hu (mkinstr IPopQ None None)). assert (nth_error C (S (S (len c))) = Some (mkinstr IPopQ u None)) as E3. { apply Hu. nths. reflexivity. }
    assert (nth_error C (S (len c)) = Some (mkinstr INext (Some (S (S (len c)))) None)) as E2. { rewrite C1 by lia. nths. reflexivity. }
    assert (nth_error C (len c) = Some (mkinstr (IPushQ q) (Some (S (len c))) None)) as E1. { rewrite C1 by lia. nths. reflexivity. }
    rewrite C3 by lia. unfold succ at 1. nths. rewrite E. cbn. eapply sq_ask; [exact E1|exact E2|exact E3|]. unfold succ. rewrite E3. constructor.
Qed.

Lemma frag_for c c2 q b : c_tail c < len c -> let c1 := add_instr INext (add_instr (IPushQ q) c) in frag c1 c2 b ->
  frag c (mkcs (set_fail (c_tail c1) (len c2) (set_succ (c_tail c2) (c_tail c1) (c_code c2) ++ [mkinstr IPopQ None None])) (len c2)) [SFor q b].
Proof.
  intros Hc c1 H. destruct (last_is c Hc) as (o & s & f & E).
  pose proof (fr_len _ _ _ H) as L. pose proof (fr_tail _ _ _ H) as T. pose proof (fr_new _ _ _ H) as N. pose proof (fr_old _ _ _ H) as O.
  destruct (fr_last _ _ _ H) as (o1 & u & u' & f1 & E1 & E2). pose proof (fr_seq _ _ _ H) as S.
  assert (at_ c1 (len c) = Some (mkinstr (IPushQ q) (Some (Datatypes.S (len c))) None)) as Ea. { unfold c1. nths. reflexivity. }
  assert (at_ c1 (c_tail c) = Some (mkinstr o (Some (len c)) f)) as Et. { unfold c1. nths. rewrite E. reflexivity. }
  assert (at_ c1 (c_tail c1) = Some (mkinstr INext None None)) as Eh. { unfold c1. nths. reflexivity. }
  assert (c_tail c1 = Datatypes.S (len c)) as T1 by (unfold c1; lens; reflexivity).
  assert (len c1 = Datatypes.S (Datatypes.S (len c))) as L1 by (unfold c1; lens; reflexivity).
  assert (forall j, j < len c -> j <> c_tail c -> at_ c1 j = at_ c j) as O1. { intros j J1 J2. unfold c1. nths. reflexivity. }
  assert (c_tail c2 = c_tail c1 \/ len c1 <= c_tail c2) as N' by tauto.
  clearbody c1. rewrite E1 in Eh. injection Eh as -> -> ->.
  constructor; cbn [c_code c_tail].
  - lens. lia.
  - lens. lia.
  - right. lens. lia.
  - intros j J1 J2. nths. rewrite O by lia. apply O1; assumption.
  - exists o, s, (Some (len c)), f. split; [exact E|]. nths. rewrite O by lia. exact Et.
  - intros _. unfold succ. rewrite nth_set_fail, nth_snoc. lens. eqs. reflexivity.
  - intros C C1 C2 C3. lens.
    destruct C2 as [v Hv]; [lia|]. specialize (Hv (mkinstr IPopQ None None)). assert (nth_error C (len c2) = Some (mkinstr IPopQ v None)) as E3.
    { apply Hv. rewrite nth_set_fail, nth_snoc. lens. eqs. reflexivity. }
    assert (nth_error C (len c) = Some (mkinstr (IPushQ q) (Some (Datatypes.S (len c))) None)) as EC. { rewrite C1 by lia. nths. rewrite O by lia. exact Ea. }
    assert (succ C (c_tail c) = Some (len c)) as ES. { rewrite C3 by lia. unfold succ. nths. rewrite O by lia. rewrite Et. reflexivity. }
    rewrite ES. unfold succ at 1. rewrite E3.
    assert (nth_error C (c_tail c1) = Some (mkinstr INext (succ C (c_tail c1)) (Some (len c2)))) as EH.
    { unfold succ. rewrite !C1 by lia. rewrite nth_set_fail, nth_snoc, nth_set_succ. lens. eqs.
      destruct (Nat.eqb_spec (c_tail c1) (c_tail c2)); rewrite E2; reflexivity. }
    eapply sq_for; [exact EC|rewrite <- T1; exact EH| |exact E3|constructor].
    assert (succ C (c_tail c2) = Some (c_tail c1)) as EB.
    { unfold succ. rewrite C1 by lia. rewrite nth_set_fail, nth_snoc, nth_set_succ. lens. rewrite Nat.eqb_refl.
      destruct (at_ c2 (c_tail c2)) as [i|] eqn:Ei; [|apply nth_error_None in Ei; lia].
      destruct (Nat.eqb_spec (c_tail c2) (len c2)); [lia|]. destruct (Nat.eqb_spec (c_tail c2) (c_tail c1)); reflexivity. }
    rewrite <- T1, <- EB. apply S.
    + intros j J1 J2 J3. rewrite C1 by lia. nths. reflexivity.
    + intros J. exists (Some (c_tail c1)). intros i Hi. rewrite C1 by lia. nths. rewrite Hi. reflexivity.
    + intros J. unfold succ. rewrite C1 by lia. rewrite nth_set_fail, nth_snoc, nth_set_succ. lens. eqs. rewrite E2. reflexivity.
Qed.

Lemma frag_if c c3 q y : c_tail c < len c -> let c1 := add_instr INext (add_instr (IPushQ q) c) in
  frag (mkcs (c_code c1 ++ [mkinstr IPopQ None None]) (c_tail c1)) c3 y ->
  frag c (mkcs (set_fail (c_tail c1) (len c1) (set_succ (c_tail c3) (len c1) (c_code c3))) (len c1)) [SIf q y None].
Proof.
  intros Hc c1 H. destruct (last_is c Hc) as (o & s & f & E).
  set (c2 := mkcs (c_code c1 ++ [mkinstr IPopQ None None]) (c_tail c1)) in *.
  pose proof (fr_len _ _ _ H) as L. pose proof (fr_tail _ _ _ H) as T. pose proof (fr_new _ _ _ H) as N. pose proof (fr_old _ _ _ H) as O.
  destruct (fr_last _ _ _ H) as (o1 & u & u' & f1 & E1 & E2). pose proof (fr_seq _ _ _ H) as S.
  assert (c_tail c1 = Datatypes.S (len c)) as T1 by (unfold c1; lens; reflexivity).
  assert (len c1 = Datatypes.S (Datatypes.S (len c))) as L1 by (unfold c1; lens; reflexivity).
  assert (c_tail c2 = Datatypes.S (len c)) as T2 by (unfold c2, c1; lens; reflexivity).
  assert (len c2 = 3 + (len c)) as L2 by (unfold c2, c1; lens; lia).
  assert (at_ c2 (len c) = Some (mkinstr (IPushQ q) (Some (Datatypes.S (len c))) None)) as Ea. { unfold c2, c1. nths. reflexivity. }
  assert (at_ c2 (c_tail c) = Some (mkinstr o (Some (len c)) f)) as Et. { unfold c2, c1. nths. rewrite E. reflexivity. }
  assert (at_ c2 (c_tail c2) = Some (mkinstr INext None None)) as Eh. { rewrite T2. unfold c2, c1. nths. reflexivity. }
  assert (at_ c2 (len c1) = Some (mkinstr IPopQ None None)) as Ep. { unfold c2. nths. reflexivity. }
  assert (forall j, j < len c -> j <> c_tail c -> at_ c2 j = at_ c j) as O1. { intros j J1 J2. unfold c2, c1. nths. reflexivity. }
  assert (c_tail c3 = c_tail c2 \/ len c2 <= c_tail c3) as N' by tauto.
  clearbody c2 c1. rewrite E1 in Eh. injection Eh as -> -> ->.
  constructor; cbn [c_code c_tail].
  - lens. lia.
  - lens. lia.
  - right. lens. lia.
  - intros j J1 J2. nths. rewrite O by lia. apply O1; assumption.
  - exists o, s, (Some (len c)), f. split; [exact E|]. nths. rewrite O by lia. exact Et.
  - intros _. unfold succ. nths. rewrite O by lia. rewrite Ep. reflexivity.
  - intros C C1 C2 C3. lens.
    destruct C2 as [v Hv]; [lia|]. specialize (Hv (mkinstr IPopQ None None)). assert (nth_error C (len c1) = Some (mkinstr IPopQ v None)) as E3.
    { apply Hv. nths. rewrite O by lia. exact Ep. }
    assert (nth_error C (len c) = Some (mkinstr (IPushQ q) (Some (Datatypes.S (len c))) None)) as EC. { rewrite C1 by lia. nths. rewrite O by lia. exact Ea. }
    assert (succ C (c_tail c) = Some (len c)) as ES. { rewrite C3 by lia. unfold succ. nths. rewrite O by lia. rewrite Et. reflexivity. }
    rewrite ES. unfold succ at 1. rewrite E3.
    assert (nth_error C (c_tail c1) = Some (mkinstr INext (succ C (c_tail c1)) (Some (len c1)))) as EH.
    { unfold succ. rewrite !C1 by lia. rewrite nth_set_fail, nth_set_succ. rewrite T1, <- T2.
      destruct (Nat.eqb_spec (c_tail c2) (c_tail c3)); rewrite E2; cbn [option_map]; rewrite Nat.eqb_refl; reflexivity. }
    eapply sq_if; [exact EC|rewrite <- T1; exact EH| |exact E3|constructor].
    assert (succ C (c_tail c3) = Some (len c1)) as EB.
    { unfold succ. rewrite C1 by lia. rewrite nth_set_fail, nth_set_succ. rewrite Nat.eqb_refl.
      destruct (at_ c3 (c_tail c3)) as [i|] eqn:Ei; [|apply nth_error_None in Ei; lia].
      destruct (Nat.eqb_spec (c_tail c3) (c_tail c1)); reflexivity. }
    rewrite T1, <- T2, <- EB. apply S.
    + intros j J1 J2 J3. rewrite C1 by lia. nths. reflexivity.
    + intros J. exists (Some (len c1)). intros i Hi. rewrite C1 by lia. nths. rewrite Hi. reflexivity.
    + intros J. unfold succ. rewrite C1 by lia. rewrite nth_set_fail, nth_set_succ. lens. eqs. rewrite E2. destruct (Nat.eqb (c_tail c2) (c_tail c1)); reflexivity.
Qed.

Lemma frag_ifelse c c3 c6 q y n : c_tail c < len c -> let c1 := add_instr INext (add_instr (IPushQ q) c) in
  frag (mkcs (c_code c1 ++ [mkinstr IPopQ None None]) (c_tail c1)) c3 y ->
  frag (mkcs (set_fail (c_tail c1) (len c3) (set_succ (c_tail c3) (len c1) (c_code c3) ++ [mkinstr INoop None None])) (len c3)) c6 n ->
  frag c (mkcs (set_succ (c_tail c6) (len c1) (c_code c6)) (len c1)) [SIf q y (Some n)].
Proof.
  intros Hc c1 H HH. destruct (last_is c Hc) as (o & s & f & E).
  set (c2 := mkcs (c_code c1 ++ [mkinstr IPopQ None None]) (c_tail c1)) in *.
  set (d := mkcs (set_fail (c_tail c1) (len c3) (set_succ (c_tail c3) (len c1) (c_code c3) ++ [mkinstr INoop None None])) (len c3)) in *.
  pose proof (fr_len _ _ _ H) as L. pose proof (fr_tail _ _ _ H) as T. pose proof (fr_new _ _ _ H) as N. pose proof (fr_old _ _ _ H) as Ol.
  destruct (fr_last _ _ _ H) as (o1 & u & u' & f1 & E1 & E2). pose proof (fr_seq _ _ _ H) as Sq.
  pose proof (fr_len _ _ _ HH) as L'. pose proof (fr_tail _ _ _ HH) as T'. pose proof (fr_new _ _ _ HH) as N'. pose proof (fr_old _ _ _ HH) as Ol'.
  destruct (fr_last _ _ _ HH) as (o1' & w & w' & f1' & E1' & E2'). pose proof (fr_seq _ _ _ HH) as Sq'.
  assert (c_tail c1 = Datatypes.S (len c)) as T1 by (unfold c1; lens; reflexivity).
  assert (len c1 = Datatypes.S (Datatypes.S (len c))) as L1 by (unfold c1; lens; reflexivity).
  assert (c_tail c2 = Datatypes.S (len c)) as T2 by (unfold c2, c1; lens; reflexivity).
  assert (len c2 = 3 + (len c)) as L2 by (unfold c2, c1; lens; lia).
  assert (c_tail c3 = c_tail c2 \/ len c2 <= c_tail c3) as Nn by tauto. clear N.
  assert (c_tail d = len c3) as Td by reflexivity.
  assert (len d = Datatypes.S (len c3)) as Ld by (unfold d; lens; lia).
  assert (c_tail c6 = c_tail d \/ len d <= c_tail c6) as Nn' by tauto. clear N'.
  assert (at_ c2 (len c) = Some (mkinstr (IPushQ q) (Some (Datatypes.S (len c))) None)) as Ea. { unfold c2, c1. nths. reflexivity. }
  assert (at_ c2 (c_tail c) = Some (mkinstr o (Some (len c)) f)) as Et. { unfold c2, c1. nths. rewrite E. reflexivity. }
  assert (at_ c2 (c_tail c2) = Some (mkinstr INext None None)) as Eh. { rewrite T2. unfold c2, c1. nths. reflexivity. }
  assert (at_ c2 (len c1) = Some (mkinstr IPopQ None None)) as Ep. { unfold c2. nths. reflexivity. }
  assert (forall j, j < len c -> j <> c_tail c -> at_ c2 j = at_ c j) as Ol1. { intros j J1 J2. unfold c2, c1. nths. reflexivity. }
  assert (forall j, j < len c3 -> j <> c_tail c1 -> j <> c_tail c3 -> at_ c6 j = at_ c3 j) as O6.
  { intros j J1 J2 J3. rewrite Ol' by lia. unfold d. nths. reflexivity. }
  rewrite E1 in Eh. injection Eh as -> -> ->.
  assert (at_ c6 (c_tail c1) = Some (mkinstr INext (if Nat.eqb (c_tail c1) (c_tail c3) then Some (len c1) else u') (Some (len c3)))) as EH6.
  { rewrite Ol' by lia. unfold d. cbn [c_code]. rewrite nth_set_fail, nth_snoc, nth_set_succ. lens. eqs.
    rewrite T1, <- T2. destruct (Nat.eqb_spec (c_tail c2) (c_tail c3)); rewrite E2; reflexivity. }
  assert (forall i, at_ c3 (c_tail c3) = Some i -> c_tail c3 <> c_tail c1 -> at_ c6 (c_tail c3) = Some (mkinstr (in_op i) (Some (len c1)) (in_fail i))) as ET6.
  { intros i Hi Hn. rewrite Ol' by lia. unfold d. nths. rewrite Hi. reflexivity. }
  assert (at_ d (len c3) = Some (mkinstr INoop None None)) as Ek. { unfold d. nths. reflexivity. }
  rewrite <- Td, E1' in Ek. injection Ek as -> -> ->.
  clearbody c2 d c1.
  constructor; cbn [c_code c_tail].
  - lens. lia.
  - lens. lia.
  - right. lens. lia.
  - intros j J1 J2. nths. rewrite O6, Ol by lia. apply Ol1; assumption.
  - exists o, s, (Some (len c)), f. split; [exact E|]. nths. rewrite O6, Ol by lia. exact Et.
  - intros _. unfold succ. nths. rewrite O6, Ol by lia. rewrite Ep. reflexivity.
  - intros C C1 C2 C3. lens.
    destruct C2 as [v Hv]; [lia|]. specialize (Hv (mkinstr IPopQ None None)). assert (nth_error C (len c1) = Some (mkinstr IPopQ v None)) as E3.
    { apply Hv. nths. rewrite O6, Ol by lia. exact Ep. }
    assert (nth_error C (len c) = Some (mkinstr (IPushQ q) (Some (Datatypes.S (len c))) None)) as EC. { rewrite C1 by lia. nths. rewrite O6, Ol by lia. exact Ea. }
    assert (succ C (c_tail c) = Some (len c)) as ES. { rewrite C3 by lia. unfold succ. nths. rewrite O6, Ol by lia. rewrite Et. reflexivity. }
    rewrite ES. unfold succ at 1. rewrite E3.
    assert (nth_error C (c_tail c1) = Some (mkinstr INext (if Nat.eqb (c_tail c1) (c_tail c3) then Some (len c1) else u') (Some (len c3)))) as EH.
    { rewrite !C1 by lia. nths. exact EH6. }
    assert (nth_error C (len c3) = Some (mkinstr INoop (succ C (len c3)) None)) as EK.
    { unfold succ. rewrite !C1 by lia. rewrite nth_set_succ, <- Td.
      destruct (Nat.eqb_spec (c_tail d) (c_tail c6)); rewrite E2'; reflexivity. }
    eapply sq_ifelse; [exact EC|rewrite <- T1; exact EH| |exact EK| |exact E3|constructor].
    + assert (succ C (c_tail c3) = Some (len c1)) as EB.
      { unfold succ. rewrite C1 by lia. rewrite nth_set_succ. eqs.
        destruct (at_ c3 (c_tail c3)) as [i|] eqn:Ei; [|apply nth_error_None in Ei; lia].
        destruct (Nat.eq_dec (c_tail c3) (c_tail c1)) as [En|En]; [rewrite En in *; rewrite EH6, Nat.eqb_refl; reflexivity|].
        rewrite (ET6 _ eq_refl En). reflexivity. }
      assert (succ C (c_tail c2) = if Nat.eqb (c_tail c1) (c_tail c3) then Some (len c1) else u') as EU.
      { rewrite T2, <- T1. unfold succ. rewrite EH. reflexivity. }
      rewrite <- EU, <- EB. apply Sq.
      * intros j J1 J2 J3. rewrite C1 by lia. nths. rewrite O6 by lia. reflexivity.
      * intros J. exists (Some (len c1)). intros i Hi. rewrite C1 by lia. nths. apply ET6; [exact Hi|lia].
      * intros J. rewrite EU. unfold succ. rewrite E2. destruct (Nat.eqb_spec (c_tail c1) (c_tail c3)); [lia|reflexivity].
    + assert (succ C (c_tail c6) = Some (len c1)) as EB.
      { unfold succ. rewrite C1 by lia. rewrite nth_set_succ, Nat.eqb_refl.
        destruct (at_ c6 (c_tail c6)) as [i|] eqn:Ei; [|apply nth_error_None in Ei; lia]. reflexivity. }
      rewrite <- EB, <- Td. apply Sq'.
      * intros j J1 J2 J3. rewrite C1 by lia. nths. reflexivity.
      * intros J. exists (Some (len c1)). intros i Hi. rewrite C1 by lia. nths. rewrite Hi. reflexivity.
      * intros J. unfold succ. rewrite C1 by lia. nths. reflexivity.
Qed.

Lemma frag_while c c4 q b : c_tail c < len c ->
  let c0 := mkcs (c_code c ++ [mkinstr IPopCP None None]) (c_tail c) in
  let c1 := add_instr (IPushQ q) c0 in
  let c2 := add_instr INext (add_instr IPushCP c1) in
  let c3 := mkcs (set_fail (c_tail c2) (len c) (c_code c2)) (c_tail c2) in
  frag (add_instr IPopQ c3) c4 b ->
  let c5 := add_instr IPopCP c4 in
  frag c (add_instr IPopQ (mkcs (set_succ (c_tail c5) (c_tail c1) (c_code c5)) (len c))) [SWhile q b].
Proof.
  intros Hc c0 c1 c2 c3 H c5. destruct (last_is c Hc) as (o & s & f & E).
  set (d := add_instr IPopQ c3) in *.
  pose proof (fr_len _ _ _ H) as L. pose proof (fr_tail _ _ _ H) as T. pose proof (fr_new _ _ _ H) as N. pose proof (fr_old _ _ _ H) as Ol.
  destruct (fr_last _ _ _ H) as (o1 & u & u' & f1 & E1 & E2). pose proof (fr_seq _ _ _ H) as Sq.
  assert (c_tail c1 = 1 + len c) as T1 by (unfold c1, c0; lens; lia).
  assert (c_tail d = 4 + len c) as T2 by (unfold d, c3, c2, c1, c0; lens; lia).
  assert (len d = 5 + (len c)) as L2 by (unfold d, c3, c2, c1, c0; lens; lia).
  assert (c_tail c4 = c_tail d \/ len d <= c_tail c4) as Nn by tauto. clear N.
  assert (forall j, j < len c -> j <> c_tail c -> at_ d j = at_ c j) as Ol1. { intros j J1 J2. unfold d, c3, c2, c1, c0. nths. reflexivity. }
  assert (at_ d (c_tail c) = Some (mkinstr o (Some (1 + len c)) f)) as Et.
  { unfold d, c3, c2, c1, c0. nths. rewrite E. cbn. do 3 f_equal. lia. }
  assert (at_ d (len c) = Some (mkinstr IPopCP None None)) as Ex. { unfold d, c3, c2, c1, c0. nths. reflexivity. }
  assert (at_ d (1 + len c) = Some (mkinstr (IPushQ q) (Some (2 + len c)) None)) as Ea.
  { unfold d, c3, c2, c1, c0. nths. do 3 f_equal. lia. }
  assert (at_ d (2 + len c) = Some (mkinstr IPushCP (Some (3 + len c)) None)) as Eb.
  { unfold d, c3, c2, c1, c0. nths. do 3 f_equal. lia. }
  assert (at_ d (3 + len c) = Some (mkinstr INext (Some (4 + len c)) (Some (len c)))) as Eh.
  { unfold d, c3, c2, c1, c0. nths. do 3 f_equal. lia. }
  assert (at_ d (c_tail d) = Some (mkinstr IPopQ None None)) as Ez.
  { rewrite T2. unfold d, c3, c2, c1, c0. nths. reflexivity. }
  rewrite E1 in Ez. injection Ez as -> -> ->. unfold c5. rewrite T1. clear c5. clearbody d. clear c3 c2 T1 c1 c0.
  destruct (last_is c4 T) as (o4 & s4 & f4 & E4).
  constructor; cbn [c_code c_tail].
  - lens. lia.
  - lens. lia.
  - right. lens. lia.
  - intros j J1 J2. nths. rewrite Ol by lia. apply Ol1; assumption.
  - exists o, s, (Some (1 + len c)), f. split; [exact E|]. nths. rewrite Ol by lia. exact Et.
  - intros _. unfold succ. nths. reflexivity.
  - intros C C1 C2 C3. lens.
    destruct C2 as [v Hv]; [lia|]. specialize (Hv (mkinstr IPopQ None None)). assert (nth_error C (Datatypes.S (len c4)) = Some (mkinstr IPopQ v None)) as Ey.
    { apply Hv. nths. reflexivity. }
    assert (nth_error C (1 + len c) = Some (mkinstr (IPushQ q) (Some (2 + len c)) None)) as EC. { rewrite C1 by lia. nths. rewrite Ol by lia. exact Ea. }
    assert (nth_error C (2 + len c) = Some (mkinstr IPushCP (Some (3 + len c)) None)) as ED. { rewrite C1 by lia. nths. rewrite Ol by lia. exact Eb. }
    assert (nth_error C (3 + len c) = Some (mkinstr INext (Some (4 + len c)) (Some (len c)))) as EE. { rewrite C1 by lia. nths. rewrite Ol by lia. exact Eh. }
    assert (nth_error C (len c) = Some (mkinstr IPopCP (Some (Datatypes.S (len c4))) None)) as EF.
    { rewrite C1 by lia. nths. rewrite Ol by lia. rewrite Ex. reflexivity. }
    assert (nth_error C (len c4) = Some (mkinstr IPopCP (Some (1 + len c)) None)) as EG. { rewrite C1 by lia. nths. reflexivity. }
    assert (succ C (c_tail c) = Some (1 + len c)) as ES. { rewrite C3 by lia. unfold succ. nths. rewrite Ol by lia. rewrite Et. reflexivity. }
    assert (nth_error C (4 + len c) = Some (mkinstr IPopQ (succ C (4 + len c)) None)) as EI.
    { unfold succ. rewrite !C1 by lia. rewrite nth_add. lens. eqs. rewrite nth_set_succ. eqs. rewrite nth_add. lens. rewrite <- T2.
      destruct (Nat.eqb_spec (c_tail d) (c_tail c4)).
      - rewrite nth_error_app1, E2 by lia. reflexivity.
      - eqs. rewrite E2. reflexivity. }
    rewrite ES. unfold succ at 1. rewrite Ey.
    eapply sq_while; [exact EC|exact ED|exact EE|exact EF|exact Ey|exact EI| |exact EG|constructor].
    assert (succ C (c_tail c4) = Some (len c4)) as EB.
    { unfold succ. rewrite C1 by lia. nths. rewrite E4. reflexivity. }
    rewrite <- EB, <- T2. apply Sq.
    + intros j J1 J2 J3. rewrite C1 by lia. nths. reflexivity.
    + intros J. exists (Some (len c4)). intros i Hi. rewrite C1 by lia. nths. rewrite Hi. reflexivity.
    + intros J. unfold succ. rewrite C1 by lia. nths. reflexivity.
Qed.

Section WithPy.
Context {PY : Py}.

Definition compiles (k : cs -> B cs) (m : B (list stm)) : Prop := forall c s, c_tail c < len c ->
  match m s with
  | (Ok ss, s') => exists c', k c s = (Ok c', s') /\ frag c c' ss
  | (Err e, s') => k c s = (Err e, s')
  end.

Lemma meaning_for acts g b : meaning acts (FFor g b) = (q <- build_query acts g ;; b <- meanings acts b ;; bret [SFor q b])%B.
Proof. reflexivity. Qed.
Lemma meaning_if acts c yes no : meaning acts (FIf c yes no) =
      (q <- build_query acts c ;; y <- meanings acts yes ;;
       n <- match no with Some l => (x <- meanings acts l ;; bret (Some x)) | None => bret None end ;;
       bret [SIf q y n])%B.
Proof. reflexivity. Qed.
Lemma meaning_while acts g b : meaning acts (FWhile g b) = (q <- build_query acts g ;; b <- meanings acts b ;; bret [SWhile q b])%B.
Proof. reflexivity. Qed.

Lemma compiles_list acts l : Forall (fun f => compiles (compile acts f) (meaning acts f)) l -> compiles (compile_all acts l) (meanings acts l).
Proof.
  induction 1 as [|f l H _ IH]; intros c s Hc.
  - cbn. exists c. split; [reflexivity|now apply frag_nil].
  - change (meanings acts (f :: l)) with (x <- meaning acts f ;; y <- meanings acts l ;; bret (x ++ y))%B. change (compile_all acts (f :: l) c) with (bbind (compile acts f c) (compile_all acts l)). unfold bbind at 1.
    specialize (H c s Hc). destruct (meaning acts f s) as [[ss|e] s1]; [|unfold bbind; now rewrite H].
    destruct H as (c1 & E1 & F1). unfold bbind. rewrite E1. specialize (IH c1 s1 (fr_tail _ _ _ F1)).
    destruct (meanings acts l s1) as [[ss2|e] s2]; [|exact IH]. destruct IH as (c2 & E2 & F2). cbn. exists c2. split; [exact E2|].
    now apply frag_app with c1.
Qed.

Lemma op_call tr gt t d : op_stm (ICall tr gt t d) (SCall tr gt t d).
Proof. intros C j x ss k H1 H2. econstructor; eassumption. Qed.

Lemma compile_compiles acts f : compiles (compile acts f) (meaning acts f).
Proof.
  induction f using form_ind'; intros c0 s Hc.
  - destruct ft; cbn [compile meaning]; unfold bbind;
      try solve [destruct (build_term false t s) as [[x|e] s1]; [|reflexivity]; cbn; eexists; split; [reflexivity|]; apply frag_add; [apply op_call|exact Hc]].
    + destruct (build_query acts t s) as [[x|e] s1]; [|reflexivity]. cbn [bret]. eexists. split; [reflexivity|]. now apply frag_ask.
    + destruct (build_pattern t s) as [[x|e] s1]; [|reflexivity]. destruct (build_term false t s1) as [[y|e] s2]; [|reflexivity].
      cbn [bret]. eexists. split; [reflexivity|].
      change [SCall TrRem GtBelief x false; SCall TrAdd GtBelief y false] with ([SCall TrRem GtBelief x false] ++ [SCall TrAdd GtBelief y false]).
      eapply frag_app; [exact Hc|apply frag_add; [apply op_call|exact Hc]|apply frag_add; [apply op_call|]].
      rewrite tail_add, len_add. lia.
  - rewrite meaning_for. cbn [compile]. unfold bbind. destruct (build_query acts g s) as [[q|e] s1]; [|reflexivity].
    apply compiles_list in H. specialize (H (add_instr INext (add_instr (IPushQ q) c0)) s1).
    assert (c_tail (add_instr INext (add_instr (IPushQ q) c0)) < len (add_instr INext (add_instr (IPushQ q) c0))) as Hl by (lens; lia). specialize (H Hl).
    unfold compile_all in H. destruct (meanings acts b s1) as [[ss|e] s2]; [|now rewrite H].
    destruct H as (c2 & E2 & F2). rewrite E2. cbn [bret new_instr c_code c_tail]. eexists. split; [reflexivity|].
    rewrite len_set_succ. apply (frag_for c0 c2 q ss Hc F2).
  - rewrite meaning_if. cbn [compile]. unfold bbind. destruct (build_query acts c s) as [[q|e] s1]; [|reflexivity].
    set (c1 := add_instr INext (add_instr (IPushQ q) c0)). cbn [new_instr].
    apply compiles_list in H. specialize (H (mkcs (c_code c1 ++ [mkinstr IPopQ None None]) (c_tail c1)) s1).
    assert (c_tail c1 < List.length (c_code c1 ++ [mkinstr IPopQ None None])) as Hl by (unfold c1; lens; lia). specialize (H Hl).
    unfold compile_all in H. destruct (meanings acts ib s1) as [[y|e] s2]; [|now rewrite H].
    destruct H as (c3 & E3 & F3). rewrite E3. destruct eb as [b|].
    + cbn [new_instr c_code c_tail]. cbn [opt_all] in H0. apply compiles_list in H0.
      specialize (H0 (mkcs (set_fail (c_tail c1) (len c3) (set_succ (c_tail c3) (len c1) (c_code c3) ++ [mkinstr INoop None None])) (len c3)) s2).
      rewrite len_set_succ. unfold compile_all in H0.
      assert (len c3 < List.length (set_fail (c_tail c1) (len c3) (set_succ (c_tail c3) (len c1) (c_code c3) ++ [mkinstr INoop None None]))) as Hl2 by (lens; lia). specialize (H0 Hl2).
      destruct (meanings acts b s2) as [[n|e] s3]; [|now rewrite H0]. cbn [bret].
      destruct H0 as (c6 & E6 & F6). rewrite E6. eexists. split; [reflexivity|]. apply (frag_ifelse c0 c3 c6 q y n Hc F3 F6).
    + cbn [bret]. eexists. split; [reflexivity|]. cbn [c_code c_tail]. apply (frag_if c0 c3 q y Hc F3).
  - rewrite meaning_while. cbn [compile new_instr]. unfold bbind. destruct (build_query acts c s) as [[q|e] s1]; [|reflexivity].
    apply compiles_list in H.
    set (z0 := mkcs (c_code c0 ++ [mkinstr IPopCP None None]) (c_tail c0)).
    set (z1 := add_instr (IPushQ q) z0). set (z2 := add_instr INext (add_instr IPushCP z1)).
    set (z3 := mkcs (set_fail (c_tail z2) (len c0) (c_code z2)) (c_tail z2)). cbv zeta.
    specialize (H (add_instr IPopQ z3) s1). assert (c_tail (add_instr IPopQ z3) < len (add_instr IPopQ z3)) as Hl by (rewrite tail_add, len_add; lia). specialize (H Hl).
    unfold compile_all in H. destruct (meanings acts b s1) as [[ss|e] s2]; [|now rewrite H].
    destruct H as (c4 & E4 & F4). rewrite E4. cbn [bret]. eexists. split; [reflexivity|]. apply (frag_while c0 c4 q ss Hc F4).
Qed.

(** The code of a compiled body. *)
Lemma compiled_follows acts b c s' s : compile_all acts b (mkcs [mkinstr INoop None None] 0) s = (Ok c, s') ->
  exists l, meanings acts b s = (Ok l, s') /\ follows (c_code c) (Some 0) (begin l).
Proof.
  intros E. assert (Forall (fun f => compiles (compile acts f) (meaning acts f)) b) as Hb by (apply Forall_forall; intros x _; apply compile_compiles).
  apply compiles_list in Hb. specialize (Hb (mkcs [mkinstr INoop None None] 0) s). cbn [c_tail c_code List.length] in Hb. specialize (Hb (le_n 1)).
  destruct (meanings acts b s) as [[l|e] s1]; [|congruence]. destruct Hb as (c' & E' & F). rewrite E in E'. injection E' as <- <-.
  exists l. split; [reflexivity|].
  destruct (fr_last _ _ _ F) as (o & x & x' & f & E1 & E2). cbn in E1. injection E1 as <- <- <-. cbn [c_tail] in E2.
  pose proof (fr_seq _ _ _ F (c_code c)) as Sq. cbn [c_tail] in Sq.
  assert (seq (c_code c) (succ (c_code c) 0) l (succ (c_code c) (c_tail c))) as Q.
  { apply Sq; [reflexivity| |reflexivity]. intros _. destruct (last_is c (fr_tail _ _ _ F)) as (o & u & f & Eu). exists u. intros i Hi. rewrite Eu in *. now injection Hi as <-. }
  clear Sq. exists (conts (c_code c)). split; [|apply conts_does].
  unfold begin. rewrite <- (app_nil_r (dos (SNop :: l))). apply ct_seq with (succ (c_code c) (c_tail c)).
  - econstructor; [exact E2|]. unfold succ at 1 in Q. rewrite E2 in Q. exact Q.
  - rewrite (fr_open _ _ _ F) by reflexivity. constructor.
Qed.
End WithPy.
