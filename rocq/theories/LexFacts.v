(** The lexer cuts every source as LexSpec says. *)
From Verif Require Import Base Names Lex LexSpec RegexFacts.

Local Notation len := (@List.length N).

(** [describes r k]: the regular expression matches the lexemes of the kind. *)
Definition describes (r : regex) (k : kind) : Prop :=
  forall s s', mt r s s' <-> exists w, s = w ++ s' /\ shape k w s'.

(** ** Fixed lexemes *)

Definition text (k : kind) : option string :=
  match find (fun '(k', _) => match k, k' with
    | KParenOpen, KParenOpen | KParenClose, KParenClose | KBracketOpen, KBracketOpen
    | KBracketClose, KBracketClose | KBraceOpen, KBraceOpen | KBraceClose, KBraceClose
    | KTrue, KTrue | KFalse, KFalse | KIf, KIf | KElse, KElse | KWhile, KWhile | KFor, KFor
    | KInclude, KInclude | KBegin, KBegin | KEnd, KEnd | KArrow, KArrow | KDefine, KDefine
    | KColon, KColon | KForkAnd, KForkAnd | KForkXor, KForkXor | KDoubleExclam, KDoubleExclam
    | KExclam, KExclam | KQuestion, KQuestion | KMinusPlus, KMinusPlus | KNot, KNot | KPlus, KPlus
    | KMinus, KMinus | KPower, KPower | KMult, KMult | KFdiv, KFdiv | KDiv, KDiv | KMod, KMod
    | KAnd, KAnd | KOr, KOr | KLe, KLe | KGe, KGe | KNe, KNe | KEq, KEq | KDecompose, KDecompose
    | KUnify, KUnify | KLt, KLt | KGt, KGt | KFullstop, KFullstop | KComma, KComma
    | KSemicolon, KSemicolon | KAt, KAt => true | _, _ => false end) fixed_lexemes with
  | Some (_, t) => Some t
  | None => None
  end.

Lemma in_text k t : In (k, t) fixed_lexemes -> text k = Some t.
Proof.
  intros H. unfold fixed_lexemes in H. cbn [In] in H.
  repeat (destruct H as [H|H]; [injection H as <- <-; reflexivity|]). destruct H.
Qed.

Lemma text_in k t : text k = Some t -> In (k, t) fixed_lexemes.
Proof.
  unfold text. destruct (find _ _) as [[k' t']|] eqn:E; [|discriminate]. intros [= <-].
  apply find_some in E as [H E]. destruct k, k'; try discriminate E; exact H.
Qed.

Lemma shape_fixed k t : text k = Some t -> forall w r, shape k w r <-> w = s2p t.
Proof.
  intros E w r. split.
  - intros H. destruct H as [w r H1 H2|w r H|w r H|w r H1 H2|w r H1 H2|m e r H1 H2|u c w r H1 H2 H3|u r H1 H2|b r H
      |k t' r H]; try discriminate E.
    apply in_text in H. congruence.
  - intros ->. constructor. now apply text_in.
Qed.

Lemma describes_fixed k t : text k = Some t -> describes (rlit t) k.
Proof.
  intros E s s'. unfold rlit. rewrite mt_str. split.
  - intros ->. exists (s2p t). split; [reflexivity|]. now apply (shape_fixed k t E).
  - intros (w & -> & H). apply (shape_fixed k t E) in H as ->. reflexivity.
Qed.

(** ** White space and comments *)

Lemma plus_chr p s s' : mt (RPlus (RChr p)) s s' <-> exists w, s = w ++ s' /\ w <> [] /\ all p w.
Proof.
  unfold RPlus. cbn [mt]. split.
  - intros (s1 & (c & -> & Hc) & H). apply iter_chr in H as (w & -> & Hw).
    exists (c :: w). split; [reflexivity|]. split; [discriminate|]. now apply all_cons.
  - intros (w & -> & Hn & Hw). destruct w as [|c w]; [congruence|]. apply all_cons in Hw as [Hc Hw].
    exists (w ++ s'). split; [exists c; now split|]. apply iter_chr. now exists w.
Qed.

Lemma describes_space : describes (RPlus (RChr is_space)) KSpace.
Proof.
  intros s s'. rewrite plus_chr. split.
  - intros (w & -> & Hn & Hw). exists w. split; [reflexivity|]. now constructor.
  - intros (w & -> & H). exists w. split; [reflexivity|]. inversion H as [? ? A B| | | | | | | | |? t ? A]; subst.
    + now split.
    + apply in_text in A. discriminate.
Qed.

Lemma describes_comment : describes (RSeq (RAlt (rlit "//") (rlit "#")) (RStar (RChr not_nl))) KComment.
Proof.
  intros s s'. cbn [mt]. split.
  - intros (s1 & [H1|H1] & H2); apply mt_str in H1 as ->; apply iter_chr in H2 as (w & -> & Hw).
    + exists (s2p "//" ++ w). split; [now rewrite <- app_assoc|]. now constructor.
    + exists (s2p "#" ++ w). split; [now rewrite <- app_assoc|]. now constructor.
  - intros (w & -> & H). inversion H as [|v ? A|v ? A| | | | | | |? t ? A]; subst.
    + exists (v ++ s'). split; [left; apply mt_str; now rewrite <- app_assoc|]. apply iter_chr. now exists v.
    + exists (v ++ s'). split; [right; apply mt_str; now rewrite <- app_assoc|]. apply iter_chr. now exists v.
    + apply in_text in A. discriminate.
Qed.

(** ** Functors *)

Lemma lower_word c : is_lower c = true -> is_word c = true.
Proof. unfold is_word, is_ascii_alnum. intros ->. now rewrite !orb_true_r. Qed.

Lemma name_word w : name w -> all is_word w.
Proof. intros [c s Hc Hs]. apply all_cons. split; [now apply lower_word|assumption]. Qed.

Lemma dotted_more u w : dotted u -> all is_word w -> dotted (u ++ w).
Proof.
  intros H Hw.
  assert (K : forall v, name v -> name (v ++ w)).
  { intros v [c s Hc Hs]. cbn. constructor; [assumption|]. apply all_app. now split. }
  destruct H as [v Hv|v Hv|u v Hu Hv].
  - now apply dotted_name, K.
  - change (dotted (46%N :: (v ++ w))). now apply dotted_dot, K.
  - rewrite <- app_assoc. change (dotted (u ++ 46%N :: (v ++ w))). apply dotted_snoc; [assumption|now apply K].
Qed.

Definition re_seg : regex := RSeq (ROpt (RCh 46)) (RSeq (RChr is_lower) (RStar (RChr is_word))).

Lemma mt_seg s s' : mt re_seg s s' <-> exists w, name w /\ (s = w ++ s' \/ s = 46%N :: w ++ s').
Proof.
  unfold re_seg, ROpt, RCh. cbn [mt]. split.
  - intros (s1 & H1 & s2 & (c & -> & Hc) & H). apply iter_chr in H as (w & -> & Hw).
    exists (c :: w). split; [now constructor|]. destruct H1 as [(d & -> & Hd)| ->].
    + right. apply N.eqb_eq in Hd as <-. reflexivity.
    + now left.
  - intros (w & [c v Hc Hv] & H). exists (c :: v ++ s'). split.
    + destruct H as [->| ->]; [now right|]. left. exists 46%N. split; reflexivity.
    + exists (v ++ s'). split; [exists c; now split|]. apply iter_chr. now exists v.
Qed.

Lemma seg_shorter s s' : mt re_seg s s' -> (len s' < len s)%nat.
Proof.
  intros H. apply mt_seg in H as (w & [c v Hc Hv] & [->| ->]); cbn; rewrite app_length; lia.
Qed.

Lemma iter_trans R s1 s2 s3 : iter R s1 s2 -> iter R s2 s3 -> iter R s1 s3.
Proof. induction 1 as [|s s1 s2 H1 Hl _ IH]; [auto|]. intros K. econstructor; [eassumption|assumption|auto]. Qed.

Lemma iter_seg s s' : iter (mt re_seg) s s' -> forall u, dotted u -> exists w, s = w ++ s' /\ dotted (u ++ w).
Proof.
  induction 1 as [s|s s1 s2 H1 _ _ IH]; intros u Hu.
  - exists []. rewrite app_nil_r. now split.
  - apply mt_seg in H1 as (w & Hw & [->| ->]).
    + destruct (IH (u ++ w)) as (v & -> & Hv); [apply dotted_more; [assumption|now apply name_word]|].
      exists (w ++ v). rewrite <- app_assoc in *. now split.
    + destruct (IH (u ++ 46%N :: w)) as (v & -> & Hv); [now apply dotted_snoc|].
      exists (46%N :: w ++ v). rewrite <- app_assoc in Hv. split; [cbn; now rewrite <- app_assoc|exact Hv].
Qed.

Lemma plus_seg s s' : mt (RPlus re_seg) s s' <-> exists w, s = w ++ s' /\ dotted w.
Proof.
  unfold RPlus. change (mt (RSeq re_seg (RStar re_seg)) s s') with
    (exists s1, mt re_seg s s1 /\ iter (mt re_seg) s1 s'). split.
  - intros (s1 & H1 & H2). apply mt_seg in H1 as (w & Hw & [->| ->]).
    + destruct (iter_seg _ _ H2 w) as (v & -> & Hv); [now constructor|].
      exists (w ++ v). rewrite <- app_assoc. now split.
    + destruct (iter_seg _ _ H2 (46%N :: w)) as (v & -> & Hv); [now constructor|].
      exists (46%N :: w ++ v). split; [cbn; now rewrite <- app_assoc|exact Hv].
  - intros (w & -> & H). revert s'. induction H as [w Hw|w Hw|u w _ IH Hw]; intros s'.
    + exists s'. split; [apply mt_seg; exists w; split; [assumption|now left]|constructor].
    + exists s'. split; [apply mt_seg; exists w; split; [assumption|now right]|constructor].
    + rewrite <- app_assoc. cbn [app]. destruct (IH (46%N :: w ++ s')) as (s1 & H1 & H2).
      exists s1. split; [assumption|]. eapply iter_trans; [exact H2|].
      assert (K : mt re_seg (46%N :: w ++ s') s') by (apply mt_seg; exists w; split; [assumption|now right]).
      econstructor; [exact K|now apply seg_shorter|constructor].
Qed.

Lemma mt_ralts l s s' : mt (ralts l) s s' <-> exists r, In r l /\ mt r s s'.
Proof.
  induction l as [|r l IH].
  - cbn. split; [intros [_ H]; destruct (H s); reflexivity|intros (r & [] & _)].
  - destruct l as [|r2 l].
    + cbn. split; [intros H; exists r; auto|intros (x & [<-|[]] & H); assumption].
    + change (mt (ralts (r :: r2 :: l)) s s') with (mt r s s' \/ mt (ralts (r2 :: l)) s s'). rewrite IH. split.
      * intros [H|(x & Hx & H)]; [exists r; split; [now left|assumption]|exists x; split; [now right|assumption]].
      * intros (x & [<-|Hx] & H); [now left|right; exists x; now split].
Qed.

Definition re_keyword : regex :=
  RSeq (ralts (map rstr keywords)) (RAlt REnd (RChr (fun c => negb (is_word c)))).

Lemma mt_keyword s : (exists t, mt re_keyword s t) <-> at_keyword s.
Proof.
  unfold re_keyword, at_keyword.
  change (exists t, mt (RSeq (ralts (map rstr keywords)) (RAlt REnd (RChr (fun c => negb (is_word c))))) s t) with
    (exists t s1, mt (ralts (map rstr keywords)) s s1 /\
      ((s1 = t /\ (s1 = [] \/ s1 = [10%N])) \/ (exists c, s1 = c :: t /\ negb (is_word c) = true))). split.
  - intros (t & s1 & H1 & H2). apply mt_ralts in H1 as (r & Hr & Hm). apply in_map_iff in Hr as (kw & <- & Hkw).
    apply mt_str in Hm. exists kw, s1. split; [assumption|]. split; [assumption|].
    destruct H2 as [[_ [->| ->]]|(c & -> & Hc)]; [exact I|reflexivity|now apply negb_true_iff].
  - intros (kw & r & Hkw & -> & Hr).
    assert (K : mt (ralts (map rstr keywords)) (kw ++ r) r).
    { apply mt_ralts. exists (rstr kw). split; [now apply in_map|now apply mt_str]. }
    destruct r as [|c r].
    + exists [], []. split; [assumption|]. left. split; [reflexivity|now left].
    + exists r, (c :: r). split; [assumption|]. right. exists c. split; [reflexivity|now apply negb_true_iff].
Qed.

Lemma describes_functor : describes re_functor KFunctor.
Proof.
  intros s s'.
  change (mt re_functor s s') with
    (exists s1, ((exists c, s = c :: s1 /\ (126 =? c)%N = true) \/ s = s1) /\
     exists s2, (s1 = s2 /\ forall t, ~ mt re_keyword s1 t) /\ mt (RPlus re_seg) s2 s').
  assert (K : forall s1, (forall t, ~ mt re_keyword s1 t) <-> ~ at_keyword s1).
  { intros s1. rewrite <- mt_keyword. split; [intros H (t & Ht); exact (H t Ht)|intros H t Ht; apply H; now exists t]. }
  split.
  - intros (s1 & H1 & s2 & [<- H2] & H3). apply K in H2. apply plus_seg in H3 as (w & -> & Hw).
    destruct H1 as [(c & -> & Hc)| ->].
    + apply N.eqb_eq in Hc as <-. exists (126%N :: w). split; [reflexivity|]. now constructor.
    + exists w. split; [reflexivity|]. now constructor.
  - intros (w & -> & H). inversion H as [| | |v ? A B|v ? A B| | | | |? t ? A]; subst.
    + exists (w ++ s'). split; [now right|]. exists (w ++ s'). split; [split; [reflexivity|now apply K]|].
      apply plus_seg. now exists w.
    + exists (v ++ s'). split; [left; exists 126%N; split; reflexivity|].
      exists (v ++ s'). split; [split; [reflexivity|now apply K]|]. apply plus_seg. now exists v.
    + apply in_text in A. discriminate.
Qed.

(** ** Numbers *)

Definition re_mantissa : regex :=
  RAlt (RSeq (RStar (RChr is_digit)) (RSeq (RCh 46) (RPlus (RChr is_digit)))) (RPlus (RChr is_digit)).
Definition re_exp : regex :=
  RSeq (RChr (fun c => (c =? 101) || (c =? 69))%N)
       (RSeq (ROpt (RChr (fun c => (c =? 43) || (c =? 45))%N)) (RPlus (RChr is_digit))).

Lemma mt_mantissa s s' : mt re_mantissa s s' <-> exists w, s = w ++ s' /\ mantissa w.
Proof.
  change (mt re_mantissa s s') with
    ((exists s1, iter (mt (RChr is_digit)) s s1 /\ exists s2, (exists c, s1 = c :: s2 /\ (46 =? c)%N = true) /\
       mt (RPlus (RChr is_digit)) s2 s') \/ mt (RPlus (RChr is_digit)) s s'). split.
  - intros [(s1 & H1 & s2 & (c & -> & Hc) & H2)|H].
    + apply N.eqb_eq in Hc as <-. apply iter_chr in H1 as (d & -> & Hd).
      apply plus_chr in H2 as (e & -> & He & Hd'). exists (d ++ 46%N :: e).
      rewrite <- app_assoc. split; [reflexivity|now constructor].
    + apply plus_chr in H as (d & -> & Hn & Hd). exists d. split; [reflexivity|now constructor].
  - intros (w & -> & [d Hn Hd|d e Hd Hn He]).
    + right. apply plus_chr. now exists d.
    + left. exists (46%N :: e ++ s'). rewrite <- app_assoc. split; [apply iter_chr; now exists d|].
      exists (e ++ s'). split; [exists 46%N; split; reflexivity|]. apply plus_chr. now exists e.
Qed.

Lemma mt_exp s s' : mt (ROpt re_exp) s s' <-> exists w, s = w ++ s' /\ exponent w.
Proof.
  change (mt (ROpt re_exp) s s') with
    ((exists s1, (exists c, s = c :: s1 /\ ((c =? 101) || (c =? 69))%N = true) /\
      exists s2, ((exists c, s1 = c :: s2 /\ ((c =? 43) || (c =? 45))%N = true) \/ s1 = s2) /\
        mt (RPlus (RChr is_digit)) s2 s') \/ s = s'). split.
  - intros [(s1 & (c & -> & Hc) & s2 & H & Hd)| ->].
    + apply plus_chr in Hd as (d & -> & Hn & Hd).
      assert (Hc' : In c [101; 69]%N).
      { apply orb_prop in Hc as [Hc|Hc]; apply N.eqb_eq in Hc as ->; cbn; auto. }
      destruct H as [(x & -> & Hx)| ->].
      * exists (c :: [x] ++ d). split; [reflexivity|]. constructor; [assumption| |assumption|assumption].
        apply orb_prop in Hx as [Hx|Hx]; apply N.eqb_eq in Hx as ->; cbn; auto.
      * exists (c :: [] ++ d). split; [reflexivity|]. constructor; [assumption| |assumption|assumption]. cbn; auto.
    + exists []. split; [reflexivity|constructor].
  - intros (w & -> & [|c sign d Hc Hs Hn Hd]); [now right|]. left.
    exists ((sign ++ d) ++ s'). split.
    + exists c. split; [reflexivity|]. cbn in Hc. destruct Hc as [<-|[<-|[]]]; reflexivity.
    + exists (d ++ s'). split; [|apply plus_chr; now exists d].
      cbn in Hs. destruct Hs as [<-|[<-|[<-|[]]]]; [now right| |]; left.
      * exists 43%N. split; reflexivity.
      * exists 45%N. split; reflexivity.
Qed.

Lemma describes_numeric : describes re_numeric KNumeric.
Proof.
  intros s s'. change (mt re_numeric s s') with (exists s1, mt re_mantissa s s1 /\ mt (ROpt re_exp) s1 s'). split.
  - intros (s1 & H1 & H2). apply mt_mantissa in H1 as (m & -> & Hm). apply mt_exp in H2 as (e & -> & He).
    exists (m ++ e). rewrite <- app_assoc. split; [reflexivity|now constructor].
  - intros (w & -> & H). inversion H as [| | | | |m e ? A B| | | |? t ? A]; subst.
    + exists (e ++ s'). rewrite <- app_assoc. split; [apply mt_mantissa; now exists m|apply mt_exp; now exists e].
    + apply in_text in A. discriminate.
Qed.

(** ** Variables *)

Lemma describes_variable : describes re_variable KVariable.
Proof.
  intros s s'.
  change (mt re_variable s s') with
    ((exists s1, iter (mt (RCh 95)) s s1 /\ exists s2, (exists c, s1 = c :: s2 /\ is_upper c = true) /\
       iter (mt (RChr is_word)) s2 s') \/ mt (RPlus (RCh 95)) s s'). split.
  - intros [(s1 & H1 & s2 & (c & -> & Hc) & H2)|H].
    + apply iter_chr in H1 as (u & -> & Hu). apply iter_chr in H2 as (w & -> & Hw).
      exists (u ++ c :: w). rewrite <- app_assoc. split; [reflexivity|now constructor].
    + apply plus_chr in H as (u & -> & Hn & Hu). exists u. split; [reflexivity|now apply sh_anonymous].
  - intros (w & -> & H). inversion H as [| | | | | |u c v ? A B C|u ? A B| |? t ? A]; subst.
    + left. rewrite <- app_assoc. exists (c :: v ++ s'). split; [apply iter_chr; now exists u|].
      exists (v ++ s'). split; [exists c; now split|]. apply iter_chr. now exists v.
    + right. apply plus_chr. now exists w.
    + apply in_text in A. discriminate.
Qed.

(** ** Strings *)

Definition re_schar : regex :=
  RAlt (RChr (fun c => negb ((c =? 92) || (c =? 34)))%N) (RSeq (RCh 92) (RChr not_nl)).

Lemma mt_schar s s' : mt re_schar s s' <->
  (exists c, s = c :: s' /\ c <> 92%N /\ c <> 34%N) \/ (exists c, s = 92%N :: c :: s' /\ c <> 10%N).
Proof.
  change (mt re_schar s s') with
    ((exists c, s = c :: s' /\ negb ((c =? 92) || (c =? 34))%N = true) \/
     (exists s1, (exists c, s = c :: s1 /\ (92 =? c)%N = true) /\ exists c, s1 = c :: s' /\ not_nl c = true)). split.
  - intros [(c & -> & Hc)|(s1 & (x & -> & Hx) & c & -> & Hc)].
    + left. exists c. split; [reflexivity|]. apply negb_true_iff, orb_false_elim in Hc as [A B].
      split; now apply N.eqb_neq.
    + right. apply N.eqb_eq in Hx as <-. exists c. split; [reflexivity|].
      now apply negb_true_iff, N.eqb_neq in Hc.
  - intros [(c & -> & A & B)|(c & -> & A)].
    + left. exists c. split; [reflexivity|]. apply negb_true_iff, orb_false_intro; now apply N.eqb_neq.
    + right. exists (c :: s'). split; [exists 92%N; split; reflexivity|]. exists c. split; [reflexivity|].
      now apply negb_true_iff, N.eqb_neq.
Qed.

Lemma iter_schar s s' : iter (mt re_schar) s s' <-> exists b, s = b ++ s' /\ string_body b.
Proof.
  split.
  - induction 1 as [s|s s1 s2 H1 _ _ (b & -> & Hb)]; [exists []; split; [reflexivity|constructor]|].
    apply mt_schar in H1 as [(c & -> & A & B)|(c & -> & A)].
    + exists (c :: b). split; [reflexivity|now constructor].
    + exists (92%N :: c :: b). split; [reflexivity|now constructor].
  - intros (b & -> & H). induction H as [|c b A B _ IH|c b A _ IH]; [constructor| |]; cbn [app].
    + econstructor; [apply mt_schar; left; exists c; split; [reflexivity|now split]|cbn; lia|exact IH].
    + econstructor; [apply mt_schar; right; exists c; split; [reflexivity|assumption]|cbn; lia|exact IH].
Qed.

Lemma describes_string : describes re_string KString.
Proof.
  intros s s'.
  change (mt re_string s s') with
    (exists s1, (exists c, s = c :: s1 /\ (34 =? c)%N = true) /\ exists s2, iter (mt re_schar) s1 s2 /\
       exists c, s2 = c :: s' /\ (34 =? c)%N = true). split.
  - intros (s1 & (c & -> & Hc) & s2 & H & d & -> & Hd). apply N.eqb_eq in Hc as <-. apply N.eqb_eq in Hd as <-.
    apply iter_schar in H as (b & -> & Hb). exists (34%N :: b ++ [34%N]). split.
    + cbn. now rewrite <- app_assoc.
    + now constructor.
  - intros (w & -> & H). inversion H as [| | | | | | | |b ? A|? t ? A]; subst.
    + exists (b ++ 34%N :: s'). split; [exists 34%N; split; [cbn; now rewrite <- app_assoc|reflexivity]|].
      exists (34%N :: s'). split; [apply iter_schar; now exists b|]. exists 34%N. split; reflexivity.
    + apply in_text in A. discriminate.
Qed.

(** ** The table *)

Lemma tokens_described : Forall (fun '(k, r) => describes r k) tokens.
Proof.
  unfold tokens.
  repeat (apply Forall_cons; [|]); try apply Forall_nil;
    first [apply describes_space | apply describes_comment | apply describes_functor | apply describes_numeric
          |apply describes_variable | apply describes_string | apply describes_fixed; reflexivity].
Qed.

Lemma tokens_kinds : map fst tokens = kind_order.
Proof. reflexivity. Qed.

(** ** Longest matches *)

Definition longest (r : regex) : Prop :=
  forall s s' s2, re_match r s = Some s' -> mt r s s2 -> (len s' <= len s2)%nat.

Definition unique (r : regex) : Prop := forall s s1 s2, mt r s s1 -> mt r s s2 -> s1 = s2.

Lemma unique_longest r : unique r -> longest r.
Proof. intros H s s' s2 E M. apply match_some in E. rewrite (H _ _ _ E M). lia. Qed.

Lemma unique_str t : unique (rstr t).
Proof. intros s s1 s2 H1 H2. apply mt_str in H1, H2. rewrite H1 in H2. now apply app_inv_head in H2. Qed.

Lemma unique_seq a b : unique a -> unique b -> unique (RSeq a b).
Proof.
  intros Ha Hb s s1 s2 (t1 & A1 & B1) (t2 & A2 & B2). rewrite (Ha _ _ _ A1 A2) in B1. eapply Hb; eassumption.
Qed.

Lemma unique_chr p : unique (RChr p).
Proof. intros s s1 s2 (c & -> & _) (d & E & _). now injection E. Qed.

Lemma some_all r s k : (forall s', exists x, k s' = Some x) -> (exists s', mt r s s') -> exists x, rmatch r s k = Some x.
Proof.
  intros Hk (s' & H). destruct (rmatch r s k) as [x|] eqn:E; [now exists x|].
  pose proof (proj2 (rmatch_both r) _ _ E _ H) as K. destruct (Hk s') as (x & Hx). congruence.
Qed.

(** A fixed beginning, then as many characters as possible. *)
Lemma longest_seq_star a p : unique a -> longest (RSeq a (RStar (RChr p))).
Proof.
  intros Ha s s' s2 E (t & A & B). apply iter_chr in B as (w & -> & Hw).
  assert (K : rmatch (RSeq a (RStar (RChr p))) s Some = Some (drop p (w ++ s2))).
  { cbn [rmatch].
    assert (X : forall z, star (rmatch (RChr p)) Some (len z) z = Some (drop p z)).
    { intros z. apply (rstar_drop p z Some (drop p z)). reflexivity. }
    destruct (rmatch a s _) as [x|] eqn:Er.
    - apply (proj1 (rmatch_both a)) in Er as (t' & Ht & Ex). rewrite X in Ex. rewrite (Ha _ _ _ A Ht). congruence.
    - pose proof (proj2 (rmatch_both a) _ _ Er _ A) as Z. cbn beta in Z. rewrite X in Z. discriminate. }
  unfold re_match in E. rewrite E in K. injection K as ->. rewrite (drop_all _ _ _ Hw). apply drop_len.
Qed.

Lemma longest_space : longest (RPlus (RChr is_space)).
Proof. apply longest_seq_star, unique_chr. Qed.

Lemma longest_comment : longest (RSeq (RAlt (rlit "//") (rlit "#")) (RStar (RChr not_nl))).
Proof.
  apply longest_seq_star. intros s s1 s2 [H1|H1] [H2|H2]; apply mt_str in H1, H2; rewrite H1 in H2; try discriminate;
    now apply app_inv_head in H2.
Qed.

Lemma longest_string : longest re_string.
Proof.
  apply unique_longest. intros s s1 s2.
  change (mt re_string s s1) with
    (exists t, (exists c, s = c :: t /\ (34 =? c)%N = true) /\ exists u, iter (mt re_schar) t u /\
       exists c, u = c :: s1 /\ (34 =? c)%N = true).
  change (mt re_string s s2) with
    (exists t, (exists c, s = c :: t /\ (34 =? c)%N = true) /\ exists u, iter (mt re_schar) t u /\
       exists c, u = c :: s2 /\ (34 =? c)%N = true).
  intros (t & (c & -> & _) & u & H & x & -> & Hx) (t' & (c' & E & _) & u' & H' & x' & -> & Hx').
  injection E as -> <-. apply N.eqb_eq in Hx as <-. apply N.eqb_eq in Hx' as <-.
  remember (34%N :: s1) as a eqn:Ea. revert Ea. induction H as [t|t t1 t2 H1 Hl _ IH]; intros Ea.
  - subst t. inversion H' as [|? t1 ? H1 Hl _]; [congruence|]. subst.
    apply mt_schar in H1 as [(z & E & _ & Hz)|(z & E & _)]; injection E; intros; subst; congruence.
  - assert (K : mt re_schar t (34%N :: s2) -> False \/ True) by auto. clear K.
    inversion H' as [|? t1' ? H1' Hl' Hi]; subst.
    + apply mt_schar in H1 as [(z & E & _ & Hz)|(z & E & _)]; injection E; intros; subst; congruence.
    + assert (t1' = t1) as ->; [|now apply IH].
      apply mt_schar in H1 as [(z & -> & A & B)|(z & -> & A)];
      apply mt_schar in H1' as [(z' & E & A' & B')|(z' & E & A')]; injection E; intros; subst; congruence.
Qed.

(** *** Functors *)

(** As many segments as possible. *)
Fixpoint segs (n : nat) (s : pystr) : pystr :=
  match n with
  | O => s
  | S n' =>
      match s with
      | c :: t => if is_lower c then segs n' (drop is_word t)
                  else if (c =? 46)%N then
                    match t with
                    | d :: t' => if is_lower d then segs n' (drop is_word t') else s
                    | [] => s
                    end
                  else s
      | [] => s
      end
  end.

Lemma dot_not_lower : is_lower 46 = false. Proof. reflexivity. Qed.

Lemma seg_name_step c t k x :
  is_lower c = true -> k (drop is_word t) = Some x -> rmatch re_seg (c :: t) k = Some x.
Proof.
  intros Hc E. unfold re_seg, ROpt, RCh. cbn [rmatch].
  assert (N46 : (46 =? c)%N = false).
  { apply N.eqb_neq. intros <-. discriminate. }
  rewrite N46, Hc. apply (star_drop is_word k x); [lia|assumption].
Qed.

Lemma seg_dot_step c t k x :
  is_lower c = true -> k (drop is_word t) = Some x -> rmatch re_seg (46%N :: c :: t) k = Some x.
Proof.
  intros Hc E. unfold re_seg, ROpt, RCh. cbn [rmatch]. change (46 =? 46)%N with true. cbn iota.
  rewrite Hc. rewrite (star_drop is_word k x); [reflexivity|lia|assumption].
Qed.

Lemma seg_stop s k : (forall s', ~ mt re_seg s s') -> rmatch re_seg s k = None.
Proof.
  intros H. destruct (rmatch re_seg s k) as [x|] eqn:E; [|reflexivity].
  apply (proj1 (rmatch_both re_seg)) in E as (s' & Hs & _). destruct (H _ Hs).
Qed.

Lemma no_seg s : match s with
    | [] => True
    | c :: t => is_lower c = false /\ (c <> 46%N \/ match t with [] => True | d :: _ => is_lower d = false end)
    end -> forall s', ~ mt re_seg s s'.
Proof.
  intros H s' M. apply mt_seg in M as (w & [c v Hc Hv] & [->| ->]); cbn in H.
  - destruct H as [H _]. congruence.
  - destruct H as [_ [H|H]]; congruence.
Qed.

Lemma star_segs n : forall s, (len s <= n)%nat -> star (rmatch re_seg) Some n s = Some (segs n s).
Proof.
  induction n as [|n IH]; intros s Hn; [reflexivity|]. cbn [star segs].
  destruct s as [|c t]; [rewrite seg_stop; [reflexivity|now apply no_seg]|]. cbn in Hn.
  destruct (is_lower c) eqn:Hc.
  - erewrite seg_name_step; [reflexivity|assumption|]. cbn beta.
    replace (_ <? _)%nat with true by (symmetry; apply Nat.ltb_lt; cbn; pose proof (drop_len is_word t); lia).
    apply IH. pose proof (drop_len is_word t). lia.
  - destruct (N.eqb_spec c 46) as [->|Nc].
    + destruct t as [|d t]; [rewrite seg_stop; [reflexivity|apply no_seg; cbn; auto]|].
      destruct (is_lower d) eqn:Hd.
      * erewrite seg_dot_step; [reflexivity|assumption|]. cbn beta. cbn in Hn.
        replace (_ <? _)%nat with true by (symmetry; apply Nat.ltb_lt; cbn; pose proof (drop_len is_word t); lia).
        apply IH. pose proof (drop_len is_word t). lia.
      * rewrite seg_stop; [reflexivity|]. apply no_seg. split; [assumption|now right].
    + rewrite seg_stop; [reflexivity|]. apply no_seg. split; [assumption|now left].
Qed.

Lemma segs_more n : forall m s, (len s <= n)%nat -> (len s <= m)%nat -> segs n s = segs m s.
Proof.
  induction n as [|n IH]; intros m s Hn Hm.
  - destruct s; [destruct m; reflexivity|cbn in Hn; lia].
  - destruct m as [|m]; [destruct s; [reflexivity|cbn in Hm; lia]|]. cbn [segs].
    destruct s as [|c t]; [reflexivity|]. cbn in Hn, Hm.
    destruct (is_lower c); [apply IH; pose proof (drop_len is_word t); lia|].
    destruct (c =? 46)%N; [|reflexivity]. destruct t as [|d t]; [reflexivity|]. cbn in Hn, Hm.
    destruct (is_lower d); [apply IH; pose proof (drop_len is_word t); lia|reflexivity].
Qed.

Definition scan (s : pystr) : pystr := segs (len s) s.

Lemma scan_len s : (len (scan s) <= len s)%nat.
Proof.
  unfold scan. generalize (len s) at 1 as n. intros n. revert s.
  induction n as [|n IH]; intros s; [reflexivity|]. cbn [segs]. destruct s as [|c t]; [reflexivity|].
  destruct (is_lower c).
  - specialize (IH (drop is_word t)). pose proof (drop_len is_word t). cbn. lia.
  - destruct (c =? 46)%N; [|reflexivity]. destruct t as [|d t]; [reflexivity|]. destruct (is_lower d); [|reflexivity].
    specialize (IH (drop is_word t)). pose proof (drop_len is_word t). cbn. lia.
Qed.

Lemma scan_name c t : is_lower c = true -> scan (c :: t) = scan (drop is_word t).
Proof.
  intros H. unfold scan. cbn [segs List.length]. rewrite H. apply segs_more; [apply drop_len|lia].
Qed.

Lemma scan_dot c t : is_lower c = true -> scan (46%N :: c :: t) = scan (drop is_word t).
Proof.
  intros H. unfold scan. change (len (46%N :: c :: t)) with (S (len (c :: t))).
  assert (E : forall n, segs (S n) (46%N :: c :: t) = segs n (drop is_word t)).
  { intros n. cbn [segs]. rewrite dot_not_lower, H. reflexivity. }
  rewrite E. apply segs_more; [pose proof (drop_len is_word t); cbn; lia|lia].
Qed.

Lemma seg_scan s s1 : mt re_seg s s1 -> scan s = scan (drop is_word s1).
Proof.
  intros H. apply mt_seg in H as (w & [c v Hc Hv] & [->| ->]); cbn [app].
  - rewrite (scan_name _ _ Hc). now rewrite (drop_all _ _ _ Hv).
  - rewrite (scan_dot _ _ Hc). now rewrite (drop_all _ _ _ Hv).
Qed.

Lemma word_seg_scan s s1 : mt re_seg s s1 -> scan (drop is_word s) = scan (drop is_word s1).
Proof.
  intros H. pose proof (seg_scan _ _ H) as K.
  apply mt_seg in H as (w & [c v Hc Hv] & [->| ->]).
  - cbn [app drop]. rewrite (lower_word _ Hc). now rewrite (drop_all _ _ _ Hv).
  - rewrite (drop_stop is_word (46%N :: _)) by reflexivity. exact K.
Qed.

Lemma iter_scan s s1 : iter (mt re_seg) s s1 -> scan (drop is_word s) = scan (drop is_word s1).
Proof. induction 1 as [|s s1 s2 H _ _ IH]; [reflexivity|]. rewrite <- IH. now apply word_seg_scan. Qed.

Lemma scan_stuck s : (forall s', ~ mt re_seg s s') -> scan s = s.
Proof.
  intros H. unfold scan. destruct s as [|c t]; [reflexivity|]. cbn [segs List.length].
  assert (K : forall c t, is_lower c = true -> mt re_seg (c :: t) t).
  { intros d u Hd. apply mt_seg. exists [d]. split; [constructor; [assumption|reflexivity]|now left]. }
  assert (K' : forall c t, is_lower c = true -> mt re_seg (46%N :: c :: t) t).
  { intros d u Hd. apply mt_seg. exists [d]. split; [constructor; [assumption|reflexivity]|now right]. }
  destruct (is_lower c) eqn:Hc; [destruct (H t); now apply K|].
  destruct (N.eqb_spec c 46) as [->|]; [|reflexivity]. destruct t as [|d t]; [reflexivity|].
  destruct (is_lower d) eqn:Hd; [|reflexivity]. destruct (H t). now apply K'.
Qed.

Lemma plus_seg_scan s s2 : mt (RPlus re_seg) s s2 ->
  rmatch (RPlus re_seg) s Some = Some (scan s) /\ (len (scan s) <= len s2)%nat.
Proof.
  intros (s1 & H1 & H2). split.
  - unfold RPlus. change (rmatch (RSeq re_seg (RStar re_seg)) s Some) with
      (rmatch re_seg s (fun s' => star (rmatch re_seg) Some (len s') s')).
    pose proof H1 as H1'. apply mt_seg in H1' as (w & [c v Hc Hv] & [->| ->]); cbn [app].
    + rewrite (scan_name _ _ Hc). apply seg_name_step; [assumption|]. cbn beta. apply star_segs. lia.
    + rewrite (scan_dot _ _ Hc). apply seg_dot_step; [assumption|]. cbn beta. apply star_segs. lia.
  - rewrite (seg_scan _ _ H1), (iter_scan _ _ H2).
    pose proof (scan_len (drop is_word s2)). pose proof (drop_len is_word s2). lia.
Qed.

Lemma longest_functor : longest re_functor.
Proof.
  intros s s' s2 E H.
  change (mt re_functor s s2) with
    (exists s1, ((exists c, s = c :: s1 /\ (126 =? c)%N = true) \/ s = s1) /\
     exists s3, (s1 = s3 /\ forall t, ~ mt re_keyword s1 t) /\ mt (RPlus re_seg) s3 s2) in H.
  destruct H as (s1 & H1 & s3 & [<- Hk] & H3).
  destruct (plus_seg_scan _ _ H3) as [Es Hl].
  assert (Kw : forall k, rmatch (RNot re_keyword) s1 k = k s1).
  { intros k. cbn [rmatch]. destruct (rmatch re_keyword s1 Some) as [y|] eqn:Ek; [|reflexivity].
    apply match_some in Ek. destruct (Hk _ Ek). }
  unfold re_match in E.
  change (rmatch re_functor s Some) with
    (rmatch (ROpt (RCh 126)) s (fun s' => rmatch (RNot re_keyword) s' (fun s' => rmatch (RPlus re_seg) s' Some))) in E.
  destruct H1 as [(c & -> & Hc)| ->].
  - unfold ROpt, RCh in E. cbn [rmatch] in E. rewrite Hc in E.
    change (match rmatch (RNot re_keyword) s1 (fun s' => rmatch (RPlus re_seg) s' Some) with
            | Some x => Some x
            | None => rmatch (RNot re_keyword) (c :: s1) (fun s' => rmatch (RPlus re_seg) s' Some) end = Some s') in E.
    rewrite Kw, Es in E. injection E as <-. assumption.
  - assert (Hh : match s1 with c :: _ => (126 =? c)%N = false | [] => True end).
    { destruct s1 as [|c t]; [exact I|]. apply N.eqb_neq. intros <-.
      apply plus_seg in H3 as (w & E3 & Hw).
      assert (G : forall w, dotted w -> exists c v, w = c :: v /\ c <> 126%N).
      { clear. induction 1 as [w [c v Hc _]|w _|u w _ (c & v & -> & Hc) _].
        - exists c, v. split; [reflexivity|]. intros ->. discriminate.
        - exists 46%N, w. split; [reflexivity|lia].
        - exists c, (v ++ 46%N :: w). split; [reflexivity|assumption]. }
      destruct (G w Hw) as (c & v & -> & Hc). injection E3. congruence. }
    unfold ROpt, RCh in E. cbn [rmatch] in E. destruct s1 as [|c t]; [|rewrite Hh in E];
    (change (rmatch (RNot re_keyword) s1 (fun s' => rmatch (RPlus re_seg) s' Some) = Some s') in E || idtac).
    + change (rmatch (RNot re_keyword) [] (fun s' => rmatch (RPlus re_seg) s' Some) = Some s') in E.
      rewrite Kw, Es in E. injection E as <-. assumption.
    + change (rmatch (RNot re_keyword) (c :: t) (fun s' => rmatch (RPlus re_seg) s' Some) = Some s') in E.
      rewrite Kw, Es in E. injection E as <-. assumption.
Qed.
