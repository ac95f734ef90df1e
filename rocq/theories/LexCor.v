(** The lexer cuts every source as LexSpec says, continued. *)
From Verif Require Import Base Names Lex LexSpec RegexFacts LexFacts.

Local Notation len := (@List.length N).

(** ** Numbers *)

Definition head_digit (s : pystr) : bool := match s with c :: _ => is_digit c | [] => false end.

Definition exp_scan (s : pystr) : pystr :=
  match s with
  | c :: t =>
      if ((c =? 101) || (c =? 69))%N then
        let u := match t with d :: t' => if ((d =? 43) || (d =? 45))%N then t' else t | [] => t end in
        if head_digit u then drop is_digit u else s
      else s
  | [] => s
  end.

Definition mant_scan (s : pystr) : pystr :=
  match drop is_digit s with
  | 46%N :: t => if head_digit t then drop is_digit t else drop is_digit s
  | _ => drop is_digit s
  end.

Lemma plus_digit s k x :
  head_digit s = true -> k (drop is_digit s) = Some x -> rmatch (RPlus (RChr is_digit)) s k = Some x.
Proof.
  intros H E. destruct s as [|c s]; [discriminate|]. cbn in H, E. rewrite H in E.
  unfold RPlus. cbn [rmatch]. rewrite H. now apply star_drop.
Qed.

Lemma plus_no_digit s k : head_digit s = false -> rmatch (RPlus (RChr is_digit)) s k = None.
Proof. intros H. destruct s as [|c s]; [reflexivity|]. cbn in H. unfold RPlus. cbn [rmatch]. now rewrite H. Qed.

Lemma plus_digit_some s : rmatch (RPlus (RChr is_digit)) s Some = if head_digit s then Some (drop is_digit s) else None.
Proof. destruct (head_digit s) eqn:E; [now apply plus_digit|now apply plus_no_digit]. Qed.

Lemma sign_not_digit d : ((d =? 43) || (d =? 45))%N = true -> is_digit d = false.
Proof. intros H. apply orb_prop in H as [H|H]; apply N.eqb_eq in H as ->; reflexivity. Qed.

Lemma exp_scan_match s : rmatch (ROpt re_exp) s Some = Some (exp_scan s).
Proof.
  change (rmatch (ROpt re_exp) s Some) with
    (match (match s with
            | c :: t => if ((c =? 101) || (c =? 69))%N then
                 match (match t with d :: t' => if ((d =? 43) || (d =? 45))%N then rmatch (RPlus (RChr is_digit)) t' Some else None
                        | [] => None end) with
                 | Some x => Some x
                 | None => rmatch (RPlus (RChr is_digit)) t Some end
                 else None
            | [] => None end) with
     | Some x => Some x | None => Some s end).
  unfold exp_scan. destruct s as [|c t]; [reflexivity|].
  destruct ((c =? 101) || (c =? 69))%N; [|reflexivity].
  destruct t as [|d t]; [reflexivity|]. destruct ((d =? 43) || (d =? 45))%N eqn:Ed.
  - rewrite !plus_digit_some. destruct (head_digit t); [reflexivity|].
    replace (head_digit (d :: t)) with false by (symmetry; apply (sign_not_digit _ Ed)). reflexivity.
  - rewrite plus_digit_some. destruct (head_digit (d :: t)); reflexivity.
Qed.

Lemma exp_scan_len s : (len (exp_scan s) <= len s)%nat.
Proof.
  unfold exp_scan. destruct s as [|c t]; [reflexivity|]. destruct (_ || _); [|reflexivity]. cbv zeta.
  set (u := match t with [] => _ | _ => _ end).
  assert (len u <= len t)%nat.
  { unfold u. destruct t as [|d t]; [reflexivity|]. destruct (_ || _); cbn; lia. }
  destruct (head_digit u); [|reflexivity]. pose proof (drop_len is_digit u). cbn. lia.
Qed.

Lemma exp_scan_best s s2 : mt (ROpt re_exp) s s2 -> (len (exp_scan s) <= len s2)%nat.
Proof.
  intros H. apply mt_exp in H as (w & -> & [|c sign d Hc Hs Hn Hd]); [apply exp_scan_len|].
  assert (Ec : ((c =? 101) || (c =? 69))%N = true) by (cbn in Hc; destruct Hc as [<-|[<-|[]]]; reflexivity).
  assert (Eh : head_digit (d ++ s2) = true).
  { destruct d as [|x d]; [congruence|]. apply all_cons in Hd as [Hx _]. exact Hx. }
  assert (El : (len (drop is_digit (d ++ s2)) <= len s2)%nat) by (rewrite (drop_all _ _ _ Hd); apply drop_len).
  cbn [app]. rewrite <- app_assoc. cbn in Hs. unfold exp_scan. rewrite Ec. cbv zeta.
  destruct Hs as [<-|[<-|[<-|[]]]]; cbn [app].
  - destruct (d ++ s2) as [|x t] eqn:E; [discriminate|].
    assert (Ex : ((x =? 43) || (x =? 45))%N = false).
    { destruct ((x =? 43) || (x =? 45))%N eqn:G; [|reflexivity]. apply sign_not_digit in G. cbn in Eh. congruence. }
    rewrite Ex, Eh. assumption.
  - change ((43 =? 43) || (43 =? 45))%N with true. cbn iota. rewrite Eh. assumption.
  - change ((45 =? 43) || (45 =? 45))%N with true. cbn iota. rewrite Eh. assumption.
Qed.

Lemma mant_scan_match s k s1 : mt re_mantissa s s1 -> (forall s', exists x, k s' = Some x) ->
  rmatch re_mantissa s k = k (mant_scan s).
Proof.
  intros H Hk.
  set (k' := fun s' : pystr => match s' with c :: t => if (46 =? c)%N then rmatch (RPlus (RChr is_digit)) t k else None | [] => None end).
  change (rmatch re_mantissa s k) with
    (match rmatch (RStar (RChr is_digit)) s k' with
     | Some x => Some x | None => rmatch (RPlus (RChr is_digit)) s k end).
  assert (K : rmatch (RStar (RChr is_digit)) s k' = k' (drop is_digit s)).
  { destruct (k' (drop is_digit s)) as [x|] eqn:E.
    - now apply rstar_drop.
    - apply rstar_drop_none; [assumption|]. intros c t Hc. unfold k'.
      destruct (N.eqb_spec 46 c) as [<-|]; [discriminate Hc|reflexivity]. }
  rewrite K. unfold k', mant_scan. destruct (Hk (drop is_digit s)) as (x & Hx).
  assert (F : (forall t, drop is_digit s = 46%N :: t -> head_digit t = false) ->
              rmatch (RPlus (RChr is_digit)) s k = k (drop is_digit s)).
  { intros Hd. rewrite Hx. apply plus_digit; [|assumption].
    apply mt_mantissa in H as (w & Ew & Hm). revert Ew. destruct Hm as [d Hn Ha|d e Ha Hn He]; intros ->.
    - destruct d as [|c d]; [congruence|]. now apply all_cons in Ha as [Hc _].
    - exfalso.
      specialize (Hd (e ++ s1)). rewrite <- app_assoc, (drop_all _ _ _ Ha) in Hd. cbn [app] in Hd.
      specialize (Hd eq_refl). destruct e as [|c e]; [congruence|]. apply all_cons in He as [Hc _].
      cbn in Hd. congruence. }
  destruct (drop is_digit s) as [|c t] eqn:Ed; [apply F; discriminate|].
  destruct (N.eqb_spec 46 c) as [<-|Nc].
  - destruct (head_digit t) eqn:Et.
    + destruct (Hk (drop is_digit t)) as (y & Hy). rewrite (plus_digit _ _ _ Et Hy). now rewrite Hy.
    + rewrite plus_no_digit by assumption. apply F. intros t' E. injection E as <-. assumption.
  - rewrite F; [|intros t' E; congruence].
    destruct c as [|c]; [reflexivity|]. do 6 (destruct c as [c|c|]; try reflexivity). congruence.
Qed.

Lemma mant_scan_cases s : (exists t, drop is_digit s = 46%N :: t /\ head_digit t = true /\ mant_scan s = drop is_digit t)
  \/ mant_scan s = drop is_digit s.
Proof.
  unfold mant_scan. destruct (drop is_digit s) as [|c t]; [now right|].
  destruct (N.eqb_spec c 46) as [->|Nc].
  - destruct (head_digit t) eqn:E; [left; exists t; auto|now right].
  - right. destruct c as [|c]; [reflexivity|]. do 6 (destruct c as [c|c|]; try reflexivity). congruence.
Qed.

(** A shorter mantissa is followed by a digit or a dot. *)
Lemma mant_scan_best s s1 : mt re_mantissa s s1 ->
  s1 = mant_scan s \/
  ((len (mant_scan s) < len s1)%nat /\ match s1 with c :: _ => is_digit c = true \/ c = 46%N | [] => False end).
Proof.
  intros H. apply mt_mantissa in H as (w & -> & Hm).
  assert (Z : forall p (t : pystr), drop p t = t \/ ((len (drop p t) < len t)%nat /\ match t with c :: _ => p c = true | [] => False end)).
  { intros p [|c t]; [now left|]. cbn. destruct (p c) eqn:E; [|now left]. right. split; [|reflexivity].
    pose proof (drop_len p t). lia. }
  destruct Hm as [d Hn Hd|d e Hd Hn He].
  - destruct (mant_scan_cases (d ++ s1)) as [(t & E & Ht & ->)|E].
    + rewrite (drop_all _ _ _ Hd) in E. right.
      assert (len (drop is_digit t) < len s1)%nat.
      { pose proof (drop_len is_digit t). pose proof (drop_len is_digit s1) as K. rewrite E in K. cbn in K. lia. }
      split; [assumption|]. destruct (Z is_digit s1) as [F|[_ F]].
      * rewrite F in E. rewrite E. now right.
      * destruct s1; [contradiction|now left].
    + rewrite E, (drop_all _ _ _ Hd). destruct (Z is_digit s1) as [F|[F G]]; [now left|right].
      split; [assumption|]. destruct s1; [contradiction|now left].
  - rewrite <- app_assoc. cbn [app].
    assert (E : mant_scan (d ++ 46%N :: e ++ s1) = drop is_digit s1).
    { unfold mant_scan. rewrite (drop_all _ _ _ Hd). cbn [drop]. change (is_digit 46) with false. cbn iota.
      destruct e as [|c e]; [congruence|]. apply all_cons in He as [Hc He]. cbn [app head_digit]. rewrite Hc.
      cbn [drop]. rewrite Hc. now rewrite (drop_all _ _ _ He). }
    rewrite E. destruct (Z is_digit s1) as [F|[F G]]; [now left|right].
    split; [assumption|]. destruct s1; [contradiction|now left].
Qed.

Lemma numeric_scan s s2 : mt re_numeric s s2 ->
  re_match re_numeric s = Some (exp_scan (mant_scan s)) /\ (len (exp_scan (mant_scan s)) <= len s2)%nat.
Proof.
  change (mt re_numeric s s2) with (exists s1, mt re_mantissa s s1 /\ mt (ROpt re_exp) s1 s2).
  intros (s1 & H1 & H2). split.
  - change (re_match re_numeric s) with (rmatch re_mantissa s (fun s' => rmatch (ROpt re_exp) s' Some)).
    rewrite (mant_scan_match s _ s1 H1); [apply exp_scan_match|]. intros s'. rewrite exp_scan_match. now eexists.
  - destruct (mant_scan_best _ _ H1) as [->|[Hl Hh]]; [now apply exp_scan_best|].
    assert (s2 = s1) as ->.
    { apply mt_exp in H2 as (w & Ew & He). revert Ew. destruct He as [|c sign d Hc _ _ _]; intros ->; [reflexivity|].
      exfalso. cbn in Hh, Hc. destruct Hc as [<-|[<-|[]]]; destruct Hh as [Hh|Hh]; discriminate Hh. }
    pose proof (exp_scan_len (mant_scan s)). lia.
Qed.

Lemma longest_numeric : longest re_numeric.
Proof.
  intros s s' s2 E H. destruct (numeric_scan _ _ H) as [E' Hl]. rewrite E in E'. injection E' as ->. assumption.
Qed.

(** ** Variables *)

Definition var_scan (s : pystr) : pystr :=
  match drop (N.eqb 95) s with
  | c :: t => if is_upper c then drop is_word t else c :: t
  | [] => []
  end.

Lemma variable_scan s s2 : mt re_variable s s2 ->
  re_match re_variable s = Some (var_scan s) /\ (len (var_scan s) <= len s2)%nat.
Proof.
  intros H.
  set (k' := fun s' : pystr => match s' with c :: t => if is_upper c then star (rmatch (RChr is_word)) Some (len t) t else None | [] => None end).
  change (re_match re_variable s) with
    (match rmatch (RStar (RCh 95)) s k' with Some x => Some x | None => rmatch (RPlus (RCh 95)) s Some end).
  assert (K : rmatch (RStar (RCh 95)) s k' = k' (drop (N.eqb 95) s)).
  { unfold RCh. destruct (k' (drop (N.eqb 95) s)) as [x|] eqn:E.
    - now apply rstar_drop.
    - apply rstar_drop_none; [assumption|]. intros c t Hc. apply N.eqb_eq in Hc as <-. reflexivity. }
  rewrite K. unfold k', var_scan.
  assert (W : forall t, star (rmatch (RChr is_word)) Some (len t) t = Some (drop is_word t)).
  { intros t. now apply star_drop. }
  change (mt re_variable s s2) with
    ((exists s1, iter (mt (RCh 95)) s s1 /\ exists s3, (exists c, s1 = c :: s3 /\ is_upper c = true) /\
       iter (mt (RChr is_word)) s3 s2) \/ mt (RPlus (RCh 95)) s s2) in H.
  destruct H as [(s1 & H1 & s3 & (c & -> & Hc) & H3)|H].
  - apply iter_chr in H1 as (u & -> & Hu). apply iter_chr in H3 as (v & -> & Hv).
    rewrite (drop_all _ _ _ Hu).
    rewrite (drop_stop (N.eqb 95) (c :: v ++ s2)).
    2:{ unfold stops. apply N.eqb_neq. intros <-. discriminate Hc. }
    rewrite Hc, W. split; [reflexivity|]. rewrite (drop_all _ _ _ Hv). apply drop_len.
  - apply plus_chr in H as (u & -> & Hn & Hu). destruct u as [|x u]; [congruence|].
    apply all_cons in Hu as [Hx Hu]. rewrite (drop_all (N.eqb 95) (x :: u) s2) by (apply all_cons; now split).
    assert (P : rmatch (RPlus (RCh 95)) ((x :: u) ++ s2) Some = Some (drop (N.eqb 95) s2)).
    { unfold RPlus, RCh. cbn [app rmatch]. rewrite Hx. apply star_drop; [lia|]. now rewrite (drop_all _ _ _ Hu). }
    rewrite P. pose proof (drop_len (N.eqb 95) s2) as L.
    destruct (drop (N.eqb 95) s2) as [|c t]; [split; [reflexivity|exact L]|].
    destruct (is_upper c); [|split; [reflexivity|exact L]].
    rewrite W. split; [reflexivity|]. pose proof (drop_len is_word t). cbn in L. lia.
Qed.

Lemma longest_variable : longest re_variable.
Proof.
  intros s s' s2 E H. destruct (variable_scan _ _ H) as [E' Hl]. rewrite E in E'. injection E' as ->. assumption.
Qed.

Lemma tokens_longest : Forall (fun '(_, r) => longest r) tokens.
Proof.
  unfold tokens.
  repeat (apply Forall_cons; [|]); try apply Forall_nil;
    first [apply longest_space | apply longest_comment | apply longest_functor | apply longest_numeric
          |apply longest_variable | apply longest_string | apply unique_longest, unique_str].
Qed.

(** ** Choosing a token *)

Lemma first_token_some l s k s' : Forall (fun '(k, r) => describes r k /\ longest r) l ->
  first_token l s = Some (k, s') ->
  exists w, s = w ++ s' /\ shape k w s' /\
    (forall w' r', s = w' ++ r' -> shape k w' r' -> (len w' <= len w)%nat) /\
    exists before after, map fst l = before ++ k :: after /\ Forall (fun k' => absent k' s) before.
Proof.
  induction 1 as [|[k0 r] l [Hd Hl] _ IH]; intros E; [discriminate|]. cbn [first_token] in E.
  destruct (re_match r s) as [x|] eqn:Er.
  - injection E as -> ->. pose proof (match_some _ _ _ Er) as M. apply Hd in M as (w & -> & Hw).
    exists w. split; [reflexivity|]. split; [assumption|]. split.
    + intros w' r' E' H'. assert (M : mt r (w ++ s') r') by (apply Hd; exists w'; now split).
      pose proof (Hl _ _ _ Er M) as L. apply (f_equal len) in E'. rewrite !app_length in E'. lia.
    + exists [], (map fst l). split; [reflexivity|constructor].
  - destruct (IH E) as (w & E1 & E2 & E3 & before & after & E4 & E5). exists w.
    split; [assumption|]. split; [assumption|]. split; [assumption|].
    exists (k0 :: before), after. split; [cbn; now rewrite E4|]. constructor; [|assumption].
    intros w' r' E' H'. eapply match_none; [exact Er|]. apply Hd. exists w'. split; [exact E'|exact H'].
Qed.

Lemma first_token_none l s : Forall (fun '(k, r) => describes r k) l ->
  first_token l s = None -> Forall (fun k => absent k s) (map fst l).
Proof.
  induction 1 as [|[k0 r] l Hd _ IH]; intros E; [constructor|]. cbn [first_token] in E.
  destruct (re_match r s) as [x|] eqn:Er; [discriminate|]. cbn [map fst]. constructor; [|now apply IH].
  intros w' r' E' H'. eapply match_none; [exact Er|]. apply Hd. exists w'. split; [exact E'|exact H'].
Qed.

Lemma token_picks s k s' : first_token tokens s = Some (k, s') -> exists w, picks s k w s'.
Proof.
  intros E. apply first_token_some in E.
  - destruct E as (w & E1 & E2 & E3 & E4). exists w. unfold picks. rewrite tokens_kinds in E4. tauto.
  - pose proof tokens_described as D. pose proof tokens_longest as L.
    revert D L. generalize tokens as l. induction l as [|[k0 r] l IH]; intros D L; [constructor|].
    inversion D; inversion L; subst. constructor; [now split|]. now apply IH.
Qed.

Lemma token_illegal s : first_token tokens s = None -> illegal s.
Proof. intros E. apply first_token_none in E; [exact E|apply tokens_described]. Qed.

(** ** Comments *)

Lemma lazy_shortest p k : forall n s x, lazy (rmatch (RChr p)) k n s = Some x ->
  exists w s', s = w ++ s' /\ all p w /\ k s' = Some x /\
    forall w' s2, s = w' ++ s2 -> all p w' -> k s2 <> None -> (len w <= len w')%nat.
Proof.
  induction n as [|n IH]; intros s x E; cbn [lazy] in E; destruct (k s) as [y|] eqn:Ek.
  - injection E as ->. exists [], s. repeat split; [assumption|]. intros. cbn. lia.
  - discriminate.
  - injection E as ->. exists [], s. repeat split; [assumption|]. intros. cbn. lia.
  - cbn [rmatch] in E. destruct s as [|c s]; [discriminate|]. destruct (p c) eqn:Ec; [|discriminate].
    destruct (_ <? _)%nat; [|discriminate].
    destruct (IH _ _ E) as (w & s' & -> & Hw & Hk & Hmin). exists (c :: w), s'. split; [reflexivity|].
    split; [now apply all_cons|]. split; [assumption|].
    intros w' s2 E' Hw' Hk'. destruct w' as [|d w']; [cbn in E'; subst s2; congruence|].
    injection E' as -> E'. apply all_cons in Hw' as [_ Hw']. specialize (Hmin _ _ E' Hw' Hk'). cbn. lia.
Qed.

Lemma end_comment_some s s' : re_match re_end_comment s = Some s' -> exists w, ends_comment s w s'.
Proof.
  unfold re_match, re_end_comment. intros E.
  change (lazy (rmatch (RChr not_nl)) (fun t => re_match (rstr (s2p "*/")) t) (len s) s = Some s') in E.
  apply lazy_shortest in E as (u & t & -> & Hu & Ek & Hmin). apply re_match_str in Ek as ->.
  exists (u ++ s2p "*/"). split; [now rewrite <- app_assoc|]. split; [exists u; now split|].
  intros u' r' E' Hu'. rewrite app_length.
  assert (len u <= len u')%nat; [|cbn; lia].
  apply (Hmin u' (s2p "*/" ++ r') E' Hu'). rewrite (proj2 (re_match_str _ _ _) eq_refl). discriminate.
Qed.

Lemma end_comment_none s : re_match re_end_comment s = None -> forall w r, ~ ends_comment s w r.
Proof.
  intros E w r (-> & (u & -> & Hu) & _). apply (match_none _ _ E r).
  change (exists s1, iter (mt (RChr not_nl)) ((u ++ s2p "*/") ++ r) s1 /\ mt (rstr (s2p "*/")) s1 r).
  exists (s2p "*/" ++ r). split; [|now apply mt_str]. apply iter_chr. exists u.
  split; [now rewrite <- app_assoc|assumption].
Qed.

(** ** Lines *)

Lemma dotted_nonempty w : dotted w -> w <> [].
Proof.
  induction 1 as [w [c v _ _]|w _|u w _ IH _]; try discriminate. intros E.
  apply app_eq_nil in E as [E _]. contradiction.
Qed.

Lemma shape_nonempty k w r : shape k w r -> w <> [].
Proof.
  intros H. destruct H as [w r H1 H2|w r H|w r H|w r H1 H2|w r H1 H2|m e r H1 H2|u c w r H1 H2 H3|u r H1 H2|b r H
      |k t r H]; try discriminate; try assumption.
  - now apply dotted_nonempty.
  - destruct H1 as [d Hn _|d f _ _ _]; intros E; apply app_eq_nil in E as [E _]; [contradiction|].
    apply app_eq_nil in E as [_ E]. discriminate.
  - intros E. apply app_eq_nil in E as [_ E]. discriminate.
  - intros E.
    assert (X : Forall (fun '(_, t) => s2p t <> []) fixed_lexemes).
    { unfold fixed_lexemes. repeat (apply Forall_cons; [discriminate|]). apply Forall_nil. }
    rewrite Forall_forall in X. exact (X _ H E).
Qed.

Lemma upto_split (w r : pystr) : (len (w ++ r) - len r = len w)%nat.
Proof. rewrite app_length. lia. Qed.

Lemma lex_line_cut line n : forall col s b, (len s <= n)%nat ->
  exists l b', lex_line n line col s b = Ok (l, b') /\ cut line col s b l b'.
Proof.
  induction n as [|n IH]; intros col s b Hn.
  - destruct s; [|cbn in Hn; lia]. exists [], b. split; [reflexivity|constructor].
  - destruct s as [|c s0]; [exists [], b; split; [reflexivity|constructor]|].
    cbn [lex_line]. cbv zeta. set (s := c :: s0) in *.
    destruct b.
    + destruct (re_match re_end_comment s) as [s'|] eqn:E.
      * destruct (end_comment_some _ _ E) as (w & Hw).
        pose proof Hw as (Es & (u & Eu & _) & _).
        assert (len s' < len s)%nat by (rewrite Es, Eu, !app_length; cbn; lia).
        destruct (IH (col + (len s - len s'))%nat s' false) as (l & b' & El & Hl); [lia|].
        exists l, b'. split; [exact El|]. eapply cut_close; [exact Hw|].
        replace (len w) with (len s - len s')%nat by (rewrite Es; apply upto_split). exact Hl.
      * exists [], true. split; [reflexivity|]. apply cut_open; [discriminate|now apply end_comment_none].
    + destruct (re_match re_start_comment s) as [s'|] eqn:E.
      * apply re_match_str in E. assert (El' : (len s = 2 + len s')%nat) by (rewrite E; reflexivity).
        destruct (IH (col + (len s - len s'))%nat s' true) as (l & b' & El & Hl); [lia|].
        exists l, b'. split; [exact El|]. eapply cut_start; [exact E|].
        replace 2%nat with (len s - len s')%nat by lia. exact Hl.
      * assert (Hs : forall t, s <> s2p "/*" ++ t).
        { intros t Et. unfold re_start_comment, rlit in E. rewrite (proj2 (re_match_str _ _ _) Et) in E. discriminate. }
        destruct (first_token tokens s) as [[k s']|] eqn:Ef.
        -- destruct (token_picks _ _ _ Ef) as (w & Hw). pose proof Hw as (Es & Hsh & _).
           assert (Hw0 : (0 < len w)%nat).
           { apply shape_nonempty in Hsh. destruct w; [congruence|cbn; lia]. }
           assert (Lw : (len s - len s' = len w)%nat) by (rewrite Es; apply upto_split).
           assert (Ls : (len s = len w + len s')%nat) by (rewrite Es; apply app_length).
           destruct (IH (col + (len s - len s'))%nat s' false) as (l & b' & El & Hl); [lia|].
           rewrite El. cbn [rbind]. rewrite Lw in *.
           replace (firstn (len w) s) with w.
           2:{ rewrite Es, firstn_app, Nat.sub_diag, firstn_O, app_nil_r, firstn_all. reflexivity. }
           destruct (skipped k) eqn:Ek.
           ++ exists l, b'. split; [reflexivity|]. eapply cut_skip; [exact Hs|exact Hw| |exact Hl].
              destruct k; try discriminate Ek; auto.
           ++ eexists _, b'. split; [reflexivity|]. eapply cut_token; [exact Hs|exact Hw| | |exact Hl];
                intros ->; discriminate Ek.
        -- destruct (IH (S col) s0 false) as (l & b' & El & Hl); [unfold s in Hn; cbn in Hn; lia|].
           rewrite El. cbn [rbind]. exists (IBad c line col :: l), b'. split; [reflexivity|].
           apply cut_illegal; [exact Hs|now apply token_illegal|]. rewrite Nat.add_1_r. exact Hl.
Qed.

Lemma untab_expands s : expands s (untab s).
Proof.
  induction s as [|c s IH]; [constructor|]. cbn [untab]. destruct (N.eqb_spec c 9) as [->|Nc].
  - now apply ex_tab.
  - now apply ex_char.
Qed.

Lemma lex_lines_cut l : forall n b, exists items, lex_lines n l b = Ok items /\ cut_lines n l b items.
Proof.
  induction l as [|line l IH]; intros n b; [exists []; split; [reflexivity|constructor]|].
  cbn [lex_lines]. cbv zeta.
  destruct (lex_line_cut n (len (untab line)) 0 (untab line) b) as (x & b' & E & H); [lia|]. rewrite E. cbn [rbind].
  destruct (IH (S n) b') as (y & E' & H'). rewrite E'. exists (x ++ y). split; [reflexivity|].
  econstructor; [apply untab_expands|exact H|exact H'].
Qed.

(** ** The specification leaves no choice *)

Lemma split_eq (w r w' r' : pystr) : w ++ r = w' ++ r' -> len w = len w' -> w = w' /\ r = r'.
Proof.
  revert w'. induction w as [|c w IH]; intros [|c' w'] E L; try discriminate; [now split|].
  injection E as -> E. injection L as L. destruct (IH _ E L) as [-> ->]. now split.
Qed.

Lemma order_split (b1 b2 a1 a2 : list kind) k1 k2 (P : kind -> Prop) :
  b1 ++ k1 :: a1 = b2 ++ k2 :: a2 -> Forall P b1 -> Forall P b2 -> ~ P k1 -> ~ P k2 -> k1 = k2.
Proof.
  revert b2. induction b1 as [|x b1 IH]; intros [|y b2] E H1 H2 N1 N2; cbn in E; injection E; intros.
  - assumption.
  - subst. inversion H2; contradiction.
  - subst. inversion H1; contradiction.
  - subst. inversion H1; inversion H2; subst. eapply IH; eassumption.
Qed.

Lemma picks_unique s k w r k' w' r' : picks s k w r -> picks s k' w' r' -> k = k' /\ w = w' /\ r = r'.
Proof.
  intros (E & S & M & b & a & Eo & Fb) (E' & S' & M' & b' & a' & Eo' & Fb').
  assert (k = k') as <-.
  { rewrite Eo in Eo'. eapply order_split; [exact Eo'|exact Fb|exact Fb'| |]; intros A.
    - exact (A _ _ E S).
    - exact (A _ _ E' S'). }
  split; [reflexivity|]. apply split_eq; [congruence|].
  pose proof (M _ _ E' S'). pose proof (M' _ _ E S). lia.
Qed.

Lemma ends_unique s w r w' r' : ends_comment s w r -> ends_comment s w' r' -> w = w' /\ r = r'.
Proof.
  intros (E & (u & Eu & Hu) & M) (E' & (u' & Eu' & Hu') & M'). apply split_eq; [congruence|].
  assert (A : (len w <= len u' + 2)%nat) by (apply (M u' r'); [rewrite app_assoc, <- Eu'; exact E'|assumption]).
  assert (B : (len w' <= len u + 2)%nat) by (apply (M' u r); [rewrite app_assoc, <- Eu; exact E|assumption]).
  rewrite Eu, Eu' in *. rewrite !app_length in *. cbn in *. lia.
Qed.

Lemma picks_legal s k w r : picks s k w r -> ~ illegal s.
Proof.
  intros (E & S & _ & b & a & Eo & _) H. unfold illegal in H. rewrite Eo in H.
  apply Forall_app in H as [_ H]. inversion H as [|? ? A _]; subst. exact (A _ _ eq_refl S).
Qed.

Lemma cut_unique line col s b l b' : cut line col s b l b' -> forall l2 b2, cut line col s b l2 b2 -> l = l2 /\ b' = b2.
Proof.
  induction 1 as [col b|col s Hn Hno|col s w r l b He _ IH|col s r l b Hs _ IH|col s k w r l b Hs Hp Hk _ IH
                 |col s k w r l b Hs Hp Hk1 Hk2 _ IH|col c s l b Hs Hi _ IH]; intros l2 b2 H.
  - inversion H as [| |? ? w r ? ? (E & (u & Eu & _) & _)|? ? r ? ? E|? ? k w r ? ? _ (E & Sh & _)|? ? k w r ? ? _ (E & Sh & _)|];
      subst; try (now split); try congruence.
    + destruct u; discriminate.
    + apply shape_nonempty in Sh. destruct w; [congruence|discriminate].
    + apply shape_nonempty in Sh. destruct w; [congruence|discriminate].
  - inversion H as [| |? ? w r ? ? He Hc| | | |]; subst; [congruence|now split|]. destruct (Hno _ _ He).
  - inversion H as [|? ? ? Hno|? ? w' r' ? ? He' Hc| | | |]; subst.
    + destruct He as (E & (u & -> & _) & _). destruct u; discriminate.
    + destruct (Hno _ _ He).
    + destruct (ends_unique _ _ _ _ _ He He') as [-> ->]. now apply IH.
  - inversion H as [| | |? ? r' ? ? E Hc|? ? ? ? ? ? ? N|? ? ? ? ? ? ? N|? ? ? ? ? N]; subst; try discriminate.
    + apply (app_inv_head (s2p "/*")) in E. subst r'. now apply IH.
    + destruct (N r). reflexivity.
    + destruct (N r). reflexivity.
    + destruct (N r). assumption || (symmetry; assumption).
  - inversion H as [| | |? ? r' ? ? E Hc|? ? k' w' r' ? ? N Hp' Hk' Hc|? ? k' w' r' ? ? N Hp' Hk1' Hk2' Hc|? ? ? ? ? N Hi' Hc]; subst.
    + destruct Hp as (E & Sh & _). apply shape_nonempty in Sh. destruct w; [congruence|discriminate].
    + destruct (Hs r'). reflexivity.
    + destruct (picks_unique _ _ _ _ _ _ _ Hp Hp') as (-> & -> & ->). now apply IH.
    + destruct (picks_unique _ _ _ _ _ _ _ Hp Hp') as (-> & -> & ->). destruct Hk; contradiction.
    + destruct (picks_legal _ _ _ _ Hp Hi').
  - inversion H as [| | |? ? r' ? ? E Hc|? ? k' w' r' ? ? N Hp' Hk' Hc|? ? k' w' r' ? ? N Hp' Hk1' Hk2' Hc|? ? ? ? ? N Hi' Hc]; subst.
    + destruct Hp as (E & Sh & _). apply shape_nonempty in Sh. destruct w; [congruence|discriminate].
    + destruct (Hs r'). reflexivity.
    + destruct (picks_unique _ _ _ _ _ _ _ Hp Hp') as (-> & -> & ->). destruct Hk'; contradiction.
    + destruct (picks_unique _ _ _ _ _ _ _ Hp Hp') as (-> & -> & ->). destruct (IH _ _ Hc) as [-> ->]. now split.
    + destruct (picks_legal _ _ _ _ Hp Hi').
  - inversion H as [| | |? ? r' ? ? E Hc|? ? k' w' r' ? ? N Hp' Hk' Hc|? ? k' w' r' ? ? N Hp' Hk1' Hk2' Hc|? ? ? ? ? N Hi' Hc]; subst.
    + destruct (Hs r'). assumption.
    + destruct (picks_legal _ _ _ _ Hp' Hi).
    + destruct (picks_legal _ _ _ _ Hp' Hi).
    + destruct (IH _ _ Hc) as [-> ->]. now split.
Qed.

Lemma expands_unique s t t' : expands s t -> expands s t' -> t = t'.
Proof.
  intros H. revert t'. induction H as [|s t _ IH|c s t Nc _ IH]; intros t' H'; inversion H'; subst; try congruence.
  - f_equal. now apply IH.
  - f_equal. now apply IH.
Qed.

Lemma cut_lines_unique n l b x : cut_lines n l b x -> forall y, cut_lines n l b y -> x = y.
Proof.
  induction 1 as [n b|n line line' rest b b' x1 x2 He Hc _ IH]; intros y H;
    inversion H as [|? ? l2 ? ? b2 y1 y2 He2 Hc2 Hr]; subst; [reflexivity|].
  pose proof (expands_unique _ _ _ He He2) as ->. destruct (cut_unique _ _ _ _ _ _ Hc _ _ Hc2) as [-> ->].
  f_equal. now apply IH.
Qed.

Lemma tokenize_cut n l items : tokenize n l = Ok items <-> cut_lines n l false items.
Proof.
  unfold tokenize. destruct (lex_lines_cut l n false) as (x & E & H). split.
  - intros E'. rewrite E in E'. injection E' as <-. assumption.
  - intros H'. rewrite E. f_equal. eapply cut_lines_unique; eassumption.
Qed.

Lemma tokenize_total n l : exists items, tokenize n l = Ok items.
Proof. destruct (lex_lines_cut l n false) as (x & E & _). now exists x. Qed.
