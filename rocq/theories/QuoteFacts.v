(** Facts about string literals. *)
From Verif Require Import Base Num Term Str Quote QuoteSpec.

Lemma forallb_ascii_utf8 s : Forall ascii s -> utf8 s = Ok s.
Proof.
  induction 1 as [|c s H _ IH]; [reflexivity|]. cbn [utf8]. unfold utf8_char.
  rewrite (proj2 (N.ltb_lt c 128) H). cbn [rbind]. rewrite IH. reflexivity.
Qed.

Lemma parse_string_body b :
  parse_string (literal b) = rbind (utf8 b) (fun x => unescape (List.length x) x).
Proof.
  unfold parse_string, literal. cbn [tl]. rewrite removelast_last.
  unfold quoted. change (34%N :: b ++ [34%N]) with ((34%N :: b) ++ [34%N]). rewrite last_last. reflexivity.
Qed.

Lemma hex_val_digit c d : hexdigit c d -> hex_val c = Some d.
Proof.
  intros H; destruct H as [d H|d H|d H]; unfold hex_val.
  - replace ((48 <=? 48 + d) && (48 + d <=? 57))%N with true; [cbn iota; f_equal; lia|].
    symmetry. apply andb_true_intro; split; apply N.leb_le; lia.
  - replace ((48 <=? 87 + d) && (87 + d <=? 57))%N with false.
    2:{ symmetry. apply andb_false_intro2. apply N.leb_gt. lia. }
    replace ((97 <=? 87 + d) && (87 + d <=? 102))%N with true; [cbn iota; f_equal; lia|].
    symmetry. apply andb_true_intro; split; apply N.leb_le; lia.
  - replace ((48 <=? 55 + d) && (55 + d <=? 57))%N with false.
    2:{ symmetry. apply andb_false_intro2. apply N.leb_gt. lia. }
    replace ((97 <=? 55 + d) && (55 + d <=? 102))%N with false.
    2:{ symmetry. apply andb_false_intro1. apply N.leb_gt. lia. }
    replace ((65 <=? 55 + d) && (55 + d <=? 70))%N with true; [cbn iota; f_equal; lia|].
    symmetry. apply andb_true_intro; split; apply N.leb_le; lia.
Qed.

Lemma hex_digits_snoc k : forall acc s,
  hex_digits (S k) acc s =
  match hex_digits k acc s with
  | Some (a, c :: r) => match hex_val c with Some d => Some (16 * a + d, r)%N | None => None end
  | _ => None
  end.
Proof.
  induction k as [|k IH]; intros acc s.
  - destruct s as [|c s]; [reflexivity|]. cbn [hex_digits]. destruct (hex_val c); reflexivity.
  - destruct s as [|c s]; [reflexivity|].
    cbn [hex_digits]. destruct (hex_val c) as [d|]; [|reflexivity].
    rewrite <- IH. reflexivity.
Qed.

Lemma hex_digits_num k h x : hexnum k h x -> forall r, hex_digits k 0 (h ++ r) = Some (x, r).
Proof.
  induction 1 as [|k h x c d _ IH Hd]; intros r; [reflexivity|].
  rewrite hex_digits_snoc, <- app_assoc, IH. cbn [app].
  rewrite (hex_val_digit _ _ Hd). reflexivity.
Qed.

Lemma is_octal_digit d : (d < 8)%N -> is_octal (48 + d) = true.
Proof. intros H. unfold is_octal. apply andb_true_intro; split; apply N.leb_le; lia. Qed.

Lemma octnum3 h x : octnum 3 h x -> exists a b c,
  (a < 8)%N /\ (b < 8)%N /\ (c < 8)%N /\ h = [48 + a; 48 + b; 48 + c]%N /\ x = (8 * (8 * a + b) + c)%N.
Proof.
  intros H. inversion H as [|k3 s3 x3 c H3 Hc Ek3 Es3 Ex3]; subst.
  inversion H3 as [|k2 s2 x2 b H2 Hb Ek2 Es2 Ex2]; subst.
  inversion H2 as [|k1 s1 x1 a H1 Ha Ek1 Es1 Ex1]; subst.
  inversion H1; subst. exists a, b, c. do 3 (split; [assumption|]). split; [reflexivity|lia].
Qed.

(** The escapes *)
Ltac off v := replace v with false by (symmetry; apply N.eqb_neq; lia).

Lemma escape_oct a b c r :
  (a < 8)%N -> (b < 8)%N -> (c < 8)%N ->
  escape (48 + a) (48 + b :: 48 + c :: r)%N = Ok ([8 * (8 * a + b) + c]%N, r).
Proof.
  intros Ha Hb Hc. unfold escape.
  off (48 + a =? 10)%N. off (48 + a =? 92)%N. off (48 + a =? 39)%N. off (48 + a =? 34)%N.
  off (48 + a =? 98)%N. off (48 + a =? 102)%N. off (48 + a =? 116)%N. off (48 + a =? 110)%N.
  off (48 + a =? 114)%N. off (48 + a =? 118)%N. off (48 + a =? 97)%N.
  rewrite (is_octal_digit a Ha). cbn [orb oct_digits].
  rewrite (is_octal_digit b Hb), (is_octal_digit c Hc).
  do 3 f_equal. lia.
Qed.

Lemma escape_short c x r : In (c, x) short_escapes -> escape c r = Ok ([x], r).
Proof.
  intros H. unfold short_escapes in H. cbn [In] in H.
  repeat (destruct H as [H|H]; [injection H as <- <-; reflexivity|]). destruct H.
Qed.

Lemma hexnum_bound k h x : hexnum k h x -> (x < 16 ^ N.of_nat k)%N.
Proof.
  induction 1 as [|k s x c d _ IH Hd]; [reflexivity|].
  rewrite Nat2N.inj_succ, N.pow_succ_r'. assert (d < 16)%N by (inversion Hd; lia). lia.
Qed.

Lemma hexnum_length k h x : hexnum k h x -> List.length h = k.
Proof. induction 1; [reflexivity|]. rewrite app_length. cbn. lia. Qed.

Lemma escape_hex (k : nat) (e : N) h x r :
  ((k = 2 /\ e = 120%N) \/ (k = 4 /\ e = 117%N) \/ (k = 8 /\ e = 85%N))%nat ->
  hexnum k h x -> code_point x -> escape e (h ++ r) = Ok ([x], r).
Proof.
  intros Hk H Hx. apply N.ltb_lt in Hx.
  destruct Hk as [[-> ->]|[[-> ->]|[-> ->]]]; unfold escape;
  cbn -[hex_digits N.ltb app]; rewrite (hex_digits_num _ _ _ H), Hx; reflexivity.
Qed.

(** Enough fuel: one per byte. *)
Lemma unescape_denotes b s : denotes b s -> forall n, (List.length b <= n)%nat -> unescape n b = Ok s.
Proof.
  induction 1 as [|c b s Ha Hc _ IH|c x b s Hin _ IH|h x b s Hh _ IH|h x b s Hh _ IH|h x b s Hh _ IH
                 |h x b s Hh Hx _ IH|b s _ IH]; intros n Hn.
  - destruct n; reflexivity.
  - destruct n as [|n]; [cbn in Hn; lia|]. cbn [unescape].
    rewrite (proj2 (N.eqb_neq c 92) Hc), IH by (cbn in Hn; lia). reflexivity.
  - destruct n as [|n]; [cbn in Hn; lia|]. cbn [unescape]. change (92 =? 92)%N with true. cbn iota.
    rewrite (escape_short _ _ _ Hin). cbn [rbind]. rewrite IH by (cbn in Hn; lia). reflexivity.
  - destruct n as [|n]; [cbn in Hn; lia|].
    destruct (octnum3 _ _ Hh) as (a & b' & c & A & B & C & -> & ->).
    cbn [app unescape]. change (92 =? 92)%N with true. cbn iota.
    rewrite escape_oct by assumption. cbn [rbind]. rewrite IH by (cbn in Hn; lia). reflexivity.
  - destruct n as [|n]; [cbn in Hn; lia|]. cbn [unescape]. change (92 =? 92)%N with true. cbn iota.
    rewrite (escape_hex 2 120 h x); [|lia|assumption|].
    + cbn [rbind]. rewrite IH; [reflexivity|]. cbn in Hn. rewrite app_length in Hn. lia.
    + pose proof (hexnum_bound _ _ _ Hh) as K. unfold code_point. cbn in K. lia.
  - destruct n as [|n]; [cbn in Hn; lia|]. cbn [unescape]. change (92 =? 92)%N with true. cbn iota.
    rewrite (escape_hex 4 117 h x); [|lia|assumption|].
    + cbn [rbind]. rewrite IH; [reflexivity|]. cbn in Hn. rewrite app_length in Hn. lia.
    + pose proof (hexnum_bound _ _ _ Hh) as K. unfold code_point. cbn in K. lia.
  - destruct n as [|n]; [cbn in Hn; lia|]. cbn [unescape]. change (92 =? 92)%N with true. cbn iota.
    rewrite (escape_hex 8 85 h x); [|lia|assumption|assumption].
    cbn [rbind]. rewrite IH; [reflexivity|]. cbn in Hn. rewrite app_length in Hn. lia.
  - destruct n as [|n]; [cbn in Hn; lia|]. cbn [unescape]. change (92 =? 92)%N with true. cbn iota.
    unfold escape. cbn [N.eqb Pos.eqb rbind]. rewrite IH by (cbn in Hn; lia). reflexivity.
Qed.

Lemma hexdigit_ascii c d : hexdigit c d -> ascii c.
Proof. intros H; destruct H; unfold ascii; lia. Qed.

Lemma hexnum_ascii k h x : hexnum k h x -> Forall ascii h.
Proof.
  induction 1 as [|k s x c d _ IH Hd]; [constructor|].
  apply Forall_app; split; [assumption|]. repeat constructor. eapply hexdigit_ascii; eassumption.
Qed.

Lemma denotes_ascii b s : denotes b s -> Forall ascii b.
Proof.
  induction 1 as [|c b s Ha Hc _ IH|c x b s Hin _ IH|h x b s Hh _ IH|h x b s Hh _ IH|h x b s Hh _ IH
                 |h x b s Hh Hx _ IH|b s _ IH].
  - constructor.
  - now constructor.
  - constructor; [unfold ascii; lia|]. constructor; [|assumption].
    unfold short_escapes in Hin. cbn [In] in Hin.
    repeat (destruct Hin as [Hin|Hin]; [injection Hin as <- <-; unfold ascii; lia|]). destruct Hin.
  - destruct (octnum3 _ _ Hh) as (a & b' & c & A & B & C & -> & ->).
    cbn [app]. repeat (constructor; [unfold ascii; lia|]). assumption.
  - repeat (constructor; [unfold ascii; lia|]). apply Forall_app; split; [eapply hexnum_ascii; eassumption|assumption].
  - repeat (constructor; [unfold ascii; lia|]). apply Forall_app; split; [eapply hexnum_ascii; eassumption|assumption].
  - repeat (constructor; [unfold ascii; lia|]). apply Forall_app; split; [eapply hexnum_ascii; eassumption|assumption].
  - repeat (constructor; [unfold ascii; lia|]). assumption.
Qed.

Lemma parse_denotes b s : denotes b s -> parse_string (literal b) = Ok s.
Proof.
  intros H. rewrite parse_string_body, (forallb_ascii_utf8 b (denotes_ascii _ _ H)).
  apply unescape_denotes; [assumption|]. lia.
Qed.

(** ** Printing *)

Lemma hex1_digit d : (d < 16)%N -> hexdigit (hex1 d) d.
Proof.
  intros H. unfold hex1. destruct (N.ltb_spec d 10); [now apply hd_digit|]. apply hd_lower. lia.
Qed.

Lemma hexk_num k : forall n, (n < 16 ^ N.of_nat k)%N -> hexnum k (hexk k n) n.
Proof.
  induction k as [|k IH]; intros n H.
  - cbn in H. assert (n = 0)%N as -> by lia. constructor.
  - cbn [hexk]. rewrite (N.div_mod n 16) at 3 by lia.
    constructor.
    + apply IH. rewrite Nat2N.inj_succ, N.pow_succ_r' in H. apply N.div_lt_upper_bound; lia.
    + apply hex1_digit. apply N.mod_lt. lia.
Qed.

Lemma esc_quotes_app a b : esc_quotes (a ++ b) = esc_quotes a ++ esc_quotes b.
Proof.
  induction a as [|c a IH]; [reflexivity|]. cbn [app esc_quotes].
  destruct (c =? 34)%N; cbn [app]; rewrite IH; reflexivity.
Qed.

Lemma esc_quotes_plain a : Forall (fun c => c <> 34%N) a -> esc_quotes a = a.
Proof.
  induction 1 as [|c a H _ IH]; [reflexivity|]. cbn [esc_quotes].
  rewrite (proj2 (N.eqb_neq c 34) H), IH. reflexivity.
Qed.

Lemma hexdigit_no_quote c d : hexdigit c d -> c <> 34%N.
Proof. intros H; destruct H; lia. Qed.

Lemma hexnum_no_quote k h x : hexnum k h x -> Forall (fun c => c <> 34%N) h.
Proof.
  induction 1 as [|k s x c d _ IH Hd]; [constructor|].
  apply Forall_app; split; [assumption|]. repeat constructor. eapply hexdigit_no_quote; eassumption.
Qed.

(** What asl_repr writes between the quotes. *)
Lemma printed_denotes s : Forall code_point s -> denotes (esc_quotes (unicode_escape s)) s.
Proof.
  induction 1 as [|c s H _ IH]; [constructor|]. cbn [unicode_escape]. rewrite esc_quotes_app.
  unfold esc_char, code_point in *.
  destruct (N.eqb_spec c 92) as [->|N92]; [cbn; apply dn_short; [cbn; tauto|assumption]|].
  destruct (N.eqb_spec c 9) as [->|N9]; [cbn; apply dn_short; [cbn; tauto|assumption]|].
  destruct (N.eqb_spec c 10) as [->|N10]; [cbn; apply dn_short; [cbn; tauto|assumption]|].
  destruct (N.eqb_spec c 13) as [->|N13]; [cbn; apply dn_short; [cbn; tauto|assumption]|].
  destruct ((32 <=? c) && (c <? 127))%N eqn:E.
  { apply andb_prop in E as [E1 E2]. apply N.leb_le in E1. apply N.ltb_lt in E2.
    cbn [esc_quotes]. destruct (N.eqb_spec c 34) as [->|N34]; cbn [app].
    - apply dn_short; [cbn; tauto|assumption].
    - apply dn_plain; [unfold ascii; lia|assumption|assumption]. }
  assert (Q : forall e k, hexnum k (hexk k c) c -> e <> 34%N ->
              esc_quotes (92%N :: e :: hexk k c) = 92%N :: e :: hexk k c).
  { intros e k K He. apply esc_quotes_plain. constructor; [lia|]. constructor; [assumption|].
    eapply hexnum_no_quote; eassumption. }
  destruct (N.ltb_spec c 256).
  { assert (K : hexnum 2 (hexk 2 c) c) by (apply hexk_num; cbn; lia).
    rewrite Q; [|assumption|lia]. apply dn_x; assumption. }
  destruct (N.ltb_spec c 65536).
  { assert (K : hexnum 4 (hexk 4 c) c) by (apply hexk_num; cbn; lia).
    rewrite Q; [|assumption|lia]. apply dn_u; assumption. }
  assert (K : hexnum 8 (hexk 8 c) c) by (apply hexk_num; cbn; lia).
  rewrite Q; [|assumption|lia]. apply dn_U; assumption.
Qed.

Lemma parse_str_repr s : Forall code_point s -> parse_string (str_repr s) = Ok s.
Proof. intros H. apply parse_denotes, printed_denotes, H. Qed.

(** Every quoted text is a literal or a single quote character, and otherwise the
    assertion fails. *)
Lemma quoted_split s : quoted s = true -> s = [34%N] \/ exists b, s = literal b.
Proof.
  unfold quoted, literal. destruct s as [|c s]; [discriminate|]. intros E.
  apply andb_prop in E as [E1 E2]. apply N.eqb_eq in E1, E2. subst c.
  destruct s as [|d s]; [now left|]. right.
  destruct (@exists_last _ (d :: s)) as (b & x & Eb); [discriminate|].
  exists b. rewrite Eb in *. change (34%N :: b ++ [x]) with ((34%N :: b) ++ [x]) in E2.
  rewrite last_last in E2. subst x. reflexivity.
Qed.

Lemma parse_unquoted s : quoted s = false -> parse_string s = Err EAssert.
Proof. intros H. unfold parse_string. now rewrite H. Qed.

Lemma utf8_multi c : ascii c -> utf8_char c = Ok [c].
Proof. intros H. unfold utf8_char. now rewrite (proj2 (N.ltb_lt c 128) H). Qed.

Lemma unescape_plain b : Forall (fun c => c <> 92%N) b -> forall n, (List.length b <= n)%nat -> unescape n b = Ok b.
Proof.
  induction 1 as [|c b H _ IH]; intros n Hn; [destruct n; reflexivity|].
  destruct n as [|n]; [cbn in Hn; lia|]. cbn [unescape].
  rewrite (proj2 (N.eqb_neq c 92) H), IH by (cbn in Hn; lia). reflexivity.
Qed.

Lemma above92 a b : (92 <? a)%N = true -> (a + b <> 92)%N.
Proof. intros H. apply N.ltb_lt in H. lia. Qed.

Lemma Ok_inj {A} (a b : A) : Ok a = Ok b -> a = b.
Proof. congruence. Qed.

(** Without escapes a literal stands for the bytes of its UTF-8 encoding. *)
Lemma utf8_no_backslash b x : Forall (fun c => c <> 92%N) b -> utf8 b = Ok x -> Forall (fun c => c <> 92%N) x.
Proof.
  intros H. revert x. induction H as [|c b H _ IH]; intros x E.
  - injection E as <-. constructor.
  - cbn [utf8] in E. destruct (utf8_char c) as [y|e] eqn:Ey; [|discriminate]. cbn [rbind] in E.
    destruct (utf8 b) as [z|e]; [|discriminate]. injection E as <-.
    apply Forall_app; split; [|now apply IH].
    unfold utf8_char in Ey.
    repeat match type of Ey with context [if ?b then _ else _] => destruct b end; try discriminate;
    apply Ok_inj in Ey; subst y; repeat first [apply Forall_nil | apply Forall_cons]; 
    first [assumption | apply above92; reflexivity].
Qed.

Lemma parse_plain b x :
  Forall (fun c => c <> 92%N) b -> utf8 b = Ok x -> parse_string (literal b) = Ok x.
Proof.
  intros H E. rewrite parse_string_body, E. cbn [rbind]. apply unescape_plain; [|lia].
  eapply utf8_no_backslash; eassumption.
Qed.
