(** Whole negative numbers are written as "-" and a numeral. *)
From Verif Require Import Base Num Term Str Quote QuoteSpec Lex LexSpec Parse RoundSpec NumRead AgentSpec AgentSign.
From Coq Require Import Floats.SpecFloat.

Lemma int_opp m e z : flt_int (S754_finite true m e) = Some z -> flt_int (S754_finite false m e) = Some (- z)%Z.
Proof.
  unfold flt_int. destruct e as [|p|p].
  - intros [= <-]. reflexivity.
  - intros H. apply (f_equal (fun o => match o with Some y => y | None => 0%Z end)) in H. subst z. f_equal.
    change (Zneg m) with (- Zpos m)%Z. now rewrite Z.mul_opp_l, Z.opp_involutive.
  - change (Zneg m) with (- Zpos m)%Z. assert (N : (2 ^ Zpos p)%Z <> 0%Z) by lia.
    destruct (- Zpos m mod 2 ^ Zpos p =? 0)%Z eqn:E; [|discriminate]. apply Z.eqb_eq in E. intros [= <-].
    pose proof (Z.mod_opp_l_z _ _ N E) as M. pose proof (Z.div_opp_l_z _ _ N E) as D. rewrite Z.opp_involutive in M, D.
    rewrite M, D. reflexivity.
Qed.

Lemma whole_negated (PY : Py) f z : valid_binary prec emax f = true -> flt_int f = Some z -> (z < 0)%Z -> negated (NFlt f).
Proof.
  intros Hv Hz Hn. destruct f as [s|s| |[] m e]; try discriminate.
  - injection Hz as <-. lia.
  - pose proof (int_opp m e z Hz) as Ho.
    destruct (whole_numeral (S754_finite false m e) _ Hv eq_refl Ho) as (a & b & E & Ha & Hb & Ex).
    exists a, b. split; [|split; [exact Ha|split; [exact Hb|rewrite <- Ex; reflexivity]]].
    rewrite <- E. unfold num_asl. rewrite Hz, Ho. destruct z; [lia|lia|reflexivity].
  - exfalso. apply (proj1 (Z.lt_nge z 0) Hn). unfold flt_int in Hz.
    assert (S : forall y : Z, Some y = Some z -> (0 <= y)%Z -> (0 <= z)%Z) by (intros y X; injection X as ->; trivial). destruct e as [|p|p].
    + apply (S _ Hz). lia.
    + apply (S _ Hz). apply Z.mul_nonneg_nonneg; [lia|apply Z.pow_nonneg; lia].
    + destruct (_ =? _)%Z; [|discriminate]. apply (S _ Hz). apply Z.div_pos; lia.
Qed.
