(** Examples: values and their text. *)
From Verif Require Import Base Num Term Unify Str World Ast Names Quote QuoteSpec Lex LexSpec LexCor Parse ParseInv RoundSpec GramSpec Build ShowSpec ShowNum ShowCor ExPy.

(** q(-3, "say \"no\"", [1, [x|~y]], true)[source(self), 7, 7.0] *)
Definition shown_value : term :=
  TLit (s2p "q") [TNum (NInt (-3)); TStr (s2p "say ""no"""); TTup [TNum (NInt 1); TLL (TLit (s2p "x") [] []) (TLit (s2p "~y") [] [])]; TBool true]
    [TLit (s2p "source") [TLit (s2p "self") [] []] []; TNum (NInt 7); TNum (NFlt (float_lit (s2p "7")))].

Lemma int_ok {PY : Py} z : (Z.abs z < 2 ^ 53)%Z -> writable_num (NInt z).
Proof. intros H. destruct (small_float z H) as (f & V & I). exact (int_writable f z V I). Qed.

Lemma name_ok f : first_token tokens f = Some (KFunctor, []) -> functor_name f.
Proof.
  intros H. destruct (token_picks _ _ _ H) as (w & P). pose proof (picks_functor _ _ _ P) as F.
  destruct P as (E & _). rewrite app_nil_r in E. now subst.
Qed.

Lemma shown_writable : @writable PyRev shown_value.
Proof.
  cbn [shown_value writable map fold_right].
  repeat match goal with
  | |- _ /\ _ => split
  | |- True => exact I
  | |- functor_name _ => apply name_ok; vm_compute; reflexivity
  | |- writable_num (NInt _) => apply int_ok; reflexivity
  | |- Forall _ _ => repeat constructor; vm_compute; reflexivity
  end.
  apply (flt_writable _ 7%Z); vm_compute; reflexivity.
Qed.

(** The value of a text. *)
Definition value_of {PY : Py} (s : pystr) : res term :=
  match tokenize 1 (string_source (s ++ s2p ".")) with
  | Ok (ITok first :: rest) =>
      match fst (parse_term 50 first (mkpst rest (log_new None) true)) with
      | Ok (_, e) => match fst (build_term false e (mkbs [] 0 (log_new None))) with Ok u => grounded 50 u [] | Err x => Err x end
      | Err x => Err x
      end
  | _ => Err EStopIter
  end.
