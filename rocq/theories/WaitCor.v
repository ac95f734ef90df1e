From Verif Require Import Base Num Term Unify Str World Engine Step Ast Names Quote Lex Parse Fold Build Front GramSpec SrcSpec ScopeSpec WaitSpec WaitFacts ActSpec ActCor.

Theorem wait_text (PY : Py) (L : PyLawful PY) a i st W annots d t text full e :
  grounded d t (b_scope st) = Ok (TStr text) -> ActSpec.dotted text full -> event_text full e ->
  exists N, forall N', (N <= N')%nat -> exists ev k, names_event (w_nv W) k e ev /\
    exists n0, forall n, (n0 <= n)%nat ->
      @resume PY (FrontText N') n a i (GQ (QAct AWait (TLit (s2p ".wait") [t] annots))) (st, W) =
        (Ok (Some GStop), (st, wait_state i (Some ev) None (set_nv W k))).
Proof.
  intros G D E. destruct (event_all L full e E) as [N H]. exists N. intros N' HN. destruct (H N' (w_nv W) HN) as (ev & k & E1 & E2).
  exists ev, k. split; [exact E2|]. exact (@wait_event PY (FrontText N') a i st W annots d t text full ev k G D E1).
Qed.
Theorem wait_text_time (PY : Py) (L : PyLawful PY) a i st W annots d t t2 text full e x u :
  grounded d t (b_scope st) = Ok (TStr text) -> ActSpec.dotted text full -> event_text full e ->
  grounded d t2 (b_scope st) = Ok (TNum x) ->
  rbind (num_op fpow NTruediv x (NInt 1000)) (num_op fpow NAdd (py_time (w_reads W))) = Ok u ->
  exists N, forall N', (N <= N')%nat -> exists ev k, names_event (w_nv W) k e ev /\
    exists n0, forall n, (n0 <= n)%nat ->
      @resume PY (FrontText N') n a i (GQ (QAct AWait (TLit (s2p ".wait") [t; t2] annots))) (st, W) =
        (Ok (Some GStop), (st, wait_state i (Some ev) (Some u) (set_reads (set_nv W k) (N.succ (w_reads W))))).
Proof.
  intros G D E G2 U. destruct (event_all L full e E) as [N H]. exists N. intros N' HN. destruct (H N' (w_nv W) HN) as (ev & k & E1 & E2).
  exists ev, k. split; [exact E2|]. exact (@wait_event_time PY (FrontText N') a i st W annots d t t2 text full ev k x u G D E1 G2 U).
Qed.
