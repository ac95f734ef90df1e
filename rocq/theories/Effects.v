(** What running queries, actions and calls can do to the system: a sequence of
    elementary effects. *)
From Verif Require Import Base Num Term Unify Str World Engine.

(** The intention is on no stack. *)
Definition idle (i : nat) (W : world) : Prop := forall b, ~ In i (List.concat (a_ints (get_agent W b))).

Section WithPy.
Context {PY : Py} {FR : Front}.
(** Reading plans and events from texts does not use identities of variables again. *)
Definition front_up : Prop :=
  (forall s k p k', fr_plan s k = Ok (p, k') -> (k <= k')%N) /\ (forall s k e k', fr_event s k = Ok (e, k') -> (k <= k')%N).
(** A property of plans; intentions from [lo] on are younger than the code that
    is running, [cur] is the intention on whose behalf it runs. *)
Variable Pp : plan -> Prop.
Variables lo cur : nat.

Inductive eff (W : world) : world -> Prop :=
| ef_nv k : (front_up -> (w_nv W <= k)%N) -> eff W (set_nv W k)
| ef_tick k : eff W (set_tick W k)
| ef_reads k : (w_reads W <= k)%N -> eff W (set_reads W k)
| ef_out o : eff W (set_out W o)
| ef_belref a g : eff W (snd (bel_ref a g W))
| ef_planref a g : eff W (snd (plan_ref a g W))
| ef_add a n t s f args annots r :
    grounded n t s = Ok (TLit f args annots) ->
    assoc group_eqb (f, List.length args) (a_bel (get_agent W a)) = Some r ->
    eff W (set_sets W (upd (w_sets W) r (set_add (get_set W r) (TLit f args annots))))
| ef_rem a g r k :
    assoc group_eqb g (a_bel (get_agent W a)) = Some r ->
    (k < List.length (s_elems (get_set W r)))%nat ->
    eff W (set_sets W (upd (w_sets W) r (set_remove_at (get_set W r) k)))
| ef_abol a g r n pat x l :
    assoc group_eqb g (a_bel (get_agent W a)) = Some r ->
    abolish_loop n pat (s_elems (get_set W r)) = (x, l) ->
    eff W (set_sets W (upd (w_sets W) r (mkbset (N.succ (s_ver (get_set W r))) l)))
| ef_plan_add r p :
    Pp p -> eff W (set_plists W (upd (w_plists W) r (get_plist W r ++ [p])))
| ef_plan_del r f :
    eff W (set_plists W (upd (w_plists W) r (filter f (get_plist W r))))
| ef_plan_args r k p names :
    nth_error (get_plist W r) k = Some p ->
    eff W (set_plists W (upd (w_plists W) r (upd (get_plist W r) k (set_p_args p names))))
| ef_new : eff W (set_ints W (w_ints W ++ [int0]))
| ef_launch a p frozen t st ni l :
    (lo <= ni < List.length (w_ints W))%nat -> Pp p -> idle ni W ->
    l = a_ints (get_agent W a) ++ [[ni]] \/ (exists ci, push_on ci ni (a_ints (get_agent W a)) = Ok (Some l)) ->
    eff W (put_agent (put_int W ni (mkint (p_code p) (Some 0%nat) (Some frozen) (Some t) st [] [] (i_wait (get_int W ni))))
             a (set_a_ints (get_agent W a) l))
| ef_prep p frozen t st ni :
    (lo <= ni < List.length (w_ints W))%nat -> Pp p ->
    eff W (put_int W ni (mkint (p_code p) (Some 0%nat) (Some frozen) (Some t) st [] [] (i_wait (get_int W ni))))
| ef_wait i w :
    (i = cur \/ (lo <= i)%nat) ->
    eff W (put_int W i (set_i_wait (get_int W i) (Some w)))
| ef_wake a n tr gt frozen i rest :
    In (i :: rest) (a_ints (get_agent W a)) ->
    wakes n tr gt frozen (get_int W i) = Ok true ->
    eff W (put_int W i (set_i_wait (get_int W i) None))
| ef_unach a l :
    Forall2 (fun old new => new = old \/ exists i, old = i :: new) (a_ints (get_agent W a)) l ->
    eff W (put_agent W a (set_a_ints (get_agent W a) l)).

Inductive effs (W : world) : world -> Prop :=
| effs_nil : effs W W
| effs_cons W1 W2 : eff W W1 -> effs W1 W2 -> effs W W2.

End WithPy.
