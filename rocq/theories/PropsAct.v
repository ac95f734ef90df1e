(** C45, C46, C47, C48: the action library.  Specification: ActSpec.v ([gives],
    [answers], [raises]: what calling an action by its name does), EnumSpec.v
    ([list_of]: the items of a list in either notation). *)
From Verif Require Import Base Num Term Unify Str World Engine Names CmpSpec QuerySpec QueryCor EnumSpec ActSpec ActCor ExPy.
From Coq Require Import QArith SpecFloat Lia.

(** C45.  .max and .min give the first greatest, the first least item ... *)
Theorem C45_max : forall (PY : Py) d t s v items,
  grounded d t s = Ok v -> list_of v items -> sortable items -> items <> [] ->
  exists m, greatest m items /\ gives ".max" [t] s m.
Proof. exact @max_gives. Qed.
Print Assumptions C45_max.

Theorem C45_min : forall (PY : Py) d t s v items,
  grounded d t s = Ok v -> list_of v items -> sortable items -> items <> [] ->
  exists m, least m items /\ gives ".min" [t] s m.
Proof. exact @min_gives. Qed.
Print Assumptions C45_min.

(** ... and of an empty list ValueError. *)
Theorem C45_empty : forall (PY : Py) d t s v, grounded d t s = Ok v -> list_of v [] ->
  raises ".max" [t] s EValue /\ raises ".min" [t] s EValue.
Proof. exact @extreme_empty. Qed.
Print Assumptions C45_empty.

(** .sort orders the items by value and keeps the order of equal ones. *)
Theorem C45_sort : forall (PY : Py) d t s v items,
  grounded d t s = Ok v -> list_of v items -> sortable items ->
  exists items', sorted_as items items' /\ gives ".sort" [t] s (TTup items').
Proof. exact @sort_gives. Qed.
Print Assumptions C45_sort.

(** .nth counts from 0. *)
Theorem C45_nth : forall (PY : Py) di ti dl tl s i v items,
  grounded di ti s = Ok (TNum (NInt i)) -> grounded dl tl s = Ok v -> list_of v items ->
  (forall k x, i = Z.of_nat k -> nth_error items k = Some x -> gives ".nth" [ti; tl] s x) /\
  ((i < 0)%Z -> raises ".nth" [ti; tl] s EAssert) /\
  ((Z.of_nat (List.length items) <= i)%Z -> raises ".nth" [ti; tl] s EIndex).
Proof. exact @nth_gives. Qed.
Print Assumptions C45_nth.

Theorem C45_tail : forall (PY : Py) d t s v x items,
  grounded d t s = Ok v -> list_of v (x :: items) -> gives ".tail" [t] s (TTup items).
Proof. exact @tail_gives. Qed.
Print Assumptions C45_tail.

(** .length: items of a list, characters of a string, arguments of a literal. *)
Theorem C45_length : forall (PY : Py) d t s v k, grounded d t s = Ok v ->
  (exists items, list_of v items /\ k = List.length items) \/ (exists text, v = TStr text /\ k = List.length text) \/
  (exists f args annots, v = TLit f args annots /\ k = List.length args) ->
  gives ".length" [t] s (TNum (NInt (Z.of_nat k))).
Proof. exact @length_gives. Qed.
Print Assumptions C45_length.

Theorem C45_not_a_list : forall (PY : Py) f d t s v, In f [".max"; ".min"; ".sort"; ".tail"]%string ->
  grounded d t s = Ok v -> match v with TBool _ | TNum _ | TLit _ _ _ => True | _ => False end ->
  raises f [t] s EType.
Proof. exact @not_a_list. Qed.
Print Assumptions C45_not_a_list.

(** [f] is the argument as a float, [q] its value. *)
Theorem C45_floor : forall (PY : Py) d t s v f, grounded d t s = Ok v -> to_flt v = Ok f ->
  forall q, flt_val f = XQ q -> exists z, is_floor q z /\ gives ".floor" [t] s (TNum (NInt z)).
Proof. exact @floor_gives. Qed.
Print Assumptions C45_floor.

Theorem C45_ceil : forall (PY : Py) d t s v f, grounded d t s = Ok v -> to_flt v = Ok f ->
  forall q, flt_val f = XQ q -> exists z, is_ceil q z /\ gives ".ceil" [t] s (TNum (NInt z)).
Proof. exact @ceil_gives. Qed.
Print Assumptions C45_ceil.

Theorem C45_round : forall (PY : Py) d t s v f, grounded d t s = Ok v -> to_flt v = Ok f ->
  forall q, flt_val f = XQ q -> exists z, is_round q z /\ gives ".round" [t] s (TNum (NInt z)).
Proof. exact @round_gives. Qed.
Print Assumptions C45_round.

Theorem C45_round_special : forall (PY : Py) d t s v f, grounded d t s = Ok v -> to_flt v = Ok f ->
  forall n, In n [".floor"; ".ceil"; ".round"]%string ->
  (flt_val f = XNan -> raises n [t] s EValue) /\
  (flt_val f = XPInf \/ flt_val f = XNInf -> raises n [t] s EOverflow).
Proof. exact @round_special. Qed.
Print Assumptions C45_round_special.

(** .concat: lists written without [|], or strings; any number of them. *)
Theorem C45_concat_lists : forall (PY : Py) ins s d ls,
  Forall2 (fun t l => grounded d t s = Ok (TTup l)) ins ls -> gives ".concat" ins s (TTup (List.concat ls)).
Proof. exact @concat_lists. Qed.
Print Assumptions C45_concat_lists.

Theorem C45_concat_texts : forall (PY : Py) ins s d ts,
  Forall2 (fun t x => grounded d t s = Ok (TStr x)) ins ts -> ins <> [] -> gives ".concat" ins s (TStr (List.concat ts)).
Proof. exact @concat_texts. Qed.
Print Assumptions C45_concat_texts.

(** The other list notation is not recognised: the result is a text. *)
Definition linked (x y : Z) : term := TLL (TNum (NInt x)) (TTup [TNum (NInt y)]).
Theorem C45_concat_linked_refuted : list_of (linked 1 2) [TNum (NInt 1); TNum (NInt 2)] /\
  @gives PyEx ".concat" [linked 1 2; linked 3 4] [] (TStr (s2p "[1|[2]][3|[4]]")).
Proof.
  split; [repeat constructor|]. apply (concat_result (PY := PyEx) _ _ 5 [linked 1 2; linked 3 4]); [|vm_compute; reflexivity].
  repeat constructor.
Qed.
Print Assumptions C45_concat_linked_refuted.

Theorem C45_my_name : forall (PY : Py), exists ac, actions_lookup ext_actions (s2p ".my_name") 1 = Ok ac /\
  forall (FR : Front) a i st W x annots d b st1 c,
    unify d x (TLit (a_name (get_agent W a)) [] []) (mkbst (b_scope st) [] 0) = (Ok b, st1) -> (2 <= List.length c)%nat ->
    exists n0, forall n, (n0 <= n)%nat ->
      fst (drive c n a i (GQ (QAct ac (TLit (s2p ".my_name") [x] annots))) (st, W)) = (if b : bool then [b_scope st1] else [], Exhausted).
Proof. exact @my_name_gives. Qed.
Print Assumptions C45_my_name.

(** .date(Y, M, D) answers as [Y, M, D] = [year, month, day] does, and .time
    likewise, where the three numbers are those of the clock. *)
Theorem C45_clock : forall (PY : Py) f pf, In (f, pf) [(".date"%string, PFDate); (".time"%string, PFTime)] ->
  exists ac, actions_lookup ext_actions (s2p f) 3 = Ok ac /\
  forall (FR : Front) a i st W t0 t1 t2 annots x y z d b st1 c,
    py_call pf (w_tick W) [] = Ok (TTup [TNum x; TNum y; TNum z]) ->
    unify d (TTup [t0; t1; t2]) (TTup [TNum x; TNum y; TNum z]) (mkbst (b_scope st) [] 0) = (Ok b, st1) -> (2 <= List.length c)%nat ->
    exists n0, forall n, (n0 <= n)%nat ->
      fst (drive c n a i (GQ (QAct ac (TLit (s2p f) [t0; t1; t2] annots))) (st, W)) = (if b : bool then [b_scope st1] else [], Exhausted).
Proof. exact @clock_gives. Qed.
Print Assumptions C45_clock.

(** .unbind_all forgets what all variables of the intention stand for; .fail
    has no solution; .dump and the marks for the optimizer change nothing;
    .raise raises. *)
Theorem C45_unbind_all : forall (PY : Py), exists ac, actions_lookup ext_actions (s2p ".unbind_all") 0 = Ok ac /\
  forall (FR : Front) a i st W annots c, (2 <= List.length c)%nat ->
    exists n0, forall n, (n0 <= n)%nat ->
      fst (drive c n a i (GQ (QAct ac (TLit (s2p ".unbind_all") [] annots))) (st, W)) = ([[]], Exhausted).
Proof. exact @unbind_empties. Qed.
Print Assumptions C45_unbind_all.
Theorem C45_fail : forall (PY : Py), exists ac, actions_lookup ext_actions (s2p ".fail") 0 = Ok ac /\
  forall (FR : Front) a i st W annots c, (2 <= List.length c)%nat ->
    exists n0, forall n, (n0 <= n)%nat ->
      fst (drive c n a i (GQ (QAct ac (TLit (s2p ".fail") [] annots))) (st, W)) = ([], Exhausted).
Proof. exact @fail_fails. Qed.
Print Assumptions C45_fail.
Theorem C45_marks : forall (PY : Py) f k, In (f, k) [(".dump", 0); (".inf_mark_nosidef", 1); (".inf_nosideef", 0); (".inf_disable_global", 0);
    (".inf_disable_local", 0); (".inf_side_effect", 2)]%string%nat ->
  exists ac, actions_lookup ext_actions (s2p f) k = Ok ac /\
  forall (FR : Front) a i st W args annots c, (2 <= List.length c)%nat ->
    exists n0, forall n, (n0 <= n)%nat ->
      fst (drive c n a i (GQ (QAct ac (TLit (s2p f) args annots))) (st, W)) = ([b_scope st], Exhausted).
Proof. exact @marks_succeed. Qed.
Print Assumptions C45_marks.
Theorem C45_raise : forall (PY : Py), exists ac, actions_lookup ext_actions (s2p ".raise") 0 = Ok ac /\
  forall (FR : Front) a i st W annots c, (1 <= List.length c)%nat ->
    exists n0, forall n, (n0 <= n)%nat ->
      fst (drive c n a i (GQ (QAct ac (TLit (s2p ".raise") [] annots))) (st, W)) = ([], Raised ERuntime).
Proof. exact @raise_raises. Qed.
Print Assumptions C45_raise.

(** .date(Y, 11, D) in November. *)
Example C45_clock_case : exists st1,
  @unify PyEx 5 (TTup [TVar 0; TNum (NInt 11); TVar 1]) (TTup [TNum (NInt 2026); TNum (NInt 11); TNum (NInt 16)]) (mkbst [] [] 0) = (Ok true, st1) /\
  b_scope st1 = [(1%N, TNum (NInt 16)); (0%N, TNum (NInt 2026))].
Proof. eexists. split; vm_compute; reflexivity. Qed.

(** 3, 1.0, 1, 2: the two ones are equal and stay in this order; 3/2 rounds to 2. *)
Definition flt (m : Z) (e : Z) : Num.num := NFlt (binary_normalize prec emax m e false).
Definition some_numbers : list term := [TNum (NInt 3); TNum (flt 1 0); TNum (NInt 1); TNum (NInt 2)].
Example C45_case : sortable some_numbers /\ some_numbers <> [] /\
  @grounded PyEx 3 (TTup some_numbers) [] = Ok (TTup some_numbers) /\ list_of (TTup some_numbers) some_numbers /\
  py_sorted some_numbers = Ok [TNum (flt 1 0); TNum (NInt 1); TNum (NInt 2); TNum (NInt 3)] /\
  py_min some_numbers = Ok (TNum (flt 1 0)) /\ py_max some_numbers = Ok (TNum (NInt 3)) /\
  to_flt (TNum (flt 3 (-1))) = Ok (binary_normalize prec emax 3 (-1) false) /\
  flt_to_Z rnd_even (binary_normalize prec emax 3 (-1) false) = Ok 2%Z /\
  flt_to_Z rnd_even (binary_normalize prec emax 5 (-1) false) = Ok 2%Z.
Proof.
  split; [left; repeat constructor; do 2 eexists; (split; [reflexivity|vm_compute; reflexivity])|].
  split; [discriminate|]. split; [vm_compute; reflexivity|]. split; [constructor|].
  split; [vm_compute; reflexivity|]. split; [vm_compute; reflexivity|]. split; [vm_compute; reflexivity|].
  split; [vm_compute; reflexivity|]. split; vm_compute; reflexivity.
Qed.

(** C46.  [v] is the value of the argument, [k] its kind. *)
Theorem C46_tests : forall (PY : Py) f d t s v k b,
  grounded d t s = Ok v -> has_kind v k -> test_says f k = Some b -> answers f [t] s b.
Proof. exact @test_answers. Qed.
Print Assumptions C46_tests.

Theorem C46_unbound : forall (PY : Py) f x s, bound s x = false ->
  In f [".atom"; ".literal"; ".list"; ".number"; ".string"; ".structure"]%string -> answers f [TVar x] s false.
Proof. exact @test_unbound. Qed.
Print Assumptions C46_unbound.

(** [is_ground] is characterised by C07. *)
Theorem C46_ground : forall (PY : Py), exists ac, actions_lookup ext_actions (s2p ".ground") 1 = Ok ac /\
  forall (FR : Front) a i st W t d b c,
    is_ground d (TLit (s2p ".ground") [t] []) (b_scope st) = Ok b -> (2 <= List.length c)%nat ->
    exists n0, forall n, (n0 <= n)%nat ->
      fst (drive c n a i (GQ (QAct ac (TLit (s2p ".ground") [t] []))) (st, W)) = (if b : bool then [b_scope st] else [], Exhausted).
Proof. exact @ground_answers. Qed.
Print Assumptions C46_ground.

Example C46_case : @grounded PyEx 3 (TVar 0) [(0%N, TLit (s2p "p") [TNum (NInt 1)] [])] = Ok (TLit (s2p "p") [TNum (NInt 1)] []) /\
  has_kind (TLit (s2p "p") [TNum (NInt 1)] []) KStruct /\
  map (fun f => test_says f KStruct) [".atom"; ".literal"; ".list"; ".number"; ".string"; ".structure"]%string =
    map Some [false; true; false; false; false; true].
Proof. split; [vm_compute; reflexivity|]. split; [constructor|reflexivity]. Qed.

(** C47.  .print with any number of arguments writes one line: the agent's name,
    the texts of the values, separated by spaces.  Nothing else changes. *)
Theorem C47_print : forall (PY : Py), exists ac, (forall k, actions_lookup ext_actions (s2p ".print") k = Ok ac) /\
  forall (FR : Front) a i st W args vs annots d,
    Forall2 (fun t v => grounded d t (b_scope st) = Ok v) args vs ->
    exists n0, forall n, (n0 <= n)%nat -> forall g, g = GQ (QAct ac (TLit (s2p ".print") args annots)) ->
      resume n a i g (st, W) =
        (Ok (Some GStop), (st, set_out W ((a_name (get_agent W a), joins (s2p " ") (map asl_str vs)) :: w_out W))).
Proof. exact @print_prints. Qed.
Print Assumptions C47_print.

Example C47_case : Forall2 (fun t v => @grounded PyEx 9 t [(0%N, TNum (NInt 7))] = Ok v)
    [TStr (s2p "x is"); TVar 0; TTup [TStr (s2p "a"); TBin (BNum NAdd) (TVar 0) (TNum (NInt 1))]]
    [TStr (s2p "x is"); TNum (NInt 7); TTup [TStr (s2p "a"); TNum (NInt 8)]] /\
  joins (s2p " ") (map (@asl_str PyEx) [TStr (s2p "x is"); TNum (NInt 7); TTup [TStr (s2p "a"); TNum (NInt 8)]]) = s2p "x is 7 [a, 8]".
Proof. split; [repeat (constructor; [vm_compute; reflexivity|]); constructor|vm_compute; reflexivity]. Qed.

(** C48.  .wait(ms), .wait("event") and .wait("event", ms) suspend the calling
    intention, and nothing else: until the time, [ms] / 1000 seconds from now ... *)
Theorem C48_time : forall (PY : Py) (FR : Front) a i st W annots d t x u,
  grounded d t (b_scope st) = Ok (TNum x) ->
  rbind (num_op fpow NTruediv x (NInt 1000)) (num_op fpow NAdd (py_time (w_reads W))) = Ok u ->
  exists n0, forall n, (n0 <= n)%nat ->
    resume n a i (GQ (QAct AWait (TLit (s2p ".wait") [t] annots))) (st, W) =
      (Ok (Some GStop), (st, wait_state i None (Some u) (set_reads W (N.succ (w_reads W))))).
Proof. exact @wait_time. Qed.
Print Assumptions C48_time.

(** ... until the event that the text describes (the final dot is optional) ... *)
Theorem C48_event : forall (PY : Py) (FR : Front) a i st W annots d t text full ev k,
  grounded d t (b_scope st) = Ok (TStr text) -> dotted text full -> fr_event full (w_nv W) = Ok (ev, k) ->
  exists n0, forall n, (n0 <= n)%nat ->
    resume n a i (GQ (QAct AWait (TLit (s2p ".wait") [t] annots))) (st, W) =
      (Ok (Some GStop), (st, wait_state i (Some ev) None (set_nv W k))).
Proof. exact @wait_event. Qed.
Print Assumptions C48_event.

(** ... or whichever comes first. *)
Theorem C48_event_or_time : forall (PY : Py) (FR : Front) a i st W annots d t t2 text full ev k x u,
  grounded d t (b_scope st) = Ok (TStr text) -> dotted text full -> fr_event full (w_nv W) = Ok (ev, k) ->
  grounded d t2 (b_scope st) = Ok (TNum x) ->
  rbind (num_op fpow NTruediv x (NInt 1000)) (num_op fpow NAdd (py_time (w_reads W))) = Ok u ->
  exists n0, forall n, (n0 <= n)%nat ->
    resume n a i (GQ (QAct AWait (TLit (s2p ".wait") [t; t2] annots))) (st, W) =
      (Ok (Some GStop), (st, wait_state i (Some ev) (Some u) (set_reads (set_nv W k) (N.succ (w_reads W))))).
Proof. exact @wait_event_time. Qed.
Print Assumptions C48_event_or_time.

Theorem C48_refused : forall (PY : Py) (FR : Front) a i st W annots d t v,
  grounded d t (b_scope st) = Ok v -> match v with TNum _ | TStr _ => False | _ => True end ->
  exists n0, forall n, (n0 <= n)%nat ->
    resume n a i (GQ (QAct AWait (TLit (s2p ".wait") [t] annots))) (st, W) = (Err EAsl, (st, W)).
Proof. exact @wait_refused. Qed.
Print Assumptions C48_refused.

Theorem C48_names : actions_lookup ext_actions (s2p ".wait") 1 = Ok AWait /\ actions_lookup ext_actions (s2p ".wait") 2 = Ok AWait.
Proof. split; vm_compute; reflexivity. Qed.
Print Assumptions C48_names.

(** 1500 ms at time 5. *)
Example C48_case : rbind (@num_op (@fpow PyEx) NTruediv (NInt 1500) (NInt 1000)) (@num_op (@fpow PyEx) NAdd (@py_time PyEx 5)) = Ok (flt 13 (-1)) /\
  dotted (s2p "+done") (s2p "+done.") /\ dotted (s2p "+done.") (s2p "+done.").
Proof.
  split; [vm_compute; reflexivity|]. split.
  - right. split; [|reflexivity]. intros x H. apply (f_equal (fun l => last l 0%N)) in H. rewrite last_last in H. discriminate H.
  - left. exists (s2p "+done"). split; reflexivity.
Qed.
