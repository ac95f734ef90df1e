(** C06-C10, C42, C43: freezing, grounding, returning from subgoals, annotations,
    resuming, comparison, lists.  Specification: TermSpec.v, InstSpec.v,
    AnnotSpec.v, WildSpec.v, CmpSpec.v, OrderSpec.v, TrailSpec.v. *)
From Verif Require Import Base Num Term Unify EnumSpec OrderSpec TermSpec InstSpec WildSpec AnnotSpec CmpSpec TrailSpec ChainFacts ExPy.
From Verif Require Import OrderCor UnifyCor UnifyWild PatMatch FreezeFacts GroundFacts BackUnify AnnotFacts AnnotFlat CmpFacts RefTerm ResumeVar UnifyTotal.
From Coq Require Import SpecFloat Lia.

(** C06.  The frozen term is the copy of [t] in which bindings are substituted,
    expressions evaluated and each unbound variable replaced according to the
    memo [m], a one-to-one map from unbound variables to brand new ones (those
    from [k] on); it mentions no other variables.  (The scope is an input only.) *)
Theorem C06_freeze_copy : forall (PY : Py), PyLawful PY -> forall n t s k t' m k',
  freeze n t s ([], k) = (Ok t', (m, k')) ->
  inst s (memo_get m) t t' /\
  (forall v x, memo_get m v = Some x -> lookup s v = None /\ (k <= x < k')%N) /\
  (forall v w x, memo_get m v = Some x -> memo_get m w = Some x -> v = w) /\
  (forall x, mentions x t' -> (k <= x < k')%N).
Proof. exact @freeze_copy. Qed.
Print Assumptions C06_freeze_copy.

(** A term that has such a copy can be frozen. *)
Theorem C06_freeze_total : forall (PY : Py), PyLawful PY -> forall s t t' rho,
  chain_ok s -> inst s rho t t' ->
  exists n0, forall n k, (n0 <= n)%nat -> exists r m, freeze n t s ([], k) = (Ok r, m).
Proof. exact @freeze_finishes. Qed.
Print Assumptions C06_freeze_total.

(** C07.  grounded returns a variable-free instance of the term ... *)
Theorem C07_grounded_instance : forall (PY : Py), PyLawful PY -> forall n t s t',
  grounded n t s = Ok t' -> inst s (fun _ => None) t t' /\ ground t'.
Proof. exact @grounded_inst. Qed.
Print Assumptions C07_grounded_instance.

(** ... whenever there is one. *)
Theorem C07_grounded_iff : forall (PY : Py), PyLawful PY -> forall s t, chain_ok s ->
  (exists n r, grounded n t s = Ok r) <-> exists t', inst s (fun _ => None) t t' /\ ground t'.
Proof. exact @grounded_iff. Qed.
Print Assumptions C07_grounded_iff.

(** is_ground predicts the outcome of grounded. *)
Theorem C07_is_ground_agrees : forall (PY : Py) n t s, exprless t -> exprless_scope s ->
  match is_ground n t s with
  | Ok true => exists t', grounded n t s = Ok t'
  | Ok false => grounded n t s = Err EAsl
  | Err e => grounded n t s = Err e
  end.
Proof. exact @is_ground_agree. Qed.
Print Assumptions C07_is_ground_agrees.

(** C08.  [t] is called with caller state [st]: it is frozen with the caller's
    scope, the callee runs and leaves any scope [sk], the finished goal [frozen]
    is frozen with [sk].  The result [R] unifies with [t] in the caller's scope,
    unless it contains NaN. *)
Theorem C08_back_unification : forall (PY : Py), PyLawful PY ->
  forall ex n1 n2 t st k frozen m1 k1 sk k2 R m2 k3,
  wplain (b_scope st) ex t -> wplain_scope (b_scope st) ex (b_scope st) ->
  chain_ok (b_scope st) -> acyclic (b_scope st) -> older k t -> older_scope k (b_scope st) ->
  freeze n1 t (b_scope st) ([], k) = (Ok frozen, (m1, k1)) ->
  chain_ok sk -> (k <= k2)%N ->
  freeze n2 frozen sk ([], k2) = (Ok R, (m2, k3)) -> nonan R ->
  exists n0 st', forall n, (n0 <= n)%nat -> unify n t R st = (Ok true, st').
Proof. exact @back_unify. Qed.
Print Assumptions C08_back_unification.

(** Afterwards the calling term has the value of the result. *)
Theorem C08_back_unification_value : forall (PY : Py) ex n t R st st',
  plain (b_scope st) ex t -> plain (b_scope st) ex R ->
  plain_scope (b_scope st) ex (b_scope st) -> chain_ok (b_scope st) ->
  unify n t R st = (Ok true, st') ->
  forall th, agrees ex th (b_scope st') -> value ex th t = value ex th R.
Proof. intros. eapply (@unify_mgu PY ex n t R st true st'); eassumption. Qed.
Print Assumptions C08_back_unification_value.

(** With NaN in the goal, back unification fails. *)
Theorem C08_nan_refuted :
  exists t st k n1 frozen m1 n2 R m2,
    @freeze PyEx n1 t (b_scope st) ([], k) = (Ok frozen, m1) /\
    @freeze PyEx n2 frozen [] ([], snd m1) = (Ok R, m2) /\
    forall n, exists st', @unify PyEx (3 + n) t R st = (Ok false, st').
Proof. exact back_unify_nan. Qed.
Print Assumptions C08_nan_refuted.

(** C09.  If annotated matching succeeds, every assignment that agrees with the
    new scope makes the literals equal and pairs the annotations of [l] with
    different annotations of [r]. *)
Theorem C09_annotations_sound : forall (PY : Py) ex n l r st cp st',
  aplain (b_scope st) ex l -> aplain (b_scope st) ex r ->
  aplain_scope (b_scope st) ex (b_scope st) -> chain_ok (b_scope st) ->
  uann n l r st = (Ok (Some cp), st') ->
  forall th, agrees ex th (b_scope st') -> agrees ex th (b_scope st) /\ amatch (b_scope st) ex th l r.
Proof. exact @uann_sound_top. Qed.
Print Assumptions C09_annotations_sound.

(** For variable-free annotations it succeeds exactly if the literals unify and
    each annotation of [l] has an equal one in [r]. *)
Theorem C09_annotations_flat : forall (PY : Py) f args las f' args' ras st,
  Forall flat las -> distinct las -> Forall flat ras -> distinct ras ->
  (exists n cp st', uann n (TLit f args las) (TLit f' args' ras) st = (Ok (Some cp), st')) <->
  (exists n st', unify n (TLit f args las) (TLit f' args' ras) st = (Ok true, st')) /\
  (forall la, In la las -> exists ra, In ra ras /\ flat_value la = flat_value ra).
Proof. exact @uann_flat_iff. Qed.
Print Assumptions C09_annotations_flat.

(** With variables in annotations matching is greedy: a match that exists may be
    missed, depending on the iteration order of the set. *)
Theorem C09_greedy_refuted :
  exists l r ex th, amatch [] ex th l r /\
    forall n, exists st', @uann PyEx (5 + n) l r (mkbst [] [] 0) = (Ok None, st').
Proof. exact annotations_greedy. Qed.
Print Assumptions C09_greedy_refuted.

(** C10.  Resuming after the solution, whatever history [os] came in between,
    restores scope and stack exactly, unless a literal was matched with an
    unbound variable. *)
Theorem C10_resume_exact : forall (PY : Py) n l r st cp st1 os,
  (is_literal l = false \/
   forall k r', evaluate k r (b_scope st) = Ok r' -> match r' with TVar _ | TWild _ => False | _ => True end) ->
  uann n l r st = (Ok (Some cp), st1) ->
  let st2 := uann_resume cp (run_bops os st1) in
  b_scope st2 = b_scope st /\ b_stack st2 = b_stack st.
Proof. exact @uann_resume_exact. Qed.
Print Assumptions C10_resume_exact.

(** Without solution nothing is left bound. *)
Theorem C10_no_solution_exact : forall (PY : Py) n l r st st1,
  uann n l r st = (Ok None, st1) -> b_scope st1 = b_scope st /\ b_stack st1 = b_stack st.
Proof. exact @uann_none_exact. Qed.
Print Assumptions C10_no_solution_exact.

(** For a literal and an unbound variable, resuming also removes older
    bindings. *)
Theorem C10_variable_refuted :
  exists n l r st cp st1, @uann PyEx n l r st = (Ok (Some cp), st1) /\
    b_scope st <> [] /\ b_scope (uann_resume cp st1) = [] /\ b_stack (uann_resume cp st1) = [].
Proof. exact resume_clears. Qed.
Print Assumptions C10_variable_refuted.

(** In that case everything recorded on the stack, choicepoints of enclosing
    queries included, is undone. *)
Theorem C10_variable_unwinds : forall (PY : Py) n f args an v st cp st1,
  uann n (TLit f args an) (TVar v) st = (Ok (Some cp), st1) -> lookup (b_scope st) v = None ->
  (forall c, In (ECP c) (b_stack st) -> (c < b_ncp st)%N) ->
  lookup (b_scope st1) v = Some (TLit f args an) /\
  b_stack (uann_resume cp st1) = [] /\ lookup (b_scope (uann_resume cp st1)) v = None /\
  (forall w, In (EVar w) (b_stack st) -> lookup (b_scope (uann_resume cp st1)) w = None) /\
  (forall w, w <> v -> ~ In (EVar w) (b_stack st) -> lookup (b_scope (uann_resume cp st1)) w = lookup (b_scope st) w).
Proof. exact @variable_unwinds. Qed.
Print Assumptions C10_variable_unwinds.

(** C42.  [\==] is the negation of [==] and raises the same errors. *)
Theorem C42_ne_not_eq : forall (PY : Py) n s l r,
  evaluate n (TBin BNe l r) s =
  match evaluate n (TBin BEq l r) s with Ok (TBool b) => Ok (TBool (negb b)) | Ok v => Ok v | Err e => Err e end.
Proof. exact @ne_not_eq. Qed.
Print Assumptions C42_ne_not_eq.

(** Numbers, integers and floats alike, are compared by their mathematical
    value. *)
Theorem C42_numbers : forall (PY : Py) n s x y a b, ereal_of x = Some a -> ereal_of y = Some b ->
  (exists e, evaluate (S (S n)) (TBin BEq (TNum x) (TNum y)) s = Ok (TBool e) /\ (e = true <-> ereal_eq a b)) /\
  forall c, exists o, evaluate (S (S n)) (TBin (BCmp c) (TNum x) (TNum y)) s = Ok (TBool o) /\
    (o = true <-> cop_holds c (ereal_lt a b) (ereal_eq a b) (ereal_lt b a)).
Proof. exact @cmp_numbers. Qed.
Print Assumptions C42_numbers.

(** NaN is neither equal, less nor greater. *)
Theorem C42_nan : forall (PY : Py) n s x y, ereal_of x = None \/ ereal_of y = None ->
  evaluate (S (S n)) (TBin BEq (TNum x) (TNum y)) s = Ok (TBool false) /\
  forall c, evaluate (S (S n)) (TBin (BCmp c) (TNum x) (TNum y)) s = Ok (TBool false).
Proof. exact @cmp_nan. Qed.
Print Assumptions C42_nan.

Theorem C42_strings : forall (PY : Py) n s x y,
  (exists e, evaluate (S (S n)) (TBin BEq (TStr x) (TStr y)) s = Ok (TBool e) /\ (e = true <-> x = y)) /\
  forall c, exists o, evaluate (S (S n)) (TBin (BCmp c) (TStr x) (TStr y)) s = Ok (TBool o) /\
    (o = true <-> cop_holds c (lex_lt x y) (x = y) (lex_lt y x)).
Proof. exact @cmp_strings. Qed.
Print Assumptions C42_strings.

Theorem C42_atoms : forall (PY : Py), PyLawful PY -> forall n s x y,
  (exists e, evaluate (S (S n)) (TBin BEq (TLit x [] []) (TLit y [] [])) s = Ok (TBool e) /\ (e = true <-> x = y)) /\
  forall c, exists o, evaluate (S (S n)) (TBin (BCmp c) (TLit x [] []) (TLit y [] [])) s = Ok (TBool o) /\
    (o = true <-> cop_holds c (lex_lt x y) (x = y) (lex_lt y x)).
Proof. exact @cmp_atoms. Qed.
Print Assumptions C42_atoms.

(** The orders used above are total orders. *)
Theorem C42_number_order : forall a b c,
  (ereal_lt a b \/ ereal_eq a b \/ ereal_lt b a) /\
  (~ (ereal_lt a b /\ ereal_lt b a) /\ ~ (ereal_lt a b /\ ereal_eq a b)) /\
  (ereal_lt a b -> ereal_lt b c -> ereal_lt a c).
Proof. exact ereal_order. Qed.
Print Assumptions C42_number_order.

Theorem C42_string_order : forall a b c,
  (lex_lt a b \/ a = b \/ lex_lt b a) /\
  (~ (lex_lt a b /\ lex_lt b a) /\ ~ (lex_lt a b /\ a = b)) /\
  (lex_lt a b -> lex_lt b c -> lex_lt a c).
Proof. exact lex_order. Qed.
Print Assumptions C42_string_order.

(** Values of any kind: OrderSpec.v says when they are equal and how they
    compare. *)
Theorem C42_equal_values : forall (PY : Py) n s l r v w, valued n s l v -> valued n s r w -> is_data v -> is_data w ->
  exists b, evaluate (S n) (TBin BEq l r) s = Ok (TBool b) /\ (b = true <-> same v w).
Proof. exact @equal_values. Qed.
Print Assumptions C42_equal_values.

(** Values that do not compare raise an error. *)
Theorem C42_ordered_values : forall (PY : Py) n s l r v w, valued n s l v -> valued n s r w -> is_data v -> is_data w ->
  (forall o, compared v w o -> forall c, evaluate (S n) (TBin (BCmp c) l r) s = Ok (TBool (answers c o))) /\
  ((forall o, ~ compared v w o) -> forall c, evaluate (S n) (TBin (BCmp c) l r) s = Err EType).
Proof. exact @ordered_values. Qed.
Print Assumptions C42_ordered_values.

(** [1, 2] is less than [1, 2, 3], p(1, 0) less than p(true, 1); p(1) and p(1, 2)
    do not compare. *)
Example C42_case_values :
  @valued PyEx 3 [] (TTup [TNum (NInt 1); TNum (NInt 2)]) (TTup [TNum (NInt 1); TNum (NInt 2)]) /\
  compared (TTup [TNum (NInt 1); TNum (NInt 2)]) (TLL (TNum (NInt 1)) (TTup [TNum (NInt 2); TNum (NInt 3)])) (Some Lt) /\
  compared (TLit (s2p "p") [TNum (NInt 1); TNum (NInt 0)] []) (TLit (s2p "p") [TBool true; TNum (NInt 1)] []) (Some Lt) /\
  (forall o, ~ compared (TLit (s2p "p") [TNum (NInt 1)] []) (TLit (s2p "p") [TNum (NInt 1); TNum (NInt 2)] []) o).
Proof. exact (conj two_valued (conj lists_less (conj lits_less lits_apart))). Qed.

(** C43.  [norm t] writes all lists of [t] whose end is known without [|].  This
    changes neither equality ... *)
Theorem C43_equality : forall l r, nonan l -> nonan r -> py_eqb (norm l) (norm r) = py_eqb l r.
Proof. exact @py_eqb_norm_iff. Qed.
Print Assumptions C43_equality.

Theorem C43_equal : forall t, nonan t -> py_eqb t (norm t) = true.
Proof. exact @py_eqb_norm. Qed.
Print Assumptions C43_equal.

(** ... nor the answer and the solutions of unification. *)
Theorem C43_unify : forall (PY : Py) ex n m l r st b1 st1 b2 st2,
  plain (b_scope st) ex l -> plain (b_scope st) ex r ->
  plain_scope (b_scope st) ex (b_scope st) -> chain_ok (b_scope st) ->
  unify n l r st = (Ok b1, st1) -> unify m (norm l) (norm r) st = (Ok b2, st2) ->
  b1 = b2 /\ (b1 = true -> forall th, agrees ex th (b_scope st1) <-> agrees ex th (b_scope st2)).
Proof. exact @unify_norm. Qed.
Print Assumptions C43_unify.

(** If the equation in one notation is answered True and has a (finite) solution,
    it is answered in the other. *)
Theorem C43_both_answer : forall (PY : Py) ex n l r l' r' st st1,
  (l' = norm l /\ r' = norm r) \/ (l = norm l' /\ r = norm r') ->
  plain (b_scope st) ex l -> plain (b_scope st) ex r -> plain (b_scope st) ex l' -> plain (b_scope st) ex r' ->
  plain_scope (b_scope st) ex (b_scope st) -> chain_ok (b_scope st) ->
  unify n l r st = (Ok true, st1) -> (exists th, agrees ex th (b_scope st1)) ->
  exists m0 st2, (forall m, (m0 <= m)%nat -> unify m l' r' st = (Ok true, st2)) /\
    forall th, agrees ex th (b_scope st1) <-> agrees ex th (b_scope st2).
Proof. exact @norm_both_answer. Qed.
Print Assumptions C43_both_answer.

(** * The hypotheses are met *)

(** X0 bound to [X1, 2], X3 unbound: g(X0, X1 - here unbound -, 1 + 2, X3)[X3]. *)
Definition t6 : term :=
  TLit (s2p "g") [TVar 0; TVar 1; TBin (BNum NAdd) (TNum (NInt 1)) (TNum (NInt 2)); TVar 3] [TVar 3].
Definition s6 : scope := [(0%N, TTup [TVar 1; TNum (NInt 2)])].
Example ex_freeze : @freeze PyEx 9 t6 s6 ([], 10%N) =
  (Ok (TLit (s2p "g") [TTup [TVar 10; TNum (NInt 2)]; TVar 10; TNum (NInt 3); TVar 11] [TVar 11]),
   ([(3%N, 11%N); (1%N, 10%N)], 12%N)).
Proof. reflexivity. Qed.
Example ex_grounded : @grounded PyEx 9 (TVar 0) [(0%N, TTup [TVar 1; TNum (NInt 2)]); (1%N, atom "a")] =
  Ok (TTup [atom "a"; TNum (NInt 2)]).
Proof. reflexivity. Qed.
Example ex_grounded_fails : is_ground 9 (TVar 0) s6 = Ok false /\ @grounded PyEx 9 (TVar 0) s6 = Err EAsl.
Proof. split; reflexivity. Qed.

(** C08: caller scope s6, the callee binds the fresh X10 to "x" and X11 to h(X20). *)
Definition st6 : bst := mkbst s6 [EVar 0] 0.
Definition sk6 : scope := [(10%N, TStr (s2p "x")); (11%N, TLit (s2p "h") [TVar 20] [])].
Definition R6 : term :=
  TLit (s2p "g") [TTup [TStr (s2p "x"); TNum (NInt 2)]; TStr (s2p "x"); TNum (NInt 3);
    TLit (s2p "h") [TVar 30] []] [TLit (s2p "h") [TVar 30] []].
Example ex_return : exists m, @freeze PyEx 9
  (TLit (s2p "g") [TTup [TVar 10; TNum (NInt 2)]; TVar 10; TNum (NInt 3); TVar 11] [TVar 11]) sk6 ([], 30%N) = (Ok R6, m).
Proof. eexists. reflexivity. Qed.
Definition ex6 (t : term) : term := TNum (NInt 3).
Example ex_wplain : @wplain PyEx s6 ex6 t6.
Proof. repeat constructor. exists 4%nat. reflexivity. Qed.
Example ex_wplain_scope : @wplain_scope PyEx s6 ex6 s6.
Proof. intros v t H. cbn in H. destruct (N.eqb v 0); [|discriminate]. injection H as <-. repeat constructor. Qed.
Example ex_chain_ok : chain_ok s6.
Proof. intros v H. unfold deref in H. cbn in H. destruct (N.eqb v 0); discriminate. Qed.
Example ex_acyclic : acyclic s6.
Proof.
  exists (fun v => if N.eqb v 0 then 1%nat else 0%nat). intros v t w H Ho. cbn in H. destruct (N.eqb v 0); [|discriminate].
  injection H as <-. inversion Ho as [| |? HE|]; subst. inversion HE as [? ? H1|? ? H1]; subst.
  - inversion H1; subst. cbn. lia.
  - inversion H1 as [? ? H2|? ? H2]; subst; inversion H2.
Qed.
Example ex_older : older 10 t6 /\ older_scope 10 s6.
Proof.
  split.
  - intros v H. repeat match goal with
      | H : mentions _ ?t |- _ => inversion H; clear H; subst
      | H : Exists _ _ |- _ => inversion H; clear H; subst
      | H : _ \/ _ |- _ => destruct H
      end; lia.
  - intros v t H. cbn in H. destruct (N.eqb v 0) eqn:E; [|discriminate]. injection H as <-. apply N.eqb_eq in E. subst.
    split; [lia|]. intros v H. repeat match goal with
      | H : mentions _ ?t |- _ => inversion H; clear H; subst
      | H : Exists _ _ |- _ => inversion H; clear H; subst
      end; lia.
Qed.
Example ex_nonan : nonan R6.
Proof. repeat constructor. Qed.
Example ex_back : exists st', @unify PyEx 9 t6 R6 st6 = (Ok true, st') /\
  @grounded PyEx 9 (TVar 0) (b_scope st') = Ok (TTup [TStr (s2p "x"); TNum (NInt 2)]).
Proof. eexists. split; reflexivity. Qed.

(** C09: p(X0)[source(X1), a] matches p(1)[b, a, source(bob)]. *)
Definition l9 := TLit (s2p "p") [TVar 0] [TLit (s2p "source") [TVar 1] []; atom "a"].
Definition r9 := TLit (s2p "p") [TNum (NInt 1)] [atom "b"; atom "a"; TLit (s2p "source") [atom "bob"] []].
Example ex_annot : exists cp st', @uann PyEx 9 l9 r9 (mkbst [] [] 0) = (Ok (Some cp), st') /\
  lookup (b_scope st') 1 = Some (atom "bob") /\ b_scope (uann_resume cp st') = [].
Proof. do 2 eexists. repeat split; reflexivity. Qed.
Example ex_aplain : @aplain PyEx [] (fun t => t) l9 /\ @aplain PyEx [] (fun t => t) r9.
Proof. split; repeat constructor. Qed.
Example ex_flat : Forall flat [atom "b"; atom "a"] /\ distinct [atom "b"; atom "a"].
Proof. split; repeat constructor. Qed.

(** C42: 0.1 is not 1/10 but 3602879701896397 * 2^-55. *)
Example ex_tenth : ereal_of (NFlt (S754_finite false 7205759403792794 (-56))) = Some (Fin 7205759403792794 (-56)) /\
  ereal_lt (Fin 0 0) (Fin 7205759403792794 (-56)) /\ ereal_lt (Fin 7205759403792794 (-56)) (Fin 1 0) /\
  ereal_eq (Fin 3 0) (Fin 6755399441055744 (-51)).
Proof. repeat split. Qed.
Example ex_int_float :
  @evaluate PyEx 3 (TBin BEq (TNum (NInt 3)) (TNum (NFlt (S754_finite false 6755399441055744 (-51))))) [] = Ok (TBool true).
Proof. reflexivity. Qed.
Example ex_lex : lex_lt (s2p "Zebra") (s2p "a") /\ lex_lt (s2p "ab") (s2p "abc").
Proof. split; [now apply ll_head|]. do 2 apply ll_tail. apply ll_nil. Qed.

(** C43 *)
Example ex_norm :
  norm (TLit (s2p "f") [TLL (TNum (NInt 1)) (TLL (TVar 0) (TTup [TVar 1])); TLL (TVar 2) (TVar 3)] []) =
  TLit (s2p "f") [TTup [TNum (NInt 1); TVar 0; TVar 1]; TLL (TVar 2) (TVar 3)] [].
Proof. reflexivity. Qed.

(** C10_variable_unwinds: p(1) = X within a query that has bound Y. *)
Example C10_case_unwinds :
  let st := mkbst [(4%N, TBool true)] [EVar 4; ECP 0] 1 in
  exists cp st1, @uann PyEx 5 (TLit (s2p "p") [TNum (NInt 1)] []) (TVar 3) st = (Ok (Some cp), st1) /\
    lookup (b_scope st) 3 = None /\ (forall c, In (ECP c) (b_stack st) -> (c < b_ncp st)%N) /\
    uann_resume cp st1 = mkbst [] [] 2.
Proof.
  do 2 eexists. split; [reflexivity|]. split; [reflexivity|]. split; [|reflexivity].
  intros c [H|[H|[]]]; [discriminate H|]. injection H as <-. reflexivity.
Qed.
