(** What the functions and tests of the action library should compute. *)
From Verif Require Import Base Num Term Unify Str World Engine Names CmpSpec QuerySpec EnumSpec.
From Coq Require Import QArith Sorting.Permutation Sorting.Sorted.

Section WithPy.
Context {PY : Py}.

(** ** Calling an action *)

(** [f(ins..., x)] in scope [s] has the one solution in which [x] is [v], or none
    if [x] is something else. *)
Definition gives (f : string) (ins : list term) (s : scope) (v : term) : Prop :=
  exists ac, actions_lookup ext_actions (s2p f) (S (List.length ins)) = Ok ac /\
  forall (FR : Front) a i st W x annots d b st1 c,
    b_scope st = s -> unify d x v (mkbst s [] 0) = (Ok b, st1) -> (2 <= List.length c)%nat ->
    exists n0, forall n, (n0 <= n)%nat ->
      fst (drive c n a i (GQ (QAct ac (TLit (s2p f) (ins ++ [x]) annots))) (st, W)) =
        (if b : bool then [b_scope st1] else [], Exhausted).

(** [f(ins...)] in scope [s] holds (once, without binding anything) or not. *)
Definition answers (f : string) (ins : list term) (s : scope) (b : bool) : Prop :=
  exists ac, actions_lookup ext_actions (s2p f) (List.length ins) = Ok ac /\
  forall (FR : Front) a i st W annots c,
    b_scope st = s -> (2 <= List.length c)%nat ->
    exists n0, forall n, (n0 <= n)%nat ->
      fst (drive c n a i (GQ (QAct ac (TLit (s2p f) ins annots))) (st, W)) =
        (if b then [s] else [], Exhausted).

(** [f(ins..., x)] in scope [s] raises [e], whatever [x] is. *)
Definition raises (f : string) (ins : list term) (s : scope) (e : exc) : Prop :=
  exists ac, actions_lookup ext_actions (s2p f) (S (List.length ins)) = Ok ac /\
  forall (FR : Front) a i st W x annots c,
    b_scope st = s -> (1 <= List.length c)%nat ->
    exists n0, forall n, (n0 <= n)%nat ->
      fst (drive c n a i (GQ (QAct ac (TLit (s2p f) (ins ++ [x]) annots))) (st, W)) = ([], Raised e).

(** ** Order *)

(** [x] is less than [y]. *)
Inductive below : term -> term -> Prop :=
| bl_num x y a b : ereal_of x = Some a -> ereal_of y = Some b -> ereal_lt a b -> below (TNum x) (TNum y)
| bl_str x y : lex_lt x y -> below (TStr x) (TStr y)
| bl_atom x y : lex_lt x y -> below (TLit x [] []) (TLit y [] []).

(** Numbers (no NaN), strings or atoms; not a mixture. *)
Definition sortable (l : list term) : Prop :=
  Forall (fun t => exists x a, t = TNum x /\ ereal_of x = Some a) l \/
  Forall (fun t => exists x, t = TStr x) l \/
  Forall (fun t => exists x, t = TLit x [] []) l.

(** The first of the greatest, the first of the least items of [l]. *)
Definition greatest (m : term) (l : list term) : Prop :=
  exists pre post, l = pre ++ m :: post /\ Forall (fun x => below x m) pre /\ Forall (fun x => ~ below m x) post.
Definition least (m : term) (l : list term) : Prop :=
  exists pre post, l = pre ++ m :: post /\ Forall (fun x => below m x) pre /\ Forall (fun x => ~ below x m) post.

(** [l'] are the items of [l], ordered by value, and by position in [l] if the
    values are equal. *)
Definition sorted_as (l l' : list term) : Prop :=
  exists p : list nat, Permutation p (seq 0 (List.length l)) /\
    map Some l' = map (nth_error l) p /\
    StronglySorted (fun i j => forall x y, nth_error l i = Some x -> nth_error l j = Some y ->
      below x y \/ ~ below y x /\ (i < j)%nat) p.

(** ** Rounding *)
Definition is_floor (q : Q) (z : Z) : Prop := (inject_Z z <= q)%Q /\ (q < inject_Z (z + 1))%Q.
Definition is_ceil (q : Q) (z : Z) : Prop := (inject_Z (z - 1) < q)%Q /\ (q <= inject_Z z)%Q.
(** The nearest integer; the even one if there are two. *)
Definition is_round (q : Q) (z : Z) : Prop :=
  ((inject_Z z - (1 # 2) < q)%Q /\ (q < inject_Z z + (1 # 2))%Q) \/
  (Z.even z = true /\ ((q == inject_Z z - (1 # 2))%Q \/ (q == inject_Z z + (1 # 2))%Q)).

(** ** Kinds of terms *)
Inductive kind : Type := KNumber | KString | KBoolean | KList | KAtom | KStruct | KUnbound.
Inductive has_kind : term -> kind -> Prop :=
| hk_num x : has_kind (TNum x) KNumber
| hk_str x : has_kind (TStr x) KString
| hk_bool b : has_kind (TBool b) KBoolean
| hk_tup ts : has_kind (TTup ts) KList
| hk_ll h t : has_kind (TLL h t) KList
| hk_atom f : has_kind (TLit f [] []) KAtom
| hk_args f x xs annots : has_kind (TLit f (x :: xs) annots) KStruct
| hk_annots f y ys : has_kind (TLit f [] (y :: ys)) KStruct.

(** What .atom, .literal, .list, .number, .string and .structure say. *)
Definition test_says (f : string) (k : kind) : option bool :=
  if String.eqb f ".atom" then Some (match k with KAtom => true | _ => false end)
  else if String.eqb f ".literal" then Some (match k with KAtom | KStruct => true | _ => false end)
  else if String.eqb f ".list" then Some (match k with KList => true | _ => false end)
  else if String.eqb f ".number" then Some (match k with KNumber => true | _ => false end)
  else if String.eqb f ".string" then Some (match k with KString => true | _ => false end)
  else if String.eqb f ".structure" then Some (match k with KAtom | KStruct | KList => true | _ => false end)
  else None.

(** ** Waiting *)

(** [W] with intention [i] suspended until the event or the time. *)
Definition wait_state (i : nat) (ev : option event) (until : option Num.num) (W : world) : world :=
  put_int W i (set_i_wait (get_int W i) (Some (mkwaiter ev until))).

(** The event text with its final dot, which may be left out. *)
Definition dotted (text full : pystr) : Prop :=
  (exists x, text = x ++ [46%N] /\ full = text) \/ ((forall x, text <> x ++ [46%N]) /\ full = text ++ [46%N]).

End WithPy.
