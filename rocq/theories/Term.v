(** Terms: the run-time representation of AgentSpeak values
    (agentspeak/__init__.py:247-290, 362-403, 416-854). *)
From Verif Require Import Base Num.
From Coq Require Import Floats.SpecFloat Permutation.

(** UnaryOp (agentspeak/__init__.py:261-264). *)
Inductive unop : Type := UNot | UPos | UNeg.

(** BinaryOp (agentspeak/__init__.py:268-290).  [BNum] covers op_pow ... op_sub,
    [BCmp] op_lt, op_le, op_ge, op_gt. *)
Inductive binop : Type :=
| BNum (op : nop)
| BUnify | BDecompose
| BCmp (c : cop) | BEq | BNe
| BAnd | BOr.

(** Terms.  Variables and wildcards are objects compared by identity; the
    identity is the number.  A Python [str], [bool], [int]/[float] and [tuple]
    are [TStr], [TBool], [TNum] and [TTup].  [TLit] is [Literal] with functor,
    args and annots (the list order of annots is the iteration order of the
    frozenset), [TLL] is [LinkedList].  [TUn], [TBin] are [UnaryExpr],
    [BinaryExpr]; these are compared by identity in Python, structurally here
    (simplification). *)
Inductive term : Type :=
| TBool (b : bool)
| TNum (x : num)
| TStr (s : pystr)
| TVar (v : N)
| TWild (w : N)
| TUn (op : unop) (a : term)
| TBin (op : binop) (l r : term)
| TLit (f : pystr) (args annots : list term)
| TTup (ts : list term)
| TLL (h t : term).

(** Python callables whose results are not determined by the model: the random
    module, the wall clock date, and functions supplied by the user of the
    library through Actions.add_function, add_predicate, add_procedure. *)
Inductive pyfun : Type := PFRandom | PFRandint | PFDate | PFTime | PFCustom (k : N).

(** Oracles: the iteration order of hash sets, C's floating point power
    function, the results of opaque Python callables (given the number of
    earlier such calls), the clock (given the number of earlier readings), the
    text of floats and of variables, and [str.isalnum], [str.lower] of
    characters outside ASCII.  Everything in the model is parametrised over
    them. *)
Class Py : Type := {
  horder : list term -> list term;
  fpow : spec_float -> spec_float -> res num;
  py_call : pyfun -> N -> list term -> res term;
  py_time : N -> num;
  frepr : spec_float -> pystr;
  vname : N -> pystr;
  u_alnum : N -> bool;
  u_lower : N -> pystr
}.

(** The only assumption ever made about the iteration order. *)
Definition PyLawful (PY : Py) : Prop := forall l, Permutation (horder l) l.

Section TermInd.
  Variable P : term -> Prop.
  Hypothesis HBool : forall b, P (TBool b).
  Hypothesis HNum : forall x, P (TNum x).
  Hypothesis HStr : forall s, P (TStr s).
  Hypothesis HVar : forall v, P (TVar v).
  Hypothesis HWild : forall w, P (TWild w).
  Hypothesis HUn : forall op a, P a -> P (TUn op a).
  Hypothesis HBin : forall op l r, P l -> P r -> P (TBin op l r).
  Hypothesis HLit : forall f args annots, Forall P args -> Forall P annots -> P (TLit f args annots).
  Hypothesis HTup : forall ts, Forall P ts -> P (TTup ts).
  Hypothesis HLL : forall h t, P h -> P t -> P (TLL h t).

  Fixpoint term_ind' (t : term) : P t :=
    let fix go (l : list term) : Forall P l :=
      match l with
      | [] => Forall_nil P
      | x :: l' => Forall_cons x (term_ind' x) (go l')
      end in
    match t with
    | TBool b => HBool b
    | TNum x => HNum x
    | TStr s => HStr s
    | TVar v => HVar v
    | TWild w => HWild w
    | TUn op a => HUn op a (term_ind' a)
    | TBin op l r => HBin op l r (term_ind' l) (term_ind' r)
    | TLit f args annots => HLit f args annots (go args) (go annots)
    | TTup ts => HTup ts (go ts)
    | TLL h t => HLL h t (term_ind' h) (term_ind' t)
    end.
End TermInd.

Definition unop_eqb (a b : unop) : bool :=
  match a, b with UNot, UNot | UPos, UPos | UNeg, UNeg => true | _, _ => false end.

Definition nop_eqb (a b : nop) : bool :=
  match a, b with
  | NPow, NPow | NMul, NMul | NTruediv, NTruediv | NFloordiv, NFloordiv
  | NMod, NMod | NAdd, NAdd | NSub, NSub => true
  | _, _ => false
  end.

Definition cop_eqb (a b : cop) : bool :=
  match a, b with CLt, CLt | CLe, CLe | CGt, CGt | CGe, CGe => true | _, _ => false end.

Definition binop_eqb (a b : binop) : bool :=
  match a, b with
  | BNum x, BNum y => nop_eqb x y
  | BCmp x, BCmp y => cop_eqb x y
  | BUnify, BUnify | BDecompose, BDecompose | BEq, BEq | BNe, BNe
  | BAnd, BAnd | BOr, BOr => true
  | _, _ => false
  end.

(** A list seen as head and tail, in either representation. *)
Definition list_view (t : term) : option (term * term) :=
  match t with
  | TTup (x :: xs) => Some (x, TTup xs)
  | TLL h t => Some (h, t)
  | _ => None
  end.

Definition bool_num (b : bool) : num := NInt (if b then 1 else 0)%Z.

(** Python [==] on terms: [bool] and numbers compare by value, [Literal.__ne__]
    (714-720), [LinkedList.__ne__] (835-836: a linked list equals the tuple of
    its items), variables by identity.  Simplification: an improper list such
    as [[1|2]], for which Python raises TypeError, is compared structurally
    here; [py_eq] below adds the exception. *)
Fixpoint py_eqb (l r : term) {struct l} : bool :=
  match l with
  | TBool b =>
      match r with
      | TBool b' => Bool.eqb b b'
      | TNum y => num_eqb (bool_num b) y
      | _ => false
      end
  | TNum x =>
      match r with
      | TBool b => num_eqb x (bool_num b)
      | TNum y => num_eqb x y
      | _ => false
      end
  | TStr s => match r with TStr s' => pystr_eqb s s' | _ => false end
  | TVar v => match r with TVar v' => N.eqb v v' | _ => false end
  | TWild w => match r with TWild w' => N.eqb w w' | _ => false end
  | TUn op a => match r with TUn op' a' => unop_eqb op op' && py_eqb a a' | _ => false end
  | TBin op a b =>
      match r with
      | TBin op' a' b' => binop_eqb op op' && py_eqb a a' && py_eqb b b'
      | _ => false
      end
  | TLit f args annots =>
      match r with
      | TLit f' args' annots' =>
          pystr_eqb f f'
          && (fix go (xs ys : list term) : bool :=
                match xs, ys with
                | [], [] => true
                | x :: xs', y :: ys' => py_eqb x y && go xs' ys'
                | _, _ => false
                end) args args'
          && (fix sub (xs : list term) : bool :=
                match xs with
                | [] => true
                | x :: xs' => existsb (fun y => py_eqb x y) annots' && sub xs'
                end) annots
          && forallb (fun y => (fix ex (xs : list term) : bool :=
                match xs with
                | [] => false
                | x :: xs' => py_eqb x y || ex xs'
                end) annots) annots'
      | _ => false
      end
  | TTup ts =>
      (fix go (xs : list term) (y : term) : bool :=
         match xs with
         | [] => match y with TTup [] => true | _ => false end
         | x :: xs' =>
             match list_view y with
             | Some (yh, yt) => py_eqb x yh && go xs' yt
             | None => false
             end
         end) ts r
  | TLL h t =>
      match list_view r with
      | Some (rh, rt) => py_eqb h rh && py_eqb t rt
      | None => false
      end
  end.

(** Membership in a Python set (hash, then [==]). *)
Definition py_in (x : term) (l : list term) : bool := existsb (fun y => py_eqb y x) l.

(** [frozenset(l)]: later duplicates are dropped. *)
Fixpoint dedup (l : list term) : list term :=
  match l with
  | [] => []
  | x :: l' => x :: filter (fun y => negb (py_eqb x y)) (dedup l')
  end.

Definition mk_set {PY : Py} (l : list term) : list term := horder (dedup l).

(** Is the tail chain of a linked list a tuple?  Otherwise iterating over it
    raises TypeError (LinkedList.__iter__, 827-830).  Simplification: a string
    tail, which Python would iterate character by character, counts as
    improper. *)
Fixpoint proper (t : term) : bool :=
  match t with
  | TTup ts => (fix go (l : list term) := match l with [] => true | x :: l' => proper x && go l' end) ts
  | TLL h t =>
      proper h && match t with TTup _ | TLL _ _ => proper t | _ => false end
  | TLit _ args annots =>
      (fix go (l : list term) := match l with [] => true | x :: l' => proper x && go l' end) args
      && (fix go (l : list term) := match l with [] => true | x :: l' => proper x && go l' end) annots
  | TUn _ a => proper a
  | TBin _ a b => proper a && proper b
  | _ => true
  end.

(** [operator.eq] / [operator.ne] on ground terms.  Simplification: the
    TypeError for improper lists is raised if one occurs anywhere, even where
    Python's comparison would stop earlier. *)
Definition py_eq (l r : term) : res bool :=
  if proper l && proper r then Ok (py_eqb l r) else Err EType.

Definition ord_len (c : cop) (r : comparison) : res bool := Ok (cop_of c r).

(** Python's [<], [<=], [>], [>=] on terms: numbers (a bool counts as a
    number), strings, lists (lexicographic), atoms by functor, literals with
    equal functor and arity by args (Literal.__lt__ ... __ge__, 722-764;
    LinkedList.__lt__ ..., 838-848).  Anything else is a TypeError. *)
Fixpoint py_ord (c : cop) (l r : term) {struct l} : res bool :=
  match l with
  | TBool b =>
      match r with
      | TBool b' => Ok (num_ord c (bool_num b) (bool_num b'))
      | TNum y => Ok (num_ord c (bool_num b) y)
      | _ => Err EType
      end
  | TNum x =>
      match r with
      | TBool b => Ok (num_ord c x (bool_num b))
      | TNum y => Ok (num_ord c x y)
      | _ => Err EType
      end
  | TStr s => match r with TStr s' => Ok (cop_of c (pystr_cmp s s')) | _ => Err EType end
  | TLit f args annots =>
      match r with
      | TLit f' args' annots' =>
          match args, annots, args', annots' with
          | [], [], [], [] => Ok (cop_of c (pystr_cmp f f'))
          | _, _, _, _ =>
              if pystr_eqb f f' && Nat.eqb (List.length args) (List.length args') then
                (fix go (xs ys : list term) : res bool :=
                   match xs, ys with
                   | [], [] => ord_len c Eq
                   | [], _ :: _ => ord_len c Lt
                   | _ :: _, [] => ord_len c Gt
                   | x :: xs', y :: ys' => if py_eqb x y then go xs' ys' else py_ord c x y
                   end) args args'
              else Err EType
          end
      | _ => Err EType
      end
  | TTup ts =>
      match r with
      | TTup _ | TLL _ _ =>
        if proper r then
        (fix go (xs : list term) (y : term) : res bool :=
         match xs with
         | [] => match list_view y with None => ord_len c Eq | Some _ => ord_len c Lt end
         | x :: xs' =>
             match list_view y with
             | None => ord_len c Gt
             | Some (yh, yt) => if py_eqb x yh then go xs' yt else py_ord c x yh
             end
         end) ts r
        else Err EType
      | _ => Err EType
      end
  | TLL h t =>
      match r with
      | TTup _ | TLL _ _ =>
          if proper l && proper r then
            match list_view r with
            | None => ord_len c Gt
            | Some (rh, rt) => if py_eqb h rh then py_ord c t rt else py_ord c h rh
            end
          else Err EType
      | _ => Err EType
      end
  | _ => Err EType
  end.

(** agentspeak/__init__.py:362-364 *)
Definition is_number (t : term) : bool := match t with TNum _ => true | _ => false end.
(** 367-375, 663-664 *)
Definition is_atom (t : term) : bool := match t with TLit _ [] [] => true | _ => false end.
(** 378-382 *)
Definition is_string (t : term) : bool := match t with TStr _ => true | _ => false end.
(** 385-389 *)
Definition is_list (t : term) : bool := match t with TTup _ | TLL _ _ => true | _ => false end.
(** 392-396 *)
Definition is_literal (t : term) : bool := match t with TLit _ _ _ => true | _ => false end.
(** 399-403 *)
Definition is_structure (t : term) : bool := is_literal t || is_list t.

(** Literal.with_annotation (608-609). *)
Definition with_annotation {PY : Py} (t : term) (a : term) : res term :=
  match t with
  | TLit f args annots => Ok (TLit f args (mk_set (annots ++ [a])))
  | _ => Err EAttr
  end.

(** Literal.literal_group (611-612). *)
Definition literal_group (f : pystr) (args : list term) : pystr * nat := (f, List.length args).
