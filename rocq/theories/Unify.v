(** Scopes, evaluation, unification, freezing
    (agentspeak/__init__.py:406-502, 513-599, 614-690, 775-803, 857-950). *)
From Verif Require Import Base Num Term.

(** * Scope and stack *)

(** [scope]: a dict from variables to terms; new bindings in front. *)
Definition scope := list (N * term).

(** Entries of [stack]: bound variables and choicepoint objects. *)
Inductive sentry : Type :=
| EVar (v : N)
| ECP (c : N).

(** Scope, stack (top first) and the identity of the next [object()]. *)
Record bst : Type := mkbst { b_scope : scope; b_stack : list sentry; b_ncp : N }.

Fixpoint lookup (s : scope) (v : N) : option term :=
  match s with
  | [] => None
  | (w, t) :: s' => if N.eqb v w then Some t else lookup s' v
  end.

Definition bound (s : scope) (v : N) : bool :=
  match lookup s v with Some _ => true | None => false end.

(** [scope.pop(v, None)] *)
Fixpoint remove_key (s : scope) (v : N) : scope :=
  match s with
  | [] => []
  | (w, t) :: s' => if N.eqb v w then remove_key s' v else (w, t) :: remove_key s' v
  end.

(** reroll (406-413): pop the stack down to and including the choicepoint,
    unbinding variables on the way; if the choicepoint is not on the stack the
    whole stack is emptied. *)
Fixpoint reroll_loop (sc : scope) (sk : list sentry) (cp : N) : scope * list sentry :=
  match sk with
  | [] => (sc, [])
  | ECP c :: sk' => if N.eqb c cp then (sc, sk') else reroll_loop sc sk' cp
  | EVar v :: sk' => reroll_loop (remove_key sc v) sk' cp
  end.

Definition reroll (st : bst) (cp : N) : bst :=
  let '(sc, sk) := reroll_loop (b_scope st) (b_stack st) cp in
  mkbst sc sk (b_ncp st).

(** [choicepoint = object(); stack.append(choicepoint)] *)
Definition new_cp (st : bst) : N * bst :=
  (b_ncp st, mkbst (b_scope st) (b_stack st) (N.succ (b_ncp st))).
Definition push_cp (cp : N) (st : bst) : bst :=
  mkbst (b_scope st) (ECP cp :: b_stack st) (b_ncp st).

(** deref (857-863).  The loop visits each key at most once unless the chain is
    cyclic, in which case Python loops forever. *)
Fixpoint deref_loop (n : nat) (t : term) (s : scope) : res term :=
  match t with
  | TVar v =>
      match lookup s v with
      | None => Ok t
      | Some t' => match n with O => Err EDiverge | S n' => deref_loop n' t' s end
      end
  | _ => Ok t
  end.
Definition deref (t : term) (s : scope) : res term := deref_loop (List.length s) t s.

(** Var.bind (455-463) and Wildcard.bind (493-494); [v] is a variable. *)
Definition bind (v : N) (t : term) (st : bst) : res unit * bst :=
  match t with
  | TVar w => if N.eqb v w then (Ok tt, st)
              else if bound (b_scope st) v then (Err ERuntime, st)
              else (Ok tt, mkbst ((v, t) :: b_scope st) (EVar v :: b_stack st) (b_ncp st))
  | _ => if bound (b_scope st) v then (Err ERuntime, st)
         else (Ok tt, mkbst ((v, t) :: b_scope st) (EVar v :: b_stack st) (b_ncp st))
  end.

Section WithPy.
Context {PY : Py}.

(** * Evaluation and grounding *)

(** The operator part of UnaryExpr.evaluate (516-527). *)
Definition eval_unop (op : unop) (v : term) : res term :=
  match op, v with
  | UNot, TBool b => Ok (TBool (negb b))
  | UPos, TNum x => Ok (TNum x)
  | UNeg, TNum x => Ok (TNum (num_opp x))
  | _, _ => Err EAsl
  end.

(** The non-comparison part of BinaryExpr.evaluate (560-578).  [BUnify] and
    [BDecompose] have no [func] (279-280): calling None is a TypeError. *)
Definition eval_binop (op : binop) (l r : term) : res term :=
  match op with
  | BNum o =>
      match l, r with
      | TNum x, TNum y => rmap TNum (num_op fpow o x y)
      | _, _ => Err EAsl
      end
  | BAnd => match l, r with TBool x, TBool y => Ok (TBool (x && y)) | _, _ => Err EAsl end
  | BOr => match l, r with TBool x, TBool y => Ok (TBool (x || y)) | _, _ => Err EAsl end
  | BUnify | BDecompose => Err EType
  | BEq => rmap TBool (py_eq l r)
  | BNe => rmap (fun b => TBool (negb b)) (py_eq l r)
  | BCmp c => rmap TBool (py_ord c l r)
  end.

Definition is_comp (op : binop) : bool :=
  match op with BCmp _ | BEq | BNe => true | _ => false end.

(** evaluate (866-874) with Var.evaluate (449-453), Wildcard.evaluate (490-491),
    UnaryExpr.evaluate (513-527), BinaryExpr.evaluate (556-578); and
    grounded (935-941) with Var.grounded (433-437), Wildcard.grounded (484-485),
    UnaryExpr/BinaryExpr.grounded (532-533, 583-584), Literal.grounded
    (671-676), LinkedList.grounded (797-798). *)
Fixpoint evaluate (n : nat) (t : term) (s : scope) {struct n} : res term :=
  match n with
  | O => Err ERecursion
  | S n' =>
      match t with
      | TVar v =>
          if bound s v then
            match deref t s with
            | Err e => Err e
            | Ok t' => evaluate n' t' s
            end
          else Ok t
      | TUn op a =>
          match evaluate n' a s with
          | Err e => Err e
          | Ok v => eval_unop op v
          end
      | TBin op l r =>
          match evaluate n' l s with
          | Err e => Err e
          | Ok lv =>
              match evaluate n' r s with
              | Err e => Err e
              | Ok rv =>
                  if is_comp op then
                    match grounded n' lv s with
                    | Err e => Err e
                    | Ok lg =>
                        match grounded n' rv s with
                        | Err e => Err e
                        | Ok rg => eval_binop op lg rg
                        end
                    end
                  else eval_binop op lv rv
              end
          end
      | _ => Ok t
      end
  end

with grounded (n : nat) (t : term) (s : scope) {struct n} : res term :=
  match n with
  | O => Err ERecursion
  | S n' =>
      match t with
      | TVar v =>
          if bound s v then
            match deref t s with
            | Err e => Err e
            | Ok t' => grounded n' t' s
            end
          else Err EAsl
      | TWild _ => Err EAsl
      | TUn _ _ | TBin _ _ _ =>
          match evaluate n' t s with
          | Err e => Err e
          | Ok v => grounded n' v s
          end
      | TLit f args annots =>
          match rmapl (fun a => grounded n' a s) args with
          | Err e => Err e
          | Ok args' =>
              match rmapl (fun a => grounded n' a s) annots with
              | Err e => Err e
              | Ok annots' => Ok (TLit f args' (mk_set annots'))
              end
          end
      | TTup ts => rmap TTup (rmapl (fun a => grounded n' a s) ts)
      | TLL h tl =>
          match grounded n' h s with
          | Err e => Err e
          | Ok h' => match grounded n' tl s with Err e => Err e | Ok t' => Ok (TLL h' t') end
          end
      | TBool _ | TNum _ | TStr _ => Ok t
      end
  end.

(** is_ground (926-932) with Var.is_ground (427-431), Wildcard.is_ground
    (481-482), UnaryExpr/BinaryExpr.is_ground (529-530, 580-581),
    Literal.is_ground (666-669), LinkedList.is_ground (794-795). *)
Fixpoint is_ground (n : nat) (t : term) (s : scope) {struct n} : res bool :=
  match n with
  | O => Err ERecursion
  | S n' =>
      match t with
      | TVar v =>
          if bound s v then
            match deref t s with
            | Err e => Err e
            | Ok t' => is_ground n' t' s
            end
          else Ok false
      | TWild _ => Ok false
      | TUn _ a => is_ground n' a s
      | TBin _ l r => rall (fun a => is_ground n' a s) [l; r]
      | TLit _ args annots =>
          match rall (fun a => is_ground n' a s) args with
          | Ok true => rall (fun a => is_ground n' a s) annots
          | x => x
          end
      | TTup ts => rall (fun a => is_ground n' a s) ts
      | TLL h tl => rall (fun a => is_ground n' a s) [h; tl]
      | TBool _ | TNum _ | TStr _ => Ok true
      end
  end.

(** * Freezing *)

(** [memo]: a dict from variables to the fresh variables that replace them. *)
Definition memo := list (N * N).

Fixpoint memo_get (m : memo) (v : N) : option N :=
  match m with
  | [] => None
  | (w, x) :: m' => if N.eqb v w then Some x else memo_get m' v
  end.

(** The mutable part of freezing: memo and the identity of the next [Var()]. *)
Definition fst_ : Type := (memo * N)%type.

Fixpoint smapl {A B S : Type} (f : A -> S -> res B * S) (l : list A) (s : S) : res (list B) * S :=
  match l with
  | [] => (Ok [], s)
  | x :: l' =>
      match f x s with
      | (Err e, s1) => (Err e, s1)
      | (Ok y, s1) =>
          match smapl f l' s1 with
          | (Err e, s2) => (Err e, s2)
          | (Ok ys, s2) => (Ok (y :: ys), s2)
          end
      end
  end.

(** freeze (944-950) with Var.freeze (439-447), Wildcard.freeze (487-488),
    UnaryExpr/BinaryExpr.freeze (535-536, 586-587), Literal.freeze (678-683),
    LinkedList.freeze (800-803). *)
Fixpoint freeze (n : nat) (t : term) (s : scope) (m : fst_) {struct n} : res term * fst_ :=
  match n with
  | O => (Err ERecursion, m)
  | S n' =>
      match t with
      | TVar v =>
          match memo_get (fst m) v with
          | Some x => (Ok (TVar x), m)
          | None =>
              if bound s v then
                match deref t s with
                | Err e => (Err e, m)
                | Ok t' => freeze n' t' s m
                end
              else (Ok (TVar (snd m)), ((v, snd m) :: fst m, N.succ (snd m)))
          end
      | TWild _ => (Ok t, m)
      | TUn _ _ | TBin _ _ _ =>
          match evaluate n' t s with
          | Err e => (Err e, m)
          | Ok v => freeze n' v s m
          end
      | TLit f args annots =>
          match smapl (fun a => freeze n' a s) args m with
          | (Err e, m1) => (Err e, m1)
          | (Ok args', m1) =>
              match smapl (fun a => freeze n' a s) annots m1 with
              | (Err e, m2) => (Err e, m2)
              | (Ok annots', m2) => (Ok (TLit f args' (mk_set annots')), m2)
              end
          end
      | TTup ts =>
          match smapl (fun a => freeze n' a s) ts m with
          | (Err e, m1) => (Err e, m1)
          | (Ok ts', m1) => (Ok (TTup ts'), m1)
          end
      | TLL h tl =>
          match freeze n' h s m with
          | (Err e, m1) => (Err e, m1)
          | (Ok h', m1) =>
              match freeze n' tl s m1 with
              | (Err e, m2) => (Err e, m2)
              | (Ok t', m2) => (Ok (TLL h' t'), m2)
              end
          end
      | TBool _ | TNum _ | TStr _ => (Ok t, m)
      end
  end.

(** * Unification *)

(** [all(unify(l, r, scope, stack) for l, r in zip(ls, rs))] *)
Fixpoint all_unify (u : term -> term -> bst -> res bool * bst) (ls rs : list term) (st : bst)
  : res bool * bst :=
  match ls, rs with
  | l :: ls', r :: rs' =>
      match u l r st with
      | (Ok true, st') => all_unify u ls' rs' st'
      | x => x
      end
  | _, _ => (Ok true, st)
  end.

(** Does the object have a [unify] method? (bool, numbers, strings and tuples
    do not.) *)
Definition has_unify (t : term) : bool :=
  match t with TBool _ | TNum _ | TStr _ | TTup _ => false | _ => true end.

(** unify (877-894), dispatching on Var.unify (417-425), Wildcard.unify
    (478-479), UnaryExpr/BinaryExpr.unify (510-511, 553-554), Literal.unify
    (614-628) and LinkedList.unify (775-792). *)
Fixpoint unify (n : nat) (l r : term) (st : bst) {struct n} : res bool * bst :=
  match n with
  | O => (Err ERecursion, st)
  | S n' =>
      match l with
      | TVar v =>
          if bound (b_scope st) v then
            match deref l (b_scope st) with
            | Err e => (Err e, st)
            | Ok l' => unify n' l' r st
            end
          else
            match r with
            | TWild _ => (Ok true, st)
            | _ =>
                match evaluate n' r (b_scope st) with
                | Err e => (Err e, st)
                | Ok r' =>
                    match bind v r' st with
                    | (Ok _, st') => (Ok true, st')
                    | (Err e, st') => (Err e, st')
                    end
                end
            end
      | TWild _ => (Ok true, st)
      | TUn _ _ | TBin _ _ _ =>
          match evaluate n' l (b_scope st) with
          | Err e => (Err e, st)
          | Ok l' => unify n' l' r st
          end
      | TLit f args _ =>
          match evaluate n' r (b_scope st) with
          | Err e => (Err e, st)
          | Ok r' =>
              match r' with
              | TVar _ | TWild _ => unify n' r' l st
              | TLit f' args' _ =>
                  if pystr_eqb f f' && Nat.eqb (List.length args) (List.length args')
                  then all_unify (unify n') args args' st
                  else (Ok false, st)
              | _ => (Ok false, st)
              end
          end
      | TLL h t =>
          match evaluate n' r (b_scope st) with
          | Err e => (Err e, st)
          | Ok r' =>
              match r' with
              | TVar _ | TWild _ => unify n' r' l st
              | TTup [] => (Ok false, st)
              | TTup (x :: xs) =>
                  match unify n' h x st with
                  | (Ok true, st') => unify n' t (TTup xs) st'
                  | y => y
                  end
              | TLL h' t' =>
                  match unify n' h h' st with
                  | (Ok true, st') => unify n' t t' st'
                  | y => y
                  end
              | _ => (Ok false, st)
              end
          end
      | TBool _ | TNum _ | TStr _ | TTup _ =>
          if has_unify r then unify n' r l st
          else
            match l, r with
            | TBool b, TBool b' => (Ok (Bool.eqb b b'), st)
            | TBool _, _ | _, TBool _ => (Ok false, st)
            | TTup ls, TTup rs =>
                if Nat.eqb (List.length ls) (List.length rs)
                then all_unify (unify n') ls rs st
                else (Ok false, st)
            | _, _ => (Ok (py_eqb l r), st)
            end
      end
  end.

(** unifies (897-901) *)
Definition unifies (n : nat) (l r : term) : res bool :=
  fst (unify n l r (mkbst [] [] 0)).

(** * Unification with annotations

    unify_annotated (904-913) and Literal.unify_annotated (630-661) are
    generators with at most one [yield].  [uann] runs the generator up to its
    first [yield] or to its end: [Ok (Some cp)] means it is suspended at the
    [yield], and resuming it performs [reroll cp] and stops; [Ok None] means it
    finished without yielding. *)

(** The inner loop over right.annots (646-655): the first annotation not yet
    closed for which the nested generator yields.  The nested generator is
    dropped after its first yield ([break], 652). *)
Fixpoint annot_find (u : term -> term -> bst -> res (option N) * bst)
  (la : term) (ras closed : list term) (st : bst) : res (option term) * bst :=
  match ras with
  | [] => (Ok None, st)
  | ra :: ras' =>
      if py_in ra closed then annot_find u la ras' closed st
      else
        match u la ra st with
        | (Err e, st') => (Err e, st')
        | (Ok (Some _), st') => (Ok (Some ra), st')
        | (Ok None, st') => annot_find u la ras' closed st'
        end
  end.

(** The outer loop over self.annots (643-659); [Ok false] is the early return
    after [reroll]. *)
Fixpoint annots_match (u : term -> term -> bst -> res (option N) * bst)
  (las ras closed : list term) (st : bst) : res bool * bst :=
  match las with
  | [] => (Ok true, st)
  | la :: las' =>
      match annot_find u la ras closed st with
      | (Err e, st') => (Err e, st')
      | (Ok None, st') => (Ok false, st')
      | (Ok (Some ra), st') => annots_match u las' ras (ra :: closed) st'
      end
  end.

Definition lit_annots (t : term) : list term :=
  match t with TLit _ _ annots => annots | _ => [] end.

Fixpoint uann (n : nat) (l r : term) (st : bst) {struct n} : res (option N) * bst :=
  match n with
  | O => (Err ERecursion, st)
  | S n' =>
      match l with
      | TLit _ _ lannots =>
          (* Literal.unify_annotated *)
          match evaluate n' r (b_scope st) with
          | Err e => (Err e, st)
          | Ok r' =>
              let '(cp, st0) := new_cp st in
              match r' with
              | TVar _ | TWild _ =>
                  (* 632-637: the choicepoint is never pushed *)
                  match unify n' r' l st0 with
                  | (Err e, st1) => (Err e, st1)
                  | (Ok true, st1) => (Ok (Some cp), st1)
                  | (Ok false, st1) => (Ok None, reroll st1 cp)
                  end
              | _ =>
                  match unify n' l r' (push_cp cp st0) with
                  | (Err e, st1) => (Err e, st1)
                  | (Ok false, st1) => (Ok None, reroll st1 cp)
                  | (Ok true, st1) =>
                      match annots_match (uann n') lannots (lit_annots r') [] st1 with
                      | (Err e, st2) => (Err e, st2)
                      | (Ok false, st2) => (Ok None, reroll st2 cp)
                      | (Ok true, st2) => (Ok (Some cp), st2)
                      end
                  end
              end
          end
      | _ =>
          let '(cp, st0) := new_cp st in
          match unify n' l r (push_cp cp st0) with
          | (Err e, st1) => (Err e, st1)
          | (Ok true, st1) => (Ok (Some cp), st1)
          | (Ok false, st1) => (Ok None, reroll st1 cp)
          end
      end
  end.

(** Resuming the suspended generator: it rolls back and stops. *)
Definition uann_resume (cp : N) (st : bst) : bst := reroll st cp.

(** unifies_annotated (916-923): the generator is dropped after its first
    yield; an explicit scope and stack keep the bindings. *)
Definition unifies_annotated_in (n : nat) (l r : term) (st : bst) : res bool * bst :=
  match uann n l r st with
  | (Ok (Some _), st') => (Ok true, st')
  | (Ok None, st') => (Ok false, st')
  | (Err e, st') => (Err e, st')
  end.

Definition unifies_annotated (n : nat) (l r : term) : res bool :=
  fst (unifies_annotated_in n l r (mkbst [] [] 0)).

End WithPy.
