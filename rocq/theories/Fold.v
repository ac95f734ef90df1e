(** Constant folding and validation (agentspeak/parser.py:1048-1433). *)
From Verif Require Import Base Num Term Unify Str World Ast Names Lex Parse.

(** * Folding *)

(** The visitors: NumericFoldVisitor (1118-1181), BooleanFoldVisitor
    (1184-1262), TermFoldVisitor (1265-1299), LogicalFoldVisitor (1302-1313). *)
Inductive mode : Type := MNum | MBool | MTerm | MLog.

(** [operator.value.numeric_op], [boolean_op], [comp_op] are the constructors
    of [unop] and [binop].  Which visitor an operator node ends up with:
    TermFoldVisitor hands it on (1269-1279). *)
Definition unop_mode (m : mode) (op : unop) : mode :=
  match m, op with MTerm, UNot => MBool | MTerm, _ => MNum | _, _ => m end.
Definition binop_mode (m : mode) (op : binop) : mode :=
  match m, op with MTerm, BNum _ => MNum | MTerm, _ => MBool | _, _ => m end.

(** BooleanFoldVisitor.visit_list returns nothing, so the operand becomes None
    (1261-1262).  None is written as a variable without a name, which no source
    contains; [None.accept] is an AttributeError. *)
Definition a_none : ast := AVar [].

Definition pmapl {A C} (f : A -> P C) : list A -> P (list C) :=
  fix go (l : list A) : P (list C) :=
    match l with
    | [] => pret []
    | x :: l' => pbind (f x) (fun y => pbind (go l') (fun ys => pret (y :: ys)))
    end.

(** The value of a constant node. *)
Definition const (t : ast) : option term :=
  match t with
  | ABool b => Some (TBool b)
  | ANum x => Some (TNum x)
  | AStr s => Some (TStr s)
  | _ => None
  end.

Section WithPy.
Context {PY : Py}.

(** The operators on two constants in BooleanFoldVisitor (1202-1222): only if
    they are of the same kind. *)
Definition fold_comp (op : binop) (l r : ast) : P ast :=
  match const l, const r with
  | Some x, Some y =>
      match x, y with
      | TNum _, TNum _ | TBool _, TBool _ | TStr _, TStr _ =>
          match eval_binop op x y with
          | Ok (TBool b) => pret (ABool b)
          | Ok _ => pret (ABin op l r)
          | Err e => pfail e
          end
      | _, _ => pret (ABin op l r)
      end
  | _, _ => pret (ABin op l r)
  end.

Fixpoint fold (m : mode) (t : ast) {struct t} : P ast :=
  match t with
  | AVar [] => pfail EAttr
  | AVar _ => pret t
  | ABool _ => (match m with MNum => p_error | _ => pret tt end ;; pret t)%P
  | ANum _ => (match m with MBool | MLog => p_error | _ => pret tt end ;; pret t)%P
  | AStr _ => (match m with MTerm => pret tt | _ => p_error end ;; pret t)%P
  | ALit f ts an =>
      match m with
      | MNum | MBool => (p_error ;; pret t)%P
      | MTerm | MLog =>
          (ts' <- pmapl (fold MTerm) ts ;; an' <- pmapl (fold MTerm) an ;; pret (ALit f ts' an'))%P
      end
  | AList ts =>
      match m with
      | MNum => (p_error ;; pret t)%P
      | MBool | MLog => (p_error ;; pret a_none)%P
      | MTerm => (ts' <- pmapl (fold MTerm) ts ;; pret (AList ts'))%P
      end
  | ALL h tl =>
      match m with
      | MTerm => (h' <- fold MTerm h ;; tl' <- fold MTerm tl ;; pret (ALL h' tl'))%P
      | _ => pfail EAttr
      end
  | AUn op a =>
      match unop_mode m op, op with
      | MNum, UPos => (a' <- fold MNum a ;; match a' with ANum x => pret (ANum x) | _ => pret (AUn op a') end)%P
      | MNum, UNeg => (a' <- fold MNum a ;; match a' with ANum x => pret (ANum (num_opp x)) | _ => pret (AUn op a') end)%P
      | MBool, UNot | MLog, UNot =>
          (a' <- fold (unop_mode m op) a ;;
           match a' with ABool b => pret (ABool (negb b)) | _ => pret (AUn op a') end)%P
      | _, _ => (p_error ;; pret t)%P
      end
  | ABin op l r =>
      match binop_mode m op, op with
      | MNum, BNum o =>
          (l' <- fold MNum l ;;
           r' <- fold MNum r ;;
           match l', r' with
           | ANum x, ANum y =>
               match num_op fpow o x y with
               | Ok z => pret (ANum z)
               | Err EZeroDiv => p_error ;; pret t
               | Err e => pfail e
               end
           | _, _ => pret (ABin op l' r')
           end)%P
      | MLog, BUnify | MLog, BDecompose =>
          (l' <- fold MTerm l ;; r' <- fold MTerm r ;; pret (ABin op l' r'))%P
      | MBool, BAnd | MLog, BAnd | MBool, BOr | MLog, BOr =>
          (l' <- fold (binop_mode m op) l ;;
           r' <- fold (binop_mode m op) r ;;
           match l', r' with
           | ABool x, ABool y => pret (ABool (match op with BAnd => x && y | _ => x || y end))
           | _, _ => pret (ABin op l' r')
           end)%P
      | MBool, BCmp _ | MLog, BCmp _ | MBool, BEq | MLog, BEq | MBool, BNe | MLog, BNe =>
          (l' <- fold MTerm l ;; r' <- fold MTerm r ;; fold_comp op l' r')%P
      | _, _ => (p_error ;; pret t)%P
      end
  end.

(** ConstFoldVisitor (1316-1400) *)
Definition fold_lit (l : alit) : P alit :=
  (ts <- pmapl (fold MTerm) (l_terms l) ;;
   an <- pmapl (fold MTerm) (l_annots l) ;;
   pret (mkalit (l_functor l) ts an))%P.

Fixpoint fold_form (f : form) : P form :=
  match f with
  | FForm FtTerm t => (t' <- fold MLog t ;; pret (FForm FtTerm t'))%P
  | FForm ft t =>
      match t with
      | ALit _ _ _ | AVar _ => (t' <- fold MTerm t ;; pret (FForm ft t'))%P
      | _ => (p_error ;; pret f)%P
      end
  | FFor c b => (c' <- fold MLog c ;; b' <- pmapl fold_form b ;; pret (FFor c' b'))%P
  | FWhile c b => (c' <- fold MLog c ;; b' <- pmapl fold_form b ;; pret (FWhile c' b'))%P
  | FIf c ib eb =>
      (c' <- fold MLog c ;;
       ib' <- pmapl fold_form ib ;;
       eb' <- match eb with Some b => (b' <- pmapl fold_form b ;; pret (Some b')) | None => pret None end ;;
       pret (FIf c' ib' eb'))%P
  end.

Definition p_opt {A C} (f : A -> P C) (o : option A) : P (option C) :=
  match o with Some x => (y <- f x ;; pret (Some y))%P | None => pret None end.

Definition fold_event (e : aevent) : P aevent :=
  (h <- fold_lit (ae_head e) ;; pret (mkaevent (ae_trig e) (ae_gt e) h))%P.
Definition fold_plan (p : aplan) : P aplan :=
  (an <- p_opt fold_lit (ap_annot p) ;;
   e <- fold_event (ap_event p) ;;
   c <- p_opt (fold MLog) (ap_ctx p) ;;
   b <- p_opt (pmapl fold_form) (ap_body p) ;;
   pret (mkaplan an e c b))%P.
Definition fold_rule (r : arule) : P arule :=
  (h <- fold_lit (ar_head r) ;; c <- fold MLog (ar_cons r) ;; pret (mkarule h c))%P.
Definition fold_agent (g : aagent) : P aagent :=
  (rs <- pmapl fold_rule (ag_rules g) ;;
   bs <- pmapl fold_lit (ag_beliefs g) ;;
   gs <- pmapl fold_lit (ag_goals g) ;;
   ps <- pmapl fold_plan (ag_plans g) ;;
   pret (mkaagent rs bs gs ps))%P.

(** * Validation *)

(** FindVariablesVisitor (1048-1079): [true] for each variable outside all
    operators, [false] for the None yielded for each variable below one. *)
Fixpoint find_vars (t : ast) : res (list bool) :=
  let all := fix all (l : list ast) : res (list bool) :=
    match l with
    | [] => Ok []
    | x :: l' => rbind (find_vars x) (fun a => rmap (app a) (all l'))
    end in
  match t with
  | ABool _ | ANum _ | AStr _ => Ok []
  | AVar [] => Err EAttr
  | AVar _ => Ok [true]
  | ALit _ ts an => rbind (all ts) (fun a => rmap (app a) (all an))
  | AList ts => all ts
  | ALL _ _ => Err EAttr
  | AUn _ a => rmap (map (fun _ => false)) (find_vars a)
  | ABin _ l r => rbind (find_vars l) (fun a => rmap (fun b => map (fun _ => false) (a ++ b)) (find_vars r))
  end.

(** FindOpVisitor (1082-1115): the number of outermost operators. *)
Fixpoint count_ops (t : ast) : nat :=
  match t with
  | AUn _ _ | ABin _ _ _ => 1
  | ALit _ ts an => list_sum (map count_ops ts) + list_sum (map count_ops an)
  | AList ts => list_sum (map count_ops ts)
  | ALL h tl => count_ops h + count_ops tl
  | _ => 0
  end.

Fixpoint p_errors (k : nat) : P unit :=
  match k with O => pret tt | S k' => (p_error ;; p_errors k')%P end.
Fixpoint p_warns (k : nat) : P unit :=
  match k with O => pret tt | S k' => (p_warn ;; p_warns k')%P end.
Fixpoint p_each {A} (f : A -> P unit) (l : list A) : P unit :=
  match l with [] => pret tt | x :: l' => (f x ;; p_each f l')%P end.

Definition check_belief (b : alit) : P unit :=
  ((match find_vars (lit_ast b) with
    | Err e => pfail e
    | Ok [] => pret tt
    | Ok vs => if forallb (fun v => v) vs then p_warn else pfail EAttr
    end) ;;
   p_errors (count_ops (lit_ast b)))%P.
Definition check_rule (r : arule) : P unit := p_errors (count_ops (lit_ast (ar_head r))).
Definition check_plan (p : aplan) : P unit :=
  (p_errors (count_ops (lit_ast (ae_head (ap_event p)))) ;;
   (match ap_annot p with Some l => p_warns (count_ops (lit_ast l)) | None => pret tt end) ;;
   match ae_gt (ap_event p), ae_trig (ap_event p) with
   | GtBelief, _ | _, TrAdd => pret tt
   | _, TrRem => p_warn
   end)%P.

(** validate (1403-1433) *)
Definition validate (g : aagent) : P aagent :=
  (g' <- fold_agent g ;;
   p_each check_belief (ag_beliefs g') ;;
   p_each check_rule (ag_rules g') ;;
   p_each check_plan (ag_plans g') ;;
   pret g')%P.
End WithPy.
