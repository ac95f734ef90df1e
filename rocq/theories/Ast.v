(** Syntax trees and their text (agentspeak/parser.py:85-424). *)
From Verif Require Import Base Num Term Str World.

(** FormulaType (agentspeak/__init__.py:236-244) *)
Inductive ftype : Type := FtTerm | FtTest | FtAchieve | FtAchieveLater | FtAdd | FtRemove | FtReplace.

Definition ftype_lex (f : ftype) : pystr :=
  match f with
  | FtTerm => [] | FtTest => s2p "?" | FtAchieve => s2p "!" | FtAchieveLater => s2p "!!"
  | FtAdd => s2p "+" | FtRemove => s2p "-" | FtReplace => s2p "-+"
  end.

(** Terms: AstConst (168-177; the value is a bool, number or string),
    AstVariable (180-191), AstLiteral (90-116), AstList (119-128), AstLinkedList
    (131-141), AstUnaryOp (194-204), AstBinaryOp (207-218).  Source locations and
    the annotations of the optimizer are not modelled. *)
Inductive ast : Type :=
| ABool (b : bool)
| ANum (x : num)
| AStr (s : pystr)
| AVar (name : pystr)
| ALit (f : pystr) (terms annots : list ast)
| AList (ts : list ast)
| ALL (h t : ast)
| AUn (op : unop) (a : ast)
| ABin (op : binop) (l r : ast).

(** AstFormula (155-165), AstFor (322-342), AstIfThenElse (345-369), AstWhile
    (299-319), AstBody (275-296: a list of formulas). *)
Inductive form : Type :=
| FForm (ft : ftype) (t : ast)
| FFor (g : ast) (body : list form)
| FIf (c : ast) (ib : list form) (eb : option (list form))
| FWhile (c : ast) (body : list form).

(** The head of a rule, belief, goal or event is a literal. *)
Record alit : Type := mkalit { l_functor : pystr; l_terms : list ast; l_annots : list ast }.
Definition lit_ast (l : alit) : ast := ALit (l_functor l) (l_terms l) (l_annots l).

(** AstEvent (253-272), AstPlan (221-250), AstRule (144-153), AstAgent (372-424;
    goals are AstGoal, 156-163). *)
Record aevent : Type := mkaevent { ae_trig : trig; ae_gt : gtype; ae_head : alit }.
Record aplan : Type := mkaplan {
  ap_annot : option alit; ap_event : aevent; ap_ctx : option ast; ap_body : option (list form) }.
Record arule : Type := mkarule { ar_head : alit; ar_cons : ast }.
Record aagent : Type := mkaagent {
  ag_rules : list arule; ag_beliefs : list alit; ag_goals : list alit; ag_plans : list aplan }.

Section AstInd.
  Variable P : ast -> Prop.
  Hypothesis HBool : forall b, P (ABool b).
  Hypothesis HNum : forall x, P (ANum x).
  Hypothesis HStr : forall s, P (AStr s).
  Hypothesis HVar : forall v, P (AVar v).
  Hypothesis HLit : forall f ts an, Forall P ts -> Forall P an -> P (ALit f ts an).
  Hypothesis HList : forall ts, Forall P ts -> P (AList ts).
  Hypothesis HLL : forall h t, P h -> P t -> P (ALL h t).
  Hypothesis HUn : forall op a, P a -> P (AUn op a).
  Hypothesis HBin : forall op l r, P l -> P r -> P (ABin op l r).
  Fixpoint ast_ind' (t : ast) : P t :=
    let fix go (l : list ast) : Forall P l :=
      match l with
      | [] => Forall_nil P
      | x :: l' => Forall_cons x (ast_ind' x) (go l')
      end in
    match t with
    | ABool b => HBool b
    | ANum x => HNum x
    | AStr s => HStr s
    | AVar v => HVar v
    | ALit f ts an => HLit f ts an (go ts) (go an)
    | AList ts => HList ts (go ts)
    | ALL h t => HLL h t (ast_ind' h) (ast_ind' t)
    | AUn op a => HUn op a (ast_ind' a)
    | ABin op l r => HBin op l r (ast_ind' l) (ast_ind' r)
    end.
End AstInd.

Definition opt_all {A} (Q : A -> Prop) (o : option A) : Prop :=
  match o with Some x => Q x | None => True end.

Section FormInd.
  Variable P : form -> Prop.
  Hypothesis HForm : forall ft t, P (FForm ft t).
  Hypothesis HFor : forall g b, Forall P b -> P (FFor g b).
  Hypothesis HIf : forall c ib eb, Forall P ib ->
    opt_all (Forall P) eb -> P (FIf c ib eb).
  Hypothesis HWhile : forall c b, Forall P b -> P (FWhile c b).
  Fixpoint form_ind' (f : form) : P f :=
    let fix go (l : list form) : Forall P l :=
      match l with
      | [] => Forall_nil P
      | x :: l' => Forall_cons x (form_ind' x) (go l')
      end in
    match f with
    | FForm ft t => HForm ft t
    | FFor g b => HFor g b (go b)
    | FIf c ib eb =>
        HIf c ib eb (go ib)
          (match eb as e return opt_all (Forall P) e with
           | Some b => go b | None => I end)
    | FWhile c b => HWhile c b (go b)
    end.
End FormInd.

Section WithPy.
Context {PY : Py}.

(** ** Text *)

(** The [__str__] methods of the term nodes. *)
Fixpoint ast_str (t : ast) : pystr :=
  match t with
  | ABool b => asl_repr (TBool b)
  | ANum x => asl_repr (TNum x)
  | AStr s => asl_repr (TStr s)
  | AVar v => v
  | ALit f ts an =>
      f ++ (match ts with [] => [] | _ => s2p "(" ++ joins (s2p ", ") (map ast_str ts) ++ s2p ")" end)
        ++ (match an with [] => [] | _ => s2p "[" ++ joins (s2p ", ") (map ast_str an) ++ s2p "]" end)
  | AList ts => s2p "[" ++ joins (s2p ", ") (map ast_str ts) ++ s2p "]"
  | ALL h t => s2p "[" ++ ast_str h ++ s2p "|" ++ ast_str t ++ s2p "]"
  | AUn op a => s2p "(" ++ unop_lex op ++ s2p " " ++ ast_str a ++ s2p ")"
  | ABin op l r => s2p "(" ++ ast_str l ++ s2p " " ++ binop_lex op ++ s2p " " ++ ast_str r ++ s2p ")"
  end.

(** [s.splitlines()] for text whose only line separator is a newline. *)
Fixpoint lines (s : pystr) (cur : pystr) : list pystr :=
  match s with
  | [] => match cur with [] => [] | _ => [rev cur] end
  | c :: s' => if (c =? 10)%N then rev cur :: lines s' [] else lines s' (c :: cur)
  end.

(** util.indent (agentspeak/util.py:30-31) *)
Definition indent (s : pystr) : pystr := joins [10%N] (map (fun l => s2p "  " ++ l) (lines s [])).

Definition nl : pystr := [10%N].

(** "(...) {\n  body;\n}" without the closing brace *)
Definition block (text : pystr) (empty : bool) : pystr :=
  if empty then [] else indent text ++ s2p ";" ++ nl.

(** AstFormula, AstFor, AstIfThenElse, AstWhile.__str__; AstBody.__str__ joins
    formulas with ";\n". *)
Fixpoint form_str (f : form) : pystr :=
  let body_str (l : list form) := joins (s2p ";" ++ nl) (map form_str l) in
  let isnil {A} (l : list A) := match l with [] => true | _ => false end in
  match f with
  | FForm ft t => ftype_lex ft ++ ast_str t
  | FFor g b => s2p "for (" ++ ast_str g ++ s2p ") {" ++ nl ++ block (body_str b) (isnil b) ++ s2p "}"
  | FWhile c b => s2p "while (" ++ ast_str c ++ s2p ") {" ++ nl ++ block (body_str b) (isnil b) ++ s2p "}"
  | FIf c ib eb =>
      s2p "if (" ++ ast_str c ++ s2p ") {" ++ nl ++ block (body_str ib) (isnil ib)
      ++ (match eb with
          | Some ((_ :: _) as b) => s2p "} else {" ++ nl ++ block (body_str b) false
          | _ => []
          end)
      ++ s2p "}"
  end.
Definition body_str (l : list form) : pystr := joins (s2p ";" ++ nl) (map form_str l).

Definition lit_str (l : alit) : pystr := ast_str (lit_ast l).
Definition event_str (e : aevent) : pystr :=
  trig_lex (ae_trig e) ++ gtype_lex (ae_gt e) ++ lit_str (ae_head e).
Definition aplan_str (p : aplan) : pystr :=
  (match ap_annot p with Some l => s2p "@" ++ lit_str l ++ nl | None => [] end)
  ++ event_str (ap_event p)
  ++ (match ap_ctx p with Some c => s2p " : " ++ ast_str c | None => [] end)
  ++ (match ap_body p with Some b => s2p " <-" ++ nl ++ indent (body_str b) | None => [] end).
Definition arule_str (r : arule) : pystr := lit_str (ar_head r) ++ s2p " :- " ++ ast_str (ar_cons r).

(** AstAgent.__str__ (383-424).  [sep] is put between items unless nothing has
    been written yet. *)
Fixpoint add_items (sep : pystr) (items : list pystr) (out : pystr) : pystr :=
  match items with
  | [] => out
  | x :: items' =>
      add_items sep items' (out ++ (match out with [] => [] | _ => sep end) ++ x ++ s2p ".")
  end.
Definition add_section (items : list pystr) (out : pystr) : pystr :=
  match items with
  | [] => out
  | _ => add_items nl items (out ++ match out with [] => [] | _ => nl end)
  end.
Definition aagent_str (g : aagent) : pystr :=
  add_items (nl ++ nl) (map aplan_str (ag_plans g))
    (add_section (map (fun l => s2p "!" ++ lit_str l) (ag_goals g))
      (add_section (map lit_str (ag_beliefs g))
        (add_items nl (map arule_str (ag_rules g)) []))).

End WithPy.
