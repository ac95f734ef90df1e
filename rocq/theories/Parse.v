(** The parser (agentspeak/parser.py:427-936). *)
From Verif Require Import Base Num Term Str World Ast Names Quote Lex.
From Coq Require Import Floats.SpecFloat.

(** * The token stream and the log *)

(** [p_items]: what the generator [tokenize] still has to do.  [p_own]: whether
    the generator was given a real log; the generators for included files were
    given the number 1 (parser.py:996) and raise AttributeError instead of
    reporting an illegal character. *)
Record pst : Type := mkpst { p_items : list item; p_log : log; p_own : bool }.

Definition P (A : Type) : Type := pst -> res A * pst.
Definition pret {A} (x : A) : P A := fun s => (Ok x, s).
Definition pfail {A} (e : exc) : P A := fun s => (Err e, s).
Definition pbind {A C} (m : P A) (k : A -> P C) : P C := fun s =>
  match m s with (Ok x, s1) => k x s1 | (Err e, s1) => (Err e, s1) end.

Declare Scope parse_scope.
Delimit Scope parse_scope with P.
Notation "x <- m ;; k" := (pbind m (fun x => k)) (at level 61, m at next level, right associativity) : parse_scope.
Notation "' pat <- m ;; k" := (pbind m (fun x => match x with pat => k end))
  (at level 61, pat pattern, m at next level, right associativity) : parse_scope.
Notation "m ;; k" := (pbind m (fun _ => k)) (at level 61, right associativity) : parse_scope.

Definition set_log (s : pst) (l : log) : pst := mkpst (p_items s) l (p_own s).

(** [log.error(...)] as a statement, [raise log.error(...)], [log.warning(...)] *)
Definition p_error : P unit := fun s => let '(r, l) := log_error (p_log s) in (r, set_log s l).
Definition p_raise {A} : P A := fun s => let '(_, l) := log_error (p_log s) in (Err EAggregated, set_log s l).
Definition p_warn : P unit := fun s => (Ok tt, set_log s (log_warning (p_log s))).

(** [next(tokens)]: the generator reports the illegal characters it passes. *)
Fixpoint next_in (l : list item) (lg : log) (own : bool) : res tok * pst :=
  match l with
  | [] => (Err EStopIter, mkpst [] lg own)
  | ITok t :: l' => (Ok t, mkpst l' lg own)
  | IBad _ _ _ :: l' =>
      if own then
        match log_error lg with
        | (Ok _, lg') => next_in l' lg' own
        | (Err e, lg') => (Err e, mkpst l' lg' own)
        end
      else (Err EAttr, mkpst l' lg own)
  end.
Definition next : P tok := fun s => next_in (p_items s) (p_log s) (p_own s).

(** * Tokens *)

(** [tok.lexeme == "..."] *)
Definition is_lex (t : tok) (s : string) : bool := pystr_eqb (t_lex t) (s2p s).

(** The attributes of the token types (lexer.py:83-147). *)
Definition tk_functor (t : tok) : bool := match t_kind t with KFunctor => true | _ => false end.
Definition tk_variable (t : tok) : bool := match t_kind t with KVariable => true | _ => false end.
Definition tk_numeric (t : tok) : bool := match t_kind t with KNumeric => true | _ => false end.
Definition tk_string (t : tok) : bool := match t_kind t with KString => true | _ => false end.
Definition tk_boolean (t : tok) : option bool :=
  match t_kind t with KTrue => Some true | KFalse => Some false | _ => None end.
Definition tk_trigger (t : tok) : option trig :=
  match t_kind t with KPlus => Some TrAdd | KMinus => Some TrRem | _ => None end.
Definition tk_goal (t : tok) : option gtype :=
  match t_kind t with KExclam => Some GtAchieve | KQuestion => Some GtTest | _ => None end.
Definition tk_formula (t : tok) : option ftype :=
  match t_kind t with
  | KDoubleExclam => Some FtAchieveLater | KExclam => Some FtAchieve | KQuestion => Some FtTest
  | KMinusPlus => Some FtReplace | KPlus => Some FtAdd | KMinus => Some FtRemove
  | _ => None
  end.
Definition tk_unary (t : tok) : option unop :=
  match t_kind t with KPlus => Some UPos | KMinus => Some UNeg | _ => None end.
Definition tk_mult (t : tok) : option binop :=
  match t_kind t with
  | KMult => Some (BNum NMul) | KFdiv => Some (BNum NTruediv)
  | KDiv => Some (BNum NFloordiv) | KMod => Some (BNum NMod)
  | _ => None
  end.
Definition tk_add (t : tok) : option binop :=
  match t_kind t with KPlus => Some (BNum NAdd) | KMinus => Some (BNum NSub) | _ => None end.
Definition tk_comp (t : tok) : option binop :=
  match t_kind t with
  | KLe => Some (BCmp CLe) | KGe => Some (BCmp CGe) | KNe => Some BNe | KEq => Some BEq
  | KDecompose => Some BDecompose | KUnify => Some BUnify | KLt => Some (BCmp CLt) | KGt => Some (BCmp CGt)
  | _ => None
  end.
Definition when (b : bool) (op : binop) : option binop := if b then Some op else None.

(** [float(lexeme)] of a numeric token: the correctly rounded value of the
    decimal numeral. *)
Fixpoint span (p : N -> bool) (s : pystr) : pystr * pystr :=
  match s with
  | c :: s' => if p c then let '(a, b) := span p s' in (c :: a, b) else ([], s)
  | [] => ([], [])
  end.
Fixpoint digits_val (s : pystr) (acc : Z) : Z :=
  match s with
  | c :: s' => digits_val s' (10 * acc + (Z.of_N c - 48))
  | [] => acc
  end.
Definition scaled (d k : Z) : spec_float :=
  match k with
  | Zneg p =>
      match d with
      | Zpos m =>
          let '(q, e, l) := SFdiv_core_binary prec emax (Zpos m) 0 (10 ^ Zpos p) 0 in
          binary_round_aux prec emax false q e l
      | _ => S754_zero false
      end
  | _ => binary_normalize prec emax (d * 10 ^ k) 0 false
  end.
Definition float_lit (s : pystr) : spec_float :=
  let '(ip, r) := span is_digit s in
  let '(fp, r) := match r with c :: r' => if (c =? 46)%N then span is_digit r' else ([], r) | [] => ([], r) end in
  let e :=
    match r with
    | _ :: c :: r' =>
        if (c =? 45)%N then (- digits_val r' 0)%Z
        else if (c =? 43)%N then digits_val r' 0
        else digits_val (c :: r') 0
    | _ => 0%Z
    end in
  scaled (digits_val (ip ++ fp) 0) (e - Z.of_nat (List.length fp)).

(** * Expressions

    The functions for expressions call each other recursively; the ones below
    parse_atom in precedence are defined relative to it.  [k], [n] bound the
    recursion. *)

(** The [while tok...: op = AstBinaryOp() ...] loops. *)
Fixpoint binloop (k : nat) (sel : tok -> option binop) (operand : tok -> P (tok * ast)) (tk : tok) (expr : ast)
  : P (tok * ast) :=
  match sel tk with
  | None => pret (tk, expr)
  | Some op =>
      match k with
      | O => pfail ERecursion
      | S k' =>
          (tk1 <- next ;;
           '(tk2, rhs) <- operand tk1 ;;
           binloop k' sel operand tk2 (ABin op expr rhs))%P
      end
  end.

Section Levels.
Variable atom : tok -> P (tok * ast).

(** parse_factor (572-581) and parse_power (558-569) *)
Fixpoint factor_lv (k : nat) (tk : tok) : P (tok * ast) :=
  match k with
  | O => pfail ERecursion
  | S k' =>
      match tk_unary tk with
      | Some op =>
          (tk1 <- next ;;
           '(tk2, a) <- factor_lv k' tk1 ;;
           pret (tk2, AUn op a))%P
      | None =>
          ('(tk1, e) <- atom tk ;;
           binloop k' (fun t => when (is_lex t "**") (BNum NPow)) (factor_lv k') tk1 e)%P
      end
  end.

(** parse_product (584-595), parse_arith_expr (598-609) *)
Definition product_lv (k : nat) (tk : tok) : P (tok * ast) :=
  ('(tk1, e) <- factor_lv k tk ;; binloop k tk_mult (factor_lv k) tk1 e)%P.
Definition arith_lv (k : nat) (tk : tok) : P (tok * ast) :=
  ('(tk1, e) <- product_lv k tk ;; binloop k tk_add (product_lv k) tk1 e)%P.

(** parse_comparison (612-634) *)
Fixpoint comp_loop (j : nat) (operand : tok -> P (tok * ast)) (tk : tok) (comparisons : option ast) (rightmost : ast)
  : P (tok * ast) :=
  match tk_comp tk with
  | None => pret (tk, match comparisons with Some c => c | None => rightmost end)
  | Some op =>
      match j with
      | O => pfail ERecursion
      | S j' =>
          (tk1 <- next ;;
           '(tk2, rhs) <- operand tk1 ;;
           let cmp := ABin op rightmost rhs in
           comp_loop j' operand tk2
             (Some (match comparisons with None => cmp | Some c => ABin BAnd c cmp end)) rhs)%P
      end
  end.
Definition comparison_lv (k : nat) (tk : tok) : P (tok * ast) :=
  ('(tk1, e) <- arith_lv k tk ;; comp_loop k (arith_lv k) tk1 None e)%P.

(** parse_not_expr (637-646) *)
Fixpoint not_loop (j k : nat) (tk : tok) : P (tok * ast) :=
  if is_lex tk "not" then
    match j with
    | O => pfail ERecursion
    | S j' =>
        (tk1 <- next ;;
         '(tk2, a) <- not_loop j' k tk1 ;;
         pret (tk2, AUn UNot a))%P
    end
  else comparison_lv k tk.
Definition not_lv (k : nat) (tk : tok) : P (tok * ast) := not_loop k k tk.

(** parse_and_expr (649-661), parse_term (664-676) *)
Definition and_lv (k : nat) (tk : tok) : P (tok * ast) :=
  ('(tk1, e) <- not_lv k tk ;; binloop k (fun t => when (is_lex t "&") BAnd) (not_lv k) tk1 e)%P.
Definition term_lv (k : nat) (tk : tok) : P (tok * ast) :=
  ('(tk1, e) <- and_lv k tk ;; binloop k (fun t => when (is_lex t "|") BOr) (and_lv k) tk1 e)%P.
End Levels.

(** The loops over arguments and annotations in parse_literal (438-466): the
    current token is the opening one. *)
Fixpoint terms_loop (k : nat) (close : string) (term : tok -> P (tok * ast)) (acc : list ast)
  : P (tok * list ast) :=
  match k with
  | O => pfail ERecursion
  | S k' =>
      (tk <- next ;;
       '(tk1, t) <- term tk ;;
       let acc' := acc ++ [t] in
       if is_lex tk1 close then (tk2 <- next ;; pret (tk2, acc'))
       else if is_lex tk1 "," then terms_loop k' close term acc'
       else p_raise)%P
  end.

(** parse_literal (427-467) *)
Definition literal_lv (term : tok -> P (tok * ast)) (k : nat) (tk : tok) : P (tok * alit) :=
  (if negb (tk_functor tk) then p_raise
   else
     tk1 <- next ;;
     '(tk2, ts) <- (if is_lex tk1 "(" then terms_loop k ")" term [] else pret (tk1, [])) ;;
     '(tk3, an) <- (if is_lex tk2 "[" then terms_loop k "]" term [] else pret (tk2, [])) ;;
     pret (tk3, mkalit (t_lex tk) ts an))%P.

(** parse_linked_list_tail (502-519); the current token is the bar. *)
Fixpoint tail_loop (k : nat) (and_ : tok -> P (tok * ast)) : P (tok * ast) :=
  match k with
  | O => pfail ERecursion
  | S k' =>
      (tk <- next ;;
       '(tk1, t) <- and_ tk ;;
       if is_lex tk1 "|" then
         '(tk2, r) <- tail_loop k' and_ ;;
         pret (tk2, ALL t r)
       else if is_lex tk1 "]" then (tk2 <- next ;; pret (tk2, t))
       else p_raise)%P
  end.

(** parse_list (470-499) after the opening bracket. *)
Fixpoint list_loop (k : nat) (and_ : tok -> P (tok * ast)) (tk : tok) (acc : list ast) : P (tok * ast) :=
  if is_lex tk "]" then (tk1 <- next ;; pret (tk1, AList acc))%P
  else
    match k with
    | O => pfail ERecursion
    | S k' =>
        ('(tk1, t) <- and_ tk ;;
         if is_lex tk1 "|" then
           match acc with
           | _ :: _ => p_raise
           | [] => '(tk2, r) <- tail_loop k' and_ ;; pret (tk2, ALL t r)
           end
         else if is_lex tk1 "," then (tk2 <- next ;; list_loop k' and_ tk2 (acc ++ [t]))
         else if is_lex tk1 "]" then list_loop k' and_ tk1 (acc ++ [t])
         else p_raise)%P
    end.

(** parse_atom (522-555) *)
Fixpoint parse_atom (n : nat) (tk : tok) {struct n} : P (tok * ast) :=
  match n with
  | O => pfail ERecursion
  | S n' =>
      let term := term_lv (parse_atom n') n' in
      let and_ := and_lv (parse_atom n') n' in
      if tk_variable tk then (tk1 <- next ;; pret (tk1, AVar (t_lex tk)))%P
      else if tk_functor tk then
        ('(tk1, l) <- literal_lv term n' tk ;; pret (tk1, lit_ast l))%P
      else if is_lex tk "[" then (tk1 <- next ;; list_loop n' and_ tk1 [])%P
      else if is_lex tk "(" then
        (tk1 <- next ;;
         '(tk2, t) <- term tk1 ;;
         if is_lex tk2 ")" then (tk3 <- next ;; pret (tk3, t)) else p_raise)%P
      else if tk_numeric tk then (tk1 <- next ;; pret (tk1, ANum (NFlt (float_lit (t_lex tk)))))%P
      else
        match tk_boolean tk with
        | Some b => (tk1 <- next ;; pret (tk1, ABool b))%P
        | None =>
            if tk_string tk then
              match parse_string (t_lex tk) with
              | Ok s => (tk1 <- next ;; pret (tk1, AStr s))%P
              | Err e => pfail e
              end
            else p_raise
        end
  end.

Definition parse_term (n : nat) : tok -> P (tok * ast) := term_lv (parse_atom n) n.
Definition parse_literal (n : nat) : tok -> P (tok * alit) := literal_lv (parse_term n) n.

(** * Clauses *)

(** [s.find(c)]: membership of a character *)
Definition has_char (c : N) (s : pystr) : bool := existsb (N.eqb c) s.

(** parse_rule_or_belief (679-696) *)
Definition parse_rule_or_belief (n : nat) (tk : tok) : P (tok * (arule + alit)) :=
  ((if has_char 46 (t_lex tk) then p_warn else pret tt) ;;
   '(tk1, b) <- parse_literal n tk ;;
   if is_lex tk1 ":-" then
     tk2 <- next ;;
     '(tk3, c) <- parse_term n tk2 ;;
     pret (tk3, inl (mkarule b c))
   else pret (tk1, inr b))%P.

(** parse_initial_goal (699-708) *)
Definition parse_initial_goal (n : nat) (tk : tok) : P (tok * alit) :=
  (if is_lex tk "!" then tk1 <- next ;; parse_literal n tk1 else p_raise)%P.

(** * Bodies *)

(** "expected '...', got ..." *)
Definition expect (tk : tok) (s : string) : P tok := if is_lex tk s then next else p_raise.

Definition is_formula (f : form) : bool := match f with FForm _ _ => true | _ => false end.

(** parse_body (711-732) *)
Fixpoint body_loop (k : nat) (formula : tok -> P (tok * form)) (tk : tok) (acc : list form) : P (tok * list form) :=
  if is_lex tk "}" then pret (tk, acc)
  else
    match k with
    | O => pfail ERecursion
    | S k' =>
        ('(tk1, f) <- formula tk ;;
         let acc' := acc ++ [f] in
         if is_lex tk1 ";" then
           tk2 <- next ;;
           if is_lex tk2 "}" then pret (tk2, acc') else body_loop k' formula tk2 acc'
         else if is_lex tk1 "}" then pret (tk1, acc')
         else if is_formula f then p_raise
         else body_loop k' formula tk1 acc')%P
    end.

(** "{ body }": the tests and calls around parse_body in parse_while,
    parse_for and parse_if_then_else. *)
Definition block_lv (body : tok -> P (tok * list form)) (tk : tok) : P (tok * list form) :=
  (tk1 <- expect tk "{" ;;
   '(tk2, b) <- body tk1 ;;
   tk3 <- expect tk2 "}" ;;
   pret (tk3, b))%P.

(** "( term )" *)
Definition condition (n : nat) (tk : tok) : P (tok * ast) :=
  (tk1 <- expect tk "(" ;;
   '(tk2, t) <- parse_term n tk1 ;;
   tk3 <- expect tk2 ")" ;;
   pret (tk3, t))%P.

(** parse_body_formula (842-860) with parse_while (735-763), parse_for
    (766-794), parse_if_then_else (797-839). *)
Fixpoint parse_formula (n : nat) (tk : tok) {struct n} : P (tok * form) :=
  match n with
  | O => pfail ERecursion
  | S n' =>
      let block := block_lv (fun tk => body_loop n' (parse_formula n') tk []) in
      (if is_lex tk "while" then
         tk1 <- next ;;
         '(tk2, c) <- condition n' tk1 ;;
         '(tk3, b) <- block tk2 ;;
         pret (tk3, FWhile c b)
       else if is_lex tk "if" then
         tk1 <- next ;;
         '(tk2, c) <- condition n' tk1 ;;
         '(tk3, ib) <- block tk2 ;;
         if is_lex tk3 "else" then
           tk4 <- next ;;
           '(tk5, eb) <- block tk4 ;;
           pret (tk5, FIf c ib (Some eb))
         else pret (tk3, FIf c ib None)
       else if is_lex tk "for" then
         tk1 <- next ;;
         '(tk2, c) <- condition n' tk1 ;;
         '(tk3, b) <- block tk2 ;;
         pret (tk3, FFor c b)
       else
         match tk_formula tk with
         | Some ft =>
             tk1 <- next ;;
             '(tk2, t) <- parse_term n' tk1 ;;
             pret (tk2, FForm ft t)
         | None =>
             '(tk2, t) <- parse_term n' tk ;;
             pret (tk2, FForm FtTerm t)
         end)%P
  end.

(** parse_plan_body (863-881) *)
Fixpoint plan_body_loop (k n : nat) (tk : tok) (acc : list form) : P (tok * list form) :=
  match k with
  | O => pfail ERecursion
  | S k' =>
      ('(tk1, f) <- parse_formula n tk ;;
       let acc' := acc ++ [f] in
       if is_lex tk1 ";" then (tk2 <- next ;; plan_body_loop k' n tk2 acc')
       else if is_lex tk1 "." then pret (tk1, acc')
       else if is_formula f then p_raise
       else plan_body_loop k' n tk1 acc')%P
  end.
Definition parse_plan_body (n : nat) (tk : tok) : P (tok * list form) := plan_body_loop n n tk [].

(** parse_event (884-900) *)
Definition parse_event (n : nat) (tk : tok) : P (tok * aevent) :=
  match tk_trigger tk with
  | None => p_raise
  | Some tr =>
      (tk1 <- next ;;
       '(tk2, gt) <- (match tk_goal tk1 with
                      | Some g => tk2 <- next ;; pret (tk2, g)
                      | None => pret (tk1, GtBelief)
                      end) ;;
       '(tk3, h) <- parse_literal n tk2 ;;
       pret (tk3, mkaevent tr gt h))%P
  end.

(** parse_plan (903-935).  [plan.args] of the syntax tree (913-922) is never
    used and not modelled. *)
Definition parse_plan (n : nat) (tk : tok) : P (tok * aplan) :=
  ('(tk1, an) <- (if is_lex tk "@" then
                    tk1 <- next ;;
                    '(tk2, l) <- parse_literal n tk1 ;;
                    pret (tk2, Some l)
                  else pret (tk, None)) ;;
   '(tk2, e) <- parse_event n tk1 ;;
   '(tk3, c) <- (if is_lex tk2 ":" then
                   tk3 <- next ;;
                   '(tk4, t) <- parse_term n tk3 ;;
                   pret (tk4, Some t)
                 else pret (tk2, None)) ;;
   '(tk4, b) <- (if is_lex tk3 "<-" then
                   tk4 <- next ;;
                   '(tk5, l) <- parse_plan_body n tk4 ;;
                   pret (tk5, Some l)
                 else pret (tk3, None)) ;;
   pret (tk4, mkaplan an e c b))%P.
