(** Programs: directives, includes, clauses (agentspeak/parser.py:938-1045,
    1436-1440), and building agents from source (agentspeak/runtime.py:829-866). *)
From Verif Require Import Base Num Term Str World Ast Names Quote Lex Parse Fold.
From Verif Require Import Engine Build.

(** * Paths (posixpath) *)

Definition slash : N := 47.

Fixpoint split_slash (s : pystr) (cur : pystr) : list pystr :=
  match s with
  | [] => [cur]
  | c :: s' => if (c =? slash)%N then cur :: split_slash s' [] else split_slash s' (cur ++ [c])
  end.

Definition ends_slash (s : pystr) : bool := match rev s with c :: _ => (c =? slash)%N | [] => false end.
Definition starts_slash (s : pystr) : bool := match s with c :: _ => (c =? slash)%N | [] => false end.

Fixpoint lstrip_slash (s : pystr) : pystr :=
  match s with c :: s' => if (c =? slash)%N then lstrip_slash s' else s | [] => [] end.

(** os.path.dirname: up to and including the last slash, and without trailing
    slashes unless it consists of slashes. *)
Fixpoint drop_to_slash (r : pystr) : pystr :=
  match r with c :: r' => if (c =? slash)%N then r else drop_to_slash r' | [] => [] end.
Definition dirname (p : pystr) : pystr :=
  let h := drop_to_slash (rev p) in
  if forallb (N.eqb slash) h then rev h else rev (lstrip_slash h).

(** os.path.join *)
Definition join_path (a b : pystr) : pystr :=
  if starts_slash b then b
  else match a with
       | [] => b
       | _ => if ends_slash a then a ++ b else a ++ slash :: b
       end.

(** os.path.normpath.  [comps] is reversed. *)
Fixpoint norm_comps (slashes : nat) (l comps : list pystr) : list pystr :=
  match l with
  | [] => rev comps
  | c :: l' =>
      if pystr_eqb c [] || pystr_eqb c (s2p ".") then norm_comps slashes l' comps
      else if negb (pystr_eqb c (s2p ".."))
              || (Nat.eqb slashes 0 && match comps with [] => true | _ => false end)
              || match comps with d :: _ => pystr_eqb d (s2p "..") | [] => false end
      then norm_comps slashes l' (c :: comps)
      else norm_comps slashes l' (tl comps)
  end.
Definition initial_slashes (p : pystr) : nat :=
  match p with
  | a :: b :: c :: _ => if (a =? slash)%N then (if (b =? slash)%N && negb (c =? slash)%N then 2 else 1) else 0
  | [a; b] => if (a =? slash)%N then (if (b =? slash)%N then 2 else 1) else 0
  | [a] => if (a =? slash)%N then 1 else 0
  | [] => 0
  end.
Definition normpath (p : pystr) : pystr :=
  match p with
  | [] => s2p "."
  | _ =>
      let k := initial_slashes p in
      match repeat slash k ++ joins [slash] (norm_comps k (split_slash p []) []) with
      | [] => s2p "."
      | q => q
      end
  end.

(** * Files *)

(** What [open] of a path gives: FileNotFoundError, another OSError, or the
    lines.  (That the text cannot be decoded is not modelled.) *)
Inductive file : Type := NoFile | BadFile | File (lines : list pystr).

(** * parse_agent (938-1045) and parse (1436-1440) *)

(** [try: tok = next(tokens) except StopIteration: ...] *)
Definition next_or {A} (stop : P A) (go : tok -> P A) : P A := fun s =>
  match next s with
  | (Err EStopIter, s1) => stop s1
  | (Err e, s1) => (Err e, s1)
  | (Ok tk, s1) => go tk s1
  end.

(** [except StopIteration: raise log.error("unexpected end of file")] *)
Definition at_eof {A} (m : P A) : P A := fun s =>
  match m s with
  | (Err EStopIter, s1) => p_raise s1
  | x => x
  end.

(** Parsing another file: with its own tokens, but the number 1 instead of a
    log (996). *)
Definition in_file {A} (items : list item) (m : P A) : P A := fun s =>
  let '(r, s1) := m (mkpst items (p_log s) false) in
  (r, mkpst (p_items s) (p_log s1) (p_own s)).

Definition p_res {A} (r : res A) : P A := fun s => (r, s).

(** [if tok.lexeme != "...": raise log.error(...)], [tok = next(tokens)] before
    it. *)
Definition next_is (s : string) : P unit := (tk <- next ;; if is_lex tk s then pret tt else p_raise)%P.
Definition must (tk : tok) (s : string) : P unit := if is_lex tk s then pret tt else p_raise.

Definition no_agent : aagent := mkaagent [] [] [] [].
Definition add_agent (g h : aagent) : aagent :=
  mkaagent (ag_rules g ++ ag_rules h) (ag_beliefs g ++ ag_beliefs h)
    (ag_goals g ++ ag_goals h) (ag_plans g ++ ag_plans h).
Definition add_rule_belief (g : aagent) (x : arule + alit) : aagent :=
  match x with
  | inl r => add_agent g (mkaagent [r] [] [] [])
  | inr b => add_agent g (mkaagent [] [b] [] [])
  end.

Section WithPy.
Context {PY : Py}.
Variable files : pystr -> file.

(** The include directive after "include" (955-1003); [sub] is [parse]. *)
Definition include_file (sub : pystr -> list pystr -> bool -> P aagent) (filename : pystr) (included : list pystr)
  : P aagent :=
  (next_is "(" ;;
   tk <- next ;;
   if tk_string tk then
     name <- p_res (parse_string (t_lex tk)) ;;
     next_is ")" ;;
     next_is "}" ;;
     let path := join_path (dirname filename) name in
     if existsb (pystr_eqb path) included then p_error ;; pret no_agent
     else
       match files path with
       | NoFile => p_error ;; pret no_agent
       | BadFile => pfail EIO
       | File lines => items <- p_res (tokenize 1 lines) ;; in_file items (sub path included false)
       end
   else p_raise)%P.

(** [n] bounds the parser of clauses, [k] the loop. *)
Fixpoint agent_loop (sub : pystr -> list pystr -> bool -> P aagent) (n k : nat) (filename : pystr)
  (included : list pystr) (directive : bool) (g : aagent) (plans : bool) : P aagent :=
  match k with
  | O => pfail ERecursion
  | S k' =>
      let loop := agent_loop sub n k' filename included directive in
      next_or (if directive then p_raise else validate g) (fun tk =>
       (if is_lex tk "{" then
          tk1 <- next ;;
          if is_lex tk1 "include" then
            h <- include_file sub filename included ;;
            loop (add_agent g h) plans
          else if is_lex tk1 "begin" then
            tk2 <- next ;;
            '(tk3, d) <- parse_literal n tk2 ;;
            must tk3 "}" ;;
            p_warn ;;
            h <- sub filename included true ;;
            loop (add_agent g h) plans
          else if is_lex tk1 "end" then
            next_is "}" ;;
            if directive then validate g else p_error ;; loop g plans
          else p_raise
        else if tk_functor tk then
          (if plans then p_warn else pret tt) ;;
          '(tk1, x) <- parse_rule_or_belief n tk ;;
          must tk1 "." ;;
          loop (add_rule_belief g x) plans
        else if is_lex tk "!" then
          '(tk1, x) <- parse_initial_goal n tk ;;
          must tk1 "." ;;
          loop (add_agent g (mkaagent [] [] [x] [])) plans
        else if is_lex tk "@" || is_lex tk "+" || is_lex tk "-" then
          '(tk1, p) <- parse_plan n tk ;;
          must tk1 "." ;;
          loop (add_agent g (mkaagent [] [] [] [p])) true
        else p_error ;; loop g plans)%P)
  end.

(** parse (1436-1440); the loop and the clauses are bounded by [n] too. *)
Fixpoint parse_program (n : nat) (filename : pystr) (included : list pystr) (directive : bool) : P aagent :=
  match n with
  | O => pfail ERecursion
  | S n' =>
      at_eof (agent_loop (parse_program n') n' n' filename (normpath filename :: included) directive no_agent false)
  end.

(** The parsing part of Environment._build_agent (829-834) *)
Definition parse_source (n : nat) (name : pystr) (lines : list pystr) : res aagent :=
  match tokenize 1 lines with
  | Err e => Err e
  | Ok items =>
      match parse_program n name [] false (mkpst items (log_new (Some 3%nat)) true) with
      | (Err e, _) => Err e
      | (Ok g, s) => match log_throw (p_log s) with Err e => Err e | Ok _ => Ok g end
      end
  end.

(** Environment.build_agent (829-840); [name] is the optional argument. *)
Context {FR : Front}.
Definition build_agent (n : nat) (acts : actions act) (source_name : pystr) (lines : list pystr)
  (name : option pystr) (W : world) : res nat * world :=
  match parse_source n source_name lines with
  | Err e => (Err e, W)
  | Ok g => build_agent_from_ast n acts (name_or name source_name) g W
  end.
End WithPy.
