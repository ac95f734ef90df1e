(** What is typed into the read-eval-print loop, and what it should do. *)
From Verif Require Import Base Num Term Str World Ast Names Lex Parse GramSpec Repl.

(** The tokens begin with the statements [bs], each a plan body (GramSpec.v) and a
    full stop. *)
Inductive statements : list tok -> list (list form) -> list tok -> Prop :=
| s_rest rest : statements rest [] rest
| s_next a b d ts bs rest : plan_body a b -> the "." d -> statements ts bs rest -> statements (a ++ d :: ts) (b :: bs) rest.

(** The beginning of a statement. *)
Definition unfinished (rest : list tok) : Prop :=
  rest = [] \/ exists us b d, plan_body (rest ++ us) b /\ the "." d /\ Forall lexed (us ++ [d]).

(** Running statements one after the other, without an exception. *)
Inductive executes {S0} (exec : list form -> S0 -> res unit * S0) : list (list form) -> S0 -> S0 -> Prop :=
| x_none x : executes exec [] x x
| x_next b bs x y z : exec b x = (Ok tt, y) -> executes exec bs y z -> executes exec (b :: bs) x z.

(** The tokens of the lines that are typed, from line [k] on. *)
Inductive typed : nat -> list pystr -> list tok -> Prop :=
| t_none k : typed k [] []
| t_line k line lines ts T : tokenize (S k) (string_source line) = Ok (map ITok ts) -> typed (S k) lines T ->
    typed k (line :: lines) (ts ++ T).
