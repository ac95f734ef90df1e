(** What the text between the quotes of a string literal stands for. *)
From Verif Require Import Base.

(** Unicode code points *)
Definition code_point (c : N) : Prop := (c < 1114112)%N.
Definition ascii (c : N) : Prop := (c < 128)%N.

(** The one-letter escapes. *)
Definition short_escapes : list (N * N) :=
  [(92, 92); (39, 39); (34, 34); (97, 7); (98, 8); (102, 12); (110, 10); (114, 13); (116, 9); (118, 11)]%N.

(** A hexadecimal digit, in either case, and its value. *)
Inductive hexdigit : N -> N -> Prop :=
| hd_digit d : (d < 10)%N -> hexdigit (48 + d) d
| hd_lower d : (10 <= d < 16)%N -> hexdigit (87 + d) d
| hd_upper d : (10 <= d < 16)%N -> hexdigit (55 + d) d.

(** [hexnum k s x]: [s] is [k] hexadecimal digits for the number [x]. *)
Inductive hexnum : nat -> pystr -> N -> Prop :=
| hn_nil : hexnum 0 [] 0
| hn_snoc k s x c d : hexnum k s x -> hexdigit c d -> hexnum (S k) (s ++ [c]) (16 * x + d).

(** Octal digits. *)
Inductive octnum : nat -> pystr -> N -> Prop :=
| on_nil : octnum 0 [] 0
| on_snoc k s x d : octnum k s x -> (d < 8)%N -> octnum (S k) (s ++ [48 + d])%N (8 * x + d).

(** [denotes b s]: the literal ["b"] stands for the string [s]. *)
Inductive denotes : pystr -> pystr -> Prop :=
| dn_nil : denotes [] []
| dn_plain c b s : ascii c -> c <> 92%N -> denotes b s -> denotes (c :: b) (c :: s)
| dn_short c x b s : In (c, x) short_escapes -> denotes b s -> denotes (92%N :: c :: b) (x :: s)
| dn_oct h x b s : octnum 3 h x -> denotes b s -> denotes (92%N :: h ++ b) (x :: s)
| dn_x h x b s : hexnum 2 h x -> denotes b s -> denotes (92%N :: 120%N :: h ++ b) (x :: s)
| dn_u h x b s : hexnum 4 h x -> denotes b s -> denotes (92%N :: 117%N :: h ++ b) (x :: s)
| dn_U h x b s : hexnum 8 h x -> code_point x -> denotes b s -> denotes (92%N :: 85%N :: h ++ b) (x :: s)
| dn_newline b s : denotes b s -> denotes (92%N :: 10%N :: b) s.

(** A literal is its body between double quotes. *)
Definition literal (b : pystr) : pystr := 34%N :: b ++ [34%N].
