(** String literals: parse_string (agentspeak/__init__.py:318-321) with Python's
    codecs "utf-8" (encoding) and "unicode_escape" (decoding). *)
From Verif Require Import Base Num Term Str.

(** ** [s.encode("utf-8")] *)

(** Surrogates cannot be encoded (UnicodeEncodeError, like UnicodeDecodeError a
    subclass of UnicodeError; both are [EUnicode] here). *)
Definition utf8_char (c : N) : res pystr :=
  if (c <? 128)%N then Ok [c]
  else if (c <? 2048)%N then Ok [192 + c / 64; 128 + c mod 64]%N
  else if ((55296 <=? c) && (c <? 57344))%N then Err EUnicode
  else if (c <? 65536)%N then Ok [224 + c / 4096; 128 + (c / 64) mod 64; 128 + c mod 64]%N
  else Ok [240 + c / 262144; 128 + (c / 4096) mod 64; 128 + (c / 64) mod 64; 128 + c mod 64]%N.

Fixpoint utf8 (s : pystr) : res pystr :=
  match s with
  | [] => Ok []
  | c :: s' => rbind (utf8_char c) (fun b => rmap (app b) (utf8 s'))
  end.

(** ** [b.decode("unicode_escape")] *)

Definition hex_val (c : N) : option N :=
  if ((48 <=? c) && (c <=? 57))%N then Some (c - 48)%N
  else if ((97 <=? c) && (c <=? 102))%N then Some (c - 87)%N
  else if ((65 <=? c) && (c <=? 70))%N then Some (c - 55)%N
  else None.

Definition is_octal (c : N) : bool := ((48 <=? c) && (c <=? 55))%N.

(** Exactly [k] hexadecimal digits; the value is appended to [acc]. *)
Fixpoint hex_digits (k : nat) (acc : N) (s : pystr) : option (N * pystr) :=
  match k with
  | O => Some (acc, s)
  | S k' =>
      match s with
      | [] => None
      | c :: s' => match hex_val c with Some d => hex_digits k' (16 * acc + d)%N s' | None => None end
      end
  end.

(** At most [k] octal digits. *)
Fixpoint oct_digits (k : nat) (acc : N) (s : pystr) : N * pystr :=
  match k, s with
  | S k', c :: s' => if is_octal c then oct_digits k' (8 * acc + (c - 48))%N s' else (acc, s)
  | _, _ => (acc, s)
  end.

(** The character after a backslash: what the escape stands for and the rest.
    Unknown escapes stand for themselves, a backslash before a newline is dropped
    with it.  "\N{...}" is outside the model. *)
Definition escape (c : N) (s : pystr) : res (pystr * pystr) :=
  let hex k :=
    match hex_digits k 0 s with
    | Some (x, s') => if (x <? 1114112)%N then Ok ([x], s') else Err EUnicode
    | None => Err EUnicode
    end in
  if (c =? 10)%N then Ok ([], s)
  else if ((c =? 92) || (c =? 39) || (c =? 34))%N then Ok ([c], s)
  else if (c =? 98)%N then Ok ([8%N], s)
  else if (c =? 102)%N then Ok ([12%N], s)
  else if (c =? 116)%N then Ok ([9%N], s)
  else if (c =? 110)%N then Ok ([10%N], s)
  else if (c =? 114)%N then Ok ([13%N], s)
  else if (c =? 118)%N then Ok ([11%N], s)
  else if (c =? 97)%N then Ok ([7%N], s)
  else if is_octal c then let '(x, s') := oct_digits 2 (c - 48) s in Ok ([x], s')
  else if (c =? 120)%N then hex 2%nat
  else if (c =? 117)%N then hex 4%nat
  else if (c =? 85)%N then hex 8%nat
  else if (c =? 78)%N then Err EUnmodelled
  else Ok ([92%N; c], s).

(** Bytes other than escapes are read as Latin-1.  [n] bounds the length. *)
Fixpoint unescape (n : nat) (s : pystr) : res pystr :=
  match s with
  | [] => Ok []
  | c :: s' =>
      match n with
      | O => Err ERecursion
      | S n' =>
          if (c =? 92)%N then
            match s' with
            | [] => Err EUnicode
            | d :: s2 => rbind (escape d s2) (fun '(x, s3) => rmap (app x) (unescape n' s3))
            end
          else rmap (cons c) (unescape n' s')
      end
  end.

(** [s.startswith('"') and s.endswith('"')] *)
Definition quoted (s : pystr) : bool :=
  match s with c :: _ => (c =? 34)%N && (last s 0 =? 34)%N | [] => false end.

(** parse_string; [s[1:-1]] of a single quote is empty. *)
Definition parse_string (s : pystr) : res pystr :=
  if quoted s then
    rbind (utf8 (removelast (tl s))) (fun b => unescape (List.length b) b)
  else Err EAssert.
