(** Which sets of files C40 speaks about. *)
From Verif Require Import Base Num Term Str World Ast Names Quote Lex Parse Fold Program.

(** The paths that the string literals of a file, if they are included from
    there, lead to. *)
Definition leads (file : pystr) (lines : list pystr) (path : pystr) : Prop :=
  exists items t name, tokenize 1 lines = Ok items /\ In (ITok t) items /\ tk_string t = true /\
    parse_string (t_lex t) = Ok name /\ path = join_path (dirname file) name.

(** No include goes through ".", ".." or a doubled slash. *)
Definition plain_includes (files : pystr -> file) (main : pystr) (lines : list pystr) : Prop :=
  (forall path, leads main lines path -> normpath path = path) /\
  (forall p l path, files p = File l -> leads p l path -> normpath path = path).

(** There are only finitely many files. *)
Definition finitely_many (files : pystr -> file) (paths : list pystr) (size : nat) : Prop :=
  forall p, normpath p = p -> forall l, files p = File l ->
    In p paths /\ forall items, tokenize 1 l = Ok items -> (List.length items <= size)%nat.

(** Paths with the same normal form are the same file (no symbolic links). *)
Definition no_links (files : pystr -> file) : Prop := forall p q, normpath p = normpath q -> files p = files q.

(** C's power function fails only in the ways Python reports. *)
Definition sane_pow (PY : Py) : Prop := forall x y, fpow x y <> Err ERecursion.
