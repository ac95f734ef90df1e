(** What file names mean (POSIX, without looking at the file system). *)
From Verif Require Import Base Str Program.

Definition slashes (k : nat) : pystr := repeat 47%N k.
Definition rooted (p : pystr) : Prop := exists r, p = 47%N :: r.

(** The leading slashes: none, one, or exactly two, which POSIX keeps apart;
    three or more are like one. *)
Definition leading (p : pystr) (k : nat) : Prop :=
  exists j r, p = slashes j ++ r /\ ~ rooted r /\ k = match j with 0 => 0 | 2 => 2 | _ => 1 end%nat.

(** The components: what is between the slashes. *)
Definition spelled (p : pystr) (cs : list pystr) : Prop :=
  p = joins [47%N] cs /\ cs <> [] /\ Forall (fun c => ~ In 47%N c) cs.

(** Where a sequence of components leads from here, or from the root: so many
    levels up, then down through these directories (the innermost first). *)
Inductive leads_to (root : bool) : list pystr -> nat -> list pystr -> Prop :=
| lt_here : leads_to root [] 0 []
| lt_stay cs u names c : leads_to root cs u names -> c = [] \/ c = s2p "." -> leads_to root (cs ++ [c]) u names
| lt_into cs u names c : leads_to root cs u names -> c <> [] -> c <> s2p "." -> c <> s2p ".." -> leads_to root (cs ++ [c]) u (c :: names)
| lt_back cs u d names : leads_to root cs u (d :: names) -> leads_to root (cs ++ [s2p ".."]) u names
| lt_above cs u : root = false -> leads_to root cs u [] -> leads_to root (cs ++ [s2p ".."]) (S u) []
| lt_root cs u : root = true -> leads_to root cs u [] -> leads_to root (cs ++ [s2p ".."]) u [].

(** [p] stands for: [k] leading slashes, [u] levels up, down through [names]. *)
Definition denotes (p : pystr) (k u : nat) (names : list pystr) : Prop :=
  leading p k /\ exists cs, spelled p cs /\ leads_to (negb (Nat.eqb k 0)) cs u names.
