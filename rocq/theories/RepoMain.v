(** The programs that come with the repository, run in the model.  These are
    tests of the model, not theorems about it: each evaluates programs of
    /repo/tests/asl or /repo/examples in the model and compares what is printed
    with what the program is written to print.  Definitions; the runs are in
    RepoTests.v. *)
From Verif Require Import Base Num Term Unify Str World Engine Step Ast Names Build Lex Parse Program Front ShowRepr.
From Coq Require Import String Ascii Floats.SpecFloat.
From Coq Require QArith_base.
Notation Qnum := QArith_base.Qnum (only parsing).
Notation Qden := QArith_base.Qden (only parsing).

(** Values of the oracles for these runs: floats to the power of natural
    numbers by repeated multiplication, a date and a time, and a clock that
    moves on by one second at the readings in the list [ticks]. *)
Definition small_pow (x y : spec_float) : res num :=
  match flt_val y with
  | XQ q =>
      let z := (Qnum q / Zpos (Qden q))%Z in
      if (0 <=? z)%Z then Ok (NFlt (Nat.iter (Z.to_nat z) (SFmul prec emax x) flt_one)) else Err EUnmodelled
  | _ => Err EUnmodelled
  end.
Definition int3 (x y z : Z) : term := TTup [TNum (NInt x); TNum (NInt y); TNum (NInt z)].
(** The lines of a file, as a file object of Python gives them. *)
Definition line (s : string) : pystr := s2p s ++ [10%N].
Definition only_null (p : pystr) : file := if pystr_eqb p (s2p "/dev/null") then File [] else NoFile.
Definition printed (W : world) : list (string * string) :=
  map (fun '(a, s) => (string_of_list_ascii (map ascii_of_N a), string_of_list_ascii (map ascii_of_N s))) (rev (w_out W)).

Section Clock.
Variable ticks : list N.
Definition PyRun : Py := {|
  horder := fun l => l; fpow := small_pow;
  py_call := fun f _ _ => match f with PFDate => Ok (int3 2026 11 16) | PFTime => Ok (int3 20 15 0) | _ => Err EUnmodelled end;
  py_time := fun k => NFlt (binary_normalize prec emax (Z.of_nat (List.length (filter (fun b => b <=? k)%N ticks))) 0 false);
  frepr := expansion; vname := fun v => s2p "_X_abc_" ++ dec_N v;
  u_alnum := fun _ => true; u_lower := fun c => [c] |}.
Definition FrontRun : Front := @FrontText PyRun 200.

(** runtime.main (runtime.py:1146-1169) with a file name: build the agent with
    the extended library and run it.  [n] bounds recursion, [k] steps. *)
Definition main (k n : nat) (name : string) (lines : list string) : res (list num) * world :=
  match @build_agent PyRun only_null FrontRun n ext_actions (s2p name) (map line lines) None world0 with
  | (Err e, W) => (Err e, W)
  | (Ok a, W) => @run_agent PyRun FrontRun k n a W
  end.
(** Exit code 0, and the lines printed. *)
Definition prints (k n : nat) (name : string) (lines out : list string) : Prop :=
  let '(r, W) := main k n name lines in
  (match r with Ok _ => True | Err _ => False end) /\ map snd (printed W) = out.
(** Exit code 1 (an AggregatedError). *)
Definition reports (k n : nat) (name : string) (lines : list string) : Prop :=
  fst (main k n name lines) = Err EAggregated.

(** The scripts of /repo/examples: build_agents for some files, then
    Environment.run. *)
Fixpoint load (n : nat) (l : list (string * nat * list string)) (W : world) : res unit * world :=
  match l with
  | [] => (Ok tt, W)
  | (name, count, lines) :: l' =>
      match @parse_source PyRun only_null n (s2p name) (map line lines) with
      | Err e => (Err e, W)
      | Ok g =>
          match @build_agents PyRun FrontRun n stdlib_actions (s2p name) None count g W with
          | (Err e, W1) => (Err e, W1)
          | (Ok _, W1) => load n l' W1
          end
      end
  end.
Definition script (k n : nat) (l : list (string * nat * list string)) : res (list num) * world :=
  match load n l world0 with
  | (Err e, W) => (Err e, W)
  | (Ok _, W) => @run PyRun FrontRun k n W
  end.
Definition script_prints (k n : nat) (l : list (string * nat * list string)) (out : list (string * string)) : Prop :=
  let '(r, W) := script k n l in
  (match r with Ok _ => True | Err _ => False end) /\ printed W = out.
End Clock.
