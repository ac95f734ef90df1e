(** C62: the names of included files.  Specification: PathSpec.v ([denotes]:
    where a file name leads, as leading slashes, levels up and directories down). *)
From Verif Require Import Base Str Program PathSpec PathFacts.

(** Every file name leads somewhere, and to one place. *)
Theorem C62_place : forall p, exists k u names, denotes p k u names /\
  forall k' u' names', denotes p k' u' names' -> k' = k /\ u' = u /\ names' = names.
Proof. exact place_unique. Qed.
Print Assumptions C62_place.

(** A relative include leads to where its name leads from the directory of the
    file that includes it: [cs] are the components of that file's name without
    the last. *)
Theorem C62_relative : forall file cs base name ds k u names,
  ~ rooted name -> spelled file (cs ++ [base]) -> spelled name ds -> leading file k ->
  leads_to (negb (Nat.eqb k 0)) (cs ++ ds) u names -> denotes (join_path (dirname file) name) k u names.
Proof. exact include_where. Qed.
Print Assumptions C62_relative.

(** An absolute include is the file of this name. *)
Theorem C62_absolute : forall file name, rooted name -> join_path (dirname file) name = name.
Proof. exact include_absolute. Qed.
Print Assumptions C62_absolute.

(** Normalised names are the same exactly if the names lead to the same place. *)
Theorem C62_same : forall p q k u names k' u' names', denotes p k u names -> denotes q k' u' names' ->
  (normpath p = normpath q <-> k = k' /\ u = u' /\ names = names').
Proof. exact normpath_same. Qed.
Print Assumptions C62_same.

(** The normalised name is a name of the same place, and is itself normalised. *)
Theorem C62_normal : forall p, normpath (normpath p) = normpath p /\
  forall k u names, denotes p k u names -> denotes (normpath p) k u names.
Proof. exact normpath_normal. Qed.
Print Assumptions C62_normal.

(** ** Examples *)
Example C62_case : denotes (s2p "lib//agents/../main.asl") 0 0 [s2p "main.asl"; s2p "lib"] /\
  denotes (s2p "../../x") 0 2 [s2p "x"] /\ denotes (s2p "//srv/../..") 2 0 [] /\ denotes (s2p "///etc") 1 0 [s2p "etc"] /\
  join_path (dirname (s2p "lib//main.asl")) (s2p "../x.asl") = s2p "lib/../x.asl" /\ normpath (s2p "lib/../x.asl") = s2p "x.asl".
Proof.
  assert (D : forall p k u names j r cs, p = slashes j ++ r -> match r with c :: _ => c <> 47%N | [] => True end ->
    k = match j with 0 => 0 | 2 => 2 | _ => 1 end%nat -> p = joins [47%N] cs -> cs <> [] -> forallb (fun c => negb (existsb (N.eqb 47) c)) cs = true ->
    leads_to (negb (Nat.eqb k 0)) cs u names -> denotes p k u names).
  { intros p k u names j r cs E1 Hr Ek E2 Nc Hc Hl. split.
    - exists j, r. split; [exact E1|]. split; [|exact Ek]. intros [q ->]. now apply Hr.
    - exists cs. split; [|exact Hl]. split; [exact E2|]. split; [exact Nc|]. apply Forall_forall. intros c Hi Hs. rewrite forallb_forall in Hc. specialize (Hc c Hi).
      apply negb_true_iff in Hc. assert (existsb (N.eqb 47) c = true) by (apply existsb_exists; exists 47%N; now split). congruence. }
  split; [|split; [|split; [|split; [|split; vm_compute; reflexivity]]]].
  - apply (D _ _ _ _ 0%nat (s2p "lib//agents/../main.asl") [s2p "lib"; []; s2p "agents"; s2p ".."; s2p "main.asl"]); try reflexivity; try discriminate.
    apply (lt_into _ [s2p "lib"; []; s2p "agents"; s2p ".."]); try discriminate. apply (lt_back _ [s2p "lib"; []; s2p "agents"] _ (s2p "agents")).
    apply (lt_into _ [s2p "lib"; []]); try discriminate. apply (lt_stay _ [s2p "lib"]); [|now left]. apply (lt_into _ []); try discriminate. constructor.
  - apply (D _ _ _ _ 0%nat (s2p "../../x") [s2p ".."; s2p ".."; s2p "x"]); try reflexivity; try discriminate.
    apply (lt_into _ [s2p ".."; s2p ".."]); try discriminate. apply (lt_above _ [s2p ".."]); [reflexivity|]. apply (lt_above _ []); [reflexivity|]. constructor.
  - apply (D _ _ _ _ 2%nat (s2p "srv/../..") [[]; []; s2p "srv"; s2p ".."; s2p ".."]); try reflexivity; try discriminate.
    apply (lt_root _ [[]; []; s2p "srv"; s2p ".."]); [reflexivity|]. apply (lt_back _ [[]; []; s2p "srv"] _ (s2p "srv")). apply (lt_into _ [[]; []]); try discriminate.
    apply (lt_stay _ [[]]); [|now left]. apply (lt_stay _ []); [constructor|now left].
  - apply (D _ _ _ _ 3%nat (s2p "etc") [[]; []; []; s2p "etc"]); try reflexivity; try discriminate.
    apply (lt_into _ [[]; []; []]); try discriminate. apply (lt_stay _ [[]; []]); [|now left]. apply (lt_stay _ [[]]); [|now left]. apply (lt_stay _ []); [constructor|now left].
Qed.
