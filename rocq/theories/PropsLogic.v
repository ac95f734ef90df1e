(** Query answers and logical consequence (C13). *)
From Verif Require Import Base Num Term Unify TrailSpec FuelFacts ChainFacts TermSpec Str World Engine QuerySpec
  QueryCor LogicSpec LogicCor ExPy.

(** C13, soundness.  [l] are the scopes at the solutions a consumer got from a
    query without negation, actions and arithmetic ([horn]).  Every solution
    stands for at least one assignment (of possibly infinite trees), and every
    assignment it stands for makes the query a consequence of the beliefs and
    rules. *)
Theorem C13_sound : forall (PY : Py) (FR : Front), PyLawful PY -> forall b a i q c n st W l o s2,
  proper b q = true -> proper_db b (db_of a W) -> (b = true -> Forall (fun p => fst p = []) c) ->
  horn q -> horn_db (db_of a W) -> pure_scope (b_scope st) ->
  drive c n a i (GQ q) (st, W) = (l, o, s2) -> forall s', o <> Raised ERecursion -> In s' l ->
  (exists th, iagrees noex th s') /\
  (forall th, iagrees noex th s' -> iagrees noex th (b_scope st) /\ iconsequence (db_of a W) q th) /\
  (forall th, agrees noex th s' -> agrees noex th (b_scope st) /\ consequence (db_of a W) q th).
Proof. exact @answers_sound. Qed.
Print Assumptions C13_sound.

(** C13, completeness.  If the enumeration finished, every assignment that makes
    the query a consequence agrees, on all variables that existed when the query
    was started, with some assignment that one of the solutions stands for.
    Beliefs are ground (see C14). *)
Theorem C13_complete : forall (PY : Py) (FR : Front), PyLawful PY -> forall b a i q c n st W l o s2,
  proper b q = true -> proper_db b (db_of a W) -> (b = true -> Forall (fun p => fst p = []) c) ->
  horn q -> horn_db (db_of a W) -> pure_scope (b_scope st) ->
  drive c n a i (GQ q) (st, W) = (l, o, s2) ->
  ground_db (db_of a W) -> created (w_nv W) (b_scope st) q -> o = Exhausted ->
  forall th, agrees noex th (b_scope st) -> consequence (db_of a W) q th ->
  exists s' th', In s' l /\ agrees noex th' s' /\ forall v, (v < w_nv W)%N -> th' v = th v.
Proof. exact @answers_complete. Qed.
Print Assumptions C13_complete.

(** The same over infinite trees. *)
Theorem C13_complete_infinite : forall (PY : Py) (FR : Front), PyLawful PY -> forall b a i q c n st W l o s2,
  proper b q = true -> proper_db b (db_of a W) -> (b = true -> Forall (fun p => fst p = []) c) ->
  horn q -> horn_db (db_of a W) -> pure_scope (b_scope st) ->
  drive c n a i (GQ q) (st, W) = (l, o, s2) ->
  ground_db (db_of a W) -> created (w_nv W) (b_scope st) q -> o = Exhausted ->
  forall th, iagrees noex th (b_scope st) -> iconsequence (db_of a W) q th ->
  exists s' th', In s' l /\ iagrees noex th' s' /\ forall v, (v < w_nv W)%N -> th' v = th v.
Proof. exact @answers_complete_inf. Qed.
Print Assumptions C13_complete_infinite.

(** ** Examples *)

(** Who are the descendants of ann?  The hypotheses hold, there are two answers;
    that cyd is one is a consequence. *)
Example C13_family : let q := QTerm (pred2 "anc" (lit0 "ann") (TVar 9)) in
  proper true q = true /\ proper_db true (db_of 0 family) /\ horn q /\ horn_db (db_of 0 family) /\
  ground_db (db_of 0 family) /\ pure_scope [] /\ created 10 [] q /\
  (let '(l, o, _) := @drive PyEx FrontEx (repeat ([], 0%N) 5) 60 0 0 (GQ q) (mkbst [] [] 0, family) in
   (map (fun s => @grounded PyEx 5 (TVar 9) s) l, o) = ([Ok (lit0 "bob"); Ok (lit0 "cyd")], Exhausted)) /\
  consequence (db_of 0 family) q (fun _ => tree0 "cyd").
Proof.
  cbv zeta. split; [reflexivity|]. split; [apply family_proper|]. split; [repeat constructor|]. split; [apply family_horn|].
  split; [apply family_ground|]. split; [split; [apply chain_ok_nil|discriminate]|].
  split; [split; [discriminate|repeat constructor]|]. split; [vm_compute; reflexivity|]. now apply family_consequence.
Qed.

(** Nothing else is: cyd has no descendants, by completeness. *)
Example C13_negative : forall th, ~ consequence (db_of 0 family) (QTerm (pred2 "anc" (lit0 "cyd") (TVar 9))) th.
Proof.
  intros th H.
  assert (E : fst (@drive PyEx FrontEx (repeat ([], 0%N) 1) 60 0 0 (GQ (QTerm (pred2 "anc" (lit0 "cyd") (TVar 9))))
    (mkbst [] [] 0, family)) = ([], Exhausted)) by (vm_compute; reflexivity).
  destruct (@drive PyEx FrontEx (repeat ([], 0%N) 1) 60 0 0 (GQ (QTerm (pred2 "anc" (lit0 "cyd") (TVar 9))))
    (mkbst [] [] 0, family)) as [[l o] s2] eqn:Ed. inversion E; subst. clear E.
  destruct (C13_complete PyEx FrontEx PyEx_lawful true 0 0 (QTerm (pred2 "anc" (lit0 "cyd") (TVar 9))) (repeat ([], 0%N) 1) 60
    (mkbst [] [] 0) family [] Exhausted s2) with (th := th) as (s' & th' & [] & _).
  - reflexivity.
  - apply family_proper.
  - intros _. repeat constructor.
  - repeat constructor.
  - apply family_horn.
  - split; [apply chain_ok_nil|discriminate].
  - exact Ed.
  - apply family_ground.
  - split; [discriminate|repeat constructor].
  - reflexivity.
  - discriminate.
  - exact H.
Qed.
