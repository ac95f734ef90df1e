(** A concrete oracle for examples: sets iterate in insertion order. *)
From Verif Require Import Base Num Term.
From Coq Require Import Permutation.

Definition PyEx : Py := {|
  horder := fun l => l; fpow := fun _ _ => Err EUnmodelled;
  py_call := fun _ _ _ => Err EUnmodelled; py_time := fun k => NInt (Z.of_N k);
  frepr := fun _ => []; vname := fun v => s2p "_X_";
  u_alnum := fun _ => true; u_lower := fun c => [c] |}.

(** Sets iterate in reverse insertion order. *)
Definition PyRev : Py := {|
  horder := fun l => rev l; fpow := fun _ _ => Err EUnmodelled;
  py_call := fun _ _ _ => Err EUnmodelled; py_time := fun k => NInt (Z.of_N k);
  frepr := fun _ => []; vname := fun v => s2p "_X_";
  u_alnum := fun _ => true; u_lower := fun c => [c] |}.

Lemma PyEx_lawful : PyLawful PyEx.
Proof. intro l. apply Permutation_refl. Qed.

Lemma PyRev_lawful : PyLawful PyRev.
Proof. intro l. apply Permutation_sym, Permutation_rev. Qed.
