(** bob tells carol and themself hello(5) and takes it back from carol. *)
From Verif Require Import Base Num Term Unify Str World Engine Step QuerySpec MsgSpec ForceSpec ForceCor.
From Verif Require Import ExPy ExPlan ExLoad ExMsg QueryCor.

Definition with_force (force : string) (t : term) : query := QAct ASend (TLit (s2p ".send") [t; nm force; hello (TVar 3)] []).
Definition told_both : world := snd (snd (@resume PyEx FrontEx 21 0 0 (GQ (with_force "tell" (plist [nm "carol"; nm "bob"]))) (st5, two_world))).
Definition untold_carol : world := snd (snd (@resume PyEx FrontEx 21 0 0 (GQ (with_force "untell" (nm "carol"))) (st5, told_both))).

Lemma told_sends : @sends PyEx FrontEx 20 0 (b_scope st5) (plist [nm "carol"; nm "bob"]) (nm "tell") (hello (TVar 3)) two_world told_both.
Proof.
  assert (H : @resume PyEx FrontEx 21 0 0 (GQ (with_force "tell" (plist [nm "carol"; nm "bob"]))) (st5, two_world) = (Ok (Some GStop), (st5, told_both)))
    by (vm_compute; reflexivity). exact (proj2 (proj2 (send_calls _ _ _ _ _ _ _ _ _ _ _ _ _ _ H))).
Qed.
Lemma untold_sends : @sends PyEx FrontEx 20 0 (b_scope st5) (nm "carol") (nm "untell") (hello (TVar 3)) told_both untold_carol.
Proof.
  assert (H : @resume PyEx FrontEx 21 0 0 (GQ (with_force "untell" (nm "carol"))) (st5, told_both) = (Ok (Some GStop), (st5, untold_carol)))
    by (vm_compute; reflexivity). exact (proj2 (proj2 (send_calls _ _ _ _ _ _ _ _ _ _ _ _ _ _ H))).
Qed.
Lemma force_values :
  beliefs 0 (s2p "hello", 1%nat) told_both = [heard] /\ beliefs 1 (s2p "hello", 1%nat) told_both = [heard] /\
  beliefs 0 (s2p "hello", 1%nat) untold_carol = [heard] /\ beliefs 1 (s2p "hello", 1%nat) untold_carol = [] /\
  @resume PyEx FrontEx 21 0 0 (GQ (with_force "ask" (nm "carol"))) (st5, two_world) = (Err EAsl, (st5, two_world)).
Proof. vm; vm_compute; reflexivity. Qed.
