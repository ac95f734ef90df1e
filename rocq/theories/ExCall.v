(** A function registered by the user: it adds up numbers and lengths. *)
From Verif Require Import Base Num Term Unify TrailFacts FuelFacts AnnotFlat Str World Engine FuelEngine QuerySpec ActCor CallSpec CallCor.
From Coq Require Import QArith SpecFloat.

Definition PyCall : Py := {|
  horder := fun l => l; fpow := fun _ _ => Err EUnmodelled;
  py_call := fun _ _ ws => match ws with
    | [TNum (NInt a); TNum (NFlt _); TStr x; TTup ts] => Ok (TNum (NInt (a + Z.of_nat (List.length x) + Z.of_nat (List.length ts) - 1)))
    | _ => Err EType end;
  py_time := fun k => NInt (Z.of_N k);
  frepr := fun _ => []; vname := fun v => s2p "_X_";
  u_alnum := fun _ => true; u_lower := fun c => [c] |}.
Definition sum_up : pyfun := PFCustom 0.
Definition call_scope : scope := [(7%N, TNum (NInt 2))].
(** -5/2, written as a float *)
Definition minus_half5 : spec_float := binary_normalize prec emax (-5) (-1) false.
Definition call_args : list term :=
  [TNum (NFlt minus_half5); TBool true; TTup [TLit (s2p "a") [] []; TStr (s2p "b")]; TLL (TNum (NInt 1)) (TTup [TVar 7])].
Definition call_values : list term :=
  [TNum (NInt (-2)); TNum (NFlt (binary_normalize prec emax 1 0 false)); TStr (s2p "[a, b]"); TTup [TNum (NInt 1); TNum (NInt 2)]].

Lemma call_case : @handed PyCall 4 call_scope [SAgent; SInt; SFloat; SStr; STuple] call_args call_values /\
  @py_call PyCall sum_up 0 call_values = Ok (TNum (NInt 5)) /\
  @misfit PyCall 4 call_scope [SStr; SInt] [TTup []; TLit (s2p "a") [] []] EType.
Proof.
  assert (C : forall sp v w, sp <> SAgent -> sp <> SEnv -> @convert PyCall sp v = Ok w -> @converts PyCall sp v w) by (intros; now apply (@convert_ok PyCall)).
  split; [|split; [vm_compute; reflexivity|]].
  - apply hd_agent. unfold call_args, call_values.
    eapply hd_arg; [vm_compute; reflexivity|apply C; [discriminate|discriminate|vm_compute; reflexivity]|].
    eapply hd_arg; [vm_compute; reflexivity|apply C; [discriminate|discriminate|vm_compute; reflexivity]|].
    eapply hd_arg; [vm_compute; reflexivity|apply C; [discriminate|discriminate|vm_compute; reflexivity]|].
    eapply hd_arg; [vm_compute; reflexivity|apply C; [discriminate|discriminate|vm_compute; reflexivity]|].
    apply hd_nil.
  - eapply mf_next; [vm_compute; reflexivity|apply C; [discriminate|discriminate|vm_compute; reflexivity]|].
    eapply mf_here; [vm_compute; reflexivity|apply uf_other; [cbn; tauto|exact I]].
Qed.
