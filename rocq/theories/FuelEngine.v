(** More fuel never changes a result of the engine. *)
From Verif Require Import Base Num Term Unify TrailFacts FuelFacts Str World Engine.

Definition mle {A} (m m' : M A) : Prop := forall s, sle (m s) (m' s).

Lemma mle_refl {A} (m : M A) : mle m m.
Proof. intro s. apply sle_refl. Qed.
Lemma mle_bind {A B} (m m' : M A) (k k' : A -> M B) : mle m m' -> (forall x, mle (k x) (k' x)) -> mle (mbind m k) (mbind m' k').
Proof.
  intros H1 H2 s. unfold mbind. destruct (H1 s) as [E|E].
  - destruct (m s) as [x s']. cbn in E. subst x. now left.
  - rewrite E. destruct (m' s) as [[x|e] s']; [apply H2|apply sle_refl].
Qed.
Lemma mle_lift {A} (r r' : res A) : rle r r' -> mle (lift r) (lift r').
Proof. intros [E|E] s; unfold lift; [left; now rewrite E|right; now rewrite E]. Qed.
Lemma mle_on_st {A} (f f' : bst -> res A * bst) : (forall st, sle (f st) (f' st)) -> mle (on_st f) (on_st f').
Proof.
  intros H s. unfold on_st. destruct (H (fst s)) as [E|E].
  - destruct (f (fst s)) as [x st]. cbn in E. subst x. now left.
  - rewrite E. apply sle_refl.
Qed.
Lemma mle_new {A} (k k' : nat -> M A) : (forall i, mle (k i) (k' i)) -> mle (with_new k) (with_new k').
Proof.
  intros H s. unfold with_new. destruct (new_int (snd s)) as [i W1]. destruct (H i (bst0, W1)) as [E|E].
  - destruct (k i (bst0, W1)) as [x s2]. cbn in E. subst x. now left.
  - rewrite E. apply sle_refl.
Qed.
Lemma mle_for {A} (l : list A) (f f' : A -> M unit) : (forall x, mle (f x) (f' x)) -> mle (mfor l f) (mfor l f').
Proof. intro H. induction l as [|x l IH]; cbn; [apply mle_refl|]. apply mle_bind; auto. Qed.

Section WithPy.
Context {PY : Py}.

Lemma mle_evaluate n t : mle (m_evaluate n t) (m_evaluate (S n) t).
Proof. intro s. unfold m_evaluate. destruct (evaluate_mono n t (b_scope (fst s))) as [E|E]; rewrite E; [now left|apply sle_refl]. Qed.
Lemma mle_grounded n t : mle (m_grounded n t) (m_grounded (S n) t).
Proof. intro s. unfold m_grounded. destruct (grounded_mono n t (b_scope (fst s))) as [E|E]; rewrite E; [now left|apply sle_refl]. Qed.
Lemma mle_is_ground n t : mle (m_is_ground n t) (m_is_ground (S n) t).
Proof. intro s. unfold m_is_ground. destruct (is_ground_mono n t (b_scope (fst s))) as [E|E]; rewrite E; [now left|apply sle_refl]. Qed.
Lemma mle_unify n l r : mle (m_unify n l r) (m_unify (S n) l r).
Proof. apply mle_on_st. intro. apply unify_mono. Qed.
Lemma mle_uann n l r : mle (m_uann n l r) (m_uann (S n) l r).
Proof. apply mle_on_st. intro. apply uann_mono. Qed.
Lemma mle_freeze n t mm : mle (m_freeze n t mm) (m_freeze (S n) t mm).
Proof.
  intro s. unfold m_freeze. destruct (freeze_mono n t (b_scope (fst s)) (mm, w_nv (snd s))) as [E|E].
  - destruct (freeze n t _ _) as [x [m k]]. cbn in E. subst x. now left.
  - rewrite E. apply sle_refl.
Qed.
Lemma zip_specs_mono s specs : forall n args m, sle (zip_specs n specs args s m) (zip_specs (S n) specs args s m).
Proof.
  induction specs as [|sp specs IH]; intros n args m; [apply sle_refl|].
  cbn [zip_specs]. destruct sp; try apply IH.
  all: destruct args as [|t args]; [apply sle_refl|]; destruct (freeze_mono n t s m) as [E|E];
    [destruct (freeze n t s m) as [x m1]; cbn in E; subst x; now left|rewrite E];
    destruct (freeze (S n) t s m) as [[f|e] m1]; [|apply sle_refl];
    destruct (convert _ f); [|apply sle_refl];
    destruct (IH n args m1) as [E2|E2]; [destruct (zip_specs n specs args s m1) as [x m2]; cbn in E2; subst x; now left|rewrite E2; apply sle_refl].
Qed.
Lemma mle_zip n specs args : mle (m_zip n specs args) (m_zip (S n) specs args).
Proof.
  intro s. unfold m_zip. destruct (zip_specs_mono (b_scope (fst s)) specs n args ([], w_nv (snd s))) as [E|E].
  - destruct (zip_specs n specs args _ _) as [x [m k]]. cbn in E. subst x. now left.
  - rewrite E. apply sle_refl.
Qed.
Lemma mle_groundeds n args : mle (m_groundeds n args) (m_groundeds (S n) args).
Proof. induction args as [|t args IH]; cbn; [apply mle_refl|]. apply mle_bind; [apply mle_grounded|]. intro. apply mle_bind; [exact IH|intro; apply mle_refl]. Qed.
Lemma mle_freezes n args : forall mm, mle (m_freezes n args mm) (m_freezes (S n) args mm).
Proof. induction args as [|t args IH]; intro mm; cbn; [apply mle_refl|]. apply mle_bind; [apply mle_freeze|]. intro. apply mle_bind; [apply IH|intro; apply mle_refl]. Qed.

Lemma in_mono n l r st : sle (unifies_annotated_in n l r st) (unifies_annotated_in (S n) l r st).
Proof.
  unfold unifies_annotated_in. destruct (uann_mono n l r st) as [E|E].
  - destruct (uann n l r st) as [x st']. cbn in E. subst x. now left.
  - rewrite E. apply sle_refl.
Qed.
Lemma ua_mono n l r : rle (unifies_annotated n l r) (unifies_annotated (S n) l r).
Proof.
  unfold unifies_annotated. destruct (in_mono n l r (mkbst [] [] 0)) as [E|E].
  - left. exact E.
  - right. now rewrite E.
Qed.
Lemma un_mono n l r : rle (unifies n l r) (unifies (S n) l r).
Proof.
  unfold unifies. destruct (unify_mono n l r (mkbst [] [] 0)) as [E|E].
  - left. exact E.
  - right. now rewrite E.
Qed.
Lemma rem_loop_mono n cp t bs : forall k st, sle (rem_loop n cp t bs k st) (rem_loop (S n) cp t bs k st).
Proof.
  induction bs as [|b bs IH]; intros k st; cbn [rem_loop]; [apply sle_refl|].
  destruct (in_mono n t b (push_cp cp st)) as [E|E].
  - destruct (unifies_annotated_in n t b (push_cp cp st)) as [x st']. cbn in E. subst x. now left.
  - rewrite E. destruct (unifies_annotated_in (S n) t b (push_cp cp st)) as [[[]|] st']; try apply sle_refl. apply IH.
Qed.
Lemma abolish_loop_mono n pat bs : sle (abolish_loop n pat bs) (abolish_loop (S n) pat bs).
Proof.
  induction bs as [|b bs IH]; cbn [abolish_loop]; [apply sle_refl|].
  destruct (ua_mono n b pat) as [E|E]; rewrite E; [now left|]. destruct (unifies_annotated (S n) b pat) as [[]|]; try apply sle_refl; [exact IH|].
  destruct IH as [E2|E2].
  - destruct (abolish_loop n pat bs) as [x l]. cbn in E2. subst x. now left.
  - rewrite E2. apply sle_refl.
Qed.
Lemma unachieve_loop_mono n W f args ss : sle (unachieve_loop n W f args ss) (unachieve_loop (S n) W f args ss).
Proof.
  assert (HL : forall (A B : Type) (x y : res A * list B) c, sle x y -> sle (let '(r, l) := x in (r, c :: l)) (let '(r, l) := y in (r, c :: l))).
  { intros A B x y c [E|E]; [|subst; apply sle_refl]. destruct x as [x l]. cbn in E. subst x. now left. }
  induction ss as [|[|i rest] ss IH]; cbn [unachieve_loop]; [apply sle_refl|now apply HL|].
  destruct (i_head (get_int W i)) as [[]|]; try apply sle_refl.
  destruct (pystr_eqb _ f); [|now apply HL].
  match goal with |- context[unifies n ?l ?r] => destruct (un_mono n l r) as [E|E]; rewrite E; [now left|]; destruct (unifies (S n) l r) end; [|apply sle_refl].
  now apply HL.
Qed.
Lemma wakes_mono n tr gt fz it : rle (wakes n tr gt fz it) (wakes (S n) tr gt fz it).
Proof.
  unfold wakes. destruct (i_wait it) as [[[ev|] u]|]; try apply rle_refl.
  destruct (trig_eqb _ _ && gtype_eqb _ _); [apply ua_mono|apply rle_refl].
Qed.
Lemma mle_wake n tr gt fz ss : mle (wake n tr gt fz ss) (wake (S n) tr gt fz ss).
Proof.
  induction ss as [|[|i rest] ss IH]; cbn [wake]; [apply mle_refl|exact IH|].
  apply mle_bind; [apply mle_refl|intro W]. apply mle_bind; [apply mle_lift, wakes_mono|intro b].
  apply mle_bind; [apply mle_refl|intro; exact IH].
Qed.
Lemma mle_unachieve n a t : mle (unachieve n a t) (unachieve (S n) a t).
Proof.
  destruct t; try apply mle_refl. cbn [unachieve]. apply mle_bind; [apply mle_refl|intro W].
  match goal with |- context[unachieve_loop n ?W ?f ?args ?ss] => destruct (unachieve_loop_mono n W f args ss) as [E|E] end.
  - destruct (unachieve_loop n _ _ _ _) as [x l]. cbn in E. subst x. intro s. left. reflexivity.
  - rewrite E. apply mle_refl.
Qed.
Lemma mle_abolish n a t : mle (abolish n a t) (abolish (S n) a t).
Proof.
  unfold abolish. apply mle_bind; [apply mle_freeze|intro fm]. destruct (fst fm); try apply mle_refl.
  apply mle_bind; [apply mle_refl|intro r]. apply mle_bind; [apply mle_refl|intro W]. cbv zeta.
  match goal with |- context[abolish_loop n ?p ?bs] => destruct (abolish_loop_mono n p bs) as [E|E] end.
  - destruct (abolish_loop n _ _) as [x l]. cbn in E. subst x. intro s. left. unfold mbind, lift, mret, put_world.
    destruct (Nat.eqb _ _); reflexivity.
  - rewrite E. apply mle_refl.
Qed.

Context {FR : Front}.

Definition ele (E E' : eng) : Prop :=
  (forall a i g, mle (e_resume E a i g) (e_resume E' a i g)) /\
  (forall a tr gt t ci d, mle (e_call E a tr gt t ci d) (e_call E' a tr gt t ci d)) /\
  (forall a r x j, mle (e_plans E a r x j) (e_plans E' a r x j)) /\
  (forall a i g c, mle (e_collect E a i g c) (e_collect E' a i g c)).

Section Body.
Variables (E E' : eng) (n : nat).
Hypothesis HE : ele E E'.
Let HR := proj1 HE.
Let HC := proj1 (proj2 HE).
Let HP := proj1 (proj2 (proj2 HE)).
Let HL := proj2 (proj2 (proj2 HE)).

Ltac mono := repeat first
  [ apply mle_refl
  | apply HR | apply HC | apply HP | apply HL
  | apply mle_evaluate | apply mle_grounded | apply mle_is_ground | apply mle_unify | apply mle_uann | apply mle_freeze
  | apply mle_zip | apply mle_groundeds | apply mle_freezes | apply mle_unachieve | apply mle_abolish | apply mle_wake
  | apply mle_bind; [|intro] | apply mle_new; intro | apply mle_for; intro
  | match goal with |- mle (match ?x with _ => _ end) _ => destruct x end
  | progress cbn zeta
  | match goal with |- mle (let '(_, _) := ?x in _) _ => destruct x end ].

Lemma mle_yield l r : mle (unify_yield n l r) (unify_yield (S n) l r).
Proof. unfold unify_yield. mono. Qed.
Lemma mle_add a t : mle (add_belief n a t) (add_belief (S n) a t).
Proof. unfold add_belief. mono. Qed.
Lemma mle_remove a t : mle (remove_belief n a t) (remove_belief (S n) a t).
Proof. unfold remove_belief. mono. apply mle_on_st. intro. apply rem_loop_mono. Qed.
Lemma mle_collect_one c : mle (collect_one n c) (collect_one (S n) c).
Proof. unfold collect_one. mono. Qed.

Lemma mle_start a i ac t : mle (start_act E n a i ac t) (start_act E' (S n) a i ac t).
Proof.
  unfold start_act. apply mle_bind; [apply mle_refl|intro args].
  destruct ac; unfold act_broadcast, act_send, act_print, act_concat, act_substring, act_member, act_findall, act_count,
    act_sum, act_clock, act_wait, act_range, act_fun, act_pred, act_proc, deliver; mono; try apply mle_yield.
Qed.

Lemma mle_resume_body a i g : mle (resume_body E n a i g) (resume_body E' (S n) a i g).
Proof.
  destruct g as [q| |cp|[cp|] t ref ver sz rest|cp t [sub|] rest|gl [gr|] r|g r|[] cp tgt cs fin]; cbn [resume_body].
  1: destruct q; [| |apply mle_start|..].
  all: mono.
Qed.
Lemma mle_ask a t : mle (ask_how E a t) (ask_how E' a t).
Proof. unfold ask_how. mono. Qed.
Lemma mle_test a i t : mle (test_belief E n a i t) (test_belief E' (S n) a i t).
Proof. unfold test_belief. mono. Qed.
Lemma mle_event a tr gt t ci d : mle (call_event E n a tr gt t ci d) (call_event E' (S n) a tr gt t ci d).
Proof.
  unfold call_event. apply mle_bind; [mono|intro fm]. destruct (fst fm); try apply mle_refl. cbv zeta.
  apply mle_bind; [apply mle_refl|intro W]. apply mle_bind; [apply mle_wake|intro].
  destruct gt, tr; mono; try apply mle_ask; try apply mle_test.
Qed.
Lemma mle_call_body a tr gt t ci d : mle (call_body E n a tr gt t ci d) (call_body E' (S n) a tr gt t ci d).
Proof.
  unfold call_body. destruct gt; try apply mle_event. destruct tr.
  - apply mle_bind; [apply mle_add|intro; apply mle_event].
  - apply mle_bind; [apply mle_remove|intro b]. destruct b; [apply mle_event|apply mle_refl].
Qed.
Lemma mle_plans_body a ref x j : mle (plans_body E n a ref x j) (plans_body E' (S n) a ref x j).
Proof. unfold plans_body. destruct x as [[[[fz t] ci] dl] ni]. mono. Qed.
Lemma mle_collect_body a i g c : mle (collect_body E n a i g c) (collect_body E' (S n) a i g c).
Proof. unfold collect_body. mono. apply mle_collect_one. Qed.
End Body.

Theorem engine_mono n : ele (engine n) (engine (S n)).
Proof.
  induction n as [|n IH].
  - repeat split; intros; intro s; left; reflexivity.
  - cbn [engine]. refine (conj _ (conj _ (conj _ _))); intros; cbn [e_resume e_call e_plans e_collect].
    + now apply mle_resume_body.
    + now apply mle_call_body.
    + now apply mle_plans_body.
    + now apply mle_collect_body.
Qed.

Lemma resume_mono n a i g s : sle (resume n a i g s) (resume (S n) a i g s).
Proof. apply (proj1 (engine_mono n)). Qed.
Lemma call_mono n a tr gt t ci d s : sle (call n a tr gt t ci d s) (call (S n) a tr gt t ci d s).
Proof. apply (proj1 (proj2 (engine_mono n))). Qed.

Lemma more {A} (f : nat -> M A) : (forall n, mle (f n) (f (S n))) ->
  forall n m s, (n <= m)%nat -> fst (f n s) <> Err ERecursion -> f m s = f n s.
Proof.
  intros H n m s Hm Hn. destruct (smono_le (fun k => f k s) (fun k => H k s) n m Hm) as [E|E]; [contradiction|auto].
Qed.
Lemma resume_more n m a i g s : (n <= m)%nat -> fst (resume n a i g s) <> Err ERecursion -> resume m a i g s = resume n a i g s.
Proof. intros. apply (more (fun k => resume k a i g)); auto. intros k s'. apply resume_mono. Qed.
Lemma call_more n m a tr gt t ci d s : (n <= m)%nat -> fst (call n a tr gt t ci d s) <> Err ERecursion ->
  call m a tr gt t ci d s = call n a tr gt t ci d s.
Proof. intros. apply (more (fun k => call k a tr gt t ci d)); auto. intros k s'. apply call_mono. Qed.
End WithPy.
