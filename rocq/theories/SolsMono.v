(** More depth refines the traces of the list semantics. *)
From Verif Require Import Base Num Term Unify FuelFacts Str World Engine FuelEngine QuerySpec.

Inductive tle : trace -> trace -> Prop :=
| tle_cut t : tle TCut t
| tle_end nv : tle (TEnd nv) (TEnd nv)
| tle_err e : tle (TErr e) (TErr e)
| tle_sol s nv k k' : (forall n, tle (k n) (k' n)) -> tle (TSol s nv k) (TSol s nv k').

Lemma tle_refl t : tle t t.
Proof. induction t; constructor; auto. Qed.
Lemma tle_trans t1 t2 t3 : tle t1 t2 -> tle t2 t3 -> tle t1 t3.
Proof.
  intro H. revert t3. induction H as [t|nv|e|s nv k k' H IH]; intros t3 H2; try (now constructor); try assumption.
  inversion H2; subst. constructor. intro n. now apply IH.
Qed.

Lemma append_tle t1 t1' f f' : tle t1 t1' -> (forall n, tle (f n) (f' n)) -> tle (append t1 f) (append t1' f').
Proof. intros H Hf. induction H; cbn; try constructor; auto. Qed.
Lemma bindt_tle t1 t1' f f' : tle t1 t1' -> (forall s n, tle (f s n) (f' s n)) -> tle (bindt t1 f) (bindt t1' f').
Proof. intros H Hf. induction H; cbn; try constructor. apply append_tle; auto. Qed.
Lemma negt_tle t1 t1' s : tle t1 t1' -> tle (negt t1 s) (negt t1' s).
Proof. intros H. destruct H; cbn; try apply tle_refl; constructor. Qed.

Lemma tres_tle {A} (x y : res A) f g : rle x y -> (forall v, tle (f v) (g v)) -> tle (tres x f) (tres y g).
Proof. intros [-> | ->] H; [constructor|]. destruct y as [v|e]; cbn; [apply H|apply tle_refl]. Qed.

Lemma gather_rle {S} (f g : scope -> N -> S -> res (S * N)) t t' : tle t t' -> (forall s n x, rle (f s n x) (g s n x)) -> forall x,
  rle (gather f t x) (gather g t' x).
Proof.
  intros H Hf. induction H as [t|nv|e|s nv k k' H IH]; intro x; cbn; try (now right); [now left|].
  destruct (Hf s nv x) as [-> | ->]; [now left|]. destruct (g s nv x) as [[x' nv']|e]; [apply IH|now right].
Qed.

Definition same_db (D D' : db) : Prop :=
  d_name D = d_name D' /\ (forall g, d_bel D g = d_bel D' g) /\ (forall g, d_rules D g = d_rules D' g).

Section WithPy.
Context {PY : Py}.

Lemma matches_tle d l c s nv : tle (matches d l c s nv) (matches (S d) l c s nv).
Proof.
  revert nv. induction c as [|b c IH]; intro nv; cbn [matches]; [constructor|].
  destruct (uann_mono d l b (mkbst s [] 0)) as [E|E].
  - destruct (uann d l b _) as [r st]. cbn in E. subst r. constructor.
  - rewrite <- E. destruct (uann d l b _) as [[[cp|]|e] st]; [constructor; intro; apply IH|apply IH|apply tle_refl].
Qed.
Lemma choices_tle d l c fin s nv : tle (choices d l c fin s nv) (choices (S d) l c fin s nv).
Proof.
  revert nv. induction c as [|b c IH]; intro nv; cbn [choices]; [apply tle_refl|].
  destruct (unify_mono d l b (mkbst s [] 0)) as [E|E].
  - destruct (unify d l b _) as [r st]. cbn in E. subst r. constructor.
  - rewrite <- E. destruct (unify d l b _) as [[[|]|e] st]; [constructor; intro; apply IH|apply IH|apply tle_refl].
Qed.
Lemma clauses_tle d f f' goal rs s : (forall q s n, tle (f q s n) (f' q s n)) -> forall nv,
  tle (clauses d f goal rs s nv) (clauses (S d) f' goal rs s nv).
Proof.
  intro Hf. induction rs as [|r rs IH]; intro nv; cbn [clauses]; [apply tle_refl|].
  destruct (copy_rule r nv) as [c nv1].
  destruct (unify_mono d goal (r_head c) (mkbst s [] 0)) as [E|E].
  - destruct (unify d goal _ _) as [x st]. cbn in E. subst x. constructor.
  - rewrite <- E. destruct (unify d goal _ _) as [[[|]|e] st]; [apply append_tle; auto|apply IH|apply tle_refl].
Qed.

Lemma slet_tle {A} (x y : res A * fst_) f g : sle x y -> (forall v n, tle (f v n) (g v n)) ->
  tle (let '(r, (_, nv')) := x in tres r (fun v => f v nv')) (let '(r, (_, nv')) := y in tres r (fun v => g v nv')).
Proof.
  intros [E | ->] H; [destruct x as [r [m nv]]; cbn in E; subst r; constructor|].
  destruct y as [r [m nv]]. apply tres_tle; [apply rle_refl|auto].
Qed.

Lemma find_rle d p s n x : rle (find_step d p s n x) (find_step (S d) p s n x).
Proof.
  unfold find_step. destruct (freeze_mono d p s (fst x, n)) as [E|E].
  - destruct (freeze d p s _) as [r f]. cbn in E. subst r. now left.
  - rewrite <- E. apply rle_refl.
Qed.
Lemma sum_rle d p s n x : rle (sum_step d p s n x) (sum_step (S d) p s n x).
Proof. unfold sum_step, rbind. apply rle_bind; [apply grounded_mono|]. intro. apply rle_refl. Qed.

Ltac tl := repeat first [apply tle_refl | apply choices_tle
    | apply slet_tle; [apply zip_specs_mono || (apply smapl_sle; intros; apply freeze_mono)|intros]
    | apply tres_tle; [first [apply evaluate_mono | apply grounded_mono | apply is_ground_mono
         | apply rmapl_rle; intro; apply grounded_mono
         | apply gather_rle; [solve [auto]|intros; apply find_rle || apply sum_rle || apply rle_refl]
         | apply rle_refl]|intro]
    | match goal with |- tle (match ?x with _ => _ end) _ => destruct x end ].

Lemma act_tle d D D' f f' ac t args s nv : same_db D D' -> (forall q s n, tle (f q s n) (f' q s n)) ->
  tle (act_sols d D f ac t args s nv) (act_sols (S d) D' f' ac t args s nv).
Proof.
  intros (Hn & _) Hf. destruct ac; cbn [act_sols]; tl. rewrite Hn. apply choices_tle.
Qed.

Lemma sols_S d D q s nv : sols (S d) D q s nv =
      match q with
      | QTrue => one s nv
      | QFalse => TEnd nv
      | QAnd l r => bindt (sols d D l s nv) (sols d D r)
      | QOr l r => append (sols d D l s nv) (sols d D r s)
      | QNot q => negt (sols d D q s nv) s
      | QUnify l r => matches d l [r] s nv
      | QTerm t =>
          tres (evaluate d t s) (fun v =>
            match v with
            | TBool true => one s nv
            | TBool false => TEnd nv
            | TLit f args _ =>
                let g := (f, List.length args) in
                append (matches d v (d_bel D g) s nv)
                       (clauses d (sols d D) v (d_rules D g) s)
            | _ => TErr (fmt_exc v)
            end)
      | QAct ac t => tres (lit_args t) (fun args => act_sols d D (sols d D) ac t args s nv)
      end.
Proof. reflexivity. Qed.

Lemma sols_tle d D D' : same_db D D' -> forall q s nv, tle (sols d D q s nv) (sols (S d) D' q s nv).
Proof.
  intro HD. induction d as [|d IH]; intros q s nv; [constructor|].
  rewrite (sols_S d), (sols_S (S d)). destruct q.
  all: try apply tle_refl; try (apply bindt_tle; auto); try (apply append_tle; auto); try (apply negt_tle; auto); try apply matches_tle.
  all: apply tres_tle; [apply evaluate_mono || apply rle_refl|]; intro args; try (now apply act_tle).
  all: destruct args; try apply tle_refl; destruct HD as (_ & H1 & H2); cbv zeta; rewrite ?H1, ?H2; try (apply tle_refl); apply append_tle; [apply matches_tle|intro; now apply clauses_tle].
Qed.

Lemma same_refl D : same_db D D.
Proof. now repeat split. Qed.

Lemma sols_up d d' D D' q s nv : same_db D D' -> (d < d')%nat -> tle (sols d D q s nv) (sols d' D' q s nv).
Proof.
  intros HD H. induction H as [|d' H IH]; [now apply sols_tle|].
  eapply tle_trans; [exact IH|]. apply sols_tle, same_refl.
Qed.
End WithPy.
