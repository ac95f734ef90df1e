(** What a function registered with Actions.add_function, add_predicate or
    add_procedure receives, and what becomes of its result. *)
From Verif Require Import Base Num Term Unify Str World ActSpec.
From Coq Require Import QArith SpecFloat.

(** Towards zero. *)
Definition is_trunc (q : Q) (z : Z) : Prop := ((0 <= q)%Q -> is_floor q z) /\ ((q <= 0)%Q -> is_ceil q z).

(** The items of a list in either notation, the characters of a text. *)
Inductive items_in : term -> list term -> Prop :=
| it_list ts : items_in (TTup ts) ts
| it_text x : items_in (TStr x) (map (fun c => TStr [c]) x)
| it_cons h tl ts : items_in tl ts -> items_in (TLL h tl) (h :: ts).

Section WithPy.
Context {PY : Py}.

(** [x] is the text shown for a value: lists in brackets, strings without quotes. *)
Inductive shown : term -> pystr -> Prop :=
| sh_true : shown (TBool true) (s2p "true")
| sh_false : shown (TBool false) (s2p "false")
| sh_int z : shown (TNum (NInt z)) (dec_Z z)
| sh_integral f z : flt_int f = Some z -> shown (TNum (NFlt f)) (dec_Z z)
| sh_float f : flt_int f = None -> shown (TNum (NFlt f)) (frepr f)
| sh_str x : shown (TStr x) x
| sh_list ts xs : Forall2 shown ts xs -> shown (TTup ts) (s2p "[" ++ joins (s2p ", ") xs ++ s2p "]")
| sh_other t : match t with TBool _ | TNum _ | TStr _ | TTup _ => False | _ => True end -> shown t (asl_repr t).

(** The value [v] of an argument, declared as [sp], is passed on as [w]. *)
Inductive converts : spec -> term -> term -> Prop :=
| cv_any v : converts SAny v v
| cv_true : converts SInt (TBool true) (TNum (NInt 1))
| cv_false : converts SInt (TBool false) (TNum (NInt 0))
| cv_int z : converts SInt (TNum (NInt z)) (TNum (NInt z))
| cv_trunc f q z : flt_val f = XQ q -> is_trunc q z -> converts SInt (TNum (NFlt f)) (TNum (NInt z))
| cv_ftrue f : f = binary_normalize prec emax 1 0 false -> converts SFloat (TBool true) (TNum (NFlt f))
| cv_ffalse f : f = binary_normalize prec emax 0 0 false -> converts SFloat (TBool false) (TNum (NFlt f))
| cv_float f : converts SFloat (TNum (NFlt f)) (TNum (NFlt f))
| cv_nearest z f : f = binary_normalize prec emax z 0 false -> (forall b, f <> S754_infinity b) ->
    converts SFloat (TNum (NInt z)) (TNum (NFlt f))
| cv_text v x : shown v x -> converts SStr v (TStr x)
| cv_tuple v ts : items_in v ts -> converts STuple v (TTup ts).

(** What cannot be converted.  (Numbers written as texts are not modelled.) *)
Inductive unfit : spec -> term -> exc -> Prop :=
| uf_other sp v : In sp [SInt; SFloat] -> match v with TBool _ | TNum _ | TStr _ => False | _ => True end -> unfit sp v EType
| uf_items v : match v with TTup _ | TStr _ | TLL _ _ => False | _ => True end -> unfit STuple v EType
| uf_tail h tl : unfit STuple tl EType -> unfit STuple (TLL h tl) EType
| uf_nan f : flt_val f = XNan -> unfit SInt (TNum (NFlt f)) EValue
| uf_inf f : flt_val f = XPInf \/ flt_val f = XNInf -> unfit SInt (TNum (NFlt f)) EOverflow
| uf_huge z b : binary_normalize prec emax z 0 false = S754_infinity b -> unfit SFloat (TNum (NInt z)) EOverflow.

(** The arguments [ins] have values in [s], which are passed on as [ws].  The
    agent and the environment stand for no argument. *)
Inductive handed (d : nat) (s : scope) : list spec -> list term -> list term -> Prop :=
| hd_nil : handed d s [] [] []
| hd_agent sps ins ws : handed d s sps ins ws -> handed d s (SAgent :: sps) ins ws
| hd_env sps ins ws : handed d s sps ins ws -> handed d s (SEnv :: sps) ins ws
| hd_arg sp sps t ins v w ws : grounded d t s = Ok v -> converts sp v w -> handed d s sps ins ws ->
    handed d s (sp :: sps) (t :: ins) (w :: ws).

(** One of the arguments has no value or cannot be converted, those before it are
    in order. *)
Inductive misfit (d : nat) (s : scope) : list spec -> list term -> exc -> Prop :=
| mf_here sp sps t ins v e : grounded d t s = Ok v -> unfit sp v e -> misfit d s (sp :: sps) (t :: ins) e
| mf_agent sps ins e : misfit d s sps ins e -> misfit d s (SAgent :: sps) ins e
| mf_env sps ins e : misfit d s sps ins e -> misfit d s (SEnv :: sps) ins e
| mf_next sp sps t ins v w e : grounded d t s = Ok v -> converts sp v w -> misfit d s sps ins e -> misfit d s (sp :: sps) (t :: ins) e.

(** Python's truth of a value. *)
Inductive untrue : term -> Prop :=
| un_false : untrue (TBool false)
| un_zero x q : num_val x = XQ q -> (q == 0)%Q -> untrue (TNum x)
| un_text : untrue (TStr [])
| un_list : untrue (TTup []).
End WithPy.
