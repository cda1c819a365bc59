(** C74: what exact arbitration would be. *)
From Coq Require Import List ZArith Bool Reals.
From Flocq Require Import Core BinarySingleNaN.
From Verif Require Import FloatModel ArbiterModel ArbFloatModel.
Import ListNotations.
Local Open Scope nat_scope.

(** A non-negative multiple of the unit 2^e, of less than 2^52 units: with e = 0 the integers below 4503599627370496,
    with e = -10 multiples of 1/1024 below 2^42. *)
Definition fair (e : Z) (x : fl) : Prop :=
  is_finite x = true /\ exists z, (0 <= z < 2 ^ 52)%Z /\ B2R x = (IZR z * bpow radix2 e)%R.
Definition fairHier (e : Z) (h : fhier) : Prop :=
  forall n nd, h n = Some nd -> fair e (fn_max nd) /\ forall w m, In (w, m) (fn_children nd) -> fair e w.
Definition fairCmd (e : Z) (c : fcmd) : Prop := forall v, In v (fk_res c) -> fair e (fv_upper v).
Definition fairOp (e : Z) (o : fop) : Prop := match o with FArb cs => Forall (fairCmd e) cs | FRel _ => True end.
(** No command twice in a batch. *)
Definition properFop (o : fop) : Prop := match o with FArb cs => NoDup (map fk_id cs) | FRel _ => True end.

(** The same with exact amounts, counted in units; a resource that is not declared has 1 = 2^-e units. *)
Definition toZ (e : Z) (x : fl) : Z := Ztrunc (B2R x * bpow radix2 (- e)).
Definition zq e (q : fcreq) : creq := {| q_name := fq_name q; q_w := toZ e (fq_w q); q_rel := fq_rel q |}.
Definition zv e (v : fval) : rval := {| v_name := fv_name v; v_prio := fv_prio v; v_upper := toZ e (fv_upper v); v_release := fv_release v |}.
Definition zc e (c : fcmd) : acmd := {| k_id := fk_id c; k_res := map (zv e) (fk_res c) |}.
Definition zhier e (h : fhier) : hier := fun n =>
  match h n with
  | Some nd => Some {| rn_max := toZ e (fn_max nd); rn_children := map (fun c => (toZ e (fst c), snd c)) (fn_children nd) |}
  | None => Some {| rn_max := 2 ^ (- e); rn_children := [] |}
  end.
Definition zal e (al : nat -> option fl) : nat -> option Z := fun n => option_map (toZ e) (al n).
Definition zarb e (s : farb) : arb := {| a_alloc := zal e (f_alloc s); a_held := fun k => option_map (map (zq e)) (f_held s k) |}.
Definition zop e (o : fop) : aop := match o with FArb cs => AArb (map (zc e) cs) | FRel k => ARel k end.
