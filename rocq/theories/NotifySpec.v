(** What a user of expressions relies on about activation and notification. *)
From Coq Require Import List Arith ZArith Bool.
From Verif Require Import NotifyModel.
Import ListNotations.

(** Well-formed expression graphs: subexpressions are built before the
    expressions that use them, so the graph has no cycles; leaves have no
    subexpressions; variables and nodes are the propagation sources among the
    leaves; only lookups listen explicitly, and what they listen to are
    subexpressions. *)
Record wf (g : graph) : Prop := {
  wf_kids : forall e k, In k (kids g e) -> k < e;
  wf_akids : forall e k, In k (akids g e) -> k < e;
  wf_xhead : forall e k, In k (xhead g e) -> In k (kids g e);
  wf_xparams : forall e k, In k (xparams g e) -> In k (kids g e);
  wf_fwd : forall e t, kind g e = KFwd t -> kind g t = KNode /\ kids g e = [t] /\ src g e = false;
  wf_const : forall e, kind g e = KConst -> kids g e = [] /\ src g e = false;
  wf_leaf : forall e, kind g e = KNode \/ kind g e = KNotif -> kids g e = [] /\ src g e = true;
  wf_akind : forall e, akids g e <> [] -> kind g e = KNotif \/ kind g e = KProp;
  wf_size : forall e, gsize g <= e -> kind g e = KConst }.

(** How often [e] was activated more than deactivated from outside. *)
Fixpoint held (h : list nop) (e : nat) : Z :=
  match h with
  | [] => 0
  | OAct y :: r => held r e + (if Nat.eqb y e then 1 else 0)
  | ODeact y :: r => held r e - (if Nat.eqb y e then 1 else 0)
  | _ :: r => held r e
  end%Z.

(** Nobody deactivates what they have not activated. *)
Fixpoint balanced (h : list nop) : Prop :=
  match h with
  | [] => True
  | ODeact e :: r => (0 < held r e)%Z /\ balanced r
  | _ :: r => balanced r
  end.

(** [uses g p e]: activating [p] activates [e]. *)
Inductive uses (g : graph) : nat -> nat -> Prop :=
| uses_refl e : uses g e e
| uses_step p k e : In k (akids g p) -> uses g k e -> uses g p e.

(** The object that keeps the listeners of [e]. *)
Definition keeper (g : graph) (e : nat) : nat := match kind g e with KFwd t => t | _ => e end.

(** The external listeners of [e], in order of registration. *)
Fixpoint registered (g : graph) (h : list nop) (e : nat) : list nat :=
  match h with
  | [] => []
  | OAdd y x :: r =>
    let l := registered g r e in
    if Nat.eqb (keeper g y) e && negb (existsb (Nat.eqb x) l) && match kind g e with KConst => false | _ => true end
    then l ++ [x] else l
  | ORem y x :: r =>
    let l := registered g r e in
    if Nat.eqb (keeper g y) e then filter (fun z => negb (Nat.eqb x z)) l else l
  | _ :: r => registered g r e
  end.

(** [e] depends on [s] through subexpressions, with every source of change
    strictly between satisfying [A]. *)
Inductive depends (g : graph) (A : nat -> Prop) : nat -> nat -> Prop :=
| dep_one e s : In s (kids g e) -> depends g A e s
| dep_step e k s : In k (kids g e) -> (src g k = true -> A k) -> depends g A k s -> depends g A e s.

(** Every lookup has at most four parameters. *)
Definition few_params (g : graph) : Prop := forall e, length (xparams g e) <= 4.
