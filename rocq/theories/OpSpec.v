(** Specifications used by OpProps: Kleene logic, 32-bit range, rounding of exact reals. *)
From Coq Require Export List ZArith Bool Lia.
Export ListNotations.
Open Scope Z_scope.

(** Strong Kleene logic: the three truth values ordered false < unknown < true; conjunction is
    minimum, disjunction maximum, negation reverses. *)
Definition truth (v : option bool) : Z := match v with Some false => 0 | None => 1 | Some true => 2 end.
Definition ofTruth (t : Z) : option bool := if t =? 0 then Some false else if t =? 1 then None else Some true.
Definition kNot (v : option bool) : option bool := ofTruth (2 - truth v).
Definition kAnd (l : list (option bool)) : option bool := ofTruth (fold_right (fun v t => Z.min (truth v) t) 2 l).
Definition kOr (l : list (option bool)) : option bool := ofTruth (fold_right (fun v t => Z.max (truth v) t) 0 l).
(** Exclusive or: unknown if any operand is, otherwise the parity of the true operands. *)
Definition isSome {A} (o : option A) : bool := match o with Some _ => true | None => false end.
Definition kXor (l : list (option bool)) : option bool :=
  if forallb isSome l
  then Some (Nat.odd (length (filter (fun v => match v with Some true => true | _ => false end) l)))
  else None.
(** Information order: [refines a b]: b is a, or a was unknown. *)
Definition refines (a b : option bool) : Prop := a = None \/ a = b.

(** The 32-bit signed range. *)
Definition fits32 (z : Z) : Prop := - 2147483648 <= z <= 2147483647.

(** The exact results prescribed for n operands; None where there is none (division by zero). *)
Definition list_min (x : Z) (l : list Z) : Z := fold_left Z.min l x.
Definition list_max (x : Z) (l : list Z) : Z := fold_left Z.max l x.
Definition sumZ (l : list Z) : Z := fold_right Z.add 0 l.
Definition prodZ (l : list Z) : Z := fold_right Z.mul 1 l.

(** Rounding of the exact real k / 2^1074 (every finite double has this form) to an integer z. *)
Definition S1074 : Z := 2 ^ 1074.
Definition is_floor (k z : Z) : Prop := z * S1074 <= k < (z + 1) * S1074.
Definition is_ceiling (k z : Z) : Prop := (z - 1) * S1074 < k <= z * S1074.
Definition is_trunc (k z : Z) : Prop := (0 <= k -> is_floor k z) /\ (k <= 0 -> is_ceiling k z).
(** Nearest integer, halves away from zero. *)
Definition is_round (k z : Z) : Prop :=
  2 * Z.abs (k - z * S1074) < S1074 \/ (2 * Z.abs (k - z * S1074) = S1074 /\ Z.abs k < Z.abs z * S1074).
Definition is_exact (k z : Z) : Prop := k = z * S1074.
