(** What a user expects of Real arithmetic: every operation yields the exact real result rounded
    to the nearest double (ties to even), or an infinity when that exceeds the double range.
    [round] is Flocq's: rounding of a real number to the format with 53-bit mantissas and
    exponents from -1074 up. *)
From Coq Require Import ZArith Reals List.
From Flocq Require Import Core BinarySingleNaN.
Import ListNotations.
Open Scope R_scope.

Definition dbl : Type := binary_float 53 1024.
Definition rounded (x : R) : R := round radix2 (FLT_exp (-1074) 53) ZnearestE x.
(** The numbers of the format: m * 2^e, |m| < 2^53, e >= -1074. *)
Definition representable (r : R) : Prop :=
  exists m e : Z, r = IZR m * bpow radix2 e /\ (Z.abs m < 2 ^ 53)%Z /\ (-1074 <= e)%Z.
(** d is the double for the real number x. *)
Definition rounds_to (x : R) (d : dbl) : Prop :=
  (Rabs (rounded x) < bpow radix2 1024 -> is_finite d = true /\ B2R d = rounded x) /\
  (bpow radix2 1024 <= Rabs (rounded x) -> d = B754_infinity (Rlt_bool x 0)).

(** The exact operations; MOD is the remainder of the division truncated towards zero. *)
Inductive realFun : Type := EAdd | ESub | EMul | EDiv | EMod.
Definition exactly (f : realFun) (x y : R) : R :=
  match f with
  | EAdd => x + y | ESub => x - y | EMul => x * y | EDiv => x / y
  | EMod => x - IZR (Ztrunc (x / y)) * y
  end.

(** Left to right evaluation over finite doubles, each step rounded once. *)
Inductive rounded_steps (f : realFun) : dbl -> list dbl -> dbl -> Prop :=
| rs_nil : forall d, rounded_steps f d [] d
| rs_cons : forall acc x acc' l d, is_finite acc = true -> is_finite x = true ->
    rounds_to (exactly f (B2R acc) (B2R x)) acc' -> rounded_steps f acc' l d ->
    rounded_steps f acc (x :: l) d.

Definition sumR (l : list R) : R := fold_right Rplus 0 l.
Definition sumAbs (l : list R) : R := fold_right (fun x s => Rabs x + s) 0 l.
(** Order on doubles other than NaN, infinities included. *)
Definition leD (a b : dbl) : Prop :=
  match a, b with
  | B754_nan, _ | _, B754_nan => False
  | B754_infinity true, _ | _, B754_infinity false => True
  | _, B754_infinity true | B754_infinity false, _ => False
  | _, _ => B2R a <= B2R b
  end.
