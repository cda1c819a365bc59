(** IEEE binary64 arithmetic as the C++ code's [double] performs it (round to nearest, ties to
    even): addition, subtraction, multiplication by a constant, absolute value, comparison and
    the conversion (Real) n of an Integer.  Finite doubles are integer multiples of 2^-1074
    (ValueModel: [Fin k] is k * 2^-1074); a double is [Some ext], NaN is [None].
    The sign of zero is not represented (no modelled operation observes it). *)
From Verif Require Import ValueModel.
Open Scope Z_scope.

(** m / 2^sh rounded to the nearest integer, ties to even (m >= 0). *)
Definition rne (m sh : Z) : Z :=
  let d := 2 ^ sh in
  let q := m / d in
  let r := m mod d in
  if 2 * r <? d then q else if d <? 2 * r then q + 1 else if Z.even q then q else q + 1.

(** The magnitude m / 2^s (in units of 2^-1074) rounded to 53 significant bits, or to a whole
    number of units when subnormal. *)
Definition rndMag (m s : Z) : Z :=
  let sh := Z.max s (Z.log2 m - 52) in rne m sh * 2 ^ (sh - s).

(** The double nearest to n / 2^s units; overflow gives an infinity. *)
Definition rnd (n s : Z) : ext :=
  let r := rndMag (Z.abs n) s in
  if 2 ^ 2098 <=? r then (if n <? 0 then NInf else PInf)
  else Fin (if n <? 0 then - r else r).

Definition real := option ext.

Definition radd (a b : real) : real :=
  match a, b with
  | Some (Fin x), Some (Fin y) => Some (rnd (x + y) 0)
  | Some PInf, Some NInf | Some NInf, Some PInf => None
  | Some PInf, Some _ | Some _, Some PInf => Some PInf
  | Some NInf, Some _ | Some _, Some NInf => Some NInf
  | _, _ => None
  end.
Definition rneg (a : real) : real :=
  match a with
  | Some (Fin x) => Some (Fin (- x)) | Some PInf => Some NInf | Some NInf => Some PInf | None => None
  end.
Definition rsub (a b : real) : real := radd a (rneg b).
(** fabs *)
Definition rabs (a : real) : real :=
  match a with
  | Some (Fin x) => Some (Fin (Z.abs x)) | Some _ => Some PInf | None => None
  end.
(** a * (M * 2^-p) for a positive double constant M * 2^-p. *)
Definition rmulc (a : real) (M p : Z) : real :=
  match a with
  | Some (Fin x) => Some (rnd (x * M) p) | other => other
  end.
(** The double literal 1e-13. *)
Definition c13M : Z := 7922816251426434.
Definition c13p : Z := 96.

(** >= and <= on doubles (false with a NaN). *)
Definition rge (a b : real) : bool := oext_lt b a || oext_eq a b.
Definition rle (a b : real) : bool := oext_lt a b || oext_eq a b.

(** (Real) n for an Integer n: the bit pattern (ValueModel.ikey is its value). *)
Definition intBits (n : Z) : Z :=
  if n =? 0 then 0
  else let m := Z.abs n in
       let l := Z.log2 m in
       (if n <? 0 then 2 ^ 63 else 0) + (l + 1023) * 2 ^ 52 + (m * 2 ^ (52 - l) - 2 ^ 52).
