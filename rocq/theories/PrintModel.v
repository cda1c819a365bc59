(** Printing of Reals: printValue<Real>, /repo/src/value/ValueType.cc:349-354: str << std::setprecision(15) << val.
    The stream formats a double as printf's "%.15g" does (C++ standard, [facet.num.put.virtuals]; C standard, 7.21.6.1), rounding the
    exact value of the double to nearest even, as the GNU C library does.  The sign of a NaN is not kept. *)
From Coq Require Import ZArith List Bool String.
From Flocq Require Import Core BinarySingleNaN.
From Verif Require Import ValueModel FloatModel UdpQueueModel LitModel.
Import ListNotations.
Open Scope Z_scope.

(** The largest k with 10^k <= q. *)
Fixpoint ilog10 (fuel : nat) (q : Z) : Z :=
  match fuel with O => 0 | S f => if q <? 10 then 0 else 1 + ilog10 f (q / 10) end.
Definition log10 (q : Z) : Z := ilog10 (Z.to_nat (Z.log2 q)) q.
(** The same for a fraction, num/den > 0. *)
Definition fracLog10 (num den : Z) : Z := if den <=? num then log10 (num / den) else - (1 + log10 ((den - 1) / num)).
(** a/b to the nearest integer, to even if there are two. *)
Definition divRound (a b : Z) : Z :=
  let q := a / b in let r := a mod b in
  if 2 * r <? b then q else if b <? 2 * r then q + 1 else if Z.even q then q else q + 1.
(** The number n of 15 digits and the exponent k of m * 2^e as n * 10^(k-14). *)
Definition decimal15 (m e : Z) : Z * Z :=
  let num := m * 2 ^ Z.max e 0 in
  let den := 2 ^ Z.max (- e) 0 in
  let k := fracLog10 num den in
  let n := divRound (num * 10 ^ Z.max (14 - k) 0) (den * 10 ^ Z.max (k - 14) 0) in
  if n =? 10 ^ 15 then (10 ^ 14, k + 1) else (n, k).
(** The last w decimal digits of n, as characters. *)
Fixpoint digitsN (w : nat) (n : Z) : str :=
  match w with O => [] | S w' => digitsN w' (n / 10) ++ [48 + n mod 10] end.
(** Without trailing zeros. *)
Fixpoint strip0 (s : str) : str :=
  match s with
  | [] => []
  | c :: r => match strip0 r with [] => if c =? 48 then [] else [c] | r' => c :: r' end
  end.
Definition zeros (n : nat) : str := repeat 48 n.
(** "%g": a point only before digits. *)
Definition withPoint (f : str) : str := match f with [] => [] | _ => 46 :: f end.
(** The exponent, at least two digits. *)
Definition printExp (x : Z) : str :=
  101 :: (if x <? 0 then 45 else 43) :: (if Z.abs x <? 10 then [48] else []) ++ printNat (Z.abs x).
Definition printG (n k : Z) : str :=
  let ds := digitsN 15 n in
  if (-4 <=? k) && (k <? 15) then
    if 0 <=? k then firstn (Z.to_nat k + 1) ds ++ withPoint (strip0 (skipn (Z.to_nat k + 1) ds))
    else 48 :: withPoint (zeros (Z.to_nat (- k) - 1) ++ strip0 ds)
  else firstn 1 ds ++ withPoint (strip0 (skipn 1 ds)) ++ printExp k.
Definition printReal (x : fl) : str :=
  match x with
  | B754_zero s => (if s then [45] else []) ++ [48]
  | B754_infinity s => (if s then [45] else []) ++ chars "inf"
  | B754_nan => chars "nan"
  | B754_finite s m e _ => (if s then [45] else []) ++ let '(n, k) := decimal15 (Zpos m) e in printG n k
  end.
