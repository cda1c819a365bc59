(** How the text of a literal is to be read. *)
From Coq Require Import ZArith Reals List Bool String.
From Flocq Require Import Core BinarySingleNaN.
From Verif Require Import ValueModel FloatModel TypeModel UdpQueueModel LitModel.
Import ListNotations.
Open Scope Z_scope.

(** A character and the digit it stands for: 0-9, then letters of either case. *)
Definition digitChar (c d : Z) : Prop :=
  (0 <= d <= 9 /\ c = 48 + d) \/ (10 <= d <= 35 /\ (c = 97 + (d - 10) \/ c = 65 + (d - 10))).
Definition digitsIn (base : Z) : str -> list Z -> Prop := Forall2 (fun c d => digitChar c d /\ d < base).
Fixpoint positional (base : Z) (ds : list Z) : Z :=
  match ds with [] => 0 | d :: r => d * base ^ Z.of_nat (length r) + positional base r end.
Definition numeral (base : Z) (s : str) (n : Z) : Prop :=
  exists ds, digitsIn base s ds /\ ds <> [] /\ n = positional base ds.
Definition blank (s : str) : Prop := Forall (fun c => In c [9; 10; 11; 12; 13; 32]) s.
Inductive sign : str -> bool -> Prop := SgNone : sign [] false | SgPlus : sign [43] false | SgMinus : sign [45] true.
Definition withSign (neg : bool) (n : Z) : Z := if neg then - n else n.

(** Integers as in C: decimal, octal after 0, hexadecimal after 0x. *)
Inductive intBody : str -> Z -> Prop :=
| IB_dec s n : numeral 10 s n -> hd 0 s <> 48 -> intBody s n
| IB_oct s n : numeral 8 (48 :: s) n -> intBody (48 :: s) n
| IB_hex x s n : x = 120 \/ x = 88 -> numeral 16 s n -> intBody (48 :: x :: s) n.
Definition intText (s : str) (z : Z) : Prop :=
  exists ws sg neg body n, blank ws /\ sign sg neg /\ intBody body n /\ s = ws ++ sg ++ body /\ z = withSign neg n.
(** The same in decimal only: leading zeros mean nothing. *)
Definition decimalText (s : str) (neg : bool) (n : Z) : Prop :=
  exists ws sg body, blank ws /\ sign sg neg /\ numeral 10 body n /\ s = ws ++ sg ++ body.

(** Digits with at most one point: the digits as one number, and how many follow the point. *)
Definition mantissa (base : Z) (s : str) (m k : Z) : Prop :=
  exists a b da db, digitsIn base a da /\ digitsIn base b db /\ da ++ db <> []
    /\ (s = a /\ b = [] \/ s = a ++ 46 :: b) /\ m = positional base (da ++ db) /\ k = Z.of_nat (length b).
Definition exponent (marks : list Z) (s : str) (e : Z) : Prop :=
  (s = [] /\ e = 0)
  \/ exists c sg neg body n, In c marks /\ sign sg neg /\ numeral 10 body n /\ s = c :: sg ++ body /\ e = withSign neg n.
(** The text of a Real and the number written. *)
Inductive realBody : str -> R -> Prop :=
| RB_dec ma ex m k e : mantissa 10 ma m k -> exponent [101; 69] ex e -> realBody (ma ++ ex) (IZR m * powerRZ 10 (e - k))
| RB_hex x ma ex m k e : x = 120 \/ x = 88 -> mantissa 16 ma m k -> exponent [112; 80] ex e ->
    realBody (48 :: x :: ma ++ ex) (IZR m * powerRZ 2 (e - 4 * k)).
Definition realText (s : str) (neg : bool) (r : R) : Prop :=
  exists ws sg body, blank ws /\ sign sg neg /\ realBody body r /\ s = ws ++ sg ++ body.
(** The double nearest to a number. *)
Definition nearest (r : R) : R := round radix2 (FLT_exp (-1074) 53) ZnearestE r.
(** Equal up to the case of letters. *)
Definition lower (c : Z) : Z := if (65 <=? c) && (c <=? 90) then c + 32 else c.
Definition sameLetters (a b : str) : Prop := map lower a = map lower b.
(** "nan", perhaps with something in parentheses. *)
Definition nanText (s : str) : Prop :=
  exists ws sg neg w tail, blank ws /\ sign sg neg /\ sameLetters w (chars "nan") /\ s = ws ++ sg ++ w ++ tail
  /\ (tail = [] \/ exists p, tail = 40 :: p ++ [41] /\ Forall (fun c => (exists d, digitChar c d) \/ c = 95) p).
