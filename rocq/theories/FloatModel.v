(** Model of the Real arithmetic operators, src/expr/ArithmeticOperators.cc, on IEEE binary64
    values: Flocq's [binary_float 53 1024] (one NaN) with rounding to nearest, ties to even, which
    is what the C++ [double] operators +, -, *, / and sqrt perform.

    Simplifications: operands are given as [option fl], None when Expression::getValue returns
    false (Integer operands read as Real are exact, C22); argument counts are those the plan
    reader accepts ([realArgCountOk]), other counts are an error ([RError]). *)
From Coq Require Import ZArith List.
From Flocq Require Import Core BinarySingleNaN.
From Verif Require Import ValueModel OpModel.
Open Scope Z_scope.

Definition fl : Type := binary_float 53 1024.
Global Instance prec53 : Prec_gt_0 53 := eq_refl.
Global Instance emax1024 : Prec_lt_emax 53 1024 := eq_refl.
Definition fadd : fl -> fl -> fl := Bplus mode_NE.
Definition fsub : fl -> fl -> fl := Bminus mode_NE.
Definition fmul : fl -> fl -> fl := Bmult mode_NE.
Definition fdiv : fl -> fl -> fl := Bdiv mode_NE.
Definition fsqrt : fl -> fl := Bsqrt mode_NE.
Definition fneg : fl -> fl := Bopp.
Definition flt (a b : fl) : bool := Bltb a b.
Definition fzero : fl := B754_zero false.
(** temp1 == 0, ArithmeticOperators.cc:225, 265: both zeros. *)
Definition fis0 (a : fl) : bool := match a with B754_zero _ => true | _ => false end.

(** The C library's fmod: exact remainder of the division truncated towards zero, with the sign
    of the dividend. *)
Definition szm (s : bool) (m : positive) : Z := if s then Zneg m else Zpos m.
Definition fmod (x y : fl) : fl :=
  match x, y with
  | B754_nan, _ | _, B754_nan => B754_nan
  | B754_infinity _, _ => B754_nan
  | _, B754_zero _ => B754_nan
  | _, B754_infinity _ => x
  | B754_zero _, _ => x
  | B754_finite sx mx ex _, B754_finite _ my ey _ =>
      let e := Z.min ex ey in
      binary_normalize 53 1024 _ _ mode_NE (Z.rem (szm sx mx * 2 ^ (ex - e)) (Zpos my * 2 ^ (ey - e))) e sx
  end.

Inductive realOp : Type := FAdd | FSub | FMul | FDiv | FMod | FMin | FMax | FAbs | FSqrt.
(** The operation on two known operands: :68, :124, :182, :224-227, :264-267, :299, :349. *)
Definition realMach (op : realOp) (x y : fl) : opres fl :=
  match op with
  | FAdd => RKnown (fadd x y)
  | FSub => RKnown (fsub x y)
  | FMul => RKnown (fmul x y)
  | FDiv => if fis0 y then RUnknown else RKnown (fdiv x y)
  | FMod => if fis0 y then RUnknown else RKnown (fmod x y)
  | FMin => RKnown (if flt x y then x else y)
  | FMax => RKnown (if flt y x then x else y)
  | FAbs | FSqrt => RError
  end.
(** The loop bodies: :82, :147, :197, :314-315, :364-365. *)
Definition realStep (op : realOp) (acc x : fl) : opres fl :=
  match op with
  | FMin => RKnown (if flt x acc then x else acc)
  | FMax => RKnown (if flt acc x then x else acc)
  | _ => realMach op acc x
  end.
Fixpoint realLoop (f : fl -> fl -> opres fl) (acc : fl) (args : list (option fl)) : opres fl :=
  match args with
  | [] => RKnown acc
  | None :: _ => RUnknown
  | Some x :: r => rbind (f acc x) (fun acc' => realLoop f acc' r)
  end.
(** checkArgCount: :50, :99, :164, :214, :242, :282, :332, :382, :415. *)
Definition realArgCountOk (op : realOp) (n : nat) : bool :=
  match op with
  | FDiv | FMod => (n =? 2)%nat
  | FAbs | FSqrt => (n =? 1)%nat
  | _ => negb (n =? 0)%nat
  end.
Definition realApply (op : realOp) (args : list (option fl)) : opres fl :=
  match op, args with
  | FSub, [a] => match a with None => RUnknown | Some x => RKnown (fneg x) end                            (* :106-116 *)
  | FAbs, [a] => match a with None => RUnknown | Some x => RKnown (if flt x fzero then fneg x else x) end (* :394-403 *)
  | FSqrt, [a] => match a with None => RUnknown | Some x => if flt x fzero then RUnknown else RKnown (fsqrt x) end (* :424-438 *)
  | (FAdd | FMul | FMin | FMax), [a] => ofOpt a                                                            (* :56-59 etc. *)
  | (FAdd | FSub | FMul | FDiv | FMod | FMin | FMax), [a; b] =>
      match a, b with Some x, Some y => realMach op x y | _, _ => RUnknown end
  | FAdd, _ => realLoop (realStep FAdd) fzero args                                                          (* :74-86 *)
  | (FSub | FMul | FMin | FMax), Some x :: r => realLoop (realStep op) x r
  | (FSub | FMul | FMin | FMax), None :: _ => RUnknown
  | _, _ => RError
  end.
