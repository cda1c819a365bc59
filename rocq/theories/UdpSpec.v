(** What a UDP message definition means, which arguments can be sent and what the receiver gets. *)
From Coq Require Import ZArith Reals List Bool.
From Flocq Require Import Core BinarySingleNaN.
From Verif Require Import ValueModel FloatModel TypeModel UdpModel.
Import ListNotations.
Open Scope Z_scope.

(** The attributes bytes and elements of a parameter are unsigned 32-bit numbers. *)
Definition attrOk (a : pattr) : Prop :=
  (forall n, at_bytes a = Some n -> 0 <= n < 2 ^ 32) /\ (forall n, at_elts a = Some n -> 0 <= n < 2 ^ 32).
(** The size in bytes of a message with these parameters. *)
Fixpoint totalSize (ps : list param) : Z :=
  match ps with [] => 0 | p :: r => p_len p * p_elts p + totalSize r end.
(** Reals a binary32 can represent after rounding: not larger than FLT_MAX = (2^24 - 1) * 2^104. *)
Definition floatRange (r : fl) : Prop :=
  is_finite r = true /\ (Rabs (B2R r) <= IZR (2 ^ 24 - 1) * bpow radix2 104)%R.
(** A value that can be sent as one element of the given type and byte count. *)
Inductive sendable1 : pty -> Z -> sval -> Prop :=
| S_bool len b : len = 1 \/ len = 2 \/ len = 4 -> sendable1 PBool len (SB b)
| S_int2 z : - 2 ^ 15 <= z < 2 ^ 15 -> sendable1 PInt 2 (SI z)
| S_int4 z : - 2 ^ 31 <= z < 2 ^ 31 -> sendable1 PInt 4 (SI z)
| S_float r : floatRange r \/ r = B754_nan -> sendable1 PFloat 4 (SR r)
| S_str len s : Z.of_nat (length s) <= len -> sendable1 PStr len (SS s).
Inductive sendable : param -> option tval -> Prop :=
| S_scalar p v : p_arr p = false -> sendable1 (p_ty p) (p_len p) v -> sendable p (Some (TVs v))
| S_array p l : p_arr p = true -> Z.of_nat (length l) = p_elts p ->
                Forall (fun kv => fst kv = true /\ sendable1 (p_ty p) (p_len p) (snd kv)) l ->
                sendable p (Some (TVa (eltCode (p_ty p)) l)).
(** Values a Plexil variable can hold: Integers are 32 bits wide, characters are bytes, the elements of an
    array all have its element type. *)
Inductive plexilVal : sval -> Prop :=
| PV_b b : plexilVal (SB b) | PV_i z : - 2 ^ 31 <= z < 2 ^ 31 -> plexilVal (SI z) | PV_r r : plexilVal (SR r)
| PV_s s : Forall (fun c => 0 <= c < 256) s -> plexilVal (SS s).
Inductive plexilArg : option tval -> Prop :=
| PA_none : plexilArg None
| PA_scalar v : plexilVal v -> plexilArg (Some (TVs v))
| PA_enum t n : plexilArg (Some (TVe t n))
| PA_array elt l : Forall (fun kv => plexilVal (snd kv) /\ (fst kv = true -> svalType (snd kv) = elt)) l -> plexilArg (Some (TVa elt l)).
(** What arrives: Integers and Booleans unchanged, a Real rounded to the nearest binary32, a String up to
    its first NUL. *)
Definition binary32Round (x : R) : R := round radix2 (FLT_exp (-149) 24) (Znearest (fun n => negb (Z.even n))) x.
Inductive arrives1 : sval -> sval -> Prop :=
| A_b b : arrives1 (SB b) (SB b)
| A_i z : arrives1 (SI z) (SI z)
| A_r r r' : is_finite r = true -> is_finite r' = true -> B2R r' = binary32Round (B2R r) -> Bsign r' = Bsign r -> arrives1 (SR r) (SR r')
| A_nan : arrives1 (SR B754_nan) (SR B754_nan)
| A_s s s' rest : (s = s' /\ rest = [] \/ s = s' ++ 0 :: rest) -> ~ In 0 s' -> arrives1 (SS s) (SS s').
Inductive arrives : tval -> tval -> Prop :=
| AR_scalar v w : arrives1 v w -> arrives (TVs v) (TVs w)
| AR_array elt l l' : Forall2 (fun kv kw => fst kw = true /\ arrives1 (snd kv) (snd kw)) l l' -> arrives (TVa elt l) (TVa elt l').
(** The value has the type the parameter declares. *)
Definition hasParamType (p : param) (v : tval) : Prop :=
  if p_arr p then exists l, v = TVa (eltCode (p_ty p)) l /\ Z.of_nat (length l) = p_elts p
                            /\ Forall (fun kv => fst kv = true /\ svalType (snd kv) = eltCode (p_ty p)) l
  else exists s, v = TVs s /\ svalType s = eltCode (p_ty p).
(** Values UDP messages carry without loss. *)
Definition exactly (v : sval) : Prop :=
  match v with
  | SR r => r = B754_nan \/ generic_format radix2 (FLT_exp (-149) 24) (B2R r)   (* a binary32 number *)
  | SS s => ~ In 0 s
  | _ => True
  end.
