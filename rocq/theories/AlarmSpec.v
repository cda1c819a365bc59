(** Specification vocabulary for wall-clock alarms (C49-C51).  Clock values are integers counting
    nanoseconds since the epoch; a requested wake-up time is an IEEE double counting seconds. *)
From Coq Require Import ZArith Reals List.
From Flocq Require Import Core BinarySingleNaN.
From Verif Require Import FloatModel AlarmModel.
Import ListNotations.
Open Scope Z_scope.

(** A (seconds, subseconds) pair whose subseconds are below one second and agree in sign with the seconds. *)
Definition normal (unit : Z) (t : ts) : Prop := Z.abs (snd t) < unit /\ ((0 <= fst t /\ 0 <= snd t) \/ (fst t <= 0 /\ snd t <= 0)).
(** A wake-up time between 2^24 s (July 1970) and 2^53 s. *)
Definition good (d : fl) : Prop := is_finite d = true /\ (bpow radix2 24 <= B2R d < bpow radix2 53)%R.

(** The executive is not setting the timer while a callback is re-arming it. *)
Definition isSet (f : frame) : bool := match f with SetT0 _ | SetP | SetT1 _ | SetT2 _ => true | _ => false end.
Definition raceFree (a : alarm) : Prop := a_exec a = [] \/ forall st f, In st (a_cbs a) -> In f st -> isSet f = false.
Definition raceFreeAlong (h : list alabel) (a : alarm) : Prop := forall p q b, h = p ++ q -> aruns p a = Some b -> raceFree b.
Definition isAsk (l : alabel) : bool := match l with LAsk _ => true | _ => false end.
Definition isTick (l : alabel) : bool := match l with LTick _ => true | _ => false end.
(** Nothing is left to run: the request has returned, no callback is running, no armed timer is due. *)
Definition quiet (a : alarm) : Prop :=
  a_exec a = [] /\ (forall st, In st (a_cbs a) -> st = []) /\ (forall z, a_timer a = Some z -> a_clk a < z).
